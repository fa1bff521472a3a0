(** EditSpec.v: what the editing operations are meant to do, on trees labelled
    with the address and the value of each node.  Nothing here mentions heaps or
    links. *)
From Verif Require Import Base Spec Rep.

Section Bin.
  Context {V : Type}.
  Notation btree := (bin (addr * V)).

  (** The subtree at address [a] (empty if there is none). *)
  Fixpoint bsub (a : addr) (t : btree) : btree :=
    match t with
    | BLeaf => BLeaf
    | BNode (x, v) l r =>
        if decide (x = a) then t else match bsub a l with BLeaf => bsub a r | s => s end
    end.
  (** The tree with the subtree at [a] replaced by [u]. *)
  Fixpoint bsubst (a : addr) (u t : btree) : btree :=
    match t with
    | BLeaf => BLeaf
    | BNode (x, v) l r => if decide (x = a) then u else BNode (x, v) (bsubst a u l) (bsubst a u r)
    end.
  (** The child slots after adding [u] to a node with children [l] and [r], one
      of which is absent: a first child takes the left slot, and the existing
      child, if any, becomes (or stays) the right one; a last child takes the
      right slot, and the existing child becomes (or stays) the left one. *)
  Definition bslots (first : bool) (u l r : btree) : btree * btree :=
    if first then (u, match r with BLeaf => l | _ => r end)
    else (match l with BLeaf => r | _ => l end, u).
  (** The tree with [u] added as first or last child of the node at [a]. *)
  Fixpoint badd (first : bool) (a : addr) (u t : btree) : btree :=
    match t with
    | BLeaf => BLeaf
    | BNode (x, v) l r =>
        if decide (x = a) then let '(l', r') := bslots first u l r in BNode (x, v) l' r'
        else BNode (x, v) (badd first a u l) (badd first a u r)
    end.
  (** The tree without the subtrees at the addresses [ds]. *)
  Fixpoint bprune (ds : list addr) (t : btree) : btree :=
    match t with
    | BLeaf => BLeaf
    | BNode (x, v) l r => if decide (x ∈ ds) then BLeaf else BNode (x, v) (bprune ds l) (bprune ds r)
    end.
  (** The node at [a] has two children. *)
  Definition bfull (a : addr) (t : btree) : Prop :=
    match bsub a t with BNode _ (BNode _ _ _) (BNode _ _ _) => True | _ => False end.
End Bin.

Section Nary.
  Context {V : Type}.
  Notation tree := (rose (addr * V)).

  (** A possibly empty n-ary tree. *)
  Definition nroot (t : option tree) : ptr := raddr <$> t.
  Definition naddrs (t : option tree) : list addr := opt_list raddrs t.
  Definition nsize (t : option tree) : nat := match t with None => 0 | Some t => rsize t end.
  Definition nvals (t : option tree) : option (rose V) := rose_map snd <$> t.
  (** [t] is stored in the heap as a whole tree. *)
  Definition onary_at (h : gmap addr (NaryNode.nnode V)) (t : option tree) : Prop :=
    match t with None => True | Some t => nary_at h t end.

  (** The subtree at address [a]; the tree with it replaced by [u], or removed if
      [u] is [None]; the tree with [u] added as first or last child. *)
  Fixpoint rsub (a : addr) (t : tree) : option tree :=
    match t with
    | Rose (x, v) cs =>
        if decide (x = a) then Some t
        else (fix go l := match l with [] => None | d :: l => match rsub a d with Some s => Some s | None => go l end end) cs
    end.
  Fixpoint rsubst (a : addr) (u : option tree) (t : tree) : option tree :=
    match t with
    | Rose (x, v) cs =>
        if decide (x = a) then u else Some (Rose (x, v) (flat_map (fun d => opt_list (fun y => [y]) (rsubst a u d)) cs))
    end.
  Fixpoint radd (first : bool) (a : addr) (u t : tree) : tree :=
    match t with
    | Rose (x, v) cs =>
        if decide (x = a) then Rose (x, v) (if first then u :: cs else cs ++ [u])
        else Rose (x, v) (map (radd first a u) cs)
    end.
  (** The same on possibly empty trees. *)
  Definition nsub (a : addr) (t : option tree) : option tree := t ≫= rsub a.
  Definition nsubst (a : addr) (u t : option tree) : option tree := t ≫= rsubst a u.
  Definition nadd (first : bool) (a : addr) (u t : option tree) : option tree :=
    match u, t with Some u, Some t => Some (radd first a u t) | _, _ => t end.
  (** The tree without the subtrees at the addresses [ds]. *)
  Fixpoint rprune (ds : list addr) (t : tree) : option tree :=
    match t with
    | Rose (x, v) cs =>
        if decide (x ∈ ds) then None else Some (Rose (x, v) (flat_map (fun d => opt_list (fun y => [y]) (rprune ds d)) cs))
    end.
  Definition nprune (ds : list addr) (t : option tree) : option tree := t ≫= rprune ds.
  (** The node at [a] has a previous and a next sibling. *)
  Definition middle_child (a : addr) (t : tree) : Prop :=
    exists q ls s rs, rsubtree (Rose q (ls ++ s :: rs)) t /\ raddr s = a /\ ls <> [] /\ rs <> [].
End Nary.
