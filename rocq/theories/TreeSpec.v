(** TreeSpec.v: vocabulary of the theorems about tree objects (tree.hpp,
    tree_base.hpp).  The statements are made once for both kinds of trees:
    [tree_kind] enumerates them, and the record [K] (Kinds.v) gives for each the
    mathematical notions (replace the subtree at a node, add a child, ...) the
    operations are compared with. *)
From Verif Require Import Base Spec StructNode BinaryNode NaryNode Nav Policy Tree User Rep EditSpec World Kinds.

(** The two kinds of trees: binary_tree<V> and nary_tree<V>. *)
Inductive tree_kind (V : Type) (EV : EqDecision V) : forall Nd : Type, node_impl V Nd -> kind_data V Nd -> Prop :=
| binary_tree_kind : tree_kind V EV (bnode V) (binary_impl V) (binary_kind V)
| nary_tree_kind : tree_kind V EV (nnode V) (nary_impl V) (nary_kind V).

Section Spec.
  Context {V Nd : Type}.
  Variable K : kind_data V Nd.
  Notation C := (C K).
  Notation croot := (croot K).
  Notation caddrs := (caddrs K).

  (** [M] gives the contents of each live tree object of world [w], and [w] is
      consistent: see [world_ok] (World.v). *)
  Definition consistent (w : world Nd) (M : gmap tid C) : Prop := world_ok croot caddrs (crep K) w M.

  (** A stored size or arity is either right or 0, meaning unknown. *)
  Definition cached (t : tree_rec) (c : C) : Prop :=
    (t_size t = 0%N \/ t_size t = N.of_nat (length (caddrs c))) /\ (t_arity t = 0%N \/ t_arity t = N.of_nat (carity K c)).
  (** ... in every tree object. *)
  Definition caches (w : world Nd) (M : gmap tid C) : Prop :=
    forall k t c, w_trees w !! k = Some t -> M !! k = Some c -> cached t c.

  (** What an argument of an insertion stands for (values and shape), and the
      contents of the trees once it was taken. *)
  Inductive gives (w : world Nd) (M : gmap tid C) (i : tid) : source V -> X K -> gmap tid C -> Prop :=
  | GValue v : gives w M i (SrcValue v) (lit_vals K (LNode v [])) M
  | GStruct v cs : lit_ok K (LNode v cs) -> gives w M i (SrcStruct (eval_lit (LNode v cs))) (lit_vals K (LNode v cs)) M
  | GCopy j c : M !! j = Some c -> gives w M i (SrcCopy j) (cvals K c) M
  | GView t c : csrc K (w_heap w) c -> t_root t = croot c -> gives w M i (SrcView t) (cvals K c) M
  | GMove j c : j <> i -> M !! j = Some c -> gives w M i (SrcMove j) (cvals K c) (<[j := cnil K]> M).
  (** The nodes that are put in the tree: those of the moved tree, or new ones. *)
  Definition placed (w : world Nd) (M : gmap tid C) (src : source V) (u : C) : Prop :=
    match src with
    | SrcMove j => M !! j = Some u
    | _ => forall x, x ∈ caddrs u -> w_heap w !! x = None
    end.
  (** If the argument is a view, its stored size and arity are right or unknown. *)
  Definition src_cached (w : world Nd) (src : source V) : Prop :=
    match src with
    | SrcView t => forall c, csrc K (w_heap w) c -> t_root t = croot c -> cached t c
    | _ => True
    end.

  (** Adding [u] as a child; nothing is added if it is empty. *)
  Definition cput (first : bool) (a : addr) (u c : C) : C :=
    match croot u with None => c | Some _ => cadd K first a u c end.
  (** Removing the subtrees at the nodes [ds], one after the other. *)
  Definition prune (ds : list addr) (c : C) : C := foldl (fun c x => csubst K x (cnil K) c) c ds.
  (** Each of them is removable when its turn comes. *)
  Fixpoint erasable (ds : list addr) (c : C) : Prop :=
    match ds with
    | [] => True
    | x :: ds => (croot c <> Some x -> crepl K x (cnil K) c) /\ erasable ds (csubst K x (cnil K) c)
    end.
  (** The cases in which insert_over leaves a right (or unknown) size: the size
      was known, or the replaced node has children or is the root, or one node
      is inserted. *)
  Definition over_counted (t : tree_rec) (c : C) (a : addr) (u : C) : Prop :=
    t_size t <> 0%N \/ cdeg K a c <> 0 \/ croot c = Some a \/ length (caddrs u) = 1.

  (** size() and arity() of every live tree return the number of nodes and the
      largest number of children. *)
  Definition reports (F : nat) (im : node_impl V Nd) (w : world Nd) (M : gmap tid C) : Prop :=
    forall i c, M !! i = Some c ->
      (exists w', tree_size F im w i = Ok (N.of_nat (length (caddrs c)), w')) /\
      (exists w', tree_arity F im w i = Ok (N.of_nat (carity K c), w')).
End Spec.
(** The arguments whose size and arity insert_child_* passes on correctly: a
    value, or a literal except with insert_child_front. *)
Definition child_exact {V} (first emplace : bool) (src : source V) : Prop :=
  match src with
  | SrcValue _ => True
  | SrcStruct _ => first && negb emplace = false
  | _ => False
  end.
(** The loops need at most one step per node: enough fuel for an operation that
    adds at most as many nodes as there are, or as the literal has. *)
Definition needs {V Nd} (w : world Nd) (src : source V) : nat :=
  match src with
  | SrcValue _ => 1
  | SrcStruct s => N.to_nat (subtree_size s)
  | _ => size (w_heap w)
  end.
Definition fits {V Nd} (F : nat) (w : world Nd) (src : source V) : Prop := size (w_heap w) + needs w src < F.
