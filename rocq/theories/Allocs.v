(** Allocs.v: model of the allocator objects of the trees
      include/TreeDS/tree.hpp, tree_base.hpp (member [allocator], [useless_allocator])
      include/TreeDS/allocator_utility.hpp
    on top of the calls of History.v.

    An allocator that compares unequal to another (a pool, a memory resource) has an
    identity; 0 is the one a default-constructed allocator object refers to.  Each
    node was made by one allocator.  [deallocate(allocator, ptr)] (allocator_utility.hpp
    34-53) releases a node and everything below it through the allocator it is
    given; every call of History.v releases through one allocator, so that what it
    released is found by comparing the heap before and after: a call makes its new nodes
    before it releases any (tree.hpp 177-182, 207-210, 312-327, 363-367), so that no
    address is both released and used again within one call. *)
From Verif Require Import Base Spec StructNode BinaryNode NaryNode Nav Policy Tree User Rep EditSpec World Kinds TreeSpec History.

Definition aid := nat.
Record aworld (Nd : Type) : Type := AWorld {
  aw_world : world Nd;
  aw_alloc : tid -> aid;          (* tree_base.hpp 105 [allocator] *)
  aw_shown : tid -> aid;          (* tree_base.hpp 107 [useless_allocator] *)
  aw_maker : gmap addr aid        (* which allocator made each node *)
}.
Arguments AWorld {Nd} _ _ _ _.
Arguments aw_world {Nd} _.
Arguments aw_alloc {Nd} _ _.
Arguments aw_shown {Nd} _ _.
Arguments aw_maker {Nd} _.

Inductive acall (V : Type) : Type :=
| AWith (i : tid) (a : aid)       (* tree i(allocator); tree.hpp 74-76 *)
| ACopyPolicy (i j : tid)         (* tree i(j); with another policy: tree.hpp 96-108 *)
| ACall (c : call V).
Arguments AWith {V} _ _.
Arguments ACopyPolicy {V} _ _.
Arguments ACall {V} _.

Inductive aout (Nd : Type) : Type :=
| Good (x : aworld Nd)            (* the call returned, or threw an exception *)
| WrongAllocator                  (* a node was given to an allocator that did not make it *)
| Stuck.                          (* undefined behaviour of another kind *)
Arguments Good {Nd} _.
Arguments WrongAllocator {Nd}.
Arguments Stuck {Nd}.

Definition put (A : tid -> aid) (i : tid) (a : aid) : tid -> aid := fun k => if bool_decide (k = i) then a else A k.

Section Alloc.
  Context {V Nd : Type}.
  Variable F : nat.
  Variable im : node_impl V Nd.
  Variable al : allocator Nd.

  (** The call without its allocators. *)
  Definition aexec (w : world Nd) (c : acall V) : out (world Nd) unit :=
    match c with
    | AWith i _ => exec F im al w (CEmpty i)
    | ACopyPolicy i j => exec F im al w (CCopy i j)
    | ACall c => exec F im al w c
    end.
  (** The allocator the new nodes come from.  The constructors from a literal and from
      a tree (tree.hpp 84-108, 135-155) use [this->allocator] before the base class is
      constructed, which is undefined; here it is the default-constructed one it is
      about to become (without an allocator argument).  The assignments (tree.hpp
      167-224) and insertions (tree.hpp 451-748) use the tree's own. *)
  Definition makes (A : tid -> aid) (c : acall V) : aid :=
    match c with
    | AWith _ _ | ACopyPolicy _ _ => 0
    | ACall c =>
        match c with
        | CAssignCopy i _ | CAssignLiteral i _ | CAssignView i _ => A i
        | CInsertOver i _ _ | CInsertChild _ _ i _ _ => A i
        | _ => 0
        end
    end.
  (** The allocator the released nodes go to.  Move assignment (tree.hpp 188-199) takes
      the other tree's allocator first.  [add_child] throws before taking the node over
      (tree.hpp 354-362), so that it is released by its [unique_ptr], which for a moved
      tree has the other tree's allocator ([replace_node], tree.hpp 303). *)
  Definition releases (A : tid -> aid) (c : acall V) (threw : bool) : aid :=
    match c with
    | AWith _ _ | ACopyPolicy _ _ => 0
    | ACall c =>
        match c with
        | CAssignMove _ j => A j
        | CInsertChild _ _ i _ (SrcMove j) => if threw then A j else A i
        | CDestroy i | CClear i | CAssignCopy i _ | CAssignLiteral i _ | CAssignView i _
        | CInsertOver i _ _ | CInsertChild _ _ i _ _ | CErase i _ | CEraseRange i _ _ => A i
        | _ => 0
        end
    end.
  (** The allocators of the trees afterwards.  tree.hpp 58-60 and 71-72 (default), 74-76,
      84-94 and 135-155 (default), 96-124 (the other tree's), 188-199 (likewise);
      [swap] (tree.hpp 434-442) leaves them in place. *)
  Definition after (A : tid -> aid) (c : acall V) : tid -> aid :=
    match c with
    | AWith i a => put A i a
    | ACopyPolicy i j => put A i (A j)
    | ACall c =>
        match c with
        | CEmpty i | CLiteral i _ | CCopy i _ => put A i 0
        | CMove i j | CAssignMove i j => put A i (A j)
        | _ => A
        end
    end.
  (** [useless_allocator] (tree_base.hpp 107) is default-constructed by every constructor
      (tree_base.hpp 111-133) and not written again. *)
  Definition shown_after (S : tid -> aid) (c : acall V) : tid -> aid :=
    match c with
    | AWith i _ | ACopyPolicy i _ => put S i 0
    | ACall c =>
        match c with
        | CEmpty i | CLiteral i _ | CCopy i _ | CMove i _ => put S i 0
        | _ => S
        end
    end.
  (** tree_base.hpp 267-269 *)
  Definition get_allocator (x : aworld Nd) (i : tid) : aid := aw_shown x i.
  (** tree_base.hpp 272-274 *)
  Definition get_node_allocator (x : aworld Nd) (i : tid) : aid := aw_alloc x i.

  (** Nodes that were there before keep their maker. *)
  Definition remade (h h' : gmap addr Nd) (mk : gmap addr aid) (a : aid) : gmap addr aid :=
    map_imap (fun x _ => match h !! x with Some _ => mk !! x | None => Some a end) h'.
  Definition settle (x : aworld Nd) (c : acall V) (w' : world Nd) (threw : bool) : aout Nd :=
    if bool_decide (map_Forall (fun a m => w_heap w' !! a = None -> m = releases (aw_alloc x) c threw) (aw_maker x))
    then Good (AWorld w' (after (aw_alloc x) c) (shown_after (aw_shown x) c)
                 (remade (w_heap (aw_world x)) (w_heap w') (aw_maker x) (makes (aw_alloc x) c)))
    else WrongAllocator.
  Definition astep (x : aworld Nd) (c : acall V) : aout Nd :=
    match aexec (aw_world x) c with
    | Ret _ w' => settle x c w' false
    | Throw w' => settle x c w' true
    | Bad _ => Stuck
    end.
  Definition aempty : aworld Nd := AWorld empty_world (fun _ => 0) (fun _ => 0) ∅.

  (** *** Specification *)
  Variable K : kind_data V Nd.
  (** The nodes of each tree were made by the tree's allocator. *)
  Definition own_made (x : aworld Nd) (M : gmap tid (C K)) : Prop :=
    (forall i c a, M !! i = Some c -> a ∈ caddrs K c -> aw_maker x !! a = Some (aw_alloc x i)) /\
    (forall a, is_Some (aw_maker x !! a) -> is_Some (w_heap (aw_world x) !! a)).
  (** The calls the library is meant for. *)
  Definition avalid (w : world Nd) (M : gmap tid (C K)) (c : acall V) : Prop :=
    match c with
    | AWith i _ => valid F im K w M (CEmpty i)
    | ACopyPolicy i j => valid F im K w M (CCopy i j)
    | ACall c => valid F im K w M c
    end.
  (** The calls that do not mix allocators: a move assignment to a tree that has
      nodes, a swap, the insertion of a moved tree and the copy of a tree with another
      policy are between trees with the same allocator. *)
  Definition unmixed (A : tid -> aid) (M : gmap tid (C K)) (c : acall V) : Prop :=
    match c with
    | AWith _ _ => True
    | ACopyPolicy i j => M !! j = Some (cnil K) \/ A j = 0
    | ACall c =>
        match c with
        | CAssignMove i j => M !! i = Some (cnil K) \/ A i = A j
        | CSwap i j => (M !! i = Some (cnil K) /\ M !! j = Some (cnil K)) \/ A i = A j
        | CInsertOver i _ (SrcMove j) | CInsertChild _ _ i _ (SrcMove j) => M !! j = Some (cnil K) \/ A i = A j
        | _ => True
        end
    end.
  (** What is reached by valid calls that do not mix allocators. *)
  Inductive areach : aworld Nd -> Prop :=
  | areach_start : areach aempty
  | areach_call x M c x' : areach x -> consistent K (aw_world x) M -> avalid (aw_world x) M c -> unmixed (aw_alloc x) M c ->
      size (w_heap (aw_world x)) < F -> astep x c = Good x' -> areach x'.
  (** ... and by any calls. *)
  Inductive aany : aworld Nd -> Prop :=
  | aany_start : aany aempty
  | aany_call x c x' : aany x -> astep x c = Good x' -> aany x'.
End Alloc.
