(** RootIndex.v: model of the members of the node base class that the tree classes do
    not override
      include/TreeDS/node/node.hpp 89-98   [get_root] (debug builds)
      include/TreeDS/node/node.hpp 100-112 [get_breadth_first_node_index] (debug builds)
      include/TreeDS/node/node.hpp 116-127 [is_root], [has_children], [is_unique_child].
    The index is a natural number instead of a [std::size_t]: a tree of 2^64 nodes does
    not fit in memory. *)
From Verif Require Import Base BinaryNode NaryNode Nav Policy Tree.

Section Node.
  Context {V Nd : Type}.
  Variable F : nat.
  Variable im : node_impl V Nd.
  Variable h : gmap addr Nd.

  (** 93-96: the loop; [fuel] bounds its rounds. *)
  Fixpoint climb (fuel : nat) (root current : ptr) : res ptr :=
    match fuel with
    | 0 => Err OutOfFuel
    | S n =>
        match current with
        | None => Ok root
        | Some _ => q ← op_parent (ni_ops im h) current; climb n current q
        end
    end.
  (** 90-98 *)
  Definition get_root (p : ptr) : res ptr :=
    q ← op_parent (ni_ops im h) p; climb F p q.
  (** 106-109: the loop *)
  Fixpoint count_to (fuel : nat) (p : ptr) (it : iter) (index : nat) : res nat :=
    match fuel with
    | 0 => Err OutOfFuel
    | S n =>
        if is_null (it_cur it) || ptr_eqb (it_cur it) p then Ok index
        else it' ← it_incr F (tree_nav im h) it; count_to n p it' (S index)
    end.
  (** 100-112 *)
  Definition breadth_first_index (p : ptr) : res nat :=
    r ← get_root p;
    it ← get_instance F (tree_nav im h) BreadthFirst r r;
    count_to F p it 0.
  (** 116-118 *)
  Definition node_is_root (p : ptr) : res bool := q ← op_parent (ni_ops im h) p; Ok (is_null q).
  (** 120-122 *)
  Definition node_has_children (p : ptr) : res bool := q ← op_first (ni_ops im h) p; Ok (negb (is_null q)).
  (** 124-127; [is_first_child] and [is_last_child] are the node type's. *)
  Definition node_is_unique_child (is_first is_last : ptr -> res bool) (p : ptr) : res bool :=
    a ← is_first p; if a : bool then is_last p else Ok false.
End Node.
