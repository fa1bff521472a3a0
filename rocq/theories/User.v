(** User.v: the loops a user of the library writes with iterators.  They use
    only begin, end, [==], [++], [--], [*it] and policy conversion. *)
From Verif Require Import Base Spec StructNode BinaryNode NaryNode Nav Policy Tree.

Section User.
  Context {V Nd : Type}.
  Variable F : nat.
  Variable im : node_impl V Nd.
  Variable h : gmap addr Nd.

  (** [*it] (tree_iterator.hpp 198-204), together with the identity of the
      element. *)
  Definition visit (p : ptr) : res (addr * V) :=
    match p with
    | None => Err NullDeref
    | Some a => v ← ni_value im h p; Ok (a, v)
    end.
  Definition incr : iter -> res iter := it_incr F (tree_nav im h).
  Definition decr : iter -> res iter := it_decr F (tree_nav im h).
  (** [for (it = begin(k); it != end(k); ++it) visit] on a tree or view whose
      root node is [root]. *)
  Definition iterate (k : kind) (root : ptr) : res (list (addr * V)) :=
    b ← tree_begin F (tree_nav im h) k root;
    e ← tree_end F (tree_nav im h) k root;
    walk visit incr F b e.
  (** [for (it = rbegin(k); it != rend(k); ++it) visit] (tree_base.hpp 167-185:
      reverse iterators made from end and begin). *)
  Definition iterate_back (k : kind) (root : ptr) : res (list (addr * V)) :=
    b ← tree_begin F (tree_nav im h) k root;
    e ← tree_end F (tree_nav im h) k root;
    rwalk visit decr F e b.
  (** The same forward loop from a given iterator. *)
  Definition iterate_from (it : iter) (k : kind) (root : ptr) : res (list (addr * V)) :=
    e ← tree_end F (tree_nav im h) k root;
    walk visit incr F it e.
  (** A filter iterator over begin and one over end (tree_iterator_filter.hpp);
      [p] is the predicate on values. *)
  Definition vpred (p : V -> bool) (q : ptr) : res bool := v ← ni_value im h q; Ok (p v).
  Definition iterate_filtered (p : V -> bool) (k : kind) (root : ptr) : res (list (addr * V)) :=
    b ← tree_begin F (tree_nav im h) k root;
    e ← tree_end F (tree_nav im h) k root;
    b' ← filter_make F (tree_nav im h) (vpred p) b;
    e' ← filter_make F (tree_nav im h) (vpred p) e;
    walk visit (filter_incr F (tree_nav im h) (vpred p)) F b' e'.
  (** A sequence of [++] ([true]) and [--] ([false]). *)
  Fixpoint run (ms : list bool) (it : iter) : res iter :=
    match ms with
    | [] => Ok it
    | true :: ms => it' ← incr it; run ms it'
    | false :: ms => it' ← decr it; run ms it'
    end.
  (** An iterator with policy [k] standing at node [p] of the tree with root
      [root] (tree_base.hpp 151-165 / policy conversion). *)
  Definition iterator_at (k : kind) (p root : ptr) : res iter :=
    get_instance F (tree_nav im h) k p root.
End User.

(** Two iterators that agree on everything their operations read ([initial] is
    only used by the fixed policy). *)
Definition same_iter (a b : iter) : Prop :=
  it_kind a = it_kind b /\ it_cur a = it_cur b /\ it_root a = it_root b /\ it_open a = it_open b.

(** Where a sequence of moves leads on a sequence of [n] elements: positions are
    0 … n-1, and n is the end; [++] at the end goes back to the first element;
    [--] at the first element is not defined. *)
Fixpoint position (n : nat) (ms : list bool) (i : nat) : option nat :=
  match ms with
  | [] => Some i
  | true :: ms => if i =? n then position n ms 0 else position n ms (S i)
  | false :: ms => match i with 0 => None | S i => position n ms i end
  end.

(** The element at a position ([None] at the end). *)
Definition nth_addr {V} (l : list (addr * V)) (i : nat) : ptr := nth_error (map fst l) i.

(** ** Which sequence each policy is meant to produce. *)
Definition rose_order {A} (k : kind) (t : rose A) : list A :=
  match k with
  | PreOrder => preorder t
  | PostOrder => postorder t
  | BreadthFirst => levelorder t
  | Leaves => leaves t
  | Siblings => map label (children t)   (* begin(siblings()) is at the first child of the root *)
  | InOrder | Fixed => []
  end.
Definition bin_order {A} (k : kind) (t : bin A) : list A :=
  match k with
  | InOrder => inorder t
  | _ => flat_map (rose_order k) (bin_forest t)
  end.
(** The policies that move both ways over the whole tree, by node type. *)
Definition two_way_nary (k : kind) : Prop := k = PreOrder \/ k = PostOrder \/ k = BreadthFirst.
Definition two_way_bin (k : kind) : Prop := k = InOrder \/ two_way_nary k.
