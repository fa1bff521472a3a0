(** PredUser.v: iteration with a predicate navigator
      include/TreeDS/node/navigator/node_pred_navigator.hpp
    A policy object whose navigator is a [node_pred_navigator] rooted at the
    tree's root (tree_iterator.hpp 108-119 [other_navigator]); the loop is
    [for (it = end; ++it; ) visit it] from the end position, the same
    increments as User.v's [iterate]. *)
From Verif Require Import Base Spec StructNode BinaryNode NaryNode Nav Policy Tree User.

Section PredUser.
  Context {V Nd : Type}.
  Variable F : nat.
  Variable im : node_impl V Nd.
  Variable h : gmap addr Nd.
  Variable p : addr * V -> bool.     (* the predicate, given the node *)

  Definition node_pred (q : ptr) : res bool := x ← visit im h q; Ok (p x).
  Definition pred_nav (root : ptr) : navigator := node_pred_navigator (ni_ops im h) root node_pred F.
  Definition iterate_pred (k : kind) (root : ptr) : res (list (addr * V)) :=
    b ← tree_begin F pred_nav k root;
    e ← tree_end F pred_nav k root;
    walk (visit im h) (it_incr F pred_nav) F b e.
End PredUser.
