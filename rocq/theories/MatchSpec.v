(** MatchSpec.v: what it means that a pattern of plain nodes occurs in a tree.
    Independent of the model of the matchers. *)
From Verif Require Import Base Spec.

Section Occur.
  Context {V A : Type}.
  Variable val : A -> V.

  (** [occurs p t m]: the root of the pattern accepts the root of [t], and its
      children are assigned, in order, to distinct children of that root in which
      they occur in turn; [m] is the tree of the nodes taken. *)
  Inductive occurs : rose (V -> bool) -> rose A -> rose A -> Prop :=
  | Occurs p ps x ts ms : p (val x) = true -> chosen ps ts ms -> occurs (Rose p ps) (Rose x ts) (Rose x ms)
  with chosen : list (rose (V -> bool)) -> list (rose A) -> list (rose A) -> Prop :=
  | Chosen_done ts : chosen [] ts []
  | Chosen_take p ps t ts m ms : occurs p t m -> chosen ps ts ms -> chosen (p :: ps) (t :: ts) (m :: ms)
  | Chosen_skip ps t ts ms : chosen ps ts ms -> chosen ps (t :: ts) ms.

  (** The same, with each child of the pattern assigned to the first of the
      remaining children in which it occurs at all. *)
  Inductive leftmost : rose (V -> bool) -> rose A -> rose A -> Prop :=
  | Leftmost p ps x ts ms : p (val x) = true -> firsts ps ts ms -> leftmost (Rose p ps) (Rose x ts) (Rose x ms)
  with firsts : list (rose (V -> bool)) -> list (rose A) -> list (rose A) -> Prop :=
  | Firsts_done ts : firsts [] ts []
  | Firsts_take p ps t ts m ms : leftmost p t m -> firsts ps ts ms -> firsts (p :: ps) (t :: ts) (m :: ms)
  | Firsts_skip p ps t ts ms : (forall m, ~ occurs p t m) -> firsts (p :: ps) ts ms -> firsts (p :: ps) (t :: ts) ms.
End Occur.

(** [m] consists of nodes of the binary tree [t], the root included, each in the
    slot (left or right) it has in [t]. *)
Inductive cut_of {A} : bin A -> bin A -> Prop :=
| CutLeaf t : cut_of BLeaf t
| CutNode x l r l' r' : cut_of l' l -> cut_of r' r -> cut_of (BNode x l' r') (BNode x l r).
