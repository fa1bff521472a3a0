(** LeafLaw.v: specification for leaves iterators moved both ways (C15).
    Independent of the model of the code. *)
From Verif Require Import Base Spec.

(** [y] and [x] are consecutive leaves of [t], under two consecutive children of
    one node; [l] are the leaves of that node's subtree from [x] on. *)
Inductive family {A} (t : rose A) (y x : A) (l : list A) : Prop :=
| Family q ls s d rs : rsubtree (Rose q (ls ++ s :: d :: rs)) t ->
    last (leaves s) = Some y -> head (leaves d) = Some x -> l = flat_map leaves (d :: rs) -> family t y x l.

(** A leaves iterator as the library moves it: the leaf it is at ([None]: the end)
    and the leaves that [++] will go to, one after the other.  A right iterator
    has there the leaves after the one it is at.  [--] at the first leaf is not
    defined. *)
Definition leaf_state (A : Type) : Type := (option A * list A)%type.
Inductive leaf_move {A} (t : rose A) : bool -> leaf_state A -> leaf_state A -> Prop :=
| move_next x y l : leaf_move t true (Some x, y :: l) (Some y, l)
| move_end x : leaf_move t true (Some x, []) (None, [])
| move_first x l' l : leaves t = x :: l' -> leaf_move t true (None, l) (Some x, l' ++ l)
| move_last l' x l : leaves t = l' ++ [x] -> leaf_move t false (None, l) (Some x, [])
| move_back x y f l : family t y x f -> leaf_move t false (Some x, l) (Some y, f ++ l).
Inductive leaf_moves {A} (t : rose A) : list bool -> leaf_state A -> leaf_state A -> Prop :=
| moves_nil s : leaf_moves t [] s s
| moves_cons m ms s s1 s2 : leaf_move t m s s1 -> leaf_moves t ms s1 s2 -> leaf_moves t (m :: ms) s s2.
(** begin *)
Definition leaf_begin {A} (t : rose A) : leaf_state A := (head (leaves t), tail (leaves t)).

(** [fine t ms i j]: [ms] leads from position [i] to [j] (of the leaves, the last
    position being the end), and each [--] starts at the end or at a leaf that is
    alone in its [family]. *)
Inductive fine {A} (t : rose A) : list bool -> nat -> nat -> Prop :=
| fine_nil i : i <= length (leaves t) -> fine t [] i i
| fine_next ms i j : i < length (leaves t) -> fine t ms (S i) j -> fine t (true :: ms) i j
| fine_first ms j : fine t ms 0 j -> fine t (true :: ms) (length (leaves t)) j
| fine_last ms j : fine t ms (pred (length (leaves t))) j -> fine t (false :: ms) (length (leaves t)) j
| fine_back ms i j y x : nth_error (leaves t) i = Some y -> nth_error (leaves t) (S i) = Some x -> family t y x [x] ->
    fine t ms i j -> fine t (false :: ms) (S i) j.
