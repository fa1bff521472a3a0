(** Values.v: model of the value matchers
      include/TreeDS/matcher/value/true_matcher.hpp, product_match.hpp,
    and of their use: matcher/node/matcher.hpp 127-136 [match_value] and the
    functions [one], [opt] (one_matcher.hpp 91-100, opt_matcher.hpp 115-123).
    alternative_match.hpp is not used by [match_value]: a matcher holding one
    does not compile (an [alternative_match] has no [operator==]). *)
From Verif Require Import Base Spec Matcher.

(** What is given to [one] or [opt]: nothing ([true_matcher]), a value, or
    [having(artifact, getter)] (product_match.hpp 6-24).  The value and the values
    of the tree have the same type here; [operator==] is equality. *)
Inductive value_matcher (V : Type) : Type :=
| Anything
| Value (v : V)
| Having (A : Type) (EA : EqDecision A) (artifact : A) (getter : V -> A).
Arguments Anything {V}.
Arguments Value {V} _.
Arguments Having {V} _ _ _ _.

(** matcher.hpp 127-136 [match_value]; product_match.hpp 17-20 *)
Definition match_value {V} `{EqDecision V} (m : value_matcher V) (value : V) : bool :=
  match m with
  | Anything => true
  | Having A EA artifact getter => bool_decide (artifact = getter value)
  | Value v => bool_decide (v = value)
  end.

(** The patterns a user writes, and the same as [upat]. *)
Inductive vpat (V : Type) : Type :=
| VOne (m : value_matcher V) (cs : list (vpat V))
| VOpt (q : quantifier) (m : value_matcher V) (cs : list (vpat V))
| VCpt (p : vpat V).
Arguments VOne {V} _ _.
Arguments VOpt {V} _ _ _.
Arguments VCpt {V} _.
Fixpoint written {V} `{EqDecision V} (u : vpat V) : upat V :=
  match u with
  | VOne m cs => UOne (match_value m) (map written cs)
  | VOpt q m cs => UOpt q (match_value m) (map written cs)
  | VCpt p => UCpt (written p)
  end.

(** ** Specification: which trees a pattern fits *)
Definition accepts {V} (m : value_matcher V) (v : V) : Prop :=
  match m with
  | Anything => True
  | Value x => v = x
  | Having A _ artifact getter => getter v = artifact
  end.

Section Fits.
  Context {V A : Type}.
  Variable val : A -> V.

  (** The root of the tree is accepted and the children of the pattern fit
      distinct children of it, in order.  [opt] with one child may be absent. *)
  Inductive fits_tree : vpat V -> rose A -> Prop :=
  | F_one m cs x ts : accepts m (val x) -> fits_all cs ts -> fits_tree (VOne m cs) (Rose x ts)
  | F_opt q m cs x ts : accepts m (val x) -> fits_all cs ts -> fits_tree (VOpt q m cs) (Rose x ts)
  | F_absent q m c x ts : (accepts m (val x) -> q <> QPossessive) -> fits_tree c (Rose x ts) -> fits_tree (VOpt q m [c]) (Rose x ts)
  | F_cpt u t : fits_tree u t -> fits_tree (VCpt u) t
  with fits_all : list (vpat V) -> list (rose A) -> Prop :=
  | F_done ts : fits_all [] ts
  | F_take u us t ts : fits_tree u t -> fits_all us ts -> fits_all (u :: us) (t :: ts)
  | F_skip us t ts : fits_all us ts -> fits_all us (t :: ts).
End Fits.

(** Every [opt] of the pattern is given at least one child. *)
Fixpoint vsolid {V} (u : vpat V) : Prop :=
  match u with
  | VOne _ cs => (fix all l := match l with [] => True | c :: l => vsolid c /\ all l end) cs
  | VOpt _ _ cs => cs <> [] /\ (fix all l := match l with [] => True | c :: l => vsolid c /\ all l end) cs
  | VCpt p => vsolid p
  end.
