(** OptSpec.v: what a pattern with optional nodes matches.  It refers to patterns
    as the user writes them ([upat]), not to the search.

    [opt(v)(c)] stands for an optional level: either the node is accepted by [v]
    and [c] is found among its children, or the level is absent and [c] matches
    the node itself.  With several children [opt] has to be present.  With the
    possessive quantifier the level may only be absent if the node is not accepted
    by [v].  [cpt] is transparent. *)
From Verif Require Import Base Spec Matcher.

Section Opt.
  Context {V A : Type}.
  Variable val : A -> V.

  (** [m]: the nodes of [t] taken, the root included. *)
  Inductive matches : upat V -> rose A -> rose A -> Prop :=
  | M_one p cs x ts ms : p (val x) = true -> matches_all cs ts ms -> matches (UOne p cs) (Rose x ts) (Rose x ms)
  | M_opt q p cs x ts ms : p (val x) = true -> matches_all cs ts ms -> matches (UOpt q p cs) (Rose x ts) (Rose x ms)
  | M_absent q p c x ts m : (p (val x) = true -> q <> QPossessive) -> matches c (Rose x ts) m ->
      matches (UOpt q p [c]) (Rose x ts) m
  | M_cpt u t m : matches u t m -> matches (UCpt u) t m
  with matches_all : list (upat V) -> list (rose A) -> list (rose A) -> Prop :=
  | All_done ts : matches_all [] ts []
  | All_take u us t ts m ms : matches u t m -> matches_all us ts ms -> matches_all (u :: us) (t :: ts) (m :: ms)
  | All_skip us t ts ms : matches_all us ts ms -> matches_all us (t :: ts) ms.

  (** The match to be reported: every child of the pattern takes the first of the
      remaining children it matches at all, and a level is present if it can be.
      [l]: what the captures stand for, in the order in which they are written. *)
  Inductive best : upat V -> rose A -> rose A -> list (rose A) -> Prop :=
  | B_one p cs x ts ms l : p (val x) = true -> bests cs ts ms l -> best (UOne p cs) (Rose x ts) (Rose x ms) l
  | B_opt q p cs x ts ms l : p (val x) = true -> bests cs ts ms l -> best (UOpt q p cs) (Rose x ts) (Rose x ms) l
  | B_absent q p c x ts m l : (p (val x) = true -> q <> QPossessive /\ forall ms, ~ matches_all [c] ts ms) ->
      best c (Rose x ts) m l -> best (UOpt q p [c]) (Rose x ts) m l
  | B_cpt u t m l : best u t m l -> best (UCpt u) t m (m :: l)
  with bests : list (upat V) -> list (rose A) -> list (rose A) -> list (rose A) -> Prop :=
  | Bs_done ts : bests [] ts [] []
  | Bs_take u us t ts m ms l l' : best u t m l -> bests us ts ms l' -> bests (u :: us) (t :: ts) (m :: ms) (l ++ l')
  | Bs_skip u us t ts ms l : (forall m, ~ matches u t m) -> bests (u :: us) ts ms l -> bests (u :: us) (t :: ts) ms l.
End Opt.

(** Every [opt] of the pattern is given at least one child. *)
Fixpoint solid {V} (u : upat V) : Prop :=
  match u with
  | UOne _ cs => (fix all l := match l with [] => True | c :: l => solid c /\ all l end) cs
  | UOpt _ _ cs => cs <> [] /\ (fix all l := match l with [] => True | c :: l => solid c /\ all l end) cs
  | UCpt p => solid p
  end.
