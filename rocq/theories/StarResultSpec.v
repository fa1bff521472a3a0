(** StarResultSpec.v: the tree that is reported for a match of a pattern with
    [star].  It is built from the nodes of the searched tree ([asg], StarSpec.v:
    which node each matcher took).

    [one] and a present [opt] give the node they took, with the results of their
    children below.  A level that is absent, and [cpt], give the result of the
    child.  A present [star] gives the node it took with the levels it stands for
    filled in: a node taken by a child of the star becomes the child's result, the
    nodes on the way to such nodes are kept.  Of the other nodes accepted by the
    star, the greedy and possessive ones keep all that are reached through
    accepted nodes, the reluctant one none, the default one any. *)
From Verif Require Import Base Spec Matcher Star StarSpec.

Section Result.
  Context {V A : Type}.
  Variable val : A -> V.

  Section Fill.
    Variable q : quantifier.
    Variable p : V -> bool.
    (** The nodes taken by the children of the star, with the children's results. *)
    Variable R : list (rose A * rose A).
    Definition taken (t : rose A) : Prop := exists m, (t, m) ∈ R.
    Definition way (t : rose A) : Prop := exists s m, (s, m) ∈ R /\ label s ∈ preorder t.
    Inductive fill : list (rose A) -> list (rose A) -> Prop :=
    | F_nil : fill [] []
    | F_taken t m ts out : (t, m) ∈ R -> fill ts out -> fill (t :: ts) (m :: out)
    | F_keep x cs ts ms out : ~ taken (Rose x cs) -> p (val x) = true -> (q = QReluctant -> way (Rose x cs)) ->
        fill cs ms -> fill ts out -> fill (Rose x cs :: ts) (Rose x ms :: out)
    | F_drop x cs ts out : ~ taken (Rose x cs) -> ~ way (Rose x cs) -> (p (val x) = true -> q <> QGreedy /\ q <> QPossessive) ->
        fill ts out -> fill (Rose x cs :: ts) out.
  End Fill.

  Inductive sresult : spat V -> asg A -> rose A -> Prop :=
  | SR_one p cs x ts l ms : sresults cs l ms -> sresult (SOne p cs) (Asg (Rose x ts) l) (Rose x ms)
  | SR_opt q p cs x ts l ms : (forall a, a ∈ l -> at_node a <> Rose x ts) -> sresults cs l ms ->
      sresult (SOpt q p cs) (Asg (Rose x ts) l) (Rose x ms)
  | SR_opt_absent q p c a m : sresult c a m -> sresult (SOpt q p [c]) (Asg (at_node a) [a]) m
  | SR_star q p cs x ts l ms out : (forall a, a ∈ l -> at_node a <> Rose x ts) -> sresults cs l ms ->
      fill q p (combine (map at_node l) ms) ts out ->
      sresult (SStar q p cs) (Asg (Rose x ts) l) (Rose x out)
  | SR_star_absent q p c a m : sresult c a m -> sresult (SStar q p [c]) (Asg (at_node a) [a]) m
  | SR_cpt u t a m : sresult u a m -> sresult (SCpt u) (Asg t [a]) m
  with sresults : list (spat V) -> list (asg A) -> list (rose A) -> Prop :=
  | SRs_nil : sresults [] [] []
  | SRs_cons u us a l m ms : sresult u a m -> sresults us l ms -> sresults (u :: us) (a :: l) (m :: ms).

  (** The marked matchers (inside [cpt]) of a pattern, in the order in which they
      are written, with what they took. *)
  Fixpoint marks (u : spat V) (a : asg A) : list (spat V * asg A) :=
    let all := fix all us l := match us, l with c :: us, b :: l => marks c b ++ all us l | _, _ => [] end in
    match u, a with
    | SOne _ cs, Asg _ l | SOpt _ _ cs, Asg _ l | SStar _ _ cs, Asg _ l => all cs l
    | SCpt u, Asg _ [b] => (u, b) :: marks u b
    | SCpt _, _ => []
    end.
End Result.

(** Every reluctant [star] of the pattern has one child. *)
Fixpoint lone {V} (u : spat V) : Prop :=
  let all := fix all l := match l with [] => True | c :: l => lone c /\ all l end in
  match u with
  | SOne _ cs | SOpt _ _ cs => all cs
  | SStar q p cs => (q = QReluctant -> length cs <= 1) /\ all cs
  | SCpt p => lone p
  end.

(** The pattern has no [star] with the default quantifier. *)
Fixpoint definite {V} (u : spat V) : Prop :=
  let all := fix all l := match l with [] => True | c :: l => definite c /\ all l end in
  match u with
  | SOne _ cs | SOpt _ _ cs => all cs
  | SStar q p cs => q <> QDefault /\ all cs
  | SCpt p => definite p
  end.
