(** StarSpec.v: what a pattern with [star] matches.  It refers to patterns as the
    user writes them ([spat], Star.v), not to the search.

    [star(v)(c1, ..., cn)] stands for any number of levels.  Present at a node [x]
    accepted by [v], it asks that [c1, ..., cn] match, in this order, nodes below
    [x] that are reached through nodes accepted by [v] only, none of them inside
    another.  With one child it may be absent: then the child matches [x] itself.
    With the possessive quantifier the children match nodes not accepted by [v],
    and it may only be absent if [x] is not accepted.  [one], [opt] and [cpt] are
    as in OptSpec.v. *)
From Verif Require Import Base Spec Matcher Star.

(** Which node each matcher of a pattern took: the subtree at that node, and the
    same for the children of the matcher. *)
Inductive asg (A : Type) : Type := Asg (n : rose A) (l : list (asg A)).
Arguments Asg {A} _ _.
Definition at_node {A} (a : asg A) : rose A := match a with Asg n _ => n end.

Section Match.
  Context {V A : Type}.
  Variable val : A -> V.

  (** The topmost nodes not accepted by [p], from left to right. *)
  Fixpoint frontier (p : V -> bool) (t : rose A) : list (rose A) :=
    match t with Rose x ts => if p (val x) then flat_map (frontier p) ts else [t] end.

  Inductive smatch : spat V -> rose A -> asg A -> Prop :=
  | S_one p cs x ts l : p (val x) = true -> level cs ts l -> smatch (SOne p cs) (Rose x ts) (Asg (Rose x ts) l)
  | S_opt q p cs x ts l : p (val x) = true -> level cs ts l -> smatch (SOpt q p cs) (Rose x ts) (Asg (Rose x ts) l)
  | S_opt_absent q p c x ts a : (p (val x) = true -> q <> QPossessive) -> smatch c (Rose x ts) a ->
      smatch (SOpt q p [c]) (Rose x ts) (Asg (Rose x ts) [a])
  | S_star q p cs x ts l : p (val x) = true -> q <> QPossessive -> below p cs ts l ->
      smatch (SStar q p cs) (Rose x ts) (Asg (Rose x ts) l)
  | S_possessive p cs x ts l : p (val x) = true -> level cs (flat_map (frontier p) ts) l ->
      smatch (SStar QPossessive p cs) (Rose x ts) (Asg (Rose x ts) l)
  | S_star_absent q p c x ts a : (p (val x) = true -> q <> QPossessive) -> smatch c (Rose x ts) a ->
      smatch (SStar q p [c]) (Rose x ts) (Asg (Rose x ts) [a])
  | S_cpt u t a : smatch u t a -> smatch (SCpt u) t (Asg t [a])
  (** in order, in distinct trees of the list, at their roots *)
  with level : list (spat V) -> list (rose A) -> list (asg A) -> Prop :=
  | L_done ts : level [] ts []
  | L_take u us t ts a l : smatch u t a -> level us ts l -> level (u :: us) (t :: ts) (a :: l)
  | L_skip us t ts l : level us ts l -> level us (t :: ts) l
  (** in order, anywhere in the trees of the list: a node that is not taken is
      entered if [p] accepts it *)
  with below : (V -> bool) -> list (spat V) -> list (rose A) -> list (asg A) -> Prop :=
  | W_done p ts : below p [] ts []
  | W_take p u us t ts a l : smatch u t a -> below p us ts l -> below p (u :: us) (t :: ts) (a :: l)
  | W_skip p us x cs ts l : below p us ((if p (val x) then cs else []) ++ ts) l -> below p us (Rose x cs :: ts) l.

  (** [s] is below [t], and the nodes between them are accepted by [p]. *)
  Inductive reached (p : V -> bool) : rose A -> rose A -> Prop :=
  | R_child x ts s : s ∈ ts -> reached p (Rose x ts) s
  | R_deeper x ts t s : t ∈ ts -> p (val (label t)) = true -> reached p t s -> reached p (Rose x ts) s.
End Match.

(** Every [opt] and [star] of the pattern is given at least one child. *)
Fixpoint ssolid {V} (u : spat V) : Prop :=
  match u with
  | SOne _ cs => (fix all l := match l with [] => True | c :: l => ssolid c /\ all l end) cs
  | SOpt _ _ cs | SStar _ _ cs => cs <> [] /\ (fix all l := match l with [] => True | c :: l => ssolid c /\ all l end) cs
  | SCpt p => ssolid p
  end.
(** The values of the nodes that the pattern may match. *)
Fixpoint heads {V} (u : spat V) (v : V) : bool :=
  match u with
  | SOne p _ => p v
  | SOpt _ p cs | SStar _ p cs => p v || match cs with [c] => heads c v | _ => false end
  | SCpt u => heads u v
  end.
(** Every non-possessive [star] of the pattern has one child, or children that do
    not match the nodes it accepts itself. *)
Fixpoint tame {V} (u : spat V) : Prop :=
  let all := fix all l := match l with [] => True | c :: l => tame c /\ all l end in
  match u with
  | SOne _ cs | SOpt _ _ cs => all cs
  | SStar q p cs =>
      (q = QPossessive \/ length cs <= 1 \/ forall c v, c ∈ cs -> heads c v = true -> p v = false) /\ all cs
  | SCpt p => tame p
  end.
