(** StarMarks.v: the captures of a pattern with [star] after a search. *)
From Verif Require Import Base Spec StructNode BinaryNode NaryNode Nav Policy Tree Rep RoseFacts NavFacts BinRep NaryRep Iter IterTrees
  NodeFacts Matcher MatchFacts MatchWalk Star StarSpec StarResultSpec StarLemmas StarWalk StarFacts StarMain StarFlat StarTarget StarResult.

Section Marks.
  Context {V : Type}.
  Notation tree := (rose (addr * V)).
  Fixpoint allmarks (us : list (spat V)) (l : list (asg (addr * V))) : list (spat V * asg (addr * V)) :=
    match us, l with c :: us, b :: l => marks c b ++ allmarks us l | _, _ => [] end.
  Definition own_mark (u : spat V) (a : asg (addr * V)) : list (spat V * asg (addr * V)) :=
    match u, a with SCpt u, Asg _ [b] => [(u, b)] | _, _ => [] end.
  Lemma marks_unfold u n l : length (subs u) = length l -> marks u (Asg n l) = own_mark u (Asg n l) ++ allmarks (subs u) l.
  Proof.
    intros Hl. destruct u as [vm cs|q vm cs|q vm cs|u]; [reflexivity..|]. cbn [subs length] in Hl. destruct l as [|b [|]]; [discriminate| |discriminate]. cbn. rewrite app_nil_r. reflexivity.
  Qed.
  Definition capture (ps : xpat V * xstate) (ua : spat V * asg (addr * V)) : Prop :=
    exists ns (n : tree), fst ps = xbuild (SCpt (fst ua)) ns /\ xs_matched (snd ps) = Some (raddr n) /\ records [fst ua] (xs_first (snd ps)) [snd ua].
  Lemma records_length us s l : records (V := V) us s l -> length us = length l.
  Proof. induction 1; cbn; congruence. Qed.
  Lemma xcaptures_ok us s l : records us s l -> Forall2 capture (xcaptures (xchain us) s) (allmarks us l).
  Proof.
    induction 1 as [s|u us s n la l Hm Hs IHs Hl IHl]; [constructor|]. cbn [foldr allmarks]. rewrite xbuild_eq. cbn [xcaptures].
    rewrite marks_unfold by exact (records_length _ _ _ Hs). rewrite <- app_assoc.
    apply Forall2_app; [|apply Forall2_app; [exact IHs|exact IHl]].
    destruct u as [vm cs|q vm cs|q vm cs|u]; cbn [kind_of own_mark]; [constructor..|].
    pose proof (records_length _ _ _ Hs) as Hlen. cbn [subs length] in Hlen, Hs. destruct la as [|b [|]]; [discriminate| |discriminate].
    constructor; [|constructor]. exists (xchain us), n. cbn [fst snd]. split; [reflexivity|]. split; [exact Hm|exact Hs].
  Qed.
  Lemma marks_in (u0 : spat V) : forall t a u' a', smatch snd u0 t a -> NoDup (raddrs t) -> (u', a') ∈ marks u0 a ->
    smatch snd u' (at_node a') a' /\ rsubtree (at_node a') t /\ (ssolid u0 -> ssolid u') /\ (lone u0 -> lone u').
  Proof.
    assert (Hkids : forall (t : tree) us l u' a', Forall (fun u => forall t a u' a', smatch snd u t a -> NoDup (raddrs t) -> (u', a') ∈ marks u a ->
        smatch snd u' (at_node a') a' /\ rsubtree (at_node a') t /\ (ssolid u -> ssolid u') /\ (lone u -> lone u')) us ->
      Forall2 (fun u a => smatch snd u (at_node a) a) us l -> (forall a, a ∈ l -> rsubtree (at_node a) t) -> NoDup (raddrs t) -> (u', a') ∈ allmarks us l ->
      smatch snd u' (at_node a') a' /\ rsubtree (at_node a') t /\ exists u, u ∈ us /\ (ssolid u -> ssolid u') /\ (lone u -> lone u')).
    { intros t us l u' a' Hus. revert l. induction Hus as [|u us Hu _ IH]; intros l Hm Hsub Hnd Hin.
      { destruct l; apply elem_of_nil in Hin as []. }
      inversion Hm as [|? a ? l' Hm1 Hm2]; subst. cbn [allmarks] in Hin. apply elem_of_app in Hin as [Hin|Hin].
      - assert (Ha : rsubtree (at_node a) t) by (apply Hsub; left). destruct (Hu _ _ _ _ Hm1 (sub_nd _ _ Ha Hnd) Hin) as (H1 & H2 & H3 & H4).
        split; [exact H1|]. split; [eapply rsub_trans; eassumption|]. exists u. split; [left|auto].
      - destruct (IH l' Hm2 ltac:(intros b Hb; apply Hsub; right; exact Hb) Hnd Hin) as (H1 & H2 & w & Hw & H3). split; [exact H1|]. split; [exact H2|]. exists w. split; [right; exact Hw|exact H3]. }
    assert (Hup : forall cs (u u' : spat V), (exists w, w ∈ cs /\ (ssolid w -> ssolid u') /\ (lone w -> lone u')) -> subs u = cs -> (ssolid u -> ssolid u') /\ (lone u -> lone u')).
    { intros cs u u' (w & Hw & H1 & H2) Hs. split; intros H.
      - apply H1. apply ssolid_subs in H. rewrite Hs, Forall_forall in H. apply H, Hw.
      - apply H2. apply lone_subs in H. rewrite Hs, Forall_forall in H. apply H, Hw. }
    assert (Hlev : forall us x (ts : list tree) l, level snd us ts l -> Forall2 (fun u a => smatch snd u (at_node a) a) us l /\ forall a, a ∈ l -> rsubtree (at_node a) (Rose x ts)).
    { intros us x ts l Hl. split; [eapply level_each, Hl|]. intros a Ha. econstructor; [eapply level_in; eassumption|constructor]. }
    induction u0 as [vm cs IH|q vm cs IH|q vm cs IH|u IH] using spat_ind'; intros t a u' a' Hm Hnd Hin.
    - inversion Hm as [? ? x ts l Hp Hl| | | | | |]; subst. destruct (Hlev _ x _ _ Hl) as [H1 H2].
      destruct (Hkids _ _ _ _ _ IH H1 H2 Hnd Hin) as (H3 & H4 & H5). split; [exact H3|]. split; [exact H4|]. eapply Hup; [exact H5|reflexivity].
    - assert (Hall : exists l, (u', a') ∈ allmarks cs l /\ Forall2 (fun u a => smatch snd u (at_node a) a) cs l /\ forall a, a ∈ l -> rsubtree (at_node a) t).
      { inversion Hm as [|? ? ? x ts l Hp Hl|? ? c x ts b Hp Hb| | | |]; subst.
        - exists l. split; [exact Hin|]. apply (Hlev _ x), Hl.
        - exists [b]. split; [exact Hin|]. pose proof (smatch_at _ _ _ _ Hb) as Hat. rewrite <- Hat in *. split; [repeat constructor; exact Hb|]. intros b' Hb'. apply elem_of_list_singleton in Hb' as ->. constructor. }
      destruct Hall as (l & Hin' & H1 & H2). destruct (Hkids _ _ _ _ _ IH H1 H2 Hnd Hin') as (H3 & H4 & H5). split; [exact H3|]. split; [exact H4|]. eapply Hup; [exact H5|reflexivity].
    - assert (Hall : exists l, (u', a') ∈ allmarks cs l /\ Forall2 (fun u a => smatch snd u (at_node a) a) cs l /\ forall a, a ∈ l -> rsubtree (at_node a) t).
      { assert (Hpres : forall x ts l, t = Rose x ts -> (q <> QPossessive -> below snd vm cs ts l) -> (q = QPossessive -> level snd cs (flat_map (frontier snd vm) ts) l) ->
          Forall2 (fun u a => smatch snd u (at_node a) a) cs l /\ forall a, a ∈ l -> rsubtree (at_node a) t).
        { intros x ts l -> Hb Hl. destruct (star_present _ _ _ x _ _ Hb Hl) as (H1 & _ & H2). split; [exact H1|]. intros b Hb'. destruct (reached_sub _ _ _ (H2 b Hb')) as [[H _]|H]; [exact H|destruct (H Hnd)]. }
        inversion Hm as [| | |? ? ? x ts l Hp Hq Hb|? ? x ts l Hp Hl|? ? c x ts b Hp Hb|]; subst.
        - exists l. split; [exact Hin|]. eapply Hpres; [reflexivity|auto|congruence].
        - exists l. split; [exact Hin|]. eapply Hpres; [reflexivity|congruence|auto].
        - exists [b]. split; [exact Hin|]. pose proof (smatch_at _ _ _ _ Hb) as Hat. rewrite <- Hat in *. split; [repeat constructor; exact Hb|]. intros b' Hb'. apply elem_of_list_singleton in Hb' as ->. constructor. }
      destruct Hall as (l & Hin' & H1 & H2). destruct (Hkids _ _ _ _ _ IH H1 H2 Hnd Hin') as (H3 & H4 & H5). split; [exact H3|]. split; [exact H4|]. eapply Hup; [exact H5|reflexivity].
    - inversion Hm as [| | | | | |? ? b Hb]; subst. cbn [marks] in Hin. pose proof (smatch_at _ _ _ _ Hb) as Hat.
      apply elem_of_cons in Hin as [[= -> ->]|Hin]; [|exact (IH _ _ _ _ Hb Hnd Hin)]. rewrite Hat. split; [exact Hb|]. split; [constructor|]. auto.
  Qed.
End Marks.
