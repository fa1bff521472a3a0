(** MatchCaps.v: from the pattern a user writes to the chain of matchers. *)
From Verif Require Import Base Spec MatchSpec StructNode BinaryNode NaryNode Nav Policy Tree Rep RoseFacts NavFacts
  BinRep EditSpec Matcher OptSpec MatchUser MatchFacts MatchResult MatchKinds MatchBin.

Fixpoint mark_list {V A} (cs : list (upat V)) (ms : list (rose A)) : list (rose A) :=
  match cs, ms with c :: cs, m :: ms => marks c m ++ mark_list cs ms | _, _ => [] end.
Lemma marks_one {V A} vm (cs : list (upat V)) (m : rose A) : marks (UOne vm cs) m = mark_list cs (children m).
Proof. cbn. generalize (children m). induction cs as [|c cs IH]; intros [|m' ms]; cbn; try reflexivity. rewrite IH. reflexivity. Qed.
Lemma marks_opt {V A} q vm (cs : list (upat V)) (m : rose A) : marks (UOpt q vm cs) m = mark_list cs (children m).
Proof. cbn. generalize (children m). induction cs as [|c cs IH]; intros [|m' ms]; cbn; try reflexivity. rewrite IH. reflexivity. Qed.

Section Build.
  Context {V : Type}.
  Lemma plain_all (cs : list (upat V)) vm : plain (UOne vm cs) <-> Forall plain cs.
  Proof. cbn. induction cs as [|c cs IH]; [split; auto|]. rewrite Forall_cons, <- IH. reflexivity. Qed.
  Lemma plain_solid (u : upat V) : plain u -> solid u.
  Proof.
    induction u as [vm cs IH|q vm cs IH|p IH] using upat_ind'; intros Hp; [|destruct Hp|exact (IH Hp)].
    apply solid_all. apply plain_all in Hp. rewrite Forall_forall in *. auto.
  Qed.

  (** Of [plain] patterns, OptSpec.v says the same as MatchSpec.v. *)
  Section Plain.
    Context {A : Type}.
    Variable val : A -> V.
    Lemma plain_matches (u : upat V) : plain u -> forall t m, matches val u t m <-> occurs val (strip u) t m.
    Proof.
      induction u as [vm cs IH|q vm cs IH|p IH] using upat_ind'; intros Hp t m; [|destruct Hp|].
      - apply plain_all in Hp.
        assert (Hall : forall ts ms, matches_all val cs ts ms <-> chosen val (map strip cs) ts ms).
        { intros ts. revert cs IH Hp. induction ts as [|t' ts IHt]; intros cs IH Hp ms.
          - split; intros H; inversion H; subst; [constructor|]. destruct cs; [constructor|discriminate].
          - split; intros H.
            + inversion H as [|c cs' ? ? m' ms' Hm Ha|? ? ? ? Ha]; subst.
              * constructor.
              * inversion IH as [|? ? Hc Hcs]; subst. inversion Hp; subst. constructor; [apply Hc; assumption|]. apply IHt; assumption.
              * constructor. apply IHt; assumption.
            + inversion H as [|c cs' ? ? m' ms' Hm Ha E|? ? ? ? Ha]; subst.
              * destruct cs; [constructor|discriminate].
              * destruct cs as [|c0 cs0]; [discriminate|]. injection E as -> ->. inversion IH as [|? ? Hc Hcs]; subst. inversion Hp; subst.
                constructor; [apply Hc; assumption|]. apply IHt; assumption.
              * constructor. apply IHt; assumption. }
        split; intros H; inversion H; subst; constructor; auto; apply Hall; assumption.
      - cbn. rewrite <- (IH Hp). split; intros H; [inversion H; subst; assumption|constructor; exact H].
    Qed.
    Fixpoint plain_best u t m l (H : best val u t m l) {struct H} : plain u -> leftmost val (strip u) t m /\ l = marks u m
    with plain_bests us ts ms l (H : bests val us ts ms l) {struct H} : Forall plain us -> firsts val (map strip us) ts ms /\ l = mark_list us ms.
    Proof.
      - destruct H as [p cs x ts ms l Hp Hf|q p cs x ts ms l Hp Hf|q p c x ts m l Hc Hf|u t m l Hf]; intros Hpl; [|destruct Hpl|destruct Hpl|].
        + apply plain_all in Hpl. destruct (plain_bests _ _ _ _ Hf Hpl) as [H1 ->]. rewrite marks_one. split; [constructor; assumption|reflexivity].
        + destruct (plain_best _ _ _ _ Hf Hpl) as [H1 ->]. split; [exact H1|reflexivity].
      - destruct H as [ts|u us t ts m ms l l' Hb Hf|u us t ts ms l Hn Hf]; intros Hpl.
        + split; [constructor|reflexivity].
        + inversion Hpl as [|? ? H1 H2]; subst. destruct (plain_best _ _ _ _ Hb H1) as [K1 ->]. destruct (plain_bests _ _ _ _ Hf H2) as [K2 ->].
          split; [constructor; assumption|reflexivity].
        + inversion Hpl as [|? ? H1 H2]; subst. destruct (plain_bests _ _ _ _ Hf Hpl) as [K2 ->].
          split; [|reflexivity]. cbn. apply Firsts_skip; [|exact K2]. intros m Ho. apply (Hn m). apply plain_matches; assumption.
    Qed.
  End Plain.

  Definition capt (ps : pat V * mstate) (m : rose (addr * V)) : Prop :=
    exists us ms l, fst ps = chain us /\ Forall solid us /\ descs us (snd ps) (m :: ms) l.
  Lemma captures_ok (p : pat V) : forall us, p = chain us -> Forall solid us -> forall s ms l, descs us s ms l ->
    Forall2 capt (captures p s) l.
  Proof.
    induction p as [|k vm fc IHf ns IHn]; intros us Ep Hso s ms l Hd.
    { destruct us as [|u us]; [|destruct u; discriminate]. inversion Hd; subst. constructor. }
    destruct us as [|u us]; [discriminate|]. inversion Hso as [|? ? Hu Hus]; subst. assert (Hd0 := Hd). assert (Ep0 := Ep).
    inversion Hd as [|? ? ? m ms' l1 l2 Hm Hin Hdn]; subst.
    assert (Hns : Forall2 capt (captures ns (ms_next s)) l2).
    { eapply IHn; [|exact Hus|exact Hdn]. destruct u; injection Ep; auto. }
    destruct u as [vm' cs|q vm' cs|c]; cbn [build foldr] in Ep; injection Ep as -> -> -> ->; cbn [captures]; try rewrite app_assoc; apply Forall2_app; try exact Hns.
    - apply solid_all in Hu. inversion Hin; subst. eapply IHf; [reflexivity|exact Hu|eassumption].
    - apply solid_opt in Hu as [_ Hu]. inversion Hin; subst; (eapply IHf; [reflexivity|exact Hu|eassumption]).
    - inversion Hin as [| | |? ? ? l' Hdc]; subst. cbn [app]. constructor.
      + exists (UCpt c :: us), ms', ((m :: l') ++ l2). split; [reflexivity|]. split; [exact Hso|exact Hd0].
      + eapply (IHf [c]); [reflexivity|constructor; [exact Hu|constructor]|exact Hdc].
  Qed.
  (** A capture stands at a part of the match. *)
  Fixpoint best_sub {A} (val : A -> V) u t m l (H : best val u t m l) {struct H} : forall m', m' ∈ l -> rsubtree m' m
  with bests_sub {A} (val : A -> V) us ts ms l (H : bests val us ts ms l) {struct H} : forall m', m' ∈ l -> exists m, m ∈ ms /\ rsubtree m' m.
  Proof.
    - destruct H as [p cs x ts ms l Hp Hf|q p cs x ts ms l Hp Hf|q p c x ts m l Hc Hf|u t m l Hf]; intros m' Hm.
      + destruct (bests_sub _ _ _ _ _ _ Hf m' Hm) as (c & Hc & Hs). eapply rsub_child; eassumption.
      + destruct (bests_sub _ _ _ _ _ _ Hf m' Hm) as (c & Hc & Hs). eapply rsub_child; eassumption.
      + exact (best_sub _ _ _ _ _ _ Hf m' Hm).
      + apply elem_of_cons in Hm as [->|Hm]; [apply rsub_here|]. exact (best_sub _ _ _ _ _ _ Hf m' Hm).
    - destruct H as [ts|u us t ts m ms l l' Hb Hf|u us t ts ms l Hn Hf]; intros m' Hm.
      + apply elem_of_nil in Hm as [].
      + apply elem_of_app in Hm as [Hm|Hm].
        * exists m. split; [left|]. exact (best_sub _ _ _ _ _ _ Hb m' Hm).
        * destruct (bests_sub _ _ _ _ _ _ Hf m' Hm) as (c & Hc & Hs). exists c. split; [right; exact Hc|exact Hs].
      + exact (bests_sub _ _ _ _ _ _ Hf m' Hm).
  Qed.

  Lemma marks_sub {A} (u : upat V) : forall (m m' : rose A), m' ∈ marks u m -> rsubtree m' m.
  Proof.
    induction u as [vm cs IH|q vm cs IH|p IH] using upat_ind'; intros m m' Hm.
    1: rewrite marks_one in Hm. 2: rewrite marks_opt in Hm.
    1,2: 
      assert (Hex : exists c, c ∈ children m /\ rsubtree m' c);
      [revert Hm; generalize (children m); induction IH as [|c cs Hc _ IHcs]; intros ms Hm; [apply elem_of_nil in Hm as []|];
       destruct ms as [|m1 ms]; [apply elem_of_nil in Hm as []|]; cbn in Hm; apply elem_of_app in Hm as [Hm|Hm];
       [exists m1; split; [left|apply Hc, Hm]|destruct (IHcs ms Hm) as (c' & Hc' & Hs); exists c'; split; [right; exact Hc'|exact Hs]]
      |destruct Hex as (c & Hc & Hs); destruct m as [x ms]; eapply rsub_child; eassumption].
    cbn in Hm. apply elem_of_cons in Hm as [->|Hm]; [apply rsub_here|apply IH, Hm].
  Qed.
End Build.

(** A subtree of an occurrence is an occurrence in a subtree. *)
Lemma chosen_elem {V A} (val : A -> V) ps ts ms m : chosen val ps ts ms -> m ∈ ms -> exists p t, t ∈ ts /\ occurs val p t m.
Proof.
  induction ts as [|t ts IH] in ps, ms |- *; intros Hc Hm; inversion Hc; subst.
  - apply elem_of_nil in Hm as [].
  - apply elem_of_nil in Hm as [].
  - apply elem_of_cons in Hm as [->|Hm]; [eexists _, t; split; [left|eassumption]|].
    destruct (IH _ _ ltac:(eassumption) Hm) as (p' & t' & Ht & Ho). exists p', t'. split; [right; exact Ht|exact Ho].
  - destruct (IH _ _ ltac:(eassumption) Hm) as (p' & t' & Ht & Ho). exists p', t'. split; [right; exact Ht|exact Ho].
Qed.
Lemma occurs_sub {V A} (val : A -> V) m m' : rsubtree m' m -> forall p t, occurs val p t m ->
  exists p' t', rsubtree t' t /\ occurs val p' t' m'.
Proof.
  induction 1 as [|x cs c Hc Hs IH]; intros p t Ho.
  - exists p, t. split; [apply rsub_here|exact Ho].
  - inversion Ho as [? ? ? ts ? _ Hch]; subst. destruct (chosen_elem _ _ _ _ _ Hch Hc) as (p1 & t1 & Ht1 & Ho1).
    destruct (IH _ _ Ho1) as (p' & t' & Hs' & Ho'). exists p', t'. split; [|exact Ho']. eapply rsub_child; eassumption.
Qed.
