(** StarLemmas.v: facts about StarSpec.v. *)
From Verif Require Import Base Spec RoseFacts StructNode Nav Policy Tree Matcher Star StarSpec.

Section Ind.
  Context {V : Type}.
  Variable P : spat V -> Prop.
  Hypothesis H1 : forall vm cs, Forall P cs -> P (SOne vm cs).
  Hypothesis H2 : forall q vm cs, Forall P cs -> P (SOpt q vm cs).
  Hypothesis H3 : forall q vm cs, Forall P cs -> P (SStar q vm cs).
  Hypothesis H4 : forall p, P p -> P (SCpt p).
  Fixpoint spat_ind' (u : spat V) : P u :=
    let fix all (l : list (spat V)) : Forall P l :=
      match l with [] => List.Forall_nil P | c :: l => @List.Forall_cons _ P c l (spat_ind' c) (all l) end in
    match u with
    | SOne vm cs => H1 vm cs (all cs)
    | SOpt q vm cs => H2 q vm cs (all cs)
    | SStar q vm cs => H3 q vm cs (all cs)
    | SCpt p => H4 p (spat_ind' p)
    end.
End Ind.

Notation xchain := (foldr xbuild XNil).
(** The matchers directly below a matcher. *)
Definition subs {V} (u : spat V) : list (spat V) :=
  match u with SOne _ cs | SOpt _ _ cs | SStar _ _ cs => cs | SCpt p => [p] end.
Definition kind_of {V} (u : spat V) : xkind :=
  match u with SOne _ _ => XOne | SOpt q _ _ => XOpt q | SStar q _ _ => XStar q | SCpt _ => XCapture end.
Definition test_of {V} (u : spat V) : V -> bool :=
  match u with SOne p _ | SOpt _ p _ | SStar _ p _ => p | SCpt _ => fun _ => true end.
Lemma xbuild_eq {V} (u : spat V) ns : xbuild u ns = XN (kind_of u) (test_of u) (xchain (subs u)) ns.
Proof. destruct u; reflexivity. Qed.

Section Solid.
  Context {V : Type}.
  Lemma ssolid_all (cs : list (spat V)) vm : ssolid (SOne vm cs) <-> Forall ssolid cs.
  Proof. cbn. induction cs as [|c cs IH]; [split; auto|]. rewrite Forall_cons, <- IH. reflexivity. Qed.
  Lemma ssolid_subs (u : spat V) : ssolid u -> Forall ssolid (subs u).
  Proof.
    destruct u as [vm cs|q vm cs|q vm cs|p]; cbn [subs].
    - apply ssolid_all.
    - intros [_ H]. apply (ssolid_all cs vm). exact H.
    - intros [_ H]. apply (ssolid_all cs vm). exact H.
    - intros H. repeat constructor. exact H.
  Qed.
  Lemma tame_subs (u : spat V) : tame u -> Forall tame (subs u).
  Proof.
    assert (Hall : forall cs : list (spat V), tame (SOne (fun _ => true) cs) <-> Forall tame cs).
    { intros cs. cbn. induction cs as [|c cs IH]; [split; auto|]. rewrite Forall_cons, <- IH. reflexivity. }
    destruct u as [vm cs|q vm cs|q vm cs|p]; cbn [subs].
    - intros H. apply Hall. exact H.
    - intros H. apply Hall. exact H.
    - intros [_ H]. apply Hall. exact H.
    - intros H. repeat constructor. exact H.
  Qed.
  Lemma ssolid_ne (u : spat V) : ssolid u -> match u with SOpt _ _ cs | SStar _ _ cs => cs <> [] | _ => True end.
  Proof. destruct u; cbn; tauto. Qed.
  Lemma xnull_solid (u : spat V) : ssolid u -> forall w ns, xmatches_null w (xbuild u ns) = false.
  Proof.
    induction u as [vm cs IH|q vm cs IH|q vm cs IH|p IH] using spat_ind'; intros Hs w ns; cbn [xbuild xmatches_null].
    - reflexivity.
    - pose proof (ssolid_subs _ Hs) as Hf. destruct Hs as [Hne _]. cbn [subs] in Hf. destruct cs as [|c cs]; [congruence|].
      inversion IH as [|? ? Hc _]; subst. inversion Hf; subst. cbn [foldr]. rewrite Hc by assumption. reflexivity.
    - pose proof (ssolid_subs _ Hs) as Hf. destruct Hs as [Hne _]. cbn [subs] in Hf. destruct cs as [|c cs]; [congruence|].
      inversion IH as [|? ? Hc _]; subst. inversion Hf; subst. cbn [foldr]. rewrite Hc by assumption. reflexivity.
    - rewrite IH by exact Hs. reflexivity.
  Qed.
  Lemma xcount_solid (cs : list (spat V)) : Forall ssolid cs -> xcount_needed (xchain cs) = length cs.
  Proof.
    induction 1 as [|c cs Hc _ IH]; [reflexivity|]. cbn [foldr length]. rewrite <- IH. pose proof (xnull_solid c Hc false (xchain cs)) as Hn.
    rewrite xbuild_eq in *. cbn [xcount_needed]. rewrite Hn. reflexivity.
  Qed.
  Lemma xsteal_solid (cs : list (spat V)) : Forall ssolid cs -> xmay_steal (xchain cs) = (length cs <=? 1).
  Proof. intros H. unfold xmay_steal. rewrite xcount_solid by exact H. reflexivity. Qed.
  Lemma xprefers_solid (u : spat V) ns : ssolid u -> xprefers_null (xbuild u ns) = false.
  Proof. intros H. pose proof (xnull_solid u H false ns) as Hn. destruct u as [|[]|[]|]; cbn [xbuild xprefers_null] in *; auto. Qed.
End Solid.

Section Facts.
  Context {V A : Type}.
  Variable val : A -> V.
  Notation smatch := (smatch val).
  Notation level := (level val).
  Notation below := (below val).
  Implicit Types (t : rose A) (ts fs : list (rose A)).

  Lemma smatch_at u t a : smatch u t a -> at_node a = t.
  Proof. destruct 1; reflexivity. Qed.
  Lemma smatch_heads u : forall t a, smatch u t a -> heads u (val (label t)) = true.
  Proof.
    induction u as [vm cs IH|q vm cs IH|q vm cs IH|p IH] using spat_ind'; intros t a H; inversion H; subst; cbn [heads label].
    - assumption.
    - apply orb_true_iff. left. assumption.
    - apply orb_true_iff. right. inversion IH as [|? ? Hc _]; subst. eapply (Hc (Rose _ _)). eassumption.
    - apply orb_true_iff. left. assumption.
    - apply orb_true_iff. left. assumption.
    - apply orb_true_iff. right. inversion IH as [|? ? Hc _]; subst. eapply (Hc (Rose _ _)). eassumption.
    - eapply IH. eassumption.
  Qed.

  Lemma level_more us ts0 ts l : level us ts l -> level us (ts0 ++ ts) l.
  Proof. intros H. induction ts0; cbn; [exact H|constructor; assumption]. Qed.
  Lemma level_rest u us ts l : level (u :: us) ts l ->
    exists t a pre post l', ts = pre ++ t :: post /\ smatch u t a /\ level us post l'.
  Proof.
    induction ts as [|t ts IH] in l |- *; intros H; inversion H; subst.
    - eexists t, _, [], ts, _. split; [reflexivity|]. eauto.
    - destruct (IH _ ltac:(eassumption)) as (t' & m & pre & post & ms' & -> & H1 & H2).
      exists t', m, (t :: pre), post, ms'. eauto.
  Qed.
  (** Nothing is lost by giving [u] the first tree it matches. *)
  Lemma level_first u us pre t post l : Forall (fun s => forall a, ~ smatch u s a) pre ->
    level (u :: us) (pre ++ t :: post) l -> exists l', level us post l'.
  Proof.
    intros Hp. revert l. induction Hp as [|s pre Hs _ IH]; intros l H; cbn [app] in H.
    - apply level_rest in H as (t' & a & pre & post' & l' & E & _ & H). destruct pre as [|t1 pre]; cbn in E; injection E as -> ->; [eauto|].
      exists l'. change (pre ++ t' :: post') with (pre ++ [t'] ++ post'). rewrite app_assoc. apply level_more, H.
    - inversion H; subst; [exfalso; eapply Hs; eassumption|eauto].
  Qed.
  Lemma level_none u us ts l : Forall (fun s => forall a, ~ smatch u s a) ts -> ~ level (u :: us) ts l.
  Proof.
    intros H Hc. apply level_rest in Hc as (t & a & pre & post & _ & -> & Ho & _).
    rewrite Forall_app in H. destruct H as [_ H]. inversion H; subst. firstorder.
  Qed.

  Definition fsize fs : nat := list_sum (map rsize fs).
  Lemma fsize_app fs fs' : fsize (fs ++ fs') = fsize fs + fsize fs'.
  Proof. unfold fsize. rewrite map_app, list_sum_app'. reflexivity. Qed.
  Lemma fsize_node x cs fs : fsize (Rose x cs :: fs) = S (fsize cs + fsize fs).
  Proof. reflexivity. Qed.
  Lemma fsize_length fs : length fs <= fsize fs.
  Proof. induction fs as [|[x cs] fs IH]; [cbn; lia|]. rewrite fsize_node. cbn [length]. lia. Qed.

  Lemma below_more p us fs l ts : below p us fs l -> below p us (ts ++ fs) l.
  Proof.
    intros H. remember (fsize ts) as n eqn:En. revert ts En. induction n as [n IH] using lt_wf_ind. intros ts ->.
    destruct ts as [|[x cs] ts]; [exact H|]. cbn [app]. apply W_skip. rewrite app_assoc. eapply IH; [|reflexivity].
    rewrite fsize_node, fsize_app. destruct (p (val x)); cbn; lia.
  Qed.
  Lemma below_done p fs l : below p [] fs l -> l = [].
  Proof. remember [] as w eqn:E. intros H. revert E. induction H; intros E; [reflexivity|discriminate|auto]. Qed.
  Lemma level_done fs l : level [] fs l -> l = [].
  Proof. induction fs as [|t fs IH]; intros H; inversion H; subst; auto. Qed.
  Lemma below_nil p u us l : ~ below p (u :: us) [] l.
  Proof. intros H. inversion H. Qed.
  (** Dropping the children of a node. *)
  Lemma below_drop p us x cs fs l : below p us fs l -> below p us (Rose x cs :: fs) l.
  Proof. intros H. apply W_skip, below_more, H. Qed.
  Lemma below_rest p u us fs l : below p (u :: us) fs l -> exists l', below p us fs l'.
  Proof.
    remember (u :: us) as w eqn:E. intros H. revert E. induction H as [|p u' us' t ts a l Hm Hb _|p us' x cs ts l Hb IH]; intros E.
    - discriminate.
    - injection E as -> ->. exists l. apply (below_more _ _ _ _ [t]), Hb.
    - destruct (IH E) as [l' H']. exists l'. apply W_skip, H'.
  Qed.
  (** Nothing is lost by giving [u] a node that is not entered. *)
  Lemma below_first p u us t fs l : p (val (label t)) = false -> below p (u :: us) (t :: fs) l -> exists l', below p us fs l'.
  Proof.
    intros Hp H. inversion H as [|? ? ? ? ? a l' Hm Hb|? ? x cs ? ? Hb]; subst; [eauto|].
    cbn in Hp. rewrite Hp in Hb. apply below_rest in Hb. exact Hb.
  Qed.
  Lemma below_one p u fs l : below p [u] fs l -> exists a, l = [a] /\ exists t, smatch u t a.
  Proof.
    remember [u] as w eqn:E. intros H. revert E. induction H as [|p u' us' t ts a l Hm Hb _|p us' x cs ts l Hb IH]; intros E.
    - discriminate.
    - injection E as -> ->. apply below_done in Hb as ->. exists a. split; [reflexivity|]. exists t. exact Hm.
    - auto.
  Qed.
  (** One child: some node reached from the root matches. *)
  Lemma below_reached p u x ts : (exists l, below p [u] ts l) <-> exists s a, reached val p (Rose x ts) s /\ smatch u s a.
  Proof.
    split.
    - intros [l H]. remember [u] as w eqn:E. revert x E. induction H as [|p u' us' t ts a l Hm Hb _|p us' y cs ts l Hb IH]; intros x E.
      + discriminate.
      + injection E as -> ->. exists t, a. split; [|exact Hm]. apply R_child. left.
      + destruct (IH x E) as (s & a & Hr & Hm). exists s, a. split; [|exact Hm].
        destruct (p (val y)) eqn:Ep.
        * inversion Hr as [? ? ? Hs|? ? t' ? Ht Hpt Hr']; subst.
          { apply elem_of_app in Hs as [Hs|Hs].
            - apply (R_deeper _ _ _ _ (Rose y cs)); [left|exact Ep|]. apply R_child, Hs.
            - apply R_child. right. exact Hs. }
          { apply elem_of_app in Ht as [Ht|Ht].
            - apply (R_deeper _ _ _ _ (Rose y cs)); [left|exact Ep|]. eapply R_deeper; eassumption.
            - eapply R_deeper; [right; exact Ht|exact Hpt|exact Hr']. }
        * cbn in Hr. inversion Hr as [? ? ? Hs|? ? t' ? Ht Hpt Hr']; subst.
          { apply R_child. right. exact Hs. } { eapply R_deeper; [right; exact Ht|exact Hpt|exact Hr']. }
    - intros (s & a & Hr & Hm). exists [a]. remember (Rose x ts) as t0 eqn:E. revert x ts E.
      induction Hr as [x0 ts0 s Hs|x0 ts0 t s Ht Hp Hr IH]; intros x ts [= -> ->].
      + apply elem_of_list_split in Hs as (l1 & l2 & ->). apply below_more. apply W_take; [exact Hm|constructor].
      + apply elem_of_list_split in Ht as (l1 & l2 & ->). apply below_more. destruct t as [y cs]. apply W_skip.
        cbn in Hp. rewrite Hp. specialize (IH Hm y cs eq_refl). clear -IH.
        remember [u] as w eqn:E. revert E. induction IH as [|p u' us' t ts a' l Hm' Hb _|p us' z ds ts l Hb IH]; intros E.
        * discriminate.
        * injection E as -> ->. apply below_done in Hb as ->. cbn. apply W_take; [exact Hm'|constructor].
        * cbn. apply W_skip. rewrite app_assoc. auto.
  Qed.
End Facts.
