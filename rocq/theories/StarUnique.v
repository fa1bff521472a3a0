(** StarUnique.v: for a match of a pattern without default [star] there is only
    one tree to be reported. *)
From Verif Require Import Base Spec StructNode BinaryNode NaryNode Nav Policy Tree Rep RoseFacts NavFacts BinRep NaryRep Iter IterTrees
  NodeFacts Matcher MatchFacts MatchWalk Star StarSpec StarResultSpec StarLemmas StarWalk StarFacts StarMain StarFlat StarTarget StarResult.

Section Unique.
  Context {V : Type}.
  Notation tree := (rose (addr * V)).
  Lemma fill_fun q p (R : list (tree * tree)) : q <> QDefault -> (forall t m m', (t, m) ∈ R -> (t, m') ∈ R -> m = m') ->
    forall ts out out', fill snd q p R ts out -> fill snd q p R ts out' -> out = out'.
  Proof.
    intros Hq HR ts out out' H. revert out'. induction H as [|t m ts out Hm _ IH|x cs ts ms out Ht Hp Hw _ IH1 _ IH2|x cs ts out Ht Hw Hp _ IH]; intros out' H'.
    - inversion H'. reflexivity.
    - inversion H' as [|? m' ? o' Hm' Ho|x cs ? ? o' Hn|x cs ? o' Hn]; subst; [|destruct Hn; eexists; eassumption..]. f_equal; [eapply HR; eassumption|eauto].
    - inversion H' as [|? m' ? o' Hm' Ho|? ? ? ms' o' Hn Hp' Hw' Hm' Ho|? ? ? o' Hn Hw' Hp' Ho]; subst; [destruct Ht; eexists; eassumption| |].
      + f_equal; [f_equal; eauto|eauto].
      + destruct (Hp' Hp). destruct q; try congruence. destruct Hw'. auto.
    - inversion H' as [|? m' ? o' Hm' Ho|? ? ? ms' o' Hn Hp' Hw' Hm' Ho|? ? ? o' Hn Hw' Hp' Ho]; subst; [destruct Ht; eexists; eassumption| |eauto].
      destruct (Hp Hp'). destruct q; try congruence. destruct Hw. auto.
  Qed.
  Lemma definite_subs (u : spat V) : definite u -> Forall definite (subs u).
  Proof.
    assert (Hall : forall cs : list (spat V), (fix all l := match l with [] => True | c :: l => definite c /\ all l end) cs -> Forall definite cs).
    { induction cs as [|c cs IH]; intros H; [constructor|]. destruct H as [H1 H2]. constructor; [exact H1|apply IH, H2]. }
    destruct u as [vm cs|q vm cs|q vm cs|u]; cbn [subs definite]; [apply Hall|apply Hall|intros [_ H]; apply Hall, H|]. intros H. repeat constructor. exact H.
  Qed.
  Lemma combine_fun (l : list (asg (addr * V))) (ms : list tree) t m m' : NoDup (map at_node l) ->
    (t, m) ∈ combine (map at_node l) ms -> (t, m') ∈ combine (map at_node l) ms -> m = m'.
  Proof.
    revert ms. induction l as [|a l IH]; intros ms Hnd H H'; [apply elem_of_nil in H as []|]. destruct ms as [|m0 ms]; [apply elem_of_nil in H as []|].
    cbn [map combine] in *. apply NoDup_cons in Hnd as [Hn Hnd].
    assert (Hno : forall y, (at_node a, y) ∉ combine (map at_node l) ms) by (intros y Hy; apply Hn; apply elem_of_list_In in Hy; apply in_combine_l in Hy; apply elem_of_list_In, Hy).
    apply elem_of_cons in H as [H|H], H' as [H'|H'].
    - congruence. - injection H as -> ->. destruct (Hno _ H'). - injection H' as -> ->. destruct (Hno _ H). - eauto.
  Qed.
  Lemma nodes_distinct (l : list (asg (addr * V))) (T : list (addr * V)) : flat_map preorder (map at_node l) `sublist_of` T -> NoDup (map fst T) -> NoDup (map at_node l).
  Proof.
    intros Hs Hn. assert (Hnd : NoDup (map fst (flat_map preorder (map at_node l)))).
    { assert (Hs' : map fst (flat_map preorder (map at_node l)) `sublist_of` map fst T) by (clear -Hs; induction Hs; cbn; constructor; assumption).
      apply sublist_submseteq, submseteq_Permutation in Hs' as [k Hk]. rewrite Hk in Hn. apply NoDup_app in Hn. apply Hn. }
    clear -Hnd. induction l as [|a l IH]; [constructor|]. cbn [map flat_map] in *. rewrite map_app in Hnd. apply NoDup_app in Hnd as (_ & Hd & Hnd).
    constructor; [|apply IH, Hnd]. intros Hin. assert (Hl : label (at_node a) ∈ preorder (at_node a)) by (destruct (at_node a); left).
    apply (Hd (fst (label (at_node a)))); apply elem_of_list_fmap; eexists; (split; [reflexivity|]); [exact Hl|apply elem_of_flat_map; eauto].
  Qed.
  Lemma opt_cases q p (cs : list (spat V)) (n : tree) l m : sresult snd (SOpt q p cs) (Asg n l) m ->
    (exists x ts ms, n = Rose x ts /\ (forall a, a ∈ l -> at_node a <> n) /\ sresults snd cs l ms /\ m = Rose x ms) \/
    (exists c b, cs = [c] /\ l = [b] /\ at_node b = n /\ sresult snd c b m).
  Proof. intros H. inversion H; subst; [left; do 3 eexists; eauto|right; do 2 eexists; eauto]. Qed.
  Lemma star_cases q p (cs : list (spat V)) (n : tree) l m : sresult snd (SStar q p cs) (Asg n l) m ->
    (exists x ts ms out, n = Rose x ts /\ (forall a, a ∈ l -> at_node a <> n) /\ sresults snd cs l ms /\ fill snd q p (combine (map at_node l) ms) ts out /\ m = Rose x out) \/
    (exists c b, cs = [c] /\ l = [b] /\ at_node b = n /\ sresult snd c b m).
  Proof. intros H. inversion H; subst; [left; do 4 eexists; eauto 6|right; do 2 eexists; eauto]. Qed.
  Lemma sresult_fun (u0 : spat V) : definite u0 -> forall (t : tree) a m m', NoDup (raddrs t) -> smatch snd u0 t a -> sresult snd u0 a m -> sresult snd u0 a m' -> m = m'.
  Proof.
    assert (Hkids : forall us l ms ms', Forall (fun u => definite u -> forall (t : tree) a m m', NoDup (raddrs t) -> smatch snd u t a -> sresult snd u a m -> sresult snd u a m' -> m = m') us ->
      Forall definite us -> Forall2 (fun u a => smatch snd u (at_node a) a) us l -> (forall a, a ∈ l -> NoDup (raddrs (at_node a))) ->
      sresults snd us l ms -> sresults snd us l ms' -> ms = ms').
    { induction us as [|u us IH]; intros l ms ms' Hu Hd Hm Hn H H'; inversion H; subst; inversion H'; subst; [reflexivity|].
      apply Forall_cons in Hu as [Hu Hus], Hd as [Hd Hds]. inversion Hm; subst. f_equal.
      - eapply (Hu Hd); [|eassumption..]. apply Hn. left.
      - eapply IH; try eassumption. intros b Hb. apply Hn. right. exact Hb. }
    assert (Hlev : forall us x (ts : list tree) l, level snd us ts l -> NoDup (raddrs (Rose x ts)) -> Forall2 (fun u a => smatch snd u (at_node a) a) us l /\ (forall a, a ∈ l -> NoDup (raddrs (at_node a)))).
    { intros us x ts l Hl Hn. split; [eapply level_each, Hl|]. intros a Ha. eapply sub_nd; [|exact Hn]. econstructor; [eapply level_in; eassumption|constructor]. }
    assert (Hown : forall (cs : list (spat V)) x (ts : list tree) l a, level snd cs ts l -> a ∈ l -> NoDup (raddrs (Rose x ts)) -> at_node a <> Rose x ts).
    { intros cs x ts l a Hl Ha Hn E. pose proof (level_in _ _ _ _ Hl Ha) as Hin. rewrite E in Hin. clear -Hin.
      assert (Hsum : forall (t : tree) cs, t ∈ cs -> rsize t <= list_sum (map rsize cs)).
      { intros t cs. induction cs as [|c cs IH]; intros Ht; [apply elem_of_nil in Ht as []|]. change (list_sum (map rsize (c :: cs))) with (rsize c + list_sum (map rsize cs)).
        apply elem_of_cons in Ht as [->|Ht]; [lia|apply IH in Ht; lia]. }
      pose proof (Hsum _ _ Hin) as Hs. change (rsize (Rose x ts)) with (S (list_sum (map rsize ts))) in Hs. lia. }
    induction u0 as [vm cs IH|q vm cs IH|q vm cs IH|u IH] using spat_ind'; intros Hd t a m m' Hn Hm H H'.
    - inversion Hm as [? ? x ts l Hp Hl| | | | | |]; subst. destruct (Hlev _ x _ _ Hl Hn) as [H1 H2]. inversion H; subst. inversion H'; subst. f_equal.
      eapply Hkids; try eassumption. apply (definite_subs _ Hd).
    - pose proof (definite_subs _ Hd) as Hds. cbn [subs] in Hds.
      inversion Hm as [|? ? ? x ts l Hp Hl|? ? c x ts b Hp Hb| | | |]; subst.
      + destruct (Hlev _ x _ _ Hl Hn) as [H1 H2].
        destruct (opt_cases _ _ _ _ _ _ H) as [(x1 & ts1 & ms & E & Hne & Hs & ->)|(c & b & -> & -> & Hb & Hs)]; [injection E as <- <-|];
          (destruct (opt_cases _ _ _ _ _ _ H') as [(x2 & ts2 & ms' & E & Hne' & Hs' & ->)|(c' & b' & Ec & El & Hb' & Hs')]; [injection E as <- <-|]).
        * f_equal. eapply Hkids; eassumption.
        * subst. destruct (Hne b'); [left|exact Hb'].
        * destruct (Hne' b); [left|exact Hb].
        * injection Ec as <-. injection El as <-. apply Forall_cons in IH as [IH _], Hds as [Hds _]. apply Forall2_cons in H1 as [H1 _]. exact (IH Hds _ _ _ _ (H2 b ltac:(left)) H1 Hs Hs').
      + pose proof (smatch_at _ _ _ _ Hb) as Hat. apply Forall_cons in IH as [IH _], Hds as [Hds _].
        destruct (opt_cases _ _ _ _ _ _ H) as [(x1 & ts1 & ms & E & Hne & Hs & ->)|(c1 & b1 & Ec & El & Hb1 & Hs)]; [destruct (Hne b); [left|exact Hat]|].
        destruct (opt_cases _ _ _ _ _ _ H') as [(x2 & ts2 & ms' & E & Hne' & Hs' & ->)|(c' & b' & Ec' & El' & Hb' & Hs')]; [destruct (Hne' b); [left|exact Hat]|].
        injection Ec as <-. injection El as <-. injection Ec' as <-. injection El' as <-. exact (IH Hds _ _ _ _ Hn Hb Hs Hs').
    - pose proof (definite_subs _ Hd) as Hds. cbn [subs] in Hds. destruct Hd as [Hq _].
      assert (Hpres : forall x ts l, t = Rose x ts -> (q <> QPossessive -> below snd vm cs ts l) -> (q = QPossessive -> level snd cs (flat_map (frontier snd vm) ts) l) ->
        sresult snd (SStar q vm cs) (Asg t l) m -> sresult snd (SStar q vm cs) (Asg t l) m' -> m = m').
      { intros x ts l -> Hb Hl G G'. destruct (star_present _ _ _ x _ _ Hb Hl) as (H1 & H2 & H3).
        assert (Hnl : forall a, a ∈ l -> NoDup (raddrs (at_node a))).
        { intros b Hb'. destruct (reached_sub _ _ _ (H3 b Hb')) as [[Hs _]|Hs]; [exact (sub_nd _ _ Hs Hn)|destruct (Hs Hn)]. }
        assert (Hdis : NoDup (map at_node l)).
        { eapply (nodes_distinct l (preorder (Rose x ts))); [|exact Hn]. etransitivity; [exact H2|]. cbn. apply sublist_cons. reflexivity. }
        destruct (star_cases _ _ _ _ _ _ G) as [(x1 & ts1 & ms & out & E & Hne & Hs & Hf & ->)|(c & b & -> & -> & Hb0 & Hs)]; [injection E as <- <-|];
          (destruct (star_cases _ _ _ _ _ _ G') as [(x2 & ts2 & ms' & out' & E & Hne' & Hs' & Hf' & ->)|(c' & b' & Ec & El & Hb' & Hs')]; [injection E as <- <-|]).
        - assert (ms' = ms) as -> by (eapply Hkids; eassumption). f_equal. eapply fill_fun; [exact Hq| |exact Hf|exact Hf']. intros s y y'. apply combine_fun, Hdis.
        - subst. destruct (Hne b'); [left|exact Hb'].
        - destruct (Hne' b); [left|exact Hb0].
        - injection Ec as <-. injection El as <-. apply Forall_cons in IH as [IH _], Hds as [Hds _]. apply Forall2_cons in H1 as [H1 _]. exact (IH Hds _ _ _ _ (Hnl b ltac:(left)) H1 Hs Hs'). }
      inversion Hm as [| | |? ? ? x ts l Hp Hq' Hb|? ? x ts l Hp Hl|? ? c x ts b Hp Hb|]; subst.
      + apply (Hpres x ts l eq_refl (fun _ => Hb)); [congruence|exact H|exact H'].
      + apply (Hpres x ts l eq_refl); [congruence|exact (fun _ => Hl)|exact H|exact H'].
      + pose proof (smatch_at _ _ _ _ Hb) as Hat. apply Forall_cons in IH as [IH _], Hds as [Hds _].
        destruct (star_cases _ _ _ _ _ _ H) as [(x1 & ts1 & ms & out & E & Hne & Hs & Hf & ->)|(c1 & b1 & Ec & El & Hb1 & Hs)]; [destruct (Hne b); [left|exact Hat]|].
        destruct (star_cases _ _ _ _ _ _ H') as [(x2 & ts2 & ms' & out' & E & Hne' & Hs' & Hf' & ->)|(c' & b' & Ec' & El' & Hb' & Hs')]; [destruct (Hne' b); [left|exact Hat]|].
        injection Ec as <-. injection El as <-. injection Ec' as <-. injection El' as <-. exact (IH Hds _ _ _ _ Hn Hb Hs Hs').
    - inversion Hm as [| | | | | |? ? b Hb]; subst. inversion H; subst. inversion H'; subst. eapply IH; try eassumption.
  Qed.
End Unique.
