(** TreeOps4.v: comparisons and range erasure (generic in the node type, see
    TreeOps.v). *)
From Verif Require Import Base Spec StructNode LitFacts BinaryNode NaryNode Nav Policy Tree User Rep NavFacts World NaryOps2 Kinds TreeSpec TreeOps TreeOps2 TreeOps3.

Section Ops4.
  Context {V Nd : Type}.
  Variable F : nat.
  Variable im : node_impl V Nd.
  Variable al : allocator Nd.
  Variable K : kind_data V Nd.
  Hypothesis KO : kind_ok F im al K.
  Hypothesis HFW : (N.of_nat F <= W64)%N.
  Notation heap := (gmap addr Nd).
  Notation C := (C K).
  Notation croot := (croot K).
  Notation caddrs := (caddrs K).
  Notation crep := (crep K).
  Notation cnil := (cnil K).
  Notation cvals := (cvals K).
  Notation holds := (holds croot caddrs crep).
  Notation heap_ok := (heap_ok caddrs crep).
  Notation built := (built caddrs crep).
  Notation len c := (length (caddrs c)).
  Notation csubst := (csubst K).
  Notation csub := (csub K).
  Notation caches := (caches K).

  Let nd := k_nd _ _ _ _ KO.
  Let dm := k_dom _ _ _ _ KO.
  Let ext := k_ext _ _ _ _ KO.

  (** size() and arity() change nothing but the caches. *)
  Lemma size_step w M E i c : holds w M E -> caches w M -> M !! i = Some c -> len c < F ->
    exists w', tree_size F im w i = Ok (N.of_nat (len c), w') /\ holds w' M E /\ caches w' M /\ w_heap w' = w_heap w /\
      exists t, w_trees w !! i = Some t /\ w_trees w' = <[i := TreeRec (t_root t) (N.of_nat (len c)) (t_arity t) (t_nav t)]> (w_trees w).
  Proof using KO HFW.
    intros H Hc Hi HF. destruct (holds_get _ _ _ _ _ _ _ _ H Hi) as (t & Ht & Hg & Hr & Hn).
    destruct (tree_size_ok F im al K KO w M E i c t H Hi Ht ltac:(lia)) as (s & Hs & H1 & Hs1 & Hs2).
    pose proof (Hc _ _ _ Ht Hi) as [Hcs Hca].
    assert (s = N.of_nat (len c)) as ->.
    { rewrite (lt_szt F HFW) in Hs1, Hs2 by exact HF. destruct Hcs as [Hcs|Hcs]; [apply Hs1, Hcs|destruct Hs2; congruence]. }
    eexists. split; [exact Hs|]. split; [exact H1|]. split; [|split; [reflexivity|exists t; auto]].
    eapply caches_set; [exact Hc|exact Hi|]. split; [right; reflexivity|exact Hca].
  Qed.
  Lemma arity_step w M E i c : holds w M E -> caches w M -> M !! i = Some c -> len c < F ->
    exists w', tree_arity F im w i = Ok (N.of_nat (carity K c), w') /\ holds w' M E /\ caches w' M /\ w_heap w' = w_heap w /\
      exists t, w_trees w !! i = Some t /\ w_trees w' = <[i := TreeRec (t_root t) (t_size t) (N.of_nat (carity K c)) (t_nav t)]> (w_trees w).
  Proof using KO HFW.
    intros H Hc Hi HF. destruct (holds_get _ _ _ _ _ _ _ _ H Hi) as (t & Ht & Hg & Hr & Hn).
    destruct (tree_arity_ok F im al K KO w M E i c t H Hi Ht ltac:(lia) ltac:(lia)) as (s & Hs & H1 & Hs1 & Hs2).
    pose proof (Hc _ _ _ Ht Hi) as [Hcs Hca].
    assert (s = N.of_nat (carity K c)) as -> by (destruct Hca as [Hca|Hca]; [apply Hs1, Hca|destruct Hs2; congruence]).
    eexists. split; [exact Hs|]. split; [exact H1|]. split; [|split; [reflexivity|exists t; auto]].
    eapply caches_set; [exact Hc|exact Hi|]. split; [exact Hcs|right; reflexivity].
  Qed.

  Lemma tree_eq_ok w M E i j c d : holds w M E -> caches w M -> M !! i = Some c -> M !! j = Some d -> len c < F -> len d < F ->
    exists r w', tree_eq F im w i j = Ok (r, w') /\ (r = true <-> cvals c = cvals d) /\
      holds w' M E /\ caches w' M /\ w_heap w' = w_heap w.
  Proof using KO HFW.
    intros H Hc Hi Hj HFc HFd.
    destruct (holds_get _ _ _ _ _ _ _ _ H Hi) as (a & _ & Hga & Hra & _).
    destruct (holds_get _ _ _ _ _ _ _ _ H Hj) as (b & _ & Hgb & Hrb & _).
    unfold tree_eq. rewrite Hga, Hgb. cbn [mbind res_bind]. unfold tree_empty. rewrite Hra, Hrb.
    destruct (Bool.eqb (is_null (croot c)) (is_null (croot d))) eqn:Ee; cbn [negb].
    2:{ exists false, w. split; [reflexivity|]. split; [|auto]. split; [discriminate|]. intros Hv. exfalso.
        destruct (k_vals _ _ _ _ KO c d Hv) as (_ & _ & Hn). apply Bool.eqb_false_iff in Ee.
        destruct (croot c), (croot d); cbn in *; try congruence; destruct Hn as [Hn1 Hn2]; try (specialize (Hn1 eq_refl); discriminate); specialize (Hn2 eq_refl); discriminate. }
    destruct (size_step w M E i c H Hc Hi HFc) as (w1 & -> & H1 & Hc1 & Hh1 & _). cbn [mbind res_bind].
    destruct (size_step w1 M E j d H1 Hc1 Hj HFd) as (w2 & -> & H2 & Hc2 & Hh2 & _). cbn [mbind res_bind].
    destruct (N.eqb_spec (N.of_nat (len c)) (N.of_nat (len d))) as [Es|Es]; cbn [negb].
    2:{ exists false, w2. split; [reflexivity|]. split; [|split; [exact H2|split; [exact Hc2|congruence]]]. split; [discriminate|].
        intros Hv. destruct (k_vals _ _ _ _ KO c d Hv) as (Hl & _). rewrite Hl in Es. congruence. }
    destruct (arity_step w2 M E i c H2 Hc2 Hi HFc) as (w3 & -> & H3 & Hc3 & Hh3 & _). cbn [mbind res_bind].
    destruct (arity_step w3 M E j d H3 Hc3 Hj HFd) as (w4 & -> & H4 & Hc4 & Hh4 & _). cbn [mbind res_bind].
    destruct (N.eqb_spec (N.of_nat (carity K c)) (N.of_nat (carity K d))) as [Ea|Ea]; cbn [negb].
    2:{ exists false, w4. split; [reflexivity|]. split; [|split; [exact H4|split; [exact Hc4|congruence]]]. split; [discriminate|].
        intros Hv. destruct (k_vals _ _ _ _ KO c d Hv) as (_ & Hl & _). rewrite Hl in Ea. congruence. }
    destruct (croot c) as [ra|] eqn:Erc, (croot d) as [rb|] eqn:Erd; cbn in Ee |- *; try discriminate.
    - destruct (k_eq _ _ _ _ KO (w_heap w4) (w_heap w4) c d ra rb) as (r & Hr & Hiff).
      { eapply rep_src, holds_rep; eassumption. } { eapply rep_src, holds_rep; eassumption. }
      { exact Erc. } { exact Erd. } { lia. } { lia. } { lia. }
      rewrite Hr. cbn. exists r, w4. split; [reflexivity|]. split; [exact Hiff|]. split; [exact H4|]. split; [exact Hc4|congruence].
    - exists true, w4. split; [reflexivity|]. split; [|split; [exact H4|split; [exact Hc4|congruence]]].
      apply (k_null _ _ _ _ KO) in Erc, Erd. subst. tauto.
  Qed.

  Lemma tree_eq_struct_ok w M E i c v cs : holds w M E -> caches w M -> M !! i = Some c -> len c < F -> lit_ok K (LNode v cs) ->
    exists r w', tree_eq_struct F im w i (eval_lit (LNode v cs)) = Ok (r, w') /\ (r = true <-> cvals c = lit_vals K (LNode v cs)) /\
      holds w' M E /\ caches w' M /\ w_heap w' = w_heap w.
  Proof using KO HFW.
    intros H Hc Hi HFc Hl. destruct (holds_get _ _ _ _ _ _ _ _ H Hi) as (a & _ & Hga & Hra & _).
    unfold tree_eq_struct. rewrite Hga. cbn [mbind res_bind].
    assert (is_empty_node (eval_lit (LNode v cs)) = false) as ->.
    { destruct cs; reflexivity. }
    destruct (size_step w M E i c H Hc Hi HFc) as (w1 & -> & H1 & Hc1 & Hh1 & _). cbn [mbind res_bind].
    destruct (N.eqb_spec (N.of_nat (len c)) (subtree_size (eval_lit (LNode v cs)))) as [Es|Es]; cbn [negb].
    2:{ exists false, w1. split; [reflexivity|]. split; [|split; [exact H1|split; [exact Hc1|exact Hh1]]]. split; [discriminate|].
        intros Hv. destruct (k_lit _ _ _ _ KO c v cs Hl Hv) as [Hx _]. congruence. }
    destruct (arity_step w1 M E i c H1 Hc1 Hi HFc) as (w2 & -> & H2 & Hc2 & Hh2 & _). cbn [mbind res_bind].
    destruct (N.eqb_spec (N.of_nat (carity K c)) (subtree_arity (eval_lit (LNode v cs)))) as [Ea|Ea]; cbn [negb].
    2:{ exists false, w2. split; [reflexivity|]. split; [|split; [exact H2|split; [exact Hc2|congruence]]]. split; [discriminate|].
        intros Hv. destruct (k_lit _ _ _ _ KO c v cs Hl Hv) as [_ Hx]. congruence. }
    rewrite Hra. destruct (croot c) as [ra|] eqn:Erc.
    - destruct (k_eq_struct _ _ _ _ KO (w_heap w2) c ra v cs Hl) as (r & Hr & Hiff).
      { eapply rep_src, holds_rep; eassumption. } { exact Erc. } { lia. }
      rewrite Hr. cbn. exists r, w2. split; [reflexivity|]. split; [exact Hiff|]. split; [exact H2|]. split; [exact Hc2|congruence].
    - exists false, w2. split; [reflexivity|]. split; [|split; [exact H2|split; [exact Hc2|congruence]]]. split; [discriminate|].
      intros Hv. destruct (k_lit_root _ _ _ _ KO c v cs Hl Hv Erc).
  Qed.
  Lemma tree_eq_empty_ok w M E i c : holds w M E -> M !! i = Some c ->
    exists r, tree_eq_struct F im w i (eval_lit LEmpty) = Ok (r, w) /\ (r = true <-> c = cnil).
  Proof using KO HFW.
    intros H Hi. destruct (holds_get _ _ _ _ _ _ _ _ H Hi) as (a & _ & Hga & Hra & _).
    unfold tree_eq_struct. rewrite Hga. cbn. eexists. split; [reflexivity|]. unfold tree_empty. rewrite Hra. split.
    - destruct (croot c) eqn:E0; cbn; [discriminate|]. intros _. apply (k_null _ _ _ _ KO), E0.
    - intros ->. rewrite (nil_root F im al K KO). reflexivity.
  Qed.

  (** *** erase(first, last) *)
  Notation prune := (prune K).
  Notation erasable := (erasable K).

  Lemma post_split h c x l1 l2 : crep h c -> cpost K c = l1 ++ x :: l2 ->
    x ∈ caddrs c /\ (croot c = Some x -> l2 = []) /\
    (croot c <> Some x -> exists l1', cpost K (csubst x cnil c) = l1' ++ l2).
  Proof using KO HFW.
    intros Hc Hp. assert (Hndp : NoDup (cpost K c)) by (rewrite (k_post_perm _ _ _ _ KO c); eapply nd, Hc).
    assert (Hx : x ∈ caddrs c) by (rewrite <- (k_post_perm _ _ _ _ KO c), Hp; apply elem_of_app; right; left).
    split; [exact Hx|]. destruct (k_post_sub _ _ _ _ KO h c x Hc Hx) as (p1 & p2 & q & Hps & Hq & Hpn).
    pose proof Hps as Hps'. rewrite Hq, <- app_assoc in Hps.
    assert (l2 = p2) as ->.
    { rewrite Hp in Hps. rewrite app_assoc in Hps. rewrite Hp in Hndp. clear -Hps Hndp.
      revert l1 Hps Hndp. generalize (p1 ++ q) as l0. induction l0 as [|y l0 IH]; intros [|z l1] Hl Hnd; cbn in *.
      - congruence.
      - injection Hl as -> _. apply NoDup_cons in Hnd as [Hn _]. destruct Hn. apply elem_of_app. right. left.
      - injection Hl as Hy ->. subst y. apply NoDup_cons in Hnd as [Hn _]. destruct Hn. apply elem_of_app. right. left.
      - injection Hl as -> Hl. apply NoDup_cons in Hnd as [_ Hnd]. eapply IH; eassumption. }
    split.
    - intros Hr. destruct (k_subst _ _ _ _ KO h c cnil x Hc Hx) as (_ & Hsr & _). destruct (Hsr Hr) as [Hcc _].
      rewrite Hcc in Hps'. apply (f_equal length) in Hps'. rewrite !app_length in Hps'. destruct p2; [reflexivity|cbn in Hps'; lia].
    - intros Hr. exists p1. apply Hpn, Hr.
  Qed.

  Lemma erase_loop_ok i last rt post : it_root last = rt -> it_cur last = head post ->
    forall ds k w M c first pre, holds w M [] -> M !! i = Some c -> len c < F -> length ds < k ->
    cpost K c = pre ++ ds ++ post -> it_kind first = PostOrder -> it_cur first = head (ds ++ post) -> it_root first = rt ->
    (ds <> [] -> croot c = rt) -> erasable ds c ->
    exists w' s r, erase_loop F im k w i first last = Ret () w' /\ holds w' (<[i := prune ds c]> M) [] /\
      len (prune ds c) <= len c /\
      w_trees w' = <[i := TreeRec (croot (prune ds c)) s r (croot (prune ds c))]> (w_trees w) /\
      (croot (prune ds c) = None \/ croot (prune ds c) = croot c) /\
      (exists pre', cpost K (prune ds c) = pre' ++ post).
  Proof using KO HFW.
    intros Hlr Hlc. induction ds as [|x ds IH]; intros k w M c first pre H Hi HF Hk Hp Hfk Hfc Hfr Hrt Her; (destruct k as [|k]; [lia|]); cbn [erase_loop].
    - assert (it_eqb first last = true) as ->.
      { unfold it_eqb. rewrite Hfc, Hlc, Hfr, Hlr. cbn [app]. rewrite !ptr_eqb_true. reflexivity. }
      destruct (holds_get _ _ _ _ _ _ _ _ H Hi) as (t & Ht & _ & Hr & Hn).
      exists w, (t_size t), (t_arity t). split; [reflexivity|]. cbn [prune foldl]. rewrite insert_id by exact Hi. split; [exact H|].
      split; [lia|]. split; [|split; [auto|exists pre; exact Hp]]. rewrite insert_id; [reflexivity|]. rewrite Ht. destruct t. cbn in *. subst. reflexivity.
    - cbn [app head] in Hfc. specialize (Hrt ltac:(discriminate)).
      pose proof (holds_rep _ _ _ _ _ _ _ _ H Hi) as Hc.
      assert (Hndp : NoDup (cpost K c)) by (rewrite (k_post_perm _ _ _ _ KO c); eapply nd, Hc).
      assert (it_eqb first last = false) as ->.
      { unfold it_eqb. rewrite Hfc, Hlc. rewrite ptr_eqb_false; [reflexivity|]. intros E. rewrite Hp in Hndp.
        apply NoDup_app in Hndp as (_ & _ & Hndp). cbn in Hndp. apply NoDup_cons in Hndp as [Hn _]. apply Hn.
        destruct post as [|y post]; [discriminate|]. injection E as ->. apply elem_of_app. right. left. }
      destruct (post_split (w_heap w) c x pre (ds ++ post) Hc Hp) as (Hx & Hroot & Hnroot).
      destruct (holds_get _ _ _ _ _ _ _ _ H Hi) as (t & Ht & _ & Hr & Hn). destruct Her as [Her1 Her2].
      destruct (croot c) as [rt'|] eqn:Ert.
      2:{ apply (k_null _ _ _ _ KO) in Ert. subst c. rewrite (nil_addrs F im al K KO) in Hx. apply elem_of_nil in Hx as []. }
      assert (Hst : stands F im (w_heap w) (croot c) x first).
      { split; [exact Hfc|]. split; [congruence|]. rewrite Hfk. discriminate. }
      assert (Hinc : it_incr F (tree_nav im (w_heap w)) first = Ok (Iter PostOrder (head (ds ++ post)) rt (it_open first) (it_initial first))).
      { unfold it_incr. rewrite Hfc, Hfk, Hfr. cbn [increment_impl].
        pose proof (k_post _ _ _ _ KO (w_heap w) c pre x (ds ++ post) Hc HF Hp) as Hpost. rewrite Ert, Hrt in Hpost. rewrite Hpost.
        cbn [mbind res_bind]. unfold it_set. rewrite Hfk, Hfr. reflexivity. }
      rewrite Hinc. cbn [res_out].
      destruct (erase_subtree_ok F im al K KO w M [] i c t x first H Hi Ht Hx Hst) as (w1 & He & H1 & Ht1).
      { rewrite Ert. exact Her1. } { exact HF. }
      rewrite He. cbn [out_bind].
      destruct (k_subst _ _ _ _ KO (w_heap w) c cnil x Hc Hx) as (_ & Hsr & Hsn).
      assert (Hlen : len (csubst x cnil c) <= len c).
      { destruct (decide (croot c = Some x)) as [E|E].
        - destruct (Hsr E) as [_ ->]. rewrite (nil_addrs F im al K KO). cbn. lia.
        - destruct (Hsn E) as [_ Hpm]. apply Permutation_length in Hpm. rewrite !app_length, (nil_addrs F im al K KO) in Hpm. cbn in Hpm. lia. }
      assert (Hinv : exists pre', cpost K (csubst x cnil c) = pre' ++ ds ++ post).
      { destruct (decide (croot c = Some x)) as [E|E].
        - rewrite Ert in E. rewrite (Hroot E). exists (cpost K (csubst x cnil c)). rewrite app_nil_r. reflexivity.
        - apply Hnroot. congruence. }
      destruct Hinv as (pre' & Hp').
      destruct (IH k w1 (<[i := csubst x cnil c]> M) (csubst x cnil c) (Iter PostOrder (head (ds ++ post)) rt (it_open first) (it_initial first)) pre') as (w' & s & r & Hw' & H2 & Hl2 & Ht2 & Hor & Hpp); try assumption; try reflexivity.
      { apply lookup_insert. } { lia. } { cbn in Hk. lia. }
      { intros Hne. destruct (decide (croot c = Some x)) as [E|E].
        - rewrite Ert in E. specialize (Hroot E). apply app_eq_nil in Hroot as [-> _]. congruence.
        - destruct (Hsn E) as [-> _]. congruence. }
      exists w', s, r. split; [exact Hw'|]. change (prune (x :: ds) c) with (prune ds (csubst x cnil c)).
      rewrite insert_insert in H2. split; [exact H2|]. split; [lia|]. rewrite Ht1, insert_insert in Ht2. split; [exact Ht2|]. split; [|exact Hpp].
      destruct Hor as [Hor|Hor]; [left; exact Hor|]. rewrite Hor. destruct (decide (croot c = Some x)) as [E|E].
      + destruct (Hsr E) as [_ ->]. left. apply (nil_root F im al K KO).
      + right. destruct (Hsn E) as [-> _]. congruence.
  Qed.

  Lemma erase_range_ok w M i c first last pre ds post : holds w M [] -> M !! i = Some c -> len c < F ->
    cpost K c = pre ++ ds ++ post -> it_kind first = PostOrder ->
    it_cur first = head (ds ++ post) -> it_cur last = head post -> it_root first = croot c -> it_root last = croot c ->
    erasable ds c ->
    exists it w', erase_range F im w i first last = Ret it w' /\ holds w' (<[i := prune ds c]> M) [] /\
      it_kind it = PostOrder /\ it_cur it = head post /\ it_root it = croot (prune ds c).
  Proof using KO HFW.
    intros H Hi HF Hp Hfk Hfc Hlc Hfr Hlr Her. pose proof (holds_rep _ _ _ _ _ _ _ _ H Hi) as Hc.
    assert (Hlen : length ds < F).
    { pose proof (Permutation_length (k_post_perm _ _ _ _ KO c)) as Hl. rewrite Hp, !app_length in Hl. lia. }
    destruct (erase_loop_ok i last (croot c) post Hlr Hlc ds F w M c first pre H Hi HF Hlen Hp Hfk Hfc Hfr (fun _ => eq_refl) Her)
      as (w' & s & r & Hw' & H' & Hl' & Ht' & Hor & pre' & Hpp).
    unfold erase_range. rewrite Hw'. cbn [out_bind]. unfold get_tree. rewrite Ht', lookup_insert. cbn [mbind res_bind tree_empty t_root].
    destruct (croot (prune ds c)) as [b|] eqn:Eb; cbn [is_null].
    - destruct Hor as [|Hor]; [discriminate|]. rewrite Hlr, <- Hor. cbn. eexists _, w'. split; [reflexivity|].
      split; [exact H'|]. split; [reflexivity|]. split; [exact Hlc|reflexivity].
    - cbn. eexists _, w'. split; [reflexivity|]. split; [exact H'|]. split; [reflexivity|]. split; [|reflexivity].
      cbn. destruct post as [|y post]; [reflexivity|]. exfalso.
      apply (k_null _ _ _ _ KO) in Eb. rewrite Eb in Hpp.
      pose proof (k_post_perm _ _ _ _ KO cnil) as Hpm. rewrite (nil_addrs F im al K KO), Hpp in Hpm.
      apply Permutation_length in Hpm. rewrite !app_length in Hpm. cbn in Hpm. lia.
  Qed.
End Ops4.
