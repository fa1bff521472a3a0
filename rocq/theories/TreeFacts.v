(** TreeFacts.v: both kinds of trees satisfy the interface [kind_ok]; the
    contents of a consistent world are unique; every valid call succeeds (or
    throws) and keeps the world consistent. *)
From Verif Require Import Base Spec StructNode BinaryNode NaryNode Nav Policy Tree User Rep EditSpec NavFacts World NaryRep NaryOps2 BinRep BinOps Kinds
  TreeSpec TreeOps TreeOps2 TreeOps3 TreeOps4 TreeBin TreeNary IterMain IterProofs History.

Lemma kind_is_ok {V} {EV : EqDecision V} {Nd} {im : node_impl V Nd} {K} F al : tree_kind V EV Nd im K -> kind_ok F im al K.
Proof. intros H. destruct H; [apply binary_ok|apply nary_ok]. Qed.

(** *** Uniqueness of contents *)
Lemma brep_unique {V} (h : gmap addr (bnode V)) : forall t p p' t', brep h p t -> brep h p' t' -> baddr t = baddr t' -> t = t'.
Proof.
  induction t as [|[a v] l IHl r IHr]; intros p p' [|[a' v'] l' r'] H H' E; cbn in E; try discriminate; [reflexivity|].
  injection E as <-. cbn in H, H'. destruct H as (H1 & H2 & H3), H' as (H1' & H2' & H3').
  rewrite H1 in H1'. injection H1' as -> _ El Er. f_equal; [eapply IHl|eapply IHr]; eassumption.
Qed.
Lemma nrep_unique {V} (h : gmap addr (nnode V)) : forall t p q n f p' q' n' f' t',
  nrep h p q n f t -> nrep h p' q' n' f' t' -> raddr t = raddr t' -> t = t'.
Proof.
  induction t as [[a v] cs IH] using rose_ind'. intros p q n f p' q' n' f' [[a' v'] cs'] H H' E. cbn in E. subst a'.
  cbn [nrep] in H, H'. destruct H as [H1 H2], H' as [H1' H2']. rewrite H1 in H1'. injection H1' as -> _ _ _ _ Ef _. f_equal.
  clear H1. revert cs' H2' Ef H2. generalize (@None addr) as z. revert IH.
  induction cs as [|c cs IHcs]; intros IH z [|c' cs'] H2' Ef H2; cbn in Ef; try discriminate; [reflexivity|].
  inversion IH as [|? ? Hc Hcs]; subst. injection Ef as Ef. destruct H2 as [H2 H3], H2' as [H2' H3'].
  assert (c = c') as <- by (eapply Hc; eassumption). f_equal. eapply IHcs; [exact Hcs|exact H3'| |exact H3].
  destruct c as [[x y] ds]. cbn [nrep] in H2, H2'. destruct H2 as [H2 _], H2' as [H2' _]. congruence.
Qed.

Lemma contents_unique {V} {EV : EqDecision V} {Nd} {im : node_impl V Nd} {K} : tree_kind V EV Nd im K ->
  forall w M M', consistent K w M -> consistent K w M' -> M = M'.
Proof.
  intros HK w M M' H H'. apply map_eq. intros i.
  destruct (M !! i) as [c|] eqn:E, (M' !! i) as [d|] eqn:E'; [|..|reflexivity].
  - f_equal. assert (Ht : is_Some (w_trees w !! i)) by (apply (wo_live _ _ _ _ _ H); eauto). destruct Ht as [t Ht].
    destruct (wo_tree _ _ _ _ _ H i t c Ht E) as (Hr & _ & Hc). destruct (wo_tree _ _ _ _ _ H' i t d Ht E') as (Hr' & _ & Hd).
    rewrite Hr in Hr'. destruct HK; cbn in c, d, Hr', Hc, Hd.
    + destruct Hc as [Hc _], Hd as [Hd _]. eapply brep_unique; eassumption.
    + destruct c as [c|], d as [d|]; cbn in Hr'; try discriminate; [|reflexivity].
      destruct Hc as [Hc _], Hd as [Hd _]. injection Hr' as Hr'. f_equal. eapply nrep_unique; eassumption.
  - assert (is_Some (M' !! i)) as [? ?]; [|congruence]. apply (wo_live _ _ _ _ _ H'), (wo_live _ _ _ _ _ H). eauto.
  - assert (is_Some (M !! i)) as [? ?]; [|congruence]. apply (wo_live _ _ _ _ _ H), (wo_live _ _ _ _ _ H'). eauto.
Qed.

(** begin(post_order()) of a consistent tree. *)
Lemma post_begin {V} {EV : EqDecision V} {Nd} {im : node_impl V Nd} {K} F : tree_kind V EV Nd im K ->
  forall h c, crep K h c -> length (caddrs K c) < F ->
  exists b, it_incr F (tree_nav im h) (Iter PostOrder None (croot K c) [] None) = Ok b.
Proof.
  intros HK h c Hc HF. destruct HK.
  - destruct (p_ends_binary V EV F h c PostOrder) as (b & e & Hb & _).
    { exists None. exact Hc. }
    { rewrite <- (length_baddrs c). exact HF. }
    { right. right. left. reflexivity. }
    exists b. rewrite <- Hb. unfold tree_begin, it_end, get_instance, fix_navigator_root. cbn [croot binary_kind nary_kind]. destruct (baddr c); reflexivity.
  - destruct (p_ends_nary V EV F h c PostOrder) as (b & e & Hb & _).
    { destruct c as [t|]; [|exact I]. exists None, None, None, (szt 0). exact Hc. }
    { cbn in HF. destruct c as [t|]; cbn [naddrs opt_list nsize] in *; [rewrite length_raddrs in HF|]; exact HF. }
    { right. left. reflexivity. }
    exists b. rewrite <- Hb. unfold tree_begin, it_end, get_instance, fix_navigator_root. cbn [croot binary_kind nary_kind]. destruct (nroot c); reflexivity.
Qed.

Section Calls.
  Context {V : Type} {EV : EqDecision V} {Nd : Type}.
  Variable F : nat.
  Variable im : node_impl V Nd.
  Variable al : allocator Nd.
  Variable K : kind_data V Nd.
  Hypothesis HK : tree_kind V EV Nd im K.
  Hypothesis HFW : (N.of_nat F <= W64)%N.
  Let KO : kind_ok F im al K := kind_is_ok F al HK.
  Notation holds := (holds (croot K) (caddrs K) (crep K)).
  Notation len c := (length (caddrs K c)).

  Lemma to_holds w M : consistent K w M <-> holds w M [].
  Proof using All. apply world_ok_holds. apply KO. Qed.
  Lemma tree_get w M i : holds w M [] -> live K M i -> exists c t, M !! i = Some c /\ w_trees w !! i = Some t /\ len c <= size (w_heap w).
  Proof using All.
    intros H [c Hc]. destruct (holds_get _ _ _ _ _ _ _ _ H Hc) as (t & Ht & _). exists c, t. split; [exact Hc|]. split; [exact Ht|].
    eapply holds_size; try eassumption.
  Qed.

  Lemma tree_eq_safe w M i j : holds w M [] -> live K M i -> live K M j -> size (w_heap w) < F ->
    exists r w', tree_eq F im w i j = Ok (r, w') /\ holds w' M [] /\ w_heap w' = w_heap w.
  Proof using All.
    intros H Hi Hj HF. destruct (tree_get w M i H Hi) as (c & ti & Hc & Hti & Lc). destruct (tree_get w M j H Hj) as (d & tj & Hd & Htj & Ld).
    destruct (holds_get _ _ _ _ _ _ _ _ H Hc) as (a & _ & Hga & Hra & _). destruct (holds_get _ _ _ _ _ _ _ _ H Hd) as (b & _ & Hgb & Hrb & _).
    unfold tree_eq. rewrite Hga, Hgb. cbn [mbind res_bind]. unfold tree_empty. rewrite Hra, Hrb.
    destruct (Bool.eqb (is_null (croot K c)) (is_null (croot K d))) eqn:Ee; cbn [negb]; [|eauto].
    destruct (tree_size_ok F im al K KO w M [] i c ti H Hc Hti ltac:(lia)) as (s1 & -> & H1 & _). cbn [mbind res_bind].
    set (w1 := set_tree w i _) in *. destruct (holds_get _ _ _ _ _ _ _ _ H1 Hd) as (t1 & Ht1 & _).
    destruct (tree_size_ok F im al K KO w1 M [] j d t1 H1 Hd Ht1 ltac:(lia)) as (s2 & -> & H2 & _). cbn [mbind res_bind].
    set (w2 := set_tree w1 j _) in *. destruct (negb (s1 =? s2)%N); [eauto|].
    destruct (holds_get _ _ _ _ _ _ _ _ H2 Hc) as (t2 & Ht2 & _).
    destruct (tree_arity_ok F im al K KO w2 M [] i c t2 H2 Hc Ht2 ltac:(lia) ltac:(lia)) as (r1 & -> & H3 & _). cbn [mbind res_bind].
    set (w3 := set_tree w2 i _) in *. destruct (holds_get _ _ _ _ _ _ _ _ H3 Hd) as (t3 & Ht3 & _).
    destruct (tree_arity_ok F im al K KO w3 M [] j d t3 H3 Hd Ht3 ltac:(lia) ltac:(lia)) as (r2 & -> & H4 & _). cbn [mbind res_bind].
    set (w4 := set_tree w3 j _) in *. destruct (negb (r1 =? r2)%N); [eauto|].
    destruct (croot K c) as [ra|] eqn:Erc, (croot K d) as [rb|] eqn:Erd; cbn in Ee |- *; try discriminate; [|eauto].
    destruct (k_eq _ _ _ _ KO (w_heap w4) (w_heap w4) c d ra rb) as (r & Hr & Hiff).
    { eapply (rep_src F im al K KO), holds_rep; eassumption. } { eapply (rep_src F im al K KO), holds_rep; eassumption. }
    { exact Erc. } { exact Erd. } { lia. } { lia. } { lia. }
    change (w_heap w) with (w_heap w4). rewrite Hr. cbn. eauto.
  Qed.
  Lemma tree_eq_struct_safe w M i l : holds w M [] -> live K M i -> l = LEmpty \/ good_lit K l -> size (w_heap w) < F ->
    exists r w', tree_eq_struct F im w i (eval_lit l) = Ok (r, w') /\ holds w' M [] /\ w_heap w' = w_heap w.
  Proof using All.
    intros H Hi Hl HF. destruct (tree_get w M i H Hi) as (c & ti & Hc & Hti & Lc).
    destruct (holds_get _ _ _ _ _ _ _ _ H Hc) as (a & _ & Hga & Hra & _).
    destruct Hl as [->|(v & cs & -> & Hl)].
    { destruct (tree_eq_empty_ok F im al K KO HFW w M [] i c H Hc) as (r & Hr & _). eauto. }
    unfold tree_eq_struct. rewrite Hga. cbn [mbind res_bind].
    assert (is_empty_node (eval_lit (LNode v cs)) = false) as -> by (destruct cs; reflexivity).
    destruct (tree_size_ok F im al K KO w M [] i c ti H Hc Hti ltac:(lia)) as (s1 & -> & H1 & _). cbn [mbind res_bind].
    set (w1 := set_tree w i _) in *. destruct (negb (s1 =? _)%N); [eauto|].
    destruct (holds_get _ _ _ _ _ _ _ _ H1 Hc) as (t2 & Ht2 & _).
    destruct (tree_arity_ok F im al K KO w1 M [] i c t2 H1 Hc Ht2 ltac:(lia) ltac:(lia)) as (r1 & -> & H3 & _). cbn [mbind res_bind].
    set (w3 := set_tree w1 i _) in *. destruct (negb (r1 =? _)%N); [eauto|].
    rewrite Hra. destruct (croot K c) as [ra|] eqn:Erc; [|eauto].
    destruct (k_eq_struct _ _ _ _ KO (w_heap w3) c ra v cs Hl) as (r & Hr & Hiff).
    { eapply (rep_src F im al K KO), holds_rep; eassumption. } { exact Erc. } { lia. }
    rewrite Hr. cbn. eauto.
  Qed.

  (** erase(end()): throws, or does nothing on an empty tree. *)
  Lemma erase_end w M i c pos : holds w M [] -> M !! i = Some c -> it_root pos = croot K c -> it_cur pos = None -> size (w_heap w) < F ->
    (croot K c <> None -> erase F im w i pos = Throw w) /\
    (croot K c = None -> exists it, erase F im w i pos = Ret it w /\ it_kind it = PostOrder /\ it_cur it = None /\ it_root it = None).
  Proof using All.
    intros H Hi Hroot Hcur HF. destruct (holds_get _ _ _ _ _ _ _ _ H Hi) as (t & Ht & Hg & Hr & Hn).
    pose proof (holds_rep _ _ _ _ _ _ _ _ H Hi) as Hrep. pose proof (holds_size _ _ _ _ _ _ _ _ H Hi) as Hsz.
    destruct (post_begin F HK (w_heap w) c Hrep ltac:(lia)) as (b & Hb).
    assert (Hinst : get_instance F (tree_nav im (w_heap w)) PostOrder None (croot K c) = Ok (Iter PostOrder None (croot K c) [] None)) by (destruct (croot K c); reflexivity).
    unfold erase. rewrite Hroot, Hcur, Hinst. cbn [res_out]. rewrite Hb. cbn [res_out]. unfold erase_subtree. rewrite Hg. cbn [res_out it_cur].
    rewrite Hr. split; intros Hn'.
    - destruct (croot K c); [reflexivity|contradiction].
    - rewrite Hn'. cbn [out_bind]. rewrite Hg. cbn [mbind res_bind]. unfold tree_empty. rewrite Hr, Hn'. cbn. eauto.
  Qed.

  Lemma upd w w' (M : gmap tid (C K)) i c t' : caches K w M -> w_trees w' = <[i := t']> (w_trees w) -> cached K t' c -> caches K w' (<[i := c]> M).
  Proof using All.
    intros H E Hc k t d Ht Hd. rewrite E in Ht. destruct (decide (i = k)) as [->|Hne].
    - rewrite lookup_insert in Ht. rewrite lookup_insert in Hd. congruence.
    - rewrite lookup_insert_ne in Ht by exact Hne. rewrite lookup_insert_ne in Hd by exact Hne. eapply H; eassumption.
  Qed.
  Lemma upd2 w w' (M : gmap tid (C K)) i j c d ti tj : caches K w M -> w_trees w' = <[j := tj]> (<[i := ti]> (w_trees w)) ->
    cached K tj d -> cached K ti c -> caches K w' (<[j := d]> (<[i := c]> M)).
  Proof using All.
    intros H E Hd Hc. eapply (upd (World (w_heap w) (<[i := ti]> (w_trees w)))); [|exact E|exact Hd].
    eapply upd; [exact H|reflexivity|exact Hc].
  Qed.
  Lemma nilc p q : cached K (TreeRec p 0 0 q) (cnil K).
  Proof using All. split; left; reflexivity. Qed.
  Lemma same_cached t c c' p q : cached K t c -> len c' = len c -> carity K c' = carity K c -> cached K (TreeRec p (t_size t) (t_arity t) q) c'.
  Proof using All. intros [H1 H2] E1 E2. unfold cached. cbn. rewrite E1, E2. auto. Qed.

  (** Every valid call returns or throws, and leaves a consistent world. *)
  Lemma exec_ok w M c : consistent K w M -> valid F im K w M c -> size (w_heap w) < F ->
    exists w' M', (exec F im al w c = Ret () w' \/ exec F im al w c = Throw w') /\ consistent K w' M' /\
      (caches K w M -> exact K w M c -> caches K w' M').
  Proof using All.
    intros H Hv HF. apply to_holds in H.
    assert (Hret : forall w' M', exec F im al w c = Ret () w' -> holds w' M' [] -> (caches K w M -> exact K w M c -> caches K w' M') ->
      exists w' M', (exec F im al w c = Ret () w' \/ exec F im al w c = Throw w') /\ consistent K w' M' /\ (caches K w M -> exact K w M c -> caches K w' M')).
    { intros w' M' E H' Hca. exists w', M'. split; [left; exact E|]. split; [apply to_holds, H'|exact Hca]. }
    destruct c; cbn [valid] in Hv; cbn [exec exact] in *.
    - destruct (construct_empty_ok F im al K KO w M i H Hv) as (w' & E & H' & Htr). eapply Hret; [rewrite E; reflexivity|exact H'|].
      intros Hca _. eapply upd; [exact Hca|exact Htr|]. apply nilc.
    - destruct Hv as [Hi (v & cs & -> & Hl)].
      destruct (construct_struct_ok F im al K KO w M i v cs H Hi Hl) as (w' & c & E & H' & _ & _ & Htr). eapply Hret; [rewrite E; reflexivity|exact H'|].
      intros Hca _. eapply upd; [exact Hca|exact Htr|]. split; right; reflexivity.
    - destruct Hv as [Hi Hj]. destruct (tree_get w M j H Hj) as (c & t & Hc & Ht & L).
      destruct (construct_copy_ok F im al K KO w M i j c t H Hi Hc Ht ltac:(lia)) as (w' & c' & E & H' & _ & E1 & E2 & _ & Htr). eapply Hret; [rewrite E; reflexivity|exact H'|].
      intros Hca _. eapply upd; [exact Hca|exact Htr|]. eapply same_cached; [exact (Hca _ _ _ Ht Hc)|exact E1|exact E2].
    - destruct Hv as [Hi Hj]. destruct (tree_get w M j H Hj) as (c & t & Hc & Ht & L).
      destruct (construct_move_ok F im al K KO w M i j c t H Hi Hc Ht) as (w' & E & H' & _ & Htr). eapply Hret; [rewrite E; reflexivity|exact H'|].
      intros Hca _. eapply upd2; [exact Hca|exact Htr|apply nilc|]. eapply same_cached; [exact (Hca _ _ _ Ht Hc)|reflexivity|reflexivity].
    - destruct (tree_get w M i H Hv) as (c & t & Hc & Ht & L).
      destruct (destroy_ok F im al K KO w M i c H Hc ltac:(lia)) as (w' & E & H' & Htr). eapply Hret; [rewrite E; reflexivity|exact H'|].
      intros Hca _ k t1 c1 Ht1 Hc1. rewrite Htr in Ht1. apply lookup_delete_Some in Ht1 as [_ Ht1]. apply lookup_delete_Some in Hc1 as [_ Hc1].
      eapply Hca; eassumption.
    - destruct Hv as [Hi Hj]. destruct (tree_get w M i H Hi) as (c & ti & Hc & Hti & L). destruct (tree_get w M j H Hj) as (d & tj & Hd & Htj & Ld).
      destruct (assign_copy_ok F im al K KO w M i j c d tj H Hc Hd Htj ltac:(lia) ltac:(lia)) as (w' & c' & E & H' & _ & E1 & E2 & _ & Htr). eapply Hret; [rewrite E; reflexivity|exact H'|].
      intros Hca _. eapply upd; [exact Hca|exact Htr|]. eapply same_cached; [exact (Hca _ _ _ Htj Hd)|exact E1|exact E2].
    - destruct Hv as [Hi Hj]. destruct (tree_get w M i H Hi) as (c & ti & Hc & Hti & L). destruct (tree_get w M j H Hj) as (d & tj & Hd & Htj & Ld).
      destruct (decide (i = j)) as [<-|Hne].
      + destruct (assign_move_self_ok F im al K KO w M i c H Hc ltac:(lia)) as (w' & E & H' & Htr). eapply Hret; [rewrite E; reflexivity|exact H'|].
        intros Hca _. eapply upd; [exact Hca|exact Htr|]. apply nilc.
      + destruct (assign_move_ok F im al K KO w M i j c d tj H Hne Hc Hd Htj ltac:(lia)) as (w' & E & H' & _ & Htr). eapply Hret; [rewrite E; reflexivity|exact H'|].
        intros Hca _. eapply upd2; [exact Hca|exact Htr|apply nilc|]. eapply same_cached; [exact (Hca _ _ _ Htj Hd)|reflexivity|reflexivity].
    - destruct Hv as [Hi (v & cs & -> & Hl)]. destruct (tree_get w M i H Hi) as (c & t & Hc & Ht & L).
      destruct (assign_struct_ok F im al K KO w M i c v cs H Hc Hl ltac:(lia)) as (w' & c' & E & H' & _ & _ & Htr). eapply Hret; [rewrite E; reflexivity|exact H'|].
      intros Hca _. eapply upd; [exact Hca|exact Htr|]. split; right; reflexivity.
    - destruct Hv as [Hi (s & Hs & Hr)]. destruct (tree_get w M i H Hi) as (c & t' & Hc & Ht & L).
      pose proof (src_size F im al K KO (w_heap w) s Hs) as Ls.
      destruct (assign_view_ok F im al K KO w M i c t s H Hc Hs Hr ltac:(lia) ltac:(lia)) as (w' & c' & E & H' & _ & E1 & E2 & _ & Htr). eapply Hret; [rewrite E; reflexivity|exact H'|].
      intros Hca Hex. eapply upd; [exact Hca|exact Htr|]. eapply same_cached; [exact (Hex _ Hs Hr)|exact E1|exact E2].
    - destruct (tree_get w M i H Hv) as (c & t & Hc & Ht & L).
      destruct (clear_ok F im al K KO w M [] i c H Hc ltac:(lia)) as (w' & E & H' & Htr). eapply Hret; [rewrite E; reflexivity|exact H'|].
      intros Hca _. eapply upd; [exact Hca|exact Htr|]. apply nilc.
    - destruct Hv as [Hi Hj]. destruct (tree_get w M i H Hi) as (c & ti & Hc & Hti & L). destruct (tree_get w M j H Hj) as (d & tj & Hd & Htj & Ld).
      destruct (swap_ok K w M i j c d ti tj H Hc Hd Hti Htj) as (w' & E & H' & _ & Htr). eapply Hret; [rewrite E; reflexivity|exact H'|].
      intros Hca _. eapply upd2; [exact Hca|exact Htr|eapply Hca; eassumption|eapply Hca; eassumption].
    - destruct Hv as (c & x & M1 & Hc & Hg & Hfit & Hv). destruct (tree_get w M i H ltac:(eexists; exact Hc)) as (c0 & t & Hc0 & Ht & L).
      rewrite Hc in Hc0. injection Hc0 as <-. destruct Hv as [(a & Ha & Hst & Hrepl)|(-> & Hpos)].
      + destruct (insert_over_ok F im al K KO HFW w M i c t src x M1 a pos H Hc Ht Hg Hfit Ha Hst Hrepl) as (u & it & w' & E & _ & _ & H' & _ & _ & _ & _ & _ & Hcc).
        eapply Hret; [rewrite E; reflexivity|exact H'|]. intros Hca [Hsc Hme]. apply Hcc; [exact Hca|exact Hsc|]. left.
        destruct (Hme _ _ Ht Hc) as [-> _]. destruct (caddrs K c); [apply elem_of_nil in Ha as []|cbn; lia].
      + destruct (insert_over_empty_ok F im al K KO HFW w M i src x M1 pos H Hc Hg Hfit Hpos) as (u & w' & E & _ & _ & H' & Hcc).
        eapply Hret; [rewrite E; reflexivity|exact H'|]. intros Hca [Hsc _]. apply Hcc; assumption.
    - destruct Hv as (c & x & M1 & Hc & Hg & Hfit & Hv). destruct (tree_get w M i H ltac:(eexists; exact Hc)) as (c0 & t & Hc0 & Ht & L).
      rewrite Hc in Hc0. injection Hc0 as <-.
      assert (Hthrow : (forall j, src <> SrcMove j) ->
        it_cur pos = None \/ (exists a, it_cur pos = Some a /\ a ∈ caddrs K c /\ cfull K a c) ->
        exists w' M', (forget (insert_child F im al first emplace w i pos src) = Ret () w' \/ forget (insert_child F im al first emplace w i pos src) = Throw w') /\ consistent K w' M' /\
          (caches K w M -> child_exact first emplace src /\ measured K w M i -> caches K w' M')).
      { intros Hm Hp. destruct (insert_child_throw F im al K KO HFW first emplace w M i c src x M1 pos H Hc Hg Hfit Hm Hp) as (w' & E & H' & Htr).
        exists w', M. split; [right; rewrite E; reflexivity|]. split; [apply to_holds, H'|]. intros Hca _ k t1 c1 Ht1 Hc1. rewrite Htr in Ht1. eapply Hca; eassumption. }
      destruct Hv as [(a & Ha & Hpos & Hm)|(Hpos & Hm)]; [|auto].
      assert (Hd : cfull K a c \/ ~ cfull K a c).
      { destruct (k_children _ _ _ _ KO (w_heap w) c a (holds_rep _ _ _ _ _ _ _ _ H Hc) Ha) as (k & _ & Hk).
        destruct (ni_binary im && (k =? 2)%N); [left; apply Hk; reflexivity|right; intros Hf; apply Hk in Hf; discriminate]. }
      destruct Hd as [Hfull|Hfull].
      + apply Hthrow; [apply Hm, Hfull|]. right. eauto.
      + destruct (insert_child_ok F im al K KO HFW first emplace w M i c t src x M1 a pos H Hc Ht Hg Hfit Ha Hpos Hfull) as (u & it & w' & E & _ & _ & H' & _ & _ & Hcc).
        eapply Hret; [rewrite E; reflexivity|exact H'|]. intros Hca [Hex Hme]. destruct (Hme _ _ Ht Hc). apply Hcc; assumption.
    - destruct Hv as (c & Hc & Hroot & Hv). destruct (tree_get w M i H ltac:(eexists; exact Hc)) as (c0 & t & Hc0 & Ht & L).
      rewrite Hc in Hc0. injection Hc0 as <-. destruct Hv as [(a & Ha & Hpos & Hrepl)|Hpos].
      + destruct (erase_ok F im al K KO w M [] i c t a pos H Hc Ht Ha Hpos Hroot Hrepl ltac:(lia)) as (it & w' & E & H' & Htr & _).
        eapply Hret; [rewrite E; reflexivity|exact H'|]. intros Hca Hme. eapply upd; [exact Hca|exact Htr|].
        eapply (replaced_cached F im al K KO HFW (w_heap w)); [eapply holds_rep; eassumption|exact Ha|eapply Hca; eassumption| | | |].
        * rewrite (nil_addrs F im al K KO). reflexivity.
        * rewrite (nil_arity F im al K KO). reflexivity.
        * rewrite (nil_addrs F im al K KO). cbn. lia.
        * left. destruct (Hme _ _ Ht Hc) as [-> _]. destruct (caddrs K c); [apply elem_of_nil in Ha as []|cbn; lia].
      + destruct (erase_end w M i c pos H Hc Hroot Hpos HF) as [H1 H2]. destruct (croot K c) eqn:Er.
        * exists w, M. split; [right; rewrite H1 by discriminate; reflexivity|]. split; [apply to_holds, H|auto].
        * destruct (H2 eq_refl) as (it & E & _). eapply Hret; [rewrite E; reflexivity|exact H|auto].
    - destruct Hv as (c & pre & ds & post & Hc & Hpost & Hk & Hf & Hl & Hrf & Hrl & Her).
      pose proof (holds_size _ _ _ _ _ _ _ _ H Hc) as L.
      destruct (erase_range_ok F im al K KO HFW w M i c first last pre ds post H Hc ltac:(lia) Hpost Hk Hf Hl Hrf Hrl Her) as (it & w' & E & H' & _).
      eapply Hret; [rewrite E; reflexivity|exact H'|intros _ []].
    - destruct (tree_get w M i H Hv) as (c & t & Hc & Ht & L).
      destruct (tree_size_ok F im al K KO w M [] i c t H Hc Ht ltac:(lia)) as (s & E & H' & _). eapply Hret; [rewrite E; reflexivity|exact H'|].
      intros Hca _. destruct (size_step F im al K KO HFW w M [] i c H Hca Hc ltac:(lia)) as (w' & E' & _ & Hca' & _). rewrite E in E'. injection E' as E1 E2. rewrite E2. exact Hca'.
    - destruct (tree_get w M i H Hv) as (c & t & Hc & Ht & L).
      destruct (tree_arity_ok F im al K KO w M [] i c t H Hc Ht ltac:(lia) ltac:(lia)) as (s & E & H' & _). eapply Hret; [rewrite E; reflexivity|exact H'|].
      intros Hca _. destruct (arity_step F im al K KO HFW w M [] i c H Hca Hc ltac:(lia)) as (w' & E' & _ & Hca' & _). rewrite E in E'. injection E' as E1 E2. rewrite E2. exact Hca'.
    - destruct Hv as [Hi Hj]. destruct (tree_eq_safe w M i j H Hi Hj HF) as (r & w' & E & H' & _). eapply Hret; [rewrite E; reflexivity|exact H'|].
      destruct (tree_get w M i H Hi) as (c & ti & Hc & Hti & L). destruct (tree_get w M j H Hj) as (d & tj & Hd & Htj & Ld).
      intros Hca _. destruct (tree_eq_ok F im al K KO HFW w M [] i j c d H Hca Hc Hd ltac:(lia) ltac:(lia)) as (r' & w2 & E' & _ & _ & Hca' & _). rewrite E in E'. injection E' as E1 E2. rewrite E2. exact Hca'.
    - destruct Hv as [Hi Hl]. destruct (tree_eq_struct_safe w M i l H Hi Hl HF) as (r & w' & E & H' & _). eapply Hret; [rewrite E; reflexivity|exact H'|].
      destruct (tree_get w M i H Hi) as (c & ti & Hc & Hti & L). intros Hca _. destruct Hl as [->|(v & cs & -> & Hl)].
      + destruct (tree_eq_empty_ok F im al K KO HFW w M [] i c H Hc) as (r' & E' & _). rewrite E in E'. injection E' as E1 E2. rewrite E2. exact Hca.
      + destruct (tree_eq_struct_ok F im al K KO HFW w M [] i c v cs H Hca Hc ltac:(lia) Hl) as (r' & w2 & E' & _ & _ & Hca' & _). rewrite E in E'. injection E' as E1 E2. rewrite E2. exact Hca'.
  Qed.

  Lemma empty_consistent : consistent K (@empty_world Nd) ∅.
  Proof.
    split.
    - intros i. cbn. rewrite !lookup_empty. split; intros []; discriminate.
    - intros i t c Ht. cbn in Ht. rewrite lookup_empty in Ht. discriminate.
    - intros i j c d a Hc. rewrite lookup_empty in Hc. discriminate.
    - intros a. cbn. rewrite lookup_empty. split; [intros []; discriminate|]. intros (i & c & Hc & _). rewrite lookup_empty in Hc. discriminate.
  Qed.
  Lemma reach_consistent w : reach F im al K w -> exists M, consistent K w M.
  Proof using All.
    induction 1 as [|w M c w' _ _ Hc Hv HF E]; [exists ∅; apply empty_consistent|].
    destruct (exec_ok w M c Hc Hv HF) as (w1 & M1 & E1 & H1 & _). exists M1.
    assert (w' = w1) as -> by (destruct E as [E|E], E1 as [E1|E1]; congruence). exact H1.
  Qed.

  Lemma careful_ok w : careful F im al K w -> exists M, consistent K w M /\ caches K w M.
  Proof using All.
    induction 1 as [|w M c w' _ IH Hc Hv HF Hpl Hvx E|w M i c w1 w2 w' _ IH Hc Hi HF E1 E2 Hv Hed Hvx E].
    - exists ∅. split; [apply empty_consistent|]. intros k t c Ht. cbn in Ht. rewrite lookup_empty in Ht. discriminate.
    - destruct IH as (M0 & Hc0 & Hca). assert (M0 = M) as -> by exact (contents_unique HK w M0 M Hc0 Hc).
      destruct (exec_ok w M c Hc Hv HF) as (x & Mx & Ex & Hx & Hcx). exists Mx.
      assert (w' = x) as -> by (destruct E as [E|E], Ex as [Ex|Ex]; congruence). split; [exact Hx|]. apply Hcx; [exact Hca|].
      destruct c; cbn in Hpl, Hvx |- *; solve [contradiction|auto].
    - destruct IH as (M0 & Hc0 & Hca). assert (M0 = M) as -> by exact (contents_unique HK w M0 M Hc0 Hc). apply to_holds in Hc.
      destruct (tree_get w M i Hc Hi) as (d & t & Hd & Ht & L).
      destruct (size_step F im al K KO HFW w M [] i d Hc Hca Hd ltac:(lia)) as (x1 & Ex1 & H1 & Hca1 & Hh1 & t1 & Ht1 & Htr1).
      cbn [exec] in E1. rewrite Ex1 in E1. cbn in E1. injection E1 as <-.
      destruct (arity_step F im al K KO HFW x1 M [] i d H1 Hca1 Hd ltac:(lia)) as (x2 & Ex2 & H2 & Hca2 & Hh2 & t2 & Ht2 & Htr2).
      cbn [exec] in E2. rewrite Ex2 in E2. cbn in E2. injection E2 as <-.
      assert (Hme : measured K x2 M i).
      { intros t' c' Ht' Hc'. rewrite Htr2, lookup_insert in Ht'. injection Ht' as <-. rewrite Hd in Hc'. injection Hc' as <-. cbn.
        split; [|reflexivity]. rewrite Htr1, lookup_insert in Ht2. injection Ht2 as <-. reflexivity. }
      destruct (exec_ok x2 M c (proj2 (to_holds _ _) H2) Hv ltac:(congruence)) as (x & Mx & Ex & Hx & Hcx). exists Mx.
      assert (w' = x) as -> by (destruct E as [E|E], Ex as [Ex|Ex]; congruence). split; [exact Hx|]. apply Hcx; [exact Hca2|].
      destruct c; cbn in Hed, Hvx |- *; try contradiction; repeat match goal with H : _ /\ _ |- _ => destruct H end; subst; auto.
  Qed.

  (** *** size() and arity() return the right values iff the caches are right or unknown. *)
  Lemma reports_caches w M : consistent K w M -> size (w_heap w) < F -> reports K F im w M <-> caches K w M.
  Proof using All.
    intros H HF. apply to_holds in H. split.
    - intros Hr i t c Ht Hc. destruct (Hr i c Hc) as [(w1 & E1) (w2 & E2)]. destruct (holds_get _ _ _ _ _ _ _ _ H Hc) as (t' & Ht' & Hg & Hrt & _).
      rewrite Ht in Ht'. injection Ht' as <-. unfold tree_size in E1. unfold tree_arity in E2. rewrite Hg in E1. rewrite Hg in E2. cbn [mbind res_bind] in E1, E2. split.
      + unfold size_of in E1. destruct (N.eqb_spec (t_size t) 0) as [E0|E0]; [left; exact E0|]. right. rewrite andb_false_r in E1. cbn in E1. congruence.
      + unfold arity_of in E2. destruct (N.eqb_spec (t_arity t) 0) as [E0|E0]; [left; exact E0|]. right. rewrite andb_false_r in E2. cbn in E2. congruence.
    - intros Hca i c Hc. pose proof (holds_size _ _ _ _ _ _ _ _ H Hc) as L.
      destruct (size_step F im al K KO HFW w M [] i c H Hca Hc ltac:(lia)) as (w1 & E1 & _).
      destruct (arity_step F im al K KO HFW w M [] i c H Hca Hc ltac:(lia)) as (w2 & E2 & _). eauto.
  Qed.
  (** Nodes of a replaced tree that are not in the new contents are released. *)
  Lemma gone w M w' i c c' x : consistent K w M -> M !! i = Some c -> consistent K w' (<[i := c']> M) ->
    x ∈ caddrs K c -> x ∉ caddrs K c' -> w_heap w' !! x = None.
  Proof using All.
    intros H Hc H' Hx Hx'. destruct (w_heap w' !! x) as [n|] eqn:E; [|reflexivity]. exfalso.
    destruct (proj1 (wo_owned _ _ _ _ _ H' x) ltac:(eauto)) as (k & d & Hk & Hd). destruct (decide (i = k)) as [<-|Hne].
    - rewrite lookup_insert in Hk. injection Hk as <-. contradiction.
    - rewrite lookup_insert_ne in Hk by exact Hne. apply Hne. eapply (wo_disjoint _ _ _ _ _ H); eassumption.
  Qed.
  Lemma old_in w M i c x : consistent K w M -> M !! i = Some c -> x ∈ caddrs K c -> w_heap w !! x <> None.
  Proof using All. intros H Hc Hx E. destruct (proj2 (wo_owned _ _ _ _ _ H x) ltac:(eauto)) as [n Hn]. congruence. Qed.

  Lemma base_eq_ok h c d a b : csrc K h c -> csrc K h d -> t_root a = croot K c -> t_root b = croot K d ->
    cached K a c -> cached K b d -> len c < F -> len d < F ->
    exists r, base_eq F im h a b = Ok r /\ (r = true <-> cvals K c = cvals K d).
  Proof using All.
    intros Hc Hd Ea Eb Ca Cb Lc Ld. unfold base_eq, tree_empty. rewrite Ea, Eb.
    destruct (Bool.eqb (is_null (croot K c)) (is_null (croot K d))) eqn:Ee; cbn [negb].
    2:{ exists false. split; [reflexivity|]. split; [discriminate|]. intros Hv. exfalso.
        destruct (k_vals _ _ _ _ KO c d Hv) as (_ & _ & Hn). apply Bool.eqb_false_iff in Ee.
        destruct (croot K c), (croot K d); cbn in *; try congruence; destruct Hn as [Hn1 Hn2]; try (specialize (Hn1 eq_refl); discriminate); specialize (Hn2 eq_refl); discriminate. }
    rewrite (size_exact F im al K KO HFW h a c Hc Ea Lc Ca). cbn [mbind res_bind]. rewrite (size_exact F im al K KO HFW h b d Hd Eb Ld Cb). cbn [mbind res_bind].
    destruct (N.eqb_spec (N.of_nat (len c)) (N.of_nat (len d))) as [Es|Es]; cbn [negb].
    2:{ exists false. split; [reflexivity|]. split; [discriminate|]. intros Hv. destruct (k_vals _ _ _ _ KO c d Hv) as (Hl & _). congruence. }
    rewrite (arity_exact F im al K KO HFW h (TreeRec (t_root a) (N.of_nat (len c)) (t_arity a) (t_nav a)) c Hc Ea Lc) by (split; [right; reflexivity|apply Ca]).
    rewrite (arity_exact F im al K KO HFW h (TreeRec (t_root b) (N.of_nat (len d)) (t_arity b) (t_nav b)) d Hd Eb Ld) by (split; [right; reflexivity|apply Cb]).
    cbn [mbind res_bind].
    destruct (N.eqb_spec (N.of_nat (carity K c)) (N.of_nat (carity K d))) as [Er|Er]; cbn [negb].
    2:{ exists false. split; [reflexivity|]. split; [discriminate|]. intros Hv. destruct (k_vals _ _ _ _ KO c d Hv) as (_ & Hl & _). congruence. }
    destruct (croot K c) as [ra|] eqn:Erc, (croot K d) as [rb|] eqn:Erd; cbn in Ee |- *; try discriminate.
    - destruct (k_eq _ _ _ _ KO h h c d ra rb Hc Hd Erc Erd ltac:(lia) ltac:(lia) ltac:(lia)) as (r & Hr & Hiff). exists r. auto.
    - exists true. split; [reflexivity|]. apply (k_null _ _ _ _ KO) in Erc, Erd. subst. tauto.
  Qed.
End Calls.
