(** PropQueueFail.v: C81, insertions when the memory for the queue of a breadth-first
    iterator runs out. *)
From Verif Require Import Base Spec EditSpec StructNode BinaryNode NaryNode Nav Policy Tree Rep User World Kinds TreeSpec
  TreeOps TreeOps2 TreeOps3 TreeOps4 TreeFacts Examples Examples2 EditFacts PropEdit QueueFail QueueFailFacts.

(** Iterators of the other policies have no queue: the calls are those of PropEdit.v,
    whatever the memory. *)
Theorem C81_other_policies :
  forall (V Nd : Type) (im : node_impl V Nd) (F : nat) (al : allocator Nd) (room : nat) (w : world Nd) (i : tid) (first emplace : bool) (pos : iter) (src : source V),
  it_kind pos <> BreadthFirst ->
  insert_child_try F im al room first emplace w i pos src = insert_child F im al first emplace w i pos src /\
  insert_over_try F im al room w i pos src = insert_over F im al w i pos src.
Proof. intros. split; [apply insert_child_try_other|apply insert_over_try_other]; assumption. Qed.
Print Assumptions C81_other_policies.

Lemma not_nil {V Nd} {im : node_impl V Nd} {K : kind_data V Nd} {F : nat} {al : allocator Nd} (KO : kind_ok F im al K) u : cvals K u <> cvals K (cnil K) -> croot K u <> None.
Proof. intros Hx Hr. apply Hx. f_equal. exact (k_null _ _ _ _ KO u Hr). Qed.

(** What insert_child_* does to the trees, and the queue of its result. *)
Lemma child_added {V} {EV : EqDecision V} {Nd} {im : node_impl V Nd} {K : kind_data V Nd} F al (HK : tree_kind V EV Nd im K) (HFW : (N.of_nat F <= W64)%N)
  (w : world Nd) (M M1 : gmap tid (C K)) (i : tid) (c : C K) (first emplace : bool) (src : source V) (x : X K) (a : addr) (pos : iter) :
  consistent K w M -> M !! i = Some c -> gives K w M i src x M1 -> fits F w src ->
  a ∈ caddrs K c -> it_cur pos = Some a -> ~ cfull K a c -> it_kind pos = BreadthFirst -> x <> cvals K (cnil K) ->
  exists u it w', insert_child F im al first emplace w i pos src = Ret it w' /\ cvals K u = x /\ croot K u <> None /\ placed K w M src u /\
    consistent K w' (<[i := cadd K first a u c]> M1) /\ it_kind it = BreadthFirst /\ 0 < length (it_open it) /\
    Permutation (caddrs K (cadd K first a u c)) (caddrs K c ++ caddrs K u) /\ croot K (cadd K first a u c) = croot K c /\ length (caddrs K c) + length (caddrs K u) < F.
Proof.
  intros Hw Hi Hg Hf Ha Hpos Hful Hk Hx. pose proof (kind_is_ok F al HK) as KO.
  pose proof Hw as H. apply (to_holds F _ al _ HK HFW) in H.
  destruct (prepare_child F im al K KO HFW first emplace w M i src x M1 H (ex_intro _ _ Hi) Hg Hf) as (u & s & r & w1 & Hret & _ & _ & P & _).
  pose proof (gives_other _ _ _ _ _ _ _ _ Hg Hi) as Hi1. pose proof (pr_holds _ _ _ _ _ _ _ _ _ _ P) as H1.
  destruct (holds_get _ _ _ _ _ _ _ _ H1 Hi1) as (t1 & Ht1 & _). pose proof (pr_fuel _ _ _ _ _ _ _ _ _ _ P c Hi1) as HFu.
  assert (Hur : croot K u <> None) by (apply (not_nil KO); rewrite (pr_vals _ _ _ _ _ _ _ _ _ _ P); exact Hx).
  destruct (add_child_ok F im al K KO first w1 M1 [] i c t1 u a s r pos H1 Hi1 Ht1 Ha Hpos Hful HFu) as (it & w' & Hm & Hw' & _ & Hki & Hst).
  pose proof (holds_unfold _ _ _ _ _ _ _ _ H1 Hi1) as Hun. cbn [app] in Hun.
  assert (Hc : crep K (w_heap w1) c) by (eapply heap_ok_head, Hun).
  assert (Hcu : crep K (w_heap w1) u) by (eapply heap_ok_second, Hun).
  assert (Hdis : forall y, y ∈ caddrs K u -> y ∉ caddrs K c) by (intros y Hy Hy'; eapply heap_ok_disj; [exact Hun|exact Hy'|exact Hy]).
  destruct (croot K u) as [b|] eqn:Eb; [|congruence].
  destruct (k_add _ _ _ _ KO first (w_heap w1) c u a b Hc Hcu Hdis Ha Hful Eb ltac:(lia)) as (h' & _ & _ & _ & Hroot' & Hperm & Hdeg & _).
  assert (Hput : cput K first a u c = cadd K first a u c) by (unfold cput; rewrite Eb; reflexivity). rewrite Hput in Hw'.
  pose proof (holds_rep _ _ _ _ _ _ _ _ Hw' (lookup_insert M1 i (cadd K first a u c))) as Hrep'.
  assert (Ha' : a ∈ caddrs K (cadd K first a u c)) by (rewrite Hperm; apply elem_of_app; left; exact Ha).
  destruct (k_deg _ _ _ _ KO (w_heap w') _ a Hrep' Ha') as (fc & Hfc & H0 & _).
  exists u, it, w'. split; [apply Hret, Hm|]. split; [apply P|]. split; [congruence|]. split; [apply P|]. split; [apply (to_holds F _ al _ HK HFW), Hw'|].
  split; [congruence|]. split; [|split; [exact Hperm|split; [exact Hroot'|exact HFu]]].
  destruct Hst as (_ & _ & Hq). destruct (Hq ltac:(congruence)) as (it2 & Eit & ->). destruct fc as [d|]; [|rewrite Hdeg in H0; discriminate (proj1 H0 eq_refl)].
  eapply queue_ne; [exact Eit|exact Hfc].
Qed.

Lemma rep_unique {V} {EV : EqDecision V} {Nd} {im : node_impl V Nd} {K} : tree_kind V EV Nd im K ->
  forall h c d, crep K h c -> crep K h d -> croot K c = croot K d -> c = d.
Proof.
  intros HK h c d Hc Hd Hr. destruct HK; cbn in c, d, Hr, Hc, Hd.
  - destruct Hc as [Hc _], Hd as [Hd _]. eapply brep_unique; eassumption.
  - destruct c as [c|], d as [d|]; cbn in Hr; try discriminate; [|reflexivity].
    destruct Hc as [Hc _], Hd as [Hd _]. injection Hr as Hr. f_equal. eapply nrep_unique; eassumption.
Qed.

(** insert_child_front/back, emplace_child_front/back at a breadth-first position: the
    result needs room for [n > 0] nodes of its queue.  If there is less, the call throws,
    but the child is there. *)
Theorem C81_insert_child_refuted :
  forall (V : Type) (EV : EqDecision V) (Nd : Type) (im : node_impl V Nd) (K : kind_data V Nd) (F : nat) (al : allocator Nd),
  tree_kind V EV Nd im K -> (N.of_nat F <= W64)%N ->
  forall (w : world Nd) (M M1 : gmap tid (C K)) (i : tid) (c : C K) (first emplace : bool) (src : source V) (x : X K) (a : addr) (pos : iter),
  consistent K w M -> M !! i = Some c -> gives K w M i src x M1 -> fits F w src -> (forall j, src <> SrcMove j) ->
  a ∈ caddrs K c -> it_cur pos = Some a -> ~ cfull K a c -> it_kind pos = BreadthFirst -> x <> cvals K (cnil K) ->
  exists u it w' n, 0 < n /\ cvals K u = x /\ croot K u <> None /\ placed K w M src u /\ consistent K w' (<[i := cadd K first a u c]> M1) /\
    (forall room, room < n -> insert_child_try F im al room first emplace w i pos src = Throw w') /\
    (forall room, n <= room -> insert_child_try F im al room first emplace w i pos src = Ret it w').
Proof.
  intros V EV Nd im K F al HK HFW w M M1 i c first emplace src x a pos Hw Hi Hg Hf Hm Ha Hpos Hful Hk Hx.
  destruct (child_added F al HK HFW w M M1 i c first emplace src x a pos Hw Hi Hg Hf Ha Hpos Hful Hk Hx) as (u & it & w' & E & Hu & Hur & Hp & Hc & Hki & Hn & _).
  exists u, it, w', (length (it_open it)). split; [exact Hn|]. split; [exact Hu|]. split; [exact Hur|]. split; [exact Hp|]. split; [exact Hc|].
  split; intros room Hr; rewrite (insert_child_try_ok F im al room _ _ _ _ _ _ _ _ Hm E).
  - rewrite decide_True by (split; assumption). reflexivity.
  - rewrite decide_False by (intros [_ Hs]; lia). reflexivity.
Qed.
Print Assumptions C81_insert_child_refuted.

(** The same calls with a moved tree [j]: if there is not enough room, the call throws,
    and tree [i] and tree [j] both own the nodes that were moved.  (Destroying both then
    frees them twice.) *)
Theorem C81_insert_child_move_refuted :
  forall (V : Type) (EV : EqDecision V) (Nd : Type) (im : node_impl V Nd) (K : kind_data V Nd) (F : nat) (al : allocator Nd),
  tree_kind V EV Nd im K -> (N.of_nat F <= W64)%N ->
  forall (w : world Nd) (M : gmap tid (C K)) (i j : tid) (c d : C K) (first emplace : bool) (a r : addr) (pos : iter),
  consistent K w M -> M !! i = Some c -> M !! j = Some d -> i <> j -> croot K d = Some r -> fits F w (@SrcMove V j) ->
  a ∈ caddrs K c -> it_cur pos = Some a -> ~ cfull K a c -> it_kind pos = BreadthFirst ->
  exists it w' w2 n e, 0 < n /\
    (forall room, n <= room -> insert_child_try F im al room first emplace w i pos (SrcMove j) = Ret it w2) /\
    (forall room, room < n -> insert_child_try F im al room first emplace w i pos (SrcMove j) = Throw w') /\
    (t_root <$> w_trees w' !! i) = Some (croot K c) /\ (t_root <$> w_trees w' !! j) = Some (Some r) /\
    e = cadd K first a d c /\ crep K (w_heap w') e /\ croot K e = croot K c /\ Permutation (caddrs K e) (caddrs K c ++ caddrs K d) /\
    (forall M', ~ consistent K w' M') /\
    exists w'', destroy F im w' i = Ok w'' /\ destroy F im w'' j = Err Dangling.
Proof.
  intros V EV Nd im K F al HK HFW w M i j c d first emplace a r pos Hw Hi Hj Hne Hr Hf Ha Hpos Hful Hk. pose proof (kind_is_ok F al HK) as KO.
  pose proof (GMove K w M i j d ltac:(congruence) Hj) as Hg.
  assert (Hx : cvals K d <> cvals K (cnil K)).
  { intros Hx. destruct (k_vals _ _ _ _ KO d (cnil K) Hx) as (_ & _ & Hn). rewrite Hr in Hn. destruct Hn as [_ Hn]. discriminate (Hn (nil_root F im al K KO)). }
  destruct (child_added F al HK HFW w M _ i c first emplace (SrcMove j) (cvals K d) a pos Hw Hi Hg Hf Ha Hpos Hful Hk Hx) as (u & it & w' & E & Hu & Hur & Hp & Hc & Hki & Hn & Hperm & HFu).
  cbn [placed] in Hp. assert (u = d) as -> by (cbn in Hp; congruence).
  destruct (proj2 (wo_live _ _ _ _ _ Hw j) (ex_intro _ _ Hj)) as [t Ht]. destruct (wo_tree _ _ _ _ _ Hw j t d Ht Hj) as (Htr & _ & _).
  destruct (insert_child_try_move F im al first emplace w i j t pos it w' Ht ltac:(congruence) E) as (w2 & tj & E2 & _ & Htj & Hrj & Htry).
  rewrite Htr, Hr in Hrj. destruct HFu as [Hroot HFu]. set (e := cadd K first a d c) in *.
  assert (He : (<[i := e]> (<[j := cnil K]> M)) !! i = Some e) by apply lookup_insert.
  destruct (proj2 (wo_live _ _ _ _ _ Hc i) (ex_intro _ _ He)) as [ti Hti]. destruct (wo_tree _ _ _ _ _ Hc i ti e Hti He) as (Hri & _ & Hrep).
  assert (Hti2 : w_trees w2 !! i = Some ti). { rewrite E2 in Hti. unfold nullify, set_tree in Hti. cbn [w_trees] in Hti. rewrite lookup_insert_ne in Hti by congruence. exact Hti. }
  assert (Hrep2 : crep K (w_heap w2) e) by (rewrite E2 in Hrep; exact Hrep).
  assert (Hre : r ∈ caddrs K e) by (rewrite Hperm; apply elem_of_app; right; exact (k_root _ _ _ _ KO d r Hr)).
  exists it, w2, w', (length (it_open it)), e. split; [exact Hn|]. split; [|split; [|split; [|split; [|split; [|split; [|split; [|split; [|split]]]]]]]].
  - intros room Hroom. rewrite Htry, decide_False by (intros [_ Hs]; lia). reflexivity.
  - intros room Hroom. rewrite Htry, decide_True by (split; assumption). reflexivity.
  - rewrite Hti2. cbn. congruence.
  - rewrite Htj. cbn. congruence.
  - reflexivity.
  - exact Hrep2.
  - exact Hroot.
  - exact Hperm.
  - intros M' H'. destruct (proj1 (wo_live _ _ _ _ _ H' i) (ex_intro _ _ Hti2)) as [e' He']. destruct (proj1 (wo_live _ _ _ _ _ H' j) (ex_intro _ _ Htj)) as [d' Hd'].
    destruct (wo_tree _ _ _ _ _ H' i ti e' Hti2 He') as (Hre' & _ & Hrepe'). destruct (wo_tree _ _ _ _ _ H' j tj d' Htj Hd') as (Hrd' & _ & _).
    assert (e' = e) as -> by (eapply (rep_unique HK); [exact Hrepe'|exact Hrep2|congruence]).
    apply Hne. eapply (wo_disjoint _ _ _ _ _ H' i j e d' r); [exact He'|exact Hd'|exact Hre|]. apply (k_root _ _ _ _ KO). congruence.
  - assert (Hlen : length (caddrs K e) < F) by (rewrite Hperm, app_length; exact HFu).
    destruct (k_dealloc _ _ _ _ KO (w_heap w2) e Hrep2 ltac:(lia)) as (h' & Hd & Hlk).
    destruct (croot K e) as [ra|] eqn:Era.
    2:{ assert (e = cnil K) as Enil by exact (k_null _ _ _ _ KO e Era). rewrite Enil, (nil_addrs F im al K KO) in Hre. apply elem_of_nil in Hre as []. }
    eexists. split.
    + unfold destroy, clear, assign, get_tree. rewrite Hti2. cbn [mbind res_bind]. rewrite Hri. rewrite Hd. cbn [mbind res_bind]. reflexivity.
    + unfold destroy, clear, assign, get_tree. cbn [set_heap set_tree w_trees w_heap]. rewrite lookup_delete_ne by exact Hne. rewrite lookup_insert_ne by exact Hne. rewrite Htj.
      cbn [mbind res_bind]. rewrite Hrj.
      assert (Hnone : h' !! r = None) by (rewrite Hlk, bool_decide_eq_true_2; [reflexivity|exact Hre]).
      assert (Hres : ni_resources im h' (Some r) = Err Dangling).
      { clear -HK Hnone. destruct HK; cbn; unfold b_resources, n_resources, b_first, n_first, n_next, deref; cbn; rewrite Hnone; reflexivity. }
      destruct F as [|F0]; [lia|]. cbn [deallocate]. rewrite Hres. reflexivity.
Qed.
Print Assumptions C81_insert_child_move_refuted.

(** The argument of insert_over has more than one node. *)
Lemma deg_len {V} {EV : EqDecision V} {Nd} {im : node_impl V Nd} {K : kind_data V Nd} : tree_kind V EV Nd im K ->
  forall h u b, crep K h u -> croot K u = Some b -> cdeg K b u <> 0 -> 1 < length (caddrs K u).
Proof.
  intros HK h u b Hc Hr Hd. pose proof (kind_is_ok 1 (first_fit _) HK) as KO.
  assert (Hs : csub K b u = u) by (apply (k_subst _ _ _ _ KO h u u b Hc (k_root _ _ _ _ KO u b Hr)); exact Hr).
  clear KO. destruct HK; cbn in *.
  - rewrite Hs in Hd. destruct u as [|y [|] [|]]; cbn in Hd |- *; try lia.
  - rewrite Hs in Hd. destruct u as [[y [|[z ds] cs]]|]; cbn in Hd |- *; try lia.
Qed.

(** insert_over, as a throw or as the call of PropEdit.v. *)
Lemma over_try {V} {EV : EqDecision V} {Nd} {im : node_impl V Nd} {K : kind_data V Nd} F al (HK : tree_kind V EV Nd im K) (HFW : (N.of_nat F <= W64)%N)
  (w : world Nd) (M M1 : gmap tid (C K)) (i : tid) (c : C K) (src : source V) (x : X K) (a : addr) (pos : iter) :
  consistent K w M -> M !! i = Some c -> gives K w M i src x M1 -> fits F w src ->
  a ∈ caddrs K c -> stands F im (w_heap w) (croot K c) a pos ->
  exists u w', cvals K u = x /\ placed K w M src u /\
    World.holds (croot K) (caddrs K) (crep K) w' M (match src with SrcMove _ => [] | _ => [u] end) /\
    forall room, insert_over_try F im al room w i pos src =
      if decide (it_kind pos = BreadthFirst /\ room = 0 /\ 1 < length (caddrs K u)) then Throw w' else insert_over F im al w i pos src.
Proof.
  intros Hw Hi Hg Hf Ha Hst. pose proof (kind_is_ok F al HK) as KO.
  pose proof Hw as H. apply (to_holds F _ al _ HK HFW) in H.
  pose proof (holds_rep _ _ _ _ _ _ _ _ H Hi) as Hrep.
  assert (Hcn : croot K c <> None).
  { intros Hn. rewrite (k_null _ _ _ _ KO c Hn), (nil_addrs F im al K KO) in Ha. apply elem_of_nil in Ha as []. }
  assert (Hcur : it_cur pos = Some a) by apply Hst.
  assert (Hgo : forall w1 E u s r, World.holds (croot K) (caddrs K) (crep K) w1 M E -> crep K (w_heap w1) u -> length (caddrs K c) < F -> forall room,
    modify_subtree_try F im room w1 i pos (croot K u) s r =
      if decide (it_kind pos = BreadthFirst /\ room = 0 /\ 1 < length (caddrs K u)) then Throw w1 else modify_subtree F im w1 i pos (croot K u) s r).
  { intros w1 E u s r H1 Hu HFc room. destruct (holds_get _ _ _ _ _ _ _ _ H1 Hi) as (t1 & Ht1 & Hg1 & Hr1 & _).
    pose proof (holds_rep _ _ _ _ _ _ _ _ H1 Hi) as Hrep1.
    assert (Hst1 : stands F im (w_heap w1) (croot K c) a pos) by (eapply (k_stands _ _ _ _ KO); [exact Hrep|exact Hrep1|exact Ha|exact HFc|exact Hst]).
    destruct (k_update _ _ _ _ KO (w_heap w1) c u a pos Hrep1 Hu Ha HFc Hst1) as (pos' & Eu & _).
    destruct (first_of F im al K KO HFW (w_heap w1) u Hu) as (fc & Hfc & Hiff & Hlt).
    rewrite (modify_try F im room w1 i t1 pos a (croot K u) s r pos' fc Hg1 ltac:(congruence) Hcur Eu Hfc).
    assert (Hsame : fc <> None <-> 1 < length (caddrs K u)).
    { split.
      - intros Hn. destruct (croot K u) as [b|] eqn:Eb; [|destruct Hn; apply Hiff; left; reflexivity].
        apply (deg_len HK (w_heap w1) u b Hu Eb). intros Hd. apply Hn, Hiff. right. eauto.
      - intros Hl. apply Hlt; [exact Hl|]. intros Hn. rewrite (k_null _ _ _ _ KO u Hn), (nil_addrs F im al K KO) in Hl. cbn in Hl. lia. }
    destruct (decide (it_kind pos = BreadthFirst /\ room = 0 /\ fc <> None)) as [D|D], (decide (it_kind pos = BreadthFirst /\ room = 0 /\ 1 < length (caddrs K u))) as [D'|D']; try reflexivity; tauto. }
  assert (Hd : (exists j, src = SrcMove j) \/ (forall j, src <> SrcMove j)) by (destruct src; [right|right|right|right|left; eauto]; discriminate).
  pose proof (holds_size _ _ _ _ _ _ _ _ H Hi) as HFc. assert (HFc' : length (caddrs K c) < F) by (unfold fits in Hf; lia).
  destruct Hd as [[j ->]|Hm].
  - inversion Hg as [| | | |j' d Hne Hj]; subst. clear HFc.
    destruct (release_ok F im al K KO w M j d H Hj) as (w1 & t & Ht & Hrel & Hw1 & Hh1 & Htr).
    pose proof (holds_size _ _ _ _ _ _ _ _ H Hj) as Hsz. unfold fits in Hf; cbn [needs] in Hf.
    destruct (measure_ok F im al K KO HFW w1 M [] j d Hw1 Hj ltac:(lia)) as (s & r & w2 & Hme & H2 & Hh2 & _).
    exists d, w2. split; [reflexivity|]. split; [exact Hj|]. split; [exact H2|]. intros room.
    unfold insert_over, insert_over_try. destruct (decide (i = j)) as [|_]; [congruence|]. rewrite Hrel. cbn [res_out]. rewrite Hme. cbn [res_out].
    rewrite (Hgo w2 [] d s r H2 (holds_rep _ _ _ _ _ _ _ _ H2 Hj) HFc' room).
    destruct (decide (it_kind pos = BreadthFirst /\ room = 0 /\ 1 < length (caddrs K d))); reflexivity.
  - destruct (prepare_try F im al K KO HFW w M i src x M1 H (ex_intro _ _ Hi) Hg Hf Hm) as (u & s & r & w1 & -> & E1 & E2 & H1 & Hu & Hp & _).
    exists u, w1. split; [exact Hu|]. split; [exact Hp|]. split; [destruct src; try exact H1; destruct (Hm j eq_refl)|]. intros room. rewrite E1, E2.
    apply (Hgo w1 [u]); [exact H1| |exact HFc']. destruct H1 as [_ Hh]. eapply heap_ok_in; [exact Hh|left].
Qed.

(** insert_over at any position: if one more node fits in the queue, or the new
    subtree is a single node (or empty), or the policy is not breadth-first, it is the call of PropEdit.v. *)
Theorem C81_insert_over_partial :
  forall (V : Type) (EV : EqDecision V) (Nd : Type) (im : node_impl V Nd) (K : kind_data V Nd) (F : nat) (al : allocator Nd),
  tree_kind V EV Nd im K -> (N.of_nat F <= W64)%N ->
  forall (w : world Nd) (M M1 : gmap tid (C K)) (i : tid) (c u : C K) (src : source V) (a : addr) (pos : iter) (room : nat),
  consistent K w M -> M !! i = Some c -> gives K w M i src (cvals K u) M1 -> fits F w src ->
  a ∈ caddrs K c -> stands F im (w_heap w) (croot K c) a pos ->
  0 < room \/ length (caddrs K u) <= 1 \/ it_kind pos <> BreadthFirst ->
  insert_over_try F im al room w i pos src = insert_over F im al w i pos src.
Proof.
  intros V EV Nd im K F al HK HFW w M M1 i c u src a pos room Hw Hi Hg Hf Ha Hst Hor.
  destruct (over_try F al HK HFW w M M1 i c src _ a pos Hw Hi Hg Hf Ha Hst) as (v & w' & Hv & _ & _ & E).
  destruct (k_vals _ _ _ _ (kind_is_ok F al HK) v u Hv) as (Hl & _). rewrite E, decide_False; [reflexivity|]. rewrite Hl. intros (H1 & H2 & H3). destruct Hor as [Ho|[Ho|Ho]]; [lia|lia|congruence].
Qed.
Print Assumptions C81_insert_over_partial.

(** Otherwise it throws.  The trees are as before, but all the nodes that were made stay
    allocated and belong to no tree; they are still there when the tree is destroyed. *)
Theorem C81_insert_over_leak_refuted :
  forall (V : Type) (EV : EqDecision V) (Nd : Type) (im : node_impl V Nd) (K : kind_data V Nd) (F : nat) (al : allocator Nd),
  tree_kind V EV Nd im K -> (N.of_nat F <= W64)%N ->
  forall (w : world Nd) (M M1 : gmap tid (C K)) (i : tid) (c u : C K) (src : source V) (a : addr) (pos : iter),
  consistent K w M -> M !! i = Some c -> gives K w M i src (cvals K u) M1 -> fits F w src -> (forall j, src <> SrcMove j) ->
  a ∈ caddrs K c -> stands F im (w_heap w) (croot K c) a pos -> it_kind pos = BreadthFirst -> 1 < length (caddrs K u) ->
  exists w' v, insert_over_try F im al 0 w i pos src = Throw w' /\ cvals K v = cvals K u /\ crep K (w_heap w') v /\
    (forall y n, w_heap w !! y = Some n -> w_heap w' !! y = Some n) /\
    (forall y, y ∈ caddrs K v -> w_heap w !! y = None /\ is_Some (w_heap w' !! y)) /\
    (forall k t d, w_trees w' !! k = Some t -> M !! k = Some d -> t_root t = croot K d /\ crep K (w_heap w') d) /\
    exists w'', destroy F im w' i = Ok w'' /\ crep K (w_heap w'') v /\ forall y, y ∈ caddrs K v -> is_Some (w_heap w'' !! y).
Proof.
  intros V EV Nd im K F al HK HFW w M M1 i c u src a pos Hw Hi Hg Hf Hm Ha Hst Hk Hl. pose proof (kind_is_ok F al HK) as KO.
  destruct (over_try F al HK HFW w M M1 i c src _ a pos Hw Hi Hg Hf Ha Hst) as (v & w' & Hv & Hpl & H' & E).
  destruct (k_vals _ _ _ _ KO v u Hv) as (Hlv & _). assert (H1 : World.holds (croot K) (caddrs K) (crep K) w' M [v]) by (destruct src; try exact H'; destruct (Hm j eq_refl)).
  assert (Hrep : crep K (w_heap w') v) by (destruct H1 as [_ Hh]; eapply heap_ok_in; [exact Hh|left]).
  assert (Hnew : forall y, y ∈ caddrs K v -> w_heap w !! y = None) by (destruct src; try exact Hpl; destruct (Hm j eq_refl)).
  assert (Hcr : forall k d, M !! k = Some d -> crep K (w_heap w') d).
  { intros k d Hkd. exact (holds_rep _ _ _ _ _ _ _ _ H1 Hkd). }
  exists w', v. split; [|split; [exact Hv|split; [exact Hrep|split; [|split; [|split]]]]].
  - rewrite E, decide_True by (split; [exact Hk|split; [reflexivity|lia]]). reflexivity.
  - intros y n Hy. destruct (proj1 (wo_owned _ _ _ _ _ Hw y) ltac:(eauto)) as (k & d & Hkd & Hd).
    destruct (proj2 (wo_live _ _ _ _ _ Hw k) ltac:(eauto)) as [t Ht]. destruct (wo_tree _ _ _ _ _ Hw k t d Ht Hkd) as (_ & _ & Hrep0).
    rewrite <- (rep_lookup HK _ _ _ Hrep0 (Hcr k d Hkd) y Hd). exact Hy.
  - intros y Hy. split; [exact (Hnew y Hy)|exact (k_dom _ _ _ _ KO _ _ _ Hrep Hy)].
  - intros k t d Ht Hkd. destruct (holds_get _ _ _ _ _ _ _ _ H1 Hkd) as (t' & Ht' & _ & Hr' & _). split; [congruence|eauto].
  - pose proof Hw as H. apply (to_holds F _ al _ HK HFW) in H. pose proof (holds_size _ _ _ _ _ _ _ _ H Hi) as Lc. unfold fits in Hf.
    destruct (clear_ok F im al K KO w' M [v] i c H1 Hi ltac:(lia)) as (w1 & E1 & H2 & _). unfold destroy. rewrite E1. cbn [mbind res_bind]. eexists. split; [reflexivity|]. cbn [w_heap].
    assert (Hrep1 : crep K (w_heap w1) v) by (destruct H2 as [_ Hh]; eapply heap_ok_in; [exact Hh|left]).
    split; [exact Hrep1|]. intros y Hy. exact (k_dom _ _ _ _ KO _ _ _ Hrep1 Hy).
Qed.
Print Assumptions C81_insert_over_leak_refuted.

(** With a moved tree nothing is lost: the call throws and all trees are as before. *)
Theorem C81_insert_over_move :
  forall (V : Type) (EV : EqDecision V) (Nd : Type) (im : node_impl V Nd) (K : kind_data V Nd) (F : nat) (al : allocator Nd),
  tree_kind V EV Nd im K -> (N.of_nat F <= W64)%N ->
  forall (w : world Nd) (M : gmap tid (C K)) (i j : tid) (c d : C K) (a : addr) (pos : iter),
  consistent K w M -> M !! i = Some c -> M !! j = Some d -> i <> j -> fits F w (@SrcMove V j) ->
  a ∈ caddrs K c -> stands F im (w_heap w) (croot K c) a pos -> it_kind pos = BreadthFirst -> 1 < length (caddrs K d) ->
  exists w', insert_over_try F im al 0 w i pos (SrcMove j) = Throw w' /\ consistent K w' M.
Proof.
  intros V EV Nd im K F al HK HFW w M i j c d a pos Hw Hi Hj Hne Hf Ha Hst Hk Hl.
  destruct (over_try F al HK HFW w M _ i c (SrcMove j) _ a pos Hw Hi (GMove K w M i j d ltac:(congruence) Hj) Hf Ha Hst) as (v & w' & Hv & Hpl & H' & E).
  destruct (k_vals _ _ _ _ (kind_is_ok F al HK) v d Hv) as (Hlv & _). exists w'. split; [|apply (to_holds F _ al _ HK HFW), H'].
  rewrite E, decide_True by (split; [exact Hk|split; [reflexivity|lia]]). reflexivity.
Qed.
Print Assumptions C81_insert_over_move.

(** *** Cases met: the example trees of Examples2.v *)
Definition ex_bfs (a : addr) : iter :=
  match iterator_at 100 (nary_impl nat) (w_heap ex_nw) BreadthFirst (Some a) (Some 1%positive) with Ok it => it | Err _ => Iter BreadthFirst None None [] None end.
Lemma ex_bfs_ok : stands 100 (nary_impl nat) (w_heap ex_nw) (Some 1%positive) 3%positive (ex_bfs 3%positive).
Proof. split; [reflexivity|]. split; [reflexivity|]. intros _. exists (ex_bfs 3%positive). split; reflexivity. Qed.
Example C81_child_used :
  exists u it w' n, 0 < n /\ nvals u = Some (Rose 99 []) /\ consistent (nary_kind nat) w' (<[1%positive := nadd true 3%positive u (Some ex_nary)]> ex_nM) /\
    (forall room, room < n -> insert_child_try 100 (nary_impl nat) (first_fit _) room true false ex_nw 1%positive (ex_bfs 3%positive) (SrcValue 99) = Throw w') /\
    (forall room, n <= room -> insert_child_try 100 (nary_impl nat) (first_fit _) room true false ex_nw 1%positive (ex_bfs 3%positive) (SrcValue 99) = Ret it w').
Proof.
  destruct (C81_insert_child_refuted nat _ _ _ _ 100 (first_fit _) (nary_tree_kind nat _) ex_word ex_nw ex_nM ex_nM 1%positive (Some ex_nary) true false (SrcValue 99) (Some (Rose 99 [])) 3%positive (ex_bfs 3%positive)
    ex_nw_ok eq_refl (GValue (nary_kind nat) ex_nw ex_nM 1%positive 99) ltac:(vm_compute; lia) ltac:(discriminate) ltac:(vm_compute; set_solver +) eq_refl ltac:(intros []) eq_refl ltac:(discriminate))
    as (u & it & w' & n & Hn & Hu & _ & _ & Hc & H1 & H2). exists u, it, w', n. auto.
Qed.
Example C81_move_used :
  exists w' w'', insert_child_try 100 (nary_impl nat) (first_fit _) 0 true false ex_nw 1%positive (ex_bfs 3%positive) (SrcMove 2%positive) = Throw w' /\
    destroy 100 (nary_impl nat) w' 1%positive = Ok w'' /\ destroy 100 (nary_impl nat) w'' 2%positive = Err Dangling.
Proof.
  destruct (C81_insert_child_move_refuted nat _ _ _ _ 100 (first_fit _) (nary_tree_kind nat _) ex_word ex_nw ex_nM 1%positive 2%positive (Some ex_nary) (Some (Rose (7%positive, 70) [])) true false 3%positive 7%positive (ex_bfs 3%positive)
    ex_nw_ok eq_refl eq_refl ltac:(discriminate) eq_refl ltac:(vm_compute; lia) ltac:(vm_compute; set_solver +) eq_refl ltac:(intros []) eq_refl)
    as (it & w' & w2 & n & e & Hn & _ & H1 & _ & _ & _ & _ & _ & _ & _ & w'' & E1 & E2). exists w', w''. split; [apply H1, Hn|]. auto.
Qed.
Example C81_leak_used :
  exists w' v, insert_over_try 100 (nary_impl nat) (first_fit _) 0 ex_nw 1%positive (ex_bfs 3%positive) (SrcCopy 1%positive) = Throw w' /\ nvals v = nvals (Some ex_nary).
Proof.
  destruct (C81_insert_over_leak_refuted nat _ _ _ _ 100 (first_fit _) (nary_tree_kind nat _) ex_word ex_nw ex_nM ex_nM 1%positive (Some ex_nary) (Some ex_nary) (SrcCopy 1%positive) 3%positive (ex_bfs 3%positive)
    ex_nw_ok eq_refl (GCopy (nary_kind nat) ex_nw ex_nM 1%positive 1%positive (Some ex_nary) eq_refl) ltac:(vm_compute; lia) ltac:(discriminate) ltac:(vm_compute; set_solver +) ex_bfs_ok eq_refl ltac:(vm_compute; lia))
    as (w' & v & E & Hv & _). eauto.
Qed.
Definition ex_bfs7 : iter :=
  match iterator_at 100 (nary_impl nat) (w_heap ex_nw) BreadthFirst (Some 7%positive) (Some 7%positive) with Ok it => it | Err _ => Iter BreadthFirst None None [] None end.
Example C81_over_move_used :
  exists w', insert_over_try 100 (nary_impl nat) (first_fit _) 0 ex_nw 2%positive ex_bfs7 (SrcMove 1%positive) = Throw w' /\ consistent (nary_kind nat) w' ex_nM.
Proof.
  refine (C81_insert_over_move nat _ _ _ _ 100 (first_fit _) (nary_tree_kind nat _) ex_word ex_nw ex_nM 2%positive 1%positive (Some (Rose (7%positive, 70) [])) (Some ex_nary) 7%positive ex_bfs7
    ex_nw_ok eq_refl eq_refl ltac:(discriminate) ltac:(vm_compute; lia) ltac:(apply elem_of_list_singleton; reflexivity) _ eq_refl ltac:(vm_compute; lia)).
  split; [reflexivity|]. split; [reflexivity|]. intros _. exists ex_bfs7. split; reflexivity.
Qed.
Example C81_fits_used :
  insert_over_try 100 (nary_impl nat) (first_fit _) 1 ex_nw 1%positive (ex_bfs 3%positive) (SrcCopy 1%positive) = insert_over 100 (nary_impl nat) (first_fit _) ex_nw 1%positive (ex_bfs 3%positive) (SrcCopy 1%positive).
Proof.
  apply (C81_insert_over_partial nat _ _ _ _ 100 (first_fit _) (nary_tree_kind nat _) ex_word ex_nw ex_nM ex_nM 1%positive (Some ex_nary) (Some ex_nary) (SrcCopy 1%positive) 3%positive (ex_bfs 3%positive) 1
    ex_nw_ok eq_refl (GCopy (nary_kind nat) ex_nw ex_nM 1%positive 1%positive (Some ex_nary) eq_refl) ltac:(vm_compute; lia) ltac:(vm_compute; set_solver +) ex_bfs_ok). left. lia.
Qed.
