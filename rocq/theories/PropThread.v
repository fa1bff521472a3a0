(** PropThread.v: C76, several threads reading the same trees. *)
From Verif Require Import Base Spec StructNode LitFacts BinaryNode NaryNode Nav Policy Tree User Rep EditSpec World NaryOps NaryOps2 Kinds TreeSpec TreeOps TreeOps2 TreeOps3 TreeOps4 TreeFacts RoseFacts History PropTree Examples Examples2 Threads ThreadFacts.

(** Any number of threads, each making any calls of const member functions of
    the same trees, interleaved in any way: the contents of the trees and the
    nodes never change, size() and arity() remain right, every thread can go on
    until it has made all its calls, which takes at most 12 accesses per call,
    and each call returned the right answer. *)
Theorem C76_readers_partial :
  forall (V : Type) (EV : EqDecision V) (Nd : Type) (im : node_impl V Nd) (K : kind_data V Nd) (F : nat),
  tree_kind V EV Nd im K -> (N.of_nat F <= W64)%N ->
  forall (w : world Nd) (M : gmap tid (C K)) (cs : list (list (call V))),
  consistent K w M -> size (w_heap w) < F -> reports K F im w M -> Forall (Forall (callable K F im w M)) cs ->
  forall (m : nat) (s : state V Nd), nsteps step m (start F im w cs) s ->
  consistent K (s_world s) M /\ w_heap (s_world s) = w_heap w /\ reports K F im (s_world s) M /\
  m <= 12 * length (concat cs) /\ length (s_threads s) = length cs /\
  (forall n l p, cs !! n = Some l -> s_threads s !! n = Some p ->
    (exists s', access n s s') \/ exists answers, p = Done answers /\ Forall2 (right K F im w M) l answers).
Proof.
  intros V EV Nd im K F HK HFW w M cs Hw HF Hr Hcs m s Hs. pose proof (first_fit Nd) as al.
  pose proof Hw as H. apply (to_holds F _ al _ HK HFW) in H. apply (reports_caches F im al K HK HFW w M Hw HF) in Hr.
  pose proof (start_inv F im al K HK HFW w M H HF cs Hcs true Hr (or_introl eq_refl)) as H0.
  pose proof (nsteps_inv F im K w M cs true m _ _ Hs H0) as Hi. pose proof Hi as (Hh & _ & Ho & Hl & _).
  apply (to_holds F _ al _ HK HFW) in Ho. split; [exact Ho|]. split; [exact Hh|]. split.
  { apply (reports_caches F im al K HK HFW (s_world s) M Ho); [rewrite Hh; exact HF|]. exact (inv_caches F im K w M cs true s Hi). }
  split; [|split; [exact Hl|]].
  - rewrite <- total_length. eapply nsteps_short; [exact Hs|]. apply start_short.
  - intros n l p Hn Hp. exact (fine_go F im K w M cs true s n l p Hi Hn Hp).
Qed.
Print Assumptions C76_readers_partial.

(** If the stored sizes and arities of the trees they read are known, no thread
    ever writes: no data race, and nothing changes at all. *)
Theorem C76_no_race_partial :
  forall (V : Type) (EV : EqDecision V) (Nd : Type) (im : node_impl V Nd) (K : kind_data V Nd) (F : nat),
  tree_kind V EV Nd im K -> (N.of_nat F <= W64)%N ->
  forall (w : world Nd) (M : gmap tid (C K)) (cs : list (list (call V))),
  consistent K w M -> size (w_heap w) < F -> reports K F im w M -> Forall (Forall (callable K F im w M)) cs ->
  (forall l c i, l ∈ cs -> c ∈ l -> i ∈ mentions c -> known K w M i) ->
  forall s : state V Nd, rtc step (start F im w cs) s -> ~ race s /\ s_world s = w.
Proof.
  intros V EV Nd im K F HK HFW w M cs Hw HF Hr Hcs Hkn s Hs. pose proof (first_fit Nd) as al.
  pose proof Hw as H. apply (to_holds F _ al _ HK HFW) in H. apply (reports_caches F im al K HK HFW w M Hw HF) in Hr.
  pose proof (start_inv F im al K HK HFW w M H HF cs Hcs false Hr (or_intror Hkn)) as H0. apply rtc_nsteps in Hs as [m Hs].
  pose proof (nsteps_inv F im K w M cs false m _ _ Hs H0) as (_ & _ & _ & Hl & Hf & Hsame).
  split; [|apply Hsame; reflexivity].
  assert (Hno : forall n p f, s_threads s !! n = Some p -> next p <> Some (f, true)).
  { intros n p f Hp Hx. assert (is_Some (cs !! n)) as [l Hn] by (apply lookup_lt_is_Some; rewrite <- Hl; apply lookup_lt_Some in Hp; exact Hp).
    destruct (Hf n l p Hn Hp) as (kn & _ & Hg). destruct p; cbn in *; try discriminate. destruct Hg as [Hg _]. discriminate. }
  intros (n & m' & p & q & f & x & y & _ & Hp & Hq & Np & Nq & [->| ->]); [exact (Hno _ _ _ Hp Np)|exact (Hno _ _ _ Hq Nq)].
Qed.
Print Assumptions C76_no_race_partial.

(** Calling size() and arity() of a tree once, before the threads start, is
    enough to make them known. *)
Theorem C76_warm_partial :
  forall (V : Type) (EV : EqDecision V) (Nd : Type) (im : node_impl V Nd) (K : kind_data V Nd) (F : nat),
  tree_kind V EV Nd im K -> (N.of_nat F <= W64)%N ->
  forall (w : world Nd) (M : gmap tid (C K)) (i : tid),
  consistent K w M -> size (w_heap w) < F -> reports K F im w M -> live K M i ->
  exists n r w1 w2, tree_size F im w i = Ok (n, w1) /\ tree_arity F im w1 i = Ok (r, w2) /\
    consistent K w2 M /\ reports K F im w2 M /\ known K w2 M i /\ (forall j, known K w M j -> known K w2 M j).
Proof.
  intros V EV Nd im K F HK HFW w M i Hw HF Hr [c Hi]. pose proof (first_fit Nd) as al. pose proof (kind_is_ok F al HK) as KO.
  pose proof Hw as H. apply (to_holds F _ al _ HK HFW) in H. apply (reports_caches F im al K HK HFW w M Hw HF) in Hr.
  pose proof (holds_size _ _ _ _ _ _ _ _ H Hi) as Lc.
  destruct (size_step F im al K KO HFW w M [] i c H Hr Hi ltac:(lia)) as (w1 & E1 & H1 & Hc1 & Hh1 & t & Ht & Hw1).
  destruct (arity_step F im al K KO HFW w1 M [] i c H1 Hc1 Hi ltac:(lia)) as (w2 & E2 & H2 & Hc2 & Hh2 & t1 & Ht1 & Hw2).
  exists (N.of_nat (length (caddrs K c))), (N.of_nat (carity K c)), w1, w2. split; [exact E1|]. split; [exact E2|].
  apply (to_holds F _ al _ HK HFW) in H2. split; [exact H2|]. split; [apply (reports_caches F im al K HK HFW w2 M H2); [rewrite Hh2, Hh1; exact HF|exact Hc2]|].
  rewrite Hw1 in Ht1. rewrite lookup_insert in Ht1. injection Ht1 as <-. cbn in Hw2.
  assert (Hki : known K w2 M i).
  { intros t2 x Ht2 Hx. rewrite Hw2, lookup_insert in Ht2. injection Ht2 as <-. assert (x = c) by congruence. subst x. auto. }
  split; [exact Hki|]. intros j Hj. destruct (decide (i = j)) as [<-|Hne]; [exact Hki|].
  intros t2 x Ht2 Hx. rewrite Hw2, Hw1, !lookup_insert_ne in Ht2 by exact Hne. exact (Hj t2 x Ht2 Hx).
Qed.
Print Assumptions C76_warm_partial.

(** A thread alone computes what the sequential functions do. *)
Theorem C76_alone :
  forall (V Nd : Type) (im : node_impl V Nd) (F : nat) (w : world Nd) (cs : list (call V)),
  solo (w_trees w) (p_calls F im w cs []) = ('(l, w') ← plain_calls F im w cs []; Ok (l, w_trees w')).
Proof. intros V Nd im F w cs. rewrite (solo_calls F im w cs (w_trees w) []) by (intros i; reflexivity). destruct w; reflexivity. Qed.
Print Assumptions C76_alone.

(** But const calls are not free of data races: whenever the size of a non-empty
    tree is not stored, two threads that both begin with size() race, and the
    same for arity() when the root has a child. *)
Theorem C76_race_refuted :
  forall (V : Type) (EV : EqDecision V) (Nd : Type) (im : node_impl V Nd) (K : kind_data V Nd) (F : nat),
  tree_kind V EV Nd im K -> (N.of_nat F <= W64)%N ->
  forall (w : world Nd) (M : gmap tid (C K)) (i : tid) (c : C K) (t : tree_rec),
  consistent K w M -> size (w_heap w) < F -> M !! i = Some c -> w_trees w !! i = Some t -> croot K c <> None ->
  forall (cs : list (list (call V))) (n m : nat) (l1 l2 : list (call V)), n <> m ->
  (t_size t = 0%N -> cs !! n = Some (CSize i :: l1) -> cs !! m = Some (CSize i :: l2) ->
     exists s, rtc step (start F im w cs) s /\ race s) /\
  (t_arity t = 0%N -> carity K c <> 0 -> cs !! n = Some (CArity i :: l1) -> cs !! m = Some (CArity i :: l2) ->
     exists s, rtc step (start F im w cs) s /\ race s).
Proof.
  intros V EV Nd im K F HK HFW w M i c t Hw HF Hi Ht Hne cs n m l1 l2 Hnm. pose proof (first_fit Nd) as al. pose proof (kind_is_ok F al HK) as KO.
  pose proof Hw as H. apply (to_holds F _ al _ HK HFW) in H. pose proof (holds_size _ _ _ _ _ _ _ _ H Hi) as Lc.
  destruct (holds_get _ _ _ _ _ _ _ _ H Hi) as (t' & Ht' & Hg & Hr & _). rewrite Ht in Ht'. injection Ht' as <-.
  assert (Hc : csrc K (w_heap w) c) by (eapply (rep_src F im al K KO), holds_rep; eassumption).
  destruct (croot K c) as [a|] eqn:Ea; [|congruence].
  assert (Hgo : forall f k v p q e, map (fun l => p_calls F im w l []) cs !! n = Some (Read f k) -> map (fun l => p_calls F im w l []) cs !! m = Some q ->
    get_field (w_trees w) f = Some v -> k v = Write f e p -> (exists x, next q = Some (f, x)) -> exists s, rtc step (start F im w cs) s /\ race s).
  { intros f k v p q e Hn Hm Hv Hk (x & Hq). exists (State w (<[n := k v]> (map (fun l => p_calls F im w l []) cs))). split.
    - apply rtc_once. exists n. unfold start. destruct w as [h T]. econstructor; eassumption.
    - exists n, m, (k v), q, f, true, x. split; [exact Hnm|]. cbn. rewrite list_lookup_insert by (apply lookup_lt_Some in Hn; exact Hn).
      split; [reflexivity|]. rewrite list_lookup_insert_ne by exact Hnm. split; [exact Hm|]. rewrite Hk. cbn. auto. }
  assert (Hmap : forall x l, cs !! x = Some l -> map (fun l => p_calls F im w l []) cs !! x = Some (p_calls F im w l [])).
  { intros x l Hx. rewrite list_lookup_fmap, Hx. reflexivity. }
  split.
  - intros Hz Hn Hm. apply Hmap in Hn, Hm. cbn [p_calls p_call] in Hn, Hm. rewrite Hg in Hn, Hm. cbn [ok] in Hn, Hm. rewrite Hr in Hn, Hm. unfold p_size in Hn, Hm. cbn [is_null] in Hn, Hm.
    eapply Hgo; [exact Hn|exact Hm|cbn; rewrite Ht; cbn; rewrite Hz; reflexivity| |cbn; eauto].
    cbn [N.eqb]. rewrite (k_size _ _ _ _ KO (w_heap w) c a Hc Ea) by lia. cbn [ok]. reflexivity.
  - intros Hz Hca Hn Hm. apply Hmap in Hn, Hm. cbn [p_calls p_call] in Hn, Hm. rewrite Hg in Hn, Hm. cbn [ok] in Hn, Hm. rewrite Hr in Hn, Hm. unfold p_arity in Hn, Hm. cbn [is_null] in Hn, Hm.
    destruct (k_arity _ _ _ _ KO (w_heap w) c a Hc Ea ltac:(lia) ltac:(lia)) as (fc & Hf & Hnf & Har).
    eapply Hgo; [exact Hn|exact Hm|cbn; rewrite Ht; cbn; rewrite Hz; reflexivity| |cbn; eauto].
    cbn [N.eqb]. rewrite Hf. cbn [ok]. destruct fc as [b|]; [|destruct (Hca (Hnf eq_refl))]. rewrite Har. cbn [ok]. reflexivity.
Qed.
Print Assumptions C76_race_refuted.

(** Two binary trees (tree 1 has five nodes and nothing stored, as after
    erasing an inner node): three threads, and what they read. *)
Definition ex_calls : list (list (call nat)) :=
  [[CSize 1%positive; CEq 1%positive 2%positive]; [CArity 1%positive; CEqLit 2%positive (LNode 70 [])]; [CLoop 1%positive PreOrder; CEmpty 2%positive]].
Example C76_used :
  consistent (binary_kind nat) ex_bw ex_bM /\ size (w_heap ex_bw) < 100 /\ reports (binary_kind nat) 100 (binary_impl nat) ex_bw ex_bM /\
  Forall (Forall (callable (binary_kind nat) 100 (binary_impl nat) ex_bw ex_bM)) ex_calls /\
  (exists t, w_trees ex_bw !! 1%positive = Some t /\ t_size t = 0%N /\ t_arity t = 0%N) /\
  map (fun l => match solo (w_trees ex_bw) (p_calls 100 (binary_impl nat) ex_bw l []) with Ok (r, _) => r | Err _ => [] end) ex_calls
    = [[ANum 5; ABool false]; [ANum 2; ABool true]; [ANodes [(1%positive, 10); (2%positive, 20); (4%positive, 40); (5%positive, 50); (3%positive, 30)]; ABool false]].
Proof.
  split; [exact ex_bw_ok|]. split; [vm_compute; lia|]. split; [apply (reports_caches 100 _ (first_fit _) _ (binary_tree_kind nat _) ex_word _ _ ex_bw_ok); [vm_compute; lia|exact ex_bw_caches]|].
  split.
  { repeat (apply List.Forall_cons || apply List.Forall_nil); cbn.
    - eexists. reflexivity.
    - split; eexists; reflexivity.
    - eexists. reflexivity.
    - split; [eexists; reflexivity|]. cbn. lia.
    - exists ex_bin. eexists. split; [reflexivity|]. vm_compute. reflexivity.
    - eexists. reflexivity. }
  split; [eexists; split; [reflexivity|split; reflexivity]|]. vm_compute. reflexivity.
Qed.
