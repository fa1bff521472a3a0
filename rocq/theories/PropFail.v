(** PropFail.v: calls during which the creation of a node fails (C58, C59). *)
From Verif Require Import Base Spec StructNode BinaryNode NaryNode Nav Policy Tree User Rep EditSpec World Kinds TreeSpec History
  BinRep NaryRep TreeOps TreeFacts Fail FailSpec FailFacts FailUser Examples Examples2.

(** *** C58: a call that has to create [n] nodes and can create only [k] of them
    throws, and all the tree objects and all the nodes there were are as before; if
    [k] is enough, the call is the same as if nothing could fail. *)
Theorem C58_trees_unchanged :
  forall (V : Type) (EV : EqDecision V) (Nd : Type) (im : node_impl V Nd) (K : kind_data V Nd) (ti : try_impl V Nd),
  fail_kind V EV Nd im K ti -> forall (F : nat) (al : allocator Nd) (late : bool) (w : world Nd) (M : gmap tid (C K)) (c : call V) (n k : nat),
  consistent K w M -> size (w_heap w) <= F -> takes K w M c n -> k < n ->
  exists w', exec_try F im ti al late k w c = Throw w' /\ w_trees w' = w_trees w /\
    (forall a o, w_heap w !! a = Some o -> w_heap w' !! a = Some o) /\
    (forall i d, M !! i = Some d -> crep K (w_heap w') d).
Proof.
  intros V EV Nd im K ti HK F al late w M c n k Hw HF Ht Hk.
  destruct (takes_creates HK F al w M c n Hw Ht HF ltac:(lia)) as (x & a & h' & Ec & Eo & Hs).
  destruct (try_agrees F al late x _ _ _ _ HK Eo Hs) as (_ & H2). destruct (H2 k Hk) as (h2 & E2 & Hold & _).
  exists (set_heap w h2). unfold exec_try. rewrite Ec, E2. split; [reflexivity|]. split; [reflexivity|]. split; [exact Hold|].
  intros i d Hi. assert (Hti : is_Some (w_trees w !! i)) by (apply (wo_live _ _ _ _ _ Hw); eauto). destruct Hti as [t Hti].
  destruct (wo_tree _ _ _ _ _ Hw i t d Hti Hi) as (_ & _ & Hd). pose proof (kind_is_ok F al (fail_is_kind HK)) as KO.
  eapply (k_ext _ _ _ _ KO); [|exact Hd]. intros b Hb. destruct (k_dom _ _ _ _ KO _ _ _ Hd Hb) as [o Ho]. cbn. rewrite Ho. apply Hold, Ho.
Qed.
Print Assumptions C58_trees_unchanged.

Theorem C58_enough :
  forall (V : Type) (EV : EqDecision V) (Nd : Type) (im : node_impl V Nd) (K : kind_data V Nd) (ti : try_impl V Nd),
  fail_kind V EV Nd im K ti -> forall (F : nat) (al : allocator Nd) (late : bool) (w : world Nd) (M : gmap tid (C K)) (c : call V) (n k : nat),
  consistent K w M -> size (w_heap w) <= F -> takes K w M c n -> n <= k ->
  exec_try F im ti al late k w c = exec F im al w c.
Proof.
  intros V EV Nd im K ti HK F al late w M c n k Hw HF Ht Hk. unfold exec_try. destruct (decide (n = 0)) as [Hn|Hn].
  - rewrite (takes_none HK F al w M c n Hw Ht Hn). reflexivity.
  - destruct (takes_creates HK F al w M c n Hw Ht HF Hn) as (x & a & h' & Ec & Eo & Hs).
    destruct (try_agrees F al late x _ _ _ _ HK Eo Hs) as (H1 & _). rewrite Ec, (H1 k Hk). reflexivity.
Qed.
Print Assumptions C58_enough.

(** *** C59: nothing is given back.  Whichever call it is and wherever it fails,
    the [k] nodes that were created (and the memory of the one whose value could not be
    constructed, [late]) stay allocated and belong to no tree. *)
Theorem C59_leak_refuted :
  forall (V : Type) (EV : EqDecision V) (Nd : Type) (im : node_impl V Nd) (K : kind_data V Nd) (ti : try_impl V Nd),
  fail_kind V EV Nd im K ti -> forall (F : nat) (al : allocator Nd) (late : bool) (w : world Nd) (M : gmap tid (C K)) (c : call V) (n k : nat),
  consistent K w M -> size (w_heap w) <= F -> takes K w M c n -> k < n ->
  exists w', exec_try F im ti al late k w c = Throw w' /\
    size (w_heap w') = size (w_heap w) + k + (if late then 1 else 0) /\
    (0 < k \/ late = true -> exists a, is_Some (w_heap w' !! a) /\ forall i d, M !! i = Some d -> a ∉ caddrs K d) /\
    (0 < k \/ late = true -> forall M', ~ consistent K w' M').
Proof.
  intros V EV Nd im K ti HK F al late w M c n k Hw HF Ht Hk.
  destruct (takes_creates HK F al w M c n Hw Ht HF ltac:(lia)) as (x & a & h' & Ec & Eo & Hs).
  destruct (try_agrees F al late x _ _ _ _ HK Eo Hs) as (_ & H2). destruct (H2 k Hk) as (h2 & E2 & Hold & Hsz).
  exists (set_heap w h2). unfold exec_try. rewrite Ec, E2. split; [reflexivity|]. split; [exact Hsz|].
  assert (Hnew : 0 < k \/ late = true -> exists b, is_Some (h2 !! b) /\ w_heap w !! b = None).
  { intros Hp. destruct (decide (forall b, b ∈ dom (D := gset addr) h2 -> b ∈ dom (D := gset addr) (w_heap w))) as [Hall|Hall].
    - apply subseteq_size in Hall. rewrite !size_dom in Hall. destruct late, Hp; try discriminate; lia.
    - apply not_set_Forall_Exists in Hall; [|apply _]. destruct Hall as (b & Hb & Hnb). exists b. split; [apply elem_of_dom, Hb|apply not_elem_of_dom, Hnb]. }
  split.
  - intros Hp. destruct (Hnew Hp) as (b & Hb & Hnb). exists b. split; [exact Hb|]. intros i d Hi Hbd.
    destruct (proj2 (wo_owned _ _ _ _ _ Hw b)) as [o Ho]; [eauto|]. congruence.
  - intros Hp M' Hw'. destruct (Hnew Hp) as (b & Hb & Hnb). apply (wo_owned _ _ _ _ _ Hw') in Hb as (i & d' & Hi & Hbd).
    assert (Hti : is_Some (w_trees w !! i)) by (apply (wo_live _ _ _ _ _ Hw'); eauto). destruct Hti as [t Hti].
    assert (Hd : is_Some (M !! i)) by (apply (wo_live _ _ _ _ _ Hw); eauto). destruct Hd as [d Hd].
    destruct (wo_tree _ _ _ _ _ Hw i t d Hti Hd) as (Hr & _ & Hcd). destruct (wo_tree _ _ _ _ _ Hw' i t d' Hti Hi) as (Hr' & _ & Hcd').
    pose proof (kind_is_ok F al (fail_is_kind HK)) as KO.
    assert (Hcd2 : crep K h2 d).
    { eapply (k_ext _ _ _ _ KO); [|exact Hcd]. intros y Hy. destruct (k_dom _ _ _ _ KO _ _ _ Hcd Hy) as [o Ho]. rewrite Ho. apply Hold, Ho. }
    assert (d' = d) as ->.
    { rewrite Hr in Hr'. cbn [w_heap set_heap] in Hcd'. clear -HK Hcd' Hcd2 Hr'. destruct HK; cbn in d, d', Hr', Hcd', Hcd2.
      - destruct Hcd' as [H1 _], Hcd2 as [H2 _]. eapply brep_unique; [exact H1|exact H2|congruence].
      - destruct d as [d|], d' as [d'|]; cbn in Hr'; try discriminate; [|reflexivity].
        destruct Hcd' as [H1 _], Hcd2 as [H2 _]. injection Hr' as Hr'. f_equal. eapply nrep_unique; [exact H1|exact H2|congruence]. }
    destruct (proj2 (wo_owned _ _ _ _ _ Hw b)) as [o Ho]; [eauto|]. congruence.
Qed.
Print Assumptions C59_leak_refuted.
(** What is true: if already the first allocation fails, nothing is lost. *)
Theorem C59_first_partial :
  forall (V : Type) (EV : EqDecision V) (Nd : Type) (im : node_impl V Nd) (K : kind_data V Nd) (ti : try_impl V Nd),
  fail_kind V EV Nd im K ti -> forall (F : nat) (al : allocator Nd) (w : world Nd) (M : gmap tid (C K)) (c : call V) (n : nat),
  consistent K w M -> size (w_heap w) <= F -> takes K w M c n -> 0 < n ->
  exists w', exec_try F im ti al false 0 w c = Throw w' /\ consistent K w' M.
Proof.
  intros V EV Nd im K ti HK F al w M c n Hw HF Ht Hk.
  destruct (takes_creates HK F al w M c n Hw Ht HF ltac:(lia)) as (x & a & h' & Ec & Eo & Hs).
  destruct (try_agrees F al false x _ _ _ _ HK Eo Hs) as (_ & H2). destruct (H2 0 Hk) as (h2 & E2 & Hold & Hsz).
  exists (set_heap w h2). unfold exec_try. rewrite Ec, E2. split; [reflexivity|].
  assert (h2 = w_heap w) as ->; [|destruct w; exact Hw].
  apply map_eq. intros b. destruct (w_heap w !! b) as [o|] eqn:Eb; [apply Hold, Eb|]. destruct (h2 !! b) as [o|] eqn:Eb2; [|reflexivity]. exfalso.
  assert (Hlt : size (dom (D := gset addr) (w_heap w)) < size (dom (D := gset addr) h2)); [|rewrite !size_dom in Hlt; lia].
  apply subset_size. split.
  - intros y Hy. apply elem_of_dom in Hy as [o' Ho']. apply elem_of_dom. eauto.
  - intros Hsub. assert (Hb : b ∈ dom (D := gset addr) h2) by (apply elem_of_dom; eauto). apply Hsub, elem_of_dom in Hb as [? ?]. congruence.
Qed.
Print Assumptions C59_first_partial.

(** Copying the six nodes of the example tree when three can be created: the tree
    is as before, three nodes are lost. *)
Example C58_used : exists w',
  exec_try 100 (nary_impl nat) (nary_try nat) (first_fit _) false 3 ex_nw (CCopy 2%positive 1%positive) = Throw w' /\
  w_trees w' = w_trees ex_nw /\ crep (nary_kind nat) (w_heap w') (Some ex_nary).
Proof.
  destruct (C58_trees_unchanged nat _ _ _ _ _ (nary_fail_kind nat _) 100 (first_fit _) false ex_nw ex_nM (CCopy 2%positive 1%positive) 6 3 ex_nw_ok) as (w' & E & Ht & _ & Hc).
  - vm_compute. lia.
  - exact (TCCopy (nary_kind nat) ex_nw ex_nM 2%positive 1%positive (Some ex_nary) eq_refl).
  - lia.
  - exists w'. split; [exact E|]. split; [exact Ht|]. apply (Hc 1%positive). reflexivity.
Qed.
Example C59_used : exists w',
  exec_try 100 (binary_impl nat) (binary_try nat) (first_fit _) true 2 ex_bw (CInsertOver 1%positive (Iter PreOrder (Some 1%positive) (Some 1%positive) [] None) (SrcCopy 1%positive)) = Throw w' /\
  size (w_heap w') = size (w_heap ex_bw) + 3 /\ forall M', ~ consistent (binary_kind nat) w' M'.
Proof.
  destruct (C59_leak_refuted nat _ _ _ _ _ (binary_fail_kind nat _) 100 (first_fit _) true ex_bw ex_bM
    (CInsertOver 1%positive (Iter PreOrder (Some 1%positive) (Some 1%positive) [] None) (SrcCopy 1%positive)) (length (baddrs ex_bin)) 2 ex_bw_ok) as (w' & E & Hs & _ & Hn).
  - vm_compute. lia.
  - exact (TCInsertOver _ _ _ _ _ _ _ (TCopy (binary_kind nat) ex_bw ex_bM 1%positive ex_bin eq_refl)).
  - vm_compute. lia.
  - exists w'. split; [exact E|]. split; [rewrite Hs; cbn; lia|]. apply Hn. right. reflexivity.
Qed.
