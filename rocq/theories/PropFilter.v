(** PropFilter.v: filtered iterators (C69, C70, C71). *)
From Verif Require Import Base Spec StructNode BinaryNode NaryNode Nav Policy Tree Rep RoseFacts RowFacts NavFacts Orders
  BinRep NaryRep User Iter IterTrees IterMain IterProofs EditSpec World Kinds TreeSpec TreeOps TreeFacts PropTree Moves NodeFacts PropMove Filter FilterFacts Examples Examples2.

(** [accepted p l]: the accepted elements of the sequence [l] of the policy.  A
    filtered iterator made at any position of [l] - at [begin], at an element, at the
    end - and moved by any [++] and [--] behaves as an iterator over the accepted
    elements: [position] (User.v) counts them. *)
Theorem C69_nary :
  forall (V : Type) (EV : EqDecision V) (F : nat) (h : gmap addr (nnode V)) (t : option (rose (addr * V))) (k : kind) (p : V -> bool)
    (l1 l2 : list (addr * V)) (it : iter) (ms : list bool) (j : nat),
  onary_in h t -> nsize t < F -> two_way_nary k -> nary_order k t = l1 ++ l2 ->
  iterator_at F (nary_impl V) h k (nth_addr l2 0) (nroot t) = Ok it \/ (l1 = [] /\ tree_begin F (tree_nav (nary_impl V) h) k (nroot t) = Ok it) ->
  position (length (accepted p (nary_order k t))) ms (length (accepted p l1)) = Some j ->
  exists f it' it2, fi_make F (nary_impl V) h p it = Ok f /\ fi_run F (nary_impl V) h ms f = Ok (Fiter it' (Some p)) /\
    it_cur it' = nth_addr (accepted p (nary_order k t)) j /\
    iterator_at F (nary_impl V) h k (nth_addr (accepted p (nary_order k t)) j) (nroot t) = Ok it2 /\ same_iter it' it2.
Proof.
  intros V EV F h t k p l1 l2 it ms j Ht HF Hk El Hit Hpos.
  exact (fi_moves F (nary_impl V) h k (nroot t) (nary_order k t) p l1 l2 it ms j (nary_two F h t k Ht HF Hk) El Hit Hpos).
Qed.
Print Assumptions C69_nary.
Theorem C69_binary :
  forall (V : Type) (EV : EqDecision V) (F : nat) (h : gmap addr (bnode V)) (t : bin (addr * V)) (k : kind) (p : V -> bool)
    (l1 l2 : list (addr * V)) (it : iter) (ms : list bool) (j : nat),
  bin_in h t -> bin_size t < F -> two_way_bin k -> bin_order k t = l1 ++ l2 ->
  iterator_at F (binary_impl V) h k (nth_addr l2 0) (baddr t) = Ok it \/ (l1 = [] /\ tree_begin F (tree_nav (binary_impl V) h) k (baddr t) = Ok it) ->
  position (length (accepted p (bin_order k t))) ms (length (accepted p l1)) = Some j ->
  exists f it' it2, fi_make F (binary_impl V) h p it = Ok f /\ fi_run F (binary_impl V) h ms f = Ok (Fiter it' (Some p)) /\
    it_cur it' = nth_addr (accepted p (bin_order k t)) j /\
    iterator_at F (binary_impl V) h k (nth_addr (accepted p (bin_order k t)) j) (baddr t) = Ok it2 /\ same_iter it' it2.
Proof.
  intros V EV F h t k p l1 l2 it ms j Ht HF Hk El Hit Hpos.
  exact (fi_moves F (binary_impl V) h k (baddr t) (bin_order k t) p l1 l2 it ms j (bin_two F h t k Ht HF Hk) El Hit Hpos).
Qed.
Print Assumptions C69_binary.

(** Changing the policy at an accepted element keeps it. *)
Theorem C69_policy_nary :
  forall (V : Type) (EV : EqDecision V) (F : nat) (h : gmap addr (nnode V)) (t : option (rose (addr * V))) (k : kind) (p : V -> bool)
    (l1 l2 : list (addr * V)) (x : addr * V) (it : iter),
  onary_in h t -> nsize t < F -> two_way_nary k -> nary_order k t = l1 ++ x :: l2 -> p (snd x) = true ->
  it_cur it = Some (fst x) -> it_root it = (nroot t) ->
  exists it2, fi_policy F (nary_impl V) h k (Fiter it (Some p)) = Ok (Fiter it2 (Some p)) /\ it_kind it2 = k /\ it_cur it2 = Some (fst x) /\
    iterator_at F (nary_impl V) h k (Some (fst x)) (nroot t) = Ok it2.
Proof.
  intros V EV F h t k p l1 l2 x it Ht HF Hk El Hp Hc Hr.
  destruct (p_change_policy_nary V EV F h t k it l1 l2 x Ht HF Hk El Hc Hr) as (it2 & E & Hkd & Hcur & _).
  exists it2. unfold fi_policy. cbn [fi_pred fi_it]. change (get_instance F (tree_nav (nary_impl V) h) k (it_cur it) (it_root it)) with (it_other_policy F (tree_nav (nary_impl V) h) it k).
  rewrite E. cbn [mbind res_bind]. unfold fi_make, filter_make. rewrite Hcur, Hc.
  assert (Hv : ni_value (nary_impl V) h (Some (fst x)) = Ok (snd x)).
  { destruct (nary_two F h t k Ht HF Hk) as [(_ & E0 & _)|(r & _ & _ & Hv & _)]; [rewrite E0 in El; destruct l1; discriminate|].
    apply Hv. rewrite El. apply elem_of_app. right. left. }
  unfold vpred. rewrite Hv. cbn [mbind res_bind]. rewrite Hp. cbn [mbind res_bind]. split; [reflexivity|]. split; [exact Hkd|]. split; [reflexivity|].
  unfold it_other_policy in E. rewrite Hc, Hr in E. exact E.
Qed.
Print Assumptions C69_policy_nary.
Theorem C69_policy_binary :
  forall (V : Type) (EV : EqDecision V) (F : nat) (h : gmap addr (bnode V)) (t : bin (addr * V)) (k : kind) (p : V -> bool)
    (l1 l2 : list (addr * V)) (x : addr * V) (it : iter),
  bin_in h t -> bin_size t < F -> two_way_bin k -> bin_order k t = l1 ++ x :: l2 -> p (snd x) = true ->
  it_cur it = Some (fst x) -> it_root it = (baddr t) ->
  exists it2, fi_policy F (binary_impl V) h k (Fiter it (Some p)) = Ok (Fiter it2 (Some p)) /\ it_kind it2 = k /\ it_cur it2 = Some (fst x) /\
    iterator_at F (binary_impl V) h k (Some (fst x)) (baddr t) = Ok it2.
Proof.
  intros V EV F h t k p l1 l2 x it Ht HF Hk El Hp Hc Hr.
  destruct (p_change_policy_binary V EV F h t k it l1 l2 x Ht HF Hk El Hc Hr) as (it2 & E & Hkd & Hcur & _).
  exists it2. unfold fi_policy. cbn [fi_pred fi_it]. change (get_instance F (tree_nav (binary_impl V) h) k (it_cur it) (it_root it)) with (it_other_policy F (tree_nav (binary_impl V) h) it k).
  rewrite E. cbn [mbind res_bind]. unfold fi_make, filter_make. rewrite Hcur, Hc.
  assert (Hv : ni_value (binary_impl V) h (Some (fst x)) = Ok (snd x)).
  { destruct (bin_two F h t k Ht HF Hk) as [(_ & E0 & _)|(r & _ & _ & Hv & _)]; [rewrite E0 in El; destruct l1; discriminate|].
    apply Hv. rewrite El. apply elem_of_app. right. left. }
  unfold vpred. rewrite Hv. cbn [mbind res_bind]. rewrite Hp. cbn [mbind res_bind]. split; [reflexivity|]. split; [exact Hkd|]. split; [reflexivity|].
  unfold it_other_policy in E. rewrite Hc, Hr in E. exact E.
Qed.
Print Assumptions C69_policy_binary.

(** other_node(x): a filtered iterator with the same policy and predicate at the
    first accepted element from [x] on, [x] itself if it is accepted. *)
Lemma fi_node_ok {V Nd} F (im : node_impl V Nd) h k root (l : list (addr * V)) p l1 l2 x it :
  two_ok F im h k root l -> l = l1 ++ x :: l2 -> it_kind it = k -> it_root it = root ->
  exists it', fi_node F im h (Some (fst x)) (Fiter it (Some p)) = Ok (Fiter it' (Some p)) /\ it_cur it' = nth_addr (accepted p (x :: l2)) 0 /\
    exists it2, iterator_at F im h k (nth_addr (accepted p (x :: l2)) 0) root = Ok it2 /\ same_iter it' it2.
Proof.
  intros H2 El Hk Hr.
  assert (Hx : nth_addr l (length l1) = Some (fst x)).
  { subst l. unfold nth_addr. rewrite map_app, nth_error_app2 by (rewrite map_length; lia). rewrite map_length, Nat.sub_diag. reflexivity. }
  destruct (moves_ok F im h k root l [] (length l1) (length l1) H2 ltac:(subst l; rewrite app_length; lia) eq_refl) as (_ & it1 & _ & _ & E1 & _). rewrite Hx in E1.
  assert (Hap : accepted p l = accepted p l1 ++ accepted p (x :: l2)) by (subst l; apply List.filter_app).
  destruct (fi_moves F im h k root l p l1 (x :: l2) it1 [] (length (accepted p l1)) H2 El (or_introl E1) eq_refl) as (f & it' & it2 & Ef & Er & Hc & Ei & Hs).
  assert (Hn : nth_addr (accepted p l) (length (accepted p l1)) = nth_addr (accepted p (x :: l2)) 0).
  { rewrite Hap. unfold nth_addr. rewrite map_app, nth_error_app2 by (rewrite map_length; lia). rewrite map_length, Nat.sub_diag. reflexivity. }
  cbn [fi_run] in Er. injection Er as ->. rewrite Hn in Hc, Ei. exists it'. split; [|split; [exact Hc|exists it2; auto]].
  unfold fi_node. cbn [fi_pred fi_it]. rewrite Hk, Hr. change (get_instance F (tree_nav im h) k (Some (fst x)) root) with (iterator_at F im h k (Some (fst x)) root).
  rewrite E1. exact Ef.
Qed.
Theorem C69_node_nary :
  forall (V : Type) (EV : EqDecision V) (F : nat) (h : gmap addr (nnode V)) (t : option (rose (addr * V))) (p : V -> bool)
    (l1 l2 : list (addr * V)) (x : addr * V) (it : iter),
  onary_in h t -> nsize t < F -> two_way_nary (it_kind it) -> nary_order (it_kind it) t = l1 ++ x :: l2 -> it_root it = nroot t ->
  exists it', fi_node F (nary_impl V) h (Some (fst x)) (Fiter it (Some p)) = Ok (Fiter it' (Some p)) /\ it_cur it' = nth_addr (accepted p (x :: l2)) 0 /\
    exists it2, iterator_at F (nary_impl V) h (it_kind it) (nth_addr (accepted p (x :: l2)) 0) (nroot t) = Ok it2 /\ same_iter it' it2.
Proof.
  intros V EV F h t p l1 l2 x it Ht HF Hk El Hr.
  exact (fi_node_ok F (nary_impl V) h (it_kind it) (nroot t) (nary_order (it_kind it) t) p l1 l2 x it (nary_two F h t (it_kind it) Ht HF Hk) El eq_refl Hr).
Qed.
Print Assumptions C69_node_nary.
Theorem C69_node_binary :
  forall (V : Type) (EV : EqDecision V) (F : nat) (h : gmap addr (bnode V)) (t : bin (addr * V)) (p : V -> bool)
    (l1 l2 : list (addr * V)) (x : addr * V) (it : iter),
  bin_in h t -> bin_size t < F -> two_way_bin (it_kind it) -> bin_order (it_kind it) t = l1 ++ x :: l2 -> it_root it = baddr t ->
  exists it', fi_node F (binary_impl V) h (Some (fst x)) (Fiter it (Some p)) = Ok (Fiter it' (Some p)) /\ it_cur it' = nth_addr (accepted p (x :: l2)) 0 /\
    exists it2, iterator_at F (binary_impl V) h (it_kind it) (nth_addr (accepted p (x :: l2)) 0) (baddr t) = Ok it2 /\ same_iter it' it2.
Proof.
  intros V EV F h t p l1 l2 x it Ht HF Hk El Hr.
  exact (fi_node_ok F (binary_impl V) h (it_kind it) (baddr t) (bin_order (it_kind it) t) p l1 l2 x it (bin_two F h t (it_kind it) Ht HF Hk) El eq_refl Hr).
Qed.
Print Assumptions C69_node_binary.

(** The explicit moves do not look at the predicate: the iterator goes to the
    relative ([leads], Moves.v, C65), accepted or not.  In full, it would stand at an
    accepted element: missing if the relative is rejected.  The next [++] leads to an
    accepted element again: the first one after the relative. *)
Theorem C70_nary_partial :
  forall (V : Type) (EV : EqDecision V) (F : nat) (h : gmap addr (nnode V)) (t : rose (addr * V)) (p : V -> bool) (it : iter) (m : iter_move) (a : addr)
    (l1 l2 : list (addr * V)) (x : addr * V),
  nary_in h t -> rsize t < F -> (N.of_nat F <= W64)%N -> leads t m a (Some (fst x)) -> it_cur it = Some a -> it_root it = Some (raddr t) ->
  two_way_nary (it_kind it) -> rose_order (it_kind it) t = l1 ++ x :: l2 ->
  exists it1 it2, fi_go F (nary_impl V) h m (Fiter it (Some p)) = Ok (Fiter it1 (Some p)) /\ it_cur it1 = Some (fst x) /\
    fi_incr F (nary_impl V) h (Fiter it1 (Some p)) = Ok (Fiter it2 (Some p)) /\ it_cur it2 = nth_addr (accepted p l2) 0.
Proof.
  intros V EV F h t p it m a l1 l2 x Ht HF HFW Hl Hc Hr Hk El.
  destruct (C65_moves_nary V EV F h t it m a (Some (fst x)) Ht HF HFW Hl Hc Hr) as (it1 & E & Hkd & Hcur & Hroot & Hat & _).
  rewrite Hr in Hat.
  destruct (fi_step F (nary_impl V) h (it_kind it) (Some (raddr t)) (rose_order (it_kind it) t) p l1 x l2 it1 (nary_two F h (Some t) (it_kind it) Ht HF Hk) El Hat) as (it2 & _ & E2 & H2 & _).
  exists it1, it2. split; [unfold fi_go; cbn [fi_it fi_pred]; rewrite E; reflexivity|]. auto.
Qed.
Print Assumptions C70_nary_partial.
Theorem C70_binary_partial :
  forall (V : Type) (EV : EqDecision V) (F : nat) (h : gmap addr (bnode V)) (t : bin (addr * V)) (u : rose (addr * V)) (p : V -> bool) (it : iter) (m : iter_move) (a : addr)
    (l1 l2 : list (addr * V)) (x : addr * V),
  bin_in h t -> bin_size t < F -> bin_forest t = [u] -> leads u m a (Some (fst x)) -> it_cur it = Some a -> it_root it = baddr t ->
  two_way_bin (it_kind it) -> bin_order (it_kind it) t = l1 ++ x :: l2 ->
  exists it1 it2, fi_go F (binary_impl V) h m (Fiter it (Some p)) = Ok (Fiter it1 (Some p)) /\ it_cur it1 = Some (fst x) /\
    fi_incr F (binary_impl V) h (Fiter it1 (Some p)) = Ok (Fiter it2 (Some p)) /\ it_cur it2 = nth_addr (accepted p l2) 0.
Proof.
  intros V EV F h t u p it m a l1 l2 x Ht HF Hu Hl Hc Hr Hk El.
  destruct (C65_moves_binary V EV F h t u it m a (Some (fst x)) Ht HF Hu Hl Hc Hr) as (it1 & E & Hkd & Hcur & Hroot & Hat & _).
  rewrite Hr in Hat.
  destruct (fi_step F (binary_impl V) h (it_kind it) (baddr t) (bin_order (it_kind it) t) p l1 x l2 it1 (bin_two F h t (it_kind it) Ht HF Hk) El Hat) as (it2 & _ & E2 & H2 & _).
  exists it1, it2. split; [unfold fi_go; cbn [fi_it fi_pred]; rewrite E; reflexivity|]. auto.
Qed.
Print Assumptions C70_binary_partial.
(** Whenever the relative is rejected, the iterator stands at a rejected element. *)
Theorem C70_moves_nary_refuted :
  forall (V : Type) (EV : EqDecision V) (F : nat) (h : gmap addr (nnode V)) (t : rose (addr * V)) (p : V -> bool) (it : iter) (m : iter_move) (a : addr) (x : addr * V),
  nary_in h t -> rsize t < F -> (N.of_nat F <= W64)%N -> leads t m a (Some (fst x)) -> it_cur it = Some a -> it_root it = Some (raddr t) ->
  x ∈ preorder t -> p (snd x) = false ->
  exists it1 v, fi_go F (nary_impl V) h m (Fiter it (Some p)) = Ok (Fiter it1 (Some p)) /\
    ni_value (nary_impl V) h (it_cur it1) = Ok v /\ p v = false.
Proof.
  intros V EV F h t p it m a x Ht HF HFW Hl Hc Hr Hx Hp.
  destruct (C65_moves_nary V EV F h t it m a (Some (fst x)) Ht HF HFW Hl Hc Hr) as (it1 & E & Hkd & Hcur & _).
  exists it1, (snd x). split; [unfold fi_go; cbn [fi_it fi_pred]; rewrite E; reflexivity|]. split; [|exact Hp].
  rewrite Hcur. exact (nary_value h t Ht x Hx).
Qed.
Print Assumptions C70_moves_nary_refuted.
Theorem C70_moves_binary_refuted :
  forall (V : Type) (EV : EqDecision V) (F : nat) (h : gmap addr (bnode V)) (t : bin (addr * V)) (u : rose (addr * V)) (p : V -> bool) (it : iter) (m : iter_move) (a : addr) (x : addr * V),
  bin_in h t -> bin_size t < F -> bin_forest t = [u] -> leads u m a (Some (fst x)) -> it_cur it = Some a -> it_root it = baddr t ->
  x ∈ bin_labels t -> p (snd x) = false ->
  exists it1 v, fi_go F (binary_impl V) h m (Fiter it (Some p)) = Ok (Fiter it1 (Some p)) /\
    ni_value (binary_impl V) h (it_cur it1) = Ok v /\ p v = false.
Proof.
  intros V EV F h t u p it m a x Ht HF Hu Hl Hc Hr Hx Hp.
  destruct (C65_moves_binary V EV F h t u it m a (Some (fst x)) Ht HF Hu Hl Hc Hr) as (it1 & E & Hkd & Hcur & _).
  exists it1, (snd x). split; [unfold fi_go; cbn [fi_it fi_pred]; rewrite E; reflexivity|]. split; [|exact Hp].
  rewrite Hcur. exact (bin_value h t Ht x Hx).
Qed.
Print Assumptions C70_moves_binary_refuted.

(** [f = g]: [f] stands where [g] does, and they compare equal; but [f] keeps its own
    predicate, so [++f] and [++g] lead to the same element only if the predicates
    agree on the next elements.  In full, [f] would behave as [g]. *)
Theorem C71_nary_partial :
  forall (V : Type) (EV : EqDecision V) (F : nat) (h : gmap addr (nnode V)) (t : option (rose (addr * V))) (k : kind) (p q : V -> bool)
    (l1 l2 : list (addr * V)) (x : addr * V) (fi gi : iter),
  onary_in h t -> nsize t < F -> two_way_nary k -> nary_order k t = l1 ++ x :: l2 -> iterator_at F (nary_impl V) h k (Some (fst x)) (nroot t) = Ok gi ->
  it_eqb (fi_it (fi_assign (Fiter fi (Some p)) (Fiter gi (Some q)))) gi = true /\
  exists f' g', fi_incr F (nary_impl V) h (fi_assign (Fiter fi (Some p)) (Fiter gi (Some q))) = Ok f' /\ fi_incr F (nary_impl V) h (Fiter gi (Some q)) = Ok g' /\
    it_cur (fi_it f') = nth_addr (accepted p l2) 0 /\ it_cur (fi_it g') = nth_addr (accepted q l2) 0 /\
    ((forall y, y ∈ l2 -> p (snd y) = q (snd y)) -> it_cur (fi_it f') = it_cur (fi_it g')).
Proof.
  intros V EV F h t k p q l1 l2 x fi gi Ht HF Hk El Hat. unfold fi_assign. cbn [fi_it fi_pred]. split; [unfold it_eqb; rewrite !ptr_eqb_true; reflexivity|].
  pose proof (nary_two F h t k Ht HF Hk) as Ho.
  destruct (fi_step F (nary_impl V) h k (nroot t) _ p l1 x l2 gi Ho El Hat) as (f' & _ & E1 & H1 & _).
  destruct (fi_step F (nary_impl V) h k (nroot t) _ q l1 x l2 gi Ho El Hat) as (g' & _ & E2 & H2 & _).
  eexists _, _. split; [exact E1|]. split; [exact E2|]. cbn [fi_it]. split; [exact H1|]. split; [exact H2|]. intros Hpq. rewrite H1, H2. f_equal.
  clear -Hpq. unfold accepted. induction l2 as [|y l2 IH]; [reflexivity|]. cbn. rewrite (Hpq y) by left. rewrite IH; [reflexivity|]. intros z Hz. apply Hpq. right. exact Hz.
Qed.
Print Assumptions C71_nary_partial.
(** [++] of the assigned iterator misses the next element of the other, whatever the
    tree, if its old predicate rejects it. *)
Theorem C71_predicate_nary_refuted :
  forall (V : Type) (EV : EqDecision V) (F : nat) (h : gmap addr (nnode V)) (t : option (rose (addr * V))) (k : kind) (p q : V -> bool)
    (l1 l2 : list (addr * V)) (x y : addr * V) (fi gi : iter),
  onary_in h t -> nsize t < F -> two_way_nary k -> nary_order k t = l1 ++ x :: y :: l2 -> iterator_at F (nary_impl V) h k (Some (fst x)) (nroot t) = Ok gi ->
  q (snd y) = true -> p (snd y) = false ->
  exists f' g', fi_incr F (nary_impl V) h (fi_assign (Fiter fi (Some p)) (Fiter gi (Some q))) = Ok f' /\ fi_incr F (nary_impl V) h (Fiter gi (Some q)) = Ok g' /\
    it_cur (fi_it g') = Some (fst y) /\ it_cur (fi_it f') <> it_cur (fi_it g').
Proof.
  intros V EV F h t k p q l1 l2 x y fi gi Ht HF Hk El Hat Hq Hp.
  destruct (C71_nary_partial V EV F h t k p q l1 (y :: l2) x fi gi Ht HF Hk El Hat) as (_ & f' & g' & E1 & E2 & H1 & H2 & _).
  exists f', g'. split; [exact E1|]. split; [exact E2|]. assert (Hg : it_cur (fi_it g') = Some (fst y)) by (rewrite H2; cbn; rewrite Hq; reflexivity).
  split; [exact Hg|]. rewrite Hg, H1. unfold accepted. cbn [List.filter]. rewrite Hp. unfold nth_addr. rewrite nth_error_map.
  assert (Hnd : NoDup (map fst (nary_order k t))).
  { destruct (nary_two F h t k Ht HF Hk) as [(_ & E0 & _)|(r & _ & _ & _ & Hnd & _)]; [rewrite E0; constructor|exact Hnd]. }
  rewrite El, map_app in Hnd. apply NoDup_app in Hnd as (_ & _ & Hnd). cbn in Hnd. apply NoDup_cons in Hnd as [_ Hnd]. apply NoDup_cons in Hnd as [Hnd _].
  destruct (nth_error (List.filter (fun x => p (snd x)) l2) 0) as [z|] eqn:Ez; [|discriminate]. cbn. intros [= Exy]. apply Hnd. rewrite <- Exy.
  apply nth_error_In, List.filter_In in Ez as [Ez _]. apply elem_of_list_fmap. exists z. split; [reflexivity|]. apply elem_of_list_In. exact Ez.
Qed.
Print Assumptions C71_predicate_nary_refuted.
(** And if it was constructed without a predicate, [++] asks for one it does not have. *)
Theorem C71_none_nary_refuted :
  forall (V : Type) (EV : EqDecision V) (F : nat) (h : gmap addr (nnode V)) (t : option (rose (addr * V))) (k : kind) (q : V -> bool)
    (l1 l2 : list (addr * V)) (x y : addr * V) (gi : iter),
  onary_in h t -> nsize t < F -> two_way_nary k -> nary_order k t = l1 ++ x :: y :: l2 -> iterator_at F (nary_impl V) h k (Some (fst x)) (nroot t) = Ok gi ->
  fi_incr F (nary_impl V) h (fi_assign (fi_none k) (Fiter gi (Some q))) = Err NullDeref.
Proof.
  intros V EV F h t k q l1 l2 x y gi Ht HF Hk El Hat.
  exact (fi_no_pred F (nary_impl V) h k (nroot t) _ l1 x y l2 gi (nary_two F h t k Ht HF Hk) El Hat).
Qed.
Print Assumptions C71_none_nary_refuted.
Theorem C71_binary_partial :
  forall (V : Type) (EV : EqDecision V) (F : nat) (h : gmap addr (bnode V)) (t : bin (addr * V)) (k : kind) (p q : V -> bool)
    (l1 l2 : list (addr * V)) (x : addr * V) (fi gi : iter),
  bin_in h t -> bin_size t < F -> two_way_bin k -> bin_order k t = l1 ++ x :: l2 -> iterator_at F (binary_impl V) h k (Some (fst x)) (baddr t) = Ok gi ->
  it_eqb (fi_it (fi_assign (Fiter fi (Some p)) (Fiter gi (Some q)))) gi = true /\
  exists f' g', fi_incr F (binary_impl V) h (fi_assign (Fiter fi (Some p)) (Fiter gi (Some q))) = Ok f' /\ fi_incr F (binary_impl V) h (Fiter gi (Some q)) = Ok g' /\
    it_cur (fi_it f') = nth_addr (accepted p l2) 0 /\ it_cur (fi_it g') = nth_addr (accepted q l2) 0 /\
    ((forall y, y ∈ l2 -> p (snd y) = q (snd y)) -> it_cur (fi_it f') = it_cur (fi_it g')).
Proof.
  intros V EV F h t k p q l1 l2 x fi gi Ht HF Hk El Hat. unfold fi_assign. cbn [fi_it fi_pred]. split; [unfold it_eqb; rewrite !ptr_eqb_true; reflexivity|].
  pose proof (bin_two F h t k Ht HF Hk) as Ho.
  destruct (fi_step F (binary_impl V) h k (baddr t) _ p l1 x l2 gi Ho El Hat) as (f' & _ & E1 & H1 & _).
  destruct (fi_step F (binary_impl V) h k (baddr t) _ q l1 x l2 gi Ho El Hat) as (g' & _ & E2 & H2 & _).
  eexists _, _. split; [exact E1|]. split; [exact E2|]. cbn [fi_it]. split; [exact H1|]. split; [exact H2|]. intros Hpq. rewrite H1, H2. f_equal.
  clear -Hpq. unfold accepted. induction l2 as [|y l2 IH]; [reflexivity|]. cbn. rewrite (Hpq y) by left. rewrite IH; [reflexivity|]. intros z Hz. apply Hpq. right. exact Hz.
Qed.
Print Assumptions C71_binary_partial.
(** [++] of the assigned iterator misses the next element of the other, whatever the
    tree, if its old predicate rejects it. *)
Theorem C71_predicate_binary_refuted :
  forall (V : Type) (EV : EqDecision V) (F : nat) (h : gmap addr (bnode V)) (t : bin (addr * V)) (k : kind) (p q : V -> bool)
    (l1 l2 : list (addr * V)) (x y : addr * V) (fi gi : iter),
  bin_in h t -> bin_size t < F -> two_way_bin k -> bin_order k t = l1 ++ x :: y :: l2 -> iterator_at F (binary_impl V) h k (Some (fst x)) (baddr t) = Ok gi ->
  q (snd y) = true -> p (snd y) = false ->
  exists f' g', fi_incr F (binary_impl V) h (fi_assign (Fiter fi (Some p)) (Fiter gi (Some q))) = Ok f' /\ fi_incr F (binary_impl V) h (Fiter gi (Some q)) = Ok g' /\
    it_cur (fi_it g') = Some (fst y) /\ it_cur (fi_it f') <> it_cur (fi_it g').
Proof.
  intros V EV F h t k p q l1 l2 x y fi gi Ht HF Hk El Hat Hq Hp.
  destruct (C71_binary_partial V EV F h t k p q l1 (y :: l2) x fi gi Ht HF Hk El Hat) as (_ & f' & g' & E1 & E2 & H1 & H2 & _).
  exists f', g'. split; [exact E1|]. split; [exact E2|]. assert (Hg : it_cur (fi_it g') = Some (fst y)) by (rewrite H2; cbn; rewrite Hq; reflexivity).
  split; [exact Hg|]. rewrite Hg, H1. unfold accepted. cbn [List.filter]. rewrite Hp. unfold nth_addr. rewrite nth_error_map.
  assert (Hnd : NoDup (map fst (bin_order k t))).
  { destruct (bin_two F h t k Ht HF Hk) as [(_ & E0 & _)|(r & _ & _ & _ & Hnd & _)]; [rewrite E0; constructor|exact Hnd]. }
  rewrite El, map_app in Hnd. apply NoDup_app in Hnd as (_ & _ & Hnd). cbn in Hnd. apply NoDup_cons in Hnd as [_ Hnd]. apply NoDup_cons in Hnd as [Hnd _].
  destruct (nth_error (List.filter (fun x => p (snd x)) l2) 0) as [z|] eqn:Ez; [|discriminate]. cbn. intros [= Exy]. apply Hnd. rewrite <- Exy.
  apply nth_error_In, List.filter_In in Ez as [Ez _]. apply elem_of_list_fmap. exists z. split; [reflexivity|]. apply elem_of_list_In. exact Ez.
Qed.
Print Assumptions C71_predicate_binary_refuted.
(** And if it was constructed without a predicate, [++] asks for one it does not have. *)
Theorem C71_none_binary_refuted :
  forall (V : Type) (EV : EqDecision V) (F : nat) (h : gmap addr (bnode V)) (t : bin (addr * V)) (k : kind) (q : V -> bool)
    (l1 l2 : list (addr * V)) (x y : addr * V) (gi : iter),
  bin_in h t -> bin_size t < F -> two_way_bin k -> bin_order k t = l1 ++ x :: y :: l2 -> iterator_at F (binary_impl V) h k (Some (fst x)) (baddr t) = Ok gi ->
  fi_incr F (binary_impl V) h (fi_assign (fi_none k) (Fiter gi (Some q))) = Err NullDeref.
Proof.
  intros V EV F h t k q l1 l2 x y gi Ht HF Hk El Hat.
  exact (fi_no_pred F (binary_impl V) h k (baddr t) _ l1 x y l2 gi (bin_two F h t k Ht HF Hk) El Hat).
Qed.
Print Assumptions C71_none_binary_refuted.

(** *** Examples: on 10(20,30(50,60),40) in pre-order 10 20 30 50 60 40, accepting
    what is over 25: 30 50 60 40. *)
Definition over25 (v : nat) : bool := Nat.ltb 25 v.
Example C69_used : exists f it' it2,
  (b ← tree_begin 100 (tree_nav (nary_impl nat) ex_nheap) PreOrder (Some 1%positive); fi_make 100 (nary_impl nat) ex_nheap over25 b) = Ok f /\
  fi_run 100 (nary_impl nat) ex_nheap [true; true; false; true; true; true; true] f = Ok (Fiter it' (Some over25)) /\
  it_cur it' = Some 3%positive /\ iterator_at 100 (nary_impl nat) ex_nheap PreOrder (Some 3%positive) (Some 1%positive) = Ok it2 /\ same_iter it' it2.
Proof.
  destruct (tree_begin 100 (tree_nav (nary_impl nat) ex_nheap) PreOrder (Some 1%positive)) as [b|e] eqn:E; [|vm_compute in E; discriminate].
  destruct (C69_nary nat _ 100 ex_nheap (Some ex_nary) PreOrder over25 [] (nary_order PreOrder (Some ex_nary)) b [true; true; false; true; true; true; true] 0
    ex_nary_in ltac:(vm_compute; lia) (or_introl eq_refl) eq_refl (or_intror (conj eq_refl E)) ltac:(vm_compute; reflexivity)) as (f & it' & it2 & H1 & H2 & H3 & H4 & H5).
  exists f, it', it2. split; [exact H1|]. split; [exact H2|]. split; [exact H3|]. split; [exact H4|exact H5].
Qed.
Example C69_used_binary : accepted over25 (bin_order InOrder ex_bin) = [(5%positive, 50); (4%positive, 40); (3%positive, 30)].
Proof. reflexivity. Qed.
(** A filtered iterator at 30, moved to its previous sibling 20. *)
Example C70_used : exists it it1 it2, iterator_at 100 (nary_impl nat) ex_nheap PreOrder (Some 3%positive) (Some 1%positive) = Ok it /\
  leads ex_nary GoPrev 3%positive (Some 2%positive) /\
  fi_go 100 (nary_impl nat) ex_nheap GoPrev (Fiter it (Some over25)) = Ok (Fiter it1 (Some over25)) /\ it_cur it1 = Some 2%positive /\
  fi_incr 100 (nary_impl nat) ex_nheap (Fiter it1 (Some over25)) = Ok (Fiter it2 (Some over25)) /\ it_cur it2 = Some 3%positive.
Proof.
  destruct (iterator_at 100 (nary_impl nat) ex_nheap PreOrder (Some 3%positive) (Some 1%positive)) as [it|e] eqn:E; [|vm_compute in E; discriminate].
  assert (Hl : leads ex_nary GoPrev 3%positive (Some 2%positive)).
  { apply (leads_prev ex_nary (1%positive, 10) [Rose (2%positive, 20) []] (Rose (3%positive, 30) [Rose (5%positive, 50) []; Rose (6%positive, 60) []]) [Rose (4%positive, 40) []]). constructor. }
  vm_compute in E. injection E as <-.
  destruct (C70_nary_partial nat _ 100 ex_nheap ex_nary over25 (Iter PreOrder (Some 3%positive) (Some 1%positive) [] (Some 3%positive)) GoPrev 3%positive
    [(1%positive, 10)] [(3%positive, 30); (5%positive, 50); (6%positive, 60); (4%positive, 40)] (2%positive, 20)
    ex_nary_in ltac:(vm_compute; lia) ltac:(vm_compute; discriminate) Hl eq_refl eq_refl (or_introl eq_refl) eq_refl) as (it1 & it2 & H1 & H2 & H3 & H4).
  eexists _, it1, it2. split; [reflexivity|]. split; [exact Hl|]. split; [exact H1|]. split; [exact H2|]. split; [exact H3|exact H4].
Qed.
(** [g] at 10 accepts everything, [f] what is over 25: after [f = g], [++g] is at 20 and [++f] at 30. *)
Example C71_used : exists gi f' g', iterator_at 100 (nary_impl nat) ex_nheap PreOrder (Some 1%positive) (Some 1%positive) = Ok gi /\
  fi_incr 100 (nary_impl nat) ex_nheap (fi_assign (Fiter gi (Some over25)) (Fiter gi (Some (fun _ => true)))) = Ok f' /\
  fi_incr 100 (nary_impl nat) ex_nheap (Fiter gi (Some (fun _ => true))) = Ok g' /\ it_cur (fi_it f') = Some 3%positive /\ it_cur (fi_it g') = Some 2%positive.
Proof.
  destruct (iterator_at 100 (nary_impl nat) ex_nheap PreOrder (Some 1%positive) (Some 1%positive)) as [gi|e] eqn:E; [|vm_compute in E; discriminate].
  destruct (C71_nary_partial nat _ 100 ex_nheap (Some ex_nary) PreOrder over25 (fun _ => true) [] (tail (nary_order PreOrder (Some ex_nary))) (1%positive, 10) gi gi
    ex_nary_in ltac:(vm_compute; lia) (or_introl eq_refl) eq_refl E) as (_ & f' & g' & H1 & H2 & H3 & H4 & _).
  exists gi, f', g'. auto.
Qed.
