(** PropResultFail.v: assigning the result or a mark of a pattern when the creation
    of a node fails (C83, C84).

    [k] nodes can be created; the creation of the next one fails, because the
    allocator throws ([late = false]) or because the constructor of the value throws
    when the memory was obtained ([late = true]). *)
From Verif Require Import Base Spec MatchSpec StructNode BinaryNode NaryNode Nav Policy Tree Rep RoseFacts NavFacts
  BinRep NaryRep Iter IterTrees IterMain NodeFacts EditSpec User World Kinds TreeSpec TreeOps TreeBin TreeNary TreeFacts
  Fail FailSpec FailUser
  Matcher OptSpec MatchUser MatchFacts MatchWalk MatchResult MatchKinds MatchBin MatchCaps MatchMain ResultFail ResultFailFacts
  Examples Examples2 PropOpt.

Section Core.
  Context {V Nd : Type}.
  Variable F : nat.
  Variable im : node_impl V Nd.
  Variable ti : try_impl V Nd.
  Variable al : allocator Nd.
  Variable late : bool.
  Variable like : gmap addr Nd -> ptr -> ptr -> ptr -> res (gmap addr Nd).
  (** A result of [n] nodes is built, or not. *)
  Definition built_in (h : gmap addr Nd) (p : pat V) (s : mstate) (n : nat) : Prop :=
    exists a h', result F im al like p s h = Ok (a, h') /\ tries (result_try F im ti al late like p s) h n (Made a h') (lost late h).
  Definition all_built (w : world Nd) (u : upat V) (x : pattern) (m : rose (addr * V)) (l : list (rose (addr * V))) : Prop :=
    p_found x = true /\ built_in (w_heap w) (p_pat x) (p_state x) (rsize m) /\
    forall n m', nth_error l n = Some m' -> exists p s, nth_error (captures (p_pat x) (p_state x)) n = Some (p, s) /\ built_in (w_heap w) p s (rsize m').
  Lemma assigning_ok p s (w : world Nd) i n : built_in (w_heap w) p s n -> forall k,
    (n <= k -> assigning F im (result_try F im ti al late like p s) k w i =
       of_res ('(p, h) ← result F im al like p s (w_heap w); w' ← assign F im (set_heap w h) i p 0 0; Ok ((), w'))) /\
    (k < n -> exists w', assigning F im (result_try F im ti al late like p s) k w i = Throw w' /\ w_trees w' = w_trees w /\ lost late (w_heap w) (w_heap w')).
  Proof.
    intros (a & h' & E & Ht) k. destruct (Ht k) as [H1 H2]. unfold assigning. split; intros Hk.
    - rewrite (H1 Hk), E. reflexivity.
    - destruct (H2 Hk) as (h1 & E1 & Hl). rewrite E1. eexists. split; [reflexivity|]. split; [reflexivity|exact Hl].
  Qed.
  Lemma lost_sub (h h' : gmap addr Nd) : lost late h h' -> h ⊆ h'.
  Proof. unfold lost. destruct late; [|intros ->; reflexivity]. intros (z & o & Hz & ->). apply insert_subseteq, Hz. Qed.
  Lemma lost_none (w w' : world Nd) : late = false -> w_trees w' = w_trees w -> lost late (w_heap w) (w_heap w') -> w' = w.
  Proof. unfold lost. intros -> Ht Hh. destruct w, w'. cbn in *. congruence. Qed.
  Lemma lost_leaks K (w w' : world Nd) M : consistent K w M ->
    (forall h d d', crep K h d -> crep K h d' -> croot K d = croot K d' -> d = d') -> kind_ok F im al K ->
    late = true -> w_trees w' = w_trees w -> lost late (w_heap w) (w_heap w') ->
    size (w_heap w') = S (size (w_heap w)) /\ forall M', ~ consistent K w' M'.
  Proof.
    unfold lost. intros Hw Hu KO -> Ht (z & o & Hz & Hh). split; [rewrite Hh; apply map_size_insert_None, Hz|].
    intros M' Hw'. assert (Hb : is_Some (w_heap w' !! z)) by (rewrite Hh, lookup_insert; eauto).
    apply (wo_owned _ _ _ _ _ Hw') in Hb as (i & d' & Hi & Hbd).
    assert (Hti : is_Some (w_trees w !! i)) by (rewrite <- Ht; apply (wo_live _ _ _ _ _ Hw'); eauto). destruct Hti as [t Hti].
    assert (Hd : is_Some (M !! i)) by (apply (wo_live _ _ _ _ _ Hw); eauto). destruct Hd as [d Hd].
    destruct (wo_tree _ _ _ _ _ Hw i t d Hti Hd) as (Hr & _ & Hcd). rewrite <- Ht in Hti. destruct (wo_tree _ _ _ _ _ Hw' i t d' Hti Hi) as (Hr' & _ & Hcd').
    assert (Hcd2 : crep K (w_heap w') d).
    { eapply (k_ext _ _ _ _ KO); [|exact Hcd]. intros y Hy. rewrite Hh. apply lookup_insert_ne. intros <-.
      destruct (k_dom _ _ _ _ KO _ _ _ Hcd Hy) as [o' Ho']. congruence. }
    assert (d' = d) as -> by (eapply Hu; [exact Hcd'|exact Hcd2|congruence]).
    destruct (proj2 (wo_owned _ _ _ _ _ Hw z)) as [o' Ho']; [eauto|]. congruence.
  Qed.
End Core.

Lemma nary_built (V : Type) (EV : EqDecision V) (F : nat) (al : allocator (nnode V)) (late : bool) : (N.of_nat F <= W64)%N ->
  forall (w : world (nnode V)) (M : gmap tid (option (rose (addr * V)))) (j : tid)
    (h : gmap addr (nnode V)) (t0 t : rose (addr * V)) (u : upat V) (x x' : pattern),
  consistent (nary_kind V) w M -> size (w_heap w) < F -> M !! j = Some (Some t0) -> rsubtree t t0 ->
  solid u -> p_pat x = build u PNil ->
  nary_in h t -> search F (nary_impl V) x h (Some (raddr t)) = Ok (true, x') ->
  exists m l, best snd u t m l /\ all_built F (nary_impl V) (nary_try V) al late (n_assign_child_like F) w u x' m l.
Proof.
  intros HFW w M j h t0 t u x x' Hw HF Hj Hs Hp Hx Hh Hsearch.
  assert (Ht0 : nary_in (w_heap w) t0 /\ rsize t0 <= size (w_heap w)).
  { apply (to_holds F _ al _ (nary_tree_kind V EV) HFW) in Hw. pose proof (holds_rep _ _ _ _ _ _ _ _ Hw Hj) as Hrep.
    split; [exists None, None, None, (szt 0); exact Hrep|]. pose proof (holds_size _ _ _ _ _ _ _ _ Hw Hj) as Hl. cbn in Hl.
    unfold raddrs in Hl. rewrite map_length, length_preorder in Hl. exact Hl. }
  destruct Ht0 as [Ht0 Hsz]. pose proof (nary_in_sub _ _ _ Ht0 Hs) as Ht.
  assert (Hst : rsize t <= rsize t0) by (apply rsubtree_plug in Hs as [cx <-]; pose proof (ctx_length_size cx t); lia).
  destruct (search_core F (nary_impl V) h u x _ [t] Hp Hx (nary_walks F h t Hh ltac:(lia))) as (b & x2 & E & Hpat & Hfound & H1 & _); [cbn; lia|].
  rewrite E in Hsearch. injection Hsearch as -> ->. destruct (H1 eq_refl) as (t' & m & l & [= <-] & Hl & Hd).
  pose proof (matches_occurs _ _ _ _ (best_matches _ _ _ _ _ Hl)) as Ho.
  assert (Hsrc : nsrc (w_heap w) m).
  { intros y Hy. apply (occurs_in _ _ _ _ Ho) in Hy. destruct Ht as (par & prev & next & fs & Hr & _). eapply nrep_value; eassumption. }
  assert (Hms : rsize m <= F) by (pose proof (occurs_size _ _ _ _ Ho); lia).
  rewrite orb_true_r in Hfound. exists m, l. split; [exact Hl|].
  assert (Hgood : forall us, Forall solid us -> good_try F (nary_impl V) (nary_try V) al late (n_assign_child_like F) (nary_kind V) nsrc nimage us).
  { intros us Hus. apply (result_try_ok F (nary_impl V) (nary_try V) al late (n_assign_child_like F) (nary_kind V) (nary_ok F al) nsrc nimage
      (nary_copies F al) (nary_value_try al late) (chain us) us eq_refl Hus). }
  split; [exact Hfound|]. rewrite Hpat. split.
  - destruct (Hgood [u] ltac:(repeat constructor; exact Hp) (p_state x') (w_heap w) m [] l Hd Hsrc Hms) as (a & h' & c' & Er & _ & _ & _ & Htr).
    exists (Some a), h'. split; [exact Er|exact Htr].
  - intros k m' Hk. pose proof (captures_ok (chain [u]) [u] eq_refl ltac:(repeat constructor; exact Hp) (p_state x') [m] l Hd) as Hf.
    assert (Hm' : m' ∈ l) by (apply elem_of_list_In; eapply nth_error_In; exact Hk).
    apply (best_sub _ _ _ _ _ Hl) in Hm'.
    assert (Hn : exists ps, nth_error (captures (chain [u]) (p_state x')) k = Some ps /\ capt ps m').
    { clear -Hf Hk. revert k Hk. induction Hf as [|ps m1 cl ms Hps _ IH]; intros [|k] Hk; try discriminate; cbn in *; [injection Hk as <-; eauto|eauto]. }
    destruct Hn as ([p s] & Hn & us & ms & ls & Hpu & Hpl & Hds).
    assert (Hsrc' : nsrc (w_heap w) m').
    { intros y Hy. apply Hsrc. apply rsubtree_plug in Hm' as [cx <-]. rewrite preorder_plug. set_solver +Hy. }
    assert (Hms' : rsize m' <= F) by (apply rsubtree_plug in Hm' as [cx <-]; pose proof (ctx_length_size cx m'); lia).
    destruct (Hgood us Hpl s (w_heap w) m' ms ls Hds Hsrc' Hms') as (a1 & h1 & c1 & Er1 & _ & _ & _ & Htr).
    exists p, s. split; [exact Hn|]. cbn in Hpu. rewrite Hpu. exists (Some a1), h1. split; [exact Er1|exact Htr].
Qed.
Lemma binary_built (V : Type) (EV : EqDecision V) (F : nat) (al : allocator (bnode V)) (late : bool) : (N.of_nat F <= W64)%N ->
  forall (w : world (bnode V)) (M : gmap tid (bin (addr * V))) (j : tid)
    (h : gmap addr (bnode V)) (t0 t : bin (addr * V)) (s : rose (addr * V)) (u : upat V) (x x' : pattern),
  consistent (binary_kind V) w M -> size (w_heap w) < F -> M !! j = Some t0 -> bsubtree t t0 ->
  bin_forest t = [s] -> solid u -> p_pat x = build u PNil ->
  bin_in h t -> search F (binary_impl V) x h (baddr t) = Ok (true, x') ->
  exists m l, best snd u s m l /\ all_built F (binary_impl V) (binary_try V) al late b_assign_child_like w u x' m l.
Proof.
  intros HFW w M j h t0 t s u x x' Hw HF Hj Hs Hts Hp Hx Hh Hsearch.
  assert (Ht0 : bin_in (w_heap w) t0 /\ length (baddrs t0) <= size (w_heap w)).
  { apply (to_holds F _ al _ (binary_tree_kind V EV) HFW) in Hw. pose proof (holds_rep _ _ _ _ _ _ _ _ Hw Hj) as Hrep.
    split; [exists None; exact Hrep|]. exact (holds_size _ _ _ _ _ _ _ _ Hw Hj). }
  destruct Ht0 as [Ht0 Hsz]. pose proof (bin_in_sub _ _ _ Ht0 Hs) as Ht.
  assert (Hbs : forall y : bin (addr * V), length (baddrs y) = bin_size y) by (apply length_baddrs).
  assert (Hst : rsize s <= length (baddrs t0)).
  { rewrite Hbs. transitivity (bin_size t); [|clear -Hs; induction Hs; cbn; lia].
    rewrite <- Hbs. unfold baddrs. rewrite map_length, <- forest_labels, Hts. cbn. rewrite app_nil_r, length_preorder. lia. }
  assert (Hroot : baddr t = Some (raddr s)) by (apply forest_root in Hts as ([a v] & l & r & -> & ->); reflexivity).
  destruct (search_core F (binary_impl V) h u x _ [s] Hp Hx (binary_walks F h t s Hh Hts ltac:(lia))) as (b & x2 & E & Hpat & Hfound & H1 & _); [cbn; lia|].
  rewrite Hroot, E in Hsearch. injection Hsearch as -> ->. destruct (H1 eq_refl) as (t' & m & l & [= <-] & Hl & Hd).
  pose proof (matches_occurs _ _ _ _ (best_matches _ _ _ _ _ Hl)) as Ho.
  assert (Hms : rsize m <= F) by (pose proof (occurs_size _ _ _ _ Ho); lia).
  rewrite orb_true_r in Hfound. exists m, l. split; [exact Hl|].
  set (lf := left_in (w_heap w)).
  assert (Hsub : forall m' p' t' t1, occurs snd p' t' m' -> bsubtree t1 t -> bin_forest t1 = [t'] -> bsrc lf (w_heap w) m').
  { intros m' p' t' t1 Hom Ht1 Hf1. destruct (bin_in_sub _ _ _ Ht Ht1) as (par & Hr & Hnd). eapply bin_occurs; [exact Hr|exact Hnd|exact Hf1|exact Hom]. }
  assert (Hgood : forall us, Forall solid us -> good_try F (binary_impl V) (binary_try V) al late b_assign_child_like (binary_kind V) (bsrc lf) (bimage lf) us).
  { intros us Hus. apply (result_try_ok F (binary_impl V) (binary_try V) al late b_assign_child_like (binary_kind V) (binary_ok F al) (bsrc lf) (bimage lf)
      (binary_copies F al lf) (binary_value_try al late) (chain us) us eq_refl Hus). }
  split; [exact Hfound|]. rewrite Hpat. split.
  - destruct (Hgood [u] ltac:(repeat constructor; exact Hp) (p_state x') (w_heap w) m [] l Hd (Hsub m _ s t Ho (bsub_here t) Hts) Hms) as (a & h' & c' & Er & _ & _ & _ & Htr).
    exists (Some a), h'. split; [exact Er|exact Htr].
  - intros k m' Hk. pose proof (captures_ok (chain [u]) [u] eq_refl ltac:(repeat constructor; exact Hp) (p_state x') [m] l Hd) as Hf.
    assert (Hm' : m' ∈ l) by (apply elem_of_list_In; eapply nth_error_In; exact Hk).
    apply (best_sub _ _ _ _ _ Hl) in Hm'.
    assert (Hn : exists ps, nth_error (captures (chain [u]) (p_state x')) k = Some ps /\ capt ps m').
    { clear -Hf Hk. revert k Hk. induction Hf as [|ps m1 cl ms Hps _ IH]; intros [|k] Hk; try discriminate; cbn in *; [injection Hk as <-; eauto|eauto]. }
    destruct Hn as ([p s1] & Hn & us & ms & ls & Hpu & Hpl1 & Hds).
    destruct (occurs_sub _ _ _ Hm' _ _ Ho) as (p' & t' & Hst' & Ho').
    destruct (rsub_bsub _ _ Hst' _ Hts) as (t1 & Ht1 & Hf1).
    assert (Hms' : rsize m' <= F) by (apply rsubtree_plug in Hm' as [cx <-]; pose proof (ctx_length_size cx m'); lia).
    destruct (Hgood us Hpl1 s1 (w_heap w) m' ms ls Hds (Hsub m' _ t' t1 Ho' Ht1 Hf1) Hms') as (a1 & h1 & c1 & Er1 & _ & _ & _ & Htr).
    exists p, s1. split; [exact Hn|]. cbn in Hpu. rewrite Hpu. exists (Some a1), h1. split; [exact Er1|exact Htr].
Qed.

Section Calls.
  Context {V Nd : Type}.
  Variable F : nat.
  Variable im : node_impl V Nd.
  Variable ti : try_impl V Nd.
  Variable al : allocator Nd.
  Variable late : bool.
  Variable like : gmap addr Nd -> ptr -> ptr -> ptr -> res (gmap addr Nd).
  Lemma result_calls w u x m l i : all_built F im ti al late like w u x m l -> forall k,
    (rsize m <= k -> assign_result_try F im ti al late like k x w i = assign_result F im al like x w i) /\
    (k < rsize m -> exists w', assign_result_try F im ti al late like k x w i = Throw w' /\ w_trees w' = w_trees w /\ lost late (w_heap w) (w_heap w')).
  Proof.
    intros (Hf & Hb & _) k. unfold assign_result_try, assign_result. rewrite Hf. cbn [negb].
    exact (assigning_ok F im ti al late like _ _ w i _ Hb k).
  Qed.
  Lemma mark_calls w u x m l i n m' : all_built F im ti al late like w u x m l -> nth_error l n = Some m' -> forall k,
    (rsize m' <= k -> assign_mark_try F im ti al late like k x (S n) w i = assign_mark F im al like x (S n) w i) /\
    (k < rsize m' -> exists w', assign_mark_try F im ti al late like k x (S n) w i = Throw w' /\ w_trees w' = w_trees w /\ lost late (w_heap w) (w_heap w')).
  Proof.
    intros (Hf & _ & Hm) Hn k. destruct (Hm n m' Hn) as (p & s & E & Hb). unfold assign_mark_try, assign_mark. rewrite Hf. cbn [negb].
    replace (S n - 1) with n by lia. rewrite E. exact (assigning_ok F im ti al late like _ _ w i _ Hb k).
  Qed.
End Calls.

(** *** C83.  After a successful search, let [m] be the match and [l] its marks.
    With at least as many nodes as [m] (or the mark) has, the call is as if nothing
    could fail.  With fewer it throws; all tree objects are as before, every node there
    was is as before, and if it was the allocator that threw, nothing at all has changed:
    no memory is lost. *)
Theorem C83_nary :
  forall (V : Type) (EV : EqDecision V) (F : nat) (al : allocator (nnode V)) (late : bool), (N.of_nat F <= W64)%N ->
  forall (w : world (nnode V)) (M : gmap tid (option (rose (addr * V)))) (i j : tid)
    (h : gmap addr (nnode V)) (t0 t : rose (addr * V)) (u : upat V) (x x' : pattern),
  consistent (nary_kind V) w M -> size (w_heap w) < F -> M !! j = Some (Some t0) -> rsubtree t t0 ->
  solid u -> p_pat x = build u PNil ->
  nary_in h t -> search F (nary_impl V) x h (Some (raddr t)) = Ok (true, x') ->
  exists m l, best snd u t m l /\ forall k : nat,
    (rsize m <= k -> assign_result_try F (nary_impl V) (nary_try V) al late (n_assign_child_like F) k x' w i =
                     assign_result F (nary_impl V) al (n_assign_child_like F) x' w i) /\
    (k < rsize m -> exists w', assign_result_try F (nary_impl V) (nary_try V) al late (n_assign_child_like F) k x' w i = Throw w' /\
       w_trees w' = w_trees w /\ w_heap w ⊆ w_heap w' /\ (late = false -> w' = w)) /\
    (forall n m', nth_error l n = Some m' ->
       (rsize m' <= k -> assign_mark_try F (nary_impl V) (nary_try V) al late (n_assign_child_like F) k x' (S n) w i =
                         assign_mark F (nary_impl V) al (n_assign_child_like F) x' (S n) w i) /\
       (k < rsize m' -> exists w', assign_mark_try F (nary_impl V) (nary_try V) al late (n_assign_child_like F) k x' (S n) w i = Throw w' /\
          w_trees w' = w_trees w /\ w_heap w ⊆ w_heap w' /\ (late = false -> w' = w))).
Proof.
  intros V EV F al late HFW w M i j h t0 t u x x' Hw HF Hj Hs Hp Hx Hh Hsearch.
  destruct (nary_built V EV F al late HFW w M j h t0 t u x x' Hw HF Hj Hs Hp Hx Hh Hsearch) as (m & l & Hl & Hb).
  exists m, l. split; [exact Hl|]. intros k. destruct (result_calls _ _ _ _ _ _ _ _ _ _ _ i Hb k) as [H1 H2]. split; [exact H1|]. split.
  - intros Hk. destruct (H2 Hk) as (w' & E & Ht & Hlo). exists w'. split; [exact E|]. split; [exact Ht|]. split; [exact (lost_sub late _ _ Hlo)|]. intros Hf. exact (lost_none late _ _ Hf Ht Hlo).
  - intros n m' Hn. destruct (mark_calls _ _ _ _ _ _ _ _ _ _ _ i n m' Hb Hn k) as [G1 G2]. split; [exact G1|].
    intros Hk. destruct (G2 Hk) as (w' & E & Ht & Hlo). exists w'. split; [exact E|]. split; [exact Ht|]. split; [exact (lost_sub late _ _ Hlo)|]. intros Hf. exact (lost_none late _ _ Hf Ht Hlo).
Qed.
Print Assumptions C83_nary.
Theorem C83_binary :
  forall (V : Type) (EV : EqDecision V) (F : nat) (al : allocator (bnode V)) (late : bool), (N.of_nat F <= W64)%N ->
  forall (w : world (bnode V)) (M : gmap tid (bin (addr * V))) (i j : tid)
    (h : gmap addr (bnode V)) (t0 t : bin (addr * V)) (s : rose (addr * V)) (u : upat V) (x x' : pattern),
  consistent (binary_kind V) w M -> size (w_heap w) < F -> M !! j = Some t0 -> bsubtree t t0 ->
  bin_forest t = [s] -> solid u -> p_pat x = build u PNil ->
  bin_in h t -> search F (binary_impl V) x h (baddr t) = Ok (true, x') ->
  exists m l, best snd u s m l /\ forall k : nat,
    (rsize m <= k -> assign_result_try F (binary_impl V) (binary_try V) al late b_assign_child_like k x' w i =
                     assign_result F (binary_impl V) al b_assign_child_like x' w i) /\
    (k < rsize m -> exists w', assign_result_try F (binary_impl V) (binary_try V) al late b_assign_child_like k x' w i = Throw w' /\
       w_trees w' = w_trees w /\ w_heap w ⊆ w_heap w' /\ (late = false -> w' = w)) /\
    (forall n m', nth_error l n = Some m' ->
       (rsize m' <= k -> assign_mark_try F (binary_impl V) (binary_try V) al late b_assign_child_like k x' (S n) w i =
                         assign_mark F (binary_impl V) al b_assign_child_like x' (S n) w i) /\
       (k < rsize m' -> exists w', assign_mark_try F (binary_impl V) (binary_try V) al late b_assign_child_like k x' (S n) w i = Throw w' /\
          w_trees w' = w_trees w /\ w_heap w ⊆ w_heap w' /\ (late = false -> w' = w))).
Proof.
  intros V EV F al late HFW w M i j h t0 t s u x x' Hw HF Hj Hs Hts Hp Hx Hh Hsearch.
  destruct (binary_built V EV F al late HFW w M j h t0 t s u x x' Hw HF Hj Hs Hts Hp Hx Hh Hsearch) as (m & l & Hl & Hb).
  exists m, l. split; [exact Hl|]. intros k. destruct (result_calls _ _ _ _ _ _ _ _ _ _ _ i Hb k) as [H1 H2]. split; [exact H1|]. split.
  - intros Hk. destruct (H2 Hk) as (w' & E & Ht & Hlo). exists w'. split; [exact E|]. split; [exact Ht|]. split; [exact (lost_sub late _ _ Hlo)|]. intros Hf. exact (lost_none late _ _ Hf Ht Hlo).
  - intros n m' Hn. destruct (mark_calls _ _ _ _ _ _ _ _ _ _ _ i n m' Hb Hn k) as [G1 G2]. split; [exact G1|].
    intros Hk. destruct (G2 Hk) as (w' & E & Ht & Hlo). exists w'. split; [exact E|]. split; [exact Ht|]. split; [exact (lost_sub late _ _ Hlo)|]. intros Hf. exact (lost_none late _ _ Hf Ht Hlo).
Qed.
Print Assumptions C83_binary.

(** *** C84.  If it is the constructor of a value that throws, the memory obtained for
    that node is lost, whichever node it is: it belongs to no tree and is never given
    back. *)
Theorem C84_leak_nary_refuted :
  forall (V : Type) (EV : EqDecision V) (F : nat) (al : allocator (nnode V)), (N.of_nat F <= W64)%N ->
  forall (w : world (nnode V)) (M : gmap tid (option (rose (addr * V)))) (i j : tid)
    (h : gmap addr (nnode V)) (t0 t : rose (addr * V)) (u : upat V) (x x' : pattern),
  consistent (nary_kind V) w M -> size (w_heap w) < F -> M !! j = Some (Some t0) -> rsubtree t t0 ->
  solid u -> p_pat x = build u PNil ->
  nary_in h t -> search F (nary_impl V) x h (Some (raddr t)) = Ok (true, x') ->
  exists m l, best snd u t m l /\ forall k : nat, k < rsize m ->
    exists w', assign_result_try F (nary_impl V) (nary_try V) al true (n_assign_child_like F) k x' w i = Throw w' /\
      size (w_heap w') = S (size (w_heap w)) /\ forall M', ~ consistent (nary_kind V) w' M'.
Proof.
  intros V EV F al HFW w M i j h t0 t u x x' Hw HF Hj Hs Hp Hx Hh Hsearch.
  destruct (nary_built V EV F al true HFW w M j h t0 t u x x' Hw HF Hj Hs Hp Hx Hh Hsearch) as (m & l & Hl & Hb).
  exists m, l. split; [exact Hl|]. intros k Hk. destruct (proj2 (result_calls _ _ _ _ _ _ _ _ _ _ _ i Hb k) Hk) as (w' & E & Ht & Hlo).
  exists w'. split; [exact E|]. apply (lost_leaks F (nary_impl V) al true (nary_kind V) w w' M Hw); auto; [|apply (nary_ok F al)].
  intros hh [d|] [d'|] Hd Hd' Hr; cbn in Hr; try discriminate; [|reflexivity]. destruct Hd as [D _], Hd' as [D' _]. injection Hr as Hr. f_equal.
  eapply nrep_unique; [exact D|exact D'|congruence].
Qed.
Print Assumptions C84_leak_nary_refuted.
Theorem C84_leak_binary_refuted :
  forall (V : Type) (EV : EqDecision V) (F : nat) (al : allocator (bnode V)), (N.of_nat F <= W64)%N ->
  forall (w : world (bnode V)) (M : gmap tid (bin (addr * V))) (i j : tid)
    (h : gmap addr (bnode V)) (t0 t : bin (addr * V)) (s : rose (addr * V)) (u : upat V) (x x' : pattern),
  consistent (binary_kind V) w M -> size (w_heap w) < F -> M !! j = Some t0 -> bsubtree t t0 ->
  bin_forest t = [s] -> solid u -> p_pat x = build u PNil ->
  bin_in h t -> search F (binary_impl V) x h (baddr t) = Ok (true, x') ->
  exists m l, best snd u s m l /\ forall k : nat, k < rsize m ->
    exists w', assign_result_try F (binary_impl V) (binary_try V) al true b_assign_child_like k x' w i = Throw w' /\
      size (w_heap w') = S (size (w_heap w)) /\ forall M', ~ consistent (binary_kind V) w' M'.
Proof.
  intros V EV F al HFW w M i j h t0 t s u x x' Hw HF Hj Hs Hts Hp Hx Hh Hsearch.
  destruct (binary_built V EV F al true HFW w M j h t0 t s u x x' Hw HF Hj Hs Hts Hp Hx Hh Hsearch) as (m & l & Hl & Hb).
  exists m, l. split; [exact Hl|]. intros k Hk. destruct (proj2 (result_calls _ _ _ _ _ _ _ _ _ _ _ i Hb k) Hk) as (w' & E & Ht & Hlo).
  exists w'. split; [exact E|]. apply (lost_leaks F (binary_impl V) al true (binary_kind V) w w' M Hw); auto; [|apply (binary_ok F al)].
  intros hh d d' [D _] [D' _] Hr. eapply brep_unique; [exact D|exact D'|exact Hr].
Qed.
Print Assumptions C84_leak_binary_refuted.

(** A pattern with an absent optional node and a mark; its match has four nodes. *)
Example C83_used : exists x',
  search 100 (nary_impl nat) (make_pattern (build ex_opt PNil)) ex_nheap (Some 1%positive) = Ok (true, x') /\
  assign_result_try 100 (nary_impl nat) (nary_try nat) (first_fit _) false (n_assign_child_like 100) 3 x' ex_nw 1%positive = Throw ex_nw /\
  exists w', assign_result_try 100 (nary_impl nat) (nary_try nat) (first_fit _) true (n_assign_child_like 100) 3 x' ex_nw 1%positive = Throw w' /\
    size (w_heap w') = 8.
Proof.
  destruct (search 100 (nary_impl nat) (make_pattern (build ex_opt PNil)) ex_nheap (Some 1%positive)) as [[b x]|] eqn:E; [|vm_compute in E; discriminate].
  assert (b = true) as -> by (vm_compute in E; congruence). exists x. split; [reflexivity|].
  assert (Hs : solid ex_opt) by (vm_compute; repeat split; congruence).
  destruct (C83_nary nat _ 100 (first_fit _) false ex_word ex_nw ex_nM 1%positive 1%positive ex_nheap ex_nary ex_nary ex_opt
    (make_pattern (build ex_opt PNil)) x ex_nw_ok ltac:(pose proof ex_fuel; lia) eq_refl (rsub_here _) Hs eq_refl ex_nary_in E) as (m & l & Hl & H).
  destruct (C84_leak_nary_refuted nat _ 100 (first_fit _) ex_word ex_nw ex_nM 1%positive 1%positive ex_nheap ex_nary ex_nary ex_opt
    (make_pattern (build ex_opt PNil)) x ex_nw_ok ltac:(pose proof ex_fuel; lia) eq_refl (rsub_here _) Hs eq_refl ex_nary_in E) as (m2 & l2 & Hl2 & H2).
  destruct (best_unique _ _ _ _ _ ex_opt_best _ _ Hl) as [-> ->]. destruct (best_unique _ _ _ _ _ ex_opt_best _ _ Hl2) as [-> ->].
  destruct (H 3) as (_ & H3 & _). destruct (H3 ltac:(cbn; lia)) as (w' & E' & _ & _ & Hw'). rewrite (Hw' eq_refl) in E'. split; [exact E'|].
  destruct (H2 3 ltac:(cbn; lia)) as (w2 & E2 & Hsz & _). exists w2. split; [exact E2|]. rewrite Hsz. vm_compute. reflexivity.
Qed.
