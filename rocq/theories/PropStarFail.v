(** PropStarFail.v: the result of a pattern with [star] when nodes cannot be created
    (C85, C86).  [late]: it is the constructor of the value that fails, not the
    allocator; [k]: so many nodes can still be created (Fail.v). *)
From Verif Require Import Base Spec MatchSpec StructNode BinaryNode NaryNode Nav Policy Tree Rep RoseFacts NavFacts
  BinRep NaryRep BinOrder Iter IterTrees IterMain NodeFacts EditSpec User World Kinds TreeSpec TreeOps TreeBin TreeNary TreeFacts
  Matcher MatchFacts MatchWalk MatchResult MatchKinds MatchBin MatchCaps MatchMain GenUser Fail ResultFail ResultFailFacts
  Star StarSpec StarResultSpec StarLemmas StarFacts StarMain StarFlat StarResult StarKinds StarMarks StarFail StarFailFacts StarLeak Tried StarTry StarTryKinds PropResultFail PropStar PropStarResult Examples Examples2.

Section Core.
  Context {V Nd : Type}.
  Variable F : nat.
  Variable im : node_impl V Nd.
  Variable ti : try_impl V Nd.
  Variable al : allocator Nd.
  Variable late : bool.
  Variable like : gmap addr Nd -> ptr -> ptr -> ptr -> res (gmap addr Nd).
  Lemma assigning_enough (m : attempt (gmap addr Nd) ptr) (r : res (ptr * gmap addr Nd)) w i w' :
    (forall x h', r = Ok (x, h') -> enough m (w_heap w) x h') ->
    of_res ('(p, h) ← r; w1 ← assign F im (set_heap w h) i p 0 0; Ok ((), w1)) = Ret () w' ->
    exists n, forall k, n <= k -> assigning F im m k w i = Ret () w'.
  Proof.
    intros Hm E. destruct r as [[p h]|]; [|discriminate]. cbn [mbind res_bind] in E. destruct (Hm p h eq_refl) as [n Hn].
    exists n. intros k Hk. unfold assigning. replace k with (n + (k - n)) by lia. rewrite Hn. exact E.
  Qed.
  Hypothesis Hti : forall h v k a h', ni_from_value im al h v = Ok (a, h') -> ti_value ti late al v h (S k) = Made a h' k.
  Lemma result_enough_calls x w i w' : xassign_result F im al like x w i = Ret () w' ->
    exists n, forall k, n <= k -> xassign_result_try F im ti al late like k x w i = Ret () w'.
  Proof.
    unfold xassign_result, xassign_result_try. destruct (negb (xp_found x)); [discriminate|].
    apply assigning_enough. intros p h'. apply (proj1 (result_enough F im ti al late like Hti _)).
  Qed.
  Lemma mark_enough_calls x n w i w' : xassign_mark F im al like x n w i = Ret () w' ->
    exists m, forall k, m <= k -> xassign_mark_try F im ti al late like k x n w i = Ret () w'.
  Proof.
    unfold xassign_mark, xassign_mark_try. destruct (negb (xp_found x)); [discriminate|]. destruct (nth_error _ _) as [[c s]|]; [|discriminate].
    apply assigning_enough. intros p h'. apply (proj1 (result_enough F im ti al late like Hti _)).
  Qed.
  Lemma new_leaks K (w w' : world Nd) M z : consistent K w M ->
    (forall h d d', crep K h d -> crep K h d' -> croot K d = croot K d' -> d = d') -> kind_ok F im al K ->
    w_trees w' = w_trees w -> w_heap w ⊆ w_heap w' -> is_Some (w_heap w' !! z) -> w_heap w !! z = None -> forall M', ~ consistent K w' M'.
  Proof.
    intros Hw Hu KO Ht Hh Hz Hz0 M' Hw'. apply (wo_owned _ _ _ _ _ Hw') in Hz as (i & d' & Hi & Hbd).
    assert (Htr : is_Some (w_trees w !! i)) by (rewrite <- Ht; apply (wo_live _ _ _ _ _ Hw'); eauto). destruct Htr as [t Htr].
    assert (Hd : is_Some (M !! i)) by (apply (wo_live _ _ _ _ _ Hw); eauto). destruct Hd as [d Hd].
    destruct (wo_tree _ _ _ _ _ Hw i t d Htr Hd) as (Hr & _ & Hcd). rewrite <- Ht in Htr. destruct (wo_tree _ _ _ _ _ Hw' i t d' Htr Hi) as (Hr' & _ & Hcd').
    assert (Hcd2 : crep K (w_heap w') d).
    { eapply (k_ext _ _ _ _ KO); [|exact Hcd]. intros y Hy. destruct (k_dom _ _ _ _ KO _ _ _ Hcd Hy) as [o' Ho']. rewrite Ho'. eapply lookup_weaken; eassumption. }
    assert (d' = d) as -> by (eapply Hu; [exact Hcd'|exact Hcd2|congruence]).
    destruct (proj2 (wo_owned _ _ _ _ _ Hw z)) as [o' Ho']; [eauto|]. congruence.
  Qed.
  (** What follows from [tried]: as if nothing could fail, or nothing has happened. *)
  Lemma tried_calls (m : attempt (gmap addr Nd) ptr) (r : res (ptr * gmap addr Nd)) w i p h' : r = Ok (p, h') ->
    tried (lost late (w_heap w)) m (w_heap w) p h' ->
    exists n, forall k,
      (n <= k -> assigning F im m k w i = of_res ('(p, h) ← r; w1 ← assign F im (set_heap w h) i p 0 0; Ok ((), w1))) /\
      (k < n -> exists w', assigning F im m k w i = Throw w' /\ w_trees w' = w_trees w /\ w_heap w ⊆ w_heap w' /\ (late = false -> w' = w)).
  Proof.
    intros -> (n & H1 & H2). exists n. intros k. unfold assigning. split; intros Hk.
    - replace k with (n + (k - n)) by lia. rewrite H1. reflexivity.
    - destruct (H2 k Hk) as (hl & E & Hl). rewrite E. exists (set_heap w hl). split; [reflexivity|]. split; [reflexivity|]. split; [exact (lost_sub late _ _ Hl)|].
      intros Hf. apply (lost_none late w (set_heap w hl) Hf eq_refl Hl).
  Qed.
End Core.
Lemma marks_eager {V A} (u : spat V) : forall (a : asg A) u' a', (u', a') ∈ marks u a -> eager u -> eager u'.
Proof.
  assert (Hkids : forall us, Forall (fun u : spat V => forall (a : asg A) u' a', (u', a') ∈ marks u a -> eager u -> eager u') us -> Forall eager us -> forall (l : list (asg A)) u' a',
    (u', a') ∈ (fix all us l := match us, l with c :: us, b :: l => marks c b ++ all us l | _, _ => [] end) us l -> eager u').
  { induction us as [|u1 us IH]; intros H He [|b l] u' a' Hin; try (apply elem_of_nil in Hin as []). apply Forall_cons in H as [H1 H], He as [He1 He].
    apply elem_of_app in Hin as [Hin|Hin]; [exact (H1 _ _ _ Hin He1)|exact (IH H He _ _ _ Hin)]. }
  induction u as [vm cs IH|q vm cs IH|q vm cs IH|u IH] using spat_ind'; intros [n l] u' a' Hin He.
  - apply eager_subs in He. exact (Hkids cs IH He l u' a' Hin).
  - apply eager_subs in He. exact (Hkids cs IH He l u' a' Hin).
  - apply eager_subs in He. exact (Hkids cs IH He l u' a' Hin).
  - destruct l as [|b [|]]; cbn [marks] in Hin; try (apply elem_of_nil in Hin as []). apply elem_of_cons in Hin as [[= -> ->]|Hin]; [exact He|exact (IH _ _ _ Hin He)].
Qed.

(** *** C85.  Whatever the pattern and whatever it has matched: if the call succeeds
    when nothing can fail, there is a number of nodes from which on it does just the same. *)
Theorem C85_nary :
  forall (V : Type) (EV : EqDecision V) (F : nat) (al : allocator (nnode V)) (late : bool) (x : xpattern) (w : world (nnode V)) (i : tid),
  (forall w', xassign_result F (nary_impl V) al (n_assign_child_like F) x w i = Ret () w' ->
     exists n, forall k, n <= k -> xassign_result_try F (nary_impl V) (nary_try V) al late (n_assign_child_like F) k x w i = Ret () w') /\
  (forall j w', xassign_mark F (nary_impl V) al (n_assign_child_like F) x j w i = Ret () w' ->
     exists n, forall k, n <= k -> xassign_mark_try F (nary_impl V) (nary_try V) al late (n_assign_child_like F) k x j w i = Ret () w').
Proof.
  intros V EV F al late x w i. split; intros *; [apply result_enough_calls|apply mark_enough_calls]; intros h v; apply (nary_value_try al late h v).
Qed.
Print Assumptions C85_nary.
Theorem C85_binary :
  forall (V : Type) (EV : EqDecision V) (F : nat) (al : allocator (bnode V)) (late : bool) (x : xpattern) (w : world (bnode V)) (i : tid),
  (forall w', xassign_result F (binary_impl V) al b_assign_child_like x w i = Ret () w' ->
     exists n, forall k, n <= k -> xassign_result_try F (binary_impl V) (binary_try V) al late b_assign_child_like k x w i = Ret () w') /\
  (forall j w', xassign_mark F (binary_impl V) al b_assign_child_like x j w i = Ret () w' ->
     exists n, forall k, n <= k -> xassign_mark_try F (binary_impl V) (binary_try V) al late b_assign_child_like k x j w i = Ret () w').
Proof.
  intros V EV F al late x w i. split; intros *; [apply result_enough_calls|apply mark_enough_calls]; intros h v; apply (binary_value_try al late h v).
Qed.
Print Assumptions C85_binary.

(** A match of a reluctant star with one child that matches neither the root nor its
    children: the child is deeper. *)
Lemma deep_match {V} (q : quantifier) (p : V -> bool) u x (ts : list (rose (addr * V))) a : q <> QPossessive ->
  smatch snd (SStar q p [u]) (Rose x ts) a -> (forall s b, s = Rose x ts \/ s ∈ ts -> ~ smatch snd u s b) ->
  exists b, a = Asg (Rose x ts) [b] /\ smatch snd u (at_node b) b /\ reached snd p (Rose x ts) (at_node b) /\ at_node b ∉ ts.
Proof.
  intros Hq Hm Hno. inversion Hm as [| | |? ? ? ? ? l Hp _ Hb| |? ? ? ? ? b _ Hb|]; subst; [|congruence|].
  - destruct (star_present q p [u] x ts l) as (H1 & _ & H3); [intros _; exact Hb|intros ->; congruence|].
    inversion H1 as [|? b ? l' Hmb Hl]; subst. inversion Hl; subst. exists b. split; [reflexivity|]. split; [exact Hmb|]. split; [apply H3; left|].
    intros Hin. apply (Hno _ b (or_intror Hin)), Hmb.
  - exfalso. apply (Hno _ b (or_introl eq_refl)), Hb.
Qed.

(** *** C86.  A reluctant star, found in a tree object or a subtree [t], whose only child
    pattern matches neither the root of [t] nor one of its children: there is a number of
    nodes with which assign_result throws and leaves nodes behind that belong to no tree,
    even if it is the allocator that fails. *)
Theorem C86_leak_nary_refuted :
  forall (V : Type) (EV : EqDecision V) (F : nat) (al : allocator (nnode V)) (late : bool), (N.of_nat F <= W64)%N ->
  forall (w : world (nnode V)) (M : gmap tid (option (rose (addr * V)))) (i j : tid)
    (h : gmap addr (nnode V)) (t0 t : rose (addr * V)) (p : V -> bool) (u : spat V) (x x' : xpattern),
  consistent (nary_kind V) w M -> size (w_heap w) < F -> M !! j = Some (Some t0) -> rsubtree t t0 ->
  ssolid u -> lone u -> (forall s b, s = t \/ s ∈ children t -> ~ smatch snd u s b) -> xp_pat x = xbuild (SStar QReluctant p [u]) XNil ->
  nary_in h t -> xsearch F (nary_impl V) x h (Some (raddr t)) = Ok (true, x') ->
  exists k w', xassign_result_try F (nary_impl V) (nary_try V) al late (n_assign_child_like F) k x' w i = Throw w' /\
    w_trees w' = w_trees w /\ w_heap w ⊂ w_heap w' /\ forall M', ~ consistent (nary_kind V) w' M'.
Proof.
  intros V EV F al late HFW w M i j h t0 t p u x x' Hw HF Hj Hs Hu Hl Hno Hx Hh Hsearch.
  assert (Ht0 : nary_in (w_heap w) t0 /\ rsize t0 <= size (w_heap w)).
  { apply (to_holds F _ al _ (nary_tree_kind V EV) HFW) in Hw. pose proof (holds_rep _ _ _ _ _ _ _ _ Hw Hj) as Hrep.
    split; [exists None, None, None, (szt 0); exact Hrep|]. pose proof (holds_size _ _ _ _ _ _ _ _ Hw Hj) as Hz. cbn in Hz.
    unfold raddrs in Hz. rewrite map_length, length_preorder in Hz. exact Hz. }
  destruct Ht0 as [Ht0 Hsz]. pose proof (nary_in_sub _ _ _ Ht0 Hs) as Ht.
  assert (Hst : rsize t <= rsize t0) by (apply rsubtree_plug in Hs as [cx <-]; pose proof (ctx_length_size cx t); lia).
  destruct (nary_facts h t Hh) as (F1 & F2 & F3).
  assert (Hp : ssolid (SStar QReluctant p [u])) by (cbn; split; [discriminate|auto]).
  destruct (xsearch_core F (nary_impl V) h t _ x F1 F2 F3 ltac:(lia) Hp Hx) as (b & x2 & E & Hpat & Hfound & H1 & _).
  rewrite E in Hsearch. injection Hsearch as -> ->. destruct (H1 eq_refl) as (a & Ha & Hrec). rewrite orb_true_r in Hfound.
  destruct t as [y ts]. destruct (deep_match QReluctant p u y ts a ltac:(discriminate) Ha Hno) as (b & -> & Hmb & Hre & Hdeep).
  destruct (records_inv _ _ _ _ Hrec) as (m & cut & sc & sn & Est & -> & Hr). cbn [subs] in Hr.
  destruct (star_leaks F (nary_impl V) (nary_try V) al late (n_assign_child_like F) (nary_kind V) (nary_ok F al) (nary_value_try al late) MatchKinds.nimage (@nary_in V)) with
    (p := p) (u := u) (ns := @XNil V) (cut := cut) (sn := sn) (x := y) (ts := ts) (a := b) (s := sc) (h := w_heap w) as (k & hl & z & Er & Hle & Hz & Hz0); auto.
  { intros h1 t1 (par & prev & next & fs & _ & Hnd). exact Hnd. } { intros h1 t1 H. apply (nary_facts h1 t1 H). } { intros h1 t1 x1 H. apply (nary_facts h1 t1 H). }
  { intros h1 t1 s1 H Hs1. eapply nary_in_sub; eassumption. }
  { intros h1 h1' t1 Hle (par & prev & next & fs & Hrp & Hnd). exists par, prev, next, fs. split; [|exact Hnd]. eapply nrep_ext; [|exact Hrp].
    intros a1 Ha1. assert (is_Some (h1 !! a1)) as [o Ho] by (eapply nrep_dom; eassumption). rewrite Ho. eapply lookup_weaken; eassumption. }
  { apply (nary_star_result F al u Hu Hl). } { lia. }
  exists k, (set_heap w hl). split; [|split; [reflexivity|split]].
  - unfold xassign_result_try, assigning. rewrite Hfound, Hpat, Hx, Est. cbn [negb]. change (Some (raddr (Rose y ts))) with (Some (fst y)). rewrite Er. reflexivity.
  - split; [exact Hle|]. intros Hge. destruct Hz as [o Ho]. assert (Ho' : hl !! z = Some o) by exact Ho. apply (lookup_weaken _ _ _ _ Ho') in Hge. cbn in Hz0, Hge. congruence.
  - apply (new_leaks F (nary_impl V) al (nary_kind V) w (set_heap w hl) M z Hw); auto; [|apply (nary_ok F al)].
    intros hh [d|] [d'|] Hd Hd' Hrt; cbn in Hrt; try discriminate; [|reflexivity]. destruct Hd as [D _], Hd' as [D' _]. injection Hrt as Hrt. f_equal.
    eapply nrep_unique; [exact D|exact D'|congruence].
Qed.
Print Assumptions C86_leak_nary_refuted.
Theorem C86_leak_binary_refuted :
  forall (V : Type) (EV : EqDecision V) (F : nat) (al : allocator (bnode V)) (late : bool), (N.of_nat F <= W64)%N ->
  forall (w : world (bnode V)) (M : gmap tid (bin (addr * V))) (i j : tid)
    (h : gmap addr (bnode V)) (t0 t : bin (addr * V)) (s : rose (addr * V)) (p : V -> bool) (u : spat V) (x x' : xpattern),
  consistent (binary_kind V) w M -> size (w_heap w) < F -> M !! j = Some t0 -> bsubtree t t0 -> bin_forest t = [s] ->
  ssolid u -> lone u -> (forall s' b, s' = s \/ s' ∈ children s -> ~ smatch snd u s' b) -> xp_pat x = xbuild (SStar QReluctant p [u]) XNil ->
  bin_in h t -> xsearch F (binary_impl V) x h (baddr t) = Ok (true, x') ->
  exists k w', xassign_result_try F (binary_impl V) (binary_try V) al late b_assign_child_like k x' w i = Throw w' /\
    w_trees w' = w_trees w /\ w_heap w ⊂ w_heap w' /\ forall M', ~ consistent (binary_kind V) w' M'.
Proof.
  intros V EV F al late HFW w M i j h t0 t s p u x x' Hw HF Hj Hs Hts Hu Hl Hno Hx Hh Hsearch.
  assert (Ht0 : bin_in (w_heap w) t0 /\ length (baddrs t0) <= size (w_heap w)).
  { apply (to_holds F _ al _ (binary_tree_kind V EV) HFW) in Hw. pose proof (holds_rep _ _ _ _ _ _ _ _ Hw Hj) as Hrep.
    split; [exists None; exact Hrep|]. exact (holds_size _ _ _ _ _ _ _ _ Hw Hj). }
  destruct Ht0 as [Ht0 Hsz]. pose proof (bin_in_sub _ _ _ Ht0 Hs) as Ht.
  assert (Hst : rsize s < F).
  { rewrite <- (forest_size t s Hts). rewrite length_baddrs in Hsz. assert (bin_size t <= bin_size t0) by (clear -Hs; induction Hs; cbn; lia). lia. }
  assert (Hroot : baddr t = Some (raddr s)) by (apply forest_root in Hts as ([a v] & l & r & -> & ->); reflexivity).
  destruct (binary_facts h t s Hh Hts) as (F1 & F2 & F3).
  assert (Hp : ssolid (SStar QReluctant p [u])) by (cbn; split; [discriminate|auto]).
  destruct (xsearch_core F (binary_impl V) h s _ x F1 F2 F3 Hst Hp Hx) as (b & x2 & E & Hpat & Hfound & H1 & _).
  rewrite Hroot, E in Hsearch. injection Hsearch as -> ->. destruct (H1 eq_refl) as (a & Ha & Hrec). rewrite orb_true_r in Hfound.
  destruct s as [y ts]. destruct (deep_match QReluctant p u y ts a ltac:(discriminate) Ha Hno) as (b & -> & Hmb & Hre & Hdeep).
  destruct (records_inv _ _ _ _ Hrec) as (m & cut & sc & sn & Est & -> & Hr). cbn [subs] in Hr. set (lf := left_in (w_heap w)).
  destruct (star_leaks F (binary_impl V) (binary_try V) al late b_assign_child_like (binary_kind V) (binary_ok F al) (binary_value_try al late) (bimage lf) (bwhole lf)) with
    (p := p) (u := u) (ns := @XNil V) (cut := cut) (sn := sn) (x := y) (ts := ts) (a := b) (s := sc) (h := w_heap w) as (k & hl & z & Er & Hle & Hz & Hz0); auto.
  { intros h1 t1 (b1 & Hb1 & Hf1 & _). apply (binary_facts h1 b1 t1 Hb1 Hf1). } { intros h1 t1 (b1 & Hb1 & Hf1 & _). apply (binary_facts h1 b1 t1 Hb1 Hf1). }
  { intros h1 t1 x1 (b1 & Hb1 & Hf1 & _). apply (binary_facts h1 b1 t1 Hb1 Hf1). }
  { intros h1 t1 s1 (b1 & Hb1 & Hf1 & Hl1) Hs1. destruct (rsub_bsub s1 t1 Hs1 b1 Hf1) as (b' & Hb' & Hf'). exists b'. split; [eapply bin_in_sub; eassumption|]. split; [exact Hf'|].
    intros y1 l r Hy1. apply (Hl1 y1). clear -Hy1 Hb'. induction Hb'; [exact Hy1|apply bsub_left; auto|apply bsub_right; auto]. }
  { intros h1 h1' t1 Hle (b1 & (par & Hrp & Hnd) & Hf1 & Hl1). exists b1. split; [|auto]. exists par. split; [|exact Hnd]. eapply brep_ext; [|exact Hrp].
    intros a1 Ha1. assert (is_Some (h1 !! a1)) as [o Ho] by (eapply brep_dom; eassumption). rewrite Ho. eapply lookup_weaken; eassumption. }
  { apply (binary_star_result F al lf u Hu Hl). } { exists t. split; [exact Ht|]. split; [exact Hts|]. intros y' l r Hy. eapply left_in_ok; eassumption. }
  exists k, (set_heap w hl). split; [|split; [reflexivity|split]].
  - unfold xassign_result_try, assigning. rewrite Hfound, Hpat, Hx, Est. cbn [negb]. change (Some (raddr (Rose y ts))) with (Some (fst y)). rewrite Er. reflexivity.
  - split; [exact Hle|]. intros Hge. destruct Hz as [o Ho]. assert (Ho' : hl !! z = Some o) by exact Ho. apply (lookup_weaken _ _ _ _ Ho') in Hge. cbn in Hz0, Hge. congruence.
  - apply (new_leaks F (binary_impl V) al (binary_kind V) w (set_heap w hl) M z Hw); auto; [|apply (binary_ok F al)].
    intros hh d d' [D _] [D' _] Hrt. eapply brep_unique; [exact D|exact D'|exact Hrt].
Qed.
Print Assumptions C86_leak_binary_refuted.

(** Without reluctant stars nothing is lost: after a successful search in [t], the tree
    object [j] or a subtree of it, there is a number of nodes, for the match and for
    each mark of it, with which the call is as if nothing could fail, and with fewer it
    throws: all tree objects are as before, every node there was is as before, and if it
    was the allocator that threw, nothing at all has changed.  ([2 * size]: in the model
    a node that is built counts twice towards the steps that are allowed.) *)
Theorem C86_eager_nary_partial :
  forall (V : Type) (EV : EqDecision V) (F : nat) (al : allocator (nnode V)) (late : bool), (N.of_nat F <= W64)%N ->
  forall (w : world (nnode V)) (M : gmap tid (option (rose (addr * V)))) (i j : tid)
    (h : gmap addr (nnode V)) (t0 t : rose (addr * V)) (u : spat V) (x x' : xpattern),
  consistent (nary_kind V) w M -> 2 * size (w_heap w) < F -> M !! j = Some (Some t0) -> rsubtree t t0 ->
  ssolid u -> eager u -> xp_pat x = xbuild u XNil ->
  nary_in h t -> xsearch F (nary_impl V) x h (Some (raddr t)) = Ok (true, x') ->
  exists a, smatch snd u t a /\
    (exists n, forall k,
       (n <= k -> xassign_result_try F (nary_impl V) (nary_try V) al late (n_assign_child_like F) k x' w i =
                  xassign_result F (nary_impl V) al (n_assign_child_like F) x' w i) /\
       (k < n -> exists w', xassign_result_try F (nary_impl V) (nary_try V) al late (n_assign_child_like F) k x' w i = Throw w' /\
          w_trees w' = w_trees w /\ w_heap w ⊆ w_heap w' /\ (late = false -> w' = w))) /\
    (forall c u1 a1, nth_error (marks u a) c = Some (u1, a1) -> exists n, forall k,
       (n <= k -> xassign_mark_try F (nary_impl V) (nary_try V) al late (n_assign_child_like F) k x' (S c) w i =
                  xassign_mark F (nary_impl V) al (n_assign_child_like F) x' (S c) w i) /\
       (k < n -> exists w', xassign_mark_try F (nary_impl V) (nary_try V) al late (n_assign_child_like F) k x' (S c) w i = Throw w' /\
          w_trees w' = w_trees w /\ w_heap w ⊆ w_heap w' /\ (late = false -> w' = w))).
Proof.
  intros V EV F al late HFW w M i j h t0 t u x x' Hw HF Hj Hs Hp He Hx Hh Hsearch.
  assert (Ht0 : nary_in (w_heap w) t0 /\ rsize t0 <= size (w_heap w)).
  { apply (to_holds F _ al _ (nary_tree_kind V EV) HFW) in Hw. pose proof (holds_rep _ _ _ _ _ _ _ _ Hw Hj) as Hrep.
    split; [exists None, None, None, (szt 0); exact Hrep|]. pose proof (holds_size _ _ _ _ _ _ _ _ Hw Hj) as Hl. cbn in Hl.
    unfold raddrs in Hl. rewrite map_length, length_preorder in Hl. exact Hl. }
  destruct Ht0 as [Ht0 Hsz]. pose proof (nary_in_sub _ _ _ Ht0 Hs) as Ht.
  assert (Hsubsz : forall s s' : rose (addr * V), rsubtree s s' -> rsize s <= rsize s') by (intros s s' Hss; apply rsubtree_plug in Hss as [cx <-]; pose proof (ctx_length_size cx s); lia).
  pose proof (Hsubsz _ _ Hs) as Hst.
  destruct (nary_facts h t Hh) as (F1 & F2 & F3).
  destruct (xsearch_core F (nary_impl V) h t u x F1 F2 F3 ltac:(lia) Hp Hx) as (b & x2 & E & Hpat & Hfound & H1 & _).
  rewrite E in Hsearch. injection Hsearch as -> ->. destruct (H1 eq_refl) as (a & Ha & Hrec). rewrite orb_true_r in Hfound.
  pose proof (smatch_at _ _ _ _ Ha) as Hat.
  assert (Hgo : forall u1 s1 a1 ns, ssolid u1 -> eager u1 -> records [u1] s1 [a1] -> smatch snd u1 (at_node a1) a1 -> rsubtree (at_node a1) t ->
    exists p h', xresult F (nary_impl V) al (n_assign_child_like F) (xbuild u1 ns) s1 (w_heap w) = Ok (p, h') /\
      tried (lost late (w_heap w)) (xresult_try F (nary_impl V) (nary_try V) al late (n_assign_child_like F) (xbuild u1 ns) s1) (w_heap w) p h').
  { intros u1 s1 a1 ns Hu1 He1 Hr1 Hm1 Hs1. pose proof (Hsubsz _ _ Hs1) as Hsz1. pose proof (nary_in_sub _ _ _ Ht Hs1) as Hin1.
    destruct (nary_star_result F al u1 Hu1 (eager_lone _ He1) ns s1 (w_heap w) a1 Hr1 Hm1 Hin1 ltac:(lia)) as (b & h' & c' & m & Er & _).
    exists (Some b), h'. split; [exact Er|]. destruct (nary_star_try F al late u1 Hu1 He1 ns s1 (w_heap w) a1 Hr1 Hm1 Hin1 ltac:(lia)) as (y & h2 & Htr).
    eapply tried_at; [|exact Htr]. apply (proj1 (result_enough F _ _ al late _ (fun h v => proj1 (nary_value_try al late h v)) _)), Er. }
  exists a. split; [exact Ha|]. split.
  - destruct (Hgo u (xp_state x') a XNil Hp He Hrec ltac:(rewrite Hat; exact Ha) ltac:(rewrite Hat; constructor)) as (p & h' & Er & Htr).
    unfold xassign_result, xassign_result_try. rewrite Hfound, Hpat, Hx. cbn [negb]. eapply tried_calls; [exact Er|exact Htr].
  - intros k u1 a1 Hk. pose proof (xcaptures_ok [u] (xp_state x') [a] Hrec) as Hf. cbn [allmarks foldr] in Hf. rewrite app_nil_r in Hf.
    assert (Hin : (u1, a1) ∈ marks u a) by (apply elem_of_list_In; eapply nth_error_In; exact Hk).
    destruct (marks_in u t a u1 a1 Ha F2 Hin) as (Hm1 & Hs1 & Hu1 & _). pose proof (marks_eager u a u1 a1 Hin He) as He1.
    assert (Hn : exists ps, nth_error (xcaptures (xbuild u XNil) (xp_state x')) k = Some ps /\ capture ps (u1, a1)).
    { clear -Hf Hk. revert k Hk. induction Hf as [|ps m1 cl ms Hps _ IH]; intros [|k] Hk; try discriminate; cbn in *; [injection Hk as <-; eauto|eauto]. }
    destruct Hn as ([p s] & Hn & ns & n & Hpu & Hmt & Hr1). cbn [fst snd] in *.
    destruct (Hgo u1 (xs_first s) a1 XNil (Hu1 Hp) He1 Hr1 Hm1 Hs1) as (b1 & h1 & Er1 & Htr1).
    unfold xassign_mark, xassign_mark_try. rewrite Hfound, Hpat, Hx. cbn [negb]. replace (S k - 1) with k by lia. rewrite Hn, Hpu.
    destruct s as [|mm cut sc sn]; [discriminate|]. cbn in Hmt. subst mm. rewrite xbuild_eq. cbn [kind_of subs].
    eapply tried_calls; [rewrite result_cpt|rewrite StarFailFacts.try_cpt]; cbn [xs_first foldr] in *; [exact Er1|exact Htr1].
Qed.
Print Assumptions C86_eager_nary_partial.
Theorem C86_eager_binary_partial :
  forall (V : Type) (EV : EqDecision V) (F : nat) (al : allocator (bnode V)) (late : bool), (N.of_nat F <= W64)%N ->
  forall (w : world (bnode V)) (M : gmap tid (bin (addr * V))) (i j : tid)
    (h : gmap addr (bnode V)) (t0 t : bin (addr * V)) (s : rose (addr * V)) (u : spat V) (x x' : xpattern),
  consistent (binary_kind V) w M -> 2 * size (w_heap w) < F -> M !! j = Some t0 -> bsubtree t t0 -> bin_forest t = [s] ->
  ssolid u -> eager u -> xp_pat x = xbuild u XNil ->
  bin_in h t -> xsearch F (binary_impl V) x h (baddr t) = Ok (true, x') ->
  exists a, smatch snd u s a /\
    (exists n, forall k,
       (n <= k -> xassign_result_try F (binary_impl V) (binary_try V) al late b_assign_child_like k x' w i =
                  xassign_result F (binary_impl V) al b_assign_child_like x' w i) /\
       (k < n -> exists w', xassign_result_try F (binary_impl V) (binary_try V) al late b_assign_child_like k x' w i = Throw w' /\
          w_trees w' = w_trees w /\ w_heap w ⊆ w_heap w' /\ (late = false -> w' = w))) /\
    (forall c u1 a1, nth_error (marks u a) c = Some (u1, a1) -> exists n, forall k,
       (n <= k -> xassign_mark_try F (binary_impl V) (binary_try V) al late b_assign_child_like k x' (S c) w i =
                  xassign_mark F (binary_impl V) al b_assign_child_like x' (S c) w i) /\
       (k < n -> exists w', xassign_mark_try F (binary_impl V) (binary_try V) al late b_assign_child_like k x' (S c) w i = Throw w' /\
          w_trees w' = w_trees w /\ w_heap w ⊆ w_heap w' /\ (late = false -> w' = w))).
Proof.
  intros V EV F al late HFW w M i j h t0 t s u x x' Hw HF Hj Hs Hts Hp He Hx Hh Hsearch.
  assert (Ht0 : bin_in (w_heap w) t0 /\ length (baddrs t0) <= size (w_heap w)).
  { apply (to_holds F _ al _ (binary_tree_kind V EV) HFW) in Hw. pose proof (holds_rep _ _ _ _ _ _ _ _ Hw Hj) as Hrep.
    split; [exists None; exact Hrep|]. exact (holds_size _ _ _ _ _ _ _ _ Hw Hj). }
  destruct Ht0 as [Ht0 Hsz]. pose proof (bin_in_sub _ _ _ Ht0 Hs) as Ht.
  assert (Hst : forall t1 s1, bsubtree t1 t -> bin_forest t1 = [s1] -> 2 * rsize s1 < F).
  { intros t1 s1 H1 H2. rewrite <- (forest_size t1 s1 H2). rewrite length_baddrs in Hsz.
    assert (bin_size t1 <= bin_size t) by (clear -H1; induction H1; cbn; lia). assert (bin_size t <= bin_size t0) by (clear -Hs; induction Hs; cbn; lia). lia. }
  assert (Hroot : baddr t = Some (raddr s)) by (apply forest_root in Hts as ([a v] & l & r & -> & ->); reflexivity).
  destruct (binary_facts h t s Hh Hts) as (F1 & F2 & F3).
  destruct (xsearch_core F (binary_impl V) h s u x F1 F2 F3 ltac:(pose proof (Hst _ _ (bsub_here t) Hts); lia) Hp Hx) as (b & x2 & E & Hpat & Hfound & H1 & _).
  rewrite Hroot, E in Hsearch. injection Hsearch as -> ->. destruct (H1 eq_refl) as (a & Ha & Hrec). rewrite orb_true_r in Hfound.
  pose proof (smatch_at _ _ _ _ Ha) as Hat. set (lf := left_in (w_heap w)).
  assert (Hgo : forall u1 s1 a1 ns t1, ssolid u1 -> eager u1 -> records [u1] s1 [a1] -> smatch snd u1 (at_node a1) a1 -> bsubtree t1 t -> bin_forest t1 = [at_node a1] ->
    exists p h', xresult F (binary_impl V) al b_assign_child_like (xbuild u1 ns) s1 (w_heap w) = Ok (p, h') /\
      tried (lost late (w_heap w)) (xresult_try F (binary_impl V) (binary_try V) al late b_assign_child_like (xbuild u1 ns) s1) (w_heap w) p h').
  { intros u1 s1 a1 ns t1 Hu1 He1 Hr1 Hm1 Ht1 Hf1. pose proof (bin_in_sub _ _ _ Ht Ht1) as Hin1. pose proof (Hst _ _ Ht1 Hf1) as Hsz1.
    assert (Hwh : bwhole lf (w_heap w) (at_node a1)) by (exists t1; split; [exact Hin1|]; split; [exact Hf1|]; intros y l r Hy; eapply left_in_ok; eassumption).
    destruct (binary_star_result F al lf u1 Hu1 (eager_lone _ He1) ns s1 (w_heap w) a1 Hr1 Hm1 Hwh ltac:(lia)) as (b & h' & c' & m & Er & _).
    exists (Some b), h'. split; [exact Er|]. destruct (binary_star_try F al late lf u1 Hu1 He1 ns s1 (w_heap w) a1 Hr1 Hm1 Hwh ltac:(lia)) as (y & h2 & Htr).
    eapply tried_at; [|exact Htr]. apply (proj1 (result_enough F _ _ al late _ (fun h v => proj1 (binary_value_try al late h v)) _)), Er. }
  exists a. split; [exact Ha|]. split.
  - destruct (Hgo u (xp_state x') a XNil t Hp He Hrec ltac:(rewrite Hat; exact Ha) (bsub_here t) ltac:(rewrite Hat; exact Hts)) as (p & h' & Er & Htr).
    unfold xassign_result, xassign_result_try. rewrite Hfound, Hpat, Hx. cbn [negb]. eapply tried_calls; [exact Er|exact Htr].
  - intros k u1 a1 Hk. pose proof (xcaptures_ok [u] (xp_state x') [a] Hrec) as Hf. cbn [allmarks foldr] in Hf. rewrite app_nil_r in Hf.
    assert (Hin : (u1, a1) ∈ marks u a) by (apply elem_of_list_In; eapply nth_error_In; exact Hk).
    destruct (marks_in u s a u1 a1 Ha F2 Hin) as (Hm1 & Hs1 & Hu1 & _). pose proof (marks_eager u a u1 a1 Hin He) as He1.
    assert (Hn : exists ps, nth_error (xcaptures (xbuild u XNil) (xp_state x')) k = Some ps /\ capture ps (u1, a1)).
    { clear -Hf Hk. revert k Hk. induction Hf as [|ps m1 cl ms Hps _ IH]; intros [|k] Hk; try discriminate; cbn in *; [injection Hk as <-; eauto|eauto]. }
    destruct Hn as ([p st] & Hn & ns & n & Hpu & Hmt & Hr1). cbn [fst snd] in *.
    destruct (rsub_bsub _ _ Hs1 _ Hts) as (t1 & Ht1 & Hf1).
    destruct (Hgo u1 (xs_first st) a1 XNil t1 (Hu1 Hp) He1 Hr1 Hm1 Ht1 Hf1) as (b1 & h1 & Er1 & Htr1).
    unfold xassign_mark, xassign_mark_try. rewrite Hfound, Hpat, Hx. cbn [negb]. replace (S k - 1) with k by lia. rewrite Hn, Hpu.
    destruct st as [|mm cut sc sn]; [discriminate|]. cbn in Hmt. subst mm. rewrite xbuild_eq. cbn [kind_of subs].
    eapply tried_calls; [rewrite result_cpt|rewrite StarFailFacts.try_cpt]; cbn [xs_first foldr] in *; [exact Er1|exact Htr1].
Qed.
Print Assumptions C86_eager_binary_partial.

(** 0 (1 (3, 2)) and [star<RELUCTANT>(0 or 1)(one 3)]: two nodes can be created, the
    third, for 1, cannot; the one for 3 is lost. *)
Definition ex_reluctant : spat nat := SStar QReluctant (fun v => Nat.leb v 1) [SOne (Nat.eqb 3) []].
Example C86_used : exists x', xsearch 100 (nary_impl nat) (make_xpattern (xbuild ex_reluctant XNil)) (ex_shp_heap 1 3) (Some 1%positive) = Ok (true, x') /\
  (exists k w', xassign_result_try 100 (nary_impl nat) (nary_try nat) (first_fit _) false (n_assign_child_like 100) k x' ex_two 2%positive = Throw w' /\
     w_heap ex_two ⊂ w_heap w') /\
  (exists w', xassign_result_try 100 (nary_impl nat) (nary_try nat) (first_fit _) false (n_assign_child_like 100) 2 x' ex_two 2%positive = Throw w' /\ size (w_heap w') = 5) /\
  (exists n w', forall k, n <= k -> xassign_result_try 100 (nary_impl nat) (nary_try nat) (first_fit _) false (n_assign_child_like 100) k x' ex_two 2%positive = Ret () w').
Proof.
  destruct (xsearch 100 (nary_impl nat) (make_xpattern (xbuild ex_reluctant XNil)) (ex_shp_heap 1 3) (Some 1%positive)) as [[b x']|] eqn:E; [|vm_compute in E; discriminate].
  assert (b = true) as -> by (vm_compute in E; congruence). exists x'. split; [reflexivity|]. split; [|split].
  - destruct (C86_leak_nary_refuted nat _ 100 (first_fit _) false ex_word ex_two ex_twoM 2%positive 1%positive (ex_shp_heap 1 3) (ex_shp 1 3) (ex_shp 1 3) (fun v => Nat.leb v 1) (SOne (Nat.eqb 3) [])
      (make_xpattern (xbuild ex_reluctant XNil)) x' ex_two_ok) as (k & w' & H1 & _ & H2 & _).
    + vm_compute. lia.
    + reflexivity.
    + constructor.
    + exact I.
    + exact I.
    + intros s b [->|Hs] Hm; [inversion Hm; discriminate|]. apply elem_of_list_singleton in Hs as ->. inversion Hm; discriminate.
    + reflexivity.
    + apply ex_shp_in.
    + exact E.
    + exists k, w'. auto.
  - vm_compute in E. injection E as <-. eexists. vm_compute. split; reflexivity.
  - assert (exists w', xassign_result 100 (nary_impl nat) (first_fit _) (n_assign_child_like 100) x' ex_two 2%positive = Ret () w') as [w' Ew].
    { vm_compute in E. injection E as <-. eexists. vm_compute. reflexivity. }
    destruct (proj1 (C85_nary nat _ 100 (first_fit _) false x' ex_two 2%positive) w' Ew) as [n Hn]. exists n, w'. exact Hn.
Qed.

(** 10 (20 (40, 50), 30 (60)) and [star<GREEDY>(below 40)(cpt(one 60))]: the result has four
    nodes.  When only three can be created the call throws and nothing has changed; the
    same for the mark, one node, when none can be. *)
Example C86_eager_used :
  ssolid (ex_down QGreedy) /\ eager (ex_down QGreedy) /\
  exists x', xsearch 100 (nary_impl nat) (make_xpattern (xbuild (ex_down QGreedy) XNil)) ex_nheap (Some 1%positive) = Ok (true, x') /\
  xassign_result_try 100 (nary_impl nat) (nary_try nat) (first_fit _) false (n_assign_child_like 100) 3 x' ex_nw 2%positive = Throw ex_nw /\
  xassign_mark_try 100 (nary_impl nat) (nary_try nat) (first_fit _) false (n_assign_child_like 100) 0 x' 1 ex_nw 2%positive = Throw ex_nw /\
  exists w', xassign_result_try 100 (nary_impl nat) (nary_try nat) (first_fit _) false (n_assign_child_like 100) 4 x' ex_nw 2%positive = Ret () w'.
Proof.
  assert (Hs : ssolid (ex_down QGreedy)) by (vm_compute; repeat split; congruence).
  assert (He : eager (ex_down QGreedy)) by (vm_compute; repeat split; congruence).
  split; [exact Hs|]. split; [exact He|].
  destruct (xsearch 100 (nary_impl nat) (make_xpattern (xbuild (ex_down QGreedy) XNil)) ex_nheap (Some 1%positive)) as [[b x']|] eqn:E; [|vm_compute in E; discriminate].
  assert (b = true) as -> by (vm_compute in E; congruence). exists x'. split; [reflexivity|].
  destruct (C86_eager_nary_partial nat _ 100 (first_fit _) false ex_word ex_nw ex_nM 2%positive 1%positive ex_nheap ex_nary ex_nary (ex_down QGreedy)
    (make_xpattern (xbuild (ex_down QGreedy) XNil)) x' ex_nw_ok ltac:(vm_compute; lia) eq_refl (rsub_here _) Hs He eq_refl ex_nary_in E) as (a & Ha & (n & Hn) & Hmk).
  assert (Hma : exists u1 a1, nth_error (marks (ex_down QGreedy) a) 0 = Some (u1, a1)).
  { unfold ex_down in *. inversion Ha as [| | |? ? ? x ts l Hp Hq Hb| |? ? c x ts b Hp Hb|]; subst; [|].
    - destruct (star_present _ _ _ (1%positive, 10) _ _ (fun _ => Hb) (fun Hqq : QGreedy = QPossessive => ltac:(discriminate Hqq))) as (H1 & _ & _). inversion H1 as [|? b ? ? Hb1 Hr]; subst. inversion Hr; subst.
      inversion Hb1; subst. cbn. eauto.
    - inversion Hb; subst. cbn. eauto. }
  destruct Hma as (u1 & a1 & Hmk1). destruct (Hmk 0 u1 a1 Hmk1) as (n1 & Hn1). vm_compute in E. injection E as <-. split; [|split].
  - destruct (Hn 3) as [H1 H2]. destruct (decide (n <= 3)) as [Hle|Hgt].
    + specialize (H1 Hle). vm_compute in H1. discriminate.
    + destruct (H2 ltac:(lia)) as (w' & Ew & _ & _ & Hw'). rewrite (Hw' eq_refl) in Ew. exact Ew.
  - destruct (Hn1 0) as [H1 H2]. destruct (decide (n1 <= 0)) as [Hle|Hgt].
    + specialize (H1 Hle). vm_compute in H1. discriminate.
    + destruct (H2 ltac:(lia)) as (w' & Ew & _ & _ & Hw'). rewrite (Hw' eq_refl) in Ew. exact Ew.
  - eexists. vm_compute. reflexivity.
Qed.
