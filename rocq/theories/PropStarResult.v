(** PropStarResult.v: the tree a pattern with [star] reports (C50, C51).

    [smatch snd u t a] (StarSpec.v): the pattern [u] matches the tree [t] at the
    root, [a] telling which node each matcher took; [sresult snd u a m]
    (StarResultSpec.v): the nodes [m] of the tree are what is to be reported for
    it.  [ssolid u]: every [opt] and [star] is given children; [lone u]: every
    reluctant [star] is given one child only. *)
From Verif Require Import Base Spec MatchSpec StructNode BinaryNode NaryNode Nav Policy Tree Rep RoseFacts NavFacts
  BinRep NaryRep Iter IterTrees IterMain NodeFacts EditSpec User World Kinds TreeSpec TreeOps TreeBin TreeNary TreeFacts
  Matcher MatchFacts MatchWalk MatchResult MatchKinds MatchBin MatchCaps MatchMain GenUser Star StarSpec StarResultSpec StarLemmas StarFacts StarMain StarFlat StarResult
  StarKinds StarMarks StarUnique PropStar Examples Examples2.

(** A successful search in [t], the tree object [j] or a subtree of it, and
    assign_result to the tree object [i] (possibly [j] itself), at any later time
    as long as [j] is unchanged: [i] holds the values of the match, in new nodes;
    its old nodes were released; every other tree is unchanged.  The same for the
    marks. *)
Theorem C50_result_nary :
  forall (V : Type) (EV : EqDecision V) (F : nat) (al : allocator (nnode V)), (N.of_nat F <= W64)%N ->
  forall (w : world (nnode V)) (M : gmap tid (option (rose (addr * V)))) (i j : tid) (c : option (rose (addr * V)))
    (h : gmap addr (nnode V)) (t0 t : rose (addr * V)) (u : spat V) (x x' : xpattern),
  consistent (nary_kind V) w M -> size (w_heap w) < F -> M !! i = Some c -> M !! j = Some (Some t0) -> rsubtree t t0 ->
  ssolid u -> lone u -> xp_pat x = xbuild u XNil ->
  nary_in h t -> xsearch F (nary_impl V) x h (Some (raddr t)) = Ok (true, x') ->
  exists a m w' c', smatch snd u t a /\ sresult snd u a m /\
    xassign_result F (nary_impl V) al (n_assign_child_like F) x' w i = Ret () w' /\
    consistent (nary_kind V) w' (<[i := c']> M) /\ nvals c' = Some (rose_map snd m) /\
    (forall z, z ∈ naddrs c' -> w_heap w !! z = None) /\
    (caches (nary_kind V) w M -> caches (nary_kind V) w' (<[i := c']> M)) /\
    (* and the marks *)
    (forall k u1 a1, nth_error (marks u a) k = Some (u1, a1) ->
       exists m1 w1 c1, smatch snd u1 (at_node a1) a1 /\ rsubtree (at_node a1) t /\ sresult snd u1 a1 m1 /\
         xassign_mark F (nary_impl V) al (n_assign_child_like F) x' (S k) w i = Ret () w1 /\
         consistent (nary_kind V) w1 (<[i := c1]> M) /\ nvals c1 = Some (rose_map snd m1) /\
         (forall z, z ∈ naddrs c1 -> w_heap w !! z = None) /\
         (caches (nary_kind V) w M -> caches (nary_kind V) w1 (<[i := c1]> M))).
Proof.
  intros V EV F al HFW w M i j c h t0 t u x x' Hw HF Hi Hj Hs Hp Hlone Hx Hh Hsearch.
  assert (Ht0 : nary_in (w_heap w) t0 /\ rsize t0 <= size (w_heap w)).
  { apply (to_holds F _ al _ (nary_tree_kind V EV) HFW) in Hw. pose proof (holds_rep _ _ _ _ _ _ _ _ Hw Hj) as Hrep.
    split; [exists None, None, None, (szt 0); exact Hrep|]. pose proof (holds_size _ _ _ _ _ _ _ _ Hw Hj) as Hl. cbn in Hl.
    unfold raddrs in Hl. rewrite map_length, length_preorder in Hl. exact Hl. }
  destruct Ht0 as [Ht0 Hsz]. pose proof (nary_in_sub _ _ _ Ht0 Hs) as Ht.
  assert (Hsubsz : forall s s' : rose (addr * V), rsubtree s s' -> rsize s <= rsize s') by (intros s s' Hss; apply rsubtree_plug in Hss as [cx <-]; pose proof (ctx_length_size cx s); lia).
  pose proof (Hsubsz _ _ Hs) as Hst.
  destruct (nary_facts h t Hh) as (F1 & F2 & F3).
  destruct (xsearch_core F (nary_impl V) h t u x F1 F2 F3 ltac:(lia) Hp Hx) as (b & x2 & E & Hpat & Hfound & H1 & _).
  rewrite E in Hsearch. injection Hsearch as -> ->. destruct (H1 eq_refl) as (a & Ha & Hrec). rewrite orb_true_r in Hfound.
  pose proof (smatch_at _ _ _ _ Ha) as Hat.
  assert (Hgo : forall u1 s1 a1 ns, ssolid u1 -> lone u1 -> records [u1] s1 [a1] -> smatch snd u1 (at_node a1) a1 -> rsubtree (at_node a1) t ->
    exists b h' c' m, xresult F (nary_impl V) al (n_assign_child_like F) (xbuild u1 ns) s1 (w_heap w) = Ok (Some b, h') /\ sresult snd u1 a1 m /\
      nvals c' = Some (rose_map snd m) /\ (forall z, z ∈ naddrs c' -> w_heap w !! z = None) /\
      exists w', assign F (nary_impl V) (set_heap w h') i (Some b) 0 0 = Ok w' /\ consistent (nary_kind V) w' (<[i := c']> M) /\
        (caches (nary_kind V) w M -> caches (nary_kind V) w' (<[i := c']> M))).
  { intros u1 s1 a1 ns Hu1 Hl1 Hr1 Hm1 Hs1. pose proof (Hsubsz _ _ Hs1) as Hsz1.
    destruct (nary_star_result F al u1 Hu1 Hl1 ns s1 (w_heap w) a1 Hr1 Hm1 (nary_in_sub _ _ _ Ht Hs1) ltac:(lia)) as (b & h' & c' & m & Er & Hrc & Hres & _ & Himg & Hb).
    destruct (assign_built F (nary_impl V) al (nary_kind V) (nary_tree_kind V EV) HFW w M i c (Some b) h' c' Hw HF Hi Hrc Hb) as (w' & Ea & Hw' & Hc').
    exists b, h', c', m. split; [exact Er|]. split; [exact Hres|]. split; [exact Himg|]. split; [apply Hb|]. exists w'. auto. }
  destruct (Hgo u (xp_state x') a XNil Hp Hlone Hrec ltac:(rewrite Hat; exact Ha) ltac:(rewrite Hat; constructor)) as (b & h' & c' & m & Er & Hres & Hv & Hfr & w' & Ea & Hw' & Hc').
  exists a, m, w', c'. split; [exact Ha|]. split; [exact Hres|]. split; [|split; [exact Hw'|split; [exact Hv|split; [exact Hfr|split; [exact Hc'|]]]]].
  - unfold xassign_result. rewrite Hfound, Hpat, Hx, Er. cbn [negb mbind res_bind]. rewrite Ea. reflexivity.
  - intros k u1 a1 Hk. pose proof (xcaptures_ok [u] (xp_state x') [a] Hrec) as Hf. cbn [allmarks foldr] in Hf. rewrite app_nil_r in Hf.
    assert (Hin : (u1, a1) ∈ marks u a) by (apply elem_of_list_In; eapply nth_error_In; exact Hk).
    destruct (marks_in u t a u1 a1 Ha F2 Hin) as (Hm1 & Hs1 & Hu1 & Hl1).
    assert (Hn : exists ps, nth_error (xcaptures (xbuild u XNil) (xp_state x')) k = Some ps /\ capture ps (u1, a1)).
    { clear -Hf Hk. revert k Hk. induction Hf as [|ps m1 cl ms Hps _ IH]; intros [|k] Hk; try discriminate; cbn in *; [injection Hk as <-; eauto|eauto]. }
    destruct Hn as ([p s] & Hn & ns & n & Hpu & Hmt & Hr1). cbn [fst snd] in *.
    destruct (Hgo u1 (xs_first s) a1 XNil (Hu1 Hp) (Hl1 Hlone) Hr1 Hm1 Hs1) as (b1 & h1 & c1 & m1 & Er1 & Hres1 & Hv1 & Hfr1 & w1 & Ea1 & Hw1 & Hc1).
    exists m1, w1, c1. split; [exact Hm1|]. split; [exact Hs1|]. split; [exact Hres1|]. split; [|split; [exact Hw1|split; [exact Hv1|split; [exact Hfr1|exact Hc1]]]].
    unfold xassign_mark. rewrite Hfound, Hpat, Hx. cbn [negb]. replace (S k - 1) with k by lia. rewrite Hn, Hpu.
    destruct s as [|mm cut sc sn]; [discriminate|]. cbn in Hmt. subst mm. rewrite xbuild_eq. cbn [kind_of subs]. rewrite result_cpt. cbn [xs_first foldr] in *.
    change (foldr xbuild XNil [u1]) with (xbuild u1 XNil). rewrite Er1.
    cbn [mbind res_bind]. rewrite Ea1. reflexivity.
Qed.
Print Assumptions C50_result_nary.
(** The same for a binary tree: [b] is [m] with every node in the slot, left or
    right, that it has in [t]. *)
Theorem C50_result_binary :
  forall (V : Type) (EV : EqDecision V) (F : nat) (al : allocator (bnode V)), (N.of_nat F <= W64)%N ->
  forall (w : world (bnode V)) (M : gmap tid (bin (addr * V))) (i j : tid) (c : bin (addr * V))
    (h : gmap addr (bnode V)) (t0 t : bin (addr * V)) (s : rose (addr * V)) (u : spat V) (x x' : xpattern),
  consistent (binary_kind V) w M -> size (w_heap w) < F -> M !! i = Some c -> M !! j = Some t0 -> bsubtree t t0 ->
  bin_forest t = [s] -> ssolid u -> lone u -> xp_pat x = xbuild u XNil ->
  bin_in h t -> xsearch F (binary_impl V) x h (baddr t) = Ok (true, x') ->
  exists a m b w' c', smatch snd u s a /\ sresult snd u a m /\ bin_forest b = [m] /\ cut_of b t /\
    xassign_result F (binary_impl V) al b_assign_child_like x' w i = Ret () w' /\
    consistent (binary_kind V) w' (<[i := c']> M) /\ bin_map snd c' = bin_map snd b /\
    (forall z, z ∈ baddrs c' -> w_heap w !! z = None) /\
    (caches (binary_kind V) w M -> caches (binary_kind V) w' (<[i := c']> M)) /\
    (* and the marks *)
    (forall k u1 a1, nth_error (marks u a) k = Some (u1, a1) ->
       exists m1 b1 t1 w1 c1, smatch snd u1 (at_node a1) a1 /\ bsubtree t1 t /\ bin_forest t1 = [at_node a1] /\ sresult snd u1 a1 m1 /\
         bin_forest b1 = [m1] /\ cut_of b1 t1 /\
         xassign_mark F (binary_impl V) al b_assign_child_like x' (S k) w i = Ret () w1 /\
         consistent (binary_kind V) w1 (<[i := c1]> M) /\ bin_map snd c1 = bin_map snd b1 /\
         (forall z, z ∈ baddrs c1 -> w_heap w !! z = None) /\
         (caches (binary_kind V) w M -> caches (binary_kind V) w1 (<[i := c1]> M))).
Proof.
  intros V EV F al HFW w M i j c h t0 t s u x x' Hw HF Hi Hj Hs Hts Hp Hlone Hx Hh Hsearch.
  assert (Ht0 : bin_in (w_heap w) t0 /\ length (baddrs t0) <= size (w_heap w)).
  { apply (to_holds F _ al _ (binary_tree_kind V EV) HFW) in Hw. pose proof (holds_rep _ _ _ _ _ _ _ _ Hw Hj) as Hrep.
    split; [exists None; exact Hrep|]. exact (holds_size _ _ _ _ _ _ _ _ Hw Hj). }
  destruct Ht0 as [Ht0 Hsz]. pose proof (bin_in_sub _ _ _ Ht0 Hs) as Ht.
  assert (Hst : forall t1 s1, bsubtree t1 t -> bin_forest t1 = [s1] -> rsize s1 < F).
  { intros t1 s1 H1 H2. rewrite <- (forest_size t1 s1 H2). rewrite length_baddrs in Hsz.
    assert (bin_size t1 <= bin_size t) by (clear -H1; induction H1; cbn; lia). assert (bin_size t <= bin_size t0) by (clear -Hs; induction Hs; cbn; lia). lia. }
  assert (Hroot : baddr t = Some (raddr s)) by (apply forest_root in Hts as ([a v] & l & r & -> & ->); reflexivity).
  destruct (binary_facts h t s Hh Hts) as (F1 & F2 & F3).
  destruct (xsearch_core F (binary_impl V) h s u x F1 F2 F3 (Hst _ _ (bsub_here t) Hts) Hp Hx) as (b & x2 & E & Hpat & Hfound & H1 & _).
  rewrite Hroot, E in Hsearch. injection Hsearch as -> ->. destruct (H1 eq_refl) as (a & Ha & Hrec). rewrite orb_true_r in Hfound.
  pose proof (smatch_at _ _ _ _ Ha) as Hat.
  assert (Hgo : forall u1 s1 a1 ns t1, ssolid u1 -> lone u1 -> records [u1] s1 [a1] -> smatch snd u1 (at_node a1) a1 -> bsubtree t1 t -> bin_forest t1 = [at_node a1] ->
    exists b h' c' m, xresult F (binary_impl V) al b_assign_child_like (xbuild u1 ns) s1 (w_heap w) = Ok (Some b, h') /\ sresult snd u1 a1 m /\
      bin_forest (place (left_in (w_heap w)) m) = [m] /\ cut_of (place (left_in (w_heap w)) m) t1 /\
      bin_map snd c' = bin_map snd (place (left_in (w_heap w)) m) /\ (forall z, z ∈ baddrs c' -> w_heap w !! z = None) /\
      exists w', assign F (binary_impl V) (set_heap w h') i (Some b) 0 0 = Ok w' /\ consistent (binary_kind V) w' (<[i := c']> M) /\
        (caches (binary_kind V) w M -> caches (binary_kind V) w' (<[i := c']> M))).
  { intros u1 s1 a1 ns t1 Hu1 Hl1 Hr1 Hm1 Ht1 Hf1. pose proof (bin_in_sub _ _ _ Ht Ht1) as Hin1.
    assert (Hside : sided (left_in (w_heap w)) t1) by (intros y l r Hy; eapply left_in_ok; eassumption).
    destruct (binary_star_result F al (left_in (w_heap w)) u1 Hu1 Hl1 ns s1 (w_heap w) a1 Hr1 Hm1) as (b & h' & c' & m & Er & Hrc & Hres & Htrim & [Himg _] & Hb);
      [exists t1; auto|eapply Hst; eassumption|].
    destruct (bwhole_trim _ _ _ _ _ Hin1 Hf1 Hside Htrim) as (_ & Hcut & Hpl).
    destruct (assign_built F (binary_impl V) al (binary_kind V) (binary_tree_kind V EV) HFW w M i c (Some b) h' c' Hw HF Hi Hrc Hb) as (w' & Ea & Hw' & Hc').
    exists b, h', c', m. split; [exact Er|]. split; [exact Hres|]. split; [exact Hpl|]. split; [exact Hcut|]. split; [exact Himg|]. split; [apply Hb|]. exists w'. auto. }
  destruct (Hgo u (xp_state x') a XNil t Hp Hlone Hrec ltac:(rewrite Hat; exact Ha) (bsub_here t) ltac:(rewrite Hat; exact Hts)) as (b & h' & c' & m & Er & Hres & Hpl & Hcut & Hv & Hfr & w' & Ea & Hw' & Hc').
  exists a, m, (place (left_in (w_heap w)) m), w', c'. split; [exact Ha|]. split; [exact Hres|]. split; [exact Hpl|]. split; [exact Hcut|].
  split; [|split; [exact Hw'|split; [exact Hv|split; [exact Hfr|split; [exact Hc'|]]]]].
  - unfold xassign_result. rewrite Hfound, Hpat, Hx, Er. cbn [negb mbind res_bind]. rewrite Ea. reflexivity.
  - intros k u1 a1 Hk. pose proof (xcaptures_ok [u] (xp_state x') [a] Hrec) as Hf. cbn [allmarks foldr] in Hf. rewrite app_nil_r in Hf.
    assert (Hin : (u1, a1) ∈ marks u a) by (apply elem_of_list_In; eapply nth_error_In; exact Hk).
    destruct (marks_in u s a u1 a1 Ha F2 Hin) as (Hm1 & Hs1 & Hu1 & Hl1).
    assert (Hn : exists ps, nth_error (xcaptures (xbuild u XNil) (xp_state x')) k = Some ps /\ capture ps (u1, a1)).
    { clear -Hf Hk. revert k Hk. induction Hf as [|ps m1 cl ms Hps _ IH]; intros [|k] Hk; try discriminate; cbn in *; [injection Hk as <-; eauto|eauto]. }
    destruct Hn as ([p st] & Hn & ns & n & Hpu & Hmt & Hr1). cbn [fst snd] in *.
    destruct (rsub_bsub _ _ Hs1 _ Hts) as (t1 & Ht1 & Hf1).
    destruct (Hgo u1 (xs_first st) a1 XNil t1 (Hu1 Hp) (Hl1 Hlone) Hr1 Hm1 Ht1 Hf1) as (b1 & h1 & c1 & m1 & Er1 & Hres1 & Hpl1 & Hcut1 & Hv1 & Hfr1 & w1 & Ea1 & Hw1 & Hc1).
    exists m1, (place (left_in (w_heap w)) m1), t1, w1, c1. split; [exact Hm1|]. split; [exact Ht1|]. split; [exact Hf1|]. split; [exact Hres1|]. split; [exact Hpl1|]. split; [exact Hcut1|].
    split; [|split; [exact Hw1|split; [exact Hv1|split; [exact Hfr1|exact Hc1]]]].
    unfold xassign_mark. rewrite Hfound, Hpat, Hx. cbn [negb]. replace (S k - 1) with k by lia. rewrite Hn, Hpu.
    destruct st as [|mm cut sc sn]; [discriminate|]. cbn in Hmt. subst mm. rewrite xbuild_eq. cbn [kind_of subs]. rewrite result_cpt. cbn [xs_first foldr] in *.
    change (foldr xbuild XNil [u1]) with (xbuild u1 XNil). rewrite Er1.
    cbn [mbind res_bind]. rewrite Ea1. reflexivity.
Qed.
Print Assumptions C50_result_binary.

(** There is only one tree to be reported for a match, unless the pattern has a
    [star] with the default quantifier. *)
Theorem C50_result_unique :
  forall (V : Type) (u : spat V) (t m m' : rose (addr * V)) (a : asg (addr * V)),
  definite u -> NoDup (map fst (preorder t)) -> smatch snd u t a -> sresult snd u a m -> sresult snd u a m' -> m = m'.
Proof. intros V u t m m' a Hd Hn Hm H H'. exact (sresult_fun u Hd t a m m' Hn Hm H H'). Qed.
Print Assumptions C50_result_unique.

(** A pattern that was never searched successfully has no result: the calls throw and
    change nothing. *)
Theorem C50_never_searched :
  forall (V Nd : Type) (F : nat) (im : node_impl V Nd) (al : allocator Nd) like (p : xpat V) (w : world Nd) (i : tid) (k : nat),
  xassign_result F im al like (make_xpattern p) w i = Throw w /\ xassign_mark F im al like (make_xpattern p) k w i = Throw w /\
  forall h root x', xsearch F im (make_xpattern p) h root = Ok (false, x') ->
    xassign_result F im al like x' w i = Throw w /\ xassign_mark F im al like x' k w i = Throw w.
Proof.
  intros V Nd F im al like p w i k. split; [reflexivity|]. split; [reflexivity|]. intros h root x'. unfold xsearch.
  destruct (get_instance _ _ _ _ _) as [it|]; cbn [mbind res_bind]; [|discriminate]. cbn [make_xpattern xp_pat xp_state xp_found].
  destruct (xsearch_node _ _ _ _ _ _ _ _) as [[[[b s] i'] j']|]; cbn [mbind res_bind]; [|discriminate]. intros [= -> <-]. split; reflexivity.
Qed.
Print Assumptions C50_never_searched.

(** *** Reluctant stars with several children *)
(** 0 (1 (3, 2)), and an empty tree. *)
Definition ex_two : world (nnode nat) :=
  World (ex_shp_heap 1 3) (<[1%positive := TreeRec (Some 1%positive) 0 0 (Some 1%positive)]> (<[2%positive := TreeRec None 0 0 None]> ∅)).
Definition ex_twoM : gmap tid (option (rose (addr * nat))) := <[1%positive := Some (ex_shp 1 3)]> (<[2%positive := None]> ∅).
Lemma ex_two_ok : consistent (nary_kind nat) ex_two ex_twoM.
Proof.
  apply (consistent_two (nary_kind nat) (ex_shp_heap 1 3) (Some (ex_shp 1 3)) None 0 0 0 0 [1;2;3;4]%positive).
  - split; [vm_compute; tauto|]. apply (bool_decide_unpack _). vm_compute. exact I.
  - exact I.
  - vm_compute. reflexivity.
  - reflexivity.
  - vm_compute. reflexivity.
Qed.
(** Without [lone] the reported tree need not be made of the nodes of the searched
    one: [star<RELUCTANT>(0 or 1)(one 3, one 2)] reports 0 (1 (3), 1 (2)). *)
Theorem C51_duplicates_refuted :
  exists (w : world (nnode nat)) (M : gmap tid (option (rose (addr * nat)))) (t : rose (addr * nat)) (u : spat nat) (F : nat) (x' : xpattern)
    (w' : world (nnode nat)) (r : rose (addr * nat)),
  consistent (nary_kind nat) w M /\ M !! 1%positive = Some (Some t) /\ M !! 2%positive = Some None /\ ssolid u /\ tame u /\
  xsearch F (nary_impl nat) (make_xpattern (xbuild u XNil)) (w_heap w) (Some (raddr t)) = Ok (true, x') /\
  xassign_result F (nary_impl nat) (first_fit _) (n_assign_child_like F) x' w 2%positive = Ret () w' /\
  t_root <$> w_trees w' !! 2%positive = Some (Some (raddr r)) /\ nary_in (w_heap w') r /\
  preorder (rose_map snd t) = [0; 1; 3; 2] /\ preorder (rose_map snd r) = [0; 1; 3; 1; 2].
Proof.
  exists ex_two, ex_twoM, (ex_shp 1 3), (SStar QReluctant (fun v => v <? 2) [SOne (fun v => v =? 3) []; SOne (fun v => v =? 2) []]), 100.
  pose (x' := match xsearch 100 (nary_impl nat) (make_xpattern (xbuild (SStar QReluctant (fun v => v <? 2) [SOne (fun v => v =? 3) []; SOne (fun v => v =? 2) []]) XNil)) (w_heap ex_two) (Some 1%positive)
              with Ok (_, x) => x | Err _ => make_xpattern XNil end).
  pose (w' := match xassign_result 100 (nary_impl nat) (first_fit _) (n_assign_child_like 100) x' ex_two 2%positive with Ret _ w => w | _ => ex_two end).
  exists x', w', (Rose (5%positive, 0) [Rose (7%positive, 1) [Rose (6%positive, 3) []]; Rose (9%positive, 1) [Rose (8%positive, 2) []]]).
  split; [apply ex_two_ok|]. split; [reflexivity|]. split; [reflexivity|]. split; [vm_compute; repeat split; congruence|]. split.
  { cbn. repeat split. right. right. intros c v Hc Hh. apply elem_of_cons in Hc as [->|Hc]; [|apply elem_of_list_singleton in Hc as ->]; cbn in Hh; apply Nat.eqb_eq in Hh as ->; reflexivity. }
  split; [vm_compute; reflexivity|].
  split; [unfold w'; destruct (xassign_result 100 (nary_impl nat) (first_fit _) (n_assign_child_like 100) x' ex_two 2%positive) as [[] w1|w1|e] eqn:E; [reflexivity|exfalso; vm_compute in E; discriminate..]|].
  split; [vm_compute; reflexivity|].
  split; [exists None, None, None, (szt 0); split; [vm_compute; tauto|apply (bool_decide_unpack _); vm_compute; exact I]|].
  split; reflexivity.
Qed.
Print Assumptions C51_duplicates_refuted.
(** A child that took nothing: the null pointer is dereferenced. *)
Theorem C51_null_refuted :
  exists (w : world (nnode nat)) (M : gmap tid (option (rose (addr * nat)))) (t : rose (addr * nat)) (u : spat nat),
  consistent (nary_kind nat) w M /\ M !! 1%positive = Some (Some t) /\ M !! 2%positive = Some None /\
  forall F, 20 <= F -> exists x', xsearch F (nary_impl nat) (make_xpattern (xbuild u XNil)) (w_heap w) (Some (raddr t)) = Ok (true, x') /\
    xassign_result F (nary_impl nat) (first_fit _) (n_assign_child_like F) x' w 2%positive = Bad NullDeref.
Proof.
  exists ex_two, ex_twoM, (ex_shp 1 3), (SStar QReluctant (fun v => v <? 2) [SOne (fun v => v =? 2) []; SOpt QDefault (fun v => v =? 9) []]).
  split; [apply ex_two_ok|]. split; [reflexivity|]. split; [reflexivity|].
  intros F HF. destruct (Nat.le_exists_sub 20 F HF) as (n & -> & _). rewrite Nat.add_comm. eexists. split; [vm_compute; reflexivity|]. vm_compute. reflexivity.
Qed.
Print Assumptions C51_null_refuted.

(** *** Cases met *)
(** [star<q>(less than 40)(cpt(one 60))] in 10 (20, 30 (50, 60), 40): the greedy
    one reports 10 (20, 30 (60)), the reluctant one 10 (30 (60)). *)
Definition ex_down (q : quantifier) : spat nat := SStar q (fun v => v <? 40) [SCpt (SOne (fun v => v =? 60) [])].
Definition ex_down_at : asg (addr * nat) :=
  let l := Rose (6%positive, 60) [] in Asg ex_nary [Asg l [Asg l []]].
Example ex_down_results :
  smatch snd (ex_down QGreedy) ex_nary ex_down_at /\ smatch snd (ex_down QReluctant) ex_nary ex_down_at /\
  sresult snd (ex_down QGreedy) ex_down_at (Rose (1%positive, 10) [Rose (2%positive, 20) []; Rose (3%positive, 30) [Rose (6%positive, 60) []]]) /\
  sresult snd (ex_down QReluctant) ex_down_at (Rose (1%positive, 10) [Rose (3%positive, 30) [Rose (6%positive, 60) []]]).
Proof.
  assert (Hm : forall q, q <> QPossessive -> smatch snd (ex_down q) ex_nary ex_down_at).
  { intros q Hq. apply S_star; [reflexivity|exact Hq|]. apply W_skip. cbn. apply W_skip. cbn. apply W_skip. cbn.
    apply W_take; [apply S_cpt; constructor; [reflexivity|constructor]|constructor]. }
  split; [apply Hm; discriminate|]. split; [apply Hm; discriminate|].
  assert (Hs : sresults snd [SCpt (SOne (fun v => v =? 60) [])] [Asg (Rose (6%positive, 60) []) [Asg (Rose (6%positive, 60) []) []]] [Rose (6%positive, 60) []]).
  { constructor; [|constructor]. apply SR_cpt. constructor. constructor. }
  assert (Hno : forall (x : addr * nat) cs, fst x <> 6%positive -> ~ taken (combine (map at_node [Asg (Rose (6%positive, 60) []) [Asg (Rose (6%positive, 60) []) []]]) [Rose (6%positive, 60) []]) (Rose x cs)).
  { intros x cs Hx (m & Hin). cbn in Hin. apply elem_of_list_singleton in Hin. injection Hin as -> _ _. cbn in Hx. congruence. }
  assert (Hw : forall (x : addr * nat) cs, (6%positive, 60) ∉ preorder (Rose x cs) -> ~ way (combine (map at_node [Asg (Rose (6%positive, 60) []) [Asg (Rose (6%positive, 60) []) []]]) [Rose (6%positive, 60) []]) (Rose x cs)).
  { intros x cs Hx (s & m & Hin & Hl). cbn in Hin. apply elem_of_list_singleton in Hin. injection Hin as -> _. exact (Hx Hl). }
  assert (Hnot : forall (x : addr * nat), fst x <> 6%positive -> (6%positive, 60) ∉ preorder (Rose x [])).
  { intros x Hx Hin. cbn in Hin. apply elem_of_list_singleton in Hin. subst x. apply Hx. reflexivity. }
  split; (eapply SR_star; [intros a Ha; apply elem_of_list_singleton in Ha as ->; discriminate|exact Hs|]).
  - apply F_keep; [apply Hno; discriminate|reflexivity|discriminate|constructor|].
    apply F_keep; [apply Hno; discriminate|reflexivity|discriminate| |].
    + apply F_drop; [apply Hno; discriminate|apply Hw, Hnot; discriminate|discriminate|]. apply F_taken; [left|constructor].
    + apply F_drop; [apply Hno; discriminate|apply Hw, Hnot; discriminate|discriminate|constructor].
  - apply F_drop; [apply Hno; discriminate|apply Hw, Hnot; discriminate|split; discriminate|].
    apply F_keep; [apply Hno; discriminate|reflexivity| | |].
    + intros _. eexists _, _. split; [left|]. cbn. set_solver.
    + apply F_drop; [apply Hno; discriminate|apply Hw, Hnot; discriminate|discriminate|]. apply F_taken; [left|constructor].
    + apply F_drop; [apply Hno; discriminate|apply Hw, Hnot; discriminate|discriminate|constructor].
Qed.
Example C50_used_nary : forall q, q = QGreedy \/ q = QReluctant -> ssolid (ex_down q) /\ lone (ex_down q) /\ definite (ex_down q) /\
  exists a m w' c', smatch snd (ex_down q) ex_nary a /\ sresult snd (ex_down q) a m /\
  xassign_result 100 (nary_impl nat) (first_fit _) (n_assign_child_like 100)
    (match xsearch 100 (nary_impl nat) (make_xpattern (xbuild (ex_down q) XNil)) ex_nheap (Some 1%positive) with Ok (_, x) => x | Err _ => make_xpattern XNil end) ex_nw 2%positive = Ret () w' /\
  consistent (nary_kind nat) w' (<[2%positive := c']> ex_nM) /\ nvals c' = Some (rose_map snd m).
Proof.
  intros q Hq.
  destruct (xsearch 100 (nary_impl nat) (make_xpattern (xbuild (ex_down q) XNil)) ex_nheap (Some 1%positive)) as [[b x]|] eqn:E; [|destruct Hq as [-> | ->]; vm_compute in E; discriminate].
  assert (b = true) as -> by (destruct Hq as [-> | ->]; vm_compute in E; congruence).
  assert (Hs : ssolid (ex_down q)) by (vm_compute; repeat split; congruence).
  assert (Hl : lone (ex_down q)) by (cbn; repeat split; lia).
  split; [exact Hs|]. split; [exact Hl|]. split; [destruct Hq as [-> | ->]; vm_compute; repeat split; congruence|].
  destruct (C50_result_nary nat _ 100 (first_fit _) ex_word ex_nw ex_nM 2%positive 1%positive (Some (Rose (7%positive, 70) [])) ex_nheap ex_nary ex_nary (ex_down q)
    (make_xpattern (xbuild (ex_down q) XNil)) x ex_nw_ok ltac:(pose proof ex_fuel; lia) eq_refl eq_refl (rsub_here _) Hs Hl eq_refl ex_nary_in E)
    as (a & m & w' & c' & Hm & Hr & Ha & Hw & Hv & _).
  exists a, m, w', c'. auto.
Qed.
Example C50_used_binary : exists a m b w' c', smatch snd (SStar QPossessive (fun v => v <? 40) [SCpt (SOne (fun v => v =? 40) [])]) (Rose (1%positive, 10) (bin_forest ex_bsub ++ [Rose (3%positive, 30) []])) a /\
  bin_forest b = [m] /\ cut_of b ex_bin /\
  xassign_result 100 (binary_impl nat) (first_fit _) b_assign_child_like
    (match xsearch 100 (binary_impl nat) (make_xpattern (xbuild (SStar QPossessive (fun v => v <? 40) [SCpt (SOne (fun v => v =? 40) [])]) XNil)) ex_bheap (Some 1%positive) with Ok (_, x) => x | Err _ => make_xpattern XNil end) ex_bw 2%positive = Ret () w' /\
  consistent (binary_kind nat) w' (<[2%positive := c']> ex_bM) /\ bin_map snd c' = bin_map snd b.
Proof.
  set (u := SStar QPossessive (fun v => v <? 40) [SCpt (SOne (fun v => v =? 40) [])]).
  destruct (xsearch 100 (binary_impl nat) (make_xpattern (xbuild u XNil)) ex_bheap (Some 1%positive)) as [[b0 x]|] eqn:E; [|vm_compute in E; discriminate].
  assert (b0 = true) as -> by (vm_compute in E; congruence).
  destruct (C50_result_binary nat _ 100 (first_fit _) ex_word ex_bw ex_bM 2%positive 1%positive (BNode (7%positive, 70) BLeaf BLeaf) ex_bheap ex_bin ex_bin
    (Rose (1%positive, 10) (bin_forest ex_bsub ++ [Rose (3%positive, 30) []])) u
    (make_xpattern (xbuild u XNil)) x ex_bw_ok ltac:(pose proof ex_fuel; lia) eq_refl eq_refl (bsub_here _) eq_refl ltac:(vm_compute; repeat split; congruence)
    ltac:(vm_compute; repeat split; congruence) eq_refl ex_bin_in E)
    as (a & m & b & w' & c' & Hm & Hr & Hf & Hc & Ha & Hw & Hv & _).
  exists a, m, b, w', c'. auto 7.
Qed.
