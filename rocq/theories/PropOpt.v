(** PropOpt.v: patterns with optional nodes (C44).

    [matches snd u t m] (OptSpec.v) says that the pattern [u] matches the tree [t]
    at the root, taking the nodes [m]; [best snd u t m l] that [m] is the match to
    be reported, with captures [l].  [solid u]: every [opt] is given children;
    PropMatch.v has the patterns without [opt], PropWeak.v those with a childless
    one. *)
From Verif Require Import Base Spec MatchSpec StructNode BinaryNode NaryNode Nav Policy Tree Rep RoseFacts NavFacts
  BinRep NaryRep Iter IterTrees IterMain NodeFacts EditSpec User World Kinds TreeSpec TreeOps TreeBin TreeNary TreeFacts
  Matcher OptSpec MatchUser MatchFacts MatchWalk MatchResult MatchKinds MatchBin MatchCaps MatchMain Examples Examples2.

(** The search ends, with success exactly if the pattern matches at the root;
    whatever was searched before with the same pattern object [x]. *)
Theorem C44_search_nary :
  forall (V : Type) (EV : EqDecision V) (F : nat) (h : gmap addr (nnode V)) (t : rose (addr * V)) (u : upat V) (x : pattern),
  nary_in h t -> rsize t < F -> solid u -> p_pat x = build u PNil ->
  exists b x', search F (nary_impl V) x h (Some (raddr t)) = Ok (b, x') /\
    (b = true <-> exists m, matches snd u t m).
Proof.
  intros V EV F h t u x Ht HF Hp Hx.
  destruct (search_core F (nary_impl V) h u x _ [t] Hp Hx (nary_walks F h t Ht HF)) as (b & x' & E & _ & _ & H1 & H2); [cbn; lia|].
  exists b, x'. split; [exact E|]. split.
  - intros ->. destruct (H1 eq_refl) as (t' & m & l & [= <-] & Hl & _). exists m. eapply best_matches, Hl.
  - intros [m Ho]. destruct b; [reflexivity|]. destruct (H2 eq_refl) as [_ Hno]. destruct (Hno t m eq_refl Ho).
Qed.
Print Assumptions C44_search_nary.
Theorem C44_search_binary :
  forall (V : Type) (EV : EqDecision V) (F : nat) (h : gmap addr (bnode V)) (t : bin (addr * V)) (s : rose (addr * V)) (u : upat V) (x : pattern),
  bin_in h t -> bin_forest t = [s] -> rsize s < F -> solid u -> p_pat x = build u PNil ->
  exists b x', search F (binary_impl V) x h (baddr t) = Ok (b, x') /\
    (b = true <-> exists m, matches snd u s m).
Proof.
  intros V EV F h t s u x Ht Hs HF Hp Hx.
  destruct (search_core F (binary_impl V) h u x _ [s] Hp Hx (binary_walks F h t s Ht Hs HF)) as (b & x' & E & _ & _ & H1 & H2); [cbn; lia|].
  assert (Hr : baddr t = Some (raddr s)) by (destruct t as [|[a v] l r]; [discriminate|]; cbn in Hs; injection Hs as <-; reflexivity).
  rewrite Hr. exists b, x'. split; [exact E|]. split.
  - intros ->. destruct (H1 eq_refl) as (t' & m & l & [= <-] & Hl & _). exists m. eapply best_matches, Hl.
  - intros [m Ho]. destruct b; [reflexivity|]. destruct (H2 eq_refl) as [_ Hno]. destruct (Hno s m eq_refl Ho).
Qed.
Print Assumptions C44_search_binary.
(** In an empty tree nothing is found. *)
Theorem C44_search_empty :
  forall (V : Type) (EV : EqDecision V) (Nd : Type) (im : node_impl V Nd) (F : nat) (h : gmap addr Nd) (u : upat V) (x : pattern),
  0 < F -> solid u -> p_pat x = build u PNil -> exists x', search F im x h None = Ok (false, x').
Proof.
  intros V EV Nd im F h u x HF Hp Hx.
  destruct (search_core F im h u x None [] Hp Hx) as (b & x' & E & _ & _ & H1 & _); [apply Walks_end; [reflexivity|exact HF]|cbn; lia|].
  exists x'. rewrite E. destruct b; [|reflexivity]. destruct (H1 eq_refl) as (t & m & l & Hf & _). discriminate.
Qed.
Print Assumptions C44_search_empty.
(** There is only one match to be reported, and it is a match. *)
Theorem C44_best_unique :
  forall (V A : Type) (val : A -> V) (u : upat V) (t m m' : rose A) (l l' : list (rose A)),
  best val u t m l -> best val u t m' l' -> (m' = m /\ l' = l) /\ matches val u t m.
Proof.
  intros V A val u t m m' l l' H H'. split; [eapply best_unique; eassumption|eapply best_matches, H].
Qed.
Print Assumptions C44_best_unique.
(** A successful search in [t], the tree object [j] or a subtree of it, and
    assign_result to the tree object [i] (possibly [j] itself), at any later time
    as long as [j] is unchanged: [i] holds the values of the match, in new nodes;
    its old nodes were released; every other tree is unchanged.  The same for the
    marks. *)
Theorem C44_result_nary :
  forall (V : Type) (EV : EqDecision V) (F : nat) (al : allocator (nnode V)), (N.of_nat F <= W64)%N ->
  forall (w : world (nnode V)) (M : gmap tid (option (rose (addr * V)))) (i j : tid) (c : option (rose (addr * V)))
    (h : gmap addr (nnode V)) (t0 t : rose (addr * V)) (u : upat V) (x x' : pattern),
  consistent (nary_kind V) w M -> size (w_heap w) < F -> M !! i = Some c -> M !! j = Some (Some t0) -> rsubtree t t0 ->
  solid u -> p_pat x = build u PNil ->
  nary_in h t -> search F (nary_impl V) x h (Some (raddr t)) = Ok (true, x') ->
  exists m l w' c', best snd u t m l /\
    assign_result F (nary_impl V) al (n_assign_child_like F) x' w i = Ret () w' /\
    consistent (nary_kind V) w' (<[i := c']> M) /\ nvals c' = Some (rose_map snd m) /\
    (forall a, a ∈ naddrs c' -> w_heap w !! a = None) /\
    (caches (nary_kind V) w M -> caches (nary_kind V) w' (<[i := c']> M)) /\
    (* and the marks *)
    (forall k m', nth_error l k = Some m' ->
       exists w1 c1, assign_mark F (nary_impl V) al (n_assign_child_like F) x' (S k) w i = Ret () w1 /\
         consistent (nary_kind V) w1 (<[i := c1]> M) /\ nvals c1 = Some (rose_map snd m') /\
         (forall a, a ∈ naddrs c1 -> w_heap w !! a = None) /\
         (caches (nary_kind V) w M -> caches (nary_kind V) w1 (<[i := c1]> M))).
Proof.
  intros V EV F al HFW w M i j c h t0 t u x x' Hw HF Hi Hj Hs Hp Hx Hh Hsearch.
  assert (Ht0 : nary_in (w_heap w) t0 /\ rsize t0 <= size (w_heap w)).
  { apply (to_holds F _ al _ (nary_tree_kind V EV) HFW) in Hw. pose proof (holds_rep _ _ _ _ _ _ _ _ Hw Hj) as Hrep.
    split; [exists None, None, None, (szt 0); exact Hrep|]. pose proof (holds_size _ _ _ _ _ _ _ _ Hw Hj) as Hl. cbn in Hl.
    unfold raddrs in Hl. rewrite map_length, length_preorder in Hl. exact Hl. }
  destruct Ht0 as [Ht0 Hsz]. pose proof (nary_in_sub _ _ _ Ht0 Hs) as Ht.
  assert (Hst : rsize t <= rsize t0) by (apply rsubtree_plug in Hs as [cx <-]; pose proof (ctx_length_size cx t); lia).
  destruct (search_core F (nary_impl V) h u x _ [t] Hp Hx (nary_walks F h t Hh ltac:(lia))) as (b & x2 & E & Hpat & Hfound & H1 & _); [cbn; lia|].
  rewrite E in Hsearch. injection Hsearch as -> ->. destruct (H1 eq_refl) as (t' & m & l & [= <-] & Hl & Hd).
  pose proof (matches_occurs _ _ _ _ (best_matches _ _ _ _ _ Hl)) as Ho.
  assert (Hsrc : nsrc (w_heap w) m).
  { intros y Hy. apply (occurs_in _ _ _ _ Ho) in Hy. destruct Ht as (par & prev & next & fs & Hr & _). eapply nrep_value; eassumption. }
  assert (Hms : rsize m <= F) by (pose proof (occurs_size _ _ _ _ Ho); lia).
  rewrite orb_true_r in Hfound.
  destruct (nary_result F al [u] ltac:(repeat constructor; exact Hp) (p_state x') (w_heap w) m [] l Hd Hsrc Hms) as (a & h' & c' & Er & Hrc & Himg & Hb).
  destruct (assign_built F (nary_impl V) al (nary_kind V) (nary_tree_kind V EV) HFW w M i c (Some a) h' c' Hw HF Hi Hrc Hb) as (w' & Ea & Hw' & Hc').
  exists m, l, w', c'. split; [exact Hl|]. split; [|split; [exact Hw'|split; [exact Himg|split; [apply Hb|split; [exact Hc'|]]]]].
  - unfold assign_result. rewrite Hfound, Hpat. cbn [foldr] in Er. rewrite Er. cbn [negb mbind res_bind]. rewrite Ea. reflexivity.
  - intros k m' Hk. pose proof (captures_ok (chain [u]) [u] eq_refl ltac:(repeat constructor; exact Hp) (p_state x') [m] l Hd) as Hf.
    assert (Hm' : m' ∈ l) by (apply elem_of_list_In; eapply nth_error_In; exact Hk).
    apply (best_sub _ _ _ _ _ Hl) in Hm'.
    assert (Hn : exists ps, nth_error (captures (chain [u]) (p_state x')) k = Some ps /\ capt ps m').
    { clear -Hf Hk. revert k Hk. induction Hf as [|ps m1 cl ms Hps _ IH]; intros [|k] Hk; try discriminate; cbn in *; [injection Hk as <-; eauto|eauto]. }
    destruct Hn as ([p s] & Hn & us & ms & ls & Hpu & Hpl & Hds).
    assert (Hsrc' : nsrc (w_heap w) m').
    { intros y Hy. apply Hsrc. apply rsubtree_plug in Hm' as [cx <-]. rewrite preorder_plug. set_solver +Hy. }
    assert (Hms' : rsize m' <= F) by (apply rsubtree_plug in Hm' as [cx <-]; pose proof (ctx_length_size cx m'); lia).
    destruct (nary_result F al us Hpl s (w_heap w) m' ms ls Hds Hsrc' Hms') as (a1 & h1 & c1 & Er1 & Hrc1 & Himg1 & Hb1).
    destruct (assign_built F (nary_impl V) al (nary_kind V) (nary_tree_kind V EV) HFW w M i c (Some a1) h1 c1 Hw HF Hi Hrc1 Hb1) as (w1 & Ea1 & Hw1 & Hc1).
    exists w1, c1. split; [|split; [exact Hw1|split; [exact Himg1|split; [apply Hb1|exact Hc1]]]].
    unfold assign_mark. rewrite Hfound, Hpat. cbn [negb]. replace (S k - 1) with k by lia. change (build u PNil) with (chain [u]). rewrite Hn. cbn in Hpu. rewrite Hpu, Er1.
    cbn [mbind res_bind]. rewrite Ea1. reflexivity.
Qed.
Print Assumptions C44_result_nary.
(** The same for a binary tree: [b] is the match [m] with every node in the
    slot, left or right, that it has in [t]. *)
Theorem C44_result_binary :
  forall (V : Type) (EV : EqDecision V) (F : nat) (al : allocator (bnode V)), (N.of_nat F <= W64)%N ->
  forall (w : world (bnode V)) (M : gmap tid (bin (addr * V))) (i j : tid) (c : bin (addr * V))
    (h : gmap addr (bnode V)) (t0 t : bin (addr * V)) (s : rose (addr * V)) (u : upat V) (x x' : pattern),
  consistent (binary_kind V) w M -> size (w_heap w) < F -> M !! i = Some c -> M !! j = Some t0 -> bsubtree t t0 ->
  bin_forest t = [s] -> solid u -> p_pat x = build u PNil ->
  bin_in h t -> search F (binary_impl V) x h (baddr t) = Ok (true, x') ->
  exists m l b w' c', best snd u s m l /\ bin_forest b = [m] /\ cut_of b t /\
    assign_result F (binary_impl V) al b_assign_child_like x' w i = Ret () w' /\
    consistent (binary_kind V) w' (<[i := c']> M) /\ bin_map snd c' = bin_map snd b /\
    (forall a, a ∈ baddrs c' -> w_heap w !! a = None) /\
    (caches (binary_kind V) w M -> caches (binary_kind V) w' (<[i := c']> M)) /\
    (* and the marks *)
    (forall k m', nth_error l k = Some m' ->
       exists b1 t1 w1 c1, bsubtree t1 t /\ bin_forest b1 = [m'] /\ cut_of b1 t1 /\
         assign_mark F (binary_impl V) al b_assign_child_like x' (S k) w i = Ret () w1 /\
         consistent (binary_kind V) w1 (<[i := c1]> M) /\ bin_map snd c1 = bin_map snd b1 /\
         (forall a, a ∈ baddrs c1 -> w_heap w !! a = None) /\
         (caches (binary_kind V) w M -> caches (binary_kind V) w1 (<[i := c1]> M))).
Proof.
  intros V EV F al HFW w M i j c h t0 t s u x x' Hw HF Hi Hj Hs Hts Hp Hx Hh Hsearch.
  assert (Ht0 : bin_in (w_heap w) t0 /\ length (baddrs t0) <= size (w_heap w)).
  { apply (to_holds F _ al _ (binary_tree_kind V EV) HFW) in Hw. pose proof (holds_rep _ _ _ _ _ _ _ _ Hw Hj) as Hrep.
    split; [exists None; exact Hrep|]. exact (holds_size _ _ _ _ _ _ _ _ Hw Hj). }
  destruct Ht0 as [Ht0 Hsz]. pose proof (bin_in_sub _ _ _ Ht0 Hs) as Ht.
  assert (Hbs : forall y : bin (addr * V), length (baddrs y) = bin_size y) by (apply length_baddrs).
  assert (Hst : rsize s <= length (baddrs t0)).
  { rewrite Hbs. transitivity (bin_size t); [|clear -Hs; induction Hs; cbn; lia].
    rewrite <- Hbs. unfold baddrs. rewrite map_length, <- forest_labels, Hts. cbn. rewrite app_nil_r, length_preorder. lia. }
  assert (Hroot : baddr t = Some (raddr s)) by (apply forest_root in Hts as ([a v] & l & r & -> & ->); reflexivity).
  destruct (search_core F (binary_impl V) h u x _ [s] Hp Hx (binary_walks F h t s Hh Hts ltac:(lia))) as (b & x2 & E & Hpat & Hfound & H1 & _); [cbn; lia|].
  rewrite Hroot, E in Hsearch. injection Hsearch as -> ->. destruct (H1 eq_refl) as (t' & m & l & [= <-] & Hl & Hd).
  pose proof (matches_occurs _ _ _ _ (best_matches _ _ _ _ _ Hl)) as Ho.
  assert (Hms : rsize m <= F) by (pose proof (occurs_size _ _ _ _ Ho); lia).
  rewrite orb_true_r in Hfound.
  assert (Hsub : forall m' p' t' t1, occurs snd p' t' m' -> bsubtree t1 t -> bin_forest t1 = [t'] ->
    bsrc (left_in (w_heap w)) (w_heap w) m' /\ cut_of (place (left_in (w_heap w)) m') t1 /\ bin_forest (place (left_in (w_heap w)) m') = [m']).
  { intros m' p' t' t1 Hom Ht1 Hf1. destruct (bin_in_sub _ _ _ Ht Ht1) as (par & Hr & Hnd). eapply bin_occurs; [exact Hr| |exact Hf1|exact Hom].
    exact Hnd. }
  destruct (Hsub m _ s t Ho (bsub_here t) Hts) as (Hsrc & Hcut & Hpl).
  destruct (binary_result F al (left_in (w_heap w)) [u] ltac:(repeat constructor; exact Hp) (p_state x') (w_heap w) m [] l Hd Hsrc Hms) as (a & h' & c' & Er & Hrc & [Himg _] & Hb).
  destruct (assign_built F (binary_impl V) al (binary_kind V) (binary_tree_kind V EV) HFW w M i c (Some a) h' c' Hw HF Hi Hrc Hb) as (w' & Ea & Hw' & Hc').
  exists m, l, (place (left_in (w_heap w)) m), w', c'. split; [exact Hl|]. split; [exact Hpl|]. split; [exact Hcut|].
  split; [|split; [exact Hw'|split; [exact Himg|split; [apply Hb|split; [exact Hc'|]]]]].
  - unfold assign_result. rewrite Hfound, Hpat. cbn [foldr] in Er. rewrite Er. cbn [negb mbind res_bind]. rewrite Ea. reflexivity.
  - intros k m' Hk. pose proof (captures_ok (chain [u]) [u] eq_refl ltac:(repeat constructor; exact Hp) (p_state x') [m] l Hd) as Hf.
    assert (Hm' : m' ∈ l) by (apply elem_of_list_In; eapply nth_error_In; exact Hk).
    apply (best_sub _ _ _ _ _ Hl) in Hm'.
    assert (Hn : exists ps, nth_error (captures (chain [u]) (p_state x')) k = Some ps /\ capt ps m').
    { clear -Hf Hk. revert k Hk. induction Hf as [|ps m1 cl ms Hps _ IH]; intros [|k] Hk; try discriminate; cbn in *; [injection Hk as <-; eauto|eauto]. }
    destruct Hn as ([p s1] & Hn & us & ms & ls & Hpu & Hpl1 & Hds).
    destruct (occurs_sub _ _ _ Hm' _ _ Ho) as (p' & t' & Hst' & Ho').
    destruct (rsub_bsub _ _ Hst' _ Hts) as (t1 & Ht1 & Hf1).
    destruct (Hsub m' _ t' t1 Ho' Ht1 Hf1) as (Hsrc' & Hcut' & Hplace').
    assert (Hms' : rsize m' <= F) by (apply rsubtree_plug in Hm' as [cx <-]; pose proof (ctx_length_size cx m'); lia).
    destruct (binary_result F al (left_in (w_heap w)) us Hpl1 s1 (w_heap w) m' ms ls Hds Hsrc' Hms') as (a1 & h1 & c1 & Er1 & Hrc1 & [Himg1 _] & Hb1).
    destruct (assign_built F (binary_impl V) al (binary_kind V) (binary_tree_kind V EV) HFW w M i c (Some a1) h1 c1 Hw HF Hi Hrc1 Hb1) as (w1 & Ea1 & Hw1 & Hc1).
    exists (place (left_in (w_heap w)) m'), t1, w1, c1. split; [exact Ht1|]. split; [exact Hplace'|]. split; [exact Hcut'|].
    split; [|split; [exact Hw1|split; [exact Himg1|split; [apply Hb1|exact Hc1]]]].
    unfold assign_mark. rewrite Hfound, Hpat. cbn [negb]. replace (S k - 1) with k by lia. change (build u PNil) with (chain [u]). rewrite Hn. cbn in Hpu. rewrite Hpu, Er1.
    cbn [mbind res_bind]. rewrite Ea1. reflexivity.
Qed.
Print Assumptions C44_result_binary.
(** The result of a search that failed (with a pattern object that had succeeded
    before) is the empty tree. *)
Theorem C44_failed_nary :
  forall (V : Type) (EV : EqDecision V) (F : nat) (al : allocator (nnode V)), (N.of_nat F <= W64)%N ->
  forall (w : world (nnode V)) (M : gmap tid (option (rose (addr * V)))) (i : tid) (c : option (rose (addr * V)))
    (h : gmap addr (nnode V)) (t : rose (addr * V)) (u : upat V) (x x' : pattern),
  consistent (nary_kind V) w M -> size (w_heap w) < F -> M !! i = Some c -> solid u -> p_pat x = build u PNil -> p_found x = true ->
  nary_in h t -> rsize t < F -> search F (nary_impl V) x h (Some (raddr t)) = Ok (false, x') ->
  exists w', assign_result F (nary_impl V) al (n_assign_child_like F) x' w i = Ret () w' /\
    consistent (nary_kind V) w' (<[i := None]> M).
Proof.
  intros V EV F al HFW w M i c h t u x x' Hw HF Hi Hp Hx Hf Ht Hsz Hs.
  destruct (search_core F (nary_impl V) h u x _ [t] Hp Hx (nary_walks F h t Ht Hsz)) as (b & x2 & E & Hpat & Hfound & _ & H2); [cbn; lia|].
  rewrite E in Hs. injection Hs as -> ->. destruct (H2 eq_refl) as [Hn _]. rewrite Hf in Hfound.
  destruct (assign_none F (nary_impl V) al (nary_kind V) (nary_tree_kind V EV) HFW w M i c Hw HF Hi) as (w' & Ea & Hw' & _).
  exists w'. split; [|exact Hw']. unfold assign_result. rewrite Hfound, Hpat, (result_null F (nary_impl V) al _ _ _ _ Hn). cbn [negb orb mbind res_bind].
  rewrite Ea. reflexivity.
Qed.
Print Assumptions C44_failed_nary.
Theorem C44_failed_binary :
  forall (V : Type) (EV : EqDecision V) (F : nat) (al : allocator (bnode V)), (N.of_nat F <= W64)%N ->
  forall (w : world (bnode V)) (M : gmap tid (bin (addr * V))) (i : tid) (c : bin (addr * V))
    (h : gmap addr (bnode V)) (t : bin (addr * V)) (s : rose (addr * V)) (u : upat V) (x x' : pattern),
  consistent (binary_kind V) w M -> size (w_heap w) < F -> M !! i = Some c -> solid u -> p_pat x = build u PNil -> p_found x = true ->
  bin_in h t -> bin_forest t = [s] -> rsize s < F -> search F (binary_impl V) x h (baddr t) = Ok (false, x') ->
  exists w', assign_result F (binary_impl V) al b_assign_child_like x' w i = Ret () w' /\
    consistent (binary_kind V) w' (<[i := BLeaf]> M).
Proof.
  intros V EV F al HFW w M i c h t s u x x' Hw HF Hi Hp Hx Hf Ht Hts Hsz Hs.
  destruct (search_core F (binary_impl V) h u x _ [s] Hp Hx (binary_walks F h t s Ht Hts Hsz)) as (b & x2 & E & Hpat & Hfound & _ & H2); [cbn; lia|].
  assert (Hroot : baddr t = Some (raddr s)) by (apply forest_root in Hts as ([a v] & l & r & -> & ->); reflexivity).
  rewrite Hroot, E in Hs. injection Hs as -> ->. destruct (H2 eq_refl) as [Hn _]. rewrite Hf in Hfound.
  destruct (assign_none F (binary_impl V) al (binary_kind V) (binary_tree_kind V EV) HFW w M i c Hw HF Hi) as (w' & Ea & Hw' & _).
  exists w'. split; [|exact Hw']. unfold assign_result. rewrite Hfound, Hpat, (result_null F (binary_impl V) al _ _ _ _ Hn). cbn [negb orb mbind res_bind].
  rewrite Ea. reflexivity.
Qed.
Print Assumptions C44_failed_binary.

(** *** Cases met *)
(** [opt(99)(one(20))]: absent; [cpt(opt(30)(one(60)))]: present. *)
Definition ex_opt : upat nat :=
  UOne (fun v => v =? 10) [UOpt QDefault (fun v => v =? 99) [UOne (fun v => v =? 20) []];
                           UCpt (UOpt QPossessive (fun v => v =? 30) [UOne (fun v => v =? 60) []])].
Definition ex_opt_match : rose (addr * nat) := Rose (1%positive, 10) [Rose (2%positive, 20) []; Rose (3%positive, 30) [Rose (6%positive, 60) []]].
Example ex_opt_best : best snd ex_opt ex_nary ex_opt_match [Rose (3%positive, 30) [Rose (6%positive, 60) []]].
Proof.
  constructor; [reflexivity|]. apply (Bs_take _ _ _ _ _ _ _ [] [Rose (3%positive, 30) [Rose (6%positive, 60) []]]).
  - apply B_absent; [discriminate|]. constructor; [reflexivity|constructor].
  - apply (Bs_take _ _ _ _ _ _ _ [Rose (3%positive, 30) [Rose (6%positive, 60) []]] []); [|constructor]. apply B_cpt. apply B_opt; [reflexivity|].
    apply Bs_skip; [intros ? H; inversion H; discriminate|].
    apply (Bs_take _ _ _ _ _ _ _ [] []); [|constructor]. constructor; [reflexivity|constructor].
Qed.
Example C44_used_nary : exists w' c',
  assign_result 100 (nary_impl nat) (first_fit _) (n_assign_child_like 100)
    (match search 100 (nary_impl nat) (make_pattern (build ex_opt PNil)) ex_nheap (Some 1%positive) with Ok (_, x) => x | Err _ => make_pattern PNil end) ex_nw 2%positive = Ret () w' /\
  consistent (nary_kind nat) w' (<[2%positive := c']> ex_nM) /\ nvals c' = Some (Rose 10 [Rose 20 []; Rose 30 [Rose 60 []]]) /\
  solid ex_opt /\ ~ plain ex_opt.
Proof.
  destruct (search 100 (nary_impl nat) (make_pattern (build ex_opt PNil)) ex_nheap (Some 1%positive)) as [[b x]|] eqn:E; [|vm_compute in E; discriminate].
  assert (b = true) as -> by (vm_compute in E; congruence).
  assert (Hs : solid ex_opt) by (vm_compute; repeat split; congruence).
  destruct (C44_result_nary nat _ 100 (first_fit _) ex_word ex_nw ex_nM 2%positive 1%positive (Some (Rose (7%positive, 70) [])) ex_nheap ex_nary ex_nary ex_opt
    (make_pattern (build ex_opt PNil)) x ex_nw_ok ltac:(pose proof ex_fuel; lia) eq_refl eq_refl (rsub_here _) Hs eq_refl ex_nary_in E)
    as (m & l & w' & c' & Hl & Ha & Hw & Hv & _).
  destruct (best_unique _ _ _ _ _ ex_opt_best _ _ Hl) as [-> ->].
  exists w', c'. split; [exact Ha|]. split; [exact Hw|]. split; [exact Hv|]. split; [exact Hs|vm_compute; tauto].
Qed.
Definition ex_bopt : upat nat := UOne (fun v => v =? 10) [UOpt QDefault (fun v => v =? 20) [UCpt (UOne (fun v => v =? 40) [])]].
Example C44_used_binary : exists m l b w' c', best snd ex_bopt (Rose (1%positive, 10) (bin_forest ex_bsub ++ [Rose (3%positive, 30) []])) m l /\
  bin_forest b = [m] /\ cut_of b ex_bin /\
  assign_result 100 (binary_impl nat) (first_fit _) b_assign_child_like
    (match search 100 (binary_impl nat) (make_pattern (build ex_bopt PNil)) ex_bheap (Some 1%positive) with Ok (_, x) => x | Err _ => make_pattern PNil end) ex_bw 2%positive = Ret () w' /\
  consistent (binary_kind nat) w' (<[2%positive := c']> ex_bM) /\ bin_map snd c' = bin_map snd b.
Proof.
  destruct (search 100 (binary_impl nat) (make_pattern (build ex_bopt PNil)) ex_bheap (Some 1%positive)) as [[b0 x]|] eqn:E; [|vm_compute in E; discriminate].
  assert (b0 = true) as -> by (vm_compute in E; congruence).
  destruct (C44_result_binary nat _ 100 (first_fit _) ex_word ex_bw ex_bM 2%positive 1%positive (BNode (7%positive, 70) BLeaf BLeaf) ex_bheap ex_bin ex_bin
    (Rose (1%positive, 10) (bin_forest ex_bsub ++ [Rose (3%positive, 30) []])) ex_bopt
    (make_pattern (build ex_bopt PNil)) x ex_bw_ok ltac:(pose proof ex_fuel; lia) eq_refl eq_refl (bsub_here _) eq_refl ltac:(vm_compute; repeat split; congruence) eq_refl ex_bin_in E)
    as (m & l & b & w' & c' & Hl & Hf & Hc & Ha & Hw & Hv & _).
  exists m, l, b, w', c'. auto 7.
Qed.
