(** MatchMain.v: searching and assigning results. *)
From Verif Require Import Base Spec MatchSpec StructNode BinaryNode NaryNode Nav Policy Tree Rep RoseFacts NavFacts
  BinRep NaryRep Iter IterTrees IterMain NodeFacts EditSpec User World Kinds TreeSpec TreeOps TreeBin TreeNary TreeFacts
  Matcher OptSpec MatchUser MatchFacts MatchWalk MatchResult MatchKinds MatchBin MatchCaps.

Fixpoint leftmost_occurs {V A} (val : A -> V) p t m (H : leftmost val p t m) {struct H} : occurs val p t m
with firsts_chosen {V A} (val : A -> V) ps ts ms (H : firsts val ps ts ms) {struct H} : chosen val ps ts ms.
Proof.
  - destruct H as [p ps x ts ms Hp Hf]. constructor; [exact Hp|]. apply firsts_chosen, Hf.
  - destruct H as [ts|p ps t ts m ms Hl Hf|p ps t ts ms Hn Hf].
    + constructor.
    + constructor; [apply leftmost_occurs, Hl|apply firsts_chosen, Hf].
    + constructor. apply firsts_chosen, Hf.
Qed.
Fixpoint leftmost_unique {V A} (val : A -> V) p t m (H : leftmost val p t m) {struct H} : forall m', leftmost val p t m' -> m' = m
with firsts_unique {V A} (val : A -> V) ps ts ms (H : firsts val ps ts ms) {struct H} : forall ms', firsts val ps ts ms' -> ms' = ms.
Proof.
  - destruct H as [p ps x ts ms Hp Hfs]. intros m' H'. inversion H' as [? ? ? ? ms' _ Hfs']; subst. f_equal.
    exact (firsts_unique _ _ _ _ _ _ Hfs _ Hfs').
  - destruct H as [ts|p0 ps t0 ts m0 ms Hl Hf|p0 ps t0 ts ms Hn Hf]; intros ms' Hf';
      inversion Hf' as [|? ? ? ? ? ? Hl' Hf''|? ? ? ? ? Hn' Hf'']; subst.
    + reflexivity.
    + rewrite (leftmost_unique _ _ _ _ _ _ Hl _ Hl'), (firsts_unique _ _ _ _ _ _ Hf _ Hf''). reflexivity.
    + apply leftmost_occurs in Hl. destruct (Hn' _ Hl).
    + apply leftmost_occurs in Hl'. destruct (Hn _ Hl').
    + exact (firsts_unique _ _ _ _ _ _ Hf _ Hf'').
Qed.

Fixpoint best_unique {V A} (val : A -> V) u t m l (H : best val u t m l) {struct H} : forall m' l', best val u t m' l' -> m' = m /\ l' = l
with bests_unique {V A} (val : A -> V) us ts ms l (H : bests val us ts ms l) {struct H} : forall ms' l', bests val us ts ms' l' -> ms' = ms /\ l' = l.
Proof.
  - destruct H as [p cs x ts ms l Hp Hf|q p cs x ts ms l Hp Hf|q p c x ts m l Hc Hf|u t m l Hf]; intros m' l' H'.
    + inversion H' as [? ? ? ? ms' ? _ Hf'| | |]; subst. destruct (bests_unique _ _ _ _ _ _ _ Hf _ _ Hf') as [-> ->]. auto.
    + inversion H' as [|? ? ? ? ? ms' ? _ Hf'|? ? ? ? ? ? ? Hc' Hf'|]; subst.
      * destruct (bests_unique _ _ _ _ _ _ _ Hf _ _ Hf') as [-> ->]. auto.
      * destruct (Hc' Hp) as [_ Hno]. destruct (Hno ms). eapply bests_matches, Hf.
    + inversion H' as [|? ? ? ? ? ms' ? Hp Hf'|? ? ? ? ? ? ? Hc' Hf'|]; subst.
      * destruct (Hc Hp) as [_ Hno]. destruct (Hno ms'). eapply bests_matches, Hf'.
      * exact (best_unique _ _ _ _ _ _ _ Hf _ _ Hf').
    + inversion H' as [| | |? ? ? ? Hf']; subst. destruct (best_unique _ _ _ _ _ _ _ Hf _ _ Hf') as [-> ->]. auto.
  - destruct H as [ts|u us t ts m ms l l1 Hb Hf|u us t ts ms l Hn Hf]; intros ms' l' H';
      inversion H' as [|? ? ? ? m' ms'' l2 l3 Hb' Hf'|? ? ? ? ? ? Hn' Hf']; subst.
    + auto.
    + destruct (best_unique _ _ _ _ _ _ _ Hb _ _ Hb') as [-> ->]. destruct (bests_unique _ _ _ _ _ _ _ Hf _ _ Hf') as [-> ->]. auto.
    + destruct (Hn' m). eapply best_matches, Hb.
    + destruct (Hn m'). eapply best_matches, Hb'.
    + exact (bests_unique _ _ _ _ _ _ _ Hf _ _ Hf').
Qed.

Lemma result_null {V Nd} (F : nat) (im : node_impl V Nd) al like (p : pat V) s h : ms_matched s = None -> result F im al like p s h = Ok (None, h).
Proof. intros H. destruct p; cbn; [reflexivity|]. rewrite H. reflexivity. Qed.

Section Core.
  Context {V Nd : Type}.
  Variable F : nat.
  Variable im : node_impl V Nd.
  Variable h : gmap addr Nd.

  Lemma loop_none try n m0 sc begin i m sc' i' : loop F im h try false n m0 sc begin i = Ok (false, m, sc', i') -> m = m0.
  Proof.
    induction n as [|n IH] in sc, i |- *; cbn [loop]; [discriminate|]. destruct (it_cur i); [|congruence].
    destruct (try sc i) as [[b sc1]|]; cbn [mbind res_bind]; [|discriminate].
    destruct (it_incr F _ i) as [i1|]; cbn [mbind res_bind]; [|discriminate].
    destruct b; [discriminate|]. apply IH.
  Qed.
  Lemma failed_null (u : upat V) it s it' : solid u -> search_node F im h (build u PNil) MSNil it = Ok (false, s, it') -> ms_matched s = None.
  Proof.
    intros Hs. pose proof (null_solid u Hs false PNil) as Hn. pose proof (prefers_solid u PNil Hs) as Hp.
    destruct u as [vm cs|q vm cs|p]; cbn [build] in *; rewrite search_unfold, Hn; try rewrite Hp.
    1,2: destruct (loop _ _ _ _ _ _ _ _ _ _) as [[[[b m] sc] i]|] eqn:E; cbn [mbind res_bind]; [|discriminate];
      destruct b; cbn; [discriminate|]; intros [= <- _]; apply loop_none in E; exact E.
    destruct (search_node F im h (build p PNil) _ it) as [[[b sc] i]|]; cbn [mbind res_bind]; [|discriminate].
    destruct b; cbn; [discriminate|]. intros [= <- _]. reflexivity.
  Qed.

  Lemma search_core (u : upat V) x (root : ptr) ts : solid u -> p_pat x = build u PNil ->
    walks F im h (Iter Fixed root root [] root) ts -> length ts <= 1 ->
    exists b x', search F im x h root = Ok (b, x') /\ p_pat x' = build u PNil /\ p_found x' = p_found x || b /\
      (b = true -> exists t m l, ts = [t] /\ best snd u t m l /\ descs [u] (p_state x') [m] l) /\
      (b = false -> ms_matched (p_state x') = None /\ forall t m, ts = [t] -> ~ matches snd u t m).
  Proof.
    intros Hp Hx Hw Hlen. unfold search. rewrite Hx. unfold get_instance.
    assert (Hfix : fix_navigator_root (tree_nav im h) Fixed root root = Ok root) by (destruct root; reflexivity).
    rewrite Hfix. cbn [mbind res_bind]. unfold reset.
    destruct (search_ok F im h (chain [u]) [u] eq_refl ltac:(repeat constructor; exact Hp) MSNil _ ts Hw) as [(s' & it' & ms & l & rest & E & Hg & _ & Hd)|(s' & it' & E & Hno)];
      cbn [foldr] in E.
    - rewrite E. cbn [mbind res_bind]. eexists true, _. split; [reflexivity|]. split; [reflexivity|]. split; [reflexivity|].
      split; [|discriminate]. intros _.
      destruct ts as [|t [|]]; [|exists t|cbn in Hlen; lia].
      + inversion Hg.
      + pose proof (greedy_length _ _ _ _ _ _ Hg) as Hl. destruct ms as [|m [|]]; try discriminate.
        exists m, l. split; [reflexivity|]. split; [|exact Hd]. eapply greedy_single, Hg.
    - rewrite E. cbn [mbind res_bind]. eexists false, _. split; [reflexivity|]. split; [reflexivity|]. split; [reflexivity|].
      split; [discriminate|]. intros _. split; [eapply failed_null; eassumption|]. intros t m -> Ho. apply (Hno [m]).
      constructor; [exact Ho|constructor].
  Qed.
End Core.

Section Nary.
  Context {V : Type} `{EV : EqDecision V}.
  Variable F : nat.
  Notation im := (nary_impl V).
  Lemma nary_walks h (t : rose (addr * V)) : nary_in h t -> rsize t < F ->
    walks F im h (Iter Fixed (Some (raddr t)) (Some (raddr t)) [] (Some (raddr t))) [t].
  Proof.
    intros Ht HF. destruct Ht as (par & prev & next & fs & Hr & Hnd). apply walks_root.
    - exact (nrep_ops_ok h t _ _ _ _ Hr).
    - exact Hnd.
    - intros x Hx. eapply nrep_value; eassumption.
    - exact HF.
  Qed.
End Nary.
Section Binary.
  Context {V : Type} `{EV : EqDecision V}.
  Variable F : nat.
  Notation im := (binary_impl V).
  Lemma binary_walks h (t : bin (addr * V)) s : bin_in h t -> bin_forest t = [s] -> rsize s < F ->
    walks F im h (Iter Fixed (Some (raddr s)) (Some (raddr s)) [] (Some (raddr s))) [s].
  Proof.
    intros Ht Hs HF. destruct Ht as (par & Hr & Hnd). pose proof (brep_ops_ok h t par Hr Hnd) as Hops.
    unfold brose in Hops. rewrite bin_forest_map', Hs in Hops. apply Forall_inv in Hops.
    assert (Hlab : bin_labels t = preorder s) by (rewrite <- forest_labels, Hs; cbn; rewrite app_nil_r; reflexivity).
    apply walks_root.
    - exact Hops.
    - rewrite <- Hlab. exact Hnd.
    - intros x Hx. apply (bin_value h t); [exists par; auto|]. rewrite Hlab. exact Hx.
    - exact HF.
  Qed.
End Binary.

(** Putting a tree built from matched nodes in tree object [i]. *)
Section Assign.
  Context {V : Type} {EV : EqDecision V} {Nd : Type}.
  Variable F : nat.
  Variable im : node_impl V Nd.
  Variable al : allocator Nd.
  Variable K : kind_data V Nd.
  Hypothesis HK : tree_kind V EV Nd im K.
  Hypothesis HFW : (N.of_nat F <= W64)%N.

  Lemma assign_built w M i c a h' u : consistent K w M -> size (w_heap w) < F -> M !! i = Some c ->
    croot K u = a -> built (caddrs K) (crep K) (w_heap w) h' u ->
    exists w', assign F im (set_heap w h') i a 0 0 = Ok w' /\ consistent K w' (<[i := u]> M) /\ (caches K w M -> caches K w' (<[i := u]> M)).
  Proof using All.
    intros Hw HF Hi <- Hb. pose proof (kind_is_ok F al HK) as KO.
    apply (to_holds F _ al _ HK HFW) in Hw.
    assert (Hlen : length (caddrs K c) < F).
    { pose proof (holds_size _ _ _ _ _ _ _ _ Hw Hi). lia. }
    destruct (assign_ok F im al K KO (set_heap w h') M [] i c u 0 0) as (w' & E & Hw' & Ht).
    { apply (holds_alloc F im al K KO); assumption. } { exact Hi. } { exact Hlen. }
    exists w'. split; [exact E|]. split; [apply (to_holds F _ al _ HK HFW), Hw'|].
    intros Hc. apply (upd F im al K HK HFW (set_heap w h') w' M i u _ Hc Ht). split; left; reflexivity.
  Qed.
  Lemma assign_none w M i c : consistent K w M -> size (w_heap w) < F -> M !! i = Some c ->
    exists w', assign F im (set_heap w (w_heap w)) i None 0 0 = Ok w' /\ consistent K w' (<[i := cnil K]> M) /\ (caches K w M -> caches K w' (<[i := cnil K]> M)).
  Proof using All.
    intros Hw HF Hi. pose proof (kind_is_ok F al HK) as KO. destruct (k_nil _ _ _ _ KO) as (H1 & H2 & H3 & _).
    apply (assign_built w M i c None (w_heap w) (cnil K) Hw HF Hi H2). split; [apply H3|]. rewrite H1. split; [intros x Hx; apply elem_of_nil in Hx as []|reflexivity].
  Qed.
End Assign.
