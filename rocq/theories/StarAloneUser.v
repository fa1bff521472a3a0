(** StarAloneUser.v: searching with a [star] without children, and its result in
    n-ary and binary trees. *)
From Verif Require Import Base Spec StructNode BinaryNode NaryNode Nav Policy Tree Rep RoseFacts NavFacts BinOrder BinRep BinOps BinEdit NaryRep EditSpec
  World Kinds TreeSpec TreeOps TreeBin TreeNary NodeFacts Iter IterTrees Matcher MatchWalk MatchResult MatchBin GenFacts GenInv Gen GenRun GenNary GenBin GenUser
  Star StarSpec StarLemmas StarWalk StarFacts StarMain StarAlone.

Section Search.
  Context {V Nd : Type}.
  Variable F : nat.
  Variable im : node_impl V Nd.
  Variable h : gmap addr Nd.
  Variable t : rose (addr * V).
  Hypothesis Hops : ops_ok (ni_ops im h) (rose_map fst t).
  Hypothesis Hnd : NoDup (map fst (preorder t)).
  Hypothesis Hval : forall y, y ∈ preorder t -> ni_value im h (Some (fst y)) = Ok (snd y).
  Hypothesis HF : rsize t < F.

  Lemma alone_impl q vm own sc i cut : here im h t i t -> exists own', ximpl F im h (XStar q) vm XNil cut own sc i = Ok (true, own', sc).
  Proof.
    intros Hh. unfold ximpl. rewrite (he_cur _ _ _ _ _ Hh). change (Some (raddr t)) with (Some (fst (label t))). rewrite Hval by (destruct t; left). cbn [mbind res_bind].
    destruct (vm (snd (label t))) eqn:Ev; cbn [negb].
    - destruct (poss_dec q) as [[Eq ->]|[Eq Hq]]; rewrite Eq.
      + destruct (poss_start F im h t Hops Hnd Hval HF vm t (good_root t) own i None (he_cur _ _ _ _ _ Hh) Ev) as (i' & E & _). rewrite E. cbn. eauto.
      + destruct (star_start F im h t Hops Hnd Hval HF vm t (good_root t) own i own (he_cur _ _ _ _ _ Hh) eq_refl Ev) as (i' & E & _). rewrite E. cbn. eauto.
    - cbn. destruct (here_fixed F im h t Hval HF i t Hh cut None) as (i' & E & _). rewrite E. cbn. eauto.
  Qed.
  Lemma alone_search q vm x : xp_pat x = xbuild (SStar q vm []) XNil ->
    exists x', xsearch F im x h (Some (raddr t)) = Ok (true, x') /\ xp_pat x' = xp_pat x /\ xp_found x' = true /\
      xs_matched (xp_state x') = (match q with QReluctant => None | _ => Some (raddr t) end).
  Proof.
    intros Hx. unfold xsearch. change (get_instance F (tree_nav im h) Fixed (Some (raddr t)) (Some (raddr t))) with (Ok (Iter Fixed (Some (raddr t)) (Some (raddr t)) [] (Some (raddr t)))).
    cbn [mbind res_bind]. rewrite Hx. cbn [xbuild foldr]. set (it := SIt (Iter Fixed (Some (raddr t)) (Some (raddr t)) [] (Some (raddr t))) Plain).
    assert (Hh : here im h t it t) by (split; [reflexivity|apply good_root|left; reflexivity|exact I]).
    assert (Hm0 : forall s, xs_matched (xreset s) = None) by (intros [|]; reflexivity).
    rewrite xsearch_node_eq. unfold xnode, xthis. destruct (xprefers_null (XN (XStar q) vm XNil XNil)) eqn:Ep.
    - cbn [mbind res_bind negb]. eexists. split; [reflexivity|]. cbn. rewrite orb_true_r, Hm0. destruct q; try discriminate. auto.
    - assert (HF0 : exists n, F = S n) by (destruct F; [lia|eauto]). destruct HF0 as [n EF]. replace (xloop F im h (XStar q) vm XNil XNil NoCb None F) with (xloop F im h (XStar q) vm XNil XNil NoCb None (S n)) by (rewrite EF; reflexivity). cbn [xloop].
      change (si_cur it) with (Some (raddr t)). cbv iota.
      destruct (alone_impl q vm (xs_cut (xreset (xp_state x))) (xs_first (xreset (xp_state x))) it None Hh) as (own' & E).
      rewrite E. cbn [mbind res_bind acknowledge].
      assert (Ei : exists i', si_incr F im h None it = Ok i') by (eexists; reflexivity). destruct Ei as [i' Ei]. rewrite Ei. cbn [mbind res_bind negb].
      eexists. split; [reflexivity|]. cbn. rewrite orb_true_r. destruct q; try discriminate; auto.
  Qed.
End Search.
(** An empty tree. *)
Lemma alone_search_empty {V Nd} F (im : node_impl V Nd) h q vm x : 0 < F -> xp_pat x = xbuild (SStar q vm []) XNil ->
  exists x', xsearch F im x h None = Ok (true, x') /\ xp_pat x' = xp_pat x /\ xp_found x' = true /\ xs_matched (xp_state x') = None.
Proof.
  intros HF Hx. destruct F as [|n]; [lia|]. unfold xsearch. cbn [get_instance fix_navigator_root mbind res_bind]. rewrite Hx. cbn [xbuild foldr].
  assert (Hm0 : forall s, xs_matched (xreset s) = None) by (intros [|]; reflexivity).
  destruct q; (eexists; split; [reflexivity|]); cbn; rewrite orb_true_r, Hm0; auto.
Qed.

Section Nary.
  Context {V : Type} `{EV : EqDecision V}.
  Lemma nary_alone F (al : allocator (nnode V)) (h : gmap addr (nnode V)) (t : rose (addr * V)) q vm :
    rsize t < F -> nary_in h t -> q = QGreedy \/ q = QPossessive ->
    (no_children_result F (nary_impl V) al (n_assign_child_like F) q vm (Some (raddr t)) h = Err OutOfFuel /\ bad vm (children t)) \/
    (exists a h' c, no_children_result F (nary_impl V) al (n_assign_child_like F) q vm (Some (raddr t)) h = Ok (Some a, h') /\
      nroot c = Some a /\ nvals c = Some (rose_map snd t) /\ built (caddrs (nary_kind V)) (crep (nary_kind V)) h h' c /\ ~ bad vm (children t)).
  Proof.
    intros HF Hin Hq.
    destruct (alone_ok F (nary_impl V) al (n_assign_child_like F) (nary_kind V) (nary_ok F al) t HF (fun h => nary_in h t)) with (image := nimage (V := V)) (h0 := h) (vm := vm) (q := q)
      as [H|(a & h' & T & E & Hp & Hb & Hk & HT & Hn)].
    - intros h1 h2 Hle (par & prev & next & fs & Hr & Hnd). exists par, prev, next, fs. split; [|exact Hnd]. eapply nrep_ext; [|exact Hr].
      intros z Hz. assert (is_Some (h1 !! z)) as [y Hy] by (eapply nrep_dom; eassumption). rewrite Hy. eapply lookup_weaken; eassumption.
    - intros h1 (par & prev & next & fs & Hr & _). exact (nrep_ops_ok _ _ _ _ _ _ Hr).
    - intros h1 x Hh Hx. apply (nary_value h1 t Hh x Hx).
    - intros c a m v Hr Hv. cbn in Hr, Hv. destruct c as [[[b w] [|]]|]; cbn in *; [|discriminate|discriminate]. unfold raddr in Hr. cbn in Hr. congruence.
    - exact (nimg_like F t).
    - exact Hin.
    - exact Hq.
    - left. exact H.
    - right. destruct (placed_one _ T Hp) as (r & Hr & Hra). exists a, h', (nimage T). split; [exact E|]. unfold nimage in *. rewrite Hr in *. cbn [head] in *.
      split; [exact (f_equal Some (eq_trans Hra Hk))|]. split; [|split; [exact Hb|exact Hn]].
      pose proof (eq_trans (eq_sym (f_equal (map (rose_map snd)) Hr)) (eq_trans (nimg_vals T) (eq_trans (f_equal nvimg HT) (nvimg_prune t)))) as Hv. injection Hv as Hv.
      cbn. rewrite Hv. reflexivity.
  Qed.
End Nary.
Section Binary.
  Context {V : Type} `{EV : EqDecision V}.
  Lemma prune_true (t : rose (addr * V)) : PruneSpec.prune (fun x => (fun _ => true) (snd x)) t = t.
  Proof.
    induction t as [x cs IH] using rose_ind'. cbn. f_equal. induction IH as [|c cs Hc _ IHcs]; [reflexivity|]. cbn. rewrite Hc, IHcs. reflexivity.
  Qed.
  Lemma bkeep_true (b : bin (addr * V)) : PruneSpec.bkeep (fun x => (fun _ => true) (snd x)) b = b.
  Proof. induction b as [|x l IHl r IHr]; [reflexivity|]. cbn. rewrite IHl, IHr. destruct l, r; reflexivity. Qed.
  Lemma binary_alone F (al : allocator (bnode V)) (h : gmap addr (bnode V)) (b : bin (addr * V)) s q vm :
    rsize s < F -> bin_in h b -> bin_forest b = [s] -> q = QGreedy \/ q = QPossessive ->
    (no_children_result F (binary_impl V) al b_assign_child_like q vm (baddr b) h = Err OutOfFuel /\ bad vm (children s)) \/
    (exists a h' c, no_children_result F (binary_impl V) al b_assign_child_like q vm (baddr b) h = Ok (Some a, h') /\
      baddr c = Some a /\ bin_map snd c = bin_map snd b /\ built (caddrs (binary_kind V)) (crep (binary_kind V)) h h' c /\ ~ bad vm (children s)).
  Proof.
    intros HF Hin Hs Hq. pose proof Hin as (par & Hr & Hnd). rewrite (bin_root b s Hs).
    assert (Hside : forall x l r, bsubtree (BNode x l r) b -> (forall a, baddr l = Some a -> left_in h a = true) /\ (forall a, baddr r = Some a -> left_in h a = false))
      by (intros x l r Hx; eapply left_in_ok; eassumption).
    destruct (alone_ok F (binary_impl V) al b_assign_child_like (binary_kind V) (binary_ok F al) s HF (fun h => bin_in h b)) with (image := bimg (V := V) (left_in h)) (h0 := h) (vm := vm) (q := q)
      as [H|(a & h' & T & E & Hp & Hb & Hk & HT & Hn)].
    - intros h1 h2 Hle (par' & Hr' & Hn'). exists par'. split; [|exact Hn']. eapply brep_ext; [|exact Hr'].
      intros z Hz. assert (is_Some (h1 !! z)) as [y Hy] by (eapply brep_dom; eassumption). rewrite Hy. eapply lookup_weaken; eassumption.
    - intros h1 H1. apply (proj1 (binary_facts h1 b s H1 Hs)).
    - intros h1 x H1 Hx. apply (proj2 (proj2 (binary_facts h1 b s H1 Hs))). exact Hx.
    - intros c a m v Hrc Hv. cbn in Hrc, Hv. destruct c as [|[p w] l r]; [discriminate|]. cbn in *. injection Hrc as ->. injection Hv as -> Hl Hr'.
      destruct l; [|discriminate]. destruct r; [|discriminate]. reflexivity.
    - intros h1 cx x ts s1. exact (bimg_like F b s Hs (left_in h) Hside h1 cx x ts s1).
    - exact Hin.
    - exact Hq.
    - left. exact H.
    - right. exists a, h', (bimg (left_in h) T). split; [exact E|]. split.
      { exact (eq_trans (bimg_addr s (left_in h) T Hp) (f_equal Some Hk)). }
      split; [|split; [exact Hb|exact Hn]].
      pose proof (bvimg_prune (left_in h) (fun _ => true) b s Hs Hside) as Hv.
      rewrite prune_true, bkeep_true in Hv. exact (eq_trans (bimg_vals (left_in h) T) (eq_trans (f_equal (bvimg (left_in h)) HT) Hv)).
  Qed.
End Binary.
