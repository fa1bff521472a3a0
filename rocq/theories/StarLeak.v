(** StarLeak.v: a reluctant star whose child matches deeper than its children loses
    memory when a node of the path cannot be created. *)
From Verif Require Import Base Spec StructNode BinaryNode NaryNode Nav Policy Tree Rep RoseFacts NavFacts NaryRep Iter IterTrees
  World Kinds EditSpec TreeSpec TreeOps NodeFacts MatchSpec Matcher MatchFacts MatchWalk MatchResult MatchKinds PredProofs
  Fail ResultFail ResultFailFacts Star StarSpec StarResultSpec StarLemmas StarFacts StarFlat StarResult StarFail StarFailFacts.

Section Leak.
  Context {V Nd : Type}.
  Variable F : nat.
  Variable im : node_impl V Nd.
  Variable ti : try_impl V Nd.
  Variable al : allocator Nd.
  Variable late : bool.
  Variable like : gmap addr Nd -> ptr -> ptr -> ptr -> res (gmap addr Nd).
  Variable K : kind_data V Nd.
  Hypothesis KO : kind_ok F im al K.
  Notation heap := (gmap addr Nd).
  Notation tree := (rose (addr * V)).
  Hypothesis value_try : forall h v,
    (forall k a h', ni_from_value im al h v = Ok (a, h') -> ti_value ti late al v h (S k) = Made a h' k) /\
    exists h', ti_value ti late al v h 0 = Lost h' /\ lost late h h'.
  Variable image : tree -> C K -> Prop.
  Variable whole : heap -> tree -> Prop.
  Hypothesis whole_nd : forall h t, whole h t -> NoDup (raddrs t).
  Hypothesis whole_ops : forall h t, whole h t -> ops_ok (ni_ops im h) (rose_map fst t).
  Hypothesis whole_val : forall h t x, whole h t -> x ∈ preorder t -> ni_value im h (Some (fst x)) = Ok (snd x).
  Hypothesis whole_sub : forall h t s, whole h t -> rsubtree s t -> whole h s.
  Hypothesis whole_ext : forall h h' t, h ⊆ h' -> whole h t -> whole h' t.
  Notation xresult_try := (xresult_try F im ti al late like).
  Notation good_result := (StarResult.good_result F im al like K image whole).
  Notation built := (built (caddrs K) (crep K)).

  Lemma star_leaks p u ns cut sn x ts a s h : ssolid u -> good_result u -> smatch snd u (at_node a) a -> reached snd p (Rose x ts) (at_node a) -> at_node a ∉ ts ->
    records [u] s [a] -> whole h (Rose x ts) -> rsize (Rose x ts) < F ->
    exists k hl z, xresult_try (xbuild (SStar QReluctant p [u]) ns) (XS (Some (fst x)) cut s sn) h k = Lost hl /\ h ⊆ hl /\ is_Some (hl !! z) /\ h !! z = None.
  Proof.
    intros Hsol Hg Hm Hre Hdeep Hr Hw HF. pose proof (whole_nd _ _ Hw) as Hnd.
    destruct (k_value _ _ _ _ KO h (snd x)) as (a0 & h2 & c0 & E & Hrt & Hval & Hlen & _ & Hb). pose proof (built_le K _ _ _ Hb) as Hle2.
    destruct (reached_sub _ _ _ Hre) as [[Hs Hax]|H]; [|destruct (H Hnd)].
    destruct (Hg XNil s h2 a Hr Hm) as (r & h3 & cu & m & E3 & Hru & _ & _ & _ & Hbu).
    { eapply whole_sub; [|exact Hs]. eapply whole_ext; eassumption. } { apply sub_size in Hs. lia. }
    pose proof (built_le K _ _ _ Hbu) as Hle3. pose proof (records_matched _ _ _ _ _ Hr) as Hma.
    destruct (proj1 (result_enough F im ti al late like (fun h v => proj1 (value_try h v)) (xbuild u XNil)) _ _ _ _ E3) as [n Hn].
    destruct (reached_ctx _ _ _ Hre) as (c & Hne & Hpl & Hac).
    destruct c as [|[[ls y] rs] c]; [congruence|]. cbn [plug] in Hpl.
    assert (Hw3 : whole h3 (Rose x ts)) by (eapply whole_ext; [exact Hle3|]; eapply whole_ext; eassumption).
    assert (Hsub : rsubtree (Rose y (ls ++ at_node a :: rs)) (Rose x ts)) by (apply rsubtree_plug; eauto).
    assert (Hpar : op_parent (ni_ops im h3) (Some (raddr (at_node a))) = Ok (Some (fst y))).
    { pose proof (whole_ops _ _ Hw3) as Hops. assert (Hp' : plug ((ls, y, rs) :: c) (at_node a) = Rose x ts) by exact Hpl. apply (plug_map_ex fst) in Hp'. rewrite <- Hp' in Hops. apply ops_ok_plug in Hops as [_ Ho].
      cbn [map] in Ho. destruct Ho as (Ho & _). rewrite label_map in Ho. exact Ho. }
    assert (Hyx : fst x <> fst y).
    { intros Exy. assert (Ey : Rose y (ls ++ at_node a :: rs) = Rose x ts) by (eapply sub_unique; [exact Hnd|exact Hsub|constructor|symmetry; exact Exy]).
      injection Ey as _ <-. apply Hdeep. set_solver +. }
    destruct (value_try h3 (snd y)) as [_ (h4 & E4 & Hlost)].
    pose proof (fresh_apart F im al K KO _ _ _ _ (proj1 Hb) Hbu) as Hap.
    assert (Hle4 : h3 ⊆ h4) by (unfold lost in Hlost; destruct late; [destruct Hlost as (z & o & Hz & ->); apply insert_subseteq, Hz|subst; reflexivity]).
    assert (Hc0 : crep K h4 c0).
    { eapply (k_ext _ _ _ _ KO); [|eapply (keep_rep F im al K KO); [apply Hb|exact Hbu]]. intros z Hz.
      destruct (k_dom _ _ _ _ KO h3 c0 z) as [o Ho]; [eapply (keep_rep F im al K KO); [apply Hb|exact Hbu]|exact Hz|]. rewrite Ho. eapply lookup_weaken; eassumption. }
    destruct (k_dealloc _ _ _ _ KO h4 c0 Hc0) as (h5 & E5 & Hf5). { rewrite Hlen. pose proof (sub_size _ _ Hs). destruct ts; cbn in HF |- *; [|lia]. inversion Hre as [? ? ? Hx|? ? ? ? Hx]; subst; set_solver. }
    exists (S n), h5, r. split; [|split; [|split]].
    - rewrite xbuild_eq. cbn [kind_of test_of subs]. rewrite try_star. change (fempty (foldr xbuild XNil [u]) s) with (xempty (foldr xbuild XNil [u]) s).
      rewrite (empty_false _ _ _ _ _ Hr).
      assert (Hst : forall kk, (if xmay_steal (foldr xbuild XNil [u]) then fstolen F im xresult_try (Some (fst x)) (foldr xbuild XNil [u]) s false None else give (false, None)) h kk = Made (false, None) h kk).
      { intros kk. destruct (xmay_steal _); [|reflexivity]. cbn [foldr]. rewrite xbuild_eq. cbn [fstolen]. rewrite Hma.
        assert (ptr_eqb (Some (raddr (at_node a))) (Some (fst x)) = false) as -> by (apply bool_decide_eq_false; intros [= E']; apply Hax; exact E'). reflexivity. }
      unfold then_ at 1. rewrite Hst. cbv beta iota. unfold then_ at 1, reading. rewrite (whole_val h _ x Hw) by (cbn; left).
      unfold then_ at 1. rewrite (proj1 (value_try h (snd x)) n a0 h2 E). unfold holding, fpresent. unfold then_ at 1.
      cbn [foldr]. rewrite xbuild_eq. cbn [fpath]. unfold then_ at 1. rewrite <- xbuild_eq. specialize (Hn 0). rewrite Nat.add_0_r in Hn. rewrite Hn.
      unfold then_ at 1. destruct F as [|F']; [lia|]. cbn [reluctant_attach_try]. rewrite Hma. unfold then_ at 1, reading at 1. rewrite Hpar.
      rewrite lookup_singleton_ne by exact Hyx. unfold then_ at 1, reading at 1. rewrite (whole_val h3 _ y (whole_sub _ _ _ Hw3 Hsub)) by (cbn; left).
      unfold then_ at 1. rewrite E4. rewrite <- Hrt, E5. reflexivity.
    - apply map_subseteq_spec. intros z o Hz. rewrite Hf5. rewrite bool_decide_eq_false_2; [|intros Hzc; destruct Hb as (_ & Hn0 & _); rewrite (Hn0 z Hzc) in Hz; discriminate].
      eapply lookup_weaken; [|exact Hle4]. eapply lookup_weaken; [|exact Hle3]. eapply lookup_weaken; eassumption.
    - pose proof (k_root _ _ _ _ KO _ _ Hru) as Hrc. rewrite Hf5, bool_decide_eq_false_2 by (apply Hap, Hrc). destruct (k_dom _ _ _ _ KO _ _ _ (proj1 Hbu) Hrc) as [o Ho]. exists o. eapply lookup_weaken; eassumption.
    - destruct (h !! r) as [o|] eqn:Er; [|reflexivity]. apply (lookup_weaken _ _ _ _ Er) in Hle2. destruct Hbu as (_ & Hnu & _). rewrite Hnu in Hle2 by (apply (k_root _ _ _ _ KO), Hru). discriminate.
  Qed.
End Leak.
