(** StarTryKinds.v: StarTry.v for n-ary and for binary trees. *)
From Verif Require Import Base Spec StructNode BinaryNode NaryNode Nav Policy Tree Rep RoseFacts NavFacts BinRep NaryRep BinOrder Iter IterTrees
  World Kinds EditSpec TreeSpec TreeOps TreeBin TreeNary NodeFacts MatchSpec OptSpec MatchUser Fail Matcher MatchFacts MatchWalk MatchResult MatchKinds MatchBin PredProofs
  GenFacts GenInv Gen GenSim ResultFail StarFail ResultFailFacts Tried GenRun GenNary GenBin GenUser Star StarSpec StarResultSpec StarLemmas StarWalk StarFacts StarMain StarFlat StarTarget StarResult StarKinds StarTry.

Lemma under_in {V C} (tg : rose (addr * V)) (T : rose (addr * (addr * (V + C)))) m : under tg T m -> m ∈ raddrs tg.
Proof.
  intros (g & pm & pl & kids & _ & (c & v & Hp) & Hm). apply elem_of_list_fmap in Hm as (x & -> & Hx). rewrite <- Hp. eapply (sub_raddrs x); [|apply raddr_mem].
  eapply rsub_trans; [|apply rsubtree_plug; eauto]. econstructor; [exact Hx|constructor].
Qed.
Section Nary.
  Context {V : Type} `{EV : EqDecision V}.
  Variable F : nat.
  Variable al : allocator (nnode V).
  Variable late : bool.
  Theorem nary_star_try u0 : ssolid u0 -> eager u0 ->
    good_try F (nary_impl V) (nary_try V) al late (n_assign_child_like F) (@nary_in V) u0.
  Proof.
    intros Hs He. apply (try_good F (nary_impl V) (nary_try V) al late (n_assign_child_like F) (nary_kind V) (nary_ok F al) nsrc MatchKinds.nimage (nary_copies F al) (@nary_in V)); [..|exact Hs|exact He].
    - intros h t (par & prev & next & fs & _ & Hnd). exact Hnd.
    - intros h t H. apply (nary_facts h t H).
    - intros h t x H. apply (nary_facts h t H).
    - intros h t a (par & prev & next & fs & Hr & _) Ha. eapply nrep_dom; eassumption.
    - intros h t s H Hsb. eapply nary_in_sub; eassumption.
    - intros h h' t Hle (par & prev & next & fs & Hr & Hnd). exists par, prev, next, fs. split; [|exact Hnd]. eapply nrep_ext; [|exact Hr].
      intros a Ha. assert (is_Some (h !! a)) as [y Hy] by (eapply nrep_dom; eassumption). rewrite Hy. eapply lookup_weaken; eassumption.
    - intros h t m Hw [p Ho] x Hx. apply (occurs_in _ _ _ _ Ho) in Hx. apply (nary_facts h t Hw), Hx.
    - intros h v. apply (nary_value_try al late h v).
    - intros tg h0 g0 c0 pred apr uses flr st HF Hw Hc0 Hr0 Hv0 Hap Hu1 Hu2 Hu3 Hu4 Hpred. change (Kinds.C (nary_kind V)) with (option (rose (addr * V))) in *.
      assert (Ec : c0 = Some (Rose (g0, snd (label tg)) [])).
      { destruct c0 as [[[a v] [|]]|]; cbn in Hr0, Hv0; try discriminate. injection Hr0 as Hr0. unfold raddr in Hr0. cbn in Hr0. subst a. injection Hv0 as ->. reflexivity. }
      subst c0. assert (Hg0 : g0 ∉ raddrs tg) by (intros H; apply (Hap g0 H); cbn; left).
      destruct (nary_generate_full F al tg h0 g0 pred apr uses flr st) as [_ Hf]; auto.
      { intros m u Hm. destruct (Hu1 m u Hm) as (A & B & D). split; [exact A|]. split; [exact B|]. intros z Hz. destruct (D z Hz) as [D1 D2]. split; [exact D1|]. intros ->. apply D2. cbn. left. }
      eapply fails_mono; [|exact Hf]. intros h tr (T & [H1 H2 H3 H4 H5 H6 H7 H8 H9 H10]).
      destruct (placed_one _ T H4) as (r & Hr & Hra). assert (Ei : GenNary.nimage T = Some r) by (unfold GenNary.nimage; rewrite Hr; reflexivity). rewrite Ei in *.
      exists (Some r). split; [exact H1|]. split; [exact (f_equal Some (eq_trans Hra H7))|]. split; [exact H2|]. split; [exact H3|].
      split; [|split; [|split]].
      + intros a Ha. cbn in Ha. apply elem_of_list_singleton in Ha as ->. assert (Eg : raddr r = g0) by exact (eq_trans Hra H7). cbn. rewrite <- Eg. apply raddr_in.
      + intros m u z Hm Hz. destruct (H9 _ _ Hm) as (g & Hg). pose proof (uses_nimg tg T g m u z H4 Hg Hz) as Hin. rewrite Hr in Hin. cbn in Hin. rewrite app_nil_r in Hin. exact Hin.
      + exact H10.
      + intros m Hm. eapply under_in, H8, Hm.
    - intros u Hu Hl. apply (nary_star_result F al u Hu Hl).
  Qed.
End Nary.
Section Binary.
  Context {V : Type} `{EV : EqDecision V}.
  Variable F : nat.
  Variable al : allocator (bnode V).
  Variable late : bool.
  Variable left : addr -> bool.
  Notation C := (bin (addr * V)).
  Theorem binary_star_try u0 : ssolid u0 -> eager u0 ->
    good_try F (binary_impl V) (binary_try V) al late b_assign_child_like (bwhole left) u0.
  Proof.
    intros Hs He. apply (try_good F (binary_impl V) (binary_try V) al late b_assign_child_like (binary_kind V) (binary_ok F al) (bsrc left) (bimage left) (binary_copies F al left) (bwhole left)); [..|exact Hs|exact He].
    - intros h t (b & Hb & Hf & _). apply (binary_facts h b t Hb Hf).
    - intros h t (b & Hb & Hf & _). apply (binary_facts h b t Hb Hf).
    - intros h t x (b & Hb & Hf & _). apply (binary_facts h b t Hb Hf).
    - intros h t a (b & Hb & Hf & _) Ha. rewrite (raddrs_b b t Hf) in Ha. destruct Hb as (par & Hr & _). eapply brep_dom; eassumption.
    - intros h t s (b & Hb & Hf & Hl) Hsb. destruct (rsub_bsub s t Hsb b Hf) as (b' & Hb' & Hf'). exists b'. split; [eapply bin_in_sub; eassumption|]. split; [exact Hf'|].
      intros x l r Hx. apply (Hl x). clear -Hx Hb'. induction Hb'; [exact Hx|apply bsub_left; auto|apply bsub_right; auto].
    - intros h h' t Hle (b & (par & Hr & Hnd) & Hf & Hl). exists b. split; [|auto]. exists par. split; [|exact Hnd]. eapply brep_ext; [|exact Hr].
      intros a Ha. assert (is_Some (h !! a)) as [y Hy] by (eapply brep_dom; eassumption). rewrite Hy. eapply lookup_weaken; eassumption.
    - intros h t m (b & Hb & Hf & Hl) Ht. eapply bwhole_trim; eassumption.
    - intros h v. apply (binary_value_try al late h v).
    - intros tg h0 g0 c0 pred apr uses flr st HF (b & Hb & Hf & Hl) Hc0 Hr0 Hv0 Hap Hu1 Hu2 Hu3 Hu4 Hpred. change (Kinds.C (binary_kind V)) with C in *.
      assert (Ec : c0 = BNode (g0, snd (label tg)) BLeaf BLeaf).
      { destruct c0 as [|[a v] l r]; cbn in Hr0, Hv0; [discriminate|]. injection Hr0 as ->. injection Hv0 as -> H1 H2. apply bmap_nil in H1 as ->, H2 as ->. reflexivity. }
      subst c0. assert (Hg0 : g0 ∉ raddrs tg) by (intros H; apply (Hap g0 H); cbn; left).
      destruct (bin_generate_full F al b tg Hf left Hl h0 g0 pred apr uses flr st) as [_ Hfw]; auto.
      { intros m u Hm. destruct (Hu1 m u Hm) as (A & B & D). split; [exact A|]. split; [exact B|]. intros z Hz. destruct (D z Hz) as [D1 D2]. split; [exact D1|]. intros ->. apply D2. cbn. left. }
      { intros st1 h m q fl st2 d Hbh. apply Hpred. exists b. auto. }
      eapply fails_mono; [|exact Hfw]. intros h tr (T & [H1 H2 H3 H4 H5 H6 H7 H8 H9 H10]). pose proof (bimg_addr tg left T H4) as Hra.
      exists (bimg left T). split; [exact H1|]. split; [exact (eq_trans Hra (f_equal Some H7))|]. split; [exact H2|]. split; [exact H3|].
      split; [|split; [|split]].
      + intros a Ha. cbn in Ha. apply elem_of_list_singleton in Ha as ->. pose proof (baddr_root' (bimg left T)) as Hx. rewrite Hra in Hx. rewrite <- H7. exact Hx.
      + intros m u z Hm Hz. destruct (H9 _ _ Hm) as (g & Hg). exact (uses_bimg b tg Hf left Hl T g m u z H4 Hg Hz).
      + exact H10.
      + intros m Hm. eapply under_in, H8, Hm.
    - intros u Hu Hl. apply (binary_star_result F al left u Hu Hl).
  Qed.
End Binary.
