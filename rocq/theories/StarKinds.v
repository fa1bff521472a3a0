(** StarKinds.v: StarResult.v for n-ary and for binary trees. *)
From Verif Require Import Base Spec StructNode BinaryNode NaryNode Nav Policy Tree Rep RoseFacts NavFacts BinRep NaryRep BinOrder Iter IterTrees
  World Kinds EditSpec TreeSpec TreeOps TreeBin TreeNary NodeFacts MatchSpec OptSpec MatchUser Matcher MatchFacts MatchWalk MatchResult MatchKinds MatchBin PredProofs
  GenFacts GenInv Gen GenSim GenRun GenNary GenBin GenUser Star StarSpec StarResultSpec StarLemmas StarWalk StarFacts StarMain StarFlat StarTarget StarResult.

Lemma under_map {V C} (tg : rose (addr * V)) (T : rose (addr * (addr * (V + C)))) m : under tg T m ->
  exists pm pl kids, (pm, pl) ∈ preorder (rose_map snd T) /\ tat tg pm kids /\ m ∈ map raddr kids.
Proof.
  intros (g & pm & pl & kids & Hx & Ht & Hm). exists pm, pl, kids. split; [|auto]. rewrite preorder_map. apply elem_of_list_fmap. exists (g, (pm, pl)). split; [reflexivity|exact Hx].
Qed.
Lemma used_map {V C} (T : rose (addr * (addr * (V + C)))) m (u : C) : (m, inr u) ∈ preorder (rose_map snd T) -> exists g, (g, (m, inr u)) ∈ preorder T.
Proof. rewrite preorder_map. intros H. apply elem_of_list_fmap in H as ([g x] & E & H). cbn in E. exists g. rewrite E. exact H. Qed.

Section Nary.
  Context {V : Type} `{EV : EqDecision V}.
  Variable F : nat.
  Variable al : allocator (nnode V).
  Notation tree := (rose (addr * V)).
  Lemma nvimg_flat (f : addr -> dec (option tree)) mof (t : tree) : (forall m u, f m = Use u -> MatchKinds.nimage (mof m) u) ->
    nvimg (grow f t) = [rose_map snd (flat mof f t)].
  Proof.
    intros Hu. induction t as [x cs IH] using rose_ind'. rewrite grow_unfold, flat_unfold. cbn [nvimg rose_map fst snd]. f_equal. f_equal.
    induction IH as [|c cs Hc _ IHcs]; [reflexivity|]. unfold growl. cbn [flat_map]. rewrite flat_map_app, map_app. fold (growl f cs). rewrite IHcs. f_equal.
    unfold grow1, flat1. destruct (f (raddr c)) as [| |u] eqn:Ef; [reflexivity|cbn [flat_map map]; rewrite Hc; reflexivity|]. apply Hu in Ef. unfold MatchKinds.nimage, nvals in Ef.
    destruct u as [u|]; [|discriminate]. cbn in Ef |- *. injection Ef as ->. reflexivity.
  Qed.
  Theorem nary_star_result u0 : ssolid u0 -> lone u0 ->
    StarResult.good_result F (nary_impl V) al (n_assign_child_like F) (nary_kind V) MatchKinds.nimage (@nary_in V) u0.
  Proof.
    apply (result_good F (nary_impl V) al (n_assign_child_like F) (nary_kind V) (nary_ok F al) nsrc MatchKinds.nimage (nary_copies F al) (@nary_in V)).
    - intros h t (par & prev & next & fs & _ & Hnd). exact Hnd.
    - intros h t H. apply (nary_facts h t H).
    - intros h t x H. apply (nary_facts h t H).
    - intros h t a (par & prev & next & fs & Hr & _) Ha. eapply nrep_dom; eassumption.
    - intros h t s H Hs. eapply nary_in_sub; eassumption.
    - intros h h' t Hle (par & prev & next & fs & Hr & Hnd). exists par, prev, next, fs. split; [|exact Hnd]. eapply nrep_ext; [|exact Hr].
      intros a Ha. assert (is_Some (h !! a)) as [y Hy] by (eapply nrep_dom; eassumption). rewrite Hy. eapply lookup_weaken; eassumption.
    - intros h t m Hw [p Ho] x Hx. apply (occurs_in _ _ _ _ Ho) in Hx. apply (nary_facts h t Hw), Hx.
    - intros tg h0 g0 c0 pred apr uses flr st HF Hw Hc0 Hr0 Hv0 Hap Hu1 Hu2 Hu3 Hu4 Hpred. change (Kinds.C (nary_kind V)) with (option tree) in *.
      assert (Ec : c0 = Some (Rose (g0, snd (label tg)) [])).
      { destruct c0 as [[[a v] [|]]|]; cbn in Hr0, Hv0; try discriminate. injection Hr0 as Hr0. unfold raddr in Hr0. cbn in Hr0. subst a. injection Hv0 as ->. reflexivity. }
      subst c0. assert (Hg0 : g0 ∉ raddrs tg) by (intros H; apply (Hap g0 H); cbn; left).
      destruct (nary_generate F al tg h0 g0 pred apr uses flr st) as (st' & h' & tr & T & E & Hc & Hnd & [H1 H2 H3 H4 H5 H6 H7 H8 _ _] & HT); auto.
      { intros m u Hm. destruct (Hu1 m u Hm) as (A & B & D). split; [exact A|]. split; [exact B|]. intros z Hz. destruct (D z Hz) as [D1 D2]. split; [exact D1|]. intros ->. apply D2. cbn. left. }
      destruct (placed_one _ T H4) as (r & Hr & Hra). assert (Ei : GenNary.nimage T = Some r) by (unfold GenNary.nimage; rewrite Hr; reflexivity). rewrite Ei in *.
      exists st', h', tr, (rose_map snd T), (Some r). split; [exact E|]. split; [exact Hc|]. split; [exact Hnd|]. split; [intros f Hf; symmetry; apply HT, Hf|].
      split; [intros m Hm; apply under_map, H8, Hm|]. split; [exact H1|]. split; [exact (f_equal Some (eq_trans Hra H7))|]. split; [exact H2|].
      assert (HT0 : forall a, a ∈ naddrs (GenNary.nimage (Rose (g0, (raddr tg, inl (snd (label tg)))) [])) <-> a = g0).
      { intros a. cbn. rewrite elem_of_list_singleton. reflexivity. }
      split; [|split; [|split]].
      + intros a Ha. destruct (H3 a Ha) as [H|[H|(m & u & Hm & Hz)]]; [left; exact H|right; left; exact H|right; right]. exists m, u. split; [apply H6, Hm|exact Hz].
      + intros a Ha. cbn in Ha. apply elem_of_list_singleton in Ha as ->. assert (Eg : raddr r = g0) by exact (eq_trans Hra H7). cbn. rewrite <- Eg. apply raddr_in.
      + intros m u z Hm Hz. apply used_map in Hm as (g & Hg). pose proof (uses_nimg tg T g m u z H4 Hg Hz) as Hin. rewrite Hr in Hin. cbn in Hin. rewrite app_nil_r in Hin. exact Hin.
      + intros f mof Hf Hm _. unfold MatchKinds.nimage.
        pose proof (eq_trans (eq_sym (f_equal (map (rose_map snd)) Hr)) (eq_trans (nimg_vals T) (f_equal nvimg (HT f Hf)))) as Hv.
        rewrite (nvimg_flat f mof) in Hv by (intros m u Hu; apply Hm, Hu). injection Hv as Hv. exact (f_equal Some Hv).
  Qed.
End Nary.

Section Binary.
  Context {V : Type} `{EV : EqDecision V}.
  Variable F : nat.
  Variable al : allocator (bnode V).
  Notation tree := (rose (addr * V)).
  Notation heap := (gmap addr (bnode V)).
  Notation C := (bin (addr * V)).
  Variable left : addr -> bool.
  Definition sided (b : C) : Prop := forall x l r, bsubtree (BNode x l r) b -> (forall a, baddr l = Some a -> left a = true) /\ (forall a, baddr r = Some a -> left a = false).
  Definition bwhole (h : heap) (t : tree) : Prop := exists b, bin_in h b /\ bin_forest b = [t] /\ sided b.

  (** The nodes of an occurrence have their places in the tree. *)
  Lemma chosen_each ps (ts ms : list tree) m : chosen snd ps ts ms -> m ∈ ms -> exists p t, t ∈ ts /\ occurs (V := V) snd p t m.
  Proof.
    intros H. revert m. induction H as [ts|p ps t ts m0 ms Ho Hc IH|ps t ts ms Hc IH]; intros m Hm.
    - apply elem_of_nil in Hm as [].
    - apply elem_of_cons in Hm as [->|Hm]; [exists p, t; split; [left|exact Ho]|]. destruct (IH m Hm) as (p' & t' & Ht & Ho'). exists p', t'. split; [right; exact Ht|exact Ho'].
    - destruct (IH m Hm) as (p' & t' & Ht & Ho'). exists p', t'. split; [right; exact Ht|exact Ho'].
  Qed.
  Lemma trim_child (m t : tree) c : trim m t -> c ∈ children m -> exists c', c' ∈ children t /\ trim c c'.
  Proof. intros [p H] Hc. destruct H as [p ps x ts ms _ Hch]. destruct (chosen_each _ _ _ _ Hch Hc) as (p' & t' & Ht & Ho). exists t'. split; [exact Ht|exists p'; exact Ho]. Qed.
  Lemma trim_rsub (s m : tree) : rsubtree s m -> forall t, trim m t -> exists s', rsubtree s' t /\ trim s s'.
  Proof.
    induction 1 as [|x cs c Hc _ IH]; intros t Ht; [exists t; split; [constructor|exact Ht]|]. destruct (trim_child _ _ c Ht Hc) as (c' & Hc' & Htc).
    destruct (IH c' Htc) as (s' & Hs & Hts). exists s'. split; [|exact Hts]. destruct t as [y ts]. econstructor; eassumption.
  Qed.
  Section Agree.
    Variable left' : addr -> bool.
    Definition alike (m : tree) : Prop := forall s c, rsubtree s m -> c ∈ children s -> left (raddr c) = left' (raddr c).
    Lemma alike_child x ms m : alike (Rose x ms) -> m ∈ ms -> alike m.
    Proof. intros H Hm s c Hs. apply H. econstructor; eassumption. Qed.
    Lemma alike_kid x ms m : alike (Rose x ms) -> m ∈ ms -> left (raddr m) = left' (raddr m).
    Proof. intros H Hm. apply (H (Rose x ms)); [constructor|exact Hm]. Qed.
    Lemma bsrc_alike h m : alike m -> bsrc left' h m -> bsrc left h m.
    Proof.
      intros Ha H. induction H as [x ms Hv Hnd Hl Hc IH]. constructor; [exact Hv| | |].
      - replace (map (fun m => left (raddr m)) ms) with (map (fun m => left' (raddr m)) ms); [exact Hnd|]. apply map_ext_in. intros m Hm. symmetry. eapply alike_kid; [exact Ha|apply elem_of_list_In, Hm].
      - intros m Hm. rewrite (alike_kid _ _ _ Ha Hm). apply Hl, Hm.
      - intros m Hm. apply IH; [exact Hm|eapply alike_child; eassumption].
    Qed.
    Lemma place_alike m : alike m -> place left m = place left' m.
    Proof.
      induction m as [x ms IH] using rose_ind'. intros Ha. cbn [place]. assert (Hs : forall b, slot left (place left) b ms = slot left' (place left') b ms).
      { intros b. assert (Hk : forall m, m ∈ ms -> left (raddr m) = left' (raddr m)) by (intros m Hm; eapply alike_kid; eassumption).
        assert (Hc : forall m, m ∈ ms -> alike m) by (intros m Hm; eapply alike_child; eassumption). clear Ha.
        induction IH as [|m ms Hm _ IHms]; [reflexivity|]. cbn [slot]. rewrite Hk by left. rewrite Hm by (apply Hc; left).
        rewrite IHms; [reflexivity|intros m' Hm'; apply Hk; right; exact Hm'|intros m' Hm'; apply Hc; right; exact Hm']. }
      rewrite !Hs. reflexivity.
    Qed.
  End Agree.
  Lemma sided_alike h b t m : bin_in h b -> bin_forest b = [t] -> sided b -> trim m t -> alike (left_in h) m.
  Proof.
    intros Hb Hf Hl Ht s c Hs Hc. destruct (trim_rsub _ _ Hs _ Ht) as (s' & Hs' & Hts). destruct (trim_child _ _ _ Hts Hc) as (c' & Hc' & Htc).
    unfold raddr. rewrite (trim_label _ _ Htc). change (fst (label c')) with (raddr c').
    destruct (rsub_bsub s' t Hs' b Hf) as (b' & Hb' & Hf'). apply forest_root in Hf' as (y & l & r & -> & ->). cbn [children] in Hc'.
    destruct (Hl _ _ _ Hb') as [L1 L2]. destruct (left_in_ok h b y l r Hb Hb') as [L3 L4].
    assert (Hroot : forall (d : C), c' ∈ bin_forest d -> baddr d = Some (raddr c')) by (intros [|[z zv] d1 d2] Hd; cbn in Hd; [apply elem_of_nil in Hd as []|apply elem_of_list_singleton in Hd as ->; reflexivity]).
    apply elem_of_app in Hc' as [H|H]; apply Hroot in H; [rewrite (L1 _ H), (L3 _ H)|rewrite (L2 _ H), (L4 _ H)]; reflexivity.
  Qed.
  Lemma bwhole_trim h b t m : bin_in h b -> bin_forest b = [t] -> sided b -> trim m t -> bsrc left h m /\ cut_of (place left m) b /\ bin_forest (place left m) = [m].
  Proof.
    intros Hb Hf Hl Ht. pose proof (sided_alike _ _ _ _ Hb Hf Hl Ht) as Ha. destruct Hb as (par & Hr & Hnd). destruct Ht as [p Ho].
    destruct (bin_occurs h b par p t m Hr Hnd Hf Ho) as (H1 & H2 & H3). rewrite (place_alike _ _ Ha). split; [eapply bsrc_alike; eassumption|auto].
  Qed.
  Lemma bvimg_flat (f : addr -> dec C) mof (t : tree) : (forall m u, f m = Use u -> bin_map snd u = bin_map snd (place left (mof m)) /\ raddr (mof m) = m) ->
    bvimg left (grow f t) = bin_map snd (place left (flat mof f t)).
  Proof.
    intros Hu. induction t as [x cs IH] using rose_ind'. rewrite grow_unfold, flat_unfold. cbn [bvimg place bin_map fst snd].
    assert (Hs : forall s, vslot left (bvimg left) s (growl f cs) = bin_map snd (slot left (place left) s (flat_map (flat1 mof f) cs))).
    { intros s. induction IH as [|c cs Hc _ IHcs]; [reflexivity|]. unfold growl. cbn [flat_map]. fold (growl f cs). unfold grow1, flat1 at 1.
      destruct (f (raddr c)) as [| |u] eqn:Ef; [exact IHcs| |].
      - cbn [app vslot slot]. rewrite Hc. assert (E1 : fst (label (grow f c)) = raddr c) by (destruct c; rewrite grow_unfold; reflexivity).
        assert (E2 : raddr (flat mof f c) = raddr c) by (destruct c; rewrite flat_unfold; reflexivity). rewrite E1, E2.
        destruct (Bool.eqb (left (raddr c)) s); [reflexivity|exact IHcs].
      - destruct (Hu _ _ Ef) as [E1 E2]. cbn [app vslot slot label fst]. rewrite E2. destruct (Bool.eqb (left (raddr c)) s); [cbn [bvimg fst snd]; exact E1|exact IHcs]. }
    rewrite !Hs. reflexivity.
  Qed.
  Lemma bin_size_map {A B} (f : A -> B) b : bin_size (bin_map f b) = bin_size b.
  Proof. induction b as [|x l IHl r IHr]; [reflexivity|]. cbn. rewrite IHl, IHr. reflexivity. Qed.
  Lemma forest_size (b : C) t : bin_forest b = [t] -> bin_size b = rsize t.
  Proof. intros H. rewrite <- (length_baddrs b). unfold baddrs. rewrite map_length, <- forest_labels, H. cbn. rewrite app_nil_r. apply length_preorder. Qed.

  Theorem binary_star_result u0 : ssolid u0 -> lone u0 ->
    StarResult.good_result F (binary_impl V) al b_assign_child_like (binary_kind V) (bimage left) bwhole u0.
  Proof.
    apply (result_good F (binary_impl V) al b_assign_child_like (binary_kind V) (binary_ok F al) (bsrc left) (bimage left) (binary_copies F al left) bwhole).
    - intros h t (b & Hb & Hf & _). apply (binary_facts h b t Hb Hf).
    - intros h t (b & Hb & Hf & _). apply (binary_facts h b t Hb Hf).
    - intros h t x (b & Hb & Hf & _). apply (binary_facts h b t Hb Hf).
    - intros h t a (b & Hb & Hf & _) Ha. rewrite (raddrs_b b t Hf) in Ha. destruct Hb as (par & Hr & _). eapply brep_dom; eassumption.
    - intros h t s (b & Hb & Hf & Hl) Hs. destruct (rsub_bsub s t Hs b Hf) as (b' & Hb' & Hf'). exists b'. split; [eapply bin_in_sub; eassumption|]. split; [exact Hf'|].
      intros x l r Hx. apply (Hl x). clear -Hx Hb'. induction Hb'; [exact Hx|apply bsub_left; auto|apply bsub_right; auto].
    - intros h h' t Hle (b & (par & Hr & Hnd) & Hf & Hl). exists b. split; [|auto]. exists par. split; [|exact Hnd]. eapply brep_ext; [|exact Hr].
      intros a Ha. assert (is_Some (h !! a)) as [y Hy] by (eapply brep_dom; eassumption). rewrite Hy. eapply lookup_weaken; eassumption.
    - intros h t m (b & Hb & Hf & Hl) Ht. eapply bwhole_trim; eassumption.
    - intros tg h0 g0 c0 pred apr uses flr st HF (b & Hb & Hf & Hl) Hc0 Hr0 Hv0 Hap Hu1 Hu2 Hu3 Hu4 Hpred. change (Kinds.C (binary_kind V)) with C in *.
      assert (Ec : c0 = BNode (g0, snd (label tg)) BLeaf BLeaf).
      { destruct c0 as [|[a v] l r]; cbn in Hr0, Hv0; [discriminate|]. injection Hr0 as ->. injection Hv0 as -> H1 H2. apply bmap_nil in H1 as ->, H2 as ->. reflexivity. }
      subst c0. assert (Hg0 : g0 ∉ raddrs tg) by (intros H; apply (Hap g0 H); cbn; left).
      destruct (bin_generate F al b tg Hf left Hl h0 g0 pred apr uses flr st) as (st' & h' & tr & T & E & Hc & Hnd & [H1 H2 H3 H4 H5 H6 H7 H8 _ _] & HT); auto.
      { intros m u Hm. destruct (Hu1 m u Hm) as (A & B & D). split; [exact A|]. split; [exact B|]. intros z Hz. destruct (D z Hz) as [D1 D2]. split; [exact D1|]. intros ->. apply D2. cbn. left. }
      { intros st1 h m q fl st2 d Hbh. apply Hpred. exists b. auto. }
      exists st', h', tr, (rose_map snd T), (bimg left T). split; [exact E|]. split; [exact Hc|]. split; [exact Hnd|]. split; [intros f Hff; symmetry; apply HT, Hff|].
      pose proof (bimg_addr tg left T H4) as Hra.
      split; [intros m Hm; apply under_map, H8, Hm|]. split; [exact H1|]. split; [exact (eq_trans Hra (f_equal Some H7))|]. split; [exact H2|].
      split; [|split; [|split]].
      + intros a Ha. destruct (H3 a Ha) as [H|[H|(m & u & Hm & Hz)]]; [left; exact H|right; left; exact H|right; right]. exists m, u. split; [apply H6, Hm|exact Hz].
      + intros a Ha. cbn in Ha. apply elem_of_list_singleton in Ha as ->. pose proof (baddr_root' (bimg left T)) as Hx. rewrite Hra in Hx. rewrite <- H7. exact Hx.
      + intros m u z Hm Hz. apply used_map in Hm as (g & Hg). exact (uses_bimg b tg Hf left Hl T g m u z H4 Hg Hz).
      + intros f mof Hff Hm Htr. assert (Ev : bin_map snd (bimg left T) = bin_map snd (place left (flat mof f tg))).
        { rewrite <- (bvimg_flat f mof) by (intros m u Hu; destruct (Hm m u Hu) as [[Hi _] Hr]; auto). rewrite <- (HT f Hff). apply bimg_vals. }
        split; [exact Ev|]. change (length (baddrs (bimg left T)) = rsize (flat mof f tg)). rewrite length_baddrs. rewrite <- (bin_size_map snd), Ev, bin_size_map.
        apply forest_size. eapply bwhole_trim; eassumption.
  Qed.
End Binary.
