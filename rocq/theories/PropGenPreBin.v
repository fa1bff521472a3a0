(** PropGenPreBin.v: a generative navigator over a binary tree, in pre-order (C87). *)
From Verif Require Import Base Spec StructNode BinaryNode NaryNode Nav Policy Tree Rep RoseFacts NavFacts BinOrder BinRep NaryRep NaryEdit EditSpec
  World Kinds TreeSpec EditFacts NodeFacts IterTrees Matcher MatchWalk MatchBin Gen GenFacts GenRun GenNary GenBin GenUser GenStep GenPre PruneSpec Examples Examples2 PropGen PropGenStep.

(** The copy [r] has become [r']. *)
Definition bgrown {V} (h h' : gmap addr (bnode V)) (r r' : bin (addr * V)) : Prop :=
  (forall z, z ∈ baddrs r -> z ∈ baddrs r') /\ (forall z, z ∈ baddrs r' -> z ∈ baddrs r \/ h !! z = None) /\ (forall z, z ∉ baddrs r' -> h' !! z = h !! z).
Lemma bgrown_refl {V} (h : gmap addr (bnode V)) r : bgrown h h r r.
Proof. repeat split; auto. Qed.
Lemma bgrown_trans {V} (h h1 h2 : gmap addr (bnode V)) r r1 r2 : bgrown h h1 r r1 -> bgrown h1 h2 r1 r2 -> bgrown h h2 r r2.
Proof.
  intros (A1 & A2 & A3) (B1 & B2 & B3). split; [auto|]. split.
  - intros z Hz. destruct (B2 z Hz) as [H|H]; [auto|]. destruct (decide (z ∈ baddrs r1)) as [Hi|Hn]; [auto|]. right. rewrite <- A3; assumption.
  - intros z Hz. rewrite B3, A3; auto.
Qed.
Lemma bgrown_apart {V} (h h' : gmap addr (bnode V)) (t r r' : bin (addr * V)) : bin_in h t -> bgrown h h' r r' ->
  (forall z, z ∈ baddrs t -> z ∉ baddrs r) -> forall z, z ∈ baddrs t -> z ∉ baddrs r'.
Proof.
  intros (? & Hr & _) (_ & Hg & _) Hd z Hz Hi. destruct (Hg z Hi) as [H|H]; [exact (Hd z Hz H)|]. destruct (brep_dom _ _ _ _ Hr Hz) as [n En]. congruence.
Qed.
Lemma bmade_grown {V} (h h' : gmap addr (bnode V)) (t r r' : bin (addr * V)) a :
  Permutation (baddrs r') (a :: baddrs r) -> generated_binary h h' t r a r' -> bgrown h h' r r'.
Proof.
  intros Hp (Ha & _ & _ & Hf). split; [|split].
  - intros z Hz. rewrite Hp. right. exact Hz.
  - intros z Hz. rewrite Hp in Hz. apply elem_of_cons in Hz as [->|Hz]; auto.
  - intros z Hz. rewrite Hp in Hz. apply not_elem_of_cons in Hz as [H1 H2]. auto.
Qed.
Lemma made_perm {V} c (g : addr) (v : V) gl gr a w (s : bool) : (if s then gl else gr) = BLeaf ->
  Permutation (baddrs (bplug c (with_child s (g, v) gl gr a w))) (a :: baddrs (bplug c (BNode (g, v) gl gr))).
Proof.
  intros H. rewrite !baddrs_bplug. destruct s; subst; unfold with_child; rewrite !baddrs_node; change (baddrs (V := V) BLeaf) with (@nil addr); cbn; solve_Permutation.
Qed.
Lemma bsub_size {A} (s t : bin A) : bsubtree s t -> bin_size s <= bin_size t.
Proof. induction 1; cbn; lia. Qed.

Section Walk.
  Context {V : Type} {EV : EqDecision V}.
  Variable F : nat.
  Variable al : allocator (bnode V).
  Notation heap := (gmap addr (bnode V)).
  Notation C := (bin (addr * V)).
  Notation im := (binary_impl V).
  Variable b : C.
  Variable ra : addr.
  Variable keep : V -> bool.
  Variable rg : ptr.
  Variable flr : list bool.
  Notation keepx := (fun x : addr * V => keep (snd x)).
  Notation root := (MPtr [Some ra; rg] flr).
  Notation pred := (by_value im keep).
  Notation first := (gen_first F im al b_assign_child_like pred root).
  Notation next := (gen_next F im al b_assign_child_like pred root).
  Notation cross := (gen_cross F im al b_assign_child_like pred root).
  Notation loop := (gen_pre_loop F im al b_assign_child_like pred root).
  Hypothesis HF : bin_size b < F.
  Hypothesis HF2 : 2 <= F.
  Hypothesis Hra : baddr b = Some ra.
  (** The last child of every node passes. *)
  Definition last_passes (l r : C) : Prop :=
    match r, l with BNode y _ _, _ => keep (snd y) = true | BLeaf, BNode y _ _ => keep (snd y) = true | BLeaf, BLeaf => True end.
  Hypothesis Hlast : forall x l r, bsubtree (BNode x l r) b -> last_passes l r.
  Notation none := (mp_make [None; None]).

  (** Up from [p] to [p'], last child by last child. *)
  Definition climbs (h : heap) (d : nat) (p p' : mptr) : Prop := forall k,
    (q ← gen_parent im root h p; cross (d + k) tt h p q) = (q ← gen_parent im root h p'; cross k tt h p' q).
  Lemma climbs_trans h d1 d2 p1 p2 p3 : climbs h d1 p1 p2 -> climbs h d2 p2 p3 -> climbs h (d1 + d2) p1 p3.
  Proof. intros H1 H2 k. rewrite <- Nat.add_assoc, H1, H2. reflexivity. Qed.

  Lemma at_child h c g v gl gr x l r ls s rs es e es' fl : bin_in h b -> bsubtree (BNode x l r) b -> bin_forest l ++ bin_forest r = ls ++ s :: rs ->
    bin_at h (bplug c (BNode (g, v) gl gr)) -> bin_forest gl ++ bin_forest gr = es ++ e :: es' ->
    gen_parent im root h (MPtr [Some (raddr s); Some (raddr e)] fl) = Ok (MPtr [Some (fst x); Some g] [false; false]) /\
    gen_is_last im root h (MPtr [Some (raddr s); Some (raddr e)] fl) = Ok (ptr_eqb (Some (raddr s)) (lasta (bin_forest l ++ bin_forest r))).
  Proof using Hra.
    clear -Hra. intros Hin Hsub El Hr Eg. pose proof (bin_row h b ra x l r Hin Hsub Hra) as Hrow. rewrite El in Hrow. assert (Hs : s ∈ ls ++ s :: rs) by set_solver +.
    destruct (bops_row h _ _ (bin_ops_row h b x l r Hin Hsub)) as (_ & Hl & H). destruct (H ls s rs El) as (Hp & _ & _).
    pose proof (GenBin.bin_sub_ops h c _ Hr) as Ho. rewrite brose_forest in Ho. cbn [bin_forest map] in Ho. apply Forall_inv in Ho.
    destruct (bops_row h g _ Ho) as (_ & Hgl & Hg). destruct (Hg es e es' Eg) as (Hgp & _ & _).
    assert (Hroot : mp_eqb (MPtr [Some (raddr s); Some (raddr e)] fl) root = false) by (apply (not_root root ra eq_refl), (rw_root _ _ _ _ Hrow s Hs)).
    split.
    - unfold gen_parent, m_unless_root. rewrite Hroot. exact (do_both _ _ _ _ _ _ Hp Hgp).
    - unfold gen_is_last. rewrite Hroot. unfold mp_parent. rewrite (do_both _ _ _ _ _ _ Hp Hgp). cbn [mbind res_bind]. unfold mp_last, mp_make. cbn [map].
      rewrite (do_both _ _ _ _ _ _ Hl Hgl). reflexivity.
  Qed.
  Lemma climb_child h c g v gl gr x l r ls s es e es' fl : bin_in h b -> bsubtree (BNode x l r) b -> bin_forest l ++ bin_forest r = ls ++ [s] ->
    bin_at h (bplug c (BNode (g, v) gl gr)) -> bin_forest gl ++ bin_forest gr = es ++ e :: es' ->
    climbs h 1 (MPtr [Some (raddr s); Some (raddr e)] fl) (MPtr [Some (fst x); Some g] [false; false]).
  Proof.
    intros Hin Hsub El Hr Eg k. destruct (at_child h c g v gl gr x l r ls s [] es e es' fl Hin Hsub El Hr Eg) as [E1 E2]. rewrite E1. cbn [mbind res_bind Nat.add gen_cross].
    change (mp_bool (MPtr [Some (fst x); Some g] [false; false])) with true. cbv iota. rewrite E2, El, lasta_snoc, ptr_eqb_true. reflexivity.
  Qed.

  (** What a traversal from [p] has done when it stands at the last node below. *)
  Record visited (h h' : heap) (n d : nat) (p q p' : mptr) (r r' : C) : Prop := {
    vd_loop : forall k, loop (n + k) tt h p = loop k tt h' q;
    vd_bool : mp_bool q = true;
    vd_leaf : first tt h' q = Ok (tt, h', none);
    vd_up : climbs h' d q p';
    vd_at : bin_at h' r';
    vd_in : bin_in h' b;
    vd_grown : bgrown h h' r r'
  }.
  Definition chosen (l : C) : C := match l with BNode y _ _ => if keepx y then bkeep keepx l else BLeaf | BLeaf => BLeaf end.
  Definition visits (s : C) : Prop := match s with BLeaf => True | BNode x l r => forall h c g v fl,
    bin_in h b -> bsubtree s b -> bin_at h (bplug c (BNode (g, v) BLeaf BLeaf)) -> (forall z, z ∈ baddrs b -> z ∉ baddrs (bplug c (BNode (g, v) BLeaf BLeaf))) ->
    exists n d h' q fl' gl gr, n < bin_size s /\ d < bin_size s /\
      visited h h' n d (MPtr [Some (fst x); Some g] fl) q (MPtr [Some (fst x); Some g] fl') (bplug c (BNode (g, v) BLeaf BLeaf)) (bplug c (BNode (g, v) gl gr)) /\
      bin_map snd gl = bin_map snd (chosen l) /\ bin_map snd gr = bin_map snd (chosen r) end.

  (** The step of the loop down to a child. *)
  Lemma step_down h h1 x g fl p a k : first tt h (MPtr [Some x; Some g] fl) = Ok (tt, h1, MPtr [Some p; Some a] [false; true]) ->
    loop (S k) tt h (MPtr [Some x; Some g] fl) = loop k tt h1 (MPtr [Some p; Some a] [false; true]).
  Proof.
    intros E. cbn [gen_pre_loop]. change (mp_bool (MPtr [Some x; Some g] fl)) with true. cbv iota. unfold gen_pre_increment. rewrite E. reflexivity.
  Qed.

  (** One passing child, the last one: on side [s]. *)
  Lemma one_child (s : bool) h h1 c g v fl x l r y l' r' a : bin_in h b -> bsubtree (BNode x l r) b ->
    (if s then l else r) = BNode y l' r' -> (exists ls, bin_forest l ++ bin_forest r = ls ++ bin_forest (BNode y l' r')) ->
    visits (BNode y l' r') -> keep (snd y) = true -> chosen (if s then r else l) = BLeaf ->
    (forall z, z ∈ baddrs b -> z ∉ baddrs (bplug c (BNode (g, v) BLeaf BLeaf))) ->
    first tt h (MPtr [Some (fst x); Some g] fl) = Ok (tt, h1, MPtr [Some (fst y); Some a] [false; true]) ->
    generated_binary h h1 b (bplug c (BNode (g, v) BLeaf BLeaf)) a (bplug c (with_child s (g, v) BLeaf BLeaf a (snd y))) ->
    exists n d h' q fl' gl gr, n < bin_size (BNode x l r) /\ d < bin_size (BNode x l r) /\
      visited h h' n d (MPtr [Some (fst x); Some g] fl) q (MPtr [Some (fst x); Some g] fl') (bplug c (BNode (g, v) BLeaf BLeaf)) (bplug c (BNode (g, v) gl gr)) /\
      bin_map snd gl = bin_map snd (chosen l) /\ bin_map snd gr = bin_map snd (chosen r).
  Proof.
    intros Hin Hsub Es [ls El] Hv Hky Hother Hd E Hmade.
    pose proof (bmade_grown h h1 b _ _ a (made_perm c g v BLeaf BLeaf a (snd y) s ltac:(destruct s; reflexivity)) Hmade) as Hgr.
    destruct Hmade as (_ & Hr1 & Hin1 & _). pose proof (bgrown_apart h h1 b _ _ Hin Hgr Hd) as Hd1.
    assert (Hsub1 : bsubtree (BNode y l' r') b).
    { eapply bsub_trans; [|exact Hsub]. destruct s; subst; [apply bsub_left|apply bsub_right]; apply bsub_here. }
    assert (Hsz : bin_size (BNode y l' r') < bin_size (BNode x l r)) by (rewrite <- Es; destruct s; cbn; lia).
    set (c2 := (if s then LeftOf (g, v) BLeaf else RightOf (g, v) BLeaf) :: c).
    assert (Ec : forall u, bplug c2 u = bplug c (if s then BNode (g, v) u BLeaf else BNode (g, v) BLeaf u)) by (intros u; unfold c2; destruct s; reflexivity).
    assert (Ew : bplug c (with_child s (g, v) BLeaf BLeaf a (snd y)) = bplug c2 (BNode (a, snd y) BLeaf BLeaf)) by (rewrite Ec; destruct s; reflexivity).
    rewrite Ew in *. destruct (Hv h1 c2 a (snd y) [false; true] Hin1 Hsub1 Hr1 Hd1) as (n & d & h2 & q & fl2 & gl & gr & Hn & Hdd & [L1 L2 L3 L4 L5 L6 L7] & Hgl & Hgr2).
    set (e := BNode (a, snd y) gl gr) in *. rewrite (Ec e) in L5, L7.
    exists (S n), (d + 1), h2, q, [false; false], (if s then e else BLeaf), (if s then BLeaf else e).
    assert (Ee : (if s then BNode (g, v) e BLeaf else BNode (g, v) BLeaf e) = BNode (g, v) (if s then e else BLeaf) (if s then BLeaf else e)) by (destruct s; reflexivity).
    rewrite Ee in L5, L7.
    split; [lia|]. split; [lia|]. split; [split; try assumption|].
    - intros k. cbn [Nat.add]. rewrite (step_down _ _ _ _ _ _ _ _ E). apply L1.
    - eapply climbs_trans; [exact L4|].
      change (Some a) with (Some (raddr (Rose (a, snd y) (bin_forest gl ++ bin_forest gr)))).
      change (Some (fst y)) with (Some (raddr (Rose y (bin_forest l' ++ bin_forest r')))).
      eapply (climb_child h2 c g v _ _ x l r ls _ [] _ []); [exact L6|exact Hsub|exact El|exact L5|]. destruct s; reflexivity.
    - eapply bgrown_trans; [exact Hgr|exact L7].
    - assert (Hch : bin_map snd e = bin_map snd (chosen (BNode y l' r'))).
      { unfold chosen at 1. rewrite Hky. unfold e. cbn [bin_map bkeep snd]. f_equal; [exact Hgl|exact Hgr2]. }
      destruct s; subst; rewrite Hother; split; (exact Hch || reflexivity).
  Qed.

  Lemma visits_all s : visits s.
  Proof.
    induction s as [|x l IHl r IHr]; [exact I|]. intros h c g v fl Hin Hsub Hr Hd.
    pose proof (C82_first_binary V EV F al h b keep ra rg flr fl x l r c g v Hin Hra Hsub HF2 Hr Hd) as Hfirst. cbv zeta in Hfirst.
    pose proof (Hlast _ _ _ Hsub) as Hl.
    destruct r as [|z rl rr].
    { destruct l as [|y ll lr].
      { cbn [passing] in Hfirst. exists 0, 0, h, (MPtr [Some (fst x); Some g] fl), fl, BLeaf, BLeaf. split; [cbn; lia|]. split; [cbn; lia|]. split; [|split; reflexivity].
        split; try assumption; try reflexivity; [intros k; reflexivity|apply bgrown_refl]. }
      cbn [last_passes] in Hl. cbn [passing] in Hfirst. rewrite Hl in Hfirst. destruct y as [p w]. destruct Hfirst as (h1 & a & E & Hmade).
      eapply (one_child true h h1 c g v fl x _ BLeaf (p, w) ll lr a); try eassumption; try reflexivity. exists []. cbn. reflexivity. }
    cbn [last_passes] in Hl. destruct z as [pz wz]. cbn [snd] in Hl.
    destruct (passing keep l) as [[p w]|] eqn:El.
    2:{ cbn [passing snd] in Hfirst. rewrite Hl in Hfirst. destruct Hfirst as (h1 & a & E & Hmade).
        eapply (one_child false h h1 c g v fl x l _ (pz, wz) rl rr a); try eassumption; try reflexivity.
        - exists (bin_forest l). reflexivity.
        - destruct l as [|y ll lr]; [reflexivity|]. cbn in El |- *. destruct (keep (snd y)); [discriminate|reflexivity]. }
    (* two children *)
    pose proof El as Hp. apply passing_inv in Hp as (ll & lr & ->). cbn [passing snd] in El. destruct (keep w) eqn:Hkw; [|discriminate]. clear El.
    destruct Hfirst as (h1 & a & E & Hmade).
    pose proof (bmade_grown h h1 b _ _ a (made_perm c g v BLeaf BLeaf a w true eq_refl) Hmade) as Hgr.
    destruct Hmade as (_ & Hr1 & Hin1 & _). pose proof (bgrown_apart h h1 b _ _ Hin Hgr Hd) as Hd1.
    assert (Hsub1 : bsubtree (BNode (p, w) ll lr) b) by (eapply bsub_trans; [|exact Hsub]; apply bsub_left, bsub_here).
    assert (Hsub2 : bsubtree (BNode (pz, wz) rl rr) b) by (eapply bsub_trans; [|exact Hsub]; apply bsub_right, bsub_here).
    destruct (IHl h1 (LeftOf (g, v) BLeaf :: c) a w [false; true] Hin1 Hsub1 Hr1 Hd1) as (n & d & h2 & q & fl2 & gl & gr & Hn & Hdd & [L1 L2 L3 L4 L5 L6 L7] & Hgl & Hgr2).
    cbn [bplug fst] in *. set (e := BNode (a, w) gl gr) in *. pose proof (bgrown_apart h1 h2 b _ _ Hin1 L7 Hd1) as Hd2.
    pose proof (C82_next_binary V EV F al h2 b keep ra rg flr fl2 x (p, w) ll lr (BNode (pz, wz) rl rr) c g v (a, w) gl gr L6 Hra Hsub HF2 L5 Hd2) as Hnext. cbv zeta in Hnext.
    cbn [passing snd] in Hnext. rewrite Hl in Hnext. destruct Hnext as (h3 & a3 & En & Hmade3). fold e in Hmade3.
    pose proof (bmade_grown h2 h3 b _ _ a3 (made_perm c g v e BLeaf a3 wz false eq_refl) Hmade3) as Hgr3.
    destruct Hmade3 as (_ & Hr3 & Hin3 & _). pose proof (bgrown_apart h2 h3 b _ _ L6 Hgr3 Hd2) as Hd3.
    destruct (IHr h3 (RightOf (g, v) e :: c) a3 wz [false; true] Hin3 Hsub2 Hr3 Hd3) as (n4 & d4 & h4 & q4 & fl4 & gl4 & gr4 & Hn4 & Hdd4 & [M1 M2 M3 M4 M5 M6 M7] & Hgl4 & Hgr4).
    cbn [bplug fst] in *. set (e4 := BNode (a3, wz) gl4 gr4) in *.
    exists (S n + (S n4)), (d4 + 1), h4, q4, [false; false], e, e4. split; [cbn in *; lia|]. split; [cbn in *; lia|]. split; [split; try assumption|].
    - intros k. cbn [Nat.add]. rewrite (step_down _ _ _ _ _ _ _ _ E). rewrite <- Nat.add_assoc, L1. cbn [Nat.add gen_pre_loop]. rewrite L2. unfold gen_pre_increment. rewrite L3. cbn [mbind res_bind].
      change (mp_bool none) with false. cbv iota.
      assert (Hu : (p0 ← gen_parent im root h2 q; cross F tt h2 q p0) = Ok (tt, h3, MPtr [Some pz; Some a3] [false; true])).
      { pose proof (L4 (S (F - S d))) as Hu. pose proof (bsub_size _ _ Hsub1). replace (d + S (F - S d)) with F in Hu by lia. rewrite Hu.
        destruct (at_child h2 c g v e BLeaf x _ _ [] (Rose (p, w) (bin_forest ll ++ bin_forest lr)) [Rose (pz, wz) (bin_forest rl ++ bin_forest rr)]
          [] (Rose (a, w) (bin_forest gl ++ bin_forest gr)) [] fl2 L6 Hsub eq_refl L5 eq_refl) as [Ep1 El1].
        change (raddr (Rose (p, w) (bin_forest ll ++ bin_forest lr))) with p in Ep1, El1. change (raddr (Rose (a, w) (bin_forest gl ++ bin_forest gr))) with a in Ep1, El1.
        rewrite Ep1. cbn [mbind res_bind gen_cross]. change (mp_bool (MPtr [Some (fst x); Some g] [false; false])) with true. cbv iota. rewrite El1.
        rewrite ptr_eqb_false.
        - exact En.
        - cbn. intros [= Epz]. destruct (bin_in_sub h _ _ Hin Hsub) as (? & _ & Hnd). destruct x as [xa xv]. apply NoDup_baddrs_inv in Hnd as (_ & _ & _ & _ & Hdis).
          apply (Hdis p); rewrite baddrs_node; [left|]. rewrite Epz. left. }
      destruct (gen_parent im root h2 q) as [p0|e0]; [|discriminate]. cbn [mbind res_bind] in Hu |- *. rewrite Hu. cbn [mbind res_bind].
      rewrite (not_root root ra eq_refl).
      + apply M1.
      + pose proof (bin_row h b ra x _ _ Hin Hsub Hra) as Hrow. refine (rw_root _ _ _ _ Hrow (Rose (pz, wz) (bin_forest rl ++ bin_forest rr)) _). cbn. set_solver +.
    - eapply climbs_trans; [exact M4|].
      change (Some a3) with (Some (raddr (Rose (a3, wz) (bin_forest gl4 ++ bin_forest gr4)))).
      change (Some pz) with (Some (raddr (Rose (pz, wz) (bin_forest rl ++ bin_forest rr)))).
      eapply (climb_child h4 c g v e e4 x _ _ [Rose (p, w) (bin_forest ll ++ bin_forest lr)] _ [Rose (a, w) (bin_forest gl ++ bin_forest gr)] _ []); [exact M6|exact Hsub|reflexivity|exact M5|reflexivity].
    - eapply bgrown_trans; [exact Hgr|]. eapply bgrown_trans; [exact L7|]. eapply bgrown_trans; [exact Hgr3|exact M7].
    - cbn [chosen snd bin_map]. rewrite Hkw, Hl. unfold e, e4. cbn [bin_map bkeep snd]. split; f_equal; assumption.
  Qed.
End Walk.

(** As for n-ary trees (PropGenPre.v): if the last child of every node passes, the
    traversal in pre-order leaves under the new node the tree without the nodes
    whose value fails the test and all below them, left children left and right
    ones right: what the breadth-first traversal makes (C47). *)
Theorem C87_generates_binary_partial :
  forall (V : Type) (EV : EqDecision V) (F : nat) (al : allocator (bnode V)) (h : gmap addr (bnode V)) (a : addr) (v : V) (l r : bin (addr * V)) (keep : V -> bool) (g : addr),
  let b := BNode (a, v) l r in
  bin_in h b -> bin_size b < F -> bin_at h (BNode (g, v) BLeaf BLeaf) -> g ∉ baddrs b ->
  (forall x l' r', bsubtree (BNode x l' r') b -> last_passes keep l' r') ->
  exists h' u, generate_pre F (binary_impl V) al b_assign_child_like (by_value (binary_impl V) keep) (mp_make [Some a; Some g]) tt h = Ok (tt, h') /\
    bin_at h' u /\ baddr u = Some g /\ bin_map snd u = bin_map snd (bkeep (fun x => keep (snd x)) b) /\
    (forall z, z ∈ baddrs u -> z = g \/ h !! z = None) /\ (forall z, z ∉ baddrs u -> h' !! z = h !! z) /\ bin_in h' b.
Proof.
  intros V EV F al h a v l r keep g b Hin HF Hg Hn Hlast.
  assert (HF2 : 2 <= F) by (unfold b in HF; cbn in HF; lia).
  destruct (visits_all F al b a keep (Some g) [false; false] HF HF2 eq_refl Hlast b h [] g v [false; false] Hin (bsub_here b) Hg)
    as (n & d & h' & q & fl' & gl & gr & Hn' & Hd & [L1 L2 L3 L4 L5 L6 (L7 & L8 & L9)] & Hl & Hr).
  { intros z Hz Hi. apply elem_of_list_singleton in Hi. subst z. exact (Hn Hz). }
  cbn [bplug fst] in *. exists h', (BNode (g, v) gl gr). split; [|split; [exact L5|split; [reflexivity|split; [|split; [|split; [exact L9|exact L6]]]]]].
  - unfold generate_pre. change (mp_make [Some a; Some g]) with (MPtr [Some a; Some g] [false; false]).
    assert (Hstop : forall k, gen_pre_loop F (binary_impl V) al b_assign_child_like (by_value (binary_impl V) keep) (MPtr [Some a; Some g] [false; false]) (S (S k)) tt h' q = Ok (tt, h')).
    { intros k. cbn [gen_pre_loop]. rewrite L2. unfold gen_pre_increment. rewrite L3. cbn [mbind res_bind]. change (mp_bool (mp_make [None; None])) with false. cbv iota.
      pose proof (L4 (S (F - S d))) as Hu. replace (d + S (F - S d)) with F in Hu by lia. unfold gen_parent in Hu at 2. unfold m_unless_root in Hu.
      replace (mp_eqb (MPtr [Some a; Some g] fl') (MPtr [Some a; Some g] [false; false])) with true in Hu by (symmetry; unfold mp_eqb; apply ptr_eqb_true).
      cbn [mbind res_bind] in Hu. match type of Hu with _ = ?rhs => change rhs with (Ok (tt, h', MPtr [Some a; Some g] fl')) in Hu end.
      destruct (gen_parent (binary_impl V) _ h' q) as [p0|e0]; [|discriminate]. cbn [mbind res_bind] in Hu |- *. rewrite Hu. cbn [mbind res_bind].
      replace (mp_eqb (MPtr [Some a; Some g] fl') (MPtr [Some a; Some g] [false; false])) with true by (symmetry; unfold mp_eqb; apply ptr_eqb_true). reflexivity. }
    pose proof (L1 (F - n)) as E. replace (n + (F - n)) with F in E by lia. etransitivity; [exact E|]. replace (F - n) with (S (S (F - n - 2))) by lia. apply Hstop.
  - unfold b. cbn [bin_map bkeep snd]. f_equal; [exact Hl|exact Hr].
  - intros z Hz. destruct (L8 z Hz) as [H|H]; [left|right; exact H]. apply elem_of_list_singleton in H. exact H.
Qed.
Print Assumptions C87_generates_binary_partial.
(** Without that the traversal ends early: at a childless left child whose right
    sibling fails the test, [++] gives the end, wherever in the tree it stands. *)
Theorem C87_early_binary_refuted :
  forall (V : Type) (EV : EqDecision V) (F : nat) (al : allocator (bnode V)) (h : gmap addr (bnode V)) (b : bin (addr * V)) (keep : V -> bool)
    (ra : addr) (rg : ptr) (flr fl : list bool) (x y z : addr * V) (rl rr : bin (addr * V)) (c : list (bframe (addr * V))) (g : addr) (v : V) (e : addr * V),
  let copy := bplug c (BNode (g, v) (BNode e BLeaf BLeaf) BLeaf) in
  bin_in h b -> baddr b = Some ra -> bsubtree (BNode x (BNode y BLeaf BLeaf) (BNode z rl rr)) b -> 2 <= F -> bin_at h copy -> (forall a, a ∈ baddrs b -> a ∉ baddrs copy) ->
  keep (snd z) = false ->
  gen_pre_increment F (binary_impl V) al b_assign_child_like (by_value (binary_impl V) keep) (MPtr [Some ra; rg] flr) tt h (MPtr [Some (fst y); Some (fst e)] fl) =
    Ok (tt, h, mp_make [None; None]).
Proof.
  intros V EV F al h b keep ra rg flr fl x y z rl rr c g v e copy Hin Hra Hsub HF Hr Hd Hk. destruct e as [ea ev].
  assert (Hsub1 : bsubtree (BNode y BLeaf BLeaf) b) by (eapply bsub_trans; [|exact Hsub]; apply bsub_left, bsub_here).
  pose proof (C82_first_binary V EV F al h b keep ra rg flr fl y BLeaf BLeaf (LeftOf (g, v) BLeaf :: c) ea ev Hin Hra Hsub1 HF Hr Hd) as Hfirst. cbv zeta in Hfirst. cbn [passing] in Hfirst.
  pose proof (C82_next_binary V EV F al h b keep ra rg flr fl x y BLeaf BLeaf (BNode z rl rr) c g v (ea, ev) BLeaf BLeaf Hin Hra Hsub HF Hr Hd) as Hnext. cbv zeta in Hnext. cbn [passing] in Hnext.
  rewrite Hk in Hnext. unfold gen_pre_increment. cbn [fst] in *. rewrite Hfirst. cbn [mbind res_bind]. change (mp_bool (mp_make [None; None])) with false. cbv iota.
  destruct (at_child b ra rg flr Hra h c g v (BNode (ea, ev) BLeaf BLeaf) BLeaf x _ _ [] (Rose y []) [Rose z (bin_forest rl ++ bin_forest rr)] [] (Rose (ea, ev) []) [] fl Hin Hsub eq_refl Hr eq_refl) as [E1 E2].
  change (raddr (Rose y [])) with (fst y) in E1, E2. change (raddr (Rose (ea, ev) [])) with ea in E1, E2. rewrite E1. cbn [mbind res_bind].
  destruct F as [|F]; [lia|]. cbn [gen_cross]. change (mp_bool (MPtr [Some (fst x); Some g] [false; false])) with true. cbv iota. rewrite E2.
  rewrite ptr_eqb_false.
  - cbn [mbind res_bind negb]. rewrite Hnext. reflexivity.
  - cbn. intros [= E]. destruct (bin_in_sub h _ _ Hin Hsub) as (? & _ & Hnd). destruct x as [xa xv], y as [ya yv], z as [za zv]. apply NoDup_baddrs_inv in Hnd as (_ & _ & _ & _ & Hdis).
    cbn in E. apply (Hdis ya); rewrite baddrs_node; [left|]. rewrite E. left.
Qed.
Print Assumptions C87_early_binary_refuted.
(** So a traversal that gets there leaves the copy as it is then, whatever else the
    tree holds. *)
Theorem C87_lost_binary_refuted :
  forall (V : Type) (EV : EqDecision V) (F : nat) (al : allocator (bnode V)) (h : gmap addr (bnode V)) (b : bin (addr * V)) (keep : V -> bool)
    (ra : addr) (rg : ptr) (flr fl : list bool) (x y z : addr * V) (rl rr : bin (addr * V)) (c : list (bframe (addr * V))) (g : addr) (v : V) (e : addr * V),
  let copy := bplug c (BNode (g, v) (BNode e BLeaf BLeaf) BLeaf) in
  bin_in h b -> baddr b = Some ra -> bsubtree (BNode x (BNode y BLeaf BLeaf) (BNode z rl rr)) b -> 2 <= F -> bin_at h copy -> (forall a, a ∈ baddrs b -> a ∉ baddrs copy) ->
  keep (snd z) = false ->
  forall k, gen_pre_loop F (binary_impl V) al b_assign_child_like (by_value (binary_impl V) keep) (MPtr [Some ra; rg] flr) (S (S k)) tt h (MPtr [Some (fst y); Some (fst e)] fl) =
    Ok (tt, h).
Proof.
  intros V EV F al h b keep ra rg flr fl x y z rl rr c g v e copy Hin Hra Hsub HF Hr Hd Hk k.
  pose proof (C87_early_binary_refuted V EV F al h b keep ra rg flr fl x y z rl rr c g v e Hin Hra Hsub HF Hr Hd Hk) as E.
  cbn [gen_pre_loop]. match goal with |- context [mp_bool (MPtr ?l fl)] => change (mp_bool (MPtr l fl)) with true end. cbv iota. rewrite E. reflexivity.
Qed.
Print Assumptions C87_lost_binary_refuted.

(** *** Cases that meet the hypotheses *)
Fixpoint all_last {V} (keep : V -> bool) (b : bin (addr * V)) : bool :=
  match b with
  | BLeaf => true
  | BNode _ l r => match r, l with BNode y _ _, _ => keep (snd y) | BLeaf, BNode y _ _ => keep (snd y) | BLeaf, BLeaf => true end && all_last keep l && all_last keep r
  end.
Lemma all_last_ok {V} (keep : V -> bool) (b : bin (addr * V)) : all_last keep b = true -> forall x l r, bsubtree (BNode x l r) b -> last_passes keep l r.
Proof.
  intros Hp x l r Hs. remember (BNode x l r) as u eqn:Eu. induction Hs as [|y l' r' Hs IH|y l' r' Hs IH].
  - subst u. cbn [all_last] in Hp. apply andb_true_iff in Hp as [Hp _]. apply andb_true_iff in Hp as [Hp _]. unfold last_passes. destruct r, l; auto.
  - cbn [all_last] in Hp. apply andb_true_iff in Hp as [Hp _]. apply andb_true_iff in Hp as [_ Hp]. auto.
  - cbn [all_last] in Hp. apply andb_true_iff in Hp as [_ Hp]. auto.
Qed.
Definition ex_not20 (v : nat) : bool := negb (Nat.eqb v 20).
Example C87_used_binary : bin_in ex_gb ex_bin /\ bin_size ex_bin < 100 /\ bin_at ex_gb (BNode (9%positive, 10) BLeaf BLeaf) /\ 9%positive ∉ baddrs ex_bin /\
  (forall x l r, bsubtree (BNode x l r) ex_bin -> last_passes ex_not20 l r) /\
  bin_map snd (bkeep (fun x => ex_not20 (snd x)) ex_bin) = BNode 10 BLeaf (BNode 30 BLeaf BLeaf).
Proof.
  destruct C47_ex_binary as (H1 & H2 & H3 & H4 & _). do 4 (split; [assumption|]). split; [|reflexivity]. apply all_last_ok. reflexivity.
Qed.
(** 10 (20 (40, 30), 50) when all but 30 pass: the traversal ends at 40 and never
    gets to 50. *)
Definition ex_forked : bin (addr * nat) :=
  BNode (1%positive, 10) (BNode (2%positive, 20) (BNode (4%positive, 40) BLeaf BLeaf) (BNode (5%positive, 30) BLeaf BLeaf)) (BNode (3%positive, 50) BLeaf BLeaf).
Definition ex_forked_copy : bin (addr * nat) :=
  BNode (9%positive, 10) (BNode (10%positive, 20) (BNode (11%positive, 40) BLeaf BLeaf) BLeaf) BLeaf.
Definition ex_forked_heap : gmap addr (bnode nat) :=
  list_to_map
    [(1%positive, BNodeR 10 None (Some 2%positive) (Some 3%positive)); (2%positive, BNodeR 20 (Some 1%positive) (Some 4%positive) (Some 5%positive));
     (3%positive, BNodeR 50 (Some 1%positive) None None); (4%positive, BNodeR 40 (Some 2%positive) None None); (5%positive, BNodeR 30 (Some 2%positive) None None);
     (9%positive, BNodeR 10 None (Some 10%positive) None); (10%positive, BNodeR 20 (Some 9%positive) (Some 11%positive) None);
     (11%positive, BNodeR 40 (Some 10%positive) None None)].
Example C87_early_used_binary : bin_in ex_forked_heap ex_forked /\ baddr ex_forked = Some 1%positive /\
  ex_forked_copy = bplug [LeftOf (9%positive, 10) BLeaf] (BNode (10%positive, 20) (BNode (11%positive, 40) BLeaf BLeaf) BLeaf) /\
  bin_at ex_forked_heap ex_forked_copy /\ Forall (fun a => a ∉ baddrs ex_forked_copy) (baddrs ex_forked) /\
  (exists x y z rl rr, bsubtree (BNode x (BNode y BLeaf BLeaf) (BNode z rl rr)) ex_forked /\ ex_not30 (snd z) = false /\ fst y = 4%positive) /\
  bin_map snd (bkeep (fun x => ex_not30 (snd x)) ex_forked) = BNode 10 (BNode 20 (BNode 40 BLeaf BLeaf) BLeaf) (BNode 50 BLeaf BLeaf).
Proof.
  split; [exists None; split; [vm_compute; tauto|]; apply (bool_decide_unpack _); vm_compute; exact I|]. split; [reflexivity|]. split; [reflexivity|].
  split; [split; [vm_compute; tauto|]; apply (bool_decide_unpack _); vm_compute; exact I|].
  split; [apply (bool_decide_unpack _); vm_compute; exact I|]. split; [|reflexivity].
  eexists _, _, _, _, _. split; [apply bsub_left, bsub_here|]. split; reflexivity.
Qed.
(** The whole traversal of that tree: 50 is missing from the copy. *)
Definition ex_forked_start : gmap addr (bnode nat) :=
  <[9%positive := BNodeR 10 None None None]> (delete 10%positive (delete 11%positive ex_forked_heap)).
Example C87_lost_run : exists h' u,
  generate_pre 100 (binary_impl nat) (first_fit _) b_assign_child_like (by_value (binary_impl nat) ex_not30) (mp_make [Some 1%positive; Some 9%positive]) tt ex_forked_start = Ok (tt, h') /\
  bin_at h' u /\ baddr u = Some 9%positive /\ bin_map snd u = BNode 10 (BNode 20 (BNode 40 BLeaf BLeaf) BLeaf) BLeaf.
Proof.
  destruct (generate_pre _ _ _ _ _ _ _ _) as [[[] h']|e] eqn:E; [|vm_compute in E; discriminate].
  vm_compute in E. injection E as <-. eexists _, (BNode (9%positive, 10) (BNode (10%positive, 20) (BNode (11%positive, 40) BLeaf BLeaf) BLeaf) BLeaf).
  split; [reflexivity|]. split; [|split; reflexivity].
  split; [vm_compute; tauto|]. apply (bool_decide_unpack _). vm_compute. exact I.
Qed.
