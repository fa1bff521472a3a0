(** PropGenPre.v: a generative navigator traversed in pre-order (C87). *)
From Verif Require Import Base Spec StructNode BinaryNode NaryNode Nav Policy Tree Rep RoseFacts NavFacts BinOrder BinRep NaryRep NaryEdit EditSpec
  World Kinds TreeSpec EditFacts NodeFacts IterTrees Matcher MatchWalk MatchBin Gen GenFacts GenRun GenNary GenUser GenStep GenPre PruneSpec Examples Examples2 PropGen PropGenStep.

(** The copy [r] has become [r']. *)
Definition grown {V} (h h' : gmap addr (nnode V)) (r r' : rose (addr * V)) : Prop :=
  (forall z, z ∈ raddrs r -> z ∈ raddrs r') /\ (forall z, z ∈ raddrs r' -> z ∈ raddrs r \/ h !! z = None) /\ (forall z, z ∉ raddrs r' -> h' !! z = h !! z).
Lemma grown_refl {V} (h : gmap addr (nnode V)) r : grown h h r r.
Proof. repeat split; auto. Qed.
Lemma grown_trans {V} (h h1 h2 : gmap addr (nnode V)) r r1 r2 : grown h h1 r r1 -> grown h1 h2 r1 r2 -> grown h h2 r r2.
Proof.
  intros (A1 & A2 & A3) (B1 & B2 & B3). split; [auto|]. split.
  - intros z Hz. destruct (B2 z Hz) as [H|H]; [auto|]. destruct (decide (z ∈ raddrs r1)) as [Hi|Hn]; [auto|]. right. rewrite <- A3; assumption.
  - intros z Hz. rewrite B3, A3; auto.
Qed.
Lemma grown_apart {V} (h h' : gmap addr (nnode V)) (t r r' : rose (addr * V)) : nary_in h t -> grown h h' r r' ->
  (forall z, z ∈ raddrs t -> z ∉ raddrs r) -> forall z, z ∈ raddrs t -> z ∉ raddrs r'.
Proof.
  intros (? & ? & ? & ? & Hr & _) (_ & Hg & _) Hd z Hz Hi. destruct (Hg z Hi) as [H|H]; [exact (Hd z Hz H)|]. destruct (nrep_dom _ _ _ _ _ _ _ Hr Hz) as [n En]. congruence.
Qed.
Lemma made_grown {V} (h h' : gmap addr (nnode V)) (t r : rose (addr * V)) a c y gs w :
  r = plug c (Rose y gs) -> generated_nary h h' t r a (plug c (Rose y (gs ++ [Rose (a, w) []]))) -> grown h h' r (plug c (Rose y (gs ++ [Rose (a, w) []]))).
Proof.
  intros -> (Ha & _ & _ & Hf). destruct y as [g v].
  assert (Hp : Permutation (raddrs (plug c (Rose (g, v) (gs ++ [Rose (a, w) []])))) (a :: raddrs (plug c (Rose (g, v) gs)))).
  { rewrite !raddrs_plug, !raddrs_rose, faddrs_app, faddrs_cons. change (faddrs []) with (@nil addr). rewrite app_nil_r. change (raddrs (Rose (a, w) [])) with [a]. solve_Permutation. }
  split; [|split].
  - intros z Hz. rewrite Hp. right. exact Hz.
  - intros z Hz. rewrite Hp in Hz. apply elem_of_cons in Hz as [->|Hz]; auto.
  - intros z Hz. rewrite Hp in Hz. apply not_elem_of_cons in Hz as [H1 H2]. auto.
Qed.

Section Walk.
  Context {V : Type} {EV : EqDecision V}.
  Variable F : nat.
  Variable al : allocator (nnode V).
  Notation heap := (gmap addr (nnode V)).
  Notation tree := (rose (addr * V)).
  Notation im := (nary_impl V).
  Notation like := (n_assign_child_like F).
  Variable t : tree.
  Variable keep : V -> bool.
  Variable gr : ptr.
  Variable flr : list bool.
  Notation keepx := (fun x : addr * V => keep (snd x)).
  Notation root := (MPtr [Some (raddr t); gr] flr).
  Notation pred := (by_value im keep).
  Notation first := (gen_first F im al like pred root).
  Notation cross := (gen_cross F im al like pred root).
  Notation loop := (gen_pre_loop F im al like pred root).
  Hypothesis HF : rsize t < F.
  Hypothesis Hlast : forall x cs s, rsubtree (Rose x (cs ++ [s])) t -> keep (snd (label s)) = true.
  Notation none := (mp_make [None; None]).

  (** Up from [p] to [p'], last child by last child. *)
  Definition climbs (h : heap) (d : nat) (p p' : mptr) : Prop := forall k,
    (q ← gen_parent im root h p; cross (d + k) tt h p q) = (q ← gen_parent im root h p'; cross k tt h p' q).
  Lemma climbs_trans h d1 d2 p1 p2 p3 : climbs h d1 p1 p2 -> climbs h d2 p2 p3 -> climbs h (d1 + d2) p1 p3.
  Proof. intros H1 H2 k. rewrite <- Nat.add_assoc, H1, H2. reflexivity. Qed.

  Lemma at_child h c g v x ls s rs gs e fl : nary_in h t -> rsubtree (Rose x (ls ++ s :: rs)) t -> nary_at h (plug c (Rose (g, v) (gs ++ [e]))) ->
    gen_parent im root h (MPtr [Some (raddr s); Some (raddr e)] fl) = Ok (MPtr [Some (fst x); Some g] [false; false]) /\
    gen_is_last im root h (MPtr [Some (raddr s); Some (raddr e)] fl) = Ok (match rs with [] => true | _ => false end).
  Proof using.
    clear Hlast HF. intros Hin Hsub Hr. pose proof (nary_row h t x _ Hin Hsub) as Hrow. assert (Hs : s ∈ ls ++ s :: rs) by set_solver +.
    destruct (ops_row h _ _ (in_ops h t x _ Hin Hsub)) as (_ & Hl & H). destruct (H ls s rs eq_refl) as (Hp & _ & _).
    destruct (ops_row h g _ (nary_sub_ops h c g v _ Hr)) as (_ & Hgl & Hg). destruct (Hg gs e [] eq_refl) as (Hgp & _ & _).
    assert (Hroot : mp_eqb (MPtr [Some (raddr s); Some (raddr e)] fl) root = false) by (apply (not_root root (raddr t) eq_refl), (rw_root _ _ _ _ Hrow s Hs)).
    split.
    - unfold gen_parent, m_unless_root. rewrite Hroot. exact (do_both _ _ _ _ _ _ Hp Hgp).
    - unfold gen_is_last. rewrite Hroot. unfold mp_parent. rewrite (do_both _ _ _ _ _ _ Hp Hgp). cbn [mbind res_bind]. unfold mp_last, mp_make. cbn [map].
      rewrite (do_both _ _ _ _ _ _ Hl Hgl). cbn [mbind res_bind]. f_equal. unfold mp_eqb, mp_main, mp_get. cbn [mp_ptrs nth mp_make].
      destruct (rev rs) as [|z rl] eqn:Er.
      + assert (rs = []) as -> by (rewrite <- (rev_involutive rs), Er; reflexivity). rewrite lasta_snoc. apply ptr_eqb_true.
      + assert (E : rs = rev rl ++ [z]) by (rewrite <- (rev_involutive rs), Er; reflexivity).
        replace (match rs with [] => true | _ :: _ => false end) with false by (rewrite E; destruct (rev rl); reflexivity).
        apply ptr_eqb_false. rewrite E. replace (ls ++ s :: rev rl ++ [z]) with ((ls ++ s :: rev rl) ++ [z]) by (rewrite <- app_assoc; reflexivity).
        rewrite lasta_snoc. intros [= Ez]. destruct (nary_in_sub h _ t Hin Hsub) as (? & ? & ? & ? & _ & Hnd). destruct x as [xa xv].
        rewrite raddrs_rose, faddrs_app, faddrs_cons, E, faddrs_app, faddrs_cons in Hnd. apply NoDup_cons in Hnd as [_ Hnd]. apply NoDup_app in Hnd as (_ & _ & Hnd).
        apply NoDup_app in Hnd as (_ & Hnd & _). apply (Hnd (raddr s)); [apply raddr_in|]. rewrite Ez. apply elem_of_app. right. apply elem_of_app. left. apply raddr_in.
  Qed.
  Lemma climb_child h c g v x ls s gs e fl : nary_in h t -> rsubtree (Rose x (ls ++ [s])) t -> nary_at h (plug c (Rose (g, v) (gs ++ [e]))) ->
    climbs h 1 (MPtr [Some (raddr s); Some (raddr e)] fl) (MPtr [Some (fst x); Some g] [false; false]).
  Proof.
    intros Hin Hsub Hr k. destruct (at_child h c g v x ls s [] gs e fl Hin Hsub Hr) as [E1 E2]. rewrite E1. cbn [mbind res_bind Nat.add gen_cross].
    change (mp_bool (MPtr [Some (fst x); Some g] [false; false])) with true. cbv iota. rewrite E2. reflexivity.
  Qed.

  (** What a traversal from [p] at the node of [s] and the new node of [s'] has
      done when it stands at the last node of [s]. *)
  Record visited (h h' : heap) (n d : nat) (p q p' : mptr) (r r' : tree) : Prop := {
    vd_loop : forall k, loop (n + k) tt h p = loop k tt h' q;
    vd_bool : mp_bool q = true;
    vd_leaf : first tt h' q = Ok (tt, h', none);
    vd_up : climbs h' d q p';
    vd_at : nary_at h' r';
    vd_in : nary_in h' t;
    vd_grown : grown h h' r r'
  }.
  Definition copied (cs gs : list tree) : Prop := map (rose_map snd) gs = map (rose_map snd) (flat_map (fun c => if keep (snd (label c)) then [prune keepx c] else []) cs).
  Definition visits (s : tree) : Prop := forall h c g v fl,
    nary_in h t -> rsubtree s t -> nary_at h (plug c (Rose (g, v) [])) -> (forall z, z ∈ raddrs t -> z ∉ raddrs (plug c (Rose (g, v) []))) ->
    exists n d h' q fl' gs, n < rsize s /\ d < rsize s /\
      visited h h' n d (MPtr [Some (raddr s); Some g] fl) q (MPtr [Some (raddr s); Some g] fl') (plug c (Rose (g, v) [])) (plug c (Rose (g, v) gs)) /\ copied (children s) gs.

  Lemma kept_split (rs : list tree) s2 l : kept keepx rs = s2 :: l ->
    exists mid rs2, rs = mid ++ s2 :: rs2 /\ keep (snd (label s2)) = true /\ (forall c, c ∈ mid -> keep (snd (label c)) = false).
  Proof using.
    clear. induction rs as [|a rs IH]; [discriminate|]. unfold kept in *. cbn [List.filter]. destruct (keep (snd (label a))) eqn:E.
    - intros [= -> _]. exists [], rs. split; [reflexivity|]. split; [exact E|]. intros c Hc. apply elem_of_nil in Hc as [].
    - intros H. destruct (IH H) as (mid & rs2 & -> & H1 & H2). exists (a :: mid), rs2. split; [reflexivity|]. split; [exact H1|].
      intros c Hc. apply elem_of_cons in Hc as [->|Hc]; auto.
  Qed.
  Lemma copied_skip mid s2 rs2 u gs : keep (snd (label s2)) = true -> (forall c, c ∈ mid -> keep (snd (label c)) = false) ->
    rose_map snd u = rose_map snd (prune keepx s2) -> copied rs2 gs -> copied (mid ++ s2 :: rs2) (u :: gs).
  Proof using.
    clear. intros H2 Hm Hu Hc. unfold copied in *. induction mid as [|m mid IH].
    - cbn [app flat_map map]. rewrite H2. cbn [app map]. rewrite Hc, Hu. reflexivity.
    - cbn [app flat_map]. rewrite (Hm m) by left. apply IH. intros c Hcm. apply Hm. right. exact Hcm.
  Qed.
  Lemma sizes_app (l1 l2 : list tree) : list_sum (map rsize (l1 ++ l2)) = list_sum (map rsize l1) + list_sum (map rsize l2).
  Proof. rewrite map_app. apply list_sum_app'. Qed.
  Lemma none_kept (rs : list tree) x ls : rsubtree (Rose x (ls ++ rs)) t -> kept keepx rs = [] -> rs = [].
  Proof.
    intros Hsub Hk. destruct (rev rs) as [|z rl] eqn:Er; [rewrite <- (rev_involutive rs), Er; reflexivity|].
    assert (E : rs = rev rl ++ [z]) by (rewrite <- (rev_involutive rs), Er; reflexivity). rewrite E in Hsub, Hk. rewrite app_assoc in Hsub. pose proof (Hlast _ _ _ Hsub) as Hz.
    assert (Hi : In z (kept keepx (rev rl ++ [z]))) by (apply filter_In; split; [apply in_app_iff; right; left; reflexivity|exact Hz]). rewrite Hk in Hi. destruct Hi.
  Qed.

  (** The rest of a row of children, from the last node of the one before. *)
  Lemma rest_of_row : forall k rs, length rs < k -> (forall s, s ∈ rs -> visits s) ->
    forall h c g v x ls s gs e q d fl, nary_in h t -> rsubtree (Rose x (ls ++ s :: rs)) t -> nary_at h (plug c (Rose (g, v) (gs ++ [e]))) ->
      (forall z, z ∈ raddrs t -> z ∉ raddrs (plug c (Rose (g, v) (gs ++ [e])))) ->
      mp_bool q = true -> first tt h q = Ok (tt, h, none) -> climbs h d q (MPtr [Some (raddr s); Some (raddr e)] fl) -> d < list_sum (map rsize (ls ++ s :: rs)) -> length gs <= length ls ->
      exists n d' h' q' gs', n <= list_sum (map rsize rs) /\ d' <= list_sum (map rsize (ls ++ s :: rs)) /\
        visited h h' n d' q q' (MPtr [Some (fst x); Some g] [false; false]) (plug c (Rose (g, v) (gs ++ [e]))) (plug c (Rose (g, v) (gs ++ [e] ++ gs'))) /\ copied rs gs'.
  Proof.
    induction k as [|k IHk]; intros rs Hk Hv h c g v x ls s gs e q d fl Hin Hsub Hr Hd Hq Hleaf Hup Hdb Hlen; [lia|].
    destruct (kept keepx rs) as [|s2 l] eqn:Ek.
    { pose proof (none_kept rs x (ls ++ [s]) ltac:(rewrite <- app_assoc; exact Hsub) Ek) as Er. subst rs.
      exists 0, (d + 1), h, q, []. split; [cbn; lia|]. split; [lia|]. split; [|reflexivity]. split;
      [reflexivity|exact Hq|exact Hleaf|eapply climbs_trans; [exact Hup|eapply climb_child; eassumption]|exact Hr|exact Hin|apply grown_refl]. }
    pose proof Ek as Ek0. apply kept_split in Ek as (mid & rs2 & -> & Hs2 & Hmid).
    assert (HsubF : rsize (Rose x (ls ++ s :: mid ++ s2 :: rs2)) <= rsize t) by (apply sub_size; exact Hsub).
    cbn [rsize] in HsubF. change (fold_right Nat.add 0) with list_sum in HsubF.
    assert (Hpc : plug c (Rose (g, v) (gs ++ [e])) = plug c (Rose (g, v) (gs ++ [e]))) by reflexivity.
    pose proof Hr as Hr0.
    assert (Hstep : exists h1 a, gen_next F im al like pred root tt h (MPtr [Some (raddr s); Some (raddr e)] fl) = Ok (tt, h1, MPtr [Some (raddr s2); Some a] [false; true]) /\
      generated_nary h h1 t (plug c (Rose (g, v) (gs ++ [e]))) a (plug c (Rose (g, v) ((gs ++ [e]) ++ [Rose (a, snd (label s2)) []])))).
    { pose proof (nary_row h t x _ Hin Hsub) as Hrow.
      destruct (ops_row h g (gs ++ [e]) (nary_sub_ops h c g v _ Hr)) as (_ & _ & Hg). destruct (Hg gs e [] eq_refl) as (_ & _ & Hgn).
      assert (Hlc : length (ls ++ s :: mid ++ s2 :: rs2) <= F) by (pose proof (kids_fuel _ _ _ Hsub); lia).
      pose proof (next_step F im keep root (raddr t) eq_refl h _ ls s (mid ++ s2 :: rs2) (raddr e) fl Hrow eq_refl Hlc Hgn) as E. rewrite Ek0 in E.
      destruct (nary_child_made F al h c g v (gs ++ [e]) (snd (label s2)) (Some (raddr s2)) Hr) as (a & h1 & h2 & Ea & Hn & H1 & E2 & H2 & Hf).
      { rewrite !app_length in *. cbn in *. lia. }
      exists h2, a. split; [|split; [exact Hn|split; [exact H2|split; [exact (nary_kept_in h h2 t _ a Hin Hn Hd Hf)|exact Hf]]]].
      eapply gen_some; [exact E|apply (rw_value _ _ _ _ Hrow s2); set_solver +|exact Ea|]. unfold attach_sibling. cbn [ni_ops nary_impl].
      destruct (ops_row h1 g (gs ++ [e]) (nary_sub_ops h1 c g v _ H1)) as (_ & _ & Hg1). destruct (Hg1 gs e [] eq_refl) as (Hp & _ & _). rewrite Hp. exact E2. }
    destruct Hstep as (h1 & a & E & Hmade). pose proof (made_grown h h1 t _ a c (g, v) (gs ++ [e]) _ eq_refl Hmade) as Hgr. destruct Hmade as (_ & Hr1 & Hin1 & _).
    assert (Hd1 := grown_apart h h1 t _ _ Hin Hgr Hd).
    assert (Hsub2 : rsubtree s2 t).
    { clear -Hsub. apply rsubtree_plug in Hsub as [c0 <-]. apply rsubtree_plug. exists ((ls ++ s :: mid, x, rs2) :: c0). cbn [plug]. rewrite <- app_assoc. reflexivity. }
    set (c2 := (gs ++ [e], (g, v), []) :: c).
    assert (Ec2 : forall u, plug c2 u = plug c (Rose (g, v) ((gs ++ [e]) ++ [u]))) by reflexivity.
    destruct (Hv s2 ltac:(set_solver +) h1 c2 a (snd (label s2)) [false; true]) as (n2 & d2 & h2 & q2 & fl2 & gs2 & Hn2 & Hd2 & [L1 L2 L3 L4 L5 L6 L7] & Hc2); try assumption.
    rewrite !Ec2 in *. set (e2 := Rose (a, snd (label s2)) gs2) in *.
    destruct (IHk rs2) with (h := h2) (c := c) (g := g) (v := v) (x := x) (ls := ls ++ s :: mid) (s := s2) (gs := gs ++ [e]) (e := e2) (q := q2) (d := d2) (fl := fl2)
      as (n3 & d3 & h3 & q3 & gs3 & Hn3 & Hd3 & [M1 M2 M3 M4 M5 M6 M7] & Hc3); try assumption.
    { rewrite app_length in Hk. cbn in Hk. lia. }
    { intros s0 Hs0. apply Hv. set_solver +Hs0. }
    { rewrite <- app_assoc. exact Hsub. }
    { exact (grown_apart h1 h2 t _ _ Hin1 L7 Hd1). }
    { rewrite sizes_app. cbn. change (fold_right Nat.add 0) with list_sum. lia. }
    { rewrite !app_length. cbn. lia. }
    exists (S (n2 + n3)), d3, h3, q3, (e2 :: gs3).
    rewrite <- app_assoc in Hd3. cbn [app] in Hd3.
    split; [rewrite sizes_app; cbn [map list_sum]; change (list_sum (rsize s2 :: map rsize rs2)) with (rsize s2 + list_sum (map rsize rs2)); lia|].
    split; [exact Hd3|]. rewrite <- !app_assoc in M5, M7. cbn [app] in M5, M7. split.
    - split; try assumption.
      + intros k0. cbn [Nat.add gen_pre_loop]. rewrite Hq. unfold gen_pre_increment. rewrite Hleaf. cbn [mbind res_bind].
        change (mp_bool none) with false. cbv iota.
        assert (Hu : (p0 ← gen_parent im root h q; cross F tt h q p0) = Ok (tt, h1, MPtr [Some (raddr s2); Some a] [false; true])).
        { pose proof (Hup (S (F - S d))) as Hu. replace (d + S (F - S d)) with F in Hu by lia. rewrite Hu.
          destruct (at_child h c g v x ls s (mid ++ s2 :: rs2) gs e fl Hin Hsub Hr0) as [Ep1 El1]. rewrite Ep1. cbn [mbind res_bind gen_cross].
          change (mp_bool (MPtr [Some (fst x); Some g] [false; false])) with true. cbv iota. rewrite El1.
          replace (match mid ++ s2 :: rs2 with [] => true | _ :: _ => false end) with false by (destruct mid; reflexivity). cbn [mbind res_bind negb]. exact E. }
        destruct (gen_parent im root h q) as [p0|e0]; [|discriminate]. cbn [mbind res_bind] in Hu |- *. rewrite Hu. cbn [mbind res_bind].
        rewrite (not_root root (raddr t) eq_refl) by (pose proof (nary_row h t x _ Hin Hsub) as Hrow; apply (rw_root _ _ _ _ Hrow s2); set_solver +).
        rewrite <- Nat.add_assoc, L1. apply M1.
      + eapply grown_trans; [exact Hgr|]. eapply grown_trans; [exact L7|]. rewrite <- app_assoc in M7 |- *. exact M7.
    - apply copied_skip; try assumption. unfold e2. destruct s2 as [[a2 v2] cs2]. cbn [rose_map prune snd label] in *. f_equal. exact Hc2.
  Qed.

  Lemma visits_all s : visits s.
  Proof.
    induction s as [x cs IH] using rose_ind'. intros h c g v fl Hin Hsub Hr Hd.
    pose proof (C82_first_nary V EV F al h t keep gr flr fl x cs c g v Hin Hsub HF Hr Hd) as Hfirst. cbv zeta in Hfirst.
    destruct (kept keepx cs) as [|s1 l] eqn:Ek.
    { pose proof (none_kept cs x [] Hsub Ek) as Er. subst cs. exists 0, 0, h, (MPtr [Some (raddr (Rose x [])); Some g] fl), fl, [].
      split; [cbn; lia|]. split; [cbn; lia|]. split; [|reflexivity]. split; try assumption; try reflexivity; [intros k; reflexivity|apply grown_refl]. }
    destruct Hfirst as (h1 & a & E & Hmade). pose proof (made_grown h h1 t _ a c (g, v) [] _ eq_refl Hmade) as Hgr. destruct Hmade as (_ & Hr1 & Hin1 & _).
    assert (Hd1 := grown_apart h h1 t _ _ Hin Hgr Hd). apply kept_split in Ek as (mid & rs & -> & Hs1 & Hmid).
    assert (Hsub1 : rsubtree s1 t).
    { clear -Hsub. apply rsubtree_plug in Hsub as [c0 <-]. apply rsubtree_plug. exists ((mid, x, rs) :: c0). reflexivity. }
    set (c2 := ([], (g, v), []) :: c). assert (Ec2 : forall u, plug c2 u = plug c (Rose (g, v) ([] ++ [u]))) by reflexivity.
    rewrite Forall_forall in IH.
    destruct (IH s1 ltac:(set_solver +) h1 c2 a (snd (label s1)) [false; true]) as (n2 & d2 & h2 & q2 & fl2 & gs2 & Hn2 & Hd2 & [L1 L2 L3 L4 L5 L6 L7] & Hc2); try assumption.
    rewrite !Ec2 in *. set (e2 := Rose (a, snd (label s1)) gs2) in *.
    destruct (rest_of_row (S (length rs)) rs) with (h := h2) (c := c) (g := g) (v := v) (x := x) (ls := mid) (s := s1) (gs := @nil tree) (e := e2) (q := q2) (d := d2) (fl := fl2)
      as (n3 & d3 & h3 & q3 & gs3 & Hn3 & Hd3 & [M1 M2 M3 M4 M5 M6 M7] & Hc3); try assumption.
    { lia. }
    { intros s0 Hs0. apply IH. set_solver +Hs0. }
    { exact (grown_apart h1 h2 t _ _ Hin1 L7 Hd1). }
    { rewrite sizes_app. cbn. change (fold_right Nat.add 0) with list_sum. lia. }
    { cbn. lia. }
    exists (S (n2 + n3)), d3, h3, q3, [false; false], (e2 :: gs3).
    assert (Hsz : rsize (Rose x (mid ++ s1 :: rs)) = S (list_sum (map rsize mid) + (rsize s1 + list_sum (map rsize rs)))).
    { cbn [rsize]. change (fold_right Nat.add 0) with list_sum. rewrite sizes_app. reflexivity. }
    assert (Hsz' : list_sum (map rsize (mid ++ s1 :: rs)) = list_sum (map rsize mid) + (rsize s1 + list_sum (map rsize rs))) by (rewrite sizes_app; reflexivity).
    split; [lia|]. split; [lia|]. split.
    - split; try assumption.
      + intros k0. cbn [Nat.add gen_pre_loop]. change (mp_bool (MPtr [Some (raddr (Rose x (mid ++ s1 :: rs))); Some g] fl)) with true. cbv iota. unfold gen_pre_increment.
        change (raddr (Rose x (mid ++ s1 :: rs))) with (fst x). rewrite E. cbn [mbind res_bind].
        change (mp_bool (MPtr [Some (raddr s1); Some a] [false; true])) with true. cbv iota. cbn [mbind res_bind]. rewrite <- Nat.add_assoc, L1. apply M1.
      + eapply grown_trans; [exact Hgr|]. eapply grown_trans; [exact L7|]. exact M7.
    - apply copied_skip; try assumption. unfold e2. destruct s1 as [[a2 v2] cs2]. cbn [rose_map prune snd label] in *. f_equal. exact Hc2.
  Qed.
End Walk.

(** The nodes of a stored tree [t] are traversed in pre-order together with a new
    node holding the root's value.  If the last child of every node passes the
    test, what stands under the new node at the end is a copy of [t] without the
    nodes whose value fails the test and all below them: what the breadth-first
    traversal makes (C47).  Nothing else changed. *)
Theorem C87_generates_partial :
  forall (V : Type) (EV : EqDecision V) (F : nat) (al : allocator (nnode V)) (h : gmap addr (nnode V)) (t : rose (addr * V)) (keep : V -> bool) (g : addr),
  nary_in h t -> rsize t < F -> nary_at h (Rose (g, snd (label t)) []) -> g ∉ raddrs t ->
  (forall x cs s, rsubtree (Rose x (cs ++ [s])) t -> keep (snd (label s)) = true) ->
  exists h' r, generate_pre F (nary_impl V) al (n_assign_child_like F) (by_value (nary_impl V) keep) (mp_make [Some (raddr t); Some g]) tt h = Ok (tt, h') /\
    nary_at h' r /\ raddr r = g /\ rose_map snd r = rose_map snd (prune (fun x => keep (snd x)) t) /\
    (forall a, a ∈ raddrs r -> a = g \/ h !! a = None) /\ (forall a, a ∉ raddrs r -> h' !! a = h !! a) /\ nary_in h' t.
Proof.
  intros V EV F al h t keep g Hin HF Hg Hn Hlast.
  destruct (visits_all F al t keep (Some g) [false; false] HF Hlast t h [] g (snd (label t)) [false; false] Hin (rsub_here t) Hg)
    as (n & d & h' & q & fl' & gs & Hn' & Hd & [L1 L2 L3 L4 L5 L6 (L7 & L8 & L9)] & Hc).
  { intros z Hz Hi. apply elem_of_list_singleton in Hi. cbn in Hi. subst z. exact (Hn Hz). }
  cbn [plug] in *. exists h', (Rose (g, snd (label t)) gs). split; [|split; [exact L5|split; [reflexivity|split; [|split; [|split; [exact L9|exact L6]]]]]].
  - unfold generate_pre. change (mp_make [Some (raddr t); Some g]) with (MPtr [Some (raddr t); Some g] [false; false]).
    assert (Hstop : forall k, gen_pre_loop F (nary_impl V) al (n_assign_child_like F) (by_value (nary_impl V) keep) (MPtr [Some (raddr t); Some g] [false; false]) (S (S k)) tt h' q = Ok (tt, h')).
    { intros k. cbn [gen_pre_loop]. rewrite L2. unfold gen_pre_increment. rewrite L3. cbn [mbind res_bind]. change (mp_bool (mp_make [None; None])) with false. cbv iota.
      pose proof (L4 (S (F - S d))) as Hu. replace (d + S (F - S d)) with F in Hu by lia. unfold gen_parent in Hu at 2. unfold m_unless_root in Hu.
      replace (mp_eqb (MPtr [Some (raddr t); Some g] fl') (MPtr [Some (raddr t); Some g] [false; false])) with true in Hu by (symmetry; unfold mp_eqb; apply ptr_eqb_true).
      cbn [mbind res_bind] in Hu. match type of Hu with _ = ?rhs => change rhs with (Ok (tt, h', MPtr [Some (raddr t); Some g] fl')) in Hu end.
      destruct (gen_parent (nary_impl V) _ h' q) as [p0|e0]; [|discriminate]. cbn [mbind res_bind] in Hu |- *. rewrite Hu. cbn [mbind res_bind].
      replace (mp_eqb (MPtr [Some (raddr t); Some g] fl') (MPtr [Some (raddr t); Some g] [false; false])) with true by (symmetry; unfold mp_eqb; apply ptr_eqb_true). reflexivity. }
    pose proof (L1 (F - n)) as E. replace (n + (F - n)) with F in E by lia. etransitivity; [exact E|]. replace (F - n) with (S (S (F - n - 2))) by lia. apply Hstop.
  - destruct t as [[ta tv] cs]. cbn [rose_map prune snd label children] in *. f_equal. exact Hc.
  - intros a Ha. destruct (L8 a Ha) as [H|H]; [left|right; exact H]. apply elem_of_list_singleton in H. exact H.
Qed.
Print Assumptions C87_generates_partial.
(** Without that the traversal ends early: at a childless node that has siblings to
    its right none of which passes the test, [++] gives the end, wherever in the
    tree the node stands. *)
Theorem C87_early_refuted :
  forall (V : Type) (EV : EqDecision V) (F : nat) (al : allocator (nnode V)) (h : gmap addr (nnode V)) (t : rose (addr * V)) (keep : V -> bool)
    (gr : ptr) (flr fl : list bool) (x : addr * V) (ls rs : list (rose (addr * V))) (y : addr * V) (c : ctx (addr * V)) (g : addr) (v : V)
    (gs : list (rose (addr * V))) (e : addr * V),
  let r := plug c (Rose (g, v) (gs ++ [Rose e []])) in
  nary_in h t -> rsubtree (Rose x (ls ++ Rose y [] :: rs)) t -> rsize t < F -> nary_at h r -> (forall z, z ∈ raddrs t -> z ∉ raddrs r) ->
  rs <> [] -> kept (fun z => keep (snd z)) rs = [] ->
  gen_pre_increment F (nary_impl V) al (n_assign_child_like F) (by_value (nary_impl V) keep) (MPtr [Some (raddr t); gr] flr) tt h (MPtr [Some (fst y); Some (fst e)] fl) =
    Ok (tt, h, mp_make [None; None]).
Proof.
  intros V EV F al h t keep gr flr fl x ls rs y c g v gs e r Hin Hsub HF Hr Hd Hrs Hk.
  assert (Hsub1 : rsubtree (Rose y []) t).
  { clear -Hsub. apply rsubtree_plug in Hsub as [c0 <-]. apply rsubtree_plug. exists ((ls, x, rs) :: c0). reflexivity. }
  destruct e as [ea ev].
  pose proof (C82_first_nary V EV F al h t keep gr flr fl y [] ((gs, (g, v), []) :: c) ea ev Hin Hsub1 HF Hr Hd) as Hfirst. cbv zeta in Hfirst. unfold kept in Hfirst at 1. cbn [List.filter] in Hfirst.
  unfold gen_pre_increment. cbn [fst]. rewrite Hfirst. cbn [mbind res_bind]. change (mp_bool (mp_make [None; None])) with false. cbv iota.
  destruct (at_child t gr flr h c g v x ls (Rose y []) rs gs (Rose (ea, ev) []) fl Hin Hsub Hr) as [E1 E2].
  change (raddr (Rose y [])) with (fst y) in E1, E2. change (raddr (Rose (ea, ev) [])) with ea in E1, E2. rewrite E1. cbn [mbind res_bind].
  destruct F as [|F]; [lia|]. cbn [gen_cross]. change (mp_bool (MPtr [Some (fst x); Some g] [false; false])) with true. cbv iota. rewrite E2.
  replace (match rs with [] => true | _ :: _ => false end) with false by (destruct rs; [congruence|reflexivity]). cbn [mbind res_bind negb].
  pose proof (nary_row h t x _ Hin Hsub) as Hrow.
  destruct (ops_row h g (gs ++ [Rose (ea, ev) []]) (nary_sub_ops h c g v _ Hr)) as (_ & _ & Hg). destruct (Hg gs (Rose (ea, ev) []) [] eq_refl) as (_ & _ & Hgn).
  pose proof (next_step (S F) (nary_impl V) keep (MPtr [Some (raddr t); gr] flr) (raddr t) eq_refl h _ ls (Rose y []) rs ea fl Hrow eq_refl ltac:(pose proof (kids_fuel _ _ _ Hsub); lia) Hgn) as E.
  rewrite Hk in E. unfold gen_next. erewrite gen_nothing; [reflexivity|exact E].
Qed.
Print Assumptions C87_early_refuted.
(** So a traversal that gets there leaves the copy as it is then, whatever else the
    tree holds. *)
Theorem C87_lost_refuted :
  forall (V : Type) (EV : EqDecision V) (F : nat) (al : allocator (nnode V)) (h : gmap addr (nnode V)) (t : rose (addr * V)) (keep : V -> bool)
    (gr : ptr) (flr fl : list bool) (x : addr * V) (ls rs : list (rose (addr * V))) (y : addr * V) (c : ctx (addr * V)) (g : addr) (v : V)
    (gs : list (rose (addr * V))) (e : addr * V),
  let r := plug c (Rose (g, v) (gs ++ [Rose e []])) in
  nary_in h t -> rsubtree (Rose x (ls ++ Rose y [] :: rs)) t -> rsize t < F -> nary_at h r -> (forall z, z ∈ raddrs t -> z ∉ raddrs r) ->
  rs <> [] -> kept (fun z => keep (snd z)) rs = [] ->
  forall k, gen_pre_loop F (nary_impl V) al (n_assign_child_like F) (by_value (nary_impl V) keep) (MPtr [Some (raddr t); gr] flr) (S (S k)) tt h (MPtr [Some (fst y); Some (fst e)] fl) =
    Ok (tt, h).
Proof.
  intros V EV F al h t keep gr flr fl x ls rs y c g v gs e r Hin Hsub HF Hr Hd Hrs Hk k.
  pose proof (C87_early_refuted V EV F al h t keep gr flr fl x ls rs y c g v gs e Hin Hsub HF Hr Hd Hrs Hk) as E.
  cbn [gen_pre_loop]. match goal with |- context [mp_bool (MPtr ?l fl)] => change (mp_bool (MPtr l fl)) with true end. cbv iota. rewrite E. reflexivity.
Qed.
Print Assumptions C87_lost_refuted.

(** *** Cases that meet the hypotheses *)
Fixpoint last_pass {V} (keep : V -> bool) (t : rose (addr * V)) : bool :=
  match t with Rose _ cs => match rev cs with [] => true | s :: _ => keep (snd (label s)) end && forallb (last_pass keep) cs end.
Lemma last_pass_ok {V} (keep : V -> bool) (t : rose (addr * V)) : last_pass keep t = true ->
  forall x cs s, rsubtree (Rose x (cs ++ [s])) t -> keep (snd (label s)) = true.
Proof.
  intros Hp x cs s Hs. remember (Rose x (cs ++ [s])) as u eqn:Eu. induction Hs as [|y ds d Hd _ IH].
  - subst u. cbn [last_pass] in Hp. rewrite rev_app_distr in Hp. apply andb_true_iff in Hp as [H _]. exact H.
  - cbn [last_pass] in Hp. apply andb_true_iff in Hp as [_ Hp]. rewrite forallb_forall in Hp. apply IH. apply Hp, elem_of_list_In, Hd.
Qed.
(** 10 (20, 30 (50, 60), 40): without 30 the last children pass; without 40 and 30
    the traversal ends at 20. *)
Example C87_used : nary_in ex_g ex_nary /\ rsize ex_nary < 100 /\ nary_at ex_g (Rose (9%positive, 10) []) /\ 9%positive ∉ raddrs ex_nary /\
  (forall x cs s, rsubtree (Rose x (cs ++ [s])) ex_nary -> ex_not30 (snd (label s)) = true) /\
  rose_map snd (prune (fun x => ex_not30 (snd x)) ex_nary) = Rose 10 [Rose 20 []; Rose 40 []].
Proof.
  destruct C47_ex_nary as (H1 & H2 & H3 & H4 & H5). do 4 (split; [assumption|]). split; [|exact H5].
  apply last_pass_ok. reflexivity.
Qed.
Example C87_early_used : nary_in ex_g1 ex_nary /\ nary_at ex_g1 (plug [] (Rose (9%positive, 10) ([] ++ [Rose (10%positive, 20) []]))) /\
  (forall z, z ∈ raddrs ex_nary -> z ∉ raddrs (plug [] ex_r1)) /\
  exists x y rs, rsubtree (Rose x ([] ++ Rose y [] :: rs)) ex_nary /\ rs <> [] /\ kept (fun z => Nat.leb (snd z) 20) rs = [] /\ length rs = 2.
Proof.
  destruct C82_ex_next as (H1 & H2 & H3 & _ & x & l & s1 & s2 & H4 & _). split; [exact H1|]. split; [exact H2|]. split; [exact H3|].
  eexists _, _, _. split; [apply rsub_here|]. split; [discriminate|]. split; reflexivity.
Qed.
