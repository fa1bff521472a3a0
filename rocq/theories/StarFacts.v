(** StarFacts.v: the search of a pattern with [star] in which every [opt] and
    [star] has children. *)
From Verif Require Import Base Spec StructNode BinaryNode NaryNode Nav Policy Tree Rep RoseFacts NavFacts Matcher MatchWalk Star StarSpec StarLemmas StarWalk.

(** The parts of [xsearch_node] at a matcher. *)
Section Parts.
  Context {V Nd : Type}.
  Variable F : nat.
  Variable im : node_impl V Nd.
  Variable h : gmap addr Nd.
  Variable k : xkind.
  Variable vm : V -> bool.
  Variables fc ns : xpat V.
  Variable cb : callbacks.
  Variable cut0 : ptr.
  Notation p := (XN k vm fc ns).
  Notation xsearch_node := (xsearch_node F im h).

  Definition xchild (sc : xstate) (i : sit) : res (bool * xstate) :=
    '(b, sc', _, _) ← xsearch_node fc sc i NoCb None; Ok (b, sc').
  Definition ximpl (own : ptr) (sc : xstate) (i : sit) : res (bool * ptr * xstate) :=
    v ← ni_value im h (si_cur i);
    match k with
    | XStar q =>
        if negb (vm v) then
          if xmay_steal fc
          then i' ← si_fixed F im h cut0 i; '(b, sc') ← xchild sc i'; Ok (b, own, sc')
          else Ok (false, own, sc)
        else
          i' ← match_iterator F im h vm (is_possessive q) own i;
          '(b, sc', _, own') ← xsearch_node fc sc i' (if is_possessive q then AckCb else RematchCb) own;
          if negb (is_possessive q) && xmay_steal fc && negb b
          then i'' ← si_fixed F im h cut0 i; '(b', sc'') ← xchild sc' i''; Ok (b', own', sc'')
          else Ok (b, own', sc')
    | XOpt q =>
        if negb (vm v) then
          if xmay_steal fc
          then i' ← si_fixed F im h cut0 i; '(b, sc') ← xchild sc i'; Ok (b, own, sc')
          else Ok (false, own, sc)
        else
          i' ← si_children F im h i;
          '(b, sc') ← xchild sc i';
          if negb (is_possessive q) && xmay_steal fc && negb b
          then i'' ← si_fixed F im h cut0 i; '(b', sc'') ← xchild sc' i''; Ok (b', own, sc'')
          else Ok (b, own, sc')
    | _ =>
        if negb (vm v) then Ok (false, own, sc)
        else i' ← si_children F im h i; '(b, sc') ← xchild sc i'; Ok (b, own, sc')
    end.
  Fixpoint xloop (n : nat) (m own : ptr) (sc : xstate) (begin i : sit) (cut : ptr)
    : res (bool * ptr * ptr * xstate * sit * ptr) :=
    match n with
    | 0 => Err OutOfFuel
    | S n =>
        match si_cur i with
        | None => if xmatches_null false p then Ok (true, m, own, sc, begin, cut) else Ok (false, m, own, sc, i, cut)
        | Some _ =>
            '(b, own', sc') ← ximpl own sc i;
            if b : bool then
              let cut' := acknowledge cb cut (si_cur i) in
              i' ← si_incr F im h cut' i; Ok (true, si_cur i, own', sc', i', cut')
            else i' ← si_incr F im h cut i; xloop n m own' sc' begin i' cut
        end
    end.
  Definition xthis (m own : ptr) (sc : xstate) (i : sit) (cut : ptr) : res (bool * ptr * ptr * xstate * sit * ptr) :=
    match k with
    | XCapture =>
        '(b, sc', i', cut') ← xsearch_node fc sc i (match cb with NoCb => NoCb | _ => AckCb end) cut;
        Ok (b, if b : bool then xs_matched sc' else m, own, sc', i', cut')
    | _ =>
        if xprefers_null p then Ok (true, m, own, sc, i, cut)
        else xloop F m own sc i i cut
    end.
  Fixpoint xrematch (n : nat) (m own : ptr) (sc sn : xstate) (i : sit) (cut : ptr)
    : res (bool * ptr * ptr * xstate * xstate * sit * ptr) :=
    match n with
    | 0 => Err OutOfFuel
    | S n =>
        match si_cur i with
        | None => Ok (false, m, own, sc, sn, i, cut)
        | Some _ =>
            match m with
            | None => Ok (false, m, own, sc, sn, i, None)
            | Some _ =>
                start ← backtrack F im h m i;
                '(b, m', own', sc', i', cut') ← xthis m own sc start None;
                if negb b then xrematch n m' own' sc' sn i' cut'
                else
                  '(b2, sn', i2, cut2) ← xsearch_node ns sn i' cb cut';
                  if b2 : bool then Ok (true, m', own', sc', sn', i2, cut2)
                  else xrematch n m' own' sc' sn' start cut2
            end
        end
    end.
  Definition xnode (s : xstate) (it : sit) : res (bool * xstate * sit * ptr) :=
    '(b, m, own, sc, i, cut1) ← xthis (xs_matched s) (xs_cut s) (xs_first s) it cut0;
    if negb b then Ok (false, XS m own sc (xs_next s), i, cut1)
    else
      match ns with
      | XNil => Ok (true, XS m own sc (xs_next s), i, cut1)
      | XN _ _ _ _ =>
          '(b2, sn, i2, cut2) ← xsearch_node ns (xs_next s) i cb cut1;
          if b2 : bool then Ok (true, XS m own sc sn, i2, cut2)
          else
            '(b3, m3, own3, sc3, sn3, i3, cut3) ←
              (match cb with
               | RematchCb => xrematch F m own sc sn i cut2
               | _ => Ok (false, m, own, sc, sn, i2, cut2)
               end);
            if b3 : bool then Ok (true, XS m3 own3 sc3 sn3, i3, cut3)
            else if xmatches_null false p && negb (is_null m3)
                 then i4 ← si_other_node F im h cut3 i3 m3;
                      '(b5, sn5, i5, cut5) ← xsearch_node ns (xreset sn3) i4 cb cut3;
                      Ok (b5, XS None own3 (xreset sc3) sn5, i5, cut5)
                 else Ok (false, XS m3 own3 sc3 sn3, i3, cut3)
      end.
  Lemma xsearch_node_eq s it : xsearch_node p s it cb cut0 = xnode s it.
  Proof. reflexivity. Qed.
End Parts.

Section Search.
  Context {V Nd : Type}.
  Variable F : nat.
  Variable im : node_impl V Nd.
  Variable h : gmap addr Nd.
  Notation tree := (rose (addr * V)).
  Notation ops := (ni_ops im h).
  Notation below := (below (A := addr * V) snd).
  Notation level := (level (A := addr * V) snd).
  Notation smatch := (smatch (A := addr * V) snd).
  Variable t0 : tree.
  Hypothesis Hops : ops_ok ops (rose_map fst t0).
  Hypothesis Hnd : NoDup (map fst (preorder t0)).
  Hypothesis Hval : forall x, x ∈ preorder t0 -> ni_value im h (Some (fst x)) = Ok (snd x).
  Hypothesis HF : rsize t0 < F.
  Notation good := (good t0).
  Notation here := (here im h t0).
  Notation goes := (goes F im h t0).
  Notation no := (fun _ : V => false).
  Notation xsearch_node := (xsearch_node F im h).

  (** The nodes recorded in a state. *)
  Inductive records : list (spat V) -> xstate -> list (asg (addr * V)) -> Prop :=
  | Rec_nil s : records [] s []
  | Rec_cons u us s n la l : xs_matched s = Some (raddr n) -> records (subs u) (xs_first s) la -> records us (xs_next s) l ->
      records (u :: us) s (Asg n la :: l).

  (** What is left in [subtree_cut] by earlier searches does no harm. *)
  Definition okcut (ent : V -> bool) (us : list (spat V)) (cut : ptr) : Prop :=
    forall s, good s -> cut = Some (raddr s) -> ent (snd (label s)) = false \/ exists u a, us = [u] /\ smatch u s a.
  Definition finecut (u : spat V) (cut : ptr) : Prop :=
    match u with SStar q vm cs => q = QPossessive \/ okcut vm cs cut | _ => True end.
  Inductive fines : list (spat V) -> xstate -> Prop :=
  | Fines_nil s : fines [] s
  | Fines_cons u us s : finecut u (xs_cut s) -> fines (subs u) (xs_first s) -> fines us (xs_next s) -> fines (u :: us) s.
  Lemma okcut_none ent us : okcut ent us None.
  Proof. intros s _ E. discriminate. Qed.
  Lemma finecut_none u : finecut u None.
  Proof. destruct u; cbn; auto. right. apply okcut_none. Qed.
  Lemma fines_fresh us : fines us XSNil.
  Proof.
    assert (H : forall u, fines (subs u) XSNil).
    { induction u as [vm cs IH|q vm cs IH|q vm cs IH|p IH] using spat_ind'; cbn [subs].
      1-3: induction IH as [|c cs Hc _ IHc]; [constructor|]; apply Fines_cons; [apply finecut_none|exact Hc|exact IHc].
      apply Fines_cons; [apply finecut_none|exact IH|constructor]. }
    induction us as [|u us IH]; [constructor|]. apply Fines_cons; [apply finecut_none|apply H|exact IH].
  Qed.
  Lemma fines_reset us s : fines us s -> fines us (xreset s).
  Proof.
    induction 1 as [s|u us s Hc _ H1 _ H2]; [constructor|]. apply Fines_cons.
    - destruct s; exact Hc.
    - destruct s; [exact H1|exact H1].
    - destruct s; [exact H2|exact H2].
  Qed.

  Definition easy (ent : V -> bool) (us : list (spat V)) : Prop :=
    length us <= 1 \/ forall u v, u ∈ us -> heads u v = true -> ent v = false.
  (** Every search ends. *)
  Definition mode_ok (ent : V -> bool) (deep : option (@origin V * ptr)) (cb : callbacks) : Prop :=
    match cb with NoCb => forall v, ent v = false | AckCb => True | RematchCb => deep <> None end.

  Definition chain_ok (us : list (spat V)) : Prop :=
    forall ent deep cb s it cut fs, mode_ok ent deep cb -> goes ent deep cut it fs -> fsize fs < F ->
    exists b s' i' cut', xsearch_node (xchain us) s it cb cut = Ok (b, s', i', cut') /\
      (b = true -> exists l, below ent us fs l /\ records us s' l) /\
      (Forall tame us -> easy ent us -> fines us s -> okcut ent us cut ->
       fines us s' /\ okcut ent us cut' /\ (b = false -> forall l, ~ below ent us fs l)).
  Definition safe (ent : V -> bool) (u : spat V) (cut : ptr) : Prop :=
    forall s, good s -> cut = Some (raddr s) -> ent (snd (label s)) = false \/ exists a, smatch u s a.
  Definition this_ok (u : spat V) : Prop :=
    forall ent deep cb cut0 ns m own sc i cut fs, mode_ok ent deep cb -> goes ent deep cut i fs -> fsize fs < F ->
    exists b m' own' sc' i' cut',
      xthis F im h (kind_of u) (test_of u) (xchain (subs u)) ns cb cut0 m own sc i cut = Ok (b, m', own', sc', i', cut') /\
      (cut' = cut \/ exists s a, good s /\ cut' = Some (raddr s) /\ smatch u s a) /\
      (b = true -> exists s la fsr i0 c0, smatch u s (Asg s la) /\ m' = Some (raddr s) /\ records (subs u) sc' la /\
         goes ent deep cut' i' fsr /\ goes ent deep c0 i0 (s :: fsr) /\ fsize (s :: fsr) <= fsize fs /\
         (forall us l, below ent us (s :: fsr) l -> below ent us fs l) /\
         (tame u -> finecut u own -> fines (subs u) sc -> safe ent u cut ->
          forall us l, below ent (u :: us) fs l -> exists l', below ent (u :: us) (s :: fsr) l')) /\
      (b = false -> m' = m /\ si_cur i' = None) /\
      (tame u -> finecut u own -> fines (subs u) sc -> safe ent u cut ->
       finecut u own' /\ fines (subs u) sc' /\ (b = false -> forall us l, ~ below ent (u :: us) fs l)).

  (** ** A chain of matchers *)
  Definition disjoint (ent : V -> bool) (us : list (spat V)) : Prop := forall u v, u ∈ us -> heads u v = true -> ent v = false.
  Definition strong (ent : V -> bool) (cut : ptr) : Prop := forall s, good s -> cut = Some (raddr s) -> ent (snd (label s)) = false.
  Lemma strong_none ent : strong ent None.
  Proof. intros s _ E. discriminate. Qed.
  Lemma strong_ok ent us cut : strong ent cut -> okcut ent us cut.
  Proof. intros H s Hg E. left. apply (H s Hg E). Qed.
  Lemma ok_strong ent us cut : disjoint ent us -> okcut ent us cut -> strong ent cut.
  Proof.
    intros Hd H s Hg E. destruct (H s Hg E) as [H1|(u & a & -> & Hm)]; [exact H1|]. apply (Hd u); [set_solver +|]. eapply smatch_heads, Hm.
  Qed.
  Lemma strong_safe ent u cut : strong ent cut -> safe ent u cut.
  Proof. intros H s Hg E. left. apply (H s Hg E). Qed.
  Lemma cut_strong ent u cut cut' : (forall v, heads u v = true -> ent v = false) -> strong ent cut ->
    (cut' = cut \/ exists s a, good s /\ cut' = Some (raddr s) /\ smatch u s a) -> strong ent cut'.
  Proof.
    intros Hd Hs [->|(s & a & Hg & -> & Hm)]; [exact Hs|]. intros s' Hg' [= E].
    rewrite <- (good_unique t0 Hnd s s' Hg Hg' E). apply Hd. eapply smatch_heads, Hm.
  Qed.

  Section Rematch.
    Variables (u : spat V) (us : list (spat V)) (ent : V -> bool) (o : @origin V) (r : ptr) (cut0 : ptr).
    Hypothesis Hu : this_ok u.
    Hypothesis Hus : chain_ok us.
    Notation rematch := (xrematch F im h (kind_of u) (test_of u) (xchain (subs u)) (xchain us) RematchCb cut0).
    Lemma rematch_ok n : forall m own sc sn i cut s fsr i0 c0, m = Some (raddr s) -> goes ent (Some (o, r)) c0 i0 (s :: fsr) ->
      fsize (s :: fsr) < n -> fsize (s :: fsr) < F -> (si_cur i <> None -> si_org i = o /\ it_root (si_it i) = r) ->
      exists b m' own' sc' sn' i' cut', rematch n m own sc sn i cut = Ok (b, m', own', sc', sn', i', cut') /\
        (b = true -> exists s' la l, m' = Some (raddr s') /\ records (subs u) sc' la /\ records us sn' l /\
           below ent (u :: us) (s :: fsr) (Asg s' la :: l)) /\
        (tame u -> Forall tame us -> disjoint ent (u :: us) -> finecut u own -> fines (subs u) sc -> fines us sn -> strong ent cut ->
         finecut u own' /\ fines (subs u) sc' /\ fines us sn' /\ strong ent cut').
    Proof.
      induction n as [|n IH]; intros m own sc sn i cut s fsr i0 c0 Hm Hg Hn HnF Hi; [lia|]. subst m. cbn [xrematch].
      destruct (si_cur i) as [a|] eqn:Ec.
      2: { eexists _, _, _, _, _, _, _. split; [reflexivity|]. split; [discriminate|]. tauto. }
      destruct (Hi ltac:(discriminate)) as [Ho Hr]. inversion Hg as [|? ? ? ? Hh Hinc Hor Hback]; subst.
      destruct (Hback _ _ i eq_refl eq_refl eq_refl) as (st & fs' & Eb & Hgs & Hsz & Hsub).
      rewrite Eb. cbn [mbind res_bind].
      destruct (Hu ent (Some (si_org i, it_root (si_it i))) RematchCb cut0 (xchain us) (Some (raddr s)) own sc st None fs' ltac:(discriminate) Hgs ltac:(lia))
        as (b & m' & own' & sc' & i' & cut' & Et & Hcut & Htrue & Hfalse & Hfine).
      rewrite Et. cbn [mbind res_bind]. destruct b; cbn [negb].
      - destruct (Htrue eq_refl) as (s' & la & fsr' & i0' & c0' & Hm' & -> & Hrec & Hg' & Hg0 & Hsz' & Hsub' & Hcompl).
        assert (Hs1 : fsize fsr' < fsize (s' :: fsr')) by (destruct s'; rewrite fsize_node; lia).
        destruct (Hus ent (Some (si_org i, it_root (si_it i))) RematchCb sn i' cut' fsr' ltac:(discriminate) Hg' ltac:(lia))
          as (b2 & sn' & i2 & cut2 & E2 & Ht2 & Hf2).
        rewrite E2. cbn [mbind res_bind]. destruct b2.
        + eexists _, _, _, _, _, _, _. split; [reflexivity|]. split.
          * intros _. destruct (Ht2 eq_refl) as (l & Hl & Hrl). exists s', la, l. repeat split; try assumption.
            apply Hsub, Hsub'. apply W_take; assumption.
          * intros Htu Htus Hdis Hfo Hfs Hfn Hst.
            destruct (Hfine Htu Hfo Hfs (strong_safe _ _ _ (strong_none ent))) as (H1 & H2 & _).
            assert (Hst' : strong ent cut').
            { eapply (cut_strong ent u None); [intros v; apply (Hdis u v); left|apply strong_none|exact Hcut]. }
            destruct (Hf2 Htus ltac:(right; intros w v Hw; apply (Hdis w v); right; exact Hw) Hfn (strong_ok _ _ _ Hst')) as (H3 & H4 & _).
            repeat split; try assumption. apply (ok_strong _ us); [intros w v Hw; apply (Hdis w v); right; exact Hw|exact H4].
        + destruct (IH (Some (raddr s')) own' sc' sn' st cut2 s' fsr' i0' c0' eq_refl Hg0 ltac:(lia) ltac:(lia)) as
            (b3 & m3 & own3 & sc3 & sn3 & i3 & cut3 & E3 & Ht3 & Hf3).
          { intros Hst. inversion Hgs as [? ? Hnil|? ? ? ? _ _ Hor' _]; subst; [congruence|]. apply (Hor' _ _ eq_refl). }
          eexists _, _, _, _, _, _, _. split; [exact E3|]. split.
          * intros Eb3. destruct (Ht3 Eb3) as (s3 & la3 & l3 & H1 & H2 & H3 & H4). exists s3, la3, l3. repeat split; try assumption.
            apply Hsub, Hsub', H4.
          * intros Htu Htus Hdis Hfo Hfs Hfn Hst.
            destruct (Hfine Htu Hfo Hfs (strong_safe _ _ _ (strong_none ent))) as (H1 & H2 & _).
            assert (Hst' : strong ent cut').
            { eapply (cut_strong ent u None); [intros v; apply (Hdis u v); left|apply strong_none|exact Hcut]. }
            destruct (Hf2 Htus ltac:(right; intros w v Hw; apply (Hdis w v); right; exact Hw) Hfn (strong_ok _ _ _ Hst')) as (H3 & H4 & _).
            apply Hf3; try assumption. apply (ok_strong _ us); [intros w v Hw; apply (Hdis w v); right; exact Hw|exact H4].
      - destruct (Hfalse eq_refl) as [-> Hnone]. destruct n as [|n]; [destruct s; rewrite fsize_node in Hn; lia|].
        cbn [xrematch]. rewrite Hnone. eexists _, _, _, _, _, _, _. split; [reflexivity|]. split; [discriminate|].
        intros Htu Htus Hdis Hfo Hfs Hfn Hst.
        destruct (Hfine Htu Hfo Hfs (strong_safe _ _ _ (strong_none ent))) as (H1 & H2 & _).
        repeat split; try assumption.
        eapply (cut_strong ent u None); [intros v; apply (Hdis u v); left|apply strong_none|exact Hcut].
    Qed.
  End Rematch.

  Lemma chain_nil : chain_ok [].
  Proof.
    intros ent deep cb s it cut fs _ _ _. eexists _, _, _, _. split; [reflexivity|]. split.
    - intros _. exists []. split; constructor.
    - intros _ _ H1 H2. split; [exact H1|]. split; [exact H2|discriminate].
  Qed.
  Lemma okcut_safe ent u us cut : easy ent (u :: us) -> okcut ent (u :: us) cut -> safe ent u cut.
  Proof.
    intros He Ho s Hg E. destruct (Ho s Hg E) as [H|(w & a & [= -> _] & Hm)]; [left; exact H|right; eauto].
  Qed.
  Lemma chain_cons u us : ssolid u -> this_ok u -> chain_ok us -> chain_ok (u :: us).
  Proof.
    intros Hso Hu Hus ent deep cb s it cut fs Hmode Hg HnF. cbn [foldr]. rewrite xbuild_eq, xsearch_node_eq. unfold xnode.
    destruct (Hu ent deep cb cut (xchain us) (xs_matched s) (xs_cut s) (xs_first s) it cut fs Hmode Hg HnF)
      as (b & m & own & sc & i & cut1 & Et & Hcut & Htrue & Hfalse & Hfine).
    rewrite Et. cbn [mbind res_bind].
    assert (Hnull : xmatches_null false (XN (kind_of u) (test_of u) (xchain (subs u)) (xchain us)) = false).
    { rewrite <- xbuild_eq. apply xnull_solid, Hso. }
    destruct b; cbn [negb].
    2: { eexists _, _, _, _. split; [reflexivity|]. split; [discriminate|]. intros Htm He Hfi Hok. apply Forall_cons in Htm as [Htu Htus]. inversion Hfi as [|? ? ? Hfi1 Hfi2 Hfi3]; subst.
         destruct (Hfine ltac:(assumption) ltac:(assumption) ltac:(assumption) (okcut_safe _ _ _ _ He Hok)) as (H1 & H2 & H3).
         split; [apply Fines_cons; assumption|]. split; [|intros _; apply (H3 eq_refl)].
         destruct Hcut as [->|(s1 & a1 & Hg1 & -> & Hm1)]; [exact Hok|].
         intros s2 Hg2 [= E]. rewrite <- (good_unique t0 Hnd s1 s2 Hg1 Hg2 E). destruct us as [|w us]; [right; eauto|].
         left. destruct He as [He|He]; [cbn in He; lia|]. apply (He u); [left|]. eapply smatch_heads, Hm1. }
    destruct (Htrue eq_refl) as (s1 & la & fsr & i0 & c0 & Hm1 & -> & Hrec & Hg1 & Hg0 & Hsz & Hsub & Hcompl).
    assert (Hs1 : fsize fsr < fsize (s1 :: fsr)) by (destruct s1; rewrite fsize_node; lia).
    assert (Hgs1 : good s1) by (inversion Hg0 as [|? ? ? ? Hh _ _ _]; subst; apply (he_good _ _ _ _ _ Hh)).
    destruct us as [|w us'] eqn:Eus.
    { cbn [foldr]. eexists _, _, _, _. split; [reflexivity|]. split.
      - intros _. exists [Asg s1 la]. split; [|apply Rec_cons; [reflexivity|exact Hrec|constructor]]. apply Hsub. apply W_take; [exact Hm1|constructor].
      - intros Htm He Hfi Hok. apply Forall_cons in Htm as [Htu Htus]. inversion Hfi as [|? ? ? Hfi1 Hfi2 Hfi3]; subst.
        destruct (Hfine ltac:(assumption) ltac:(assumption) ltac:(assumption) (okcut_safe _ _ _ _ He Hok)) as (H1' & H2' & _).
        split; [apply Fines_cons; assumption|]. split; [|discriminate].
        destruct Hcut as [->|(s2 & a2 & Hg2 & -> & Hm2)]; [exact Hok|].
        intros s3 Hg3 [= E]. rewrite <- (good_unique t0 Hnd s2 s3 Hg2 Hg3 E). right. eauto. }
    rewrite <- Eus in *. assert (Hns : exists k' v' f' n', xchain us = XN k' v' f' n') by (rewrite Eus; cbn [foldr]; rewrite xbuild_eq; eauto).
    destruct Hns as (k' & v' & f' & n' & Ens).
    destruct (Hus ent deep cb (xs_next s) i cut1 fsr Hmode Hg1 ltac:(lia)) as (b2 & sn & i2 & cut2 & E2 & Ht2 & Hf2).
    assert (Hcase : forall X Y : res (bool * xstate * @sit V * ptr), match xchain us with XNil => X | XN _ _ _ _ => Y end = Y) by (rewrite Ens; reflexivity).
    rewrite Hcase, E2. cbn [mbind res_bind]. clear Hcase.
    assert (Hdis : easy ent (u :: us) -> disjoint ent (u :: us)).
    { intros [He|He]; [rewrite Eus in He; cbn in He; lia|exact He]. }
    assert (Hgo : tame u -> Forall tame us -> easy ent (u :: us) -> finecut u (xs_cut s) -> fines (subs u) (xs_first s) -> fines us (xs_next s) -> okcut ent (u :: us) cut ->
      finecut u own /\ fines (subs u) sc /\ fines us sn /\ strong ent cut2 /\ (b2 = false -> forall l, ~ below ent (u :: us) fs l)).
    { intros Htu Htus He Hfo Hfs Hfn Hok. pose proof (Hdis He) as Hd. pose proof (okcut_safe _ _ _ _ He Hok) as Hsafe.
      destruct (Hfine Htu Hfo Hfs Hsafe) as (H1 & H2 & _).
      assert (Hst : strong ent cut1).
      { eapply (cut_strong ent u cut); [intros v; apply (Hd u v); left|eapply ok_strong; [exact Hd|exact Hok]|exact Hcut]. }
      assert (Hd' : disjoint ent us) by (intros x v Hx; apply (Hd x v); right; exact Hx).
      destruct (Hf2 Htus ltac:(right; exact Hd') Hfn (strong_ok _ _ _ Hst)) as (H3 & H4 & H5).
      repeat split; try assumption; [eapply ok_strong; [exact Hd'|exact H4]|].
      intros Eb2 l Hl. destruct (Hcompl Htu Hfo Hfs Hsafe us l Hl) as [l' Hl']. apply below_first in Hl' as [l2 Hl2].
      - apply (H5 Eb2 l2 Hl2).
      - apply (Hd u); [left|]. eapply smatch_heads, Hm1. }
    destruct b2.
    { eexists _, _, _, _. split; [reflexivity|]. split.
      - intros _. destruct (Ht2 eq_refl) as (l & Hl & Hrl). exists (Asg s1 la :: l). split; [|apply Rec_cons; [reflexivity|exact Hrec|exact Hrl]].
        apply Hsub. apply W_take; assumption.
      - intros Htm He Hfi Hok. apply Forall_cons in Htm as [Htu Htus]. inversion Hfi as [|? ? ? Hfi1 Hfi2 Hfi3]; subst.
        destruct Hgo as (H1' & H2' & H3' & H4' & _); try assumption.
        split; [apply Fines_cons; assumption|]. split; [apply strong_ok; assumption|discriminate]. }
    destruct cb eqn:Ecb.
    1-2: cbn [mbind res_bind]; rewrite Hnull; cbn [andb]; eexists _, _, _, _; split; [reflexivity|]; split; [discriminate|];
      intros Htm He Hfi Hok; apply Forall_cons in Htm as [Htu Htus]; inversion Hfi as [|? ? ? Hfi1 Hfi2 Hfi3]; subst;
      (destruct Hgo as (H1' & H2' & H3' & H4' & H5'); try assumption);
      (split; [apply Fines_cons; assumption|]); (split; [apply strong_ok; assumption|exact H5']).
    destruct deep as [[o r]|]; [|cbn in Hmode; congruence].
    destruct (rematch_ok u us ent o r cut Hu Hus F (Some (raddr s1)) own sc sn i cut2 s1 fsr i0 c0 eq_refl Hg0 ltac:(lia) ltac:(lia))
      as (b3 & m3 & own3 & sc3 & sn3 & i3 & cut3 & E3 & Ht3 & Hf3).
    { intros Hi. inversion Hg1 as [? ? Hnil|? ? ? ? _ _ Hor _]; subst; [congruence|]. apply (Hor _ _ eq_refl). }
    rewrite E3. cbn [mbind res_bind]. destruct b3.
    - eexists _, _, _, _. split; [reflexivity|]. split.
      + intros _. destruct (Ht3 eq_refl) as (s3 & la3 & l3 & -> & Hr1 & Hr2 & Hb). exists (Asg s3 la3 :: l3).
        split; [apply Hsub, Hb|apply Rec_cons; [reflexivity|exact Hr1|exact Hr2]].
      + intros Htm He Hfi Hok. apply Forall_cons in Htm as [Htu Htus]. inversion Hfi as [|? ? ? Hfi1 Hfi2 Hfi3]; subst.
        destruct Hgo as (H1' & H2' & H3' & H4' & H5'); try assumption.
        destruct (Hf3 Htu Htus (Hdis He)) as (G1 & G2 & G3 & G4); try assumption.
        split; [apply Fines_cons; assumption|]. split; [apply strong_ok; assumption|discriminate].
    - rewrite Hnull. cbn [andb]. eexists _, _, _, _. split; [reflexivity|]. split; [discriminate|].
      intros Htm He Hfi Hok. apply Forall_cons in Htm as [Htu Htus]. inversion Hfi as [|? ? ? Hfi1 Hfi2 Hfi3]; subst.
      destruct Hgo as (H1' & H2' & H3' & H4' & H5'); try assumption.
      destruct (Hf3 Htu Htus (Hdis He)) as (G1 & G2 & G3 & G4); try assumption.
      split; [apply Fines_cons; assumption|]. split; [apply strong_ok; assumption|exact (fun _ => H5' eq_refl)].
  Qed.

  (** ** One matcher at one node *)
  Lemma level_below us ts l : level us ts l <-> below no us ts l.
  Proof.
    split.
    - revert us l. induction ts as [|t ts IH]; intros us l H; inversion H; subst.
      + constructor.
      + constructor.
      + apply W_take; auto.
      + destruct t. apply W_skip. cbn. auto.
    - remember (fun _ : V => false) as e eqn:Ee. intros H. induction H as [p ts|p u us t ts a l Hm _ IH|p us x cs ts l _ IH]; subst.
      + constructor.
      + apply L_take; auto.
      + cbn in IH. apply L_skip. auto.
  Qed.
  Lemma size_children t : good t -> fsize (children t) < F.
  Proof. intros Hg. pose proof (good_size F t0 HF t Hg) as H. destruct t as [x cs]. change (rsize (Rose x cs)) with (S (fsize cs)) in H. cbn [children]. lia. Qed.
  Lemma size_one t : good t -> fsize [t] < F.
  Proof. intros Hg. pose proof (good_size F t0 HF t Hg) as H. unfold fsize. cbn. lia. Qed.
  Lemma size_frontier (vm : V -> bool) t : good t -> fsize (flat_map (frontier snd vm) (children t)) < F.
  Proof.
    intros Hg. pose proof (size_children t Hg) as H. eapply Nat.le_lt_trans; [|exact H]. generalize (children t). clear.
    assert (H : forall t : tree, fsize (frontier snd vm t) <= rsize t).
    { induction t as [x cs IH] using rose_ind'. cbn [frontier]. destruct (vm (snd x)); [|unfold fsize; cbn; lia].
      change (rsize (Rose x cs)) with (S (fsize cs)). enough (fsize (flat_map (frontier snd vm) cs) <= fsize cs) by lia.
      induction IH as [|c cs Hc _ IHc]; [cbn; lia|]. cbn [flat_map]. rewrite fsize_app. change (fsize (c :: cs)) with (rsize c + fsize cs). lia. }
    induction l as [|c cs IHc]; [cbn; lia|]. cbn [flat_map]. rewrite fsize_app. change (fsize (c :: cs)) with (rsize c + fsize cs). specialize (H c). lia.
  Qed.
  Lemma child_ok us sc i fs cut : chain_ok us -> goes no None cut i fs -> fsize fs < F -> cut = None ->
    exists b sc', xchild F im h (xchain us) sc i = Ok (b, sc') /\
      (b = true -> exists l, level us fs l /\ records us sc' l) /\
      (Forall tame us -> fines us sc -> fines us sc' /\ (b = false -> forall l, ~ level us fs l)).
  Proof.
    intros Hc Hg Hs ->. destruct (Hc no None NoCb sc i None fs ltac:(intros v; reflexivity) Hg Hs) as (b & s' & i' & c' & E & Ht & Hf).
    exists b, s'. unfold xchild. rewrite E. split; [reflexivity|]. split.
    - intros Eb. destruct (Ht Eb) as (l & Hl & Hr). exists l. split; [apply level_below, Hl|exact Hr].
    - intros Htm Hfi. destruct (Hf Htm ltac:(right; reflexivity) Hfi (okcut_none _ _)) as (H1 & _ & H3). split; [exact H1|].
      intros Eb l Hl. apply (H3 Eb l), level_below, Hl.
  Qed.
  Lemma level_single c t l : level [c] [t] l -> exists a, l = [a] /\ smatch c t a.
  Proof.
    intros H. inversion H as [|? ? ? ? a l' Hm Hl|? ? ? ? Hl]; subst; [|inversion Hl].
    apply level_done in Hl as ->. eauto.
  Qed.
  (** The matcher is absent, its child is tried at the node. *)
  Lemma absent_ok c sc i t cut0 : chain_ok [c] -> here i t ->
    exists i' b sc', si_fixed F im h cut0 i = Ok i' /\ xchild F im h (xchain [c]) sc i' = Ok (b, sc') /\
      (b = true -> exists a, smatch c t a /\ records [c] sc' [a]) /\
      (tame c -> fines [c] sc -> fines [c] sc' /\ (b = false -> forall a, ~ smatch c t a)).
  Proof.
    intros Hc Hh. destruct (here_fixed F im h t0 Hval HF i t Hh cut0 None) as (i' & E & Hg).
    destruct (child_ok [c] sc i' [t] None Hc Hg (size_one _ (he_good _ _ _ _ _ Hh)) eq_refl) as (b & sc' & E2 & Ht & Hf).
    exists i', b, sc'. split; [exact E|]. split; [exact E2|]. split.
    - intros Eb. destruct (Ht Eb) as (l & Hl & Hr). apply level_single in Hl as (a & -> & Hm). eauto.
    - intros Htm Hfi. destruct (Hf ltac:(constructor; [exact Htm|constructor]) Hfi) as (H1 & H3). split; [exact H1|].
      intros Eb a Ha. apply (H3 Eb [a]). apply L_take; [exact Ha|constructor].
  Qed.
  Lemma single_of (cs : list (spat V)) : cs <> [] -> Forall ssolid cs -> xmay_steal (xchain cs) = true -> exists c, cs = [c].
  Proof.
    intros Hne Hs E. rewrite xsteal_solid in E by exact Hs. destruct cs as [|c [|d cs]]; [congruence|eauto|discriminate].
  Qed.
  Lemma many_of (cs : list (spat V)) : Forall ssolid cs -> xmay_steal (xchain cs) = false -> forall c, cs <> [c].
  Proof. intros Hs E c ->. rewrite xsteal_solid in E by exact Hs. discriminate. Qed.

  Definition tries (u : spat V) (cut0 : ptr) : Prop := forall own sc i t, here i t ->
    exists b own' sc', ximpl F im h (kind_of u) (test_of u) (xchain (subs u)) cut0 own sc i = Ok (b, own', sc') /\
      (b = true -> exists la, smatch u t (Asg t la) /\ records (subs u) sc' la) /\
      (tame u -> finecut u own -> fines (subs u) sc -> finecut u own' /\ fines (subs u) sc' /\ (b = false -> forall a, ~ smatch u t a)).
  Lemma tries_one vm cs cut0 : chain_ok cs -> tries (SOne vm cs) cut0.
  Proof.
    intros Hc own sc i t Hh. unfold ximpl. cbn [kind_of test_of subs]. destruct t as [x ts].
    rewrite (he_cur _ _ _ _ _ Hh), (good_value _ _ _ Hval _ (he_good _ _ _ _ _ Hh)). cbn [mbind res_bind label].
    destruct (vm (snd x)) eqn:Ev; cbn [negb].
    - destruct (here_children F im h t0 Hops Hnd i _ Hh None) as (i' & E & Hg). rewrite E. cbn [mbind res_bind children] in *.
      destruct (child_ok cs sc i' ts None Hc Hg (size_children _ (he_good _ _ _ _ _ Hh)) eq_refl) as (b & sc' & E2 & Ht & Hf).
      rewrite E2. cbn [mbind res_bind]. exists b, own, sc'. split; [reflexivity|]. split.
      + intros Eb. destruct (Ht Eb) as (l & Hl & Hr). exists l. split; [apply S_one; assumption|exact Hr].
      + intros Htm _ Hfi. destruct (Hf (tame_subs _ Htm) Hfi) as (H1 & H2). split; [exact I|]. split; [exact H1|].
        intros Eb a Ha. specialize (H2 Eb). inversion Ha; subst. eapply H2. eassumption.
    - exists false, own, sc. split; [reflexivity|]. split; [discriminate|]. intros _ _ Hfi. split; [exact I|]. split; [exact Hfi|].
      intros _ a Ha. inversion Ha; subst. congruence.
  Qed.
  Lemma tries_opt q vm cs cut0 : ssolid (SOpt q vm cs) -> chain_ok cs -> tries (SOpt q vm cs) cut0.
  Proof.
    intros Hso Hc own sc i t Hh. pose proof (ssolid_subs _ Hso) as Hss. pose proof (ssolid_ne _ Hso) as Hne. cbn [subs] in Hss.
    unfold ximpl. cbn [kind_of test_of subs]. destruct t as [x ts].
    rewrite (he_cur _ _ _ _ _ Hh), (good_value _ _ _ Hval _ (he_good _ _ _ _ _ Hh)). cbn [mbind res_bind label].
    destruct (vm (snd x)) eqn:Ev; cbn [negb].
    - destruct (here_children F im h t0 Hops Hnd i _ Hh None) as (i' & E & Hg). rewrite E. cbn [mbind res_bind children] in *.
      destruct (child_ok cs sc i' ts None Hc Hg (size_children _ (he_good _ _ _ _ _ Hh)) eq_refl) as (b & sc' & E2 & Ht & Hf).
      rewrite E2. cbn [mbind res_bind].
      destruct (negb (is_possessive q) && xmay_steal (xchain cs) && negb b) eqn:Ec.
      + apply andb_true_iff in Ec as [Ec Eb]. apply andb_true_iff in Ec as [Eq Es]. apply negb_true_iff in Eb as ->.
        destruct (single_of cs Hne Hss Es) as [c ->].
        destruct (absent_ok c sc' i (Rose x ts) cut0 Hc Hh) as (i2 & b2 & sc2 & E3 & E4 & Ht2 & Hf2).
        rewrite E3. cbn [mbind res_bind]. rewrite E4. cbn [mbind res_bind]. exists b2, own, sc2. split; [reflexivity|]. split.
        * intros Eb. destruct (Ht2 Eb) as (a & Ha & Hr). exists [a]. split; [|exact Hr]. apply S_opt_absent; [|exact Ha].
          intros _ ->. discriminate.
        * intros Htm _ Hfi. pose proof (tame_subs _ Htm) as Hts. cbn [subs] in Hts. destruct (Hf Hts Hfi) as (H1 & H2).
          apply Forall_cons in Hts as [Htc _]. destruct (Hf2 Htc H1) as (H3 & H4).
          split; [exact I|]. split; [exact H3|]. intros Eb a Ha. specialize (H4 Eb). inversion Ha; subst; [eapply (H2 eq_refl); eassumption|eapply H4; eassumption].
      + exists b, own, sc'. split; [reflexivity|]. split.
        * intros Eb. destruct (Ht Eb) as (l & Hl & Hr). exists l. split; [apply S_opt; assumption|exact Hr].
        * intros Htm _ Hfi. destruct (Hf (tame_subs _ Htm) Hfi) as (H1 & H2). split; [exact I|]. split; [exact H1|].
          intros -> a Ha. rewrite andb_true_r in Ec. inversion Ha as [|? ? ? ? ? l ? Hl|? ? c ? ? a' Hq Hm| | | |]; subst; [eapply (H2 eq_refl); eassumption|].
          apply andb_false_iff in Ec as [Ec|Ec]; [|exact (many_of _ Hss Ec c eq_refl)]. apply negb_false_iff in Ec. apply (Hq Ev). destruct q; first [reflexivity|discriminate].
    - destruct (xmay_steal (xchain cs)) eqn:Es.
      + destruct (single_of cs Hne Hss Es) as [c ->].
        destruct (absent_ok c sc i (Rose x ts) cut0 Hc Hh) as (i2 & b2 & sc2 & E3 & E4 & Ht2 & Hf2).
        rewrite E3. cbn [mbind res_bind]. rewrite E4. cbn [mbind res_bind]. exists b2, own, sc2. split; [reflexivity|]. split.
        * intros Eb. destruct (Ht2 Eb) as (a & Ha & Hr). exists [a]. split; [|exact Hr]. apply S_opt_absent; [congruence|exact Ha].
        * intros Htm _ Hfi. pose proof (tame_subs _ Htm) as Hts. cbn [subs] in Hts.
          apply Forall_cons in Hts as [Htc _]. destruct (Hf2 Htc Hfi) as (H3 & H4).
          split; [exact I|]. split; [exact H3|]. intros Eb a Ha. specialize (H4 Eb). inversion Ha; subst; [congruence|eapply H4; eassumption].
      + exists false, own, sc. split; [reflexivity|]. split; [discriminate|]. intros _ _ Hfi. split; [exact I|]. split; [exact Hfi|].
        intros _ a Ha. inversion Ha; subst; [congruence|]. eapply many_of; [exact Hss|exact Es|reflexivity].
  Qed.

  Lemma poss_dec q : {is_possessive q = true /\ q = QPossessive} + {is_possessive q = false /\ q <> QPossessive}.
  Proof. destruct q; cbn; (left; split; reflexivity) || (right; split; [reflexivity|discriminate]). Qed.
  Lemma tries_star q vm cs cut0 : ssolid (SStar q vm cs) -> chain_ok cs -> tries (SStar q vm cs) cut0.
  Proof.
    intros Hso Hc own sc i t Hh. pose proof (ssolid_subs _ Hso) as Hss. pose proof (ssolid_ne _ Hso) as Hne. cbn [subs] in Hss.
    unfold ximpl. cbn [kind_of test_of subs]. pose proof (he_good _ _ _ _ _ Hh) as Hgt.
    rewrite (he_cur _ _ _ _ _ Hh), (good_value _ _ _ Hval _ Hgt). cbn [mbind res_bind].
    destruct (vm (snd (label t))) eqn:Ev; cbn [negb].
    - destruct (poss_dec q) as [[Eq ->]|[Eq Hq]]; rewrite Eq; cbn [negb andb].
      + destruct (poss_start F im h t0 Hops Hnd Hval HF vm t Hgt own i None (he_cur _ _ _ _ _ Hh) Ev) as (i' & E & Hg).
        rewrite E. cbn [mbind res_bind].
        destruct (poss_start F im h t0 Hops Hnd Hval HF vm t Hgt own i own (he_cur _ _ _ _ _ Hh) Ev) as (i1 & E1 & Hg1).
        rewrite E in E1. injection E1 as <-.
        destruct (Hc no None AckCb sc i' own _ I Hg1 (size_frontier vm t Hgt)) as (b & sc' & i2 & own' & E2 & Ht & Hf).
        rewrite E2. cbn [mbind res_bind]. exists b, own', sc'. split; [reflexivity|]. split.
        * intros Eb. destruct (Ht Eb) as (l & Hl & Hr). exists l. split; [|exact Hr]. destruct t as [x ts]. apply S_possessive; [exact Ev|apply level_below, Hl].
        * intros Htm _ Hfi. destruct (Hf (tame_subs _ Htm) ltac:(right; reflexivity) Hfi (strong_ok no _ _ (fun _ _ _ => eq_refl))) as (H1 & _ & H3).
          split; [left; reflexivity|]. split; [exact H1|]. intros Eb a Ha. specialize (H3 Eb).
          inversion Ha as [| | |? ? ? ? ? l Hv Hn _|? ? ? ? l Hv Hl|? ? ? ? ? a' Hn _|]; subst; [congruence| |].
          { eapply H3, level_below. eassumption. } { apply Hn; [exact Ev|reflexivity]. }
      + destruct (star_start F im h t0 Hops Hnd Hval HF vm t Hgt own i own (he_cur _ _ _ _ _ Hh) eq_refl Ev) as (i' & E & Hg).
        rewrite E. cbn [mbind res_bind].
        assert (Hsz : fsize (if ptr_eqb (Some (raddr t)) own then [] else children t) < F).
        { destruct (ptr_eqb (Some (raddr t)) own); [cbn; pose proof (size_children t Hgt); lia|apply size_children, Hgt]. }
        destruct (Hc vm (Some (Under vm false, Some (raddr t))) RematchCb sc i' own _ ltac:(discriminate) Hg Hsz) as (b & sc' & i2 & own' & E2 & Ht & Hf).
        rewrite E2. cbn [mbind res_bind].
        assert (Htrue : b = true -> exists la, smatch (SStar q vm cs) t (Asg t la) /\ records cs sc' la).
        { intros Eb. destruct (Ht Eb) as (l & Hl & Hr). exists l. split; [|exact Hr]. destruct t as [x ts]. apply S_star; [exact Ev|exact Hq|].
          destruct (ptr_eqb (Some (raddr (Rose x ts))) own); [|exact Hl]. apply (below_more _ _ _ _ _ ts) in Hl. rewrite app_nil_r in Hl. exact Hl. }
        assert (Heasy : tame (SStar q vm cs) -> easy vm cs).
        { intros [[Hp|[Hl|Hd]] _]; [congruence|left; exact Hl|right; exact Hd]. }
        assert (Hfine : tame (SStar q vm cs) -> finecut (SStar q vm cs) own -> fines cs sc ->
          finecut (SStar q vm cs) own' /\ fines cs sc' /\ (b = false -> forall a, smatch (SStar q vm cs) t a -> exists c a', cs = [c] /\ smatch c t a')).
        { intros Htm [Hfo|Hfo] Hfi; [congruence|]. destruct (Hf (tame_subs _ Htm) (Heasy Htm) Hfi Hfo) as (H1 & H2 & H3).
          split; [right; exact H2|]. split; [exact H1|]. intros Eb a Ha. specialize (H3 Eb).
          inversion Ha as [| | |? ? ? x ts l Hv _ Hl|? ? ? ? l Hv Hl|? ? c x ts a' Hn Hm|]; subst; [|congruence|eauto].
          destruct (ptr_eqb (Some (raddr (Rose x ts))) own) eqn:Eo; [|exfalso; eapply H3; exact Hl].
          apply ptr_eqb_spec in Eo. destruct (Hfo _ Hgt (eq_sym Eo)) as [H4|(c & a' & -> & Hm)]; [congruence|eauto]. }
        destruct (xmay_steal (xchain cs) && negb b) eqn:Es.
        * apply andb_true_iff in Es as [Es Eb]. apply negb_true_iff in Eb as ->. destruct (single_of cs Hne Hss Es) as [c ->].
          destruct (absent_ok c sc' i t cut0 Hc Hh) as (i3 & b3 & sc3 & E3 & E4 & Ht3 & Hf3).
          rewrite E3. cbn [mbind res_bind]. rewrite E4. cbn [mbind res_bind]. exists b3, own', sc3. split; [reflexivity|]. split.
          { intros Eb. destruct (Ht3 Eb) as (a & Ha & Hr). exists [a]. split; [|exact Hr]. destruct t as [x ts]. apply S_star_absent; [auto|exact Ha]. }
          intros Htm Hfo Hfi. destruct (Hfine Htm Hfo Hfi) as (H1 & H2 & H3). pose proof (tame_subs _ Htm) as Hts. apply Forall_cons in Hts as [Htc _].
          destruct (Hf3 Htc H2) as (H4 & H5). split; [exact H1|]. split; [exact H4|]. intros Eb a Ha.
          destruct (H3 eq_refl a Ha) as (c' & a' & [= <-] & Hm). exact (H5 Eb a' Hm).
        * exists b, own', sc'. split; [reflexivity|]. split; [exact Htrue|]. intros Htm Hfo Hfi. destruct (Hfine Htm Hfo Hfi) as (H1 & H2 & H3).
          split; [exact H1|]. split; [exact H2|]. intros Eb a Ha. destruct (H3 Eb a Ha) as (c & a' & E' & _).
          rewrite Eb, andb_true_r in Es. exact (many_of cs Hss Es c E').
    - destruct (xmay_steal (xchain cs)) eqn:Es.
      + destruct (single_of cs Hne Hss Es) as [c ->].
        destruct (absent_ok c sc i t cut0 Hc Hh) as (i2 & b2 & sc2 & E3 & E4 & Ht2 & Hf2).
        rewrite E3. cbn [mbind res_bind]. rewrite E4. cbn [mbind res_bind]. exists b2, own, sc2. split; [reflexivity|]. split.
        * intros Eb. destruct (Ht2 Eb) as (a & Ha & Hr). exists [a]. split; [|exact Hr]. destruct t as [x ts]. apply S_star_absent; [cbn in Ev; congruence|exact Ha].
        * intros Htm Hfo Hfi. pose proof (tame_subs _ Htm) as Hts. cbn [subs] in Hts.
          apply Forall_cons in Hts as [Htc _]. destruct (Hf2 Htc Hfi) as (H3 & H4).
          split; [exact Hfo|]. split; [exact H3|]. intros Eb a Ha. specialize (H4 Eb). inversion Ha; subst; cbn in Ev; [congruence..|eapply H4; eassumption].
      + exists false, own, sc. split; [reflexivity|]. split; [discriminate|]. intros _ Hfo Hfi. split; [exact Hfo|]. split; [exact Hfi|].
        intros _ a Ha. inversion Ha; subst; cbn in Ev; [congruence..|]. eapply many_of; [exact Hss|exact Es|reflexivity].
  Qed.

  (** ** Every node the iterator goes to *)
  Lemma loop_ok u ent deep cb cut0 ns : ssolid u -> tries u cut0 -> mode_ok ent deep cb ->
    forall n m own sc begin i cut fs, goes ent deep cut i fs -> fsize fs < n ->
    exists b m' own' sc' i' cut',
      xloop F im h (kind_of u) (test_of u) (xchain (subs u)) ns cb cut0 n m own sc begin i cut = Ok (b, m', own', sc', i', cut') /\
      (cut' = cut \/ exists s a, good s /\ cut' = Some (raddr s) /\ smatch u s a) /\
      (b = true -> exists s la fsr i0 c0, smatch u s (Asg s la) /\ m' = Some (raddr s) /\ records (subs u) sc' la /\
         goes ent deep cut' i' fsr /\ goes ent deep c0 i0 (s :: fsr) /\ fsize (s :: fsr) <= fsize fs /\
         (forall us l, below ent us (s :: fsr) l -> below ent us fs l) /\
         (tame u -> finecut u own -> fines (subs u) sc -> safe ent u cut ->
          forall us l, below ent (u :: us) fs l -> exists l', below ent (u :: us) (s :: fsr) l')) /\
      (b = false -> m' = m /\ si_cur i' = None) /\
      (tame u -> finecut u own -> fines (subs u) sc -> safe ent u cut ->
       finecut u own' /\ fines (subs u) sc' /\ (b = false -> forall us l, ~ below ent (u :: us) fs l)).
  Proof.
    intros Hso Htry Hmode. assert (Hnull : xmatches_null false (XN (kind_of u) (test_of u) (xchain (subs u)) ns) = false).
    { rewrite <- xbuild_eq. apply xnull_solid, Hso. }
    induction n as [|n IH]; intros m own sc begin i cut fs Hg Hn; [lia|]. cbn [xloop]. pose proof Hg as Hg'.
    destruct Hg as [cut i Hcur|cut i s fs Hh Hinc Hor Hback].
    - rewrite Hcur, Hnull. eexists _, _, _, _, _, _. split; [reflexivity|]. split; [left; reflexivity|]. split; [discriminate|].
      split; [split; [reflexivity|exact Hcur]|]. intros _ Hfo Hfi _. split; [exact Hfo|]. split; [exact Hfi|]. intros _ us l. apply below_nil.
    - rewrite (he_cur _ _ _ _ _ Hh). destruct (Htry own sc i s Hh) as (b & own' & sc' & E & Ht & Hf). rewrite E. cbn [mbind res_bind].
      destruct b.
      + destruct (Ht eq_refl) as (la & Hm & Hr).
        assert (Hack : acknowledge cb cut (Some (raddr s)) = cut /\ (forall v, ent v = false) \/ acknowledge cb cut (Some (raddr s)) = Some (raddr s)).
        { destruct cb; cbn in *; auto. }
        destruct (Hinc (acknowledge cb cut (Some (raddr s)))) as (i' & Ei & Hgi); [destruct Hack as [[-> _]| ->]; auto|].
        rewrite Ei. cbn [mbind res_bind].
        assert (Estep : (if ent (snd (label s)) && negb (ptr_eqb (Some (raddr s)) (acknowledge cb cut (Some (raddr s)))) then children s else []) = []).
        { destruct Hack as [[_ Hno]| ->]; [rewrite Hno; reflexivity|]. rewrite ptr_eqb_true, andb_false_r. reflexivity. }
        rewrite Estep in Hgi. cbn [app] in Hgi. eexists _, _, _, _, _, _. split; [reflexivity|]. split.
        { destruct Hack as [[-> _]| ->]; [left; reflexivity|]. right. exists s, (Asg s la). split; [apply (he_good _ _ _ _ _ Hh)|auto]. }
        split.
        { intros _. exists s, la, fs, i, cut. repeat split; try assumption; try lia; auto. intros _ _ _ _ us l Hl. eauto. }
        split; [discriminate|]. intros Htm Hfo Hfi Hsa. destruct (Hf Htm Hfo Hfi) as (H1 & H2 & _). repeat split; try assumption. discriminate.
      + destruct (Hinc cut (or_introl eq_refl)) as (i' & Ei & Hgi). rewrite Ei. cbn [mbind res_bind].
        set (fs' := (if ent (snd (label s)) && negb (ptr_eqb (Some (raddr s)) cut) then children s else []) ++ fs) in *.
        assert (Hsz : fsize fs' < fsize (s :: fs)).
        { unfold fs'. rewrite fsize_app. destruct s as [x cs]. rewrite fsize_node. cbn [children].
          destruct (_ && _); [lia|]. change (fsize []) with 0. lia. }
        assert (Hsub : forall us l, below ent us fs' l -> below ent us (s :: fs) l).
        { intros us l Hl. unfold fs' in Hl. destruct s as [x cs]. cbn [label children] in Hl.
          destruct (ent (snd x)) eqn:Ex; [destruct (ptr_eqb (Some (raddr (Rose x cs))) cut)|]; cbn [andb negb app] in Hl.
          - apply below_drop, Hl.
          - apply W_skip. rewrite Ex. exact Hl.
          - apply W_skip. rewrite Ex. exact Hl. }
        assert (Hcompl : tame u -> finecut u own -> fines (subs u) sc -> safe ent u cut -> forall us l, below ent (u :: us) (s :: fs) l -> below ent (u :: us) fs' l).
        { intros Htm Hfo Hfi Hsa us l Hl. destruct (Hf Htm Hfo Hfi) as (_ & _ & Hno). specialize (Hno eq_refl).
          inversion Hl as [|? ? ? ? ? a l' Hm Hb|? ? x cs ? ? Hb]; subst; [exfalso; eapply Hno; exact Hm|].
          unfold fs'. cbn [label children]. destruct (ent (snd x)) eqn:Ex; [|exact Hb].
          destruct (ptr_eqb (Some (raddr (Rose x cs))) cut) eqn:Ec; [|exact Hb]. exfalso. apply ptr_eqb_spec in Ec.
          destruct (Hsa _ (he_good _ _ _ _ _ Hh) (eq_sym Ec)) as [H|[a Ha]]; [cbn in H; congruence|exact (Hno a Ha)]. }
        destruct (IH m own' sc' begin i' cut fs' Hgi ltac:(lia)) as (b & m2 & own2 & sc2 & i2 & cut2 & E2 & Hcut2 & Ht2 & Hm2 & Hf2).
        exists b, m2, own2, sc2, i2, cut2. split; [exact E2|]. split; [exact Hcut2|]. split.
        { intros Eb. destruct (Ht2 Eb) as (s2 & la & fsr & i0 & c0 & G1 & G2 & G3 & G4 & G5 & G6 & G7 & G8). exists s2, la, fsr, i0, c0.
          repeat split; try assumption; [lia|auto|]. intros Htm Hfo Hfi Hsa us l Hl. destruct (Hf Htm Hfo Hfi) as (H1 & H2 & _).
          eapply G8; try assumption. apply Hcompl; eassumption. }
        split; [exact Hm2|]. intros Htm Hfo Hfi Hsa. destruct (Hf Htm Hfo Hfi) as (H1 & H2 & _). destruct (Hf2 Htm H1 H2 Hsa) as (H3 & H4 & H5).
        repeat split; try assumption. intros Eb us l Hl. eapply (H5 Eb). apply Hcompl; eassumption.
  Qed.

  Lemma this_plain u : ssolid u -> (match u with SCpt _ => False | _ => True end) -> (forall cut0, tries u cut0) -> this_ok u.
  Proof.
    intros Hso Hk Htry ent deep cb cut0 ns m own sc i cut fs Hmode Hg Hn.
    pose proof (xprefers_solid u ns Hso) as Hp. rewrite xbuild_eq in Hp.
    assert (E : xthis F im h (kind_of u) (test_of u) (xchain (subs u)) ns cb cut0 m own sc i cut =
      xloop F im h (kind_of u) (test_of u) (xchain (subs u)) ns cb cut0 F m own sc i i cut).
    { unfold xthis. rewrite Hp. destruct u; try reflexivity. destruct Hk. }
    rewrite E. apply loop_ok; auto.
  Qed.
  Lemma this_capture p : this_ok p -> this_ok (SCpt p).
  Proof.
    intros Hp ent deep cb cut0 ns m own sc i cut fs Hmode Hg Hn. unfold xthis. cbn [kind_of subs foldr].
    set (cb' := match cb with NoCb => NoCb | _ => AckCb end). rewrite xbuild_eq, xsearch_node_eq. unfold xnode.
    destruct (Hp ent deep cb' cut XNil (xs_matched sc) (xs_cut sc) (xs_first sc) i cut fs) as (b & m' & own' & sc' & i' & cut' & E & Hcut & Ht & Hm & Hf);
      [destruct cb; exact Hmode || exact I|exact Hg|exact Hn|].
    rewrite E. cbn [mbind res_bind].
    assert (Hsafe : safe ent (SCpt p) cut -> safe ent p cut).
    { intros H s Hgs Ec. destruct (H s Hgs Ec) as [H1|[a Ha]]; [auto|]. inversion Ha; subst. eauto. }
    destruct b; cbn [negb mbind res_bind]; eexists _, _, _, _, _, _; (split; [reflexivity|]); cbn [xs_matched].
    - split; [destruct Hcut as [->|(s & a & Hgs & -> & Hms)]; [left; reflexivity|right; exists s, (Asg s [a]); repeat split; try assumption; apply S_cpt, Hms]|].
      split; [|split; [discriminate|]].
      + intros _. destruct (Ht eq_refl) as (s & la & fsr & i0 & c0 & G1 & G2 & G3 & G4 & G5 & G6 & G7 & G8).
        exists s, [Asg s la], fsr, i0, c0. repeat split; try assumption; [apply S_cpt, G1|apply Rec_cons; [exact G2|exact G3|constructor]|].
        intros Htm _ Hfi Hsa us l Hl. cbn [subs] in Hfi. inversion Hfi as [|? ? ? F1 F2 F3]; subst.
        assert (Hl' : exists l', below ent (p :: us) fs l').
        { clear -Hl. remember (SCpt p :: us) as w eqn:Ew. induction Hl as [|e q us' t ts a l Hm Hb _|e us' x cs ts l Hb IH]; [discriminate| |].
          - injection Ew as -> ->. inversion Hm; subst. eexists. apply W_take; eassumption.
          - destruct (IH Ew) as [l' Hl']. exists l'. apply W_skip, Hl'. }
        destruct Hl' as [l' Hl']. destruct (G8 Htm F1 F2 (Hsafe Hsa) us l' Hl') as [l2 Hl2].
        clear -Hl2. remember (p :: us) as w eqn:Ew. induction Hl2 as [|e q us' t ts a l Hm Hb _|e us' x cs ts l Hb IH]; [discriminate| |].
        * injection Ew as -> ->. eexists. apply W_take; [apply S_cpt; eassumption|eassumption].
        * destruct (IH Ew) as [l' Hl']. exists l'. apply W_skip, Hl'.
      + intros Htm _ Hfi Hsa. cbn [subs] in Hfi. inversion Hfi as [|? ? ? F1 F2 F3]; subst. destruct (Hf Htm F1 F2 (Hsafe Hsa)) as (H1 & H2 & _).
        split; [exact I|]. split; [apply Fines_cons; [exact H1|exact H2|constructor]|discriminate].
    - split; [destruct Hcut as [->|(s & a & Hgs & -> & Hms)]; [left; reflexivity|right; exists s, (Asg s [a]); repeat split; try assumption; apply S_cpt, Hms]|].
      split; [discriminate|]. split; [intros _; split; [reflexivity|apply (Hm eq_refl)]|].
      intros Htm _ Hfi Hsa. cbn [subs] in Hfi. inversion Hfi as [|? ? ? F1 F2 F3]; subst. destruct (Hf Htm F1 F2 (Hsafe Hsa)) as (H1 & H2 & H3).
      split; [exact I|]. split; [apply Fines_cons; [exact H1|exact H2|constructor]|]. intros _ us l Hl.
      assert (Hl' : exists l', below ent (p :: us) fs l').
      { clear -Hl. remember (SCpt p :: us) as w eqn:Ew. induction Hl as [|e q us' t ts a l Hm Hb _|e us' x cs ts l Hb IH]; [discriminate| |].
        - injection Ew as -> ->. inversion Hm; subst. eexists. apply W_take; eassumption.
        - destruct (IH Ew) as [l' Hl']. exists l'. apply W_skip, Hl'. }
      destruct Hl' as [l' Hl']. exact (H3 eq_refl us l' Hl').
  Qed.

  Lemma chain_all us : Forall ssolid us -> Forall this_ok us -> chain_ok us.
  Proof. induction 1 as [|u us Hu _ IH]; intros Ht; [apply chain_nil|]. apply Forall_cons in Ht as [H1 H2]. apply chain_cons; auto. Qed.
  Lemma this_all u : ssolid u -> this_ok u.
  Proof.
    induction u as [vm cs IH|q vm cs IH|q vm cs IH|p IH] using spat_ind'; intros Hs.
    4: { apply this_capture, IH, Hs. }
    all: pose proof (ssolid_subs _ Hs) as Hss; cbn [subs] in Hss;
      assert (Hc : chain_ok cs) by (apply chain_all; [exact Hss|]; apply Forall_forall; intros c Hin; rewrite Forall_forall in IH, Hss; apply (IH c Hin), (Hss c Hin)).
    all: apply this_plain; [exact Hs|exact I|]; intros cut0.
    - apply tries_one, Hc.
    - apply tries_opt; assumption.
    - apply tries_star; assumption.
  Qed.
  (** The whole search. *)
  Lemma search_all u s : ssolid u ->
    exists b s' i' cut', xsearch_node (xbuild u XNil) s (SIt (Iter Fixed (Some (raddr t0)) (Some (raddr t0)) [] (Some (raddr t0))) Plain) NoCb None = Ok (b, s', i', cut') /\
      (b = true -> exists a, smatch u t0 a /\ records [u] s' [a]) /\
      (tame u -> fines [u] s -> fines [u] s' /\ (b = false -> forall a, ~ smatch u t0 a)).
  Proof.
    intros Hs. assert (Hc : chain_ok [u]) by (apply chain_all; repeat constructor; [exact Hs|apply this_all, Hs]).
    assert (Hg : goes no None None (SIt (Iter Fixed (Some (raddr t0)) (Some (raddr t0)) [] (Some (raddr t0))) Plain) [t0]).
    { apply flat_at.
      - split; [reflexivity|apply good_root|left; reflexivity|exact I].
      - intros c. eexists. split; [reflexivity|]. apply flat_end. reflexivity. }
    destruct (Hc no None NoCb s _ None [t0] ltac:(intros v; reflexivity) Hg (size_one _ (good_root t0))) as (b & s' & i' & cut' & E & Ht & Hf).
    exists b, s', i', cut'. split; [exact E|]. split.
    - intros Eb. destruct (Ht Eb) as (l & Hl & Hr). apply level_below in Hl. apply level_single in Hl as (a & -> & Hm). eauto.
    - intros Htm Hfi. destruct (Hf ltac:(repeat constructor; exact Htm) ltac:(left; cbn; lia) Hfi (okcut_none _ _)) as (H1 & _ & H3).
      split; [exact H1|]. intros Eb a Ha. apply (H3 Eb [a]), level_below. apply L_take; [exact Ha|constructor].
  Qed.
End Search.
