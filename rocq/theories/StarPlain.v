(** StarPlain.v: on patterns without [star], Star.v agrees with Matcher.v. *)
From Verif Require Import Base StructNode BinaryNode NaryNode Nav Policy Tree Matcher MatchFacts MatchResult Gen Star StarLemmas StarFacts StarResult.

(** Two computations that fail alike or give related values. *)
Definition both {A B} (R : A -> B -> Prop) (x : res A) (y : res B) : Prop :=
  match x, y with Ok a, Ok b => R a b | Err e, Err e' => e = e' | _, _ => False end.
Lemma both_bind {A B A' B'} (R : A -> B -> Prop) (S : A' -> B' -> Prop) x y f g :
  both R x y -> (forall a b, R a b -> both S (f a) (g b)) -> both S (x ≫= f) (y ≫= g).
Proof. destruct x, y; cbn; intros H Hf; try contradiction; [apply Hf, H|congruence]. Qed.
Lemma both_same {A A' B'} (S : A' -> B' -> Prop) (x : res A) f g :
  (forall a, both S (f a) (g a)) -> both S (x ≫= f) (x ≫= g).
Proof. destruct x; cbn; auto. Qed.
Lemma both_bind_same {A A' B B'} (S : A' -> B' -> Prop) (x : res A) (f : A -> res A') (k : A -> B) (g : B -> res B') :
  (forall a, both S (f a) (g (k a))) -> both S (x ≫= f) ((a ← x; Ok (k a)) ≫= g).
Proof. destruct x; cbn; auto. Qed.

Section Plain.
  Context {V : Type}.
  Definition kind_in (k : mkind) : xkind := match k with MOne => XOne | MOpt q => XOpt q | MCapture => XCapture end.
  Fixpoint pat_in (p : pat V) : xpat V :=
    match p with PNil => XNil | PN k vm fc ns => XN (kind_in k) vm (pat_in fc) (pat_in ns) end.
  Fixpoint upat_in (u : upat V) : spat V :=
    match u with
    | UOne vm cs => SOne vm (map upat_in cs)
    | UOpt q vm cs => SOpt q vm (map upat_in cs)
    | UCpt p => SCpt (upat_in p)
    end.
  (** The same matched nodes everywhere. *)
  Inductive sim : mstate -> xstate -> Prop :=
  | Sim_nil : sim MSNil XSNil
  | Sim_reset c f n : sim MSNil f -> sim MSNil n -> sim MSNil (XS None c f n)
  | Sim_node m c f f' n n' : sim f f' -> sim n n' -> sim (MS m f n) (XS m c f' n').
  Lemma sim_matched s s' : sim s s' -> xs_matched s' = ms_matched s.
  Proof. destruct 1; reflexivity. Qed.
  Lemma sim_first s s' : sim s s' -> sim (ms_first s) (xs_first s').
  Proof. destruct 1; [constructor|assumption..]. Qed.
  Lemma sim_next s s' : sim s s' -> sim (ms_next s) (xs_next s').
  Proof. destruct 1; [constructor|assumption..]. Qed.
  Lemma sim_nil_reset s' : sim MSNil (xreset s').
  Proof. induction s' as [|m c f IHf n IHn]; cbn; constructor; assumption. Qed.
  Lemma null_in w p : xmatches_null w (pat_in p) = matches_null w p.
  Proof.
    revert w. induction p as [|k vm fc IHf ns IHn]; intros w; [reflexivity|]. cbn. rewrite IHn. destruct k; cbn; rewrite ?IHf; reflexivity.
  Qed.
  Lemma prefers_in p : xprefers_null (pat_in p) = prefers_null p.
  Proof.
    destruct p as [|k vm fc ns]; [reflexivity|]. destruct k as [|q|]; try reflexivity. destruct q; try reflexivity.
    exact (null_in false (PN (MOpt QReluctant) vm fc ns)).
  Qed.
  Lemma steal_in p : xmay_steal (pat_in p) = child_may_steal p.
  Proof.
    unfold xmay_steal, child_may_steal. f_equal. induction p as [|k vm fc _ ns IHn]; [reflexivity|].
    change (xcount_needed (pat_in (PN k vm fc ns))) with ((if xmatches_null false (pat_in (PN k vm fc ns)) then 0 else 1) + xcount_needed (pat_in ns)).
    rewrite null_in, IHn. reflexivity.
  Qed.
  Lemma build_in u : forall ns, xbuild (upat_in u) (pat_in ns) = pat_in (build u ns).
  Proof.
    assert (Hcs : forall cs, Forall (fun u => forall ns, xbuild (upat_in u) (pat_in ns) = pat_in (build u ns)) cs ->
      foldr xbuild XNil (map upat_in cs) = pat_in (foldr build PNil cs)).
    { induction 1 as [|c cs Hc _ IH]; [reflexivity|]. cbn. rewrite IH, Hc. reflexivity. }
    revert u. fix IH 1. intros [vm cs|q vm cs|p] ns; cbn; f_equal.
    - apply Hcs. induction cs; constructor; [apply IH|assumption].
    - apply Hcs. induction cs; constructor; [apply IH|assumption].
    - exact (IH p PNil).
  Qed.
End Plain.

Section Search.
  Context {V Nd : Type}.
  Variable F : nat.
  Variable im : node_impl V Nd.
  Variable h : gmap addr Nd.
  Notation sit := (@sit V).

  (** The matched nodes and the iterator. *)
  Definition alike (cut : ptr) (x : bool * mstate * iter) (y : bool * xstate * sit * ptr) : Prop :=
    let '(b, s, i) := x in let '(b', s', i', cut') := y in b' = b /\ sim s s' /\ i' = SIt i Plain /\ cut' = cut.
  Definition alike2 (x : bool * mstate) (y : bool * xstate) : Prop := fst y = fst x /\ sim (snd x) (snd y).
  Definition alike3 (own : ptr) (x : bool * mstate) (y : bool * ptr * xstate) : Prop :=
    let '(b', own', s') := y in b' = fst x /\ own' = own /\ sim (snd x) s'.
  Definition alike6 (own cut : ptr) (x : bool * ptr * mstate * iter) (y : bool * ptr * ptr * xstate * sit * ptr) : Prop :=
    let '(b, m, s, i) := x in let '(b', m', own', s', i', cut') := y in
    b' = b /\ m' = m /\ own' = own /\ sim s s' /\ i' = SIt i Plain /\ cut' = cut.
  Definition agrees (p : pat V) : Prop := forall s s' it cut, sim s s' ->
    both (alike cut) (search_node F im h p s it) (xsearch_node F im h (pat_in p) s' (SIt it Plain) NoCb cut).

  Lemma child_plain fc sc sc' i : agrees fc -> sim sc sc' -> both alike2 (child F im h fc sc i) (xchild F im h (pat_in fc) sc' (SIt i Plain)).
  Proof.
    intros Hf Hs. unfold child, xchild. eapply both_bind; [apply Hf, Hs|]. intros [[b s1] i1] [[[b' s1'] i1'] c1] (-> & H1 & _ & _). split; [reflexivity|exact H1].
  Qed.
  Lemma own_plain own (x : res (bool * mstate)) (y : res (bool * xstate)) : both alike2 x y -> both (alike3 own) x ('(b, s) ← y; Ok (b, own, s)).
  Proof. destruct x as [[b s]|e], y as [[b' s']|e']; cbn; try tauto. intros [E H]. cbn in E, H. subst. auto. Qed.
  Lemma fixed_plain fc sc sc' i own cut : agrees fc -> sim sc sc' ->
    both (alike3 own) (i' ← it_other_policy F (tree_nav im h) i Fixed; child F im h fc sc i')
      (i' ← si_fixed F im h cut (SIt i Plain); '(b, sc1) ← xchild F im h (pat_in fc) sc' i'; Ok (b, own, sc1)).
  Proof.
    intros Hf Hs. unfold si_fixed. cbn [si_org si_it si_nav]. destruct (it_other_policy F (tree_nav im h) i Fixed) as [i'|e]; cbn [mbind res_bind]; [|reflexivity].
    apply own_plain, child_plain; assumption.
  Qed.
  Lemma impl_plain k vm fc cut own sc sc' i : agrees fc -> sim sc sc' ->
    both (alike3 own) (impl F im h k vm fc sc i) (ximpl F im h (kind_in k) vm (pat_in fc) cut own sc' (SIt i Plain)).
  Proof.
    intros Hf Hs. unfold impl, ximpl. change (si_cur (SIt i Plain)) with (it_cur i). apply both_same. intros v.
    assert (Hone : both (alike3 own) (if negb (vm v) then Ok (false, sc) else i' ← children_iter F im h i; child F im h fc sc i')
      (if negb (vm v) then Ok (false, own, sc') else i' ← si_children F im h (SIt i Plain); '(b, sc1) ← xchild F im h (pat_in fc) sc' i'; Ok (b, own, sc1))).
    { destruct (vm v); cbn [negb]; [|cbn; auto]. unfold si_children. cbn [si_it].
      destruct (children_iter F im h i) as [i'|e]; cbn [mbind res_bind]; [|reflexivity]. apply own_plain, child_plain; assumption. }
    destruct k as [|q|]; [exact Hone| |exact Hone]. clear Hone. cbn [kind_in]. rewrite steal_in.
    destruct (vm v); cbn [negb].
    - unfold si_children. cbn [si_it]. destruct (children_iter F im h i) as [i'|e]; cbn [mbind res_bind]; [|reflexivity].
      eapply both_bind; [apply child_plain; eassumption|]. intros [b s1] [b' s1'] [E H]. cbn [fst snd] in E, H. subst b'.
      assert (Eq : possessive (MOpt q) = is_possessive q) by (destruct q; reflexivity). rewrite Eq.
      destruct (negb (is_possessive q) && child_may_steal fc && negb b); [apply fixed_plain; assumption|cbn; auto].
    - destruct (child_may_steal fc); [apply fixed_plain; assumption|cbn; auto].
  Qed.
  Lemma incr_plain i cut : si_incr F im h cut (SIt i Plain) = (x ← it_incr F (tree_nav im h) i; Ok (SIt x Plain)).
  Proof. reflexivity. Qed.
  Lemma loop_plain k vm fc ns cut cut0 own m begin n : agrees fc -> forall sc sc' i, sim sc sc' ->
    both (alike6 own cut) (loop F im h (impl F im h k vm fc) (matches_null false (PN k vm fc ns)) n m sc begin i)
      (xloop F im h (kind_in k) vm (pat_in fc) (pat_in ns) NoCb cut0 n m own sc' (SIt begin Plain) (SIt i Plain) cut).
  Proof.
    intros Hf. induction n as [|n IH]; intros sc sc' i Hs; [reflexivity|]. cbn [loop xloop]. change (si_cur (SIt i Plain)) with (it_cur i).
    rewrite <- (null_in false (PN k vm fc ns)). change (pat_in (PN k vm fc ns)) with (XN (kind_in k) vm (pat_in fc) (pat_in ns)).
    destruct (it_cur i) as [a|]; [|destruct (xmatches_null false _); cbn; auto 7].
    eapply both_bind; [apply impl_plain; eassumption|]. intros [b s1] [[b' own'] s1'] (E & -> & H). cbn [fst snd] in E, H. subst b'.
    cbn [acknowledge]. rewrite incr_plain. destruct b.
    - destruct (it_incr F (tree_nav im h) i) as [i'|e]; cbn; auto 7.
    - destruct (it_incr F (tree_nav im h) i) as [i'|e]; cbn [mbind res_bind]; [|reflexivity].
      rewrite <- (null_in false (PN k vm fc ns)) in IH. change (pat_in (PN k vm fc ns)) with (XN (kind_in k) vm (pat_in fc) (pat_in ns)) in IH. apply IH, H.
  Qed.

  (** The search: the same answer, the same matched nodes, the same errors. *)
  Lemma search_plain p : agrees p.
  Proof.
    induction p as [|k vm fc IHf ns IHn]; intros s s' it cut Hs; [cbn; auto|].
    cbn [pat_in]. rewrite search_unfold, xsearch_node_eq. unfold xnode.
    pose proof (sim_first _ _ Hs) as Hs1. pose proof (sim_next _ _ Hs) as Hs2. rewrite (sim_matched _ _ Hs).
    assert (Hthis : both (alike6 (xs_cut s') cut)
      (match k with
        | MCapture =>
            '(b, sc, i) ← search_node F im h fc (ms_first s) it;
            Ok (b, if b : bool then ms_matched sc else ms_matched s, sc, i)
        | _ =>
            if prefers_null (PN k vm fc ns) then Ok (true, ms_matched s, ms_first s, it)
            else loop F im h (impl F im h k vm fc) (matches_null false (PN k vm fc ns)) F (ms_matched s) (ms_first s) it it
        end)
      (xthis F im h (kind_in k) vm (pat_in fc) (pat_in ns) NoCb cut (ms_matched s) (xs_cut s') (xs_first s') (SIt it Plain) cut)).
    { unfold xthis. pose proof (prefers_in (PN k vm fc ns)) as Hp. cbn [pat_in] in Hp.
      destruct k as [|q|]; cbn [kind_in] in *.
      - rewrite Hp. destruct (prefers_null _); [cbn; auto 7|]. apply (loop_plain MOne); assumption.
      - rewrite Hp. destruct (prefers_null _); [cbn; auto 7|]. apply (loop_plain (MOpt q)); assumption.
      - eapply both_bind; [apply IHf, Hs1|]. intros [[b s1] i1] [[[b' s1'] i1'] c1] (-> & H1 & -> & ->). cbn. rewrite (sim_matched _ _ H1). auto 7. }
    eapply both_bind; [exact Hthis|]. intros [[[b m] sc] i] [[[[[b' m'] own'] sc'] i'] cut'] (-> & -> & -> & Hsc & -> & ->).
    destruct b; cbn [negb]; [|cbn; repeat split; constructor; assumption].
    pose proof (null_in false (PN k vm fc ns)) as Hnull. cbn [pat_in] in Hnull. rewrite Hnull. clear Hnull.
    assert (Hgo : both (alike cut)
      ('(b2, sn, i2) ← search_node F im h ns (ms_next s) i;
       if b2 : bool then Ok (true, MS m sc sn, i2)
       else if matches_null false (PN k vm fc ns) && negb (is_null m)
            then i3 ← it_other_node F (tree_nav im h) i2 m;
                 '(b3, sn', i4) ← search_node F im h ns MSNil i3;
                 Ok (b3, MS None MSNil sn', i4)
            else Ok (false, MS m sc sn, i2))
      ('(b2, sn, i2, cut2) ← xsearch_node F im h (pat_in ns) (xs_next s') (SIt i Plain) NoCb cut;
       if b2 : bool then Ok (true, XS m (xs_cut s') sc' sn, i2, cut2)
       else if matches_null false (PN k vm fc ns) && negb (is_null m)
            then i4 ← si_other_node F im h cut2 i2 m;
                 '(b5, sn5, i5, cut5) ← xsearch_node F im h (pat_in ns) (xreset sn) i4 NoCb cut2;
                 Ok (b5, XS None (xs_cut s') (xreset sc') sn5, i5, cut5)
            else Ok (false, XS m (xs_cut s') sc' sn, i2, cut2))).
    { eapply both_bind; [apply IHn, Hs2|]. intros [[b2 s2] i2] [[[b2' s2'] i2'] c2] (-> & H2 & -> & ->).
      destruct b2; [cbn; repeat split; constructor; assumption|].
      destruct (matches_null false (PN k vm fc ns) && negb (is_null m)); [|cbn; repeat split; constructor; assumption].
      unfold si_other_node. cbn [si_org si_it si_nav]. destruct (it_other_node F (tree_nav im h) i2 m) as [i3|e]; cbn [mbind res_bind]; [|reflexivity].
      eapply both_bind; [apply IHn, sim_nil_reset|]. intros [[b3 s3] i4] [[[b3' s3'] i4'] c4] (-> & H3 & -> & ->).
      cbn. repeat split. constructor; [apply sim_nil_reset|exact H3]. }
    destruct ns as [|k2 vm2 fc2 ns2]; [cbn in Hgo |- *; exact Hgo|]. cbn [pat_in].
    change (XN (kind_in k2) vm2 (pat_in fc2) (pat_in ns2)) with (pat_in (PN k2 vm2 fc2 ns2)). set (ns := PN k2 vm2 fc2 ns2) in *.
    destruct (xsearch_node F im h (pat_in ns) (xs_next s') (SIt i Plain) NoCb cut) as [[[[b2 sn] i2] cut2]|e]; cbn [mbind res_bind] in *; exact Hgo.
  Qed.
End Search.

Section Result.
  Context {V Nd : Type}.
  Variable F : nat.
  Variable im : node_impl V Nd.
  Variable al : allocator Nd.
  Variable like : gmap addr Nd -> ptr -> ptr -> ptr -> res (gmap addr Nd).
  Notation heap := (gmap addr Nd).
  Notation result := (result F im al like).
  Notation xresult := (xresult F im al like).
  Definition same (p : pat V) : Prop := forall s s' h, sim s s' -> xresult (pat_in p) s' h = result p s h.
  (** Every matcher of a chain of siblings. *)
  Fixpoint sames (p : pat V) : Prop := match p with PNil => True | PN _ _ _ ns => same p /\ sames ns end.
  Lemma sames_same p : sames p -> same p.
  Proof. destruct p; [intros _ s s' h _; reflexivity|intros [H _]; exact H]. Qed.
  Lemma attach_plain c : sames c -> forall sc sc' a h, sim sc sc' -> xattach F im al like (pat_in c) sc' a h = attach F im al like c sc a h.
  Proof.
    induction c as [|k vm fc _ cn IH]; intros Hc sc sc' a h Hs; [reflexivity|]. destruct Hc as [Hc Hn].
    cbn [pat_in xattach attach]. change (XN (kind_in k) vm (pat_in fc) (pat_in cn)) with (pat_in (PN k vm fc cn)).
    rewrite (sim_matched _ _ Hs). rewrite (Hc _ _ h Hs).
    match goal with |- mbind ?f ?x = mbind ?g ?x => destruct x as [h1|e]; [|reflexivity] end.
    cbn [mbind res_bind]. apply IH; [exact Hn|apply sim_next, Hs].
  Qed.
  Lemma stolen_plain s own c : sames c -> ms_matched s = own -> forall sc sc' found acc h, sim sc sc' ->
    xstolen F im al like own (pat_in c) sc' found acc h = stolen F im al like s c sc found acc h.
  Proof.
    intros Hc E. induction c as [|k vm fc _ cn IH]; intros sc sc' found acc h Hs; [reflexivity|]. destruct Hc as [Hc Hn].
    cbn [pat_in xstolen stolen]. change (XN (kind_in k) vm (pat_in fc) (pat_in cn)) with (pat_in (PN k vm fc cn)).
    rewrite (sim_matched _ _ Hs), E. destruct (ptr_eqb (ms_matched sc) own); [|apply IH; [exact Hn|apply sim_next, Hs]].
    rewrite (Hc _ _ h Hs). destruct (result (PN k vm fc cn) sc h) as [[x h1]|e]; cbn [mbind res_bind]; [|reflexivity].
    destruct (deallocate im F h1 acc) as [h2|e]; cbn [mbind res_bind]; [|reflexivity]. apply IH; [exact Hn|apply sim_next, Hs].
  Qed.
  (** The result: the same node in the same heap. *)
  Lemma result_plain p : sames p.
  Proof.
    induction p as [|k vm fc IHf ns IHn]; [exact I|]. split; [|exact IHn]. intros s s' h Hs.
    destruct Hs as [|c f n H1 H2|m c f f' n n' H1 H2]; [reflexivity|reflexivity|].
    destruct m as [m|]; [|reflexivity].
    assert (Hclone : forall h, xclone F im al like (Some m) (pat_in fc) f' h = (v ← ni_value im h (Some m); '(a, h0) ← ni_from_value im al h v; h1 ← attach F im al like fc f a h0; Ok (Some a, h1))).
    { intros h1. unfold xclone. destruct (ni_value im h1 (Some m)) as [v|e]; cbn [mbind res_bind]; [|reflexivity].
      destruct (ni_from_value im al h1 v) as [[a h2]|e]; cbn [mbind res_bind]; [|reflexivity]. rewrite (attach_plain fc IHf f f' a h2 H1). reflexivity. }
    destruct k as [|q|]; cbn [pat_in kind_in].
    - rewrite StarResult.result_one, MatchResult.result_one, Hclone. reflexivity.
    - rewrite StarResult.result_opt, MatchResult.result_opt, steal_in, (stolen_plain (MS (Some m) f n) (Some m) fc IHf eq_refl f f' false None h H1).
      match goal with |- mbind ?f ?x = mbind ?g ?x => destruct x as [[[b x1] h1]|e]; [|reflexivity] end. cbn [mbind res_bind].
      destruct b; [reflexivity|]. apply Hclone.
    - rewrite result_cpt. exact (sames_same fc IHf f f' h H1).
  Qed.
End Result.

(** A pattern object of the one model and of the other, after the same searches. *)
Definition plain {V} (x : pattern (V := V)) (y : xpattern (V := V)) : Prop :=
  xp_pat y = pat_in (p_pat x) /\ sim (p_state x) (xp_state y) /\ xp_found y = p_found x.
Theorem plain_fresh {V} (u : upat V) : plain (make_pattern (build u PNil)) (make_xpattern (xbuild (upat_in u) XNil)).
Proof. split; [exact (build_in u PNil)|]. split; [constructor|reflexivity]. Qed.
Theorem plain_search {V Nd} F (im : node_impl V Nd) h root x y : plain x y ->
  both (fun r r' => fst r' = fst r /\ plain (snd r) (snd r')) (search F im x h root) (xsearch F im y h root).
Proof.
  intros (Hp & Hs & Hf). unfold search, xsearch. destruct (get_instance F (tree_nav im h) Fixed root root) as [it|e]; cbn [mbind res_bind]; [|reflexivity].
  rewrite Hp. eapply both_bind; [apply search_plain, sim_nil_reset|]. intros [[b s] i] [[[b' s'] i'] c] (-> & H & _ & _).
  cbn. split; [reflexivity|]. split; [reflexivity|]. split; [exact H|]. cbn. rewrite Hf. reflexivity.
Qed.
Theorem plain_result {V Nd} F (im : node_impl V Nd) al like x y w i : plain x y ->
  xassign_result F im al like y w i = assign_result F im al like x w i.
Proof.
  intros (Hp & Hs & Hf). unfold xassign_result, assign_result. rewrite Hf, Hp, (sames_same _ _ _ _ _ (result_plain F im al like (p_pat x)) _ _ (w_heap w) Hs). reflexivity.
Qed.
Lemma captures_plain {V} (p : pat V) : forall s s', sim s s' ->
  Forall2 (fun c c' => fst c' = pat_in (fst c) /\ sim (snd c) (snd c')) (captures p s) (xcaptures (pat_in p) s').
Proof.
  induction p as [|k vm fc IHf ns IHn]; intros s s' Hs; [constructor|]. cbn [pat_in captures xcaptures].
  apply Forall2_app; [|apply Forall2_app; [apply IHf, sim_first, Hs|apply IHn, sim_next, Hs]].
  destruct k; cbn [kind_in]; constructor; [|constructor]. split; [reflexivity|exact Hs].
Qed.
Theorem plain_mark {V Nd} F (im : node_impl V Nd) al like x y k w i : plain x y ->
  xassign_mark F im al like y k w i = assign_mark F im al like x k w i.
Proof.
  intros (Hp & Hs & Hf). unfold xassign_mark, assign_mark. rewrite Hf, Hp. destruct (p_found x); [|reflexivity]. cbn [negb].
  pose proof (captures_plain (p_pat x) _ _ Hs) as Hc. revert Hc. generalize (captures (p_pat x) (p_state x)), (xcaptures (pat_in (p_pat x)) (xp_state y)), (k - 1).
  intros l l' n Hl. revert n. induction Hl as [|[c sc] [c' sc'] l l' [E H] _ IH]; intros [|n]; try reflexivity; [|apply IH].
  cbn [nth_error fst snd] in *. subst c'. rewrite (sames_same _ _ _ _ _ (result_plain F im al like c) _ _ (w_heap w) H). reflexivity.
Qed.
