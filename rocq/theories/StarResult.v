(** StarResult.v: the tree built for a match of a pattern with [star]. *)
From Verif Require Import Base Spec StructNode BinaryNode NaryNode Nav Policy Tree Rep RoseFacts NavFacts NaryRep Iter IterTrees
  World Kinds EditSpec TreeSpec TreeOps NodeFacts MatchSpec Matcher MatchFacts MatchWalk MatchResult MatchKinds PredProofs GenFacts GenInv Gen GenSim GenRun GenUser
  Star StarSpec StarResultSpec StarLemmas StarWalk StarFacts StarFlat StarTarget.

(** *** The nodes taken by the children of a star *)
Section Nodes.
  Context {V : Type}.
  Notation tree := (rose (addr * V)).
  Notation nodes := (map (@at_node (addr * V))).
  Lemma frontier_sub (p : V -> bool) (t : tree) : flat_map preorder (frontier snd p t) `sublist_of` preorder t.
  Proof.
    induction t as [x ts IH] using rose_ind'. cbn [frontier]. destruct (p (snd x)); [|cbn [flat_map]; rewrite app_nil_r; reflexivity].
    cbn [preorder]. apply sublist_cons. induction IH as [|t ts Ht _ IHts]; [constructor|]. cbn [flat_map]. rewrite flat_map_app. apply sublist_app; assumption.
  Qed.
  Lemma frontiers_sub (p : V -> bool) (ts : list tree) : flat_map preorder (flat_map (frontier snd p) ts) `sublist_of` flat_map preorder ts.
  Proof. induction ts as [|t ts IH]; [constructor|]. cbn [flat_map]. rewrite flat_map_app. apply sublist_app; [apply frontier_sub|exact IH]. Qed.
  Lemma level_sub us (ts : list tree) l : level snd us ts l -> flat_map preorder (nodes l) `sublist_of` flat_map preorder ts.
  Proof.
    induction 1 as [ts|u us t ts a l Hm _ IH|us t ts l _ IH]; cbn [map flat_map].
    - apply sublist_nil_l.
    - rewrite (smatch_at _ _ _ _ Hm). apply sublist_app; [reflexivity|exact IH].
    - apply sublist_inserts_l, IH.
  Qed.
  Lemma level_in us (ts : list tree) l a : level snd us ts l -> a ∈ l -> at_node a ∈ ts.
  Proof.
    induction 1 as [ts|u us t ts b l Hm _ IH|us t ts l _ IH]; intros Ha.
    - apply elem_of_nil in Ha as [].
    - apply elem_of_cons in Ha as [->|Ha]; [rewrite (smatch_at _ _ _ _ Hm); left|right; auto].
    - right. auto.
  Qed.
  Lemma below_sub p us (ts : list tree) l : below snd p us ts l -> flat_map preorder (nodes l) `sublist_of` flat_map preorder ts.
  Proof.
    induction 1 as [p ts|p u us t ts a l Hm _ IH|p us x cs ts l _ IH]; cbn [map flat_map].
    - apply sublist_nil_l.
    - rewrite (smatch_at _ _ _ _ Hm). apply sublist_app; [reflexivity|exact IH].
    - etransitivity; [exact IH|]. rewrite flat_map_app. apply sublist_app; [|reflexivity]. cbn [preorder]. destruct (p (snd x)); [apply sublist_cons; reflexivity|apply sublist_nil_l].
  Qed.
  Lemma frontier_reached (p : V -> bool) x (ts : list tree) s : s ∈ flat_map (frontier snd p) ts -> reached snd p (Rose x ts) s.
  Proof.
    intros H. apply elem_of_flat_map in H as (t & Ht & Hs). enough (s = t \/ (p (snd (label t)) = true /\ reached snd p t s)) as [->|[Hp Hr]].
    - apply R_child, Ht.
    - eapply R_deeper; eassumption.
    - clear x ts Ht. induction t as [x ts IH] using rose_ind'. cbn [frontier label] in *. destruct (p (snd x)) eqn:Ep; [|left; apply elem_of_list_singleton in Hs; exact Hs].
      right. split; [reflexivity|]. apply elem_of_flat_map in Hs as (t & Ht & Hs). rewrite Forall_forall in IH. destruct (IH t Ht Hs) as [->|[Hp Hr]]; [apply R_child, Ht|eapply R_deeper; eassumption].
  Qed.
  Lemma below_all p us (ts : list tree) l x a : below snd p us ts l -> a ∈ l -> reached snd p (Rose x ts) (at_node a).
  Proof.
    intros H. revert x a. induction H as [p ts|p u us t ts b l Hm _ IH|p us y cs ts l _ IH]; intros x a Ha.
    - apply elem_of_nil in Ha as [].
    - apply elem_of_cons in Ha as [->|Ha]; [rewrite (smatch_at _ _ _ _ Hm); apply R_child; left|].
      specialize (IH x a Ha). inversion IH as [? ? ? Hs|? ? t' ? Ht Hpt Hr]; subst; [apply R_child; right; exact Hs|eapply R_deeper; [right; exact Ht|exact Hpt|exact Hr]].
    - specialize (IH x a Ha). destruct (p (snd y)) eqn:Ep; [|cbn [app] in IH].
      + inversion IH as [? ? ? Hs|? ? t' ? Ht Hpt Hr]; subst.
        * apply elem_of_app in Hs as [Hs|Hs]; [|apply R_child; right; exact Hs]. apply (R_deeper _ _ _ _ (Rose y cs)); [left|exact Ep|apply R_child, Hs].
        * apply elem_of_app in Ht as [Ht|Ht]; [|eapply R_deeper; [right; exact Ht|exact Hpt|exact Hr]].
          apply (R_deeper _ _ _ _ (Rose y cs)); [left|exact Ep|eapply R_deeper; eassumption].
      + inversion IH as [? ? ? Hs|? ? t' ? Ht Hpt Hr]; subst; [apply R_child; right; exact Hs|eapply R_deeper; [right; exact Ht|exact Hpt|exact Hr]].
  Qed.
  Lemma level_each us (ts : list tree) l : level snd us ts l -> Forall2 (fun u a => smatch snd u (at_node a) a) us l.
  Proof.
    induction 1 as [ts|u us t ts a l Hm _ IH|us t ts l _ IH]; [constructor| |exact IH]. constructor; [|exact IH]. rewrite (smatch_at _ _ _ _ Hm). exact Hm.
  Qed.
  Lemma below_each p us (ts : list tree) l : below snd p us ts l -> Forall2 (fun u a => smatch snd u (at_node a) a) us l.
  Proof.
    induction 1 as [p ts|p u us t ts a l Hm _ IH|p us x cs ts l _ IH]; [constructor| |exact IH]. constructor; [|exact IH]. rewrite (smatch_at _ _ _ _ Hm). exact Hm.
  Qed.
  (** In a star that is present. *)
  Lemma star_present q p us x (ts : list tree) l : (q <> QPossessive -> below snd p us ts l) -> (q = QPossessive -> level snd us (flat_map (frontier snd p) ts) l) ->
    Forall2 (fun u a => smatch snd u (at_node a) a) us l /\ flat_map preorder (nodes l) `sublist_of` flat_map preorder ts /\
    (forall a, a ∈ l -> reached snd p (Rose x ts) (at_node a)).
  Proof.
    intros H1 H2. assert (Hq : q = QPossessive \/ q <> QPossessive) by (destruct q; auto; right; discriminate). destruct Hq as [Hq|Hq].
    - specialize (H2 Hq). split; [eapply level_each, H2|]. split; [etransitivity; [eapply level_sub, H2|apply frontiers_sub]|].
      intros a Ha. apply frontier_reached. eapply level_in; eassumption.
    - specialize (H1 Hq). split; [eapply below_each, H1|]. split; [eapply below_sub, H1|]. intros a Ha. eapply below_all; eassumption.
  Qed.
  Lemma apart (l : list tree) s s' : NoDup (flat_map raddrs l) -> s ∈ l -> s' ∈ l -> raddr s' ∈ raddrs s -> s' = s.
  Proof.
    induction l as [|t l IH]; intros Hnd Hs Hs' Hin; [apply elem_of_nil in Hs as []|]. cbn [flat_map] in Hnd. apply NoDup_app in Hnd as (_ & Hd & Hnd).
    apply elem_of_cons in Hs, Hs'. destruct Hs as [->|Hs], Hs' as [->|Hs'].
    - reflexivity.
    - exfalso. eapply Hd; [exact Hin|]. apply elem_of_flat_map. exists s'. split; [exact Hs'|apply raddr_mem].
    - exfalso. eapply Hd; [apply raddr_mem|]. apply elem_of_flat_map. exists s. auto.
    - auto.
  Qed.
  Lemma faddrs_map (l : list tree) : flat_map raddrs l = map fst (flat_map preorder l).
  Proof. induction l as [|t l IH]; [reflexivity|]. cbn. rewrite map_app, IH. reflexivity. Qed.
  Lemma nodes_nd (l ts : list tree) x : NoDup (raddrs (Rose x ts)) -> flat_map preorder l `sublist_of` flat_map preorder ts ->
    NoDup (flat_map raddrs l) /\ NoDup (map raddr l) /\ forall s, s ∈ l -> raddr s <> fst x.
  Proof.
    intros Hnd Hs. unfold raddrs in Hnd. cbn [preorder map] in Hnd. apply NoDup_cons in Hnd as [Hx Hnd]. assert (Hn : NoDup (flat_map raddrs l)).
    { rewrite faddrs_map. assert (Hs' : map fst (flat_map preorder l) `sublist_of` map fst (flat_map preorder ts)).
      { clear -Hs. remember (flat_map preorder l) as l1. remember (flat_map preorder ts) as l2. clear Heql1 Heql2. induction Hs; cbn; [constructor|apply sublist_skip; assumption|apply sublist_cons; assumption]. }
      apply sublist_submseteq, submseteq_Permutation in Hs' as [k Hk]. rewrite Hk in Hnd. apply NoDup_app in Hnd as [Hnd _]. exact Hnd. }
    split; [exact Hn|]. split.
    - clear -Hn. induction l as [|t l IH]; [constructor|]. cbn in *. apply NoDup_app in Hn as (_ & Hd & Hn). constructor; [|apply IH, Hn].
      intros H. apply elem_of_list_fmap in H as (s & E & Hs). apply (Hd (raddr t) (raddr_mem t)). apply elem_of_flat_map. exists s. split; [exact Hs|]. rewrite E. apply raddr_mem.
    - intros s Hin E. apply Hx. rewrite <- E. apply elem_of_list_fmap. exists (label s). split; [reflexivity|].
      eapply elem_of_submseteq; [|apply sublist_submseteq, Hs]. apply elem_of_flat_map. exists s. split; [exact Hin|]. destruct s. left.
  Qed.
End Nodes.

Section Result.
  Context {V Nd : Type}.
  Variable F : nat.
  Variable im : node_impl V Nd.
  Variable al : allocator Nd.
  Variable like : gmap addr Nd -> ptr -> ptr -> ptr -> res (gmap addr Nd).
  Variable K : kind_data V Nd.
  Hypothesis KO : kind_ok F im al K.
  Notation heap := (gmap addr Nd).
  Notation tree := (rose (addr * V)).
  Notation C := (C K).
  Notation croot := (croot K).
  Notation caddrs := (caddrs K).
  Notation crep := (crep K).
  Notation built := (built caddrs crep).
  Notation xresult := (xresult F im al like).
  Notation dec := (dec C).

  (** *** What the kind of trees provides *)
  Variable src : heap -> tree -> Prop.
  Variable image : tree -> C -> Prop.
  Hypothesis CP : copies F im like K src image.
  (** [whole h t]: the tree [t] is in memory. *)
  Variable whole : heap -> tree -> Prop.
  Hypothesis whole_nd : forall h t, whole h t -> NoDup (raddrs t).
  Hypothesis whole_ops : forall h t, whole h t -> ops_ok (ni_ops im h) (rose_map fst t).
  Hypothesis whole_val : forall h t x, whole h t -> x ∈ preorder t -> ni_value im h (Some (fst x)) = Ok (snd x).
  Hypothesis whole_dom : forall h t a, whole h t -> a ∈ raddrs t -> is_Some (h !! a).
  Hypothesis whole_sub : forall h t s, whole h t -> rsubtree s t -> whole h s.
  Hypothesis whole_ext : forall h h' t, h ⊆ h' -> whole h t -> whole h' t.
  Hypothesis whole_src : forall h t m, whole h t -> trim m t -> src h m.
  Notation state := (option (gset addr)).
  Hypothesis gen : forall (tg : tree) h0 g0 c0 (pred : state -> heap -> mptr -> res (state * mptr * bool)) (apr : state -> addr -> state * dec) (uses : addr -> option C) flr st,
    rsize tg < F -> whole h0 tg -> crep h0 c0 -> croot c0 = Some g0 -> cvals K c0 = lit_vals K (LNode (snd (label tg)) []) -> (forall a, a ∈ raddrs tg -> a ∉ caddrs c0) ->
    (forall m u, uses m = Some u -> crep h0 u /\ croot u <> None /\ forall z, z ∈ caddrs u -> z ∉ raddrs tg /\ z ∉ caddrs c0) ->
    (forall m m' u u' z, uses m = Some u -> uses m' = Some u' -> m <> m' -> z ∈ caddrs u -> z ∉ caddrs u') ->
    (forall st m st' u, apr st m = (st', Use u) -> uses m = Some u) ->
    (forall m u kids, uses m = Some u -> tat tg m kids -> forall st x, x ∈ kids -> exists st', apr st (raddr x) = (st', Skip)) ->
    (forall st h m o fl st' d, whole h tg -> m ∈ raddrs tg -> m <> raddr tg -> apr st m = (st', d) ->
      pred st h (MPtr [Some m; o] fl) = Ok (st', answer K (MPtr [Some m; o] fl) d, accepted K d)) ->
    exists st' h' tr X c, generate F im al like pred (MPtr [Some (raddr tg); Some g0] flr) st h0 = Ok (st', h') /\ calls apr st tr st' /\ NoDup (map fst tr) /\
      (forall f, GenFacts.agree f tr -> grow f tg = X) /\
      (forall m, m ∈ map fst tr -> exists pm pl kids, (pm, pl) ∈ preorder X /\ tat tg pm kids /\ m ∈ map raddr kids) /\
      crep h' c /\ croot c = Some g0 /\ (forall a, a ∉ caddrs c -> h' !! a = h0 !! a) /\
      (forall a, a ∈ caddrs c -> h0 !! a = None \/ a ∈ caddrs c0 \/ exists m u, uses m = Some u /\ a ∈ caddrs u) /\
      (forall a, a ∈ caddrs c0 -> a ∈ caddrs c) /\
      (forall m u z, (m, inr u) ∈ preorder X -> z ∈ caddrs u -> z ∈ caddrs c) /\
      (forall f mof, GenFacts.agree f tr -> (forall m u, f m = Use u -> image (mof m) u /\ raddr (mof m) = m) -> trim (flat mof f tg) tg -> image (flat mof f tg) c).

  (** *** The parts of [xresult] *)
  Fixpoint xattach (c : xpat V) (sc : xstate) (a : addr) (h : heap) : res heap :=
    match c with
    | XNil => Ok h
    | XN _ _ _ cn =>
        h1 ← (match xs_matched sc with
              | None => Ok h
              | Some _ => '(x, h') ← xresult c sc h; like h' (Some a) x (xs_matched sc)
              end);
        xattach cn (xs_next sc) a h1
    end.
  Section Stolen.
  Variable own : ptr.
  Fixpoint xstolen (c : xpat V) (sc : xstate) (found : bool) (acc : ptr) (h : heap) : res (bool * ptr * heap) :=
    match c with
    | XNil => Ok (found, acc, h)
    | XN _ _ _ cn =>
        if ptr_eqb (xs_matched sc) own
        then '(x, h1) ← xresult c sc h;
             h2 ← deallocate im F h1 acc;
             xstolen cn (xs_next sc) true x h2
        else xstolen cn (xs_next sc) found acc h
    end.
  End Stolen.
  Fixpoint xempty (c : xpat V) (sc : xstate) : bool :=
    match c with
    | XNil => true
    | XN _ _ _ cn => is_null (xs_matched sc) && xempty cn (xs_next sc)
    end.
  Fixpoint xtargets (c : xpat V) (sc : xstate) (st : gmap addr ptr * Z) (h : heap) : res (gmap addr ptr * Z * heap) :=
    match c with
    | XNil => Ok (st, h)
    | XN _ _ _ cn =>
        match xs_matched sc with
        | None => xtargets cn (xs_next sc) st h
        | Some t =>
            '(x, h1) ← xresult c sc h;
            h2 ← (match fst st !! t with Some old => deallocate im F h1 old | None => Ok h1 end);
            xtargets cn (xs_next sc) (<[t := x]> (fst st), (snd st + 1)%Z) h2
        end
    end.
  Fixpoint xpath (c : xpat V) (sc : xstate) (cloned : gmap addr ptr) (h : heap) : res heap :=
    match c with
    | XNil => Ok h
    | XN _ _ _ cn =>
        '(x, h1) ← xresult c sc h;
        '(cloned', h2) ← reluctant_attach im al like F cloned (xs_matched sc) x h1;
        xpath cn (xs_next sc) cloned' h2
    end.
  Definition xclone (m : ptr) fc sc (h : heap) : res (ptr * heap) :=
    v ← ni_value im h m;
    '(a, h0) ← ni_from_value im al h v;
    h1 ← xattach fc sc a h0;
    Ok (Some a, h1).
  Lemma result_one vm fc ns m cut sc sn h : xresult (XN XOne vm fc ns) (XS (Some m) cut sc sn) h = xclone (Some m) fc sc h.
  Proof. reflexivity. Qed.
  Lemma result_cpt vm fc ns m cut sc sn h : xresult (XN XCapture vm fc ns) (XS (Some m) cut sc sn) h = xresult fc sc h.
  Proof. reflexivity. Qed.
  Lemma result_opt q vm fc ns m cut sc sn h : xresult (XN (XOpt q) vm fc ns) (XS (Some m) cut sc sn) h =
    ('(b, x, h1) ← (if xmay_steal fc then xstolen (Some m) fc sc false None h else Ok (false, None, h));
     if b : bool then Ok (x, h1) else xclone (Some m) fc sc h1).
  Proof. reflexivity. Qed.
  Lemma result_star q vm fc ns m cut sc sn h : xresult (XN (XStar q) vm fc ns) (XS (Some m) cut sc sn) h =
    if xempty fc sc then no_children_result F im al like q vm (Some m) h
    else
      '(b, x, h1) ← (if xmay_steal fc then xstolen (Some m) fc sc false None h else Ok (false, None, h));
      if b : bool then Ok (x, h1)
      else
        v ← ni_value im h1 (Some m);
        '(a, h2) ← ni_from_value im al h1 v;
        match q with
        | QReluctant => h3 ← xpath fc sc {[ m := Some a ]} h2; Ok (Some a, h3)
        | _ =>
            '(tg, n, h3) ← xtargets fc sc (∅, 0%Z) h2;
            '(tg', _, h4) ← generate F im al like (check_target im q vm) (mp_make [Some m; Some a]) (tg, n) h3;
            h5 ← release_all F im (map_to_list tg') h4;
            Ok (Some a, h5)
        end.
  Proof. destruct q; reflexivity. Qed.

  (** *** Sizes, heaps *)
  Lemma trim_size (m t : tree) : trim m t -> rsize m <= rsize t.
  Proof. intros [ps H]. eapply occurs_size, H. Qed.
  Lemma sub_size (s t : tree) : rsubtree s t -> rsize s <= rsize t.
  Proof.
    induction 1 as [|x cs c Hc _ IH]; [lia|]. cbn [rsize]. apply elem_of_list_split in Hc as (l1 & l2 & ->). change (fold_right Nat.add 0) with list_sum.
    rewrite map_app, list_sum_app'. cbn. lia.
  Qed.
  Lemma fresh_apart h h' c u : crep h c -> built h h' u -> forall z, z ∈ caddrs u -> z ∉ caddrs c.
  Proof. intros Hc (_ & Hn & _) z Hz Hzc. destruct (k_dom _ _ _ _ KO _ _ _ Hc Hzc) as [y Hy]. rewrite (Hn z Hz) in Hy. discriminate. Qed.
  Lemma keep_rep h h' c u : crep h c -> built h h' u -> crep h' c.
  Proof.
    intros Hc Hb. pose proof (fresh_apart _ _ _ _ Hc Hb) as Hd. destruct Hb as (_ & _ & Hf). eapply (k_ext _ _ _ _ KO); [|exact Hc].
    intros z Hz. apply Hf. intros Hzu. exact (Hd z Hzu Hz).
  Qed.
  Lemma built_le h h' c : built h h' c -> h ⊆ h'.
  Proof. eapply built_sub. Qed.

  Definition good_result (u : spat V) : Prop := forall ns s h a, records [u] s [a] -> smatch snd u (at_node a) a -> whole h (at_node a) -> rsize (at_node a) < F ->
    exists b h' c m, xresult (xbuild u ns) s h = Ok (Some b, h') /\ croot c = Some b /\ sresult snd u a m /\ trim m (at_node a) /\ image m c /\ built h h' c.
  Lemma records_one (u : spat V) us s a l : records (u :: us) s (a :: l) -> records [u] s [a] /\ records us (xs_next s) l.
  Proof. intros H. inversion H; subst. split; [|assumption]. constructor; [assumption..|constructor]. Qed.
  Lemma records_matched (u : spat V) us s a l : records (u :: us) s (a :: l) -> xs_matched s = Some (raddr (at_node a)).
  Proof. intros H. inversion H; subst. assumption. Qed.

  (** *** The children of [one] and of a present [opt] *)
  Lemma attach_ok us ts l : level snd us ts l -> Forall good_result us -> forall s h0 h c x ts1 ms1 a,
    records us s l -> whole h0 (Rose x (ts1 ++ ts)) -> rsize (Rose x (ts1 ++ ts)) < F -> trims ms1 ts1 ->
    image (Rose x ms1) c -> croot c = Some a -> built h0 h c ->
    exists h' c' ms, xattach (xchain us) s a h = Ok h' /\ sresults snd us l ms /\ trims ms ts /\ image (Rose x (ms1 ++ ms)) c' /\ croot c' = Some a /\ built h0 h' c'.
  Proof.
    induction 1 as [ts|u us t ts b l Hm Hl IH|us t ts l Hl IH]; intros Hg s h0 h c x ts1 ms1 a Hr Hw HF Ht Hi Hrt Hb.
    - exists h, c, []. rewrite app_nil_r. split; [reflexivity|]. split; [constructor|]. split; [apply trims_nil|]. auto.
    - apply Forall_cons in Hg as [Hu Hus]. destruct (records_one _ _ _ _ _ Hr) as [Hr1 Hr2]. pose proof (records_matched _ _ _ _ _ Hr) as Hma.
      pose proof (smatch_at _ _ _ _ Hm) as Hat. pose proof (built_le _ _ _ Hb) as Hle.
      assert (Hsub : rsubtree t (Rose x (ts1 ++ t :: ts))) by (econstructor; [|constructor]; set_solver +).
      rewrite <- Hat in Hm. destruct (Hu (xchain us) s h b Hr1 Hm) as (r & h1 & u1 & m & E & Hru & Hsr & Htr & Him & Hbu).
      { rewrite Hat. eapply whole_sub; [|exact Hsub]. eapply whole_ext; [exact Hle|exact Hw]. }
      { rewrite Hat. apply sub_size in Hsub. lia. }
      rewrite Hat in Htr. cbn [foldr]. rewrite xbuild_eq. cbn [xattach]. rewrite <- xbuild_eq, Hma, E. cbn [mbind res_bind]. rewrite Hat.
      pose proof (fresh_apart _ _ _ _ (proj1 Hb) Hbu) as Hdis. pose proof (keep_rep _ _ _ _ (proj1 Hb) Hbu) as Hc1. pose proof (built_le _ _ _ Hbu) as Hle1.
      assert (Htm : trims (ms1 ++ [m]) (ts1 ++ [t])) by (apply trims_app; [exact Ht|apply trims_take; [exact Htr|apply trims_nil]]).
      assert (Htt : trim (Rose x (ms1 ++ [m])) (Rose x (ts1 ++ t :: ts))).
      { apply trim_node. change (t :: ts) with ([t] ++ ts). rewrite app_assoc, <- (app_nil_r (ms1 ++ [m])). apply trims_app; [exact Htm|apply trims_nil]. }
      assert (Htt0 : trim (Rose x ms1) (Rose x (ts1 ++ t :: ts))).
      { apply trim_node. rewrite <- (app_nil_r ms1). apply trims_app; [exact Ht|apply trims_nil]. }
      destruct (cp_add _ _ _ _ _ _ CP h1 x ms1 m [] c u1 a r) as (h2 & c2 & E2 & Hi2 & Hc2 & Hr2' & Hperm & Hf2); auto.
      { eapply whole_src; [|exact Htt]. eapply whole_ext; [|exact Hw]. etransitivity; eassumption. }
      { apply Hbu. }
      { rewrite (cp_size _ _ _ _ _ _ CP _ _ Hi). apply trim_size in Htt0. lia. }
      assert (Hra : raddr m = raddr t) by (unfold raddr; rewrite (trim_label _ _ Htr); reflexivity). rewrite <- Hra, E2. cbn [mbind res_bind].
      destruct (IH Hus (xs_next s) h0 h2 c2 x (ts1 ++ [t]) (ms1 ++ [m]) a Hr2) as (h3 & c3 & ms & E3 & Hsrs & Htrs & Hi3 & Hr3 & Hb3); auto.
      { rewrite <- app_assoc. exact Hw. } { rewrite <- app_assoc. exact HF. }
      { split; [exact Hc2|]. destruct Hb as (_ & Hn & Hf), Hbu as (_ & Hnu & Hfu). split.
        - intros z. rewrite Hperm, elem_of_app. intros [Hz|Hz]; [apply Hn, Hz|].
          destruct (h0 !! z) as [y|] eqn:Ey; [|reflexivity]. apply (lookup_weaken _ _ _ _ Ey) in Hle. rewrite (Hnu z Hz) in Hle. discriminate.
        - intros z Hz. rewrite Hperm, elem_of_app in Hz. rewrite Hf2, Hfu, Hf by tauto. reflexivity. }
      exists h3, c3, (m :: ms). split; [exact E3|]. split; [constructor; assumption|]. split; [apply trims_take; assumption|]. rewrite <- app_assoc in Hi3. auto.
    - destruct (IH Hg s h0 h c x (ts1 ++ [t]) ms1 a Hr) as (h3 & c3 & ms & E3 & Hsrs & Htrs & Hi3 & Hr3 & Hb3); auto.
      { rewrite <- app_assoc. exact Hw. } { rewrite <- app_assoc. exact HF. } { rewrite <- (app_nil_r ms1). apply trims_app; [exact Ht|apply trims_nil]. }
      exists h3, c3, ms. split; [exact E3|]. split; [exact Hsrs|]. split; [apply trims_skip, Htrs|]. auto.
  Qed.
  Lemma clone_ok us x ts l s h : level snd us ts l -> Forall good_result us -> records us s l -> whole h (Rose x ts) -> rsize (Rose x ts) < F ->
    exists b h' c ms, xclone (Some (fst x)) (xchain us) s h = Ok (Some b, h') /\ croot c = Some b /\ sresults snd us l ms /\ trim (Rose x ms) (Rose x ts) /\
      image (Rose x ms) c /\ built h h' c.
  Proof.
    intros Hl Hg Hr Hw HF. unfold xclone. rewrite (whole_val h _ x Hw) by (cbn; left). cbn [mbind res_bind].
    destruct (k_value _ _ _ _ KO h (snd x)) as (a & h0 & c & E & Hrt & Hval & _ & _ & Hb). rewrite E. cbn [mbind res_bind].
    destruct (attach_ok us ts l Hl Hg s h h0 c x [] [] a) as (h1 & c1 & ms & E1 & Hs & Ht & Hi1 & Hr1 & Hb1); auto.
    { apply trims_nil. } { apply (cp_one _ _ _ _ _ _ CP), Hval. }
    rewrite E1. cbn [mbind res_bind]. exists a, h1, c1, ms. split; [reflexivity|]. split; [exact Hr1|]. split; [exact Hs|]. split; [apply trim_node, Ht|]. auto.
  Qed.
  Lemma stolen_none (us : list (spat V)) l own : forall s h, records us s l -> Forall (fun a => raddr (at_node a) <> own) l ->
    xstolen (Some own) (xchain us) s false None h = Ok (false, None, h).
  Proof.
    revert l. induction us as [|u us IH]; intros l s h Hr Hf; [reflexivity|]. inversion Hr; subst. apply Forall_cons in Hf as [Hf1 Hf2].
    cbn [foldr]. rewrite xbuild_eq. cbn [xstolen]. cbn [at_node] in Hf1.
    match goal with H : xs_matched s = _ |- _ => rewrite H end. rewrite ptr_eqb_false by congruence. eapply IH; eassumption.
  Qed.
  Lemma stolen_one u s h a b h' : 0 < F -> records [u] s [a] -> xresult (xbuild u XNil) s h = Ok (Some b, h') ->
    xstolen (Some (raddr (at_node a))) (xchain [u]) s false None h = Ok (true, Some b, h').
  Proof.
    intros HF Hr E. pose proof (records_matched _ _ _ _ _ Hr) as Hm. cbn [foldr]. rewrite xbuild_eq in *. cbn [xstolen]. rewrite Hm, ptr_eqb_true, E. cbn [mbind res_bind].
    destruct F as [|n]; [lia|]. reflexivity.
  Qed.
  Lemma empty_false (u : spat V) us s a l : records (u :: us) s (a :: l) -> xempty (xchain (u :: us)) s = false.
  Proof. intros H. apply records_matched in H. cbn [foldr]. rewrite xbuild_eq. cbn [xempty]. rewrite H. reflexivity. Qed.

  (** *** The results of the children of a star that is present *)
  Definition held (h0 h : heap) (um : gmap addr C) : Prop :=
    (forall k u, um !! k = Some u -> crep h u /\ croot u <> None /\ forall z, z ∈ caddrs u -> h0 !! z = None) /\
    (forall k k' u u' z, um !! k = Some u -> um !! k' = Some u' -> k <> k' -> z ∈ caddrs u -> z ∉ caddrs u') /\
    (forall z, (forall k u, um !! k = Some u -> z ∉ caddrs u) -> h !! z = h0 !! z).
  Lemma held_sub h0 h um : held h0 h um -> h0 ⊆ h.
  Proof.
    intros (H1 & _ & H3). apply map_subseteq_spec. intros z y Hz. rewrite H3; [exact Hz|]. intros k u Hu Hin. destruct (H1 k u Hu) as (_ & _ & Hn). rewrite (Hn z Hin) in Hz. discriminate.
  Qed.
  Lemma targets_ok us : Forall good_result us -> forall l s h0 h um,
    Forall2 (fun u a => smatch snd u (at_node a) a) us l -> records us s l -> (forall a, a ∈ l -> whole h (at_node a) /\ rsize (at_node a) < F) ->
    NoDup (map (fun a => raddr (at_node a)) l) -> (forall a, a ∈ l -> um !! raddr (at_node a) = None) -> held h0 h um ->
    exists h' um' ms, xtargets (xchain us) s (croot <$> um, Z.of_nat (size um)) h = Ok (croot <$> um', Z.of_nat (size um'), h') /\ held h0 h' um' /\
      sresults snd us l ms /\ Forall2 (fun a m => trim m (at_node a)) l ms /\ (forall k u, um !! k = Some u -> um' !! k = Some u) /\
      (forall a m, (a, m) ∈ combine l ms -> exists u, um' !! raddr (at_node a) = Some u /\ image m u) /\
      (forall k u, um' !! k = Some u -> um !! k = Some u \/ exists a m, (a, m) ∈ combine l ms /\ raddr (at_node a) = k /\ image m u).
  Proof.
    induction 1 as [|u us Hu _ IH]; intros l s h0 h um Hm Hr Hw Hnd Hfr Hh.
    { inversion Hm; subst. exists h, um, []. split; [reflexivity|]. split; [exact Hh|]. split; [constructor|]. split; [constructor|]. split; [auto|]. split; [|auto]. intros a m H. apply elem_of_nil in H as []. }
    inversion Hm as [|? a ? l' Hm1 Hm2]; subst. cbn [map] in Hnd. apply NoDup_cons in Hnd as [Hna Hnd].
    destruct (records_one _ _ _ _ _ Hr) as [Hr1 Hr2]. pose proof (records_matched _ _ _ _ _ Hr) as Hma. destruct (Hw a) as [Hwa Hsa]; [left|].
    destruct (Hu (xchain us) s h a Hr1 Hm1 Hwa Hsa) as (r & h1 & c & m & E & Hrt & Hsr & Htr & Him & Hb).
    cbn [foldr]. rewrite xbuild_eq. cbn [xtargets]. rewrite <- xbuild_eq, Hma, E. cbn [mbind res_bind fst snd]. rewrite lookup_fmap, (Hfr a) by left. cbn [fmap option_fmap option_map mbind res_bind].
    pose proof (built_le _ _ _ Hb) as Hle. pose proof (held_sub _ _ _ Hh) as Hle0. set (k := raddr (at_node a)) in *. assert (Hfk : um !! k = None) by (apply Hfr; left). set (um1 := <[k := c]> um).
    assert (Hsz : (Z.of_nat (size um) + 1)%Z = Z.of_nat (size um1)) by (unfold um1; rewrite map_size_insert_None by (apply Hfr; left); lia).
    assert (Hst : <[k := Some r]> (croot <$> um) = croot <$> um1) by (unfold um1; rewrite fmap_insert, Hrt; reflexivity). rewrite Hst, Hsz.
    assert (Hh1 : held h0 h1 um1).
    { destruct Hh as (H1 & H2 & H3). assert (Hap : forall k' u' z, um !! k' = Some u' -> z ∈ caddrs c -> z ∉ caddrs u').
      { intros k' u' z Hk' Hz. destruct (H1 _ _ Hk') as (Hc & _). exact (fresh_apart _ _ _ _ Hc Hb z Hz). }
      split; [|split].
      - intros k' u'. unfold um1. destruct (decide (k' = k)) as [->|Hne]; [rewrite lookup_insert|rewrite lookup_insert_ne by congruence].
        + intros [= <-]. split; [apply Hb|]. split; [congruence|]. intros z Hz. destruct (h0 !! z) as [y|] eqn:Ey; [|reflexivity].
          apply (lookup_weaken _ _ _ _ Ey) in Hle0. destruct Hb as (_ & Hn & _). rewrite (Hn z Hz) in Hle0. discriminate.
        + intros Hk'. destruct (H1 _ _ Hk') as (Hc & Hnn & Hz). split; [eapply keep_rep; eassumption|]. auto.
      - intros k1 k2 u1 u2 z. unfold um1. destruct (decide (k1 = k)) as [->|N1], (decide (k2 = k)) as [->|N2]; rewrite ?lookup_insert, ?lookup_insert_ne by congruence.
        + congruence.
        + intros [= <-] Hk2 _ Hz. eapply Hap; eassumption.
        + intros Hk1 [= <-] _ Hz Hz'. exact (Hap _ _ _ Hk1 Hz' Hz).
        + eapply H2.
      - intros z Hz. destruct Hb as (_ & _ & Hf). rewrite Hf.
        + apply H3. intros k' u' Hk'. apply (Hz k' u'). unfold um1. rewrite lookup_insert_ne; [exact Hk'|]. intros <-. rewrite Hfk in Hk'. discriminate.
        + apply (Hz k c). apply lookup_insert. }
    destruct (IH l' (xs_next s) h0 h1 um1 Hm2 Hr2) as (h' & um' & ms & E' & Hh' & Hsrs & Htrs & Hold & Hin & Hout); auto.
    { intros b Hb'. destruct (Hw b) as [Hwb Hsb]; [right; exact Hb'|]. split; [eapply whole_ext; eassumption|exact Hsb]. }
    { intros b Hb'. unfold um1. rewrite lookup_insert_ne; [apply Hfr; right; exact Hb'|]. intros Ek. apply Hna. apply elem_of_list_fmap. exists b. split; [exact Ek|exact Hb']. }
    exists h', um', (m :: ms). split; [exact E'|]. split; [exact Hh'|]. split; [constructor; assumption|]. split; [constructor; assumption|]. split; [|split].
    - intros k' u' Hk'. apply Hold. unfold um1. rewrite lookup_insert_ne; [exact Hk'|]. intros <-. rewrite Hfk in Hk'. discriminate.
    - intros b mb Hb'. cbn [combine] in Hb'. apply elem_of_cons in Hb' as [[= -> ->]|Hb']; [|apply Hin, Hb'].
      exists c. split; [|exact Him]. apply Hold. apply lookup_insert.
    - intros k' u' Hk'. destruct (Hout _ _ Hk') as [H|(b & mb & Hb' & Ek & Hi)]; [|right; exists b, mb; split; [right; exact Hb'|auto]].
      unfold um1 in H. destruct (decide (k' = k)) as [->|Hne]; [|rewrite lookup_insert_ne in H by congruence; left; exact H]. rewrite lookup_insert in H. injection H as <-.
      right. exists a, m. split; [left|auto].
  Qed.

  (** *** A star that is present, and not reluctant *)
  Lemma combine_nodes (l : list (asg (addr * V))) (ms : list tree) s m : (s, m) ∈ combine (map at_node l) ms <-> exists a, (a, m) ∈ combine l ms /\ at_node a = s.
  Proof.
    revert ms. induction l as [|b l IH]; intros [|m0 ms]; cbn [map combine]; [split; [intros H; apply elem_of_nil in H as []|intros (a & H & _); apply elem_of_nil in H as []]..|].
    rewrite elem_of_cons, IH. split.
    - intros [[= -> ->]|(a & Ha & E)]; [exists b; split; [left|reflexivity]|exists a; split; [right; exact Ha|exact E]].
    - intros (a & Ha & E). apply elem_of_cons in Ha as [[= -> ->]|Ha]; [left; rewrite E; reflexivity|right; eauto].
  Qed.
  Lemma combine_all {A B} (R : A -> B -> Prop) l1 l2 : Forall2 R l1 l2 -> (forall a b, (a, b) ∈ combine l1 l2 -> R a b) /\ (forall a, a ∈ l1 -> exists b, (a, b) ∈ combine l1 l2).
  Proof.
    induction 1 as [|a b l1 l2 H _ [IH1 IH2]]; cbn [combine]; [split; [intros a b H; apply elem_of_nil in H as []|intros a H; apply elem_of_nil in H as []]|]. split.
    - intros a' b' Hin. apply elem_of_cons in Hin as [[= -> ->]|Hin]; auto.
    - intros a' Hin. apply elem_of_cons in Hin as [->|Hin]; [exists b; left|]. destruct (IH2 a' Hin) as [b' Hb]. exists b'. right. exact Hb.
  Qed.
  Lemma combine_fst {A B} (l1 : list A) (l2 : list B) a b : (a, b) ∈ combine l1 l2 -> a ∈ l1.
  Proof. intros H. apply elem_of_list_In in H. apply in_combine_l in H. apply elem_of_list_In, H. Qed.
  Lemma combine_uniq {A B} (f : A -> addr) (l1 : list A) (l2 : list B) a a' b b' : NoDup (map f l1) -> (a, b) ∈ combine l1 l2 -> (a', b') ∈ combine l1 l2 -> f a = f a' -> b = b'.
  Proof.
    revert l2. induction l1 as [|x l1 IH]; intros [|y l2] Hnd H H' E; cbn [combine] in *; try (apply elem_of_nil in H as []).
    cbn [map] in Hnd. apply NoDup_cons in Hnd as [Hx Hnd]. apply elem_of_cons in H, H'. destruct H as [[= -> ->]|H], H' as [[= -> ->]|H'].
    - reflexivity.
    - exfalso. apply Hx. rewrite E. apply elem_of_list_fmap. exists a'. split; [reflexivity|]. eapply combine_fst, H'.
    - exfalso. apply Hx. rewrite <- E. apply elem_of_list_fmap. exists a. split; [reflexivity|]. eapply combine_fst, H.
    - eapply IH; eassumption.
  Qed.
  Fixpoint mof_of (l : list (asg (addr * V))) (ms : list tree) (d : tree) (k : addr) : tree :=
    match l, ms with
    | a :: l, m :: ms => if decide (raddr (at_node a) = k) then m else mof_of l ms d k
    | _, _ => d
    end.
  Lemma mof_in l ms d k a m : NoDup (map (fun a => raddr (at_node a)) l) -> (a, m) ∈ combine l ms -> raddr (at_node a) = k -> mof_of l ms d k = m.
  Proof.
    revert ms. induction l as [|b l IH]; intros [|m0 ms] Hnd H E; cbn [combine] in *; try (apply elem_of_nil in H as []).
    cbn [map] in Hnd. apply NoDup_cons in Hnd as [Hx Hnd]. cbn [mof_of]. apply elem_of_cons in H as [[= -> ->]|H].
    - rewrite decide_True by exact E. reflexivity.
    - rewrite decide_False; [apply IH; assumption|]. intros E'. apply Hx. rewrite E', <- E. apply elem_of_list_fmap. exists a. split; [reflexivity|]. eapply combine_fst, H.
  Qed.

  Lemma star_full q p us x ts l s h : q <> QReluctant -> Forall good_result us -> Forall2 (fun u a => smatch snd u (at_node a) a) us l ->
    flat_map preorder (map at_node l) `sublist_of` flat_map preorder ts -> (forall a, a ∈ l -> reached snd p (Rose x ts) (at_node a)) ->
    records us s l -> whole h (Rose x ts) -> rsize (Rose x ts) < F ->
    exists b h' c ms out,
      (v ← ni_value im h (Some (fst x));
       '(a, h2) ← ni_from_value im al h v;
       '(tg, n, h3) ← xtargets (xchain us) s (∅, 0%Z) h2;
       '(tg', _, h4) ← generate F im al like (check_target im q p) (mp_make [Some (fst x); Some a]) (tg, n) h3;
       h5 ← release_all F im (map_to_list tg') h4;
       Ok (Some a, h5)) = Ok (Some b, h') /\
      croot c = Some b /\ sresults snd us l ms /\ fill snd q p (combine (map at_node l) ms) ts out /\ trim (Rose x out) (Rose x ts) /\
      image (Rose x out) c /\ built h h' c.
  Proof.
    intros Hq Hg Hm Hsub Hre Hr Hw HF. set (tg := Rose x ts) in *. pose proof (whole_nd _ _ Hw) as Hnd.
    destruct (nodes_nd _ _ _ Hnd Hsub) as (Hnf & Hnl & Hnx). rewrite map_map in Hnl.
    rewrite (whole_val h _ x Hw) by (cbn; left). cbn [mbind res_bind].
    destruct (k_value _ _ _ _ KO h (snd x)) as (a & h2 & c0 & E & Hrt & Hval & _ & _ & Hb). rewrite E. cbn [mbind res_bind]. pose proof (built_le _ _ _ Hb) as Hle2.
    assert (Hsubs : forall b, b ∈ l -> rsubtree (at_node b) tg).
    { intros b Hb'. destruct (reached_sub _ _ _ (Hre b Hb')) as [[H _]|H]; [exact H|destruct (H Hnd)]. }
    destruct (targets_ok us Hg l s h2 h2 ∅ Hm Hr) as (h3 & um & ms & E3 & Hh & Hsrs & Htrs & _ & Hin & Hout).
    { intros b Hb'. split; [eapply whole_sub; [|apply Hsubs, Hb']; eapply whole_ext; eassumption|]. apply Hsubs, sub_size in Hb'. lia. }
    { exact Hnl. } { intros b _. apply lookup_empty. }
    { split; [|split]; [intros k u H; rewrite lookup_empty in H; discriminate|intros k k' u u' z H; rewrite lookup_empty in H; discriminate|reflexivity]. }
    rewrite fmap_empty, map_size_empty in E3. change (Z.of_nat 0) with 0%Z in E3. rewrite E3. cbn [mbind res_bind].
    pose proof (held_sub _ _ _ Hh) as Hle3. destruct Hh as (Hh1 & Hh2 & Hh3).
    assert (Hout' : forall k u, um !! k = Some u -> exists b m, (b, m) ∈ combine l ms /\ raddr (at_node b) = k /\ image m u).
    { intros k u Hu. destruct (Hout k u Hu) as [H|H]; [rewrite lookup_empty in H; discriminate|exact H]. } clear Hout.
    set (R := combine (map at_node l) ms). set (mof := mof_of l ms tg).
    destruct (combine_all _ _ _ Htrs) as [Htr1 Htr2].
    assert (Hc3 : crep h3 c0).
    { eapply (k_ext _ _ _ _ KO); [|apply Hb]. intros z Hz. apply Hh3. intros k u Hu Hzu. destruct (Hh1 k u Hu) as (_ & _ & Hn). destruct (k_dom _ _ _ _ KO _ _ _ (proj1 Hb) Hz) as [y Hy]. rewrite (Hn z Hzu) in Hy. discriminate. }
    assert (Hw3 : whole h3 tg) by (eapply whole_ext; [|exact Hw]; etransitivity; eassumption).
    assert (Hap0 : forall z, z ∈ raddrs tg -> z ∉ caddrs c0).
    { intros z Hz Hzc. destruct (whole_dom _ _ _ Hw Hz) as [y Hy]. destruct Hb as (_ & Hn & _). rewrite (Hn z Hzc) in Hy. discriminate. }
    assert (HR : forall s m, (s, m) ∈ R -> exists b, (b, m) ∈ combine l ms /\ at_node b = s /\ b ∈ l).
    { intros t m H. apply combine_nodes in H as (b & H & Eb). exists b. split; [exact H|]. split; [exact Eb|]. eapply combine_fst, H. }
    assert (Hapart : forall s m s' m', (s, m) ∈ R -> (s', m') ∈ R -> raddr s' ∈ raddrs s -> s' = s).
    { intros t m t' m' Ht Ht' Hi. destruct (HR _ _ Ht) as (b & _ & <- & Hbl). destruct (HR _ _ Ht') as (b' & _ & <- & Hbl'). eapply apart; [exact Hnf| | |exact Hi]; apply elem_of_list_fmap; eauto. }
    destruct (gen tg h3 a c0 (tpred im K q p um) (tapr K q p tg um) (fun m => um !! m) (replicate 2 false) (Some ∅)) as (st' & h4 & tr & X & c & E4 & Hcalls & Htnd & Hgrow & Hpar & Hcr & Hcrt & Hkeep & Hown & Hown0 & Howned & Himg).
    { exact HF. } { exact Hw3. } { exact Hc3. } { exact Hrt. } { exact Hval. } { exact Hap0. }
    { intros k u Hu. destruct (Hh1 k u Hu) as (Hc & Hn & Hz). split; [exact Hc|]. split; [exact Hn|]. intros z Hzu. split; intros Hzz.
      - destruct (whole_dom _ _ _ Hw Hzz) as [y Hy]. apply (lookup_weaken _ _ _ _ Hy) in Hle2. rewrite (Hz z Hzu) in Hle2. discriminate.
      - destruct (k_dom _ _ _ _ KO _ _ _ (proj1 Hb) Hzz) as [y Hy]. rewrite (Hz z Hzu) in Hy. discriminate. }
    { exact Hh2. }
    { intros st m st1 u. apply target_use. }
    { apply target_kids; [exact Hnd|]. intros k u kids Hu (cx & v & Hp) y Hy. destruct (um !! raddr y) as [w|] eqn:Ew; [|reflexivity]. exfalso.
      destruct (Hout' _ _ Hu) as (b & m & Hbm & Ek & _). destruct (Hout' _ _ Ew) as (b' & m' & Hbm' & Ek' & _).
      assert (Hbl : b ∈ l) by (eapply combine_fst, Hbm). assert (Hbl' : b' ∈ l) by (eapply combine_fst, Hbm').
      assert (Es : at_node b = Rose (k, v) kids). { eapply sub_unique; [exact Hnd|apply Hsubs, Hbl|apply rsubtree_plug; eauto|exact Ek]. }
      assert (Es' : at_node b' = at_node b).
      { eapply apart; [exact Hnf|apply elem_of_list_fmap; eauto|apply elem_of_list_fmap; eauto|]. rewrite Ek', Es. eapply raddrs_sub; [exact Hy|apply raddr_mem]. }
      rewrite Es' in Ek'. rewrite Ek' in Ek. pose proof (sub_nd _ _ (Hsubs _ Hbl) Hnd) as Hn. rewrite Es in Hn. apply (nd_root _ _ y Hn Hy). cbn [fst]. rewrite <- Ek. apply raddr_mem. }
    { intros st h' m o fl st1 d Hwh Hmt Hne Ha. eapply target_ok; [exact Hnd|apply whole_ops, Hwh|intros z Hz; eapply whole_val; eassumption|exact Hmt|exact Hne|exact Ha]. }
    destruct (filled K q p tg Hnd um mof R Hq) with (tr := tr) (st' := st') (X := X) as (D' & -> & Hall & Hfill & Hused & Huse); try assumption.
    { intros t m Ht. destruct (HR _ _ Ht) as (b & Hbm & <- & Hbl). split; [apply Hre, Hbl|]. split; [symmetry; eapply mof_in; [exact Hnl|exact Hbm|reflexivity]|].
      destruct (Hin _ _ Hbm) as (u & Hu & _). eauto. }
    { intros k [u Hu]. destruct (Hout' _ _ Hu) as (b & m & Hbm & <- & _). exists (at_node b), m. split; [|reflexivity]. apply combine_nodes. eauto. }
    destruct (sim_generate F im al like (check_target im q p) (tpred im K q p um) (tview K um) (MPtr [Some (raddr tg); Some a] (replicate 2 false))
      (target_sim im K q p um) _ _ _ _ (conc K um D') E4 eq_refl) as (st0 & Hst0 & E4'). injection Hst0 as <-.
    assert (Hc0 : conc K um ∅ = (croot <$> um, Z.of_nat (size um))).
    { unfold conc. f_equal; [|rewrite size_empty; lia]. apply map_eq. intros k. rewrite map_lookup_imap, lookup_fmap. destruct (um !! k); [|reflexivity]. cbn. rewrite decide_False by set_solver +. reflexivity. }
    rewrite Hc0 in E4'. change (mp_make [Some (fst x); Some a]) with (MPtr [Some (raddr tg); Some a] (replicate 2 false)). rewrite E4'.
    assert (HFpos : 0 < F) by lia. cbn [mbind res_bind].
    pose proof (release_none F im K um h4 D' HFpos Hall) as Erel. unfold conc in Erel |- *. cbn [fst] in Erel. cbv beta iota. rewrite Erel. cbn [mbind res_bind].
    assert (Hflat : flat mof (decided tr) tg = Rose x (children (flat mof (decided tr) tg))) by (unfold tg; rewrite flat_unfold; reflexivity).
    set (out := children (flat mof (decided tr) tg)) in *.
    assert (Htrim : trim (Rose x out) tg).
    { apply trim_node. eapply fill_trims; [|exact Hfill]. intros t m Ht. destruct (HR _ _ Ht) as (b & Hbm & <- & _). apply Htr1, Hbm. }
    exists a, h4, c, ms, out. split; [reflexivity|]. split; [exact Hcrt|]. split; [exact Hsrs|]. split; [exact Hfill|]. split; [exact Htrim|]. split.
    - rewrite <- Hflat. apply Himg; [apply decided_agree, Htnd| |rewrite Hflat; exact Htrim].
      intros k u Hu. apply Huse in Hu. destruct (Hout' _ _ Hu) as (b & m & Hbm & Ek & Hi). unfold mof. rewrite (mof_in l ms tg k b m Hnl Hbm Ek). split; [exact Hi|].
      rewrite <- Ek. unfold raddr. rewrite (trim_label _ _ (Htr1 _ _ Hbm)). reflexivity.
    - split; [exact Hcr|]. split.
      + intros z Hz. destruct (h !! z) as [y|] eqn:Ey; [|reflexivity]. exfalso. pose proof (lookup_weaken _ _ _ _ Ey Hle2) as Ey2. pose proof (lookup_weaken _ _ _ _ Ey2 Hle3) as Ey3.
        destruct (Hown z Hz) as [H|[H|(m & u & Hu & H)]]; [congruence| |].
        * destruct Hb as (_ & Hn & _). rewrite (Hn z H) in Ey. discriminate.
        * destruct (Hh1 _ _ Hu) as (_ & _ & Hn). rewrite (Hn z H) in Ey2. discriminate.
      + intros z Hz. rewrite (Hkeep z Hz), Hh3.
        * apply Hb. intros H. apply Hz, Hown0, H.
        * intros k u Hu H. apply Hz. eapply Howned; [apply Hused, Hu|exact H].
  Qed.

  (** *** A reluctant star with one child: the nodes on the way are cloned *)
  Definition accept (p : V -> bool) (fr : list tree * (addr * V) * list tree) : Prop := p (snd (snd (fst fr))) = true.
  Lemma reached_ctx p (t s : tree) : reached snd p t s -> exists c, c <> [] /\ plug c s = t /\ Forall (accept p) (removelast c).
  Proof.
    induction 1 as [x ts s Hs|x ts t s Ht Hp _ (c & Hne & Hpl & Hac)].
    - apply elem_of_list_split in Hs as (ls & rs & ->). exists [(ls, x, rs)]. split; [discriminate|]. split; [reflexivity|constructor].
    - apply elem_of_list_split in Ht as (ls & rs & ->). exists (c ++ [(ls, x, rs)]). split; [destruct c; discriminate|]. split; [rewrite plug_app, Hpl; reflexivity|].
      rewrite removelast_last. destruct c as [|[[ls' y] rs'] c _] using rev_ind; [congruence|]. rewrite removelast_last in Hac. apply Forall_app. split; [exact Hac|].
      rewrite plug_app in Hpl. cbn in Hpl. rewrite <- Hpl in Hp. repeat constructor. exact Hp.
  Qed.
  Lemma fill_drops q p (s0 m0 : tree) ts rest out : (q <> QGreedy /\ q <> QPossessive) -> (forall t, t ∈ ts -> label s0 ∉ preorder t) -> fill snd q p [(s0, m0)] rest out ->
    fill snd q p [(s0, m0)] (ts ++ rest) out.
  Proof.
    intros Hq Hn Hf. induction ts as [|[y cs] ts IH]; [exact Hf|]. cbn [app]. assert (Hw : ~ way [(s0, m0)] (Rose y cs)).
    { intros (s & m & Hin & Hl). apply elem_of_list_singleton in Hin. injection Hin as -> ->. apply (Hn (Rose y cs)); [left|exact Hl]. }
    apply F_drop; [|exact Hw|auto|apply IH; intros t Ht; apply Hn; right; exact Ht].
    intros (m & Hin). apply Hw. exists (Rose y cs), m. split; [exact Hin|]. cbn. left.
  Qed.
  Lemma frame_apart (ls rs : list tree) y s t : NoDup (raddrs (Rose y (ls ++ s :: rs))) -> t ∈ ls ++ rs -> forall z, z ∈ raddrs s -> z ∉ raddrs t.
  Proof.
    intros Hnd Ht z Hz Hzt. rewrite raddrs_node, flat_map_app in Hnd. cbn [flat_map] in Hnd. apply NoDup_cons in Hnd as [_ Hnd].
    rewrite (Permutation_app_comm (raddrs s)), app_assoc in Hnd. apply NoDup_app in Hnd as (_ & Hd & _). apply (Hd z); [|exact Hz].
    rewrite <- flat_map_app. apply elem_of_flat_map. eauto.
  Qed.
  Section Climb.
    Variable p : V -> bool.
    Variable s0 m0 : tree.
    Notation R := [(s0, m0)].
    Variable x : addr * V.
    Variable ts : list tree.
    Notation tg := (Rose x ts).
    Hypothesis tg_size : rsize tg < F.
    Variable hb : heap.
    Variable c0 : C.
    Variable a0 : addr.
    Hypothesis c0_root : croot c0 = Some a0.
    Hypothesis c0_image : image (Rose x []) c0.
    Lemma in_sub s : rsubtree s0 s -> label s0 ∈ preorder s.
    Proof. intros H. apply rsubtree_plug in H as (c & <-). apply position_elem. Qed.
    Lemma fill_level (ls rs : list tree) y s m : NoDup (raddrs (Rose y (ls ++ s :: rs))) -> rsubtree s0 s -> fill snd QReluctant p R [s] [m] ->
      fill snd QReluctant p R (ls ++ s :: rs) [m].
    Proof.
      intros Hnd Hs Hf. assert (Hno : forall t, t ∈ ls ++ rs -> label s0 ∉ preorder t).
      { intros t Ht Hin. apply (frame_apart _ _ _ _ _ Hnd Ht (raddr s0)); [eapply sub_raddrs; [exact Hs|apply raddr_mem]|]. apply elem_of_list_fmap. exists (label s0). auto. }
      assert (Hrs : fill snd QReluctant p R rs []).
      { rewrite <- (app_nil_r rs). apply fill_drops; [split; discriminate|intros t Ht; apply Hno; set_solver +Ht|constructor]. }
      apply fill_drops; [split; discriminate|intros t Ht; apply Hno; set_solver +Ht|].
      inversion Hf as [|? ? ? ? Hin Hrest|y' cs' ? ? ? Hnt Hp Hw Hc Hrest|? ? ? ? Hnt Hnw Hp Hrest]; subst.
      - apply F_taken; [exact Hin|exact Hrs].
      - apply F_keep; assumption.
      - exfalso. apply Hnw. exists s0, m0. split; [left|]. apply in_sub, Hs.
    Qed.
    Lemma climb c : forall s m n cloned h cu r, plug c s = tg -> c <> [] -> Forall (accept p) (removelast c) -> length c <= n ->
      rsubtree s0 s -> fill snd QReluctant p R [s] [m] -> trim m s -> image m cu -> croot cu = Some r -> crep h cu -> crep h c0 ->
      (forall z, z ∈ caddrs cu -> z ∉ caddrs c0) -> (forall z, z ∈ caddrs cu -> hb !! z = None) -> (forall z, z ∈ caddrs c0 -> hb !! z = None) ->
      (forall z, z ∉ caddrs cu -> z ∉ caddrs c0 -> h !! z = hb !! z) -> whole hb tg ->
      cloned !! fst x = Some (Some a0) -> (forall k, is_Some (cloned !! k) -> k = fst x \/ k ∈ raddrs s) ->
      exists cloned' h' c' m', reluctant_attach im al like n cloned (Some (raddr s)) (Some r) h = Ok (cloned', h') /\ fill snd QReluctant p R ts [m'] /\
        trim (Rose x [m']) tg /\ image (Rose x [m']) c' /\ croot c' = Some a0 /\ built hb h' c'.
    Proof.
      induction c as [|[[ls y] rs] c IH]; intros s m n cloned h cu r Hpl Hne Hac Hn Hs0 Hfill Htr Him Hrt Hcu Hc0 Hap Hnu Hn0 Hf Hw Hx Hk; [congruence|]. clear Hne.
      destruct n as [|n]; [cbn in Hn; lia|]. cbn [reluctant_attach].
      assert (Hle : hb ⊆ h).
      { apply map_subseteq_spec. intros z v Hz. rewrite Hf; [exact Hz|intros H; rewrite (Hnu z H) in Hz; discriminate|intros H; rewrite (Hn0 z H) in Hz; discriminate]. }
      pose proof (whole_ext _ _ _ Hle Hw) as Hwh. pose proof (whole_nd _ _ Hw) as Hnd.
      assert (Hra : raddr m = raddr s) by (unfold raddr; rewrite (trim_label _ _ Htr); reflexivity).
      assert (Hpar : op_parent (ni_ops im h) (Some (raddr s)) = Ok (Some (fst y))).
      { pose proof (whole_ops _ _ Hwh) as Hops. pose proof Hpl as Hp'. apply (plug_map_ex fst) in Hp'. rewrite <- Hp' in Hops. apply ops_ok_plug in Hops as [_ Ho].
        cbn [map] in Ho. destruct Ho as (Ho & _). rewrite label_map in Ho. exact Ho. }
      rewrite Hpar. cbn [mbind res_bind]. cbn [plug] in Hpl. assert (Hsub : rsubtree (Rose y (ls ++ s :: rs)) tg) by (apply rsubtree_plug; eauto).
      pose proof (sub_nd _ _ Hsub Hnd) as Hndy. pose proof (fill_level _ _ _ _ _ Hndy Hs0 Hfill) as Hfl.
      assert (Htms : trims [m] (ls ++ s :: rs)).
      { change [m] with ([] ++ [m]). apply trims_app; [apply trims_nil|]. apply trims_take; [exact Htr|apply trims_nil]. }
      destruct c as [|fr c].
      - cbn [plug] in Hpl. injection Hpl as -> Ets. rewrite Hx.
        destruct (cp_add _ _ _ _ _ _ CP h x [] m [] c0 cu a0 r) as (h2 & c2 & E2 & Hi2 & Hc2 & Hr2' & Hperm & Hf2); auto.
        { eapply whole_src; [exact Hwh|]. rewrite <- Ets. apply trim_node, Htms. }
        { rewrite (cp_size _ _ _ _ _ _ CP _ _ c0_image). cbn in *. lia. }
        rewrite <- Hra, E2. cbn [mbind res_bind]. exists cloned, h2, c2, m. split; [reflexivity|]. rewrite <- Ets. split; [exact Hfl|]. split; [apply trim_node, Htms|]. split; [exact Hi2|]. split; [exact Hr2'|].
        split; [exact Hc2|]. split.
        + intros z. rewrite Hperm, elem_of_app. intros [Hz|Hz]; auto.
        + intros z. rewrite Hperm, elem_of_app. intros Hz. rewrite Hf2, Hf by tauto. reflexivity.
      - assert (Hyx : fst y <> fst x).
        { intros Eyx. assert (E : Rose y (ls ++ s :: rs) = tg) by (eapply sub_unique; [exact Hnd|exact Hsub|constructor|exact Eyx]).
          pose proof (ctx_length_size (fr :: c) (Rose y (ls ++ s :: rs))) as Hl. rewrite Hpl, E in Hl. cbn in Hl. lia. }
        assert (Hky : cloned !! fst y = None).
        { destruct (cloned !! fst y) as [v|] eqn:Ey; [|reflexivity]. exfalso. destruct (Hk (fst y)) as [H|H]; [eauto|congruence|]. eapply nd_root; [exact Hndy| |exact H]. set_solver +. }
        rewrite Hky. assert (Hpy : p (snd y) = true) by (cbn [removelast] in Hac; apply Forall_cons in Hac as [H _]; exact H).
        rewrite (whole_val h _ y (whole_sub _ _ _ Hwh Hsub)) by (cbn; left). cbn [mbind res_bind].
        destruct (k_value _ _ _ _ KO h (snd y)) as (a1 & h1 & cn & E & Hrn & Hval & _ & _ & Hb). rewrite E. cbn [mbind res_bind]. pose proof (built_le _ _ _ Hb) as Hle1.
        pose proof (cp_one _ _ _ _ _ _ CP y cn Hval) as Hin1. pose proof (fresh_apart _ _ _ _ Hcu Hb) as Hd1. pose proof (fresh_apart _ _ _ _ Hc0 Hb) as Hd0.
        pose proof (whole_ext _ _ _ Hle1 Hwh) as Hwh1.
        destruct (cp_add _ _ _ _ _ _ CP h1 y [] m [] cn cu a1 r) as (h2 & c2 & E2 & Hi2 & Hc2 & Hr2' & Hperm & Hf2); auto.
        { eapply whole_src; [eapply whole_sub; [exact Hwh1|exact Hsub]|]. apply trim_node, Htms. }
        { apply Hb. } { eapply keep_rep; eassumption. } { intros z Hz Hz'. exact (Hd1 z Hz' Hz). }
        { rewrite (cp_size _ _ _ _ _ _ CP _ _ Hin1). cbn in *. lia. }
        rewrite <- Hra, E2. cbn [mbind res_bind]. change (fst y) with (raddr (Rose y (ls ++ s :: rs))).
        apply (IH (Rose y (ls ++ s :: rs)) (Rose y [m])) with (cu := c2); auto; try discriminate.
        + cbn [removelast] in Hac. apply Forall_cons in Hac as [_ H]. exact H.
        + cbn in Hn |- *. lia.
        + eapply rsub_trans; [exact Hs0|]. econstructor; [|constructor]. set_solver +.
        + assert (Hlt : rsize s0 < rsize (Rose y (ls ++ s :: rs))).
          { apply sub_size in Hs0. cbn [rsize]. change (fold_right Nat.add 0) with list_sum. rewrite map_app, list_sum_app'. cbn. lia. }
          apply F_keep; [|exact Hpy| |exact Hfl|constructor].
          * intros (m' & Hi). apply elem_of_list_singleton in Hi. injection Hi as Hi _. rewrite Hi in Hlt. lia.
          * intros _. exists s0, m0. split; [left|]. apply in_sub. eapply rsub_trans; [exact Hs0|]. econstructor; [|constructor]. set_solver +.
        + apply trim_node, Htms.
        + eapply (k_ext _ _ _ _ KO); [|exact Hc0]. intros z Hz. destruct Hb as (_ & _ & Hfb). rewrite Hf2, Hfb; [reflexivity| | |].
          * intros H. exact (Hd0 z H Hz).
          * intros H. exact (Hd0 z H Hz).
          * intros H. exact (Hap z H Hz).
        + intros z. rewrite Hperm, elem_of_app. intros [Hz|Hz]; [apply Hd0, Hz|apply Hap, Hz].
        + intros z. rewrite Hperm, elem_of_app. intros [Hz|Hz]; [|apply Hnu, Hz]. destruct (hb !! z) as [v|] eqn:Ev; [|reflexivity].
          apply (lookup_weaken _ _ _ _ Ev) in Hle. destruct Hb as (_ & Hnb & _). rewrite (Hnb z Hz) in Hle. discriminate.
        + intros z Hz Hz0. rewrite Hperm, elem_of_app in Hz. destruct Hb as (_ & _ & Hfb). rewrite Hf2, Hfb, Hf by tauto. reflexivity.
        + rewrite lookup_insert_ne; [exact Hx|]. rewrite Hra. intros Exs. eapply (nd_root _ _ s Hndy); [set_solver +|]. exfalso. apply Hyx.
          assert (Es : s = tg) by (eapply sub_unique; [exact Hnd|eapply sub_kid; [exact Hsub|cbn; set_solver +]|constructor|exact Exs]).
          pose proof (ctx_length_size ((ls, y, rs) :: fr :: c) s) as Hl. cbn [plug] in Hl. cbn [plug] in Hpl. rewrite Hpl, Es in Hl. cbn in Hl. lia.
        + intros k [v Hv]. destruct (decide (k = raddr m)) as [->|Hkne].
          * right. rewrite Hra. eapply raddrs_sub; [|apply raddr_mem]. set_solver +.
          * rewrite lookup_insert_ne in Hv by congruence. destruct (Hk k) as [H|H]; [eauto|left; exact H|right]. eapply raddrs_sub; [|exact H]. set_solver +.
    Qed.
  End Climb.

  Lemma star_lone p u x ts a s h : good_result u -> smatch snd u (at_node a) a -> reached snd p (Rose x ts) (at_node a) -> records [u] s [a] ->
    whole h (Rose x ts) -> rsize (Rose x ts) < F ->
    exists b h' c m m',
      (v ← ni_value im h (Some (fst x));
       '(a, h2) ← ni_from_value im al h v;
       h3 ← xpath (xchain [u]) s {[ fst x := Some a ]} h2; Ok (Some a, h3)) = Ok (Some b, h') /\
      croot c = Some b /\ sresult snd u a m /\ fill snd QReluctant p [(at_node a, m)] ts [m'] /\ trim (Rose x [m']) (Rose x ts) /\
      image (Rose x [m']) c /\ built h h' c.
  Proof.
    intros Hg Hm Hre Hr Hw HF. pose proof (whole_nd _ _ Hw) as Hnd.
    rewrite (whole_val h _ x Hw) by (cbn; left). cbn [mbind res_bind].
    destruct (k_value _ _ _ _ KO h (snd x)) as (a0 & h2 & c0 & E & Hrt & Hval & _ & _ & Hb). rewrite E. cbn [mbind res_bind]. pose proof (built_le _ _ _ Hb) as Hle2.
    assert (Hs : rsubtree (at_node a) (Rose x ts)) by (destruct (reached_sub _ _ _ Hre) as [[H _]|H]; [exact H|destruct (H Hnd)]).
    destruct (Hg XNil s h2 a Hr Hm) as (r & h3 & cu & m & E3 & Hru & Hsr & Htr & Him & Hbu).
    { eapply whole_sub; [|exact Hs]. eapply whole_ext; eassumption. } { apply sub_size in Hs. lia. }
    pose proof (records_matched _ _ _ _ _ Hr) as Hma. cbn [foldr]. rewrite xbuild_eq in *. cbn [xpath]. rewrite E3. cbn [mbind res_bind].
    destruct (reached_ctx _ _ _ Hre) as (c & Hne & Hpl & Hac). pose proof (fresh_apart _ _ _ _ (proj1 Hb) Hbu) as Hd.
    assert (Hfx : fst x <> raddr (at_node a)) by (destruct (reached_sub _ _ _ Hre) as [[_ H]|H]; [intros H'; apply H; symmetry; exact H'|destruct (H Hnd)]).
    destruct (climb p (at_node a) m x ts HF h c0 a0 Hrt (cp_one _ _ _ _ _ _ CP x c0 Hval) c (at_node a) m F {[ fst x := Some a0 ]} h3 cu r) as (cl' & h' & c' & m' & E4 & Hfill & Htm & Hi & Hr' & Hb'); auto.
    { pose proof (ctx_length_size c (at_node a)) as Hl. rewrite Hpl in Hl. lia. }
    { constructor. } { apply F_taken; [left|constructor]. } { apply Hbu. } { eapply keep_rep; [apply Hb|exact Hbu]. }
    { intros z Hz. destruct (h !! z) as [v|] eqn:Ev; [|reflexivity]. apply (lookup_weaken _ _ _ _ Ev) in Hle2. destruct Hbu as (_ & Hn & _). rewrite (Hn z Hz) in Hle2. discriminate. }
    { apply Hb. } { intros z Hz Hz0. destruct Hb as (_ & _ & Hf1), Hbu as (_ & _ & Hf2). rewrite Hf2, Hf1 by assumption. reflexivity. }
    { apply lookup_singleton. } { intros k [v Hv]. left. apply lookup_singleton_Some in Hv as [Hv _]. symmetry. exact Hv. }
    rewrite Hma, E4. cbn [mbind res_bind]. exists a0, h', c', m, m'. split; [reflexivity|]. auto 7.
  Qed.

  (** *** The theorem *)
  Lemma lone_subs (u : spat V) : lone u -> Forall lone (subs u).
  Proof.
    assert (Hall : forall cs : list (spat V), (fix all l := match l with [] => True | c :: l => lone c /\ all l end) cs -> Forall lone cs).
    { induction cs as [|c cs IH]; intros H; [constructor|]. destruct H as [H1 H2]. constructor; [exact H1|apply IH, H2]. }
    destruct u as [vm cs|q vm cs|q vm cs|u]; cbn [subs lone]; [apply Hall|apply Hall|intros [_ H]; apply Hall, H|]. intros H. repeat constructor. exact H.
  Qed.
  Lemma level_own (us : list (spat V)) x ts l : NoDup (raddrs (Rose x ts)) -> level snd us ts l -> Forall (fun a => raddr (at_node a) <> fst x) l.
  Proof.
    intros Hnd Hl. apply Forall_forall. intros a Ha. destruct (nodes_nd _ _ _ Hnd (level_sub _ _ _ Hl)) as (_ & _ & H). apply H. apply elem_of_list_fmap. eauto.
  Qed.
  Lemma records_inv (u : spat V) s n la : records [u] s [Asg n la] -> exists m cut sc sn, s = XS m cut sc sn /\ m = Some (raddr n) /\ records (subs u) sc la.
  Proof. intros H. inversion H; subst. destruct s as [|m cut sc sn]; [discriminate|]. exists m, cut, sc, sn. auto. Qed.
  Lemma star_good q p cs x ts l ns m cut sc sn h : Forall ssolid cs -> cs <> [] -> (q = QReluctant -> length cs <= 1) -> Forall good_result cs ->
    Forall2 (fun u a => smatch snd u (at_node a) a) cs l -> flat_map preorder (map at_node l) `sublist_of` flat_map preorder ts ->
    (forall a, a ∈ l -> reached snd p (Rose x ts) (at_node a)) -> m = Some (fst x) -> records cs sc l -> whole h (Rose x ts) -> rsize (Rose x ts) < F ->
    exists b h' c r, xresult (XN (XStar q) p (xchain cs) ns) (XS m cut sc sn) h = Ok (Some b, h') /\ croot c = Some b /\ sresult snd (SStar q p cs) (Asg (Rose x ts) l) r /\
      trim r (Rose x ts) /\ image r c /\ built h h' c.
  Proof.
    intros Hsol Hne Hlone Hg Hm Hsub Hre -> Hr Hw HF. rewrite result_star. pose proof (whole_nd _ _ Hw) as Hnd. destruct (nodes_nd _ _ _ Hnd Hsub) as (_ & _ & Hnx).
    assert (Hown : Forall (fun a => raddr (at_node a) <> fst x) l) by (apply Forall_forall; intros a Ha; apply Hnx, elem_of_list_fmap; eauto).
    assert (Hown' : forall a, a ∈ l -> at_node a <> Rose x ts) by (intros a Ha Ea; rewrite Forall_forall in Hown; apply (Hown a Ha); rewrite Ea; reflexivity).
    destruct cs as [|u cs]; [congruence|]. inversion Hm as [|? a ? l' Hm1 Hm2]; subst. rewrite (empty_false _ _ _ _ _ Hr).
    rewrite (stolen_none _ _ _ _ _ Hr Hown).
    replace (if xmay_steal (xchain (u :: cs)) then Ok (false, None, h) else Ok (false, None, h)) with (Ok (false, @None addr, h) : res (bool * ptr * heap)) by (destruct (xmay_steal _); reflexivity).
    cbn [mbind res_bind]. assert (Hq : q = QReluctant \/ q <> QReluctant) by (destruct q; auto; right; discriminate). destruct Hq as [->|Hq].
    - specialize (Hlone eq_refl). destruct cs as [|c2 cs]; [|cbn in Hlone; lia]. inversion Hm2; subst. apply Forall_cons in Hg as [Hg _].
      destruct (star_lone p u x ts a sc h Hg Hm1 (Hre a ltac:(left)) Hr Hw HF) as (b & h' & c & m & m' & E & Hrt & Hsr & Hf & Ht & Hi & Hb).
      exists b, h', c, (Rose x [m']). split; [exact E|]. split; [exact Hrt|]. split; [|auto]. apply SR_star with (ms := [m]); [exact Hown'|repeat constructor; exact Hsr|exact Hf].
    - destruct (star_full q p (u :: cs) x ts (a :: l') sc h Hq Hg) as (b & h' & c & ms & out & E & Hrt & Hsr & Hf & Ht & Hi & Hb); auto.
      exists b, h', c, (Rose x out). split; [destruct q; [exact E|congruence|exact E..]|]. split; [exact Hrt|]. split; [|auto]. eapply SR_star; eassumption.
  Qed.
  Theorem result_good u : ssolid u -> lone u -> good_result u.
  Proof.
    induction u as [vm cs IH|q vm cs IH|q vm cs IH|u IH] using spat_ind'; intros Hs Hl; intros ns s h a Hr Hm Hw HF;
      pose proof (ssolid_subs _ Hs) as Hsub; pose proof (lone_subs _ Hl) as Hlub; cbn [subs] in Hsub, Hlub.
    1-3: assert (Hg : Forall good_result cs) by (clear -IH Hsub Hlub; induction IH as [|c cs Hc _ IHc]; [constructor|]; apply Forall_cons in Hsub as [? ?]; apply Forall_cons in Hlub as [? ?]; constructor; auto).
    all: destruct a as [n la]; cbn [at_node] in *; destruct (records_inv _ _ _ _ Hr) as (m & cut & sc & sn & -> & Em & Hrl); rewrite xbuild_eq; cbn [kind_of test_of subs] in *.
    - inversion Hm as [? ? x ts ? Hp Hlev| | | | | |]; subst. rewrite result_one. destruct (clone_ok cs x ts la sc h Hlev Hg Hrl Hw HF) as (b & h' & c & ms & E & Hrt & Hsr & Ht & Hi & Hb).
      exists b, h', c, (Rose x ms). split; [exact E|]. split; [exact Hrt|]. split; [constructor; exact Hsr|]. auto.
    - destruct n as [x ts]. subst m. rewrite result_opt, xsteal_solid by exact Hsub.
      assert (Hcase : level snd cs ts la \/ exists c a, cs = [c] /\ la = [a] /\ smatch snd c (Rose x ts) a) by (inversion Hm; subst; eauto 6).
      destruct Hcase as [Hlev|(c & a & -> & -> & Hma)].
      + pose proof (level_own _ _ _ _ (whole_nd _ _ Hw) Hlev) as Hown. change (raddr (Rose x ts)) with (fst x). rewrite (stolen_none _ _ _ _ _ Hrl Hown).
        replace (if length cs <=? 1 then Ok (false, None, h) else Ok (false, None, h)) with (Ok (false, @None addr, h) : res (bool * ptr * heap)) by (destruct (_ <=? _); reflexivity).
        cbn [mbind res_bind]. destruct (clone_ok cs x ts la sc h Hlev Hg Hrl Hw HF) as (b & h' & c & ms & E & Hrt & Hsr & Ht & Hi & Hb).
        exists b, h', c, (Rose x ms). split; [exact E|]. split; [exact Hrt|]. split; [|auto]. constructor; [|exact Hsr]. intros a Ha Ea. rewrite Forall_forall in Hown. apply (Hown a Ha). rewrite Ea. reflexivity.
      + apply Forall_cons in Hg as [Hg _]. pose proof (smatch_at _ _ _ _ Hma) as Hat. rewrite <- Hat in *. destruct (Hg XNil sc h a Hrl Hma Hw HF) as (b & h' & c' & r & E & Hrt & Hsr & Ht & Hi & Hb).
        cbn [length Nat.leb]. rewrite (stolen_one c sc h a b h') by (assumption || lia). cbn [mbind res_bind]. exists b, h', c', r. split; [reflexivity|]. split; [exact Hrt|]. split; [apply SR_opt_absent, Hsr|]. auto.
    - destruct n as [x ts]. destruct Hs as [Hne _]. destruct Hl as [Hlone _].
      assert (Hcase : ((q <> QPossessive -> below snd vm cs ts la) /\ (q = QPossessive -> level snd cs (flat_map (frontier snd vm) ts) la)) \/
        exists c a, cs = [c] /\ la = [a] /\ smatch snd c (Rose x ts) a).
      { inversion Hm; subst; [left; split; [auto|congruence]|left; split; [congruence|auto]|right; eauto 6]. }
      destruct Hcase as [[Hb1 Hb2]|(c & a & -> & -> & Hma)].
      + destruct (star_present _ _ _ x _ _ Hb1 Hb2) as (H1 & H2 & H3). apply star_good; auto.
      + apply Forall_cons in Hg as [Hg _]. pose proof (smatch_at _ _ _ _ Hma) as Hat. rewrite <- Hat in *. destruct (Hg XNil sc h a Hrl Hma Hw HF) as (b & h' & c' & r & E & Hrt & Hsr & Ht & Hi & Hb).
        rewrite Em, result_star, (empty_false _ _ _ _ _ Hrl), xsteal_solid by exact Hsub.
        cbn [length Nat.leb]. rewrite (stolen_one c sc h a b h') by (assumption || lia). cbn [mbind res_bind]. exists b, h', c', r. split; [reflexivity|]. split; [exact Hrt|]. split; [apply SR_star_absent, Hsr|]. auto.
    - apply Forall_cons in Hsub as [Hsu _]. apply Forall_cons in Hlub as [Hlu _]. inversion Hm as [| | | | | |? ? a Hma]; subst. rewrite result_cpt. cbn [foldr].
      pose proof (smatch_at _ _ _ _ Hma) as Hat. rewrite <- Hat in Hma, Hw, HF |- *. destruct (IH Hsu Hlu XNil sc h a Hrl Hma Hw HF) as (b & h' & c' & r & E & Hrt & Hsr & Ht & Hi & Hb).
      exists b, h', c', r. split; [exact E|]. split; [exact Hrt|]. split; [apply SR_cpt, Hsr|]. auto.
  Qed.
End Result.
