(** StarTry.v: building the result of a match may fail at any node: for patterns without
    a reluctant star nothing stays behind. *)
From Verif Require Import Base Spec StructNode BinaryNode NaryNode Nav Policy Tree Rep RoseFacts NavFacts NaryRep Iter IterTrees
  World Kinds EditSpec TreeSpec TreeOps NodeFacts MatchSpec Fail Matcher MatchFacts MatchWalk MatchResult MatchKinds PredProofs GenFacts GenInv Gen GenSim ResultFail StarFail Tried GenRun GenUser
  Star StarSpec StarResultSpec StarLemmas StarWalk StarFacts StarFlat StarTarget StarResult StarFailFacts ResultFailFacts.

(** The pattern has no reluctant star. *)
Fixpoint eager {V} (u : spat V) : Prop :=
  match u with
  | SOne _ cs | SOpt _ _ cs => (fix all l := match l with [] => True | c :: l => eager c /\ all l end) cs
  | SStar q _ cs => q <> QReluctant /\ (fix all l := match l with [] => True | c :: l => eager c /\ all l end) cs
  | SCpt u => eager u
  end.
Lemma eager_subs {V} (u : spat V) : eager u -> Forall eager (subs u).
Proof.
  assert (Hall : forall cs : list (spat V), (fix all l := match l with [] => True | c :: l => eager c /\ all l end) cs -> Forall eager cs).
  { induction cs as [|c cs IH]; intros H; [constructor|]. destruct H as [H1 H2]. constructor; [exact H1|apply IH, H2]. }
  destruct u as [vm cs|q vm cs|q vm cs|u]; cbn [subs eager]; [apply Hall|apply Hall|intros [_ H]; apply Hall, H|]. intros H. repeat constructor. exact H.
Qed.
Lemma eager_lone {V} (u : spat V) : eager u -> lone u.
Proof.
  induction u as [vm cs IH|q vm cs IH|q vm cs IH|u IH] using spat_ind'; cbn [eager lone].
  - induction IH as [|c cs Hc _ IHc]; [auto|]. intros [H1 H2]. split; [apply Hc, H1|apply IHc, H2].
  - induction IH as [|c cs Hc _ IHc]; [auto|]. intros [H1 H2]. split; [apply Hc, H1|apply IHc, H2].
  - intros [Hq H]. split; [intros ->; congruence|]. revert H. induction IH as [|c cs Hc _ IHc]; [auto|]. intros [H1 H2]. split; [apply Hc, H1|apply IHc, H2].
  - exact IH.
Qed.

(** [m] is tried to the end in which it succeeds. *)
Lemma tried_at {Nd A} (S : gmap addr Nd -> Prop) (m : attempt (gmap addr Nd) A) h x h' y h'' : enough m h x h' -> tried S m h y h'' -> tried S m h x h'.
Proof.
  intros [n Hn] (n' & H1 & H2). exists n'. split; [|exact H2]. intros k. rewrite H1. specialize (Hn n'). rewrite Nat.add_comm, H1 in Hn. injection Hn as -> -> _. reflexivity.
Qed.

Section Try.
  Context {V Nd : Type}.
  Variable F : nat.
  Variable im : node_impl V Nd.
  Variable ti : try_impl V Nd.
  Variable al : allocator Nd.
  Variable late : bool.
  Variable like : gmap addr Nd -> ptr -> ptr -> ptr -> res (gmap addr Nd).
  Variable K : kind_data V Nd.
  Hypothesis KO : kind_ok F im al K.
  Notation heap := (gmap addr Nd).
  Notation tree := (rose (addr * V)).
  Notation C := (C K).
  Notation croot := (croot K).
  Notation caddrs := (caddrs K).
  Notation crep := (crep K).
  Notation built := (built caddrs crep).
  Notation xresult := (xresult F im al like).
  Notation xresult_try := (xresult_try F im ti al late like).
  Notation dec := (dec C).
  Notation lost := (lost late).

  (** *** Releasing what is held *)
  Lemma release_list l : forall (ul : list C) h, Forall2 (fun (kx : addr * ptr) u => snd kx = croot u) l ul -> Forall (fun u => crep h u /\ length (caddrs u) < F) ul ->
    NoDup (flat_map caddrs ul) ->
    exists h2, release_all F im l h = Ok h2 /\ forall z, h2 !! z = if bool_decide (z ∈ flat_map caddrs ul) then None else h !! z.
  Proof using KO.
    clear like ti. induction l as [|[k x] l IH]; intros ul h H Hc Hnd; inversion H as [|? u ? ul' Hx Hr]; subst.
    { exists h. split; [reflexivity|]. intros z. rewrite bool_decide_eq_false_2; [reflexivity|]. apply not_elem_of_nil. }
    cbn [snd] in Hx. subst x. apply Forall_cons in Hc as [[Hc Hl] Hcs]. cbn [flat_map] in Hnd. apply NoDup_app in Hnd as (_ & Hd & Hnd).
    destruct (k_dealloc _ _ _ _ KO h u Hc Hl) as (h1 & E1 & H1). cbn [release_all]. rewrite E1. cbn [mbind res_bind].
    destruct (IH ul' h1 Hr) as (h2 & E2 & H2); [|exact Hnd|].
    { apply Forall_forall. intros w Hw. rewrite Forall_forall in Hcs. destruct (Hcs w Hw) as [Hcw Hlw]. split; [|exact Hlw]. eapply (k_ext _ _ _ _ KO); [|exact Hcw].
      intros z Hz. rewrite H1, bool_decide_eq_false_2; [reflexivity|]. intros Hzu. apply (Hd z Hzu). apply elem_of_flat_map. eauto. }
    exists h2. split; [exact E2|]. intros z. rewrite H2, H1. cbn [flat_map]. repeat case_bool_decide; try reflexivity; exfalso; set_solver.
  Qed.
  (** The targets that are left. *)
  Lemma targets_release (um : gmap addr C) (D : gset addr) h hl :
    (forall k u, um !! k = Some u -> k ∉ D -> crep h u /\ length (caddrs u) < F) -> 0 < F ->
    (forall k k' u u' z, um !! k = Some u -> um !! k' = Some u' -> k <> k' -> z ∈ caddrs u -> z ∉ caddrs u') -> lost h hl ->
    exists h2 hc, targets_back F im (conc K um D) hl = Ok h2 /\ lost hc h2 /\
      (forall k u z, um !! k = Some u -> k ∉ D -> z ∈ caddrs u -> hc !! z = None) /\
      (forall z, (forall k u, um !! k = Some u -> k ∉ D -> z ∉ caddrs u) -> hc !! z = h !! z).
  Proof using KO.
    clear like ti. intros Hu HF Hap Hl. unfold targets_back. set (l := map_to_list (fst (conc K um D))).
    set (g := fun kx : addr * ptr => match um !! fst kx with Some u => if decide (fst kx ∈ D) then cnil K else u | None => cnil K end).
    destruct (k_nil _ _ _ _ KO) as (Hn1 & Hn2 & Hn3 & _).
    assert (Hin : forall k x, (k, x) ∈ l -> exists u, um !! k = Some u /\ x = if decide (k ∈ D) then None else croot u).
    { intros k x H. apply elem_of_map_to_list in H. rewrite conc_get in H. destruct (um !! k) as [u|]; [|discriminate]. exists u. cbn in H. split; [reflexivity|congruence]. }
    assert (Hg : forall kx, kx ∈ l -> (exists u, um !! fst kx = Some u /\ fst kx ∉ D /\ g kx = u) \/ g kx = cnil K).
    { intros [k x] H. unfold g. cbn [fst]. destruct (Hin k x H) as (u & -> & _). destruct (decide (k ∈ D)); eauto. }
    assert (Hkey : forall k u, um !! k = Some u -> k ∉ D -> u ∈ map g l).
    { intros k u Hk Hd. apply elem_of_list_fmap. exists (k, croot u). unfold g. cbn [fst]. rewrite Hk, decide_False by exact Hd. split; [reflexivity|]. apply elem_of_map_to_list.
      rewrite conc_get, Hk. cbn. rewrite decide_False by exact Hd. reflexivity. }
    assert (Hex : forall u, crep h u -> crep hl u).
    { intros u Hc. destruct late; cbn in Hl; [|subst hl; exact Hc]. destruct Hl as (z & o & Hz & ->). eapply (k_ext _ _ _ _ KO); [|exact Hc]. intros y Hy. apply lookup_insert_ne.
      intros <-. destruct (k_dom _ _ _ _ KO _ _ _ Hc Hy) as [v Hv]. congruence. }
    destruct (release_list l (map g l) hl) as (h2 & E2 & H2).
    - apply Forall2_same_length_lookup. rewrite map_length. split; [reflexivity|]. intros i [k x] u Hi Hi2. rewrite list_lookup_fmap, Hi in Hi2. injection Hi2 as <-.
      apply elem_of_list_lookup_2 in Hi. destruct (Hin k x Hi) as (u & Hk & ->). unfold g. cbn [fst snd]. rewrite Hk. destruct (decide (k ∈ D)); [symmetry; exact Hn2|reflexivity].
    - apply Forall_forall. intros u Hw. apply elem_of_list_fmap in Hw as (kx & -> & Hkx). destruct (Hg kx Hkx) as [(u & Hk & Hd & ->)| -> ].
      + destruct (Hu _ _ Hk Hd) as [Hc Hlen]. split; [apply Hex, Hc|exact Hlen].
      + split; [apply Hn3|]. rewrite Hn1. exact HF.
    - assert (Hnk : NoDup (map fst l)) by apply NoDup_fst_map_to_list.
      assert (Hsub : forall kx, kx ∈ l -> kx ∈ l) by auto. revert Hnk Hsub. generalize l at 1 2 4. induction l0 as [|kx l0 IH]; intros Hnk Hsub; [constructor|].
      cbn [map flat_map] in *. apply NoDup_cons in Hnk as [Hx Hnk]. apply NoDup_app. split; [|split; [|apply IH; [exact Hnk|intros; apply Hsub; right; assumption]]].
      + destruct (Hg kx (Hsub _ ltac:(left))) as [(u & Hk & Hd & ->)| -> ]; [|rewrite Hn1; constructor]. eapply (k_nd _ _ _ _ KO), (Hu _ _ Hk Hd).
      + intros z Hz Hz2. apply elem_of_flat_map in Hz2 as (w & Hw & Hz2). apply elem_of_list_fmap in Hw as (kx2 & -> & Hkx2).
        destruct (Hg kx (Hsub _ ltac:(left))) as [(u & Hk & Hd & Eu)|Eu]; rewrite Eu in Hz; [|rewrite Hn1 in Hz; apply elem_of_nil in Hz as []].
        destruct (Hg kx2 (Hsub _ ltac:(right; exact Hkx2))) as [(u2 & Hk2 & Hd2 & Eu2)|Eu2]; rewrite Eu2 in Hz2; [|rewrite Hn1 in Hz2; apply elem_of_nil in Hz2 as []].
        apply (Hap _ _ _ _ z Hk Hk2); [|exact Hz|exact Hz2]. intros Ek. apply Hx. rewrite Ek. apply elem_of_list_fmap. eauto.
    - set (A := flat_map caddrs (map g l)) in *.
      assert (HA1 : forall k u z, um !! k = Some u -> k ∉ D -> z ∈ caddrs u -> z ∈ A) by (intros k u z Hk Hd Hz; apply elem_of_flat_map; exists u; split; [eapply Hkey; eassumption|exact Hz]).
      assert (HA2 : forall z, z ∈ A -> exists k u, um !! k = Some u /\ k ∉ D /\ z ∈ caddrs u).
      { intros z Hz. apply elem_of_flat_map in Hz as (u & Hw & Hz). apply elem_of_list_fmap in Hw as (kx & -> & Hkx).
        destruct (Hg kx Hkx) as [(u & Hk & Hd & Eu)|Eu]; rewrite Eu in Hz; [eauto|rewrite Hn1 in Hz; apply elem_of_nil in Hz as []]. }
      exists h2, (filter (fun kv : addr * Nd => fst kv ∉ A) h). split; [exact E2|].
      assert (Hf : forall z, filter (fun kv : addr * Nd => fst kv ∉ A) h !! z = if bool_decide (z ∈ A) then None else h !! z).
      { intros z. case_bool_decide as Hz; [apply map_filter_lookup_None_2; right; intros v _; cbn; auto|]. destruct (h !! z) as [v|] eqn:Ev.
        - apply map_filter_lookup_Some_2; [exact Ev|exact Hz].
        - apply map_filter_lookup_None_2. left. exact Ev. }
      split; [|split].
      + unfold ResultFailFacts.lost in *. destruct late.
        * destruct Hl as (z & o & Hz & ->). exists z, o. split; [rewrite Hf; case_bool_decide; [reflexivity|exact Hz]|]. apply map_eq. intros y. rewrite H2.
          assert (Hza : z ∉ A). { intros Hza. destruct (HA2 z Hza) as (k & u & Hk & Hd & Hzu). destruct (Hu _ _ Hk Hd) as [Hc _]. destruct (k_dom _ _ _ _ KO _ _ _ Hc Hzu) as [v Hv]. congruence. }
          destruct (decide (y = z)) as [->|Hne]; [rewrite !lookup_insert; rewrite bool_decide_eq_false_2 by exact Hza; reflexivity|]. rewrite !lookup_insert_ne, Hf by congruence. reflexivity.
        * subst hl. apply map_eq. intros y. rewrite H2, Hf. reflexivity.
      + intros k u z Hk Hd Hz. rewrite Hf, bool_decide_eq_true_2; [reflexivity|]. eapply HA1; eassumption.
      + intros z Hz. rewrite Hf, bool_decide_eq_false_2; [reflexivity|]. intros H. destruct (HA2 z H) as (k & u & Hk & Hd & Hzu). exact (Hz k u Hk Hd Hzu).
  Qed.
  Lemma conc_none (um : gmap addr C) : conc K um ∅ = (croot <$> um, Z.of_nat (size um)).
  Proof.
    unfold conc. f_equal; [|rewrite size_empty; lia]. apply map_eq. intros k. rewrite map_lookup_imap, lookup_fmap. destruct (um !! k); [|reflexivity]. cbn. rewrite decide_False by set_solver +. reflexivity.
  Qed.
  Lemma held_back h0 h um hl : held K h0 h um -> (forall k u, um !! k = Some u -> length (caddrs u) < F) -> 0 < F -> lost h hl ->
    exists h2, targets_back F im (croot <$> um, Z.of_nat (size um)) hl = Ok h2 /\ lost h0 h2.
  Proof using KO.
    clear like ti. intros (H1 & H2 & H3) Hlen HF Hl. rewrite <- conc_none.
    destruct (targets_release um ∅ h hl) as (h2 & hc & E & Hlc & Hn & Hk); [|exact HF|exact H2|exact Hl|].
    { intros k u Hu _. split; [apply (H1 k u Hu)|eapply Hlen, Hu]. }
    exists h2. split; [exact E|]. replace h0 with hc; [exact Hlc|]. apply map_eq. intros z.
    assert (Hdec : (exists k u, um !! k = Some u /\ z ∈ caddrs u) \/ (forall k u, um !! k = Some u -> z ∉ caddrs u)).
    { destruct (decide (Exists (fun ku : addr * C => z ∈ caddrs (snd ku)) (map_to_list um))) as [He|He].
      - left. apply Exists_exists in He as ([k u] & Hin & Hz). apply elem_of_map_to_list in Hin. eauto.
      - right. intros k u Hu Hz. apply He, Exists_exists. exists (k, u). split; [apply elem_of_map_to_list, Hu|exact Hz]. }
    destruct Hdec as [(k & u & Hu & Hz)|Hno].
    - rewrite (Hn k u z Hu ltac:(set_solver +) Hz). destruct (H1 k u Hu) as (_ & _ & Hz0). symmetry. apply Hz0, Hz.
    - rewrite Hk by (intros k u Hu _; apply Hno with k, Hu). apply H3, Hno.
  Qed.

  (** *** What the kind of trees provides, see StarResult.v *)
  Variable src : heap -> tree -> Prop.
  Variable image : tree -> C -> Prop.
  Hypothesis CP : copies F im like K src image.
  Variable whole : heap -> tree -> Prop.
  Hypothesis whole_nd : forall h t, whole h t -> NoDup (raddrs t).
  Hypothesis whole_ops : forall h t, whole h t -> ops_ok (ni_ops im h) (rose_map fst t).
  Hypothesis whole_val : forall h t x, whole h t -> x ∈ preorder t -> ni_value im h (Some (fst x)) = Ok (snd x).
  Hypothesis whole_dom : forall h t a, whole h t -> a ∈ raddrs t -> is_Some (h !! a).
  Hypothesis whole_sub : forall h t s, whole h t -> rsubtree s t -> whole h s.
  Hypothesis whole_ext : forall h h' t, h ⊆ h' -> whole h t -> whole h' t.
  Hypothesis whole_src : forall h t m, whole h t -> trim m t -> src h m.
  Hypothesis Hti : forall h v,
    (forall k a h', ni_from_value im al h v = Ok (a, h') -> ti_value ti late al v h (S k) = Made a h' k) /\
    exists h', ti_value ti late al v h 0 = Lost h' /\ lost h h'.
  Notation state := (option (gset addr)).
  (** What a generation that stops has built. *)
  Definition partly (tg : tree) (h0 : heap) (g0 : addr) (c0 : C) (h : heap) (tr : list (addr * dec)) : Prop := exists c,
    crep h c /\ croot c = Some g0 /\ (forall a, a ∉ caddrs c -> h !! a = h0 !! a) /\
    (forall a, a ∈ caddrs c -> h0 !! a = None \/ a ∈ caddrs c0 \/ exists m u, (m, Use u) ∈ tr /\ a ∈ caddrs u) /\
    (forall a, a ∈ caddrs c0 -> a ∈ caddrs c) /\
    (forall m u z, (m, Use u) ∈ tr -> z ∈ caddrs u -> z ∈ caddrs c) /\
    length (caddrs c) <= S (costs K tr) /\ (forall m, m ∈ map fst tr -> m ∈ raddrs tg).
  Hypothesis genf : forall (tg : tree) h0 g0 c0 (pred : state -> heap -> mptr -> res (state * mptr * bool)) (apr : state -> addr -> state * dec) (uses : addr -> option C) flr st,
    rsize tg < F -> whole h0 tg -> crep h0 c0 -> croot c0 = Some g0 -> cvals K c0 = lit_vals K (LNode (snd (label tg)) []) -> (forall a, a ∈ raddrs tg -> a ∉ caddrs c0) ->
    (forall m u, uses m = Some u -> crep h0 u /\ croot u <> None /\ forall z, z ∈ caddrs u -> z ∉ raddrs tg /\ z ∉ caddrs c0) ->
    (forall m m' u u' z, uses m = Some u -> uses m' = Some u' -> m <> m' -> z ∈ caddrs u -> z ∉ caddrs u') ->
    (forall st m st' u, apr st m = (st', Use u) -> uses m = Some u) ->
    (forall m u kids, uses m = Some u -> tat tg m kids -> forall st x, x ∈ kids -> exists st', apr st (raddr x) = (st', Skip)) ->
    (forall st h m o fl st' d, whole h tg -> m ∈ raddrs tg -> m <> raddr tg -> apr st m = (st', d) ->
      pred st h (MPtr [Some m; o] fl) = Ok (st', answer K (MPtr [Some m; o] fl) d, accepted K d)) ->
    fails_well F im al like pred (MPtr [Some (raddr tg); Some g0] flr) st h0 apr (partly tg h0 g0 c0).

  Notation good_result := (StarResult.good_result F im al like K image whole).
  Notation fattach := (fattach like xresult_try).
  Notation ftargets := (ftargets F im xresult_try).
  Definition good_try (u : spat V) : Prop := forall ns s h a, records [u] s [a] -> smatch snd u (at_node a) a -> whole h (at_node a) -> 2 * rsize (at_node a) < F ->
    exists x h', tried (lost h) (xresult_try (xbuild u ns) s) h x h'.
  Lemma good_at u ns s h a x h' : good_try u -> records [u] s [a] -> smatch snd u (at_node a) a -> whole h (at_node a) -> 2 * rsize (at_node a) < F ->
    xresult (xbuild u ns) s h = Ok (x, h') -> tried (lost h) (xresult_try (xbuild u ns) s) h x h'.
  Proof using Hti.
    intros Hg Hr Hm Hw HF E. destruct (Hg ns s h a Hr Hm Hw HF) as (y & h2 & Ht). eapply tried_at; [|exact Ht].
    apply (result_enough F im ti al late like (fun h v => proj1 (Hti h v)) (xbuild u ns)). exact E.
  Qed.
  Lemma create_tried h v a h' : ni_from_value im al h v = Ok (a, h') -> tried (lost h) (ti_value ti late al v) h a h'.
  Proof using Hti.
    intros E. destruct (Hti h v) as [H1 H2]. exists 1. split; [intros k; apply H1, E|]. intros k Hk. assert (k = 0) as -> by lia. exact H2.
  Qed.
  (** What is to be given back with [a]. *)
  Definition stuck (h0 : heap) (a : addr) (hl : heap) : Prop := exists hc cc, croot cc = Some a /\ built h0 hc cc /\ lost hc hl /\ length (caddrs cc) < F.
  Lemma stuck_back h0 a hl : stuck h0 a hl -> exists h2, deallocate im F hl (Some a) = Ok h2 /\ lost h0 h2.
  Proof using KO.
    intros (hc & cc & <- & Hb & Hl & Hlen). eapply (lost_back F im al late K KO); eassumption.
  Qed.

  Lemma attach_try us ts l : level snd us ts l -> Forall good_result us -> Forall good_try us -> forall s h0 h c x ts1 ms1 a,
    records us s l -> whole h0 (Rose x (ts1 ++ ts)) -> 2 * rsize (Rose x (ts1 ++ ts)) < F -> trims ms1 ts1 ->
    image (Rose x ms1) c -> croot c = Some a -> built h0 h c ->
    exists h', tried (stuck h0 a) (fattach (xchain us) s a) h () h'.
  Proof.
    induction 1 as [ts|u us t ts b l Hm Hl IH|us t ts l Hl IH]; intros Hg Hgt s h0 h c x ts1 ms1 a Hr Hw HF Ht Hi Hrt Hb.
    - exists h. apply tried_give.
    - apply Forall_cons in Hg as [Hu Hus]. apply Forall_cons in Hgt as [Hut Hust]. destruct (records_one _ _ _ _ _ Hr) as [Hr1 Hr2]. pose proof (records_matched _ _ _ _ _ Hr) as Hma.
      pose proof (smatch_at _ _ _ _ Hm) as Hat. pose proof (built_le K _ _ _ Hb) as Hle.
      assert (Hsub : rsubtree t (Rose x (ts1 ++ t :: ts))) by (econstructor; [|constructor]; set_solver +).
      assert (Hwt : whole h t) by (eapply whole_sub; [|exact Hsub]; eapply whole_ext; [exact Hle|exact Hw]). pose proof (StarResult.sub_size _ _ Hsub) as Hsz.
      rewrite <- Hat in Hm. destruct (Hu (xchain us) s h b Hr1 Hm) as (r & h1 & u1 & m & E & Hru & Hsr & Htr & Him & Hbu).
      { rewrite Hat. exact Hwt. } { rewrite Hat. lia. }
      assert (Htd : tried (lost h) (xresult_try (xbuild u (xchain us)) s) h (Some r) h1) by (eapply good_at; try eassumption; rewrite Hat; [exact Hwt|lia]).
      rewrite Hat in Htr. cbn [foldr]. rewrite xbuild_eq. cbn [StarFailFacts.fattach]. rewrite <- xbuild_eq, Hma. rewrite Hat.
      pose proof (fresh_apart F im al K KO _ _ _ _ (proj1 Hb) Hbu) as Hdis. pose proof (keep_rep F im al K KO _ _ _ _ (proj1 Hb) Hbu) as Hc1. pose proof (built_le K _ _ _ Hbu) as Hle1.
      assert (Htm : trims (ms1 ++ [m]) (ts1 ++ [t])) by (apply trims_app; [exact Ht|apply trims_take; [exact Htr|apply trims_nil]]).
      assert (Htt : trim (Rose x (ms1 ++ [m])) (Rose x (ts1 ++ t :: ts))).
      { apply trim_node. change (t :: ts) with ([t] ++ ts). rewrite app_assoc, <- (app_nil_r (ms1 ++ [m])). apply trims_app; [exact Htm|apply trims_nil]. }
      assert (Htt0 : trim (Rose x ms1) (Rose x (ts1 ++ t :: ts))).
      { apply trim_node. rewrite <- (app_nil_r ms1). apply trims_app; [exact Ht|apply trims_nil]. }
      assert (Hlen : length (caddrs c) < F) by (rewrite (cp_size _ _ _ _ _ _ CP _ _ Hi); apply StarResult.trim_size in Htt0; lia).
      destruct (cp_add _ _ _ _ _ _ CP h1 x ms1 m [] c u1 a r) as (h2 & c2 & E2 & Hi2 & Hc2 & Hr2' & Hperm & Hf2); auto.
      { eapply whole_src; [|exact Htt]. eapply whole_ext; [|exact Hw]. etransitivity; eassumption. }
      { apply Hbu. }
      { lia. }
      assert (Hra : raddr m = raddr t) by (unfold raddr; rewrite (trim_label _ _ Htr); reflexivity). rewrite <- Hra.
      destruct (IH Hus Hust (xs_next s) h0 h2 c2 x (ts1 ++ [t]) (ms1 ++ [m]) a Hr2) as (h3 & Ht3); auto.
      { rewrite <- app_assoc. exact Hw. } { rewrite <- app_assoc. exact HF. }
      { split; [exact Hc2|]. destruct Hb as (_ & Hn & Hf), Hbu as (_ & Hnu & Hfu). split.
        - intros z. rewrite Hperm, elem_of_app. intros [Hz|Hz]; [apply Hn, Hz|].
          destruct (h0 !! z) as [y|] eqn:Ey; [|reflexivity]. apply (lookup_weaken _ _ _ _ Ey) in Hle. rewrite (Hnu z Hz) in Hle. discriminate.
        - intros z Hz. rewrite Hperm, elem_of_app in Hz. rewrite Hf2, Hfu, Hf by tauto. reflexivity. }
      exists h3. eapply tried_then; [|exact Ht3]. eapply tried_then; [|apply tried_writing, E2].
      eapply tried_mono; [|exact Htd]. intros hl Hl'. exists h, c. auto.
    - destruct (IH Hg Hgt s h0 h c x (ts1 ++ [t]) ms1 a Hr) as (h3 & H3); auto.
      { rewrite <- app_assoc. exact Hw. } { rewrite <- app_assoc. exact HF. } { rewrite <- (app_nil_r ms1). apply trims_app; [exact Ht|apply trims_nil]. }
      exists h3. exact H3.
  Qed.
  Lemma clone_try us x ts l s h : level snd us ts l -> Forall good_result us -> Forall good_try us -> records us s l -> whole h (Rose x ts) -> 2 * rsize (Rose x ts) < F ->
    exists y h', tried (lost h) (fclone F im ti al late like xresult_try (Some (fst x)) (xchain us) s) h y h'.
  Proof.
    intros Hl Hg Hgt Hr Hw HF. unfold fclone.
    destruct (k_value _ _ _ _ KO h (snd x)) as (a & h0 & c & E & Hrt & Hval & _ & _ & Hb).
    destruct (attach_try us ts l Hl Hg Hgt s h h0 c x [] [] a) as (h1 & H1); auto.
    { apply trims_nil. } { apply (cp_one _ _ _ _ _ _ CP), Hval. }
    exists (Some a), h1. eapply tried_read; [apply (whole_val h _ x Hw); cbn; left|]. eapply tried_then; [apply create_tried, E|].
    apply (tried_holding F im (Some a) (stuck h a)); [apply stuck_back|]. eapply tried_then; [exact H1|apply tried_give].
  Qed.
  Notation fstolen := (fstolen F im xresult_try).
  Lemma stolen_try_none (us : list (spat V)) l own : forall s, records us s l -> Forall (fun a => raddr (at_node a) <> own) l ->
    fstolen (Some own) (xchain us) s false None = give (false, None).
  Proof using.
    revert l. induction us as [|u us IH]; intros l s Hr Hf; [reflexivity|]. inversion Hr; subst. apply Forall_cons in Hf as [Hf1 Hf2].
    cbn [foldr]. rewrite xbuild_eq. cbn [StarFailFacts.fstolen]. cbn [at_node] in Hf1.
    match goal with H : xs_matched s = _ |- _ => rewrite H end. rewrite ptr_eqb_false by congruence. eapply IH; eassumption.
  Qed.
  Lemma stolen_try_one u s h a x h' : 0 < F -> records [u] s [a] -> tried (lost h) (xresult_try (xbuild u XNil) s) h x h' ->
    tried (lost h) (fstolen (Some (raddr (at_node a))) (xchain [u]) s false None) h (true, x) h'.
  Proof using.
    clear. intros HF Hr E. pose proof (records_matched _ _ _ _ _ Hr) as Hm. cbn [foldr]. rewrite xbuild_eq in *. cbn [StarFailFacts.fstolen]. rewrite Hm, ptr_eqb_true.
    assert (Hn : forall h : heap, deallocate im F h None = Ok h) by (intros; destruct F; [lia|reflexivity]).
    eapply tried_then; [apply (tried_holding F im None (lost h)); [|exact E]; intros hl Hl; exists hl; auto|]. eapply tried_write; [apply Hn|apply tried_give].
  Qed.

  Lemma held_insert h0 h h1 um k c : held K h0 h um -> um !! k = None -> built h h1 c -> croot c <> None -> held K h0 h1 (<[k := c]> um).
  Proof using KO.
    clear -KO. intros Hh Hfk Hb Hrt. pose proof (held_sub _ _ _ _ Hh) as Hle0. destruct Hh as (H1 & H2 & H3).
    assert (Hap : forall k' u' z, um !! k' = Some u' -> z ∈ caddrs c -> z ∉ caddrs u').
    { intros k' u' z Hk' Hz. destruct (H1 _ _ Hk') as (Hc & _). exact (fresh_apart F im al K KO _ _ _ _ Hc Hb z Hz). }
    split; [|split].
    - intros k' u'. destruct (decide (k' = k)) as [->|Hne]; [rewrite lookup_insert|rewrite lookup_insert_ne by congruence].
      + intros [= <-]. split; [apply Hb|]. split; [exact Hrt|]. intros z Hz. destruct (h0 !! z) as [y|] eqn:Ey; [|reflexivity].
        apply (lookup_weaken _ _ _ _ Ey) in Hle0. destruct Hb as (_ & Hn & _). rewrite (Hn z Hz) in Hle0. discriminate.
      + intros Hk'. destruct (H1 _ _ Hk') as (Hc & Hnn & Hz). split; [eapply (keep_rep F im al K KO); eassumption|]. auto.
    - intros k1 k2 u1 u2 z. destruct (decide (k1 = k)) as [->|N1], (decide (k2 = k)) as [->|N2]; rewrite ?lookup_insert, ?lookup_insert_ne by congruence.
      + congruence.
      + intros [= <-] Hk2 _ Hz. eapply Hap; eassumption.
      + intros Hk1 [= <-] _ Hz Hz'. exact (Hap _ _ _ Hk1 Hz' Hz).
      + eapply H2.
    - intros z Hz. destruct Hb as (_ & _ & Hf). rewrite Hf.
      + apply H3. intros k' u' Hk'. apply (Hz k' u'). rewrite lookup_insert_ne; [exact Hk'|]. intros <-. rewrite Hfk in Hk'. discriminate.
      + apply (Hz k c). apply lookup_insert.
  Qed.
  Lemma targets_try us : Forall good_result us -> Forall good_try us -> forall l s h0 h um,
    Forall2 (fun u a => smatch snd u (at_node a) a) us l -> records us s l -> (forall a, a ∈ l -> whole h (at_node a) /\ 2 * rsize (at_node a) < F) ->
    NoDup (map (fun a => raddr (at_node a)) l) -> (forall a, a ∈ l -> um !! raddr (at_node a) = None) -> held K h0 h um -> (forall k u, um !! k = Some u -> length (caddrs u) < F) ->
    exists st h', tried (lost h0) (ftargets (xchain us) s (croot <$> um, Z.of_nat (size um))) h st h'.
  Proof.
    induction 1 as [|u us Hu Hus IH]; intros Hgt l s h0 h um Hm Hr Hw Hnd Hfr Hh Hlen.
    { inversion Hm; subst. eexists _, h. apply tried_give. }
    apply Forall_cons in Hgt as [Hut Hust]. inversion Hm as [|? a ? l' Hm1 Hm2]; subst. cbn [map] in Hnd. apply NoDup_cons in Hnd as [Hna Hnd].
    destruct (records_one _ _ _ _ _ Hr) as [Hr1 Hr2]. pose proof (records_matched _ _ _ _ _ Hr) as Hma. destruct (Hw a) as [Hwa Hsa]; [left|].
    destruct (Hu (xchain us) s h a Hr1 Hm1 Hwa ltac:(lia)) as (r & h1 & c & m & E & Hrt & Hsr & Htr & Him & Hb).
    pose proof (good_at _ _ _ _ _ _ _ Hut Hr1 Hm1 Hwa Hsa E) as Htd.
    cbn [foldr]. rewrite xbuild_eq. cbn [StarFailFacts.ftargets]. rewrite <- xbuild_eq, Hma. set (k := raddr (at_node a)) in *. cbn [fst snd].
    assert (Hfk : um !! k = None) by (apply Hfr; left). set (um1 := <[k := c]> um).
    assert (Hsz : (Z.of_nat (size um) + 1)%Z = Z.of_nat (size um1)) by (unfold um1; rewrite map_size_insert_None by exact Hfk; lia).
    assert (Hst : <[k := Some r]> (croot <$> um) = croot <$> um1) by (unfold um1; rewrite fmap_insert, Hrt; reflexivity).
    assert (Hlenc : length (caddrs c) < F) by (rewrite (cp_size _ _ _ _ _ _ CP _ _ Him); apply StarResult.trim_size in Htr; lia).
    destruct (IH Hust l' (xs_next s) h0 h1 um1 Hm2 Hr2) as (st & h' & H'); auto.
    { intros b Hb'. destruct (Hw b) as [Hwb Hsb]; [right; exact Hb'|]. split; [eapply whole_ext; [eapply built_le, Hb|exact Hwb]|exact Hsb]. }
    { intros b Hb'. unfold um1. rewrite lookup_insert_ne; [apply Hfr; right; exact Hb'|]. intros Ek. apply Hna. apply elem_of_list_fmap. exists b. split; [exact Ek|exact Hb']. }
    { eapply held_insert; eassumption || congruence. }
    { intros k' u'. unfold um1. destruct (decide (k' = k)) as [->|Hne]; [rewrite lookup_insert; intros [= <-]; exact Hlenc|rewrite lookup_insert_ne by congruence; apply Hlen]. }
    exists st, h'. eapply tried_then.
    { eapply tried_unwinding; [|exact Htd]. intros hl Hl. eapply (held_back h0 h um hl Hh Hlen); [lia|exact Hl]. }
    eapply tried_write; [rewrite lookup_fmap, Hfk; reflexivity|]. rewrite Hst, Hsz. exact H'.
  Qed.

  (** *** The generation of a star *)
  Lemma size_nodes (l : list tree) : length (flat_map preorder l) = list_sum (map rsize l).
  Proof using. clear. induction l as [|t l IH]; [reflexivity|]. cbn. rewrite app_length, IH, length_preorder. reflexivity. Qed.
  Lemma costs_bound (l : list (asg (addr * V))) (tr : list (addr * dec)) : NoDup (map fst tr) -> NoDup (map (fun a => raddr (at_node a)) l) ->
    (forall m u, (m, Use u) ∈ tr -> exists a, a ∈ l /\ raddr (at_node a) = m /\ length (caddrs u) <= rsize (at_node a)) ->
    costs K tr <= length tr + list_sum (map (fun a => rsize (at_node a)) l).
  Proof using.
    clear. intros Hnd. revert l. induction tr as [|[m d] tr IH]; intros l Hnl Hl; [cbn; lia|].
    cbn [map fst] in Hnd. apply NoDup_cons in Hnd as [Hm Hnd]. unfold costs. cbn [map snd list_sum fold_right length]. change (fold_right Nat.add 0) with list_sum. fold (costs K tr).
    destruct d as [| |u]; cbn [cost].
    - specialize (IH Hnd l Hnl (fun m' u' H => Hl m' u' (elem_of_list_further _ _ _ H))). lia.
    - specialize (IH Hnd l Hnl (fun m' u' H => Hl m' u' (elem_of_list_further _ _ _ H))). lia.
    - destruct (Hl m u) as (a & Ha & Ea & Hlen); [left|]. apply elem_of_list_split in Ha as (l1 & l2 & ->).
      specialize (IH Hnd (l1 ++ l2)). rewrite map_app in Hnl. cbn in Hnl. rewrite <- Permutation_middle, <- map_app in Hnl. apply NoDup_cons in Hnl as [Hna Hnl].
      specialize (IH Hnl). rewrite map_app, list_sum_app' in *. cbn. cbn in IH. change (fold_right Nat.add 0) with list_sum.
      assert (costs K tr <= length tr + (list_sum (map (fun a => rsize (at_node a)) l1) + list_sum (map (fun a => rsize (at_node a)) l2))); [|lia]. apply IH.
      intros m' u' H'. destruct (Hl m' u') as (a' & Ha' & Ea' & Hlen'); [right; exact H'|]. exists a'. split; [|auto].
      apply elem_of_app in Ha' as [Ha'|Ha']; [apply elem_of_app; left; exact Ha'|]. apply elem_of_cons in Ha' as [->|Ha']; [|apply elem_of_app; right; exact Ha'].
      exfalso. apply Hm. rewrite <- Ea, Ea'. apply elem_of_list_fmap. exists (m', Use u'). auto.
  Qed.
  Definition whole_star q p us s (x : addr) (h : heap) : res (ptr * heap) :=
    v ← ni_value im h (Some x);
    '(a, h2) ← ni_from_value im al h v;
    '(tg, n, h3) ← StarResult.xtargets F im al like (xchain us) s (∅, 0%Z) h2;
    '(tg', _, h4) ← generate F im al like (check_target im q p) (mp_make [Some x; Some a]) (tg, n) h3;
    h5 ← release_all F im (map_to_list tg') h4;
    Ok (Some a, h5).
  Lemma star_try q p us x ts l s h r hr : q <> QReluctant -> Forall good_result us -> Forall good_try us -> Forall2 (fun u a => smatch snd u (at_node a) a) us l ->
    flat_map preorder (map at_node l) `sublist_of` flat_map preorder ts -> (forall a, a ∈ l -> reached snd p (Rose x ts) (at_node a)) ->
    records us s l -> whole h (Rose x ts) -> 2 * rsize (Rose x ts) < F -> whole_star q p us s (fst x) h = Ok (r, hr) ->
    exists y h', tried (lost h) (then_ (reading (fun h => ni_value im h (Some (fst x)))) (fun v =>
      then_ (ti_value ti late al v) (fun a => holding F im (Some a) (fpresent F im ti al late like xresult_try q p (fst x) a (xchain us) s)))) h y h'.
  Proof.
    intros Hq Hg Hgt Hm Hsub Hre Hr Hw HF. unfold whole_star. set (tg := Rose x ts) in *. pose proof (whole_nd _ _ Hw) as Hnd.
    destruct (nodes_nd _ _ _ Hnd Hsub) as (Hnf & Hnl & Hnx). rewrite map_map in Hnl.
    rewrite (whole_val h _ x Hw) by (cbn; left). cbn [mbind res_bind].
    destruct (k_value _ _ _ _ KO h (snd x)) as (a & h2 & c0 & E & Hrt & Hval & Hlen0 & _ & Hb). rewrite E. cbn [mbind res_bind]. pose proof (built_le K _ _ _ Hb) as Hle2.
    assert (Hsubs : forall b, b ∈ l -> rsubtree (at_node b) tg).
    { intros b Hb'. destruct (reached_sub _ _ _ (Hre b Hb')) as [[H _]|H]; [exact H|destruct (H Hnd)]. }
    assert (Hheld : held K h2 h2 ∅) by (split; [|split]; [intros k u H; rewrite lookup_empty in H; discriminate|intros k k' u u' z H; rewrite lookup_empty in H; discriminate|reflexivity]).
    assert (Hwl : forall b, b ∈ l -> whole h2 (at_node b) /\ 2 * rsize (at_node b) < F).
    { intros b Hb'. split; [eapply whole_sub; [|apply Hsubs, Hb']; eapply whole_ext; eassumption|]. apply Hsubs, StarResult.sub_size in Hb'. lia. }
    destruct (targets_ok F im al like K KO image whole whole_ext us Hg l s h2 h2 ∅ Hm Hr) as (h3 & um & ms & E3 & Hh & Hsrs & Htrs & _ & Hin & Hout); auto.
    { intros b Hb'. destruct (Hwl b Hb'). split; [assumption|lia]. }
    destruct (targets_try us Hg Hgt l s h2 h2 ∅ Hm Hr Hwl Hnl) as (st3 & h3' & H3); [intros b _; apply lookup_empty|exact Hheld|intros k u H; rewrite lookup_empty in H; discriminate|].
    rewrite fmap_empty, map_size_empty in E3, H3. change (Z.of_nat 0) with 0%Z in E3, H3. rewrite E3. cbn [mbind res_bind].
    assert (H3' : tried (lost h2) (ftargets (xchain us) s (∅, 0%Z)) h2 (croot <$> um, Z.of_nat (size um)) h3).
    { eapply tried_at; [|exact H3]. apply (result_enough F im ti al late like (fun h v => proj1 (Hti h v)) (xchain us)). exact E3. }
    clear H3 st3 h3'. intros Eall.
    pose proof (held_sub _ _ _ _ Hh) as Hle3. pose proof Hh as (Hh1 & Hh2 & Hh3).
    assert (Hout' : forall k u, um !! k = Some u -> exists b m, (b, m) ∈ combine l ms /\ raddr (at_node b) = k /\ image m u).
    { intros k u Hu. destruct (Hout k u Hu) as [H|H]; [rewrite lookup_empty in H; discriminate|exact H]. } clear Hout.
    destruct (combine_all _ _ _ Htrs) as [Htr1 Htr2].
    assert (Hlenu : forall k u, um !! k = Some u -> exists b, b ∈ l /\ raddr (at_node b) = k /\ length (caddrs u) <= rsize (at_node b)).
    { intros k u Hu. destruct (Hout' k u Hu) as (b & m & Hbm & Ek & Hi). exists b. split; [eapply combine_fst, Hbm|]. split; [exact Ek|]. rewrite (cp_size _ _ _ _ _ _ CP _ _ Hi).
      apply StarResult.trim_size, Htr1, Hbm. }
    assert (Hc3 : crep h3 c0).
    { eapply (k_ext _ _ _ _ KO); [|apply Hb]. intros z Hz. apply Hh3. intros k u Hu Hzu. destruct (Hh1 k u Hu) as (_ & _ & Hn). destruct (k_dom _ _ _ _ KO _ _ _ (proj1 Hb) Hz) as [y Hy]. rewrite (Hn z Hzu) in Hy. discriminate. }
    assert (Hw3 : whole h3 tg) by (eapply whole_ext; [|exact Hw]; etransitivity; eassumption).
    assert (Hap0 : forall z, z ∈ raddrs tg -> z ∉ caddrs c0).
    { intros z Hz Hzc. destruct (whole_dom _ _ _ Hw Hz) as [y Hy]. destruct Hb as (_ & Hn & _). rewrite (Hn z Hzc) in Hy. discriminate. }
    assert (Huc0 : forall k u z, um !! k = Some u -> z ∈ caddrs u -> z ∉ caddrs c0).
    { intros k u z Hu Hzu Hzz. destruct (Hh1 k u Hu) as (_ & _ & Hn). destruct (k_dom _ _ _ _ KO _ _ _ (proj1 Hb) Hzz) as [y Hy]. rewrite (Hn z Hzu) in Hy. discriminate. }
    assert (Hfw : fails_well F im al like (tpred im K q p um) (MPtr [Some (raddr tg); Some a] (replicate 2 false)) (Some ∅) h3 (tapr K q p tg um) (partly tg h3 a c0)).
    { apply (genf tg h3 a c0 (tpred im K q p um) (tapr K q p tg um) (fun m => um !! m)).
      - lia. - exact Hw3. - exact Hc3. - exact Hrt. - exact Hval. - exact Hap0.
      - intros k u Hu. destruct (Hh1 k u Hu) as (Hc & Hn & Hz). split; [exact Hc|]. split; [exact Hn|]. intros z Hzu. split; [|eapply Huc0; eassumption]. intros Hzz.
        destruct (whole_dom _ _ _ Hw Hzz) as [y Hy]. apply (lookup_weaken _ _ _ _ Hy) in Hle2. rewrite (Hz z Hzu) in Hle2. discriminate.
      - exact Hh2.
      - intros st m st1 u. apply target_use.
      - apply target_kids; [exact Hnd|]. intros k u kids Hu (cx & v & Hp) y Hy. destruct (um !! raddr y) as [w|] eqn:Ew; [|reflexivity]. exfalso.
        destruct (Hout' _ _ Hu) as (b & m & Hbm & Ek & _). destruct (Hout' _ _ Ew) as (b' & m' & Hbm' & Ek' & _).
        assert (Hbl : b ∈ l) by (eapply combine_fst, Hbm). assert (Hbl' : b' ∈ l) by (eapply combine_fst, Hbm').
        assert (Es : at_node b = Rose (k, v) kids). { eapply sub_unique; [exact Hnd|apply Hsubs, Hbl|apply rsubtree_plug; eauto|exact Ek]. }
        assert (Es' : at_node b' = at_node b).
        { eapply apart; [exact Hnf|apply elem_of_list_fmap; eauto|apply elem_of_list_fmap; eauto|]. rewrite Ek', Es. eapply raddrs_sub; [exact Hy|apply raddr_mem]. }
        rewrite Es' in Ek'. rewrite Ek' in Ek. pose proof (sub_nd _ _ (Hsubs _ Hbl) Hnd) as Hn. rewrite Es in Hn. apply (nd_root _ _ y Hn Hy). cbn [fst]. rewrite <- Ek. apply raddr_mem.
      - intros st h' m o fl st1 d Hwh Hmt Hne Ha. eapply target_ok; [exact Hnd|apply whole_ops, Hwh|intros z Hz; eapply whole_val; eassumption|exact Hmt|exact Hne|exact Ha]. }
    destruct (Hfw ti late _ (check_target im q p) (tview K um) (targets_back F im) lost (stuck h a)) with (st2 := conc K um ∅) as (st' & h4 & st4 & E4 & Hv4 & H4).
    { intros s0 h0 pt s1 r1 b1. apply target_sim. }
    { intros h0 v a0 h1 E0. apply create_tried, E0. }
    { intros tr st1 Hc Hn. destruct (calls_run _ _ _ _ _ ∅ tr st1 Hc Hn) as (D' & -> & _); [set_solver +|set_solver +|]. eexists. reflexivity. }
    { intros tr st1 st2 hx hl Hc Hn Hv Hpart Hl. destruct (calls_run _ _ _ _ _ ∅ tr st1 Hc Hn) as (D' & -> & [_ R2 R3 R4 R5 _ _]); [set_solver +|set_solver +|]. injection Hv as <-.
      destruct Hpart as (c & P1 & P2 & P3 & P4 & P5 & P6 & P7 & P8).
      assert (Hused : forall k u, um !! k = Some u -> k ∈ D' -> (k, Use u) ∈ tr) by (intros k u Hu Hd; destruct (R3 k Hd) as [H|H]; [set_solver +H|apply R4; assumption]).
      assert (Hap : forall k u z, um !! k = Some u -> k ∉ D' -> z ∈ caddrs u -> z ∉ caddrs c).
      { intros k u z Hu Hd Hz Hzc. destruct (Hh1 k u Hu) as (Hcu & _ & _). destruct (P4 z Hzc) as [H|[H|(m & u' & Hmu & H)]].
        - destruct (k_dom _ _ _ _ KO _ _ _ Hcu Hz) as [y Hy]. congruence.
        - eapply Huc0; eassumption.
        - pose proof (R5 _ _ Hmu) as Hu'. apply (Hh2 k m u u' z Hu Hu'); [|exact Hz|exact H]. intros ->. apply Hd.
          apply (R4 m u' Hu'). apply elem_of_list_fmap. exists (m, Use u'). auto. }
      destruct (targets_release um D' hx hl) as (h5 & hc & E5 & Hlc & Hn5 & Hk5); [|lia|exact Hh2|exact Hl|].
      { intros k u Hu Hd. destruct (Hh1 k u Hu) as (Hcu & _ & _). split.
        - eapply (k_ext _ _ _ _ KO); [|exact Hcu]. intros z Hz. apply P3. eapply Hap; eassumption.
        - destruct (Hlenu k u Hu) as (b & Hbl & _ & Hlen). apply Hsubs, StarResult.sub_size in Hbl. lia. }
      exists h5. split; [exact E5|]. exists hc, c. split; [exact P2|]. split; [|split; [exact Hlc|]].
      - assert (Hkc : forall z, z ∈ caddrs c -> hc !! z = hx !! z) by (intros z Hz; apply Hk5; intros k u Hu Hd Hzu; exact (Hap k u z Hu Hd Hzu Hz)).
        split; [eapply (k_ext _ _ _ _ KO); [exact Hkc|exact P1]|]. split.
        + intros z Hz. destruct (h !! z) as [y|] eqn:Ey; [|reflexivity]. exfalso. pose proof (lookup_weaken _ _ _ _ Ey Hle2) as Ey2. pose proof (lookup_weaken _ _ _ _ Ey2 Hle3) as Ey3.
          destruct (P4 z Hz) as [H|[H|(m & u & Hu & H)]]; [congruence| |].
          * destruct Hb as (_ & Hn0 & _). rewrite (Hn0 z H) in Ey. discriminate.
          * destruct (Hh1 _ _ (R5 _ _ Hu)) as (_ & _ & Hn0). rewrite (Hn0 z H) in Ey2. discriminate.
        + intros z Hz.
          assert (Hdec : (exists k u, um !! k = Some u /\ z ∈ caddrs u) \/ (forall k u, um !! k = Some u -> z ∉ caddrs u)).
          { destruct (decide (Exists (fun ku : addr * C => z ∈ caddrs (snd ku)) (map_to_list um))) as [He|He].
            - left. apply Exists_exists in He as ([k u] & Hi & Hzz). apply elem_of_map_to_list in Hi. eauto.
            - right. intros k u Hu Hzz. apply He, Exists_exists. exists (k, u). split; [apply elem_of_map_to_list, Hu|exact Hzz]. }
          destruct Hdec as [(k & u & Hu & Hzu)|Hno].
          * destruct (decide (k ∈ D')) as [Hd|Hd]; [exfalso; apply Hz; eapply P6; [apply Hused; eassumption|exact Hzu]|].
            rewrite (Hn5 k u z Hu Hd Hzu). destruct (Hh1 k u Hu) as (_ & _ & Hn0). destruct (h !! z) as [y|] eqn:Ey; [|reflexivity].
            pose proof (lookup_weaken _ _ _ _ Ey Hle2) as Ey2. rewrite (Hn0 z Hzu) in Ey2. discriminate.
          * rewrite Hk5 by (intros k u Hu _; eapply Hno, Hu). rewrite (P3 z Hz), (Hh3 z Hno). apply Hb. intros H. apply Hz, P5, H.
      - assert (Hcost : costs K tr <= length tr + list_sum (map (fun a => rsize (at_node a)) l)) by (apply costs_bound; auto).
        assert (Hltr : length tr <= rsize tg).
        { rewrite <- (map_length fst tr), <- (length_preorder tg), <- (map_length fst (preorder tg)). apply submseteq_length, NoDup_submseteq; [exact Hn|exact P8]. }
        assert (Hsum : list_sum (map (fun a => rsize (at_node a)) l) < rsize tg).
        { apply sublist_length in Hsub. rewrite !size_nodes, map_map in Hsub. unfold tg. rewrite rsize_node. lia. }
        lia. }
    { reflexivity. }
    destruct (sim_generate F im al like (check_target im q p) (tpred im K q p um) (tview K um) (MPtr [Some (raddr tg); Some a] (replicate 2 false))
      (target_sim im K q p um) _ _ _ _ st4 E4 Hv4) as (st0 & Hst0 & E4'). injection Hst0 as <-. rewrite conc_none in E4', H4.
    change (mp_make [Some (fst x); Some a]) with (MPtr [Some (raddr tg); Some a] (replicate 2 false)) in *. rewrite E4' in Eall. destruct st4 as [tg4 n4]. cbn [mbind res_bind] in Eall.
    destruct (release_all F im (map_to_list tg4) h4) as [h5|] eqn:E5; cbn [mbind res_bind] in Eall; [|discriminate].
    exists (Some a), h5. eapply tried_read; [apply (whole_val h _ x Hw); cbn; left|]. eapply tried_then; [apply create_tried, E|].
    apply (tried_holding F im (Some a) (stuck h a)); [apply stuck_back|].
    assert (G : tried (stuck h a) (then_ (ftargets (xchain us) s (∅, 0%Z)) (fun st =>
      then_ (generate_try F im ti al late like (check_target im q p) (targets_back F im) (mp_make [Some (fst x); Some a]) st) (fun st' =>
      then_ (writing (targets_back F im st')) (fun _ => give (Some a))))) h2 (Some a) h5).
    { eapply tried_then; [|eapply tried_then; [exact H4|]].
      - eapply tried_mono; [|exact H3']. intros hl Hl. exists h2, c0. split; [exact Hrt|]. split; [exact Hb|]. split; [exact Hl|]. pose proof (rsize_pos tg). lia.
      - eapply tried_write; [exact E5|apply tried_give]. }
    unfold fpresent. destruct q; [exact G|congruence|exact G..].
  Qed.

  (** *** The theorem *)
  Hypothesis Hres : forall u, ssolid u -> lone u -> good_result u.
  Lemma if_same {A} (b : bool) (x : A) : (if b then x else x) = x.
  Proof using. clear. destruct b; reflexivity. Qed.
  Theorem try_good u : ssolid u -> eager u -> good_try u.
  Proof.
    induction u as [vm cs IH|q vm cs IH|q vm cs IH|u IH] using spat_ind'; intros Hs Hl ns s h a Hr Hm Hw HF;
      pose proof (ssolid_subs _ Hs) as Hsub; pose proof (eager_subs _ Hl) as Hlub; cbn [subs] in Hsub, Hlub.
    1-3: assert (Hgt : Forall good_try cs) by (clear -IH Hsub Hlub; induction IH as [|c cs Hc _ IHc]; [constructor|]; apply Forall_cons in Hsub as [? ?]; apply Forall_cons in Hlub as [? ?]; constructor; auto).
    1-3: assert (Hg : Forall good_result cs) by (clear -Hres Hsub Hlub; induction cs as [|c cs IHc]; [constructor|]; apply Forall_cons in Hsub as [? ?]; apply Forall_cons in Hlub as [? ?]; constructor; [apply Hres; [assumption|apply eager_lone; assumption]|auto]).
    1-3: pose proof (Hres _ Hs (eager_lone _ Hl) ns s h a Hr Hm Hw ltac:(lia)) as (rb & rh & _ & _ & E & _).
    all: destruct a as [n la]; cbn [at_node] in *; destruct (records_inv _ _ _ _ Hr) as (m & cut & sc & sn & -> & Em & Hrl); rewrite xbuild_eq in *; cbn [kind_of test_of subs] in *.
    - inversion Hm as [? ? x ts ? Hp Hlev| | | | | |]; subst. rewrite StarFailFacts.try_one. exact (clone_try cs x ts la sc h Hlev Hg Hgt Hrl Hw HF).
    - destruct n as [x ts]. subst m. rewrite StarFailFacts.try_opt, xsteal_solid by exact Hsub.
      assert (Hcase : level snd cs ts la \/ exists c a, cs = [c] /\ la = [a] /\ smatch snd c (Rose x ts) a) by (inversion Hm; subst; eauto 6).
      destruct Hcase as [Hlev|(c & a & -> & -> & Hma)].
      + pose proof (level_own _ _ _ _ (whole_nd _ _ Hw) Hlev) as Hown. change (raddr (Rose x ts)) with (fst x). rewrite (stolen_try_none _ _ _ _ Hrl Hown), if_same.
        destruct (clone_try cs x ts la sc h Hlev Hg Hgt Hrl Hw HF) as (y & h' & Ht). exists y, h'. eapply tried_then; [apply tried_give|exact Ht].
      + apply Forall_cons in Hgt as [Hgt _]. pose proof (smatch_at _ _ _ _ Hma) as Hat. rewrite <- Hat in *. destruct (Hgt XNil sc h a Hrl Hma Hw HF) as (y & h' & Ht).
        cbn [length Nat.leb]. exists y, h'. eapply tried_then; [apply stolen_try_one; [lia|exact Hrl|exact Ht]|apply tried_give].
    - destruct n as [x ts]. subst m. destruct Hs as [Hne _]. destruct Hl as [Hq _]. rewrite try_star. change (fempty (xchain cs) sc) with (xempty (xchain cs) sc).
      assert (Hcase : ((q <> QPossessive -> below snd vm cs ts la) /\ (q = QPossessive -> level snd cs (flat_map (frontier snd vm) ts) la)) \/
        exists c a, cs = [c] /\ la = [a] /\ smatch snd c (Rose x ts) a).
      { inversion Hm; subst; [left; split; [auto|congruence]|left; split; [congruence|auto]|right; eauto 6]. }
      destruct Hcase as [[Hb1 Hb2]|(c & a & -> & -> & Hma)].
      + destruct (star_present _ _ _ x _ _ Hb1 Hb2) as (H1 & H2 & H3). pose proof (whole_nd _ _ Hw) as Hnd. destruct (nodes_nd _ _ _ Hnd H2) as (_ & _ & Hnx).
        assert (Hown : Forall (fun a => raddr (at_node a) <> fst x) la) by (apply Forall_forall; intros a Ha; apply Hnx, elem_of_list_fmap; eauto).
        change (raddr (Rose x ts)) with (fst x) in *. rewrite result_star in E.
        assert (He : xempty (xchain cs) sc = false).
        { destruct cs as [|u cs]; [congruence|]. inversion H1 as [|? a ? l' Hm1 Hm2]; subst. exact (empty_false _ _ _ _ _ Hrl). }
        rewrite He in *. rewrite (stolen_none F im al like _ _ _ _ _ Hrl Hown), if_same in E. rewrite (stolen_try_none _ _ _ _ Hrl Hown), if_same. cbn [mbind res_bind] in E.
        assert (E' : whole_star q vm cs sc (fst x) h = Ok (Some rb, rh)) by (destruct q; [exact E|congruence|exact E..]).
        destruct (star_try q vm cs x ts la sc h (Some rb) rh Hq Hg Hgt H1 H2 H3 Hrl Hw HF E') as (y & h' & Ht). exists y, h'. eapply tried_then; [apply tried_give|exact Ht].
      + apply Forall_cons in Hgt as [Hgt _]. pose proof (smatch_at _ _ _ _ Hma) as Hat. rewrite <- Hat in *. destruct (Hgt XNil sc h a Hrl Hma Hw HF) as (y & h' & Ht).
        rewrite (empty_false _ _ _ _ _ Hrl), xsteal_solid by exact Hsub. cbn [length Nat.leb].
        exists y, h'. eapply tried_then; [apply stolen_try_one; [lia|exact Hrl|exact Ht]|apply tried_give].
    - apply Forall_cons in Hsub as [Hsu _]. apply Forall_cons in Hlub as [Hlu _]. inversion Hm as [| | | | | |? ? a Hma]; subst. rewrite StarFailFacts.try_cpt. cbn [foldr].
      pose proof (smatch_at _ _ _ _ Hma) as Hat. rewrite <- Hat in Hma, Hw, HF. exact (IH Hsu Hlu XNil sc h a Hrl Hma Hw HF).
  Qed.
End Try.
