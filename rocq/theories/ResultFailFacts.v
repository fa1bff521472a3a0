(** ResultFailFacts.v: the failing construction of a result. *)
From Verif Require Import Base Spec MatchSpec StructNode BinaryNode NaryNode Nav Policy Tree Rep RoseFacts NavFacts
  User World Kinds EditSpec TreeSpec TreeOps Fail FailSpec Matcher OptSpec MatchUser MatchFacts MatchResult MatchKinds ResultFail.

(** What a failed creation leaves of the heap: nothing, or the memory of one node. *)
Definition lost {Nd} (late : bool) (h h' : gmap addr Nd) : Prop :=
  if late then exists z o, h !! z = None /\ h' = <[z := o]> h else h' = h.

Section Facts.
  Context {V Nd : Type}.
  Variable F : nat.
  Variable im : node_impl V Nd.
  Variable ti : try_impl V Nd.
  Variable al : allocator Nd.
  Variable late : bool.
  Variable like : gmap addr Nd -> ptr -> ptr -> ptr -> res (gmap addr Nd).
  Variable K : kind_data V Nd.
  Notation heap := (gmap addr Nd).
  Notation tree := (rose (addr * V)).
  Notation croot := (croot K).
  Notation caddrs := (caddrs K).
  Notation crep := (crep K).
  Notation built := (built caddrs crep).
  Notation result := (result F im al like).
  Notation attach := (attach F im al like).
  Notation result_try := (result_try F im ti al late like).
  Notation holding := (holding F im).

  Fixpoint attach_try (c : pat V) (sc : mstate) (a : addr) : attempt heap unit :=
    match c with
    | PNil => give ()
    | PN _ _ _ cn =>
        then_ (match ms_matched sc with
               | None => give ()
               | Some _ => then_ (result_try c sc) (fun x => writing (fun h => like h (Some a) x (ms_matched sc)))
               end) (fun _ =>
        attach_try cn (ms_next sc) a)
    end.
  Definition clone_try fc s : attempt heap ptr :=
    then_ (reading (fun h => ni_value im h (ms_matched s))) (fun v =>
    then_ (ti_value ti late al v) (fun a =>
    holding (Some a) (then_ (attach_try fc (ms_first s) a) (fun _ => give (Some a))))).
  Definition clone fc s h : res (ptr * heap) :=
    v ← ni_value im h (ms_matched s); '(a, h0) ← ni_from_value im al h v; h1 ← attach fc (ms_first s) a h0; Ok (Some a, h1).
  Section StolenTry.
    Variable s : mstate.
    Fixpoint stolen_try (c : pat V) (sc : mstate) (found : bool) (acc : ptr) : attempt heap (bool * ptr) :=
      match c with
      | PNil => give (found, acc)
      | PN _ _ _ cn =>
          if ptr_eqb (ms_matched sc) (ms_matched s)
          then then_ (holding acc (result_try c sc)) (fun x =>
               then_ (writing (fun h => deallocate im F h acc)) (fun _ =>
               stolen_try cn (ms_next sc) true x))
          else stolen_try cn (ms_next sc) found acc
      end.
  End StolenTry.
  Lemma try_one vm fc ns m sc sn : result_try (PN MOne vm fc ns) (MS (Some m) sc sn) = clone_try fc (MS (Some m) sc sn).
  Proof. reflexivity. Qed.
  Lemma try_opt q vm fc ns m sc sn : result_try (PN (MOpt q) vm fc ns) (MS (Some m) sc sn) =
    then_ (if child_may_steal fc then stolen_try (MS (Some m) sc sn) fc sc false None else give (false, None)) (fun '(b, x) =>
    if b : bool then give x else clone_try fc (MS (Some m) sc sn)).
  Proof. reflexivity. Qed.
  Lemma try_cpt vm fc ns m sc sn : result_try (PN MCapture vm fc ns) (MS (Some m) sc sn) = result_try fc sc.
  Proof. reflexivity. Qed.
  Lemma stolen_try_none cs sc ms l s : descs cs sc ms l -> (exists a, ms_matched s = Some a /\ Forall (fun m => raddr m <> a) ms) ->
    stolen_try s (chain cs) sc false None = give (false, None).
  Proof.
    intros Hd (a & Ha & Hf). revert sc ms l Hd Hf. induction cs as [|c cs IH]; intros sc ms l Hd Hf; [reflexivity|].
    inversion Hd as [|? ? ? m ms' ? ? Hm _ Hd']; subst. inversion Hf; subst.
    destruct (build_cons c (chain cs)) as (k0 & vm0 & fc0 & Eb). cbn [foldr]. rewrite Eb. cbn [stolen_try]. rewrite Hm, Ha, ptr_eqb_false by congruence.
    eapply IH; eassumption.
  Qed.

  Hypothesis KO : kind_ok F im al K.
  Variable src : heap -> tree -> Prop.
  Variable image : tree -> C K -> Prop.
  Hypothesis Hcp : copies F im like K src image.
  Hypothesis Hti : forall h v,
    (forall k a h', ni_from_value im al h v = Ok (a, h') -> ti_value ti late al v h (S k) = Made a h' k) /\
    exists h', ti_value ti late al v h 0 = Lost h' /\ lost late h h'.

  (** Giving back what was built. *)
  Lemma lost_back h0 h h1 c : built h0 h c -> lost late h h1 -> length (caddrs c) < F ->
    exists h2, deallocate im F h1 (croot c) = Ok h2 /\ lost late h0 h2.
  Proof using KO.
    clear Hti Hcp. intros (Hc & Hn & Hf) Hl HF.
    assert (Hout : forall z o, h !! z = None -> h1 = <[z := o]> h -> z ∉ caddrs c).
    { intros z o Hz _ Hin. destruct (k_dom _ _ _ _ KO _ _ _ Hc Hin) as [y Hy]. congruence. }
    assert (Hc1 : crep h1 c).
    { destruct late; cbn in Hl; [|subst h1; exact Hc]. destruct Hl as (z & o & Hz & E).
      eapply (k_ext _ _ _ _ KO); [|exact Hc]. intros y Hy. rewrite E. apply lookup_insert_ne. intros <-. exact (Hout _ _ Hz E Hy). }
    destruct (k_dealloc _ _ _ _ KO h1 c Hc1 HF) as (h2 & E2 & Hd). exists h2. split; [exact E2|].
    destruct late; cbn in Hl |- *.
    - destruct Hl as (z & o & Hz & E). pose proof (Hout _ _ Hz E) as Hzc. exists z, o. split; [rewrite <- Hf; assumption|].
      apply map_eq. intros y. rewrite Hd, E. case_bool_decide as Hy.
      + rewrite lookup_insert_ne by congruence. symmetry. apply Hn, Hy.
      + destruct (decide (y = z)) as [->|Hne]; [rewrite !lookup_insert; reflexivity|]. rewrite !lookup_insert_ne by congruence. apply Hf, Hy.
    - subst h1. apply map_eq. intros y. rewrite Hd. case_bool_decide as Hy; [symmetry; apply Hn, Hy|apply Hf, Hy].
  Qed.

  Definition tries {A} (m : attempt heap A) (h : heap) (n : nat) (good : nat -> made heap A) (bad : heap -> Prop) : Prop :=
    forall k, (n <= k -> m h k = good (k - n)) /\ (k < n -> exists h1, m h k = Lost h1 /\ bad h1).
  Definition good_try us : Prop := forall s h m ms l, descs us s (m :: ms) l -> src h m -> rsize m <= F ->
    exists a h' c', result (chain us) s h = Ok (Some a, h') /\ croot c' = Some a /\ image m c' /\ built h h' c' /\
      tries (result_try (chain us) s) h (rsize m) (Made (Some a) h') (lost late h).
  Definition sizes (ms : list tree) : nat := list_sum (map rsize ms).
  Definition good_attach_try us : Prop := forall s h0 h c x ms1 ms l a, descs us s ms l -> src h0 (Rose x (ms1 ++ ms)) ->
    rsize (Rose x (ms1 ++ ms)) <= F -> image (Rose x ms1) c -> croot c = Some a -> built h0 h c ->
    exists h' c', attach (chain us) s a h = Ok h' /\ image (Rose x (ms1 ++ ms)) c' /\ croot c' = Some a /\ built h0 h' c' /\
      tries (attach_try (chain us) s a) h (sizes ms) (Made () h') (fun h1 => exists hc cc, croot cc = Some a /\ built h0 hc cc /\
        lost late hc h1 /\ length (caddrs cc) < rsize (Rose x (ms1 ++ ms))).

  Lemma clone_try_ok cs s h x ms l : good_attach_try cs -> descs cs (ms_first s) ms l -> src h (Rose x ms) -> rsize (Rose x ms) <= F ->
    ms_matched s = Some (fst x) ->
    exists a h' c', clone (chain cs) s h = Ok (Some a, h') /\
      croot c' = Some a /\ image (Rose x ms) c' /\ built h h' c' /\
      tries (clone_try (chain cs) s) h (rsize (Rose x ms)) (Made (Some a) h') (lost late h).
  Proof using All.
    intros Ha Hd Hs HF Hm. unfold clone. rewrite Hm.
    pose proof (cp_val _ _ _ _ _ _ Hcp _ _ Hs) as Hv. unfold raddr in Hv. cbn in Hv. rewrite Hv. cbn [mbind res_bind].
    destruct (k_value _ _ _ _ KO h (snd x)) as (a & h0 & c & E & Hr & Hval & _ & _ & Hb). rewrite E. cbn [mbind res_bind].
    destruct (Ha (ms_first s) h h0 c x [] ms l a) as (h1 & c1 & E1 & Hi1 & Hr1 & Hb1 & Ht); auto.
    { apply (cp_one _ _ _ _ _ _ Hcp). exact Hval. }
    rewrite E1. cbn [mbind res_bind]. exists a, h1, c1. split; [reflexivity|]. split; [exact Hr1|]. split; [exact Hi1|]. split; [exact Hb1|].
    destruct (Hti h (snd x)) as [Hok (hl & El & Hl)].
    assert (Ec : forall k, clone_try (chain cs) s h k = match ti_value ti late al (snd x) h k with
      | Made a h' k' => match attach_try (chain cs) (ms_first s) a h' k' with
                        | Made _ h1 k1 => Made (Some a) h1 k1
                        | Lost h1 => match deallocate im F h1 (Some a) with Ok h2 => Lost h2 | Err e => Wrong e end
                        | Wrong e => Wrong e
                        end
      | Lost h' => Lost h' | Wrong e => Wrong e end).
    { intros k. unfold clone_try, then_, reading, give, ResultFail.holding. rewrite Hm. rewrite Hv.
      destruct (ti_value ti late al (snd x) h k) as [a0 h' k'|h'|e]; [|reflexivity..]. destruct (attach_try _ _ a0 h' k'); reflexivity. }
    intros k. rewrite Ec. change (rsize (Rose x ms)) with (S (sizes ms)). destruct k as [|k].
    { split; [lia|]. intros _. exists hl. rewrite El. auto. }
    rewrite (Hok k a h0 E). destruct (Ht k) as [H1 H2]. split; intros Hk.
    - rewrite H1 by lia. replace (S k - S (sizes ms)) with (k - sizes ms) by lia. reflexivity.
    - destruct H2 as (h2 & E2 & hc & cc & Hrc & Hbc & Hlc & Hlen); [lia|]. cbn [app] in Hlen.
      destruct (lost_back h hc h2 cc Hbc Hlc ltac:(lia)) as (h3 & E3 & Hl3). rewrite Hrc in E3.
      exists h3. split; [|exact Hl3]. rewrite E2, E3. reflexivity.
  Qed.

  Lemma result_try_ok p : forall us, p = chain us -> Forall solid us -> good_try us /\ good_attach_try us.
  Proof using All.
    induction p as [|k vm fc IHf ns IHn]; intros us Ep Hso.
    { destruct us as [|u us]; [|destruct u; discriminate]. split.
      - intros s h m ms l Hd. inversion Hd.
      - intros s h0 h c x ms1 ms l a Hd Hs _ Hi Hr Hb. inversion Hd; subst. rewrite app_nil_r in *. exists h, c.
        split; [reflexivity|]. split; [exact Hi|]. split; [exact Hr|]. split; [exact Hb|]. intros k. cbn. split; [|lia]. intros _. rewrite Nat.sub_0_r. reflexivity. }
    destruct us as [|u us]; [discriminate|]. inversion Hso as [|? ? Hu Hus]; subst.
    assert (Hns : good_attach_try us) by (apply IHn; [destruct u; injection Ep; auto|exact Hus]).
    assert (H1 : good_try (u :: us)).
    { intros s h m ms l Hd Hs HF. inversion Hd as [|? ? ? ? ? l1 l2 Hm Hin _]; subst. clear Hd.
      destruct s as [|m0 sc sn]; [discriminate|]. cbn in Hm, Hin. subst m0.
      destruct u as [vm' cs|q vm' cs|c]; cbn [build foldr] in Ep |- *; injection Ep as -> -> -> ->.
      - inversion Hin as [? ? ? x ms' ? Hdc| | |]; subst. apply solid_all in Hu. destruct (IHf cs eq_refl Hu) as [_ Ha].
        destruct (clone_try_ok cs (MS (Some (fst x)) sc sn) h x ms' _ Ha Hdc Hs HF eq_refl) as (a & h' & c' & E & Hr & Hi & Hb & Ht).
        exists a, h', c'. split; [exact E|]. split; [exact Hr|]. split; [exact Hi|]. split; [exact Hb|exact Ht].
      - apply solid_opt in Hu as [Hne Hu]. destruct (IHf cs eq_refl Hu) as [Hres Ha].
        rewrite result_opt, try_opt. inversion Hin as [|? ? ? ? x ms' ? Hdc Hroots|? ? c0 ? ? ? Hdc|]; subst.
        + rewrite (stolen_none F im al like cs sc ms' _ _ h Hdc) by (eexists; split; [reflexivity|exact Hroots]).
          rewrite (stolen_try_none cs sc ms' _ _ Hdc) by (eexists; split; [reflexivity|exact Hroots]).
          destruct (clone_try_ok cs (MS (Some (fst x)) sc sn) h x ms' _ Ha Hdc Hs HF eq_refl) as (a & h' & c' & E & Hr & Hi & Hb & Ht).
          exists a, h', c'. split; [destruct (child_may_steal (chain cs)); exact E|]. split; [exact Hr|]. split; [exact Hi|]. split; [exact Hb|].
          destruct (child_may_steal (chain cs)); exact Ht.
        + destruct (Hres sc h m [] _ Hdc Hs HF) as (a & h' & c' & E & Hr & Hi & Hb & Ht).
          exists a, h', c'. rewrite (steal_solid [c0] Hu).
          assert (Hmc : ms_matched sc = Some (raddr m)) by (inversion Hdc; subst; assumption).
          destruct (build_cons c0 PNil) as (k0 & vm0 & fc0 & Eb). cbn [foldr] in E, Ht |- *. rewrite Eb in E, Ht |- *.
          cbn [stolen stolen_try length Nat.leb]. rewrite Hmc. cbn [ms_matched]. rewrite ptr_eqb_true, E. cbn [mbind res_bind].
          assert (Hdn : forall h, deallocate im F h None = Ok h) by (intros; destruct F; [pose proof (rsize_pos m); lia|reflexivity]).
          rewrite Hdn. cbn [mbind res_bind]. split; [reflexivity|]. split; [exact Hr|]. split; [exact Hi|]. split; [exact Hb|].
          intros k. destruct (Ht k) as [H1 H2]. unfold then_, writing, give, ResultFail.holding. split; intros Hk.
          * rewrite H1 by exact Hk. rewrite Hdn. reflexivity.
          * destruct (H2 Hk) as (h1 & E1 & Hl). exists h1. rewrite E1, Hdn. auto.
      - inversion Hin as [| | |? ? ? l' Hdc]; subst. destruct (IHf [c] eq_refl (List.Forall_cons _ c [] Hu (List.Forall_nil _))) as [Hres _].
        exact (Hres sc h m [] _ Hdc Hs HF). }
    split; [exact H1|]. rename u into pu.
    intros s h0 h c x ms1 ms l a Hd Hs HF Hi Hr Hb.
    inversion Hd as [|? ? ? m ms' l1 l2 Hm Hin Hdn]; subst.
    assert (Hsz : rsize (Rose x ms1) + rsize m + sizes ms' = rsize (Rose x (ms1 ++ m :: ms'))).
    { unfold sizes. rewrite !rsize_node, map_app, list_sum_app'. change (list_sum (map rsize (m :: ms'))) with (rsize m + list_sum (map rsize ms')). lia. }
    destruct (build_cons pu (chain us)) as (k0 & vm0 & fc0 & Eb). cbn [foldr]. rewrite Eb. cbn [MatchResult.attach attach_try]. rewrite Hm, <- Eb.
    assert (Hsh : src h (Rose x (ms1 ++ m :: ms'))) by (eapply (cp_ext _ _ _ _ _ _ Hcp); [eapply built_sub, Hb|exact Hs]).
    destruct (H1 s h m ms' _ Hd) as (b & h1 & u & E & Hru & Hiu & Hbu & Htu); [eapply (cp_child _ _ _ _ _ _ Hcp); [exact Hsh|set_solver +]|lia|].
    cbn [foldr] in E, Htu. rewrite E. cbn [mbind res_bind].
    pose proof (built_sub _ _ _ _ Hbu) as Hsub1. pose proof (built_sub _ _ _ _ Hb) as Hsub0.
    assert (Hb' := Hb). destruct Hbu as (Hcu & Hnu & Hfu). destruct Hb as (Hc & Hn & Hf).
    assert (Hdis : forall z, z ∈ caddrs u -> z ∉ caddrs c).
    { intros z Hz Hzc. destruct (k_dom _ _ _ _ KO _ _ _ Hc Hzc) as [y Hy]. rewrite (Hnu z Hz) in Hy. discriminate. }
    pose proof (rsize_pos m) as Hpm. pose proof (cp_size _ _ _ _ _ _ Hcp _ _ Hi) as Hlc.
    destruct (cp_add _ _ _ _ _ _ Hcp h1 x ms1 m ms' c u a b) as (h2 & c2 & E2 & Hi2 & Hc2 & Hr2 & Hperm & Hf2); auto.
    { eapply (cp_ext _ _ _ _ _ _ Hcp); [exact Hsub1|exact Hsh]. }
    { eapply (k_ext _ _ _ _ KO); [|exact Hc]. intros z Hz. apply Hfu. intros Hzu. exact (Hdis z Hzu Hz). }
    { lia. }
    rewrite E2. cbn [mbind res_bind].
    destruct (Hns (ms_next s) h0 h2 c2 x (ms1 ++ [m]) ms' l2 a) as (h3 & c3 & E3 & Hi3 & Hr3 & Hb3 & Ht3); auto.
    - rewrite <- app_assoc. exact Hs.
    - rewrite <- app_assoc. exact HF.
    - split; [exact Hc2|]. split.
      + intros z. rewrite Hperm, elem_of_app. intros [Hz|Hz]; [apply Hn, Hz|].
        destruct (h0 !! z) as [y|] eqn:Ey; [|reflexivity]. apply (lookup_weaken _ _ _ _ Ey) in Hsub0. rewrite (Hnu z Hz) in Hsub0. discriminate.
      + intros z Hz. rewrite Hperm, elem_of_app in Hz. rewrite Hf2, Hfu, Hf by tauto. reflexivity.
    - rewrite <- app_assoc in Hi3, Ht3. cbn [app] in Hi3, Ht3. exists h3, c3. split; [exact E3|]. split; [exact Hi3|]. split; [exact Hr3|]. split; [exact Hb3|].
      intros n. change (sizes (m :: ms')) with (rsize m + sizes ms'). destruct (Htu n) as [G1 G2]. split; intros Hk.
      + unfold then_, writing. rewrite G1 by lia. rewrite E2. rewrite (proj1 (Ht3 _)) by lia. f_equal. lia.
      + destruct (decide (rsize m <= n)) as [Hle|Hlt].
        * unfold then_, writing. rewrite G1 by lia. rewrite E2. apply (proj2 (Ht3 _)). lia.
        * destruct G2 as (h4 & E4 & Hl4); [lia|]. unfold then_. rewrite E4. exists h4. split; [reflexivity|]. exists h, c. repeat split; auto; try apply Hb'.
          rewrite Hlc. lia.
  Qed.
End Facts.

Lemma nary_value_try {V} `{EV : EqDecision V} (al : allocator (nnode V)) late h v :
  (forall k a h', ni_from_value (nary_impl V) al h v = Ok (a, h') -> ti_value (nary_try V) late al v h (S k) = Made a h' k) /\
  exists h', ti_value (nary_try V) late al v h 0 = Lost h' /\ lost late h h'.
Proof.
  split.
  - intros k a h' E. cbn [nary_try ti_value] in *. unfold n_value_try, then_, creating, writing, give. cbn [nary_impl ni_from_value] in E.
    unfold n_from_value in E. destruct (n_alloc al h v None 0 None) as [a0 h0]. cbn [fst snd] in *.
    destruct (n_manage_parent_last_child h0 a0) as [h1|]; cbn in E; [|discriminate]. injection E as -> ->. reflexivity.
  - cbn. eexists. split; [reflexivity|]. unfold lost. destruct late; [|reflexivity]. cbn. eexists _, _. split; [|reflexivity].
    apply new_addr_fresh.
Qed.
Lemma binary_value_try {V} `{EV : EqDecision V} (al : allocator (bnode V)) late h v :
  (forall k a h', ni_from_value (binary_impl V) al h v = Ok (a, h') -> ti_value (binary_try V) late al v h (S k) = Made a h' k) /\
  exists h', ti_value (binary_try V) late al v h 0 = Lost h' /\ lost late h h'.
Proof.
  split.
  - intros k a h' E. cbn in *. injection E as <- <-. reflexivity.
  - cbn. eexists. split; [reflexivity|]. unfold lost. destruct late; [|reflexivity]. cbn. eexists _, _. split; [|reflexivity].
    apply new_addr_fresh.
Qed.
