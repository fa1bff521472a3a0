(** MatchResult.v: the tree built from an occurrence. *)
From Verif Require Import Base Spec MatchSpec StructNode BinaryNode NaryNode Nav Policy Tree Rep RoseFacts NavFacts
  User World Kinds EditSpec TreeSpec TreeOps Matcher OptSpec MatchUser MatchFacts.

Section Result.
  Context {V Nd : Type}.
  Variable F : nat.
  Variable im : node_impl V Nd.
  Variable al : allocator Nd.
  Variable like : gmap addr Nd -> ptr -> ptr -> ptr -> res (gmap addr Nd).
  Variable K : kind_data V Nd.
  Hypothesis KO : kind_ok F im al K.
  Notation heap := (gmap addr Nd).
  Notation tree := (rose (addr * V)).
  Notation croot := (croot K).
  Notation caddrs := (caddrs K).
  Notation crep := (crep K).
  Notation built := (built caddrs crep).
  Notation result := (result F im al like).

  (** [src h m]: the nodes of [m] can be read in [h]; [image m c]: [c] is a copy. *)
  Variable src : heap -> tree -> Prop.
  Variable image : tree -> C K -> Prop.
  Hypothesis src_val : forall h m, src h m -> ni_value im h (Some (raddr m)) = Ok (snd (label m)).
  Hypothesis src_child : forall h x ms m, src h (Rose x ms) -> m ∈ ms -> src h m.
  Hypothesis src_ext : forall h h' m, h ⊆ h' -> src h m -> src h' m.
  Hypothesis image_size : forall m c, image m c -> length (caddrs c) = rsize m.
  Hypothesis image_one : forall x c, cvals K c = lit_vals K (LNode (snd x) []) -> image (Rose x []) c.
  Hypothesis image_add : forall h x ms m rest c u a b, image (Rose x ms) c -> image m u -> src h (Rose x (ms ++ m :: rest)) ->
    crep h c -> crep h u -> (forall z, z ∈ caddrs u -> z ∉ caddrs c) -> croot c = Some a -> croot u = Some b ->
    length (caddrs c) <= F ->
    exists h' c', like h (Some a) (Some b) (Some (raddr m)) = Ok h' /\ image (Rose x (ms ++ [m])) c' /\ crep h' c' /\
      croot c' = Some a /\ Permutation (caddrs c') (caddrs c ++ caddrs u) /\
      (forall z, z ∉ caddrs c -> z ∉ caddrs u -> h' !! z = h !! z).

  Fixpoint attach (c : pat V) (sc : mstate) (a : addr) (h : heap) : res heap :=
    match c with
    | PNil => Ok h
    | PN _ _ _ cn =>
        h1 ← (match ms_matched sc with
              | None => Ok h
              | Some _ => '(x, h') ← result c sc h; like h' (Some a) x (ms_matched sc)
              end);
        attach cn (ms_next sc) a h1
    end.
  Lemma result_one vm fc ns m sc sn h : result (PN MOne vm fc ns) (MS (Some m) sc sn) h =
    (v ← ni_value im h (Some m); '(a, h0) ← ni_from_value im al h v; h1 ← attach fc sc a h0; Ok (Some a, h1)).
  Proof. reflexivity. Qed.
  (** The same for [opt]. *)
  Section Stolen.
    Variable s : mstate.
    Fixpoint stolen (c : pat V) (sc : mstate) (found : bool) (acc : ptr) (h : heap) : res (bool * ptr * heap) :=
      match c with
      | PNil => Ok (found, acc, h)
      | PN _ _ _ cn =>
          if ptr_eqb (ms_matched sc) (ms_matched s)
          then '(x, h1) ← result c sc h;
               h2 ← deallocate im F h1 acc;
               stolen cn (ms_next sc) true x h2
          else stolen cn (ms_next sc) found acc h
      end.
  End Stolen.
  Lemma result_opt q vm fc ns m sc sn h : result (PN (MOpt q) vm fc ns) (MS (Some m) sc sn) h =
    ('(b, x, h1) ← (if child_may_steal fc then stolen (MS (Some m) sc sn) fc sc false None h else Ok (false, None, h));
     if b : bool then Ok (x, h1)
     else v ← ni_value im h1 (Some m); '(a, h0) ← ni_from_value im al h1 v; h1 ← attach fc sc a h0; Ok (Some a, h1)).
  Proof. reflexivity. Qed.
  Lemma build_cons (u : upat V) ns : exists k vm fc, build u ns = PN k vm fc ns.
  Proof. destruct u; cbn; eauto. Qed.
  Lemma stolen_none cs sc ms l s h : descs cs sc ms l -> (exists a, ms_matched s = Some a /\ Forall (fun m => raddr m <> a) ms) ->
    stolen s (chain cs) sc false None h = Ok (false, None, h).
  Proof.
    intros Hd (a & Ha & Hf). revert sc ms l Hd Hf. induction cs as [|c cs IH]; intros sc ms l Hd Hf; [reflexivity|].
    inversion Hd as [|? ? ? m ms' ? ? Hm _ Hd']; subst. inversion Hf; subst.
    destruct (build_cons c (chain cs)) as (k0 & vm0 & fc0 & Eb). cbn [foldr]. rewrite Eb. cbn [stolen]. rewrite Hm, Ha, ptr_eqb_false by congruence.
    eapply IH; eassumption.
  Qed.
  Lemma built_sub h h' c : built h h' c -> h ⊆ h'.
  Proof.
    intros (_ & Hn & Hs). apply map_subseteq_spec. intros i x Hi. rewrite Hs; [exact Hi|]. intros Hin.
    rewrite (Hn i Hin) in Hi. discriminate.
  Qed.

  Definition good_result us : Prop := forall s h m ms l, descs us s (m :: ms) l -> src h m -> rsize m <= F ->
    exists a h' c', result (chain us) s h = Ok (Some a, h') /\ croot c' = Some a /\ image m c' /\ built h h' c'.
  Definition good_attach us : Prop := forall s h0 h c x ms1 ms l a, descs us s ms l -> src h0 (Rose x (ms1 ++ ms)) ->
    rsize (Rose x (ms1 ++ ms)) <= F -> image (Rose x ms1) c -> croot c = Some a -> built h0 h c ->
    exists h' c', attach (chain us) s a h = Ok h' /\ image (Rose x (ms1 ++ ms)) c' /\ croot c' = Some a /\ built h0 h' c'.

  Lemma rsize_node {A} (x : A) cs : rsize (Rose x cs) = S (list_sum (map rsize cs)).
  Proof. reflexivity. Qed.

  Lemma clone_ok cs s h x ms l : good_attach cs -> descs cs (ms_first s) ms l -> src h (Rose x ms) -> rsize (Rose x ms) <= F ->
    ms_matched s = Some (fst x) ->
    exists a h' c', (v ← ni_value im h (ms_matched s); '(a, h0) ← ni_from_value im al h v; h1 ← attach (chain cs) (ms_first s) a h0; Ok (Some a, h1)) = Ok (Some a, h') /\
      croot c' = Some a /\ image (Rose x ms) c' /\ built h h' c'.
  Proof using All.
    intros Ha Hd Hs HF Hm. rewrite Hm.
    pose proof (src_val _ _ Hs) as Hv. unfold raddr in Hv. cbn in Hv. rewrite Hv. cbn [mbind res_bind].
    destruct (k_value _ _ _ _ KO h (snd x)) as (a & h0 & c & E & Hr & Hval & _ & _ & Hb). rewrite E. cbn [mbind res_bind].
    destruct (Ha (ms_first s) h h0 c x [] ms l a) as (h1 & c1 & E1 & Hi1 & Hr1 & Hb1); auto.
    rewrite E1. cbn [mbind res_bind]. exists a, h1, c1. auto.
  Qed.

  Lemma result_ok p : forall us, p = chain us -> Forall solid us -> good_result us /\ good_attach us.
  Proof using All.
    induction p as [|k vm fc IHf ns IHn]; intros us Ep Hso.
    { destruct us as [|u us]; [|destruct u; discriminate]. split.
      - intros s h m ms l Hd. inversion Hd.
      - intros s h0 h c x ms1 ms l a Hd Hs _ Hi Hr Hb. inversion Hd; subst. rewrite app_nil_r in *. exists h, c. auto. }
    destruct us as [|u us]; [discriminate|]. inversion Hso as [|? ? Hu Hus]; subst.
    assert (Hns : good_attach us) by (apply IHn; [destruct u; injection Ep; auto|exact Hus]).
    assert (H1 : good_result (u :: us)).
    { intros s h m ms l Hd Hs HF. inversion Hd as [|? ? ? ? ? l1 l2 Hm Hin _]; subst. clear Hd.
      destruct s as [|m0 sc sn]; [discriminate|]. cbn in Hm, Hin. subst m0.
      destruct u as [vm' cs|q vm' cs|c]; cbn [build foldr] in Ep |- *; injection Ep as -> -> -> ->.
      - inversion Hin as [? ? ? x ms' ? Hdc| | |]; subst. apply solid_all in Hu. destruct (IHf cs eq_refl Hu) as [_ Ha].
        destruct (clone_ok cs (MS (Some (fst x)) sc sn) h x ms' _ Ha Hdc Hs HF eq_refl) as (a & h' & c' & E & Hr & Hi & Hb).
        exists a, h', c'. split; [|auto]. exact E.
      - apply solid_opt in Hu as [Hne Hu]. destruct (IHf cs eq_refl Hu) as [Hres Ha].
        rewrite result_opt. inversion Hin as [|? ? ? ? x ms' ? Hdc Hroots|? ? c0 ? ? ? Hdc|]; subst.
        + rewrite (stolen_none cs sc ms' _ _ h Hdc) by (eexists; split; [reflexivity|exact Hroots]).
          destruct (clone_ok cs (MS (Some (fst x)) sc sn) h x ms' _ Ha Hdc Hs HF eq_refl) as (a & h' & c' & E & Hr & Hi & Hb).
          exists a, h', c'. split; [|auto]. destruct (child_may_steal (chain cs)); exact E.
        + destruct (Hres sc h m [] _ Hdc Hs HF) as (a & h' & c' & E & Hr & Hi & Hb).
          exists a, h', c'. split; [|auto]. rewrite (steal_solid [c0] Hu).
          assert (Hmc : ms_matched sc = Some (raddr m)) by (inversion Hdc; subst; assumption).
          destruct (build_cons c0 PNil) as (k0 & vm0 & fc0 & Eb). cbn [foldr] in E |- *. rewrite Eb in E |- *.
          cbn [stolen length Nat.leb]. rewrite Hmc, ptr_eqb_true, E. cbn [mbind res_bind].
          destruct F as [|F']; [pose proof (rsize_pos m); lia|]. cbn [deallocate mbind res_bind]. reflexivity.
      - inversion Hin as [| | |? ? ? l' Hdc]; subst. destruct (IHf [c] eq_refl (List.Forall_cons _ c [] Hu (List.Forall_nil _))) as [Hres _].
        exact (Hres sc h m [] _ Hdc Hs HF). }
    split; [exact H1|]. rename u into pu.
    intros s h0 h c x ms1 ms l a Hd Hs HF Hi Hr Hb.
    inversion Hd as [|? ? ? m ms' l1 l2 Hm Hin Hdn]; subst.
    assert (Hsz : rsize (Rose x ms1) <= F /\ rsize m <= F).
    { rewrite rsize_node in *. rewrite map_app, list_sum_app' in HF. change (list_sum (map rsize (m :: ms'))) with (rsize m + list_sum (map rsize ms')) in HF. lia. }
    destruct (build_cons pu (chain us)) as (k0 & vm0 & fc0 & Eb). cbn [foldr]. rewrite Eb. cbn [attach]. rewrite Hm, <- Eb.
    assert (Hsh : src h (Rose x (ms1 ++ m :: ms'))) by (eapply src_ext; [eapply built_sub, Hb|exact Hs]).
    destruct (H1 s h m ms' _ Hd) as (b & h1 & u & E & Hru & Hiu & Hbu); [eapply src_child; [exact Hsh|set_solver +]|lia|].
    cbn [foldr] in E. rewrite E. cbn [mbind res_bind].
    pose proof (built_sub _ _ _ Hbu) as Hsub1. pose proof (built_sub _ _ _ Hb) as Hsub0.
    destruct Hbu as (Hcu & Hnu & Hfu). destruct Hb as (Hc & Hn & Hf).
    assert (Hdis : forall z, z ∈ caddrs u -> z ∉ caddrs c).
    { intros z Hz Hzc. destruct (k_dom _ _ _ _ KO _ _ _ Hc Hzc) as [y Hy]. rewrite (Hnu z Hz) in Hy. discriminate. }
    destruct (image_add h1 x ms1 m ms' c u a b) as (h2 & c2 & E2 & Hi2 & Hc2 & Hr2 & Hperm & Hf2); auto.
    { eapply src_ext; [exact Hsub1|exact Hsh]. }
    { eapply (k_ext _ _ _ _ KO); [|exact Hc]. intros z Hz. apply Hfu. intros Hzu. exact (Hdis z Hzu Hz). }
    { rewrite (image_size _ _ Hi). lia. }
    rewrite E2. cbn [mbind res_bind].
    destruct (Hns (ms_next s) h0 h2 c2 x (ms1 ++ [m]) ms' l2 a) as (h3 & c3 & E3 & Hi3 & Hr3 & Hb3); auto.
    - rewrite <- app_assoc. exact Hs.
    - rewrite <- app_assoc. exact HF.
    - split; [exact Hc2|]. split.
      + intros z. rewrite Hperm, elem_of_app. intros [Hz|Hz]; [apply Hn, Hz|].
        destruct (h0 !! z) as [y|] eqn:Ey; [|reflexivity]. apply (lookup_weaken _ _ _ _ Ey) in Hsub0. rewrite (Hnu z Hz) in Hsub0. discriminate.
      + intros z Hz. rewrite Hperm, elem_of_app in Hz. rewrite Hf2, Hfu, Hf by tauto. reflexivity.
    - exists h3, c3. rewrite <- app_assoc in Hi3. auto.
  Qed.
End Result.

(** What a kind of trees provides. *)
Section Copies.
  Context {V Nd : Type}.
  Variable F : nat.
  Variable im : node_impl V Nd.
  Variable like : gmap addr Nd -> ptr -> ptr -> ptr -> res (gmap addr Nd).
  Variable K : kind_data V Nd.
  Variable src : gmap addr Nd -> rose (addr * V) -> Prop.
  Variable image : rose (addr * V) -> C K -> Prop.
  Definition can_add : Prop := forall h x ms m rest c u a b, image (Rose x ms) c -> image m u -> src h (Rose x (ms ++ m :: rest)) ->
    crep K h c -> crep K h u -> (forall z, z ∈ caddrs K u -> z ∉ caddrs K c) -> croot K c = Some a -> croot K u = Some b ->
    length (caddrs K c) <= F ->
    exists h' c', like h (Some a) (Some b) (Some (raddr m)) = Ok h' /\ image (Rose x (ms ++ [m])) c' /\ crep K h' c' /\
      croot K c' = Some a /\ Permutation (caddrs K c') (caddrs K c ++ caddrs K u) /\
      (forall z, z ∉ caddrs K c -> z ∉ caddrs K u -> h' !! z = h !! z).
  Record copies : Prop := Copies {
    cp_val : forall h m, src h m -> ni_value im h (Some (raddr m)) = Ok (snd (label m));
    cp_child : forall h x ms m, src h (Rose x ms) -> m ∈ ms -> src h m;
    cp_ext : forall h h' m, h ⊆ h' -> src h m -> src h' m;
    cp_size : forall m c, image m c -> length (caddrs K c) = rsize m;
    cp_one : forall x c, cvals K c = lit_vals K (LNode (snd x) []) -> image (Rose x []) c;
    cp_add : can_add
  }.
End Copies.
