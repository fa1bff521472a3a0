(** StarAlone.v: the tree a [star] without children reports. *)
From Verif Require Import Base Spec StructNode BinaryNode NaryNode Nav Policy Tree Rep RoseFacts NavFacts NaryRep EditSpec
  World Kinds TreeSpec TreeOps Matcher MatchResult GenFacts GenInv Gen GenRun Star.

Section Keep.
  Context {V Nd : Type}.
  Variable F : nat.
  Variable im : node_impl V Nd.
  Variable al : allocator Nd.
  Variable like : gmap addr Nd -> ptr -> ptr -> ptr -> res (gmap addr Nd).
  Variable K : kind_data V Nd.
  Hypothesis KO : kind_ok F im al K.
  Notation heap := (gmap addr Nd).
  Notation tree := (rose (addr * V)).
  Notation C := (C K).
  Notation croot := (croot K).
  Notation caddrs := (caddrs K).
  Notation crep := (crep K).
  Notation built := (built caddrs crep).
  Notation gl := (addr * (addr * (V + C)))%type.
  Variable tg : tree.
  Hypothesis tg_F : rsize tg < F.
  Notation placed := (placed K tg).
  Variable src : heap -> Prop.
  Hypothesis src_ext : forall h h', h ⊆ h' -> src h -> src h'.
  Hypothesis src_ops : forall h, src h -> ops_ok (ni_ops im h) (rose_map fst tg).
  Hypothesis src_val : forall h x, src h -> x ∈ preorder tg -> ni_value im h (Some (fst x)) = Ok (snd x).
  Variable image : rose gl -> C.
  Hypothesis img_leaf : forall c a m v, croot c = Some a -> cvals K c = lit_vals K (LNode v []) -> image (Rose (a, (m, inl v)) []) = c.
  Hypothesis img_like : forall h cx x ts s, src h -> placed (plug cx (Rose x (ts ++ [s]))) -> pl_use (snd (snd x)) = false -> children s = [] ->
    crep h (image (plug cx (Rose x ts))) -> crep h (image s) -> (forall z, z ∈ caddrs (image s) -> z ∉ caddrs (image (plug cx (Rose x ts)))) ->
    croot (image s) = Some (rkey s) -> length ts < F ->
    exists h', like h (Some (fst x)) (Some (rkey s)) (Some (rmain s)) = Ok h' /\ crep h' (image (plug cx (Rose x (ts ++ [s])))) /\
      Permutation (caddrs (image (plug cx (Rose x (ts ++ [s]))))) (caddrs (image (plug cx (Rose x ts))) ++ caddrs (image s)) /\
      (forall z, z ∉ caddrs (image (plug cx (Rose x ts))) -> z ∉ caddrs (image s) -> h' !! z = h !! z).
  Variable h0 : heap.
  Hypothesis h0_src : src h0.
  Variable vm : V -> bool.

  Definition inv (h : heap) (T : rose gl) : Prop := placed T /\ built h0 h (image T).
  Definition bad (ts : list tree) : Prop := exists x, x ∈ flat_map preorder ts /\ vm (snd x) = false.
  Definition lift (t : tree) : rose (addr * (V + C)) := rose_map (fun x => (fst x, inl (snd x))) t.
  Notation fsize ts := (list_sum (map rsize ts)).

  Lemma placed_plug (cx : ctx gl) : forall s s', placed (plug cx s) -> rmain s' = rmain s -> placed s' -> placed (plug cx s').
  Proof.
    induction cx as [|[[ls a] rs] cx IH]; intros s s' H E Hs; [exact Hs|]. cbn [plug] in *. eapply IH; [exact H|reflexivity|].
    assert (Hp : placed (Rose a (ls ++ s :: rs))).
    { clear -H. revert H. generalize (Rose a (ls ++ s :: rs)). induction cx as [|[[ls' a'] rs'] cx IH]; intros t H; [exact H|]. cbn in H. apply IH, placed_unfold in H as [_ H].
      apply Forall_app in H as [_ H]. inversion H. assumption. }
    apply placed_unfold in Hp as [[(kids & Hk & Hsl) Hu] Hf]. apply placed_unfold. split.
    - split; [exists kids; split; [exact Hk|]; rewrite map_app in *; cbn [map] in *; rewrite E; exact Hsl|].
      destruct (snd (snd a)) as [v|u]; [exact I|]. destruct Hu as [Hu _]. destruct ls; discriminate.
    - rewrite Forall_app in *. destruct Hf as [Hf1 Hf2]. split; [exact Hf1|]. inversion Hf2; subst. constructor; assumption.
  Qed.
  Lemma child_size c y (ls : list tree) t ts : plug c (Rose y (ls ++ t :: ts)) = tg -> length ls < F.
  Proof.
    intros E. pose proof (ctx_length_size c (Rose y (ls ++ t :: ts))) as H. rewrite E in H.
    assert (length ls <= fsize (ls ++ t :: ts)).
    { clear. induction ls as [|l ls IH]; [cbn; lia|]. cbn [app length]. change (fsize (l :: (ls ++ t :: ts))) with (rsize l + fsize (ls ++ t :: ts)). pose proof (rsize_pos l). lia. }
    change (rsize (Rose y (ls ++ t :: ts))) with (S (fsize (ls ++ t :: ts))) in H. lia.
  Qed.

  Lemma keep_ok n : forall ts h cx g m v gs ct ls, plug ct (Rose (m, v) (ls ++ ts)) = tg -> map rmain gs = map raddr ls ->
    inv h (plug cx (Rose (g, (m, inl v)) gs)) ->
    (keep_assigning im al like n vm (Some g) (first_addr ts) h = Err OutOfFuel /\ (bad ts \/ n <= fsize ts)) \/
    (exists h' gs', keep_assigning im al like n vm (Some g) (first_addr ts) h = Ok h' /\ inv h' (plug cx (Rose (g, (m, inl v)) (gs ++ gs'))) /\
       map (rose_map snd) gs' = map lift ts /\ ~ bad ts).
  Proof using All.
    induction n as [|n IH]; intros ts h cx g m v gs ct ls Ht Hgs Hi; [left; split; [reflexivity|right; lia]|].
    destruct ts as [|t ts].
    { right. exists h, []. rewrite app_nil_r. split; [reflexivity|]. split; [exact Hi|]. split; [reflexivity|]. intros (x & Hx & _). apply elem_of_nil in Hx as []. }
    destruct t as [[m1 v1] kids]. cbn [first_addr keep_assigning raddr label fst]. change (raddr (Rose (m1, v1) kids)) with m1.
    destruct Hi as [Hp Hb]. pose proof (built_sub _ _ _ _ Hb) as Hle. pose proof (src_ext _ _ Hle h0_src) as Hs.
    set (t := Rose (m1, v1) kids) in *.
    assert (Hpos : plug ((ls, (m, v), ts) :: ct) t = tg) by exact Ht.
    assert (Hin : (m1, v1) ∈ preorder tg) by (rewrite <- Hpos; apply (position_elem ((ls, (m, v), ts) :: ct) t)).
    pose proof (src_val h (m1, v1) Hs Hin) as Hval. cbn [fst snd] in Hval. rewrite Hval. cbn [mbind res_bind].
    assert (Hfs : fsize (t :: ts) = S (fsize kids) + fsize ts) by reflexivity.
    destruct (vm v1) eqn:Evm; cbn [negb].
    2: { destruct (IH (t :: ts) h cx g m v gs ct ls Ht Hgs (conj Hp Hb)) as [[E [Hbad|Hn]]|(h' & gs' & E & _ & _ & Hnb)].
         - left. split; [exact E|]. left. exact Hbad.
         - left. split; [exact E|]. left. exists (m1, v1). split; [|exact Evm]. cbn. left.
         - destruct Hnb. exists (m1, v1). split; [|exact Evm]. cbn. left. }
    destruct (k_value _ _ _ _ KO h v1) as (a & h1 & c & E & Hr & Hv & _ & _ & Hb1). rewrite E. cbn [mbind res_bind].
    set (s := Rose (a, (m1, inl v1)) [] : rose gl). pose proof (img_leaf c a m1 v1 Hr Hv) as Hc. fold s in Hc.
    assert (Hle1 : h ⊆ h1) by (eapply built_sub, Hb1). pose proof (src_ext _ _ Hle1 Hs) as Hs1.
    assert (Hdis : forall z, z ∈ caddrs (image s) -> z ∉ caddrs (image (plug cx (Rose (g, (m, inl v)) gs)))).
    { rewrite Hc. intros z Hz Hzc. destruct (k_dom _ _ _ _ KO _ _ _ (proj1 Hb) Hzc) as [y Hy]. rewrite (proj1 (proj2 Hb1) z Hz) in Hy. discriminate. }
    assert (Hrep1 : crep h1 (image (plug cx (Rose (g, (m, inl v)) gs)))).
    { eapply (k_ext _ _ _ _ KO); [|apply Hb]. intros z Hz. destruct (k_dom _ _ _ _ KO _ _ _ (proj1 Hb) Hz) as [y Hy]. rewrite Hy. eapply lookup_weaken; eassumption. }
    assert (Htat : tat tg m (ls ++ t :: ts)) by (exists ct, v; exact Ht).
    assert (Hps : placed s).
    { apply placed_unfold. split; [|constructor]. split; [|exact I]. exists kids. split; [|apply sublist_nil_l]. exists ((ls, (m, v), ts) :: ct), v1. exact Hpos. }
    assert (Hpl : placed (plug cx (Rose (g, (m, inl v)) (gs ++ [s])))).
    { eapply placed_plug; [exact Hp|reflexivity|].
      assert (Hp0 : placed (Rose (g, (m, inl v)) gs)).
      { clear -Hp. revert Hp. generalize (Rose (g, (m, inl v)) gs : rose gl). induction cx as [|[[ls' a'] rs'] cx IH]; intros t H; [exact H|]. cbn in H. apply IH, placed_unfold in H as [_ H].
        apply Forall_app in H as [_ H]. inversion H. assumption. }
      apply placed_unfold in Hp0 as [_ Hf]. apply placed_unfold. split; [|apply Forall_app; split; [exact Hf|constructor; [exact Hps|constructor]]].
      split; [|exact I]. exists (ls ++ t :: ts). split; [exact Htat|]. rewrite !map_app, Hgs. cbn [map]. apply sublist_app; [reflexivity|]. apply sublist_skip, sublist_nil_l. }
    assert (Hlen : length gs < F).
    { pose proof (child_size _ _ _ _ _ Ht) as H. apply (f_equal length) in Hgs. rewrite !map_length in Hgs. lia. }
    destruct (img_like h1 cx (g, (m, inl v)) gs s Hs1 Hpl eq_refl eq_refl Hrep1) as (h2 & E2 & Hrep2 & Hperm & Hf2); auto.
    { rewrite Hc. apply Hb1. } { rewrite Hc. exact Hr. }
    change (Some (fst (g, (m, inl v)))) with (Some g) in E2. change (rkey s) with a in E2. change (rmain s) with m1 in E2.
    cbn [fst] in E2. rewrite E2. cbn [mbind res_bind].
    assert (Hb2 : built h0 h2 (image (plug cx (Rose (g, (m, inl v)) (gs ++ [s]))))).
    { split; [exact Hrep2|]. rewrite Hc in *. destruct Hb as (_ & Hn & Hf), Hb1 as (_ & Hn1 & Hf1). split.
      - intros z. rewrite Hperm, elem_of_app. intros [Hz|Hz]; [apply Hn, Hz|].
        destruct (h0 !! z) as [y|] eqn:Ey; [|reflexivity]. apply (lookup_weaken _ _ _ _ Ey) in Hle. rewrite (Hn1 z Hz) in Hle. discriminate.
      - intros z Hz. rewrite Hperm, elem_of_app in Hz. rewrite Hf2, Hf1, Hf by tauto. reflexivity. }
    pose proof (src_ext _ _ (built_sub _ _ _ _ Hb2) h0_src) as Hs2.
    pose proof (t_first im tg src src_ops h2 _ _ Hs2 Hpos) as Efc. change (raddr t) with m1 in Efc. cbn [children t] in Efc. rewrite Efc. cbn [mbind res_bind].
    destruct (IH kids h2 ((gs, (g, (m, inl v)), []) :: cx) a m1 v1 [] ((ls, (m, v), ts) :: ct) [] Hpos eq_refl (conj Hpl Hb2)) as [[E3 Hout]|(h3 & gk & E3 & Hi3 & Hgk & Hnk)].
    { left. rewrite E3. split; [reflexivity|]. destruct Hout as [(x & Hx & Hvx)|Hn]; [left|right; rewrite Hfs; lia].
      exists x. split; [|exact Hvx]. cbn. right. apply elem_of_app. left. exact Hx. }
    rewrite E3. cbn [mbind res_bind]. destruct Hi3 as [Hp3 Hb3]. cbn [app plug] in Hp3, Hb3.
    pose proof (src_ext _ _ (built_sub _ _ _ _ Hb3) h0_src) as Hs3.
    pose proof (t_next im tg src src_ops h3 _ _ _ _ _ Hs3 Hpos) as Enx. change (raddr t) with m1 in Enx. rewrite Enx. cbn [mbind res_bind].
    destruct (IH ts h3 cx g m v (gs ++ [Rose (a, (m1, inl v1)) gk]) ct (ls ++ [t])) as [[E4 Hout]|(h4 & gs' & E4 & Hi4 & Hgs' & Hns)].
    { rewrite <- app_assoc. exact Ht. } { rewrite !map_app, Hgs. reflexivity. } { split; assumption. }
    - left. rewrite E4. split; [reflexivity|]. destruct Hout as [(x & Hx & Hvx)|Hn]; [left|right; rewrite Hfs; lia].
      exists x. split; [|exact Hvx]. cbn [flat_map]. apply elem_of_app. right. exact Hx.
    - right. exists h4, (Rose (a, (m1, inl v1)) gk :: gs'). rewrite E4. split; [reflexivity|]. rewrite <- app_assoc in Hi4. split; [exact Hi4|]. split.
      + cbn [map rose_map]. rewrite Hgs'. f_equal. unfold lift, t. cbn [rose_map fst snd]. f_equal. exact Hgk.
      + intros (x & Hx & Hvx). cbn [flat_map] in Hx. apply elem_of_app in Hx as [Hx|Hx]; [|apply Hns; exists x; auto].
        unfold t in Hx. cbn in Hx. apply elem_of_cons in Hx as [->|Hx]; [cbn in Hvx; congruence|]. apply Hnk. exists x. auto.
  Qed.

  (** The whole result. *)
  Lemma alone_ok q : q = QGreedy \/ q = QPossessive ->
    (no_children_result F im al like q vm (Some (raddr tg)) h0 = Err OutOfFuel /\ bad (children tg)) \/
    (exists a h' T, no_children_result F im al like q vm (Some (raddr tg)) h0 = Ok (Some a, h') /\ placed T /\ built h0 h' (image T) /\ rkey T = a /\
      rose_map snd T = lift tg /\ ~ bad (children tg)).
  Proof using All.
    intros Hq. assert (E0 : no_children_result F im al like q vm (Some (raddr tg)) h0 =
      (v ← ni_value im h0 (Some (raddr tg)); '(a, h1) ← ni_from_value im al h0 v; fc ← op_first (ni_ops im h1) (Some (raddr tg));
       h2 ← keep_assigning im al like F vm (Some a) fc h1; Ok (Some a, h2))) by (destruct Hq as [-> | ->]; reflexivity).
    rewrite E0. clear E0 q Hq. pose proof (src_val h0 (label tg) h0_src) as Hval. fold (raddr tg) in Hval. rewrite Hval by (destruct tg; left). cbn [mbind res_bind].
    destruct (k_value _ _ _ _ KO h0 (snd (label tg))) as (a & h1 & c & E & Hr & Hv & _ & _ & Hb1). rewrite E. cbn [mbind res_bind].
    assert (Hle1 : h0 ⊆ h1) by (eapply built_sub, Hb1). pose proof (src_ext _ _ Hle1 h0_src) as Hs1.
    rewrite (t_first im tg src src_ops h1 [] tg Hs1 eq_refl). cbn [mbind res_bind].
    pose proof (img_leaf c a (raddr tg) _ Hr Hv) as Hc.
    assert (Etg : exists m v ts, tg = Rose (m, v) ts) by (destruct tg as [[m v] ts]; eauto). destruct Etg as (m & v & ts & Etg).
    assert (Em : raddr tg = m) by (rewrite Etg; reflexivity). assert (Ev : snd (label tg) = v) by (rewrite Etg; reflexivity).
    assert (Ets : children tg = ts) by (rewrite Etg; reflexivity). rewrite Em, Ev in Hc. rewrite Ets.
    destruct (keep_ok F ts h1 [] a m v [] [] []) as [[E1 Hout]|(h2 & gs & E1 & Hi & Hgs & Hnb)]; try reflexivity.
    { symmetry. exact Etg. }
    { split; [|cbn [plug]; rewrite Hc; exact Hb1]. cbn [plug]. apply placed_unfold. split; [|constructor]. split; [|exact I].
      exists ts. split; [exists [], v; symmetry; exact Etg|apply sublist_nil_l]. }
    - left. rewrite E1. split; [reflexivity|]. destruct Hout as [Hbad|Hn]; [exact Hbad|]. rewrite Etg in tg_F. change (rsize (Rose (m, v) ts)) with (S (fsize ts)) in tg_F. lia.
    - right. destruct Hi as [Hp Hb]. exists a, h2, (Rose (a, (m, inl v)) gs). rewrite E1. split; [reflexivity|]. split; [exact Hp|]. split; [exact Hb|]. split; [reflexivity|].
      split; [|exact Hnb]. rewrite Etg. unfold lift. cbn. rewrite Hgs. reflexivity.
  Qed.
End Keep.
