(** GenNary.v: GenRun.v for n-ary trees. *)
From Verif Require Import Base Spec StructNode BinaryNode NaryNode Nav Policy Tree Rep RoseFacts NavFacts NaryRep NaryEdit EditSpec
  World Kinds TreeSpec TreeOps TreeNary IterTrees Matcher GenFacts GenInv Gen GenRun.

Section Nary.
  Context {V : Type} `{EV : EqDecision V}.
  Variable F : nat.
  Variable al : allocator (nnode V).
  Notation heap := (gmap addr (nnode V)).
  Notation tree := (rose (addr * V)).
  Notation K := (nary_kind V).
  Notation im := (nary_impl V).
  Notation C := (option tree).
  Notation gl := (addr * (addr * (V + C)))%type.
  Variable tg : tree.
  Notation placed := (placed K tg).

  (** What was generated, as a tree. *)
  Fixpoint nimg (t : rose gl) : list tree :=
    match t with
    | Rose x ts => match snd (snd x) with
                   | inl v => [Rose (fst x, v) (flat_map nimg ts)]
                   | inr u => match u with Some u => [u] | None => [] end
                   end
    end.
  Definition nimage (t : rose gl) : C := head (nimg t).

  Definition one (t : rose gl) (u : tree) : Prop := nimg t = [u] /\ raddr u = rkey t.
  Lemma placed_one t : placed t -> exists u, one t u.
  Proof.
    destruct t as [[g [m [v|u]]] ts]; intros H; apply placed_unfold in H as [[_ H] _]; unfold one, rkey; cbn in *.
    - eauto.
    - destruct u as [u|]; destruct H as [_ H]; [|discriminate]. cbn in H. injection H as H. eauto.
  Qed.
  Lemma placed_sub c : forall s, placed (plug c s) -> placed s.
  Proof.
    induction c as [|[[ls a] rs] c IH]; intros s H; [exact H|]. cbn in H. apply IH in H. apply placed_unfold in H as [_ H].
    apply Forall_app in H as [_ H]. apply Forall_cons in H as [H _]. exact H.
  Qed.
  Lemma nimg_plug c : forall s, placed (plug c s) -> exists c', forall s' u, nimg s' = [u] -> nimg (plug c s') = [plug c' u].
  Proof.
    induction c as [|[[ls [g [m pl]]] rs] c IH]; intros s H; [exists []; auto|]. cbn [plug] in *.
    destruct (IH _ H) as (c' & Hc). apply placed_sub in H. apply placed_unfold in H as [[_ H] _]. cbn in H.
    destruct pl as [v|u]; [|destruct H as [H _]; destruct ls; discriminate].
    exists ((flat_map nimg ls, (g, v), flat_map nimg rs) :: c'). intros s' u Hs. cbn [plug]. apply Hc. cbn. rewrite flat_map_app. cbn. rewrite Hs. reflexivity.
  Qed.
  Lemma onary_head h (l : list tree) u : l = [u] -> onary_at h (head l) -> nary_at h u.
  Proof. intros -> H. exact H. Qed.
  Lemma keys_nimg t g : placed t -> g ∈ keys t -> g ∈ flat_map raddrs (nimg t).
  Proof.
    induction t as [[a [m pl]] ts IH] using rose_ind'. intros Hp Hg. apply placed_unfold in Hp as [[_ Hn] Hp]. rewrite keys_rose in Hg. cbn [fst snd placed_node] in *.
    destruct pl as [v|u].
    - change (flat_map raddrs (nimg (Rose (a, (m, inl v)) ts))) with (raddrs (Rose (a, v) (flat_map nimg ts)) ++ []). rewrite app_nil_r, raddrs_rose. apply elem_of_cons in Hg as [->|Hg]; [left|right]. apply elem_of_flat_map in Hg as (t & Ht & Hg).
      rewrite Forall_forall in IH, Hp. specialize (IH t Ht (Hp t Ht) Hg). apply elem_of_flat_map in IH as (u & Hu & Hgu).
      apply elem_of_flat_map. exists u. split; [|exact Hgu]. apply elem_of_flat_map. eauto.
    - destruct Hn as [-> Hr]. cbn in Hg. apply elem_of_list_singleton in Hg. subst g. destruct u as [u|]; [|discriminate]. cbn in Hr. injection Hr as <-.
      cbn. rewrite app_nil_r. apply raddr_in.
  Qed.
  Lemma uses_nimg t g m (u : C) z : placed t -> (g, (m, inr u)) ∈ preorder t -> z ∈ naddrs u -> z ∈ flat_map raddrs (nimg t).
  Proof.
    induction t as [[a [m' pl]] ts IH] using rose_ind'. intros Hp Hg Hz. apply placed_unfold in Hp as [[_ Hn] Hp]. cbn [fst snd placed_node] in *.
    cbn [preorder] in Hg. destruct pl as [v|u'].
    - change (flat_map raddrs (nimg (Rose (a, (m', inl v)) ts))) with (raddrs (Rose (a, v) (flat_map nimg ts)) ++ []). rewrite app_nil_r, raddrs_rose.
      apply elem_of_cons in Hg as [[=]|Hg]. right. apply elem_of_flat_map in Hg as (t & Ht & Hg).
      rewrite Forall_forall in IH, Hp. specialize (IH t Ht (Hp t Ht) Hg Hz). apply elem_of_flat_map in IH as (w & Hw & Hgw).
      apply elem_of_flat_map. exists w. split; [|exact Hgw]. apply elem_of_flat_map. eauto.
    - destruct Hn as [-> Hr]. cbn in Hg. apply elem_of_list_singleton in Hg. injection Hg as -> -> <-. destruct u as [u|]; [|apply elem_of_nil in Hz as []].
      cbn. rewrite app_nil_r. exact Hz.
  Qed.
  Lemma length_nimgs ts : length (flat_map nimg ts) <= length ts.
  Proof.
    induction ts as [|t ts IH]; [reflexivity|]. change (flat_map nimg (t :: ts)) with (nimg t ++ flat_map nimg ts). rewrite app_length. cbn [length].
    assert (length (nimg t) <= 1) by (destruct t as [[? [? [?|[?|]]]] ?]; cbn; lia). lia.
  Qed.
  Lemma nary_sub_ops (h : heap) c a v cs : nary_at h (plug c (Rose (a, v) cs)) -> ops_ok (nary_ops h) (Rose a (map nrose cs)).
  Proof. intros [H _]. apply nrep_plug in H as [_ H]. apply nrep_ops_ok in H. exact H. Qed.

  Lemma nimg_like (h : heap) (cx : ctx gl) (x : gl) ts (s : rose gl) : nary_in h tg -> placed (plug cx (Rose x (ts ++ [s]))) -> pl_use (snd (snd x)) = false -> children s = [] ->
    crep K h (nimage (plug cx (Rose x ts))) -> crep K h (nimage s) -> (forall z, z ∈ caddrs K (nimage s) -> z ∉ caddrs K (nimage (plug cx (Rose x ts)))) ->
    croot K (nimage s) = Some (rkey s) -> length ts < F ->
    exists h', n_assign_child_like F h (Some (fst x)) (Some (rkey s)) (Some (rmain s)) = Ok h' /\ crep K h' (nimage (plug cx (Rose x (ts ++ [s])))) /\
      Permutation (caddrs K (nimage (plug cx (Rose x (ts ++ [s]))))) (caddrs K (nimage (plug cx (Rose x ts))) ++ caddrs K (nimage s)) /\
      (forall z, z ∉ caddrs K (nimage (plug cx (Rose x ts))) -> z ∉ caddrs K (nimage s) -> h' !! z = h !! z).
  Proof.
    revert h cx x ts s. intros h cx [g [m pl]] ts s Hs Hpl Hin' Hch Hc Hcs Hdis Hroot Hlen. destruct pl as [v|]; [|discriminate].
    cbn [fst].
    destruct (nimg_plug cx _ Hpl) as (c' & Hcx).
    assert (Hps : placed s). { apply placed_sub in Hpl. apply placed_unfold in Hpl as [_ Hpl]. apply Forall_app in Hpl as [_ Hpl]. inversion Hpl. assumption. }
    destruct (placed_one s Hps) as (u & Hu & Hru).
    assert (E1 : nimg (plug cx (Rose (g, (m, inl v)) ts)) = [plug c' (Rose (g, v) (flat_map nimg ts))]) by (apply Hcx; reflexivity).
    assert (E2 : nimg (plug cx (Rose (g, (m, inl v)) (ts ++ [s]))) = [plug c' (Rose (g, v) (flat_map nimg ts ++ [u]))]).
    { apply Hcx. cbn. rewrite flat_map_app. cbn. rewrite Hu. reflexivity. }
    unfold nimage in *. rewrite E1, E2, Hu in *. cbn [head crep caddrs nary_kind onary_at naddrs opt_list] in *.
    destruct Hc as [Hc1 Hc2]. destruct Hcs as [Hs1 Hs2].
    destruct (n_append_ok F h c' g v (flat_map nimg ts) u Hc1 Hc2 Hs1 Hs2 Hdis) as (h' & E & Hr' & Hf).
    { assert (Hll : length (flat_map nimg ts) <= length ts).
      { apply length_nimgs. }
      lia. }
    exists h'. rewrite Hru in E. split; [exact (f_equal (fun r : res (ptr * heap) => '(_, h') ← r; Ok h') E)|].
    assert (Hperm : Permutation (raddrs (plug c' (Rose (g, v) (flat_map nimg ts ++ [u])))) (raddrs (plug c' (Rose (g, v) (flat_map nimg ts))) ++ raddrs u)).
    { rewrite !raddrs_plug, !raddrs_rose, faddrs_app, faddrs_cons. cbn. solve_Permutation. }
    split; [|split; [exact Hperm|exact Hf]]. split; [exact Hr'|]. rewrite Hperm. apply NoDup_app. split; [exact Hc2|]. split; [|exact Hs2].
    intros z Hz Hzu. exact (Hdis z Hzu Hz).
  Qed.
  Lemma nary_generate_full h0 g0 {St} (pred : St -> heap -> mptr -> res (St * mptr * bool)) apr uses flr st :
    rsize tg < F -> nary_in h0 tg -> nary_at h0 (Rose (g0, snd (label tg)) []) -> g0 ∉ raddrs tg ->
    (forall m u, uses m = Some u -> onary_at h0 u /\ nroot u <> None /\ (forall z, z ∈ naddrs u -> z ∉ raddrs tg /\ z <> g0)) ->
    (forall m m' u u' z, uses m = Some u -> uses m' = Some u' -> m <> m' -> z ∈ naddrs u -> z ∉ naddrs u') ->
    (forall st m st' u, apr st m = (st', Use u) -> uses m = Some u) ->
    (forall m u kids, uses m = Some u -> tat tg m kids -> forall st x, x ∈ kids -> exists st', apr st (raddr x) = (st', Skip)) ->
    (forall st h m q fl st' d, nary_in h tg -> m ∈ raddrs tg -> m <> raddr tg -> apr st m = (st', d) ->
      pred st h (MPtr [Some m; q] fl) = Ok (st', answer K (MPtr [Some m; q] fl) d, accepted K d)) ->
    (exists st' h' tr T, generate F im al (n_assign_child_like F) pred (MPtr [Some (raddr tg); Some g0] flr) st h0 = Ok (st', h') /\
      calls apr st tr st' /\ NoDup (map fst tr) /\ hinv K tg nimage h0 g0 uses h' T tr /\ (forall f, agree f tr -> rose_map snd T = grow f tg)) /\
    fails_well F im al (n_assign_child_like F) pred (MPtr [Some (raddr tg); Some g0] flr) st h0 apr (fun h tr => exists T, hinv K tg nimage h0 g0 uses h T tr).
  Proof.
    intros HF Hin Hg Hg0 Hu1 Hu2 Hu3 Hu4 Hpred. pose proof Hin as (par & prev & next & fs & Hrep & Hnd).
    refine (generate_full F im al (n_assign_child_like F) K (nary_ok F al) tg Hnd HF (fun h => nary_in h tg) _ _ _ _ nimage _ _ _ _ _ _ _ h0 g0 Hin _ _ _ pred apr uses _ _ Hu3 Hu4 Hpred flr st).
    - intros h h' Hext (par' & prev' & next' & fs' & Hr & Hn). exists par', prev', next', fs'. split; [|exact Hn]. eapply nrep_ext; [|exact Hr]. exact Hext.
    - intros h a (par' & prev' & next' & fs' & Hr & _) Ha. eapply nrep_dom; eassumption.
    - intros h (par' & prev' & next' & fs' & Hr & _). exact (nrep_ops_ok _ _ _ _ _ _ Hr).
    - intros h x Hh Hx. apply (nary_value h tg Hh x Hx).
    - intros c a m v Hr Hv. cbn in Hr, Hv. destruct c as [[[b w] [|]]|]; cbn in *; [|discriminate|discriminate]. unfold raddr in Hr. cbn in Hr. congruence.
    - intros g m u. unfold nimage. cbn. destruct u; reflexivity.
    - intros T g Hp Hgk. pose proof (keys_nimg T g Hp Hgk) as Hi. destruct (placed_one T Hp) as (u & Hu & _). unfold nimage. cbn. rewrite Hu in *. cbn in Hi |- *. rewrite app_nil_r in Hi. exact Hi.
    - exact nimg_like.
    - intros h c [g [m pl]] Hc Hpl Hin'. destruct pl as [v|]; [|discriminate]. destruct (nimg_plug c _ Hpl) as (c' & Hcx).
      specialize (Hcx (Rose (g, (m, inl v)) []) (Rose (g, v) []) eq_refl). pose proof (onary_head h _ _ Hcx Hc) as Hc'. clear Hc. rename Hc' into Hc.
      apply nary_sub_ops in Hc. apply ops_ok_unfold in Hc as [Hc _]. exact Hc.
    - intros h c [g [m pl]] ls s Hc Hpl. destruct (nimg_plug c _ Hpl) as (c' & Hcx). pose proof (placed_sub _ _ Hpl) as Hps. apply placed_unfold in Hps as [[_ Hps] Hfs].
      destruct pl as [v|]; [|destruct Hps as [Hps _]; destruct ls; discriminate].
      apply Forall_app in Hfs as [_ Hfs]. inversion Hfs as [|? ? Hs _]; subst. destruct (placed_one s Hs) as (u & Hu & Hru).
      specialize (Hcx (Rose (g, (m, inl v)) (ls ++ [s])) (Rose (g, v) (flat_map nimg ls ++ [u]))).
      assert (Hq : nimg (Rose (g, (m, inl v)) (ls ++ [s])) = [Rose (g, v) (flat_map nimg ls ++ [u])]) by (cbn; rewrite flat_map_app; cbn; rewrite Hu; reflexivity).
      pose proof (onary_head h _ _ (Hcx Hq) Hc) as Hc'. clear Hc. rename Hc' into Hc.
      apply nary_sub_ops in Hc. apply ops_ok_unfold in Hc as (_ & _ & Hc & _). rewrite map_app in Hc. cbn in Hc.
      destruct (Hc (map nrose (flat_map nimg ls)) (nrose u) [] eq_refl) as (Hc1 & _ & Hc2). rewrite label_nrose, Hru in Hc1, Hc2. split; assumption.
    - intros h c z Hc Hz. destruct c as [t|]; [|apply elem_of_nil in Hz as []]. cbn in Hc, Hz. destruct (raddrs_position z t Hz) as (c & [[a v] cs] & -> & Ha).
      unfold raddr in Ha. cbn in Ha. subst a. split.
      + pose proof (nary_sub_ops _ _ _ _ _ Hc) as Ho. apply ops_ok_unfold in Ho as (Ho & _). exists (head_label (map nrose cs)). split; [exact Ho|].
        intros y Hy. destruct cs as [|d cs]; [discriminate|]. cbn in Hy. injection Hy as <-. rewrite label_nrose. change (raddr d ∈ raddrs (plug c (Rose (z, v) (d :: cs)))). rewrite raddrs_plug, raddrs_rose, faddrs_cons.
        pose proof (raddr_in d). set_solver.
      + pose proof Hc as [Hc1 _]. apply nrep_plug in Hc1 as [Hc1 Hc2]. apply nrep_root in Hc2. cbn in Hc2.
        assert (Hn : exists q, n_next h (Some z) = Ok q /\ q = hnext c) by (eexists; split; [unfold n_next; rewrite (deref_Some _ _ _ Hc2); reflexivity|reflexivity]).
        destruct Hn as (q & Hq & ->). exists (hnext c). split; [exact Hq|]. intros y Hy. destruct c as [|[[ls a] rs] c]; [discriminate|]. cbn in Hy.
        destruct rs as [|d rs]; [discriminate|]. cbn in Hy. injection Hy as <-. change (raddr d ∈ raddrs (plug c (Rose a (ls ++ Rose (z, v) cs :: d :: rs)))). rewrite raddrs_plug. destruct a as [a w]. rewrite raddrs_rose, faddrs_app, !faddrs_cons.
        pose proof (raddr_in d). set_solver.
    - exact Hg.
    - intros a Ha. cbn. unfold raddrs. cbn. intros Hn. apply elem_of_list_singleton in Hn. subst a. exact (Hg0 Ha).
    - reflexivity.
    - intros m u Hm. destruct (Hu1 m u Hm) as (H1 & H2 & H3). split; [exact H1|]. split; [exact H2|]. intros z Hz. destruct (H3 z Hz) as [H4 H5]. split; [exact H4|].
      cbn. unfold raddrs. cbn. intros Hn. apply elem_of_list_singleton in Hn. congruence.
    - exact Hu2.
  Qed.
  Lemma nary_generate h0 g0 {St} (pred : St -> heap -> mptr -> res (St * mptr * bool)) apr uses flr st :
    rsize tg < F -> nary_in h0 tg -> nary_at h0 (Rose (g0, snd (label tg)) []) -> g0 ∉ raddrs tg ->
    (forall m u, uses m = Some u -> onary_at h0 u /\ nroot u <> None /\ (forall z, z ∈ naddrs u -> z ∉ raddrs tg /\ z <> g0)) ->
    (forall m m' u u' z, uses m = Some u -> uses m' = Some u' -> m <> m' -> z ∈ naddrs u -> z ∉ naddrs u') ->
    (forall st m st' u, apr st m = (st', Use u) -> uses m = Some u) ->
    (forall m u kids, uses m = Some u -> tat tg m kids -> forall st x, x ∈ kids -> exists st', apr st (raddr x) = (st', Skip)) ->
    (forall st h m q fl st' d, nary_in h tg -> m ∈ raddrs tg -> m <> raddr tg -> apr st m = (st', d) ->
      pred st h (MPtr [Some m; q] fl) = Ok (st', answer K (MPtr [Some m; q] fl) d, accepted K d)) ->
    exists st' h' tr T, generate F im al (n_assign_child_like F) pred (MPtr [Some (raddr tg); Some g0] flr) st h0 = Ok (st', h') /\
      calls apr st tr st' /\ NoDup (map fst tr) /\ hinv K tg nimage h0 g0 uses h' T tr /\ (forall f, agree f tr -> rose_map snd T = grow f tg).
  Proof. intros H1 H2 H3 H4 H5 H6 H7 H8 H9. exact (proj1 (nary_generate_full h0 g0 pred apr uses flr st H1 H2 H3 H4 H5 H6 H7 H8 H9)). Qed.
End Nary.
