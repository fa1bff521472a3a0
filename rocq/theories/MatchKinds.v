(** MatchKinds.v: MatchResult.v for n-ary and for binary trees. *)
From Verif Require Import Base Spec MatchSpec StructNode LitFacts BinaryNode NaryNode Nav Policy Tree Rep RoseFacts NavFacts
  BinRep NaryRep Iter NaryOps NaryOps2 NaryEdit BinOps BinEdit User World Kinds EditSpec TreeSpec TreeOps TreeBin TreeNary Matcher OptSpec MatchUser MatchFacts MatchResult.

Lemma deref_sub {N} (h h' : gmap addr N) p n : h ⊆ h' -> deref h p = Ok n -> deref h' p = Ok n.
Proof.
  intros Hs. unfold deref. destruct p as [a|]; [|discriminate]. destruct (h !! a) as [m|] eqn:E; [|discriminate].
  rewrite (lookup_weaken _ _ _ _ E Hs). auto.
Qed.

(** An occurrence consists of nodes of the tree. *)
Fixpoint occurs_in {V A} (val : A -> V) p t m (H : occurs val p t m) {struct H} : forall x, x ∈ preorder m -> x ∈ preorder t
with chosen_in {V A} (val : A -> V) ps ts ms (H : chosen val ps ts ms) {struct H} :
  forall x, x ∈ flat_map preorder ms -> x ∈ flat_map preorder ts.
Proof.
  - destruct H as [p ps x ts ms _ Hc]. intros y Hy. cbn in *. apply elem_of_cons in Hy as [->|Hy]; [left|right].
    eapply chosen_in; eassumption.
  - destruct H as [ts|p ps t ts m ms Ho Hc|ps t ts ms Hc]; intros y Hy; cbn in *.
    + apply elem_of_nil in Hy as [].
    + apply elem_of_app in Hy as [Hy|Hy]; apply elem_of_app; [left; eapply occurs_in|right; eapply chosen_in]; eassumption.
    + apply elem_of_app. right. eapply chosen_in; eassumption.
Qed.
Lemma occurs_label {V A} (val : A -> V) p t m : occurs val p t m -> label m = label t.
Proof. destruct 1. reflexivity. Qed.
Fixpoint occurs_size {V A} (val : A -> V) p t m (H : occurs val p t m) {struct H} : rsize m <= rsize t
with chosen_size {V A} (val : A -> V) ps ts ms (H : chosen val ps ts ms) {struct H} :
  list_sum (map rsize ms) <= list_sum (map rsize ts).
Proof.
  - destruct H as [p ps x ts ms _ Hc]. rewrite !rsize_node. apply chosen_size in Hc. lia.
  - destruct H as [ts|p ps t ts m ms Ho Hc|ps t ts ms Hc]; cbn [map]; change (@list_sum) with list_sum.
    + cbn. lia.
    + apply occurs_size in Ho. apply chosen_size in Hc. cbn in *. unfold list_sum in *. lia.
    + apply chosen_size in Hc. cbn in *. unfold list_sum in *. lia.
Qed.

Section Nary.
  Context {V : Type} `{EV : EqDecision V}.
  Variable F : nat.
  Variable al : allocator (nnode V).
  Notation heap := (gmap addr (nnode V)).
  Notation tree := (rose (addr * V)).
  Notation im := (nary_impl V).
  Definition nsrc (h : heap) (m : tree) : Prop := forall x, x ∈ preorder m -> n_val h (Some (fst x)) = Ok (snd x).
  Definition nimage (m : tree) (c : option tree) : Prop := nvals c = Some (rose_map snd m).

  Lemma nary_copies : copies F im (n_assign_child_like F) (nary_kind V) nsrc nimage.
  Proof using All.
    split.
    - intros h [x ms] Hs. apply Hs. cbn. left.
    - intros h x ms m Hs Hm y Hy. apply Hs. cbn. right. apply elem_of_flat_map. eauto.
    - intros h h' m Hsub Hs x Hx. specialize (Hs x Hx). unfold n_val in *.
      destruct (deref h (Some (fst x))) as [n|] eqn:E; [|discriminate]. rewrite (deref_sub _ _ _ _ Hsub E). exact Hs.
    - intros m [t|] Hi; [|discriminate]. cbn in *. injection Hi as Hi. unfold raddrs. rewrite map_length, length_preorder.
      rewrite <- (rsize_map snd t), Hi, rsize_map. reflexivity.
    - intros x c Hc. unfold nimage. cbn in *. rewrite Hc. reflexivity.
    - intros h x ms m rest c u a b Hic Hiu _ Hc Hu Hdis Hra Hrb HF. cbn in c, u.
      destruct c as [[[a' v] cs]|]; [|discriminate]. destruct u as [u|]; [|discriminate]. cbn in Hra, Hrb.
      injection Hra as ->. injection Hrb as <-.
      destruct (k_add _ _ _ _ (nary_ok F al) false h (Some (Rose (a, v) cs)) (Some u) a (raddr u)) as (h' & E & Hc' & Hf & Hr & Hperm & _); auto.
      { cbn. left. }
      cbn [nary_impl ni_append] in E. exists h', (cadd (nary_kind V) false a (Some u) (Some (Rose (a, v) cs))).
      split; [unfold n_assign_child_like; cbn [is_null negb guard_res mbind res_bind]; rewrite E; reflexivity|].
      split; [|split; [exact Hc'|split; [rewrite Hr; reflexivity|split; [exact Hperm|exact Hf]]]].
      unfold nimage in *. cbn in *. rewrite decide_True by reflexivity. cbn.
      injection Hic as Hx Hic. injection Hiu as Hiu. rewrite !map_app, Hic. cbn. rewrite Hiu, Hx. reflexivity.
  Qed.
  Lemma nary_result us : Forall solid us -> good_result F im al (n_assign_child_like F) (nary_kind V) nsrc nimage us.
  Proof using All.
    destruct nary_copies as [H1 H2 H3 H4 H5 H6].
    intros Hp. apply (result_ok F im al (n_assign_child_like F) (nary_kind V) (nary_ok F al) nsrc nimage) with (p := chain us); auto.
  Qed.
End Nary.

Section Binary.
  Context {V : Type} `{EV : EqDecision V}.
  Variable F : nat.
  Variable al : allocator (bnode V).
  Notation heap := (gmap addr (bnode V)).
  Notation tree := (rose (addr * V)).
  Notation im := (binary_impl V).
  (** Which nodes are left children. *)
  Variable left : addr -> bool.

  Inductive bsrc (h : heap) : tree -> Prop :=
  | BSrc x ms : b_value h (Some (fst x)) = Ok (snd x) -> NoDup (map (fun m => left (raddr m)) ms) ->
      (forall m, m ∈ ms -> b_is_left h (Some (raddr m)) = Ok (left (raddr m))) ->
      (forall m, m ∈ ms -> bsrc h m) -> bsrc h (Rose x ms).
  Section Slot.
    Variable f : tree -> bin (addr * V).
    Fixpoint slot (b : bool) (ms : list tree) : bin (addr * V) :=
      match ms with [] => BLeaf | m :: ms => if Bool.eqb (left (raddr m)) b then f m else slot b ms end.
    Lemma slot_app b ms1 ms2 : b ∉ map (fun m => left (raddr m)) ms1 -> slot b (ms1 ++ ms2) = slot b ms2.
    Proof.
      induction ms1 as [|m ms IH]; intros Hn; [reflexivity|]. cbn in *. destruct (Bool.eqb (left (raddr m)) b) eqn:E.
      - apply eqb_prop in E. subst b. destruct Hn. left.
      - apply IH. intros H. apply Hn. right. exact H.
    Qed.
    Lemma slot_snoc b ms m : left (raddr m) <> b -> slot b (ms ++ [m]) = slot b ms.
    Proof.
      intros Hn. induction ms as [|m' ms IH]; cbn.
      - destruct (Bool.eqb (left (raddr m)) b) eqn:E; [apply eqb_prop in E; congruence|reflexivity].
      - rewrite IH. reflexivity.
    Qed.
    Lemma slot_none b ms : b ∉ map (fun m => left (raddr m)) ms -> slot b ms = BLeaf.
    Proof. intros H. rewrite <- (app_nil_r ms), slot_app by exact H. reflexivity. Qed.
  End Slot.
  Fixpoint place (m : tree) : bin (addr * V) :=
    match m with Rose x ms => BNode x (slot place true ms) (slot place false ms) end.
  Definition bimage (m : tree) (c : bin (addr * V)) : Prop :=
    bin_map snd c = bin_map snd (place m) /\ length (baddrs c) = rsize m.

  Lemma b_left_sub (h h' : heap) p b : h ⊆ h' -> b_is_left h p = Ok b -> b_is_left h' p = Ok b.
  Proof.
    intros Hs. unfold b_is_left, b_left. destruct (deref h p) as [n|] eqn:E; [|discriminate]. rewrite (deref_sub _ _ _ _ Hs E).
    cbn [mbind res_bind]. destruct (bparent n) as [q|]; [|auto]. destruct (deref h (Some q)) as [k|] eqn:E2; [|discriminate].
    rewrite (deref_sub _ _ _ _ Hs E2). auto.
  Qed.
  Lemma bmap_nil {A B} (f : A -> B) t : bin_map f t = BLeaf -> t = BLeaf.
  Proof. destruct t; [reflexivity|discriminate]. Qed.

  Lemma binary_copies : copies F im b_assign_child_like (binary_kind V) bsrc bimage.
  Proof using All.
    split.
    - intros h m Hs. destruct Hs as [x ms Hv _ _ _]. exact Hv.
    - intros h x ms m Hs Hm. inversion Hs; subst. auto.
    - intros h h' m Hsub Hs. induction Hs as [x ms Hv Hnd Hl Hc IH]. constructor; [|exact Hnd| |exact IH].
      + unfold b_value in *. destruct (deref h (Some (fst x))) as [n|] eqn:E; [|discriminate]. rewrite (deref_sub _ _ _ _ Hsub E). exact Hv.
      + intros m Hm. eapply b_left_sub; eauto.
    - intros m c [_ H]. exact H.
    - intros x c Hc. cbn in c, Hc. destruct c as [|[a v] l r]; [discriminate|]. cbn in Hc. injection Hc as -> Hl Hr.
      apply bmap_nil in Hl as ->, Hr as ->. split; reflexivity.
    - intros h x ms m rest c u a b [Hic Hlc] [Hiu Hlu] Hs Hc Hu Hdis Hra Hrb _. cbn in c, u.
      destruct c as [|[a' v] l r]; [discriminate|]. destruct u as [|[b' w] ul ur] eqn:Eu; [discriminate|].
      change (baddr (BNode (a', v) l r) = Some a) in Hra. change (baddr (BNode (b', w) ul ur) = Some b) in Hrb.
      cbn in Hra, Hrb. injection Hra as ->. injection Hrb as ->. rewrite <- Eu in *.
      inversion Hs as [? ? _ Hnd Hleft _ [Hx1 Hx2]].
      assert (Hm : b_is_left h (Some (raddr m)) = Ok (left (raddr m))) by (apply Hleft; set_solver +).
      assert (Hfree : left (raddr m) ∉ map (fun m => left (raddr m)) ms).
      { rewrite map_app in Hnd. cbn in Hnd. apply NoDup_app in Hnd as (_ & Hnd & _). intros Hin. apply (Hnd _ Hin). left. }
      cbn [place bin_map] in Hic. injection Hic as Hv Hl Hr.
      destruct Hc as [(Ha & Hrl & Hrr) Hndc]. destruct Hu as [Hu Hndu]. assert (Hu0 := Hu). rewrite Eu in Hu0. destruct Hu0 as (Hb & Hul & Hur).
      assert (Haddr : baddrs (BNode (a, v) l r) = a :: baddrs l ++ baddrs r) by (unfold baddrs; cbn; rewrite map_app; reflexivity).
      assert (Hbu : b ∈ baddrs u) by (rewrite Eu; unfold baddrs; cbn; left).
      cbn [croot caddrs crep binary_kind] in *.
      assert (Hba : b <> a) by (intros ->; apply (Hdis a Hbu); rewrite Haddr; left).
      pose proof Hndc as Hndc'. rewrite Haddr in Hndc'. apply NoDup_cons in Hndc' as [Halr Hndlr].
      assert (Hnul : is_null (if left (raddr m) then baddr l else baddr r) = true).
      { destruct (left (raddr m)); rewrite (slot_none _ _ _ Hfree) in *.
        - apply bmap_nil in Hl as ->. reflexivity.
        - apply bmap_nil in Hr as ->. reflexivity. }
      set (c' := if left (raddr m) then BNode (a, v) u r else BNode (a, v) l u).
      set (h1 := <[a := if left (raddr m) then BNodeR v None (Some b) (baddr r) else BNodeR v None (baddr l) (Some b)]> h).
      set (h2 := <[b := BNodeR w (Some a) (baddr ul) (baddr ur)]> h1).
      assert (Hsame : forall z, z <> a -> z <> b -> h2 !! z = h !! z).
      { intros z Hz1 Hz2. unfold h2, h1. rewrite !lookup_insert_ne by congruence. reflexivity. }
      assert (Hrl2 : brep h2 (Some a) l).
      { eapply brep_ext; [|exact Hrl]. intros z Hz. apply Hsame; [intros ->; apply Halr; set_solver +Hz|].
        intros ->. apply (Hdis _ Hbu). rewrite Haddr. set_solver +Hz. }
      assert (Hrr2 : brep h2 (Some a) r).
      { eapply brep_ext; [|exact Hrr]. intros z Hz. apply Hsame; [intros ->; apply Halr; set_solver +Hz|].
        intros ->. apply (Hdis _ Hbu). rewrite Haddr. set_solver +Hz. }
      assert (Hru2 : brep h2 (Some a) u).
      { assert (Hbn : b ∉ baddrs ul ++ baddrs ur).
        { rewrite Eu in Hndu. unfold baddrs in Hndu |- *. cbn in Hndu. rewrite map_app in Hndu. apply NoDup_cons in Hndu as [? _]. assumption. }
        assert (Hsub : forall z, z ∈ baddrs ul ++ baddrs ur -> h2 !! z = h !! z).
        { intros z Hz. apply Hsame; [|intros ->; tauto]. intros ->. apply (Hdis a); [|rewrite Haddr; left].
          rewrite Eu. unfold baddrs in *. cbn. rewrite map_app. right. exact Hz. }
        rewrite Eu. cbn. split; [unfold h2; rewrite lookup_insert; reflexivity|].
        split; (eapply brep_ext; [|eassumption]); intros z Hz; apply Hsub; set_solver +Hz. }
      assert (Ha2 : h2 !! a = Some (if left (raddr m) then BNodeR v None (Some b) (baddr r) else BNodeR v None (baddr l) (Some b))).
      { unfold h2, h1. rewrite lookup_insert_ne, lookup_insert by congruence. reflexivity. }
      assert (Hperm : Permutation (baddrs c') (baddrs (BNode (a, v) l r) ++ baddrs u)).
      { rewrite Haddr. unfold c'. destruct (left (raddr m)).
        - destruct l as [|[z0 z1] z2 z3]; [|discriminate Hnul]. unfold baddrs. cbn. rewrite map_app. rewrite Permutation_app_comm. reflexivity.
        - destruct r as [|[z0 z1] z2 z3]; [|discriminate Hnul]. unfold baddrs. cbn. rewrite map_app, app_nil_r. reflexivity. }
      exists h2, c'. split.
      { unfold b_assign_child_like. cbn [is_null negb guard_res mbind res_bind]. rewrite Hm. cbn [mbind res_bind].
        rewrite (deref_Some _ _ _ Ha). cbn [mbind res_bind bleft bright]. rewrite Hnul. cbn [guard_res mbind res_bind].
        rewrite (update_Some _ _ _ _ Ha). cbn [mbind res_bind]. unfold b_attach_child. cbn [is_null negb guard_res mbind res_bind].
        assert (Hb1 : <[a := (if left (raddr m) then bset_left (Some b) else bset_right (Some b)) (BNodeR v None (baddr l) (baddr r))]> h !! b
                      = Some (BNodeR w None (baddr ul) (baddr ur))) by (rewrite lookup_insert_ne by congruence; exact Hb).
        rewrite (update_Some _ _ _ _ Hb1). unfold h2, h1. cbn. destruct (left (raddr m)); reflexivity. }
      split.
      { split.
        - unfold c'. cbn [place bin_map]. destruct (left (raddr m)) eqn:El; cbn [bin_map snd].
          + rewrite (slot_app _ true) by exact Hfree. cbn [slot]. rewrite El. cbn [Bool.eqb].
            rewrite (slot_snoc _ false) by congruence. rewrite <- Hiu, <- Hr, Hv. reflexivity.
          + rewrite (slot_app _ false) by exact Hfree. cbn [slot]. rewrite El. cbn [Bool.eqb].
            rewrite (slot_snoc _ true) by congruence. rewrite <- Hiu, <- Hl, Hv. reflexivity.
        - rewrite Hperm, app_length, Hlc, Hlu, !rsize_node, map_app, list_sum_app'. cbn. lia. }
      split.
      { split.
        - assert (Hbr : baddr u = Some b) by (rewrite Eu; reflexivity).
          unfold c'. destruct (left (raddr m)); cbn [brep]; rewrite Ha2, Hbr; auto.
        - rewrite Hperm. apply NoDup_app. split; [exact Hndc|]. split; [|exact Hndu]. intros z Hz Hzu. exact (Hdis z Hzu Hz). }
      split; [unfold c'; destruct (left (raddr m)); reflexivity|]. split; [exact Hperm|].
      intros z Hz1 Hz2. apply Hsame; [intros ->; apply Hz1; rewrite Haddr; left|intros ->; tauto].
  Qed.
  Lemma binary_result us : Forall solid us -> good_result F im al b_assign_child_like (binary_kind V) bsrc bimage us.
  Proof using All.
    destruct binary_copies as [H1 H2 H3 H4 H5 H6].
    intros Hp. apply (result_ok F im al b_assign_child_like (binary_kind V) (binary_ok F al) bsrc bimage) with (p := chain us); auto.
  Qed.
End Binary.
