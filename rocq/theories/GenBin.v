(** GenBin.v: GenRun.v for binary trees. *)
From Verif Require Import Base Spec StructNode BinaryNode NaryNode Nav Policy Tree Rep RoseFacts NavFacts BinOrder BinRep BinOps BinEdit EditSpec
  Iter World Kinds TreeSpec TreeOps TreeBin NodeFacts Iter IterTrees Matcher MatchBin GenFacts GenInv Gen GenRun.

Section Bin.
  Context {V : Type} `{EV : EqDecision V}.
  Variable F : nat.
  Variable al : allocator (bnode V).
  Notation heap := (gmap addr (bnode V)).
  Notation tree := (rose (addr * V)).
  Notation K := (binary_kind V).
  Notation im := (binary_impl V).
  Notation C := (bin (addr * V)).
  Notation gl := (addr * (addr * (V + C)))%type.
  Variable b : C.
  Variable tg : tree.
  Hypothesis Hb : bin_forest b = [tg].
  Notation placed := (placed K tg).

  (** Which nodes of the target are left children. *)
  Variable left : addr -> bool.
  Hypothesis Hleft : forall x l r, bsubtree (BNode x l r) b -> (forall a, baddr l = Some a -> left a = true) /\ (forall a, baddr r = Some a -> left a = false).

  Section Slot.
    Variable f : rose gl -> C.
    Fixpoint gslot (s : bool) (ts : list (rose gl)) : C :=
      match ts with [] => BLeaf | t :: ts => if Bool.eqb (left (rmain t)) s then f t else gslot s ts end.
  End Slot.
  Fixpoint bimg (t : rose gl) : C :=
    match t with
    | Rose x ts => match snd (snd x) with
                   | inl v => BNode (fst x, v) (gslot bimg true ts) (gslot bimg false ts)
                   | inr u => u
                   end
    end.
  Definition flags (ts : list (rose gl)) : list bool := map (fun t => left (rmain t)) ts.

  Lemma gslot_none s ts : s ∉ flags ts -> gslot bimg s ts = BLeaf.
  Proof.
    induction ts as [|t ts IH]; intros H; [reflexivity|]. cbn [gslot flags map] in *. destruct (Bool.eqb (left (rmain t)) s) eqn:E.
    - apply eqb_prop in E. destruct H. rewrite E. left.
    - apply IH. intros H'. apply H. right. exact H'.
  Qed.
  Lemma gslot_mid s ls t rs : s ∉ flags ls -> gslot bimg s (ls ++ t :: rs) = if Bool.eqb (left (rmain t)) s then bimg t else gslot bimg s rs.
  Proof.
    induction ls as [|u ls IH]; intros H; [reflexivity|]. cbn [gslot flags map app] in *. destruct (Bool.eqb (left (rmain u)) s) eqn:E.
    - apply eqb_prop in E. destruct H. rewrite E. left.
    - apply IH. intros H'. apply H. right. exact H'.
  Qed.
  Lemma gslot_other s ls t t' rs : left (rmain t) <> s -> rmain t' = rmain t -> gslot bimg s (ls ++ t' :: rs) = gslot bimg s (ls ++ t :: rs).
  Proof.
    intros H E. induction ls as [|u ls IH]; cbn [gslot app].
    - rewrite E. destruct (Bool.eqb (left (rmain t)) s) eqn:E2; [apply eqb_prop in E2; congruence|reflexivity].
    - rewrite IH. reflexivity.
  Qed.
  Lemma gslot_snoc s ls t : left (rmain t) <> s -> gslot bimg s (ls ++ [t]) = gslot bimg s ls.
  Proof.
    intros H. induction ls as [|u ls IH]; cbn [gslot app].
    - destruct (Bool.eqb (left (rmain t)) s) eqn:E2; [apply eqb_prop in E2; congruence|reflexivity].
    - rewrite IH. reflexivity.
  Qed.

  Lemma tat_bin m kids : tat tg m kids -> exists v l r, bsubtree (BNode (m, v) l r) b /\ kids = bin_forest l ++ bin_forest r.
  Proof.
    intros (c & v & Hp). destruct (rsub_bsub (Rose (m, v) kids) tg) with (t := b) as (b' & Hs & Hf); [apply rsubtree_plug; eauto|exact Hb|].
    apply forest_root in Hf as (x & l & r & -> & E). injection E as <- ->. exists v, l, r. split; [exact Hs|reflexivity].
  Qed.
  Lemma kid_flags m kids : tat tg m kids -> map left (map raddr kids) `sublist_of` [true; false].
  Proof.
    intros H. destruct (tat_bin _ _ H) as (v & l & r & Hs & ->). destruct (Hleft _ _ _ Hs) as [H1 H2].
    destruct l as [|[p ?] ? ?], r as [|[q ?] ? ?]; cbn; unfold raddr; cbn.
    - repeat constructor.
    - rewrite (H2 q eq_refl). repeat constructor.
    - rewrite (H1 p eq_refl). repeat constructor.
    - rewrite (H1 p eq_refl), (H2 q eq_refl). reflexivity.
  Qed.
  Lemma map_sublist l1 l2 : l1 `sublist_of` l2 -> map left l1 `sublist_of` map left l2.
  Proof. intros Hs. induction Hs; cbn; [constructor|constructor; assumption|constructor; assumption]. Qed.
  Lemma placed_flags (x : gl) (ts : list (rose gl)) : placed (Rose x ts) -> flags ts `sublist_of` [true; false].
  Proof.
    intros H. apply placed_unfold in H as [[(kids & Hk & Hs) _] _]. etransitivity; [|exact (kid_flags _ _ Hk)].
    unfold flags. rewrite <- (map_map rmain left). exact (map_sublist _ _ Hs).
  Qed.
  Lemma flags_nodup ts : flags ts `sublist_of` [true; false] -> NoDup (flags ts).
  Proof. intros H. assert (Hn : NoDup [true; false]) by (repeat constructor; set_solver +). revert Hn. induction H; intros Hn; [constructor| |].
    - apply NoDup_cons in Hn as [Hn Hl]. constructor; [|auto]. intros Hx. apply Hn. eapply elem_of_submseteq; [exact Hx|]. apply sublist_submseteq. assumption.
    - apply NoDup_cons in Hn as [_ Hl]. auto.
  Qed.
  Lemma bplaced_sub (c : ctx gl) : forall s : rose gl, placed (plug c s) -> placed s.
  Proof.
    induction c as [|[[ls a] rs] c IH]; intros s H; [exact H|]. cbn in H. apply IH in H. apply placed_unfold in H as [_ H].
    apply Forall_app in H as [_ H]. apply Forall_cons in H as [H _]. exact H.
  Qed.
  Lemma bimg_plug (c : ctx gl) : forall (s : rose gl), placed (plug c s) -> exists bc, forall s' : rose gl, rmain s' = rmain s -> bimg (plug c s') = bplug bc (bimg s').
  Proof.
    induction c as [|[[ls [g [m pl]]] rs] c IH]; intros s H; [exists []; auto|]. cbn [plug] in *.
    destruct (IH _ H) as (bc & Hc). apply bplaced_sub in H. pose proof (placed_flags _ _ H) as Hfl. apply flags_nodup in Hfl.
    unfold flags in Hfl. rewrite map_app in Hfl. cbn in Hfl. fold (flags ls) (flags rs) in Hfl. apply NoDup_app in Hfl as (_ & Hd & Hr). apply NoDup_cons in Hr as [Hr _].
    assert (Hls : left (rmain s) ∉ flags ls) by (intros Hi; apply (Hd _ Hi); left).
    apply placed_unfold in H as [[_ H] _]. cbn in H.
    destruct pl as [v|u]; [|destruct H as [H _]; destruct ls; discriminate].
    destruct (left (rmain s)) eqn:El.
    - exists (LeftOf (g, v) (gslot bimg false (ls ++ s :: rs)) :: bc). intros s' Hs'. rewrite Hc by reflexivity. cbn [bplug bimg fst snd]. f_equal. f_equal.
      + rewrite gslot_mid by exact Hls. rewrite Hs', El. reflexivity.
      + apply gslot_other; [congruence|exact Hs'].
    - exists (RightOf (g, v) (gslot bimg true (ls ++ s :: rs)) :: bc). intros s' Hs'. rewrite Hc by reflexivity. cbn [bplug bimg fst snd]. f_equal. f_equal.
      + apply gslot_other; [congruence|exact Hs'].
      + rewrite gslot_mid by exact Hls. rewrite Hs', El. reflexivity.
  Qed.
  Lemma baddr_root' (c : C) : match baddr c with Some a => a ∈ baddrs c | None => c = BLeaf end.
  Proof. destruct c as [|[a v] l r]; [reflexivity|]. cbn. left. Qed.
  Lemma gslot_in s t ts : NoDup (flags ts) -> t ∈ ts -> left (rmain t) = s -> gslot bimg s ts = bimg t.
  Proof.
    intros Hnd Ht E. apply elem_of_list_split in Ht as (ls & rs & ->). unfold flags in Hnd. rewrite map_app in Hnd. cbn in Hnd. apply NoDup_app in Hnd as (_ & Hd & _).
    rewrite gslot_mid; [rewrite E; destruct s; reflexivity|]. intros Hi. subst s. apply (Hd _ Hi). left.
  Qed.
  Lemma keys_bimg (t : rose gl) g : placed t -> g ∈ keys t -> g ∈ baddrs (bimg t).
  Proof.
    induction t as [[a [m pl]] ts IH] using rose_ind'. intros Hp Hg. pose proof (flags_nodup _ (placed_flags _ _ Hp)) as Hfl.
    apply placed_unfold in Hp as [[_ Hn] Hp]. rewrite keys_rose in Hg. cbn [fst snd placed_node] in *.
    destruct pl as [v|u].
    - cbn [bimg fst snd]. rewrite baddrs_node. apply elem_of_cons in Hg as [->|Hg]; [left|right]. apply elem_of_flat_map in Hg as (t & Ht & Hg).
      rewrite Forall_forall in IH, Hp. specialize (IH t Ht (Hp t Ht) Hg). rewrite elem_of_app.
      destruct (left (rmain t)) eqn:E; [left|right]; rewrite (gslot_in _ t) by assumption; exact IH.
    - destruct Hn as [-> Hr]. cbn in Hg. apply elem_of_list_singleton in Hg. subst g. apply baddr_in. exact Hr.
  Qed.
  Lemma uses_bimg (t : rose gl) g m (u : C) z : placed t -> (g, (m, inr u)) ∈ preorder t -> z ∈ baddrs u -> z ∈ baddrs (bimg t).
  Proof.
    induction t as [[a [m' pl]] ts IH] using rose_ind'. intros Hp Hg Hz. pose proof (flags_nodup _ (placed_flags _ _ Hp)) as Hfl.
    apply placed_unfold in Hp as [[_ Hn] Hp]. cbn [fst snd placed_node] in *. cbn [preorder] in Hg.
    destruct pl as [v|u'].
    - cbn [bimg fst snd]. rewrite baddrs_node. apply elem_of_cons in Hg as [[=]|Hg]. right. apply elem_of_flat_map in Hg as (t & Ht & Hg).
      rewrite Forall_forall in IH, Hp. specialize (IH t Ht (Hp t Ht) Hg Hz). rewrite elem_of_app.
      destruct (left (rmain t)) eqn:E; [left|right]; rewrite (gslot_in _ t) by assumption; exact IH.
    - destruct Hn as [-> Hr]. cbn in Hg. apply elem_of_list_singleton in Hg. injection Hg as -> -> <-. exact Hz.
  Qed.
  Lemma bimg_addr (t : rose gl) : placed t -> baddr (bimg t) = Some (rkey t).
  Proof. destruct t as [[g [m [v|u]]] ts]; intros H; [reflexivity|]. apply placed_unfold in H as [[_ [_ H]] _]. exact H. Qed.

  (** Navigation in a stored binary tree. *)
  Lemma bin_sub_ops (h : heap) c s : bin_at h (bplug c s) -> Forall (ops_ok (bin_ops h)) (brose s).
  Proof.
    intros [H Hnd]. apply brep_bplug in H as [_ H]. eapply brep_ops_ok; [exact H|]. apply NoDup_bplug in Hnd as (Hn & _). exact Hn.
  Qed.
  Lemma bin_nav (h : heap) (c : C) z : bin_at h c -> z ∈ baddrs c ->
    (exists q, b_first h (Some z) = Ok q /\ (forall y, q = Some y -> y ∈ baddrs c)) /\
    (exists q, b_next h (Some z) = Ok q /\ (forall y, q = Some y -> y ∈ baddrs c)).
  Proof.
    intros Hc Hz. destruct (baddrs_position z c Hz) as (k & s & -> & Hs). apply baddr_root in Hs as (v & l & r & ->).
    pose proof Hc as [Hr Hnd]. apply brep_bplug in Hr as [Hk Hr]. cbn in Hr. destruct Hr as (Ha & _).
    assert (Hsub : forall y, y ∈ baddrs (BNode (z, v) l r) -> y ∈ baddrs (bplug k (BNode (z, v) l r))) by (intros y Hy; rewrite baddrs_bplug; apply elem_of_app; left; exact Hy).
    split.
    - unfold b_first. rewrite (deref_Some _ _ _ Ha). cbn [mbind res_bind bleft bright]. eexists. split; [reflexivity|]. intros y Hy. apply Hsub. rewrite baddrs_node.
      destruct l as [|[p ?] ? ?]; cbn [baddr] in Hy.
      + apply baddr_in in Hy. right. apply elem_of_app. right. exact Hy.
      + injection Hy as <-. right. left.
    - unfold b_next, b_is_left. rewrite (deref_Some _ _ _ Ha). cbn [mbind res_bind bparent]. destruct k as [|[[a w] r'|[a w] l'] k].
      + cbn. exists None. split; [reflexivity|discriminate].
      + cbn [cpar fst]. destruct Hk as (Hk & _). cbn [baddr] in Hk. unfold b_left, b_parent, b_right. rewrite (deref_Some _ _ _ Hk), (deref_Some _ _ _ Ha). cbn [mbind res_bind bleft bparent cpar fst].
        rewrite ptr_eqb_true. rewrite (deref_Some _ _ _ Hk). cbn [mbind res_bind bright]. eexists. split; [reflexivity|]. intros y Hy. apply baddr_in in Hy.
        rewrite baddrs_bplug. cbn [bctx_addrs]. set_solver +Hy.
      + cbn [cpar fst]. destruct Hk as (Hk & _). cbn [baddr] in Hk. unfold b_left. rewrite (deref_Some _ _ _ Hk). cbn [mbind res_bind bleft].
        rewrite ptr_eqb_false; [exists None; split; [reflexivity|discriminate]|]. intros E. symmetry in E. apply baddr_in in E. apply NoDup_bplug in Hnd as (_ & _ & Hd).
        apply (Hd z); [rewrite baddrs_node; left|]. cbn [bctx_addrs]. set_solver +E.
  Qed.
  Lemma b_like_ok (h : heap) c a v l r (u : C) p (s : bool) ref :
    bin_at h (bplug c (BNode (a, v) l r)) -> bin_at h u -> baddr u = Some p ->
    (forall x, x ∈ baddrs u -> x ∉ baddrs (bplug c (BNode (a, v) l r))) ->
    b_is_left h ref = Ok s -> (if s then l else r) = BLeaf ->
    exists h', b_assign_child_like h (Some a) (Some p) ref = Ok h' /\
      bin_at h' (bplug c (if s then BNode (a, v) u r else BNode (a, v) l u)) /\
      Permutation (baddrs (bplug c (if s then BNode (a, v) u r else BNode (a, v) l u))) (baddrs (bplug c (BNode (a, v) l r)) ++ baddrs u) /\
      (forall z, z ∉ baddrs (bplug c (BNode (a, v) l r)) -> z ∉ baddrs u -> h' !! z = h !! z).
  Proof.
    intros [Hr Hnd] [Hu Hndu] Hp Hdis Hs Hl.
    destruct (brep_dom _ _ _ p Hu (baddr_in _ _ Hp)) as (nb & Hnb).
    assert (Hpa : p <> a).
    { intros ->. eapply Hdis; [apply baddr_in, Hp|]. rewrite baddrs_bplug, baddrs_node. set_solver +. }
    pose proof Hr as Hr0. apply brep_bplug in Hr as [_ Hsr]. cbn [brep] in Hsr. destruct Hsr as (Ha & _ & _).
    pose (l' := if s then u else l). pose (r' := if s then r else u).
    assert (Hperm : Permutation (baddrs (bplug c (if s then BNode (a, v) u r else BNode (a, v) l u))) (baddrs (bplug c (BNode (a, v) l r)) ++ baddrs u)).
    { rewrite !baddrs_bplug. destruct s; subst; rewrite !baddrs_node; change (baddrs (V := V) BLeaf) with (@nil addr); cbn; solve_Permutation. }
    exists (<[a := BNodeR v (cpar None c) (baddr l') (baddr r')]> (<[p := bset_parent (Some a) nb]> h)).
    split; [|split; [|split]].
    - unfold b_assign_child_like. cbn [is_null negb guard_res mbind res_bind]. rewrite Hs. cbn [mbind res_bind]. rewrite (deref_Some _ _ _ Ha). cbn [mbind res_bind bleft bright].
      assert (E : is_null (if s then baddr l else baddr r) = true) by (destruct s; subst; reflexivity). rewrite E. cbn [guard_res mbind res_bind].
      rewrite (update_Some _ _ _ _ Ha). cbn [mbind res_bind]. unfold b_attach_child. cbn [is_null negb guard_res mbind res_bind].
      erewrite update_Some by (rewrite lookup_insert_ne by congruence; exact Hnb). rewrite insert_commute by congruence. unfold l', r'. rewrite <- Hp. destruct s; reflexivity.
    - split; [|rewrite Hperm; apply NoDup_app; split; [exact Hnd|split; [|exact Hndu]]; intros x Hx Hxu; exact (Hdis _ Hxu Hx)].
      assert (E : (if s then BNode (a, v) u r else BNode (a, v) l u) = BNode (a, v) l' r') by (unfold l', r'; destruct s; reflexivity). rewrite E.
      refine (b_add_finish _ _ _ _ _ _ _ _ _ _ _ Hr0 Hnd Hu Hndu Hp Hnb Hdis _). unfold l', r'. destruct s; auto.
    - exact Hperm.
    - intros x Hx Hxu. rewrite baddrs_bplug, baddrs_node in Hx.
      rewrite !lookup_insert_ne; [reflexivity| |]; intros ->; [apply Hxu, baddr_in, Hp|apply Hx; set_solver +].
  Qed.

  (** Sides in the heap. *)
  Lemma side_in (h : heap) x l r (s : bool) a : bin_in h b -> bsubtree (BNode x l r) b -> baddr (if s then l else r) = Some a ->
    b_is_left h (Some a) = Ok s.
  Proof.
    intros Hin Hsub Ha. destruct (bin_in_sub h _ _ Hin Hsub) as (par & Hr & Hnd). destruct x as [p v]. cbn in Hr. destruct Hr as (Hp & Hl & Hr).
    apply NoDup_baddrs_inv in Hnd as (_ & _ & _ & _ & Hd).
    assert (Hn : exists n, h !! a = Some n /\ bparent n = Some p).
    { destruct s; apply baddr_root in Ha as (w & l' & r' & ->); [destruct Hl as (Hx & _)|destruct Hr as (Hx & _)]; eexists; (split; [exact Hx|reflexivity]). }
    destruct Hn as (n & Hn & Hpn). unfold b_is_left, b_left. rewrite (deref_Some _ _ _ Hn). cbn [mbind res_bind]. rewrite Hpn, (deref_Some _ _ _ Hp). cbn [mbind res_bind bleft].
    destruct s; [rewrite Ha, ptr_eqb_true; reflexivity|]. rewrite ptr_eqb_false; [reflexivity|]. intros E. symmetry in E. apply (Hd a); apply baddr_in; assumption.
  Qed.
  Lemma kid_side (h : heap) m kids a : bin_in h b -> tat tg m kids -> a ∈ map raddr kids -> b_is_left h (Some a) = Ok (left a).
  Proof.
    intros Hin Hk Ha. destruct (tat_bin _ _ Hk) as (v & l & r & Hs & ->). destruct (Hleft _ _ _ Hs) as [H1 H2].
    rewrite map_app in Ha. apply elem_of_app in Ha as [Ha|Ha].
    - destruct l as [|[p w] l1 l2]; [apply elem_of_nil in Ha as []|]. cbn in Ha. apply elem_of_list_singleton in Ha. unfold raddr in Ha. cbn in Ha. subst a.
      rewrite (H1 p eq_refl). exact (side_in h _ _ _ true p Hin Hs eq_refl).
    - destruct r as [|[p w] l1 l2]; [apply elem_of_nil in Ha as []|]. cbn in Ha. apply elem_of_list_singleton in Ha. unfold raddr in Ha. cbn in Ha. subst a.
      rewrite (H2 p eq_refl). exact (side_in h _ _ _ false p Hin Hs eq_refl).
  Qed.
  Lemma raddrs_b : raddrs tg = baddrs b.
  Proof. unfold raddrs, baddrs. rewrite <- forest_labels, Hb. cbn. rewrite app_nil_r. reflexivity. Qed.

  Lemma bimg_like (h : heap) (cx : ctx gl) (x : gl) ts (s : rose gl) : bin_in h b -> placed (plug cx (Rose x (ts ++ [s]))) -> pl_use (snd (snd x)) = false -> children s = [] ->
    crep K h (bimg (plug cx (Rose x ts))) -> crep K h (bimg s) -> (forall z, z ∈ caddrs K (bimg s) -> z ∉ caddrs K (bimg (plug cx (Rose x ts)))) ->
    croot K (bimg s) = Some (rkey s) -> length ts < F ->
    exists h', b_assign_child_like h (Some (fst x)) (Some (rkey s)) (Some (rmain s)) = Ok h' /\ crep K h' (bimg (plug cx (Rose x (ts ++ [s])))) /\
      Permutation (caddrs K (bimg (plug cx (Rose x (ts ++ [s]))))) (caddrs K (bimg (plug cx (Rose x ts))) ++ caddrs K (bimg s)) /\
      (forall z, z ∉ caddrs K (bimg (plug cx (Rose x ts))) -> z ∉ caddrs K (bimg s) -> h' !! z = h !! z).
  Proof.
    revert h cx x ts s. change (Kinds.C K) with C. intros h cx [g [m pl]] ts s Hs Hpl Hin' Hch Hc Hcs Hdis Hroot Hlen. destruct pl as [v|]; [|discriminate].
    destruct (bimg_plug cx _ Hpl) as (bc & Hcx).
    pose proof (bplaced_sub _ _ Hpl) as Hpx. pose proof (flags_nodup _ (placed_flags _ _ Hpx)) as Hfl.
    unfold flags in Hfl. rewrite map_app in Hfl. cbn in Hfl. fold (flags ts) in Hfl. apply NoDup_app in Hfl as (_ & Hfl & _).
    assert (Hfree : left (rmain s) ∉ flags ts) by (intros Hi; apply (Hfl _ Hi); left).
    apply placed_unfold in Hpx as [[(kids & Hk & Hsl) _] Hps].
    assert (Hside : b_is_left h (Some (rmain s)) = Ok (left (rmain s))).
    { eapply kid_side; [exact Hs|exact Hk|]. eapply elem_of_submseteq; [|apply sublist_submseteq; exact Hsl]. rewrite map_app. apply elem_of_app. right. left. }
    pose proof (Hcx (Rose (g, (m, inl v)) ts) eq_refl) as E1. pose proof (Hcx (Rose (g, (m, inl v)) (ts ++ [s])) eq_refl) as E2. cbn [bimg fst snd] in E1, E2.
    destruct (b_like_ok h bc g v (gslot bimg true ts) (gslot bimg false ts) (bimg s) (rkey s) (left (rmain s)) (Some (rmain s))) as (h' & E & H1 & H2 & H3).
    + rewrite <- E1. exact Hc.
    + exact Hcs.
    + exact Hroot.
    + rewrite <- E1. exact Hdis.
    + exact Hside.
    + destruct (left (rmain s)); apply gslot_none; exact Hfree.
    + assert (E3 : (if left (rmain s) then BNode (g, v) (bimg s) (gslot bimg false ts) else BNode (g, v) (gslot bimg true ts) (bimg s))
        = BNode (g, v) (gslot bimg true (ts ++ [s])) (gslot bimg false (ts ++ [s]))).
      { destruct (left (rmain s)) eqn:El.
        - rewrite gslot_mid by exact Hfree. rewrite El. cbn [Bool.eqb]. rewrite gslot_snoc by congruence. reflexivity.
        - rewrite (gslot_mid false) by exact Hfree. rewrite El. cbn [Bool.eqb]. rewrite gslot_snoc by congruence. reflexivity. }
      rewrite E3 in H1, H2. rewrite <- E1 in H2, H3. rewrite <- E2 in H1, H2. exists h'. split; [exact E|]. split; [exact H1|]. split; [exact H2|exact H3].
  Qed.
  Lemma bin_generate_full h0 g0 {St} (pred : St -> heap -> mptr -> res (St * mptr * bool)) apr uses flr st :
    rsize tg < F -> bin_in h0 b -> bin_at h0 (BNode (g0, snd (label tg)) BLeaf BLeaf) -> g0 ∉ raddrs tg ->
    (forall m u, uses m = Some u -> bin_at h0 u /\ baddr u <> None /\ (forall z, z ∈ baddrs u -> z ∉ raddrs tg /\ z <> g0)) ->
    (forall m m' u u' z, uses m = Some u -> uses m' = Some u' -> m <> m' -> z ∈ baddrs u -> z ∉ baddrs u') ->
    (forall st m st' u, apr st m = (st', Use u) -> uses m = Some u) ->
    (forall m u kids, uses m = Some u -> tat tg m kids -> forall st x, x ∈ kids -> exists st', apr st (raddr x) = (st', Skip)) ->
    (forall st h m q fl st' d, bin_in h b -> m ∈ raddrs tg -> m <> raddr tg -> apr st m = (st', d) ->
      pred st h (MPtr [Some m; q] fl) = Ok (st', answer K (MPtr [Some m; q] fl) d, accepted K d)) ->
    (exists st' h' tr T, generate F im al b_assign_child_like pred (MPtr [Some (raddr tg); Some g0] flr) st h0 = Ok (st', h') /\
      calls apr st tr st' /\ NoDup (map fst tr) /\ hinv K tg bimg h0 g0 uses h' T tr /\ (forall f, agree f tr -> rose_map snd T = grow f tg)) /\
    fails_well F im al (b_assign_child_like) pred (MPtr [Some (raddr tg); Some g0] flr) st h0 apr (fun h tr => exists T, hinv K tg bimg h0 g0 uses h T tr).
  Proof.
    intros HF Hin Hg Hg0 Hu1 Hu2 Hu3 Hu4 Hpred. pose proof Hin as (par & Hrep & Hnd).
    refine (generate_full F im al b_assign_child_like K (binary_ok F al) tg _ HF (fun h => bin_in h b) _ _ _ _ bimg _ _ _ _ _ _ _ h0 g0 Hin _ _ _ pred apr uses _ _ Hu3 Hu4 Hpred flr st).
    - rewrite raddrs_b. exact Hnd.
    - intros h h' Hext (par' & Hr & Hn). exists par'. split; [|exact Hn]. eapply brep_ext; [|exact Hr]. intros a Ha. apply Hext. rewrite raddrs_b. exact Ha.
    - intros h a (par' & Hr & _) Ha. rewrite raddrs_b in Ha. eapply brep_dom; eassumption.
    - intros h (par' & Hr & Hn). pose proof (brep_ops_ok _ _ _ Hr Hn) as Ho. unfold brose in Ho. rewrite bin_forest_map', Hb in Ho. cbn [map] in Ho. apply Forall_inv in Ho. exact Ho.
    - intros h x Hh Hx. apply (bin_value h b Hh x). rewrite <- forest_labels, Hb. cbn. rewrite app_nil_r. exact Hx.
    - intros c a m v Hr Hv. cbn in Hr, Hv. destruct c as [|[p w] l r]; [discriminate|]. cbn in *. injection Hr as ->. injection Hv as -> Hl Hr.
      destruct l; [|discriminate]. destruct r; [|discriminate]. reflexivity.
    - intros g m u. reflexivity.
    - intros T g Hp Hgk. exact (keys_bimg T g Hp Hgk).
    - exact bimg_like.
    - change (Kinds.C K) with C. intros h c [g [m pl]] Hc Hpl Hin'. destruct pl as [v|]; [|discriminate]. destruct (bimg_plug c _ Hpl) as (bc & Hcx).
      specialize (Hcx (Rose (g, (m, inl v)) []) eq_refl). cbn [bimg fst snd gslot] in Hcx. assert (Hc' : bin_at h (bplug bc (BNode (g, v) BLeaf BLeaf))) by (rewrite <- Hcx; exact Hc).
      apply bin_sub_ops in Hc'. cbn in Hc'. apply Forall_inv in Hc'. apply ops_ok_unfold in Hc' as [Hc' _]. exact Hc'.
    - change (Kinds.C K) with C. intros h c [g [m pl]] ls s Hc Hpl. destruct (bimg_plug c _ Hpl) as (bc & Hcx). pose proof (bplaced_sub _ _ Hpl) as Hps. pose proof (placed_flags _ _ Hps) as Hfl.
      apply placed_unfold in Hps as [[_ Hps] Hfs].
      destruct pl as [v|]; [|destruct Hps as [Hps _]; destruct ls; discriminate].
      apply Forall_app in Hfs as [_ Hfs]. inversion Hfs as [|? ? Hs _]; subst. pose proof (bimg_addr s Hs) as Hru.
      specialize (Hcx (Rose (g, (m, inl v)) (ls ++ [s])) eq_refl). cbn [bimg fst snd] in Hcx.
      assert (Hc' : bin_at h (bplug bc (BNode (g, v) (gslot bimg true (ls ++ [s])) (gslot bimg false (ls ++ [s]))))) by (rewrite <- Hcx; exact Hc).
      pose proof (flags_nodup _ Hfl) as Hnf.
      assert (Hcase : exists lf, brose (BNode (g, v) (gslot bimg true (ls ++ [s])) (gslot bimg false (ls ++ [s]))) =
        [Rose g (lf ++ brose (bimg s))]).
      { destruct (left (rmain s)) eqn:El.
        - (* a left child is the only one *)
          assert (ls = []) as ->. { destruct ls as [|t ls]; [reflexivity|exfalso]. unfold flags in Hfl. rewrite map_app in Hfl. cbn in Hfl. rewrite El in Hfl.
            clear -Hfl. inversion Hfl as [|? l1 l2 H|? l1 l2 H]; subst.
            + inversion H as [|? l1' l2' H'|? l1' l2' H']; subst; [|apply sublist_nil_r in H'; destruct (map _ ls); discriminate].
              apply sublist_nil_r in H'. destruct (map (fun t : rose gl => left (rmain t)) ls) as [|? [|]] eqn:E; cbn in *; congruence.
            + inversion H as [|? l1' l2' H'|? l1' l2' H']; subst; [|apply sublist_nil_r in H'; discriminate].
              apply sublist_nil_r in H'. destruct (map (fun t : rose gl => left (rmain t)) ls); discriminate. }
          exists []. cbn [app gslot]. rewrite El. cbn [Bool.eqb]. unfold brose. cbn [bin_map bin_forest fst]. rewrite app_nil_r. reflexivity.
        - exists (brose (gslot bimg true (ls ++ [s]))). rewrite (gslot_in false s) by (try assumption; set_solver +). reflexivity. }
      destruct Hcase as (lf & E). apply bin_sub_ops in Hc'. rewrite E in Hc'. apply Forall_inv in Hc'. apply ops_ok_unfold in Hc' as (_ & _ & Hc' & _).
      apply baddr_root in Hru as (w & u1 & u2 & Hu). unfold brose in Hc'. rewrite Hu in Hc'. cbn [bin_forest bin_map fst] in Hc'.
      destruct (Hc' lf _ [] eq_refl) as (Hc1 & _ & Hc2). cbn [label] in Hc1, Hc2. split; assumption.
    - intros h c z Hc Hz. exact (bin_nav h c z Hc Hz).
    - exact Hg.
    - intros a Ha. cbn. intros Hn. apply elem_of_list_singleton in Hn. subst a. exact (Hg0 Ha).
    - reflexivity.
    - intros m u Hm. destruct (Hu1 m u Hm) as (H1 & H2 & H3). split; [exact H1|]. split; [exact H2|]. intros z Hz. destruct (H3 z Hz) as [H4 H5]. split; [exact H4|].
      cbn. intros Hn. apply elem_of_list_singleton in Hn. congruence.
    - exact Hu2.
  Qed.
  Lemma bin_generate h0 g0 {St} (pred : St -> heap -> mptr -> res (St * mptr * bool)) apr uses flr st :
    rsize tg < F -> bin_in h0 b -> bin_at h0 (BNode (g0, snd (label tg)) BLeaf BLeaf) -> g0 ∉ raddrs tg ->
    (forall m u, uses m = Some u -> bin_at h0 u /\ baddr u <> None /\ (forall z, z ∈ baddrs u -> z ∉ raddrs tg /\ z <> g0)) ->
    (forall m m' u u' z, uses m = Some u -> uses m' = Some u' -> m <> m' -> z ∈ baddrs u -> z ∉ baddrs u') ->
    (forall st m st' u, apr st m = (st', Use u) -> uses m = Some u) ->
    (forall m u kids, uses m = Some u -> tat tg m kids -> forall st x, x ∈ kids -> exists st', apr st (raddr x) = (st', Skip)) ->
    (forall st h m q fl st' d, bin_in h b -> m ∈ raddrs tg -> m <> raddr tg -> apr st m = (st', d) ->
      pred st h (MPtr [Some m; q] fl) = Ok (st', answer K (MPtr [Some m; q] fl) d, accepted K d)) ->
    exists st' h' tr T, generate F im al b_assign_child_like pred (MPtr [Some (raddr tg); Some g0] flr) st h0 = Ok (st', h') /\
      calls apr st tr st' /\ NoDup (map fst tr) /\ hinv K tg bimg h0 g0 uses h' T tr /\ (forall f, agree f tr -> rose_map snd T = grow f tg).
  Proof. intros H1 H2 H3 H4 H5 H6 H7 H8 H9. exact (proj1 (bin_generate_full h0 g0 pred apr uses flr st H1 H2 H3 H4 H5 H6 H7 H8 H9)). Qed.
End Bin.
