(** BinRep.v: binary nodes in the heap: navigation, copying, building, releasing,
    comparing, counting. *)
From Verif Require Import Base Spec StructNode BinaryNode NaryNode Nav Policy Tree RoseFacts RowFacts
  NavFacts Orders PolicyFacts BinOrder Rep.

Section BinRep.
  Context {V : Type} `{EqDecision V}.
  Notation heap := (gmap addr (bnode V)).
  Notation btree := (bin (addr * V)).
  Implicit Types (t l r s : btree).

  Lemma baddr_root t a : baddr t = Some a -> exists v l r, t = BNode (a, v) l r.
  Proof. destruct t as [|[b v] l r]; cbn; [discriminate|]. intros [=->]. eauto. Qed.
  Lemma baddrs_node a v l r : baddrs (BNode (a, v) l r) = a :: baddrs l ++ baddrs r.
  Proof. unfold baddrs. cbn. rewrite map_app. reflexivity. Qed.
  Lemma baddr_in t a : baddr t = Some a -> a ∈ baddrs t.
  Proof. intros Ht. apply baddr_root in Ht as (v & l & r & ->). rewrite baddrs_node. set_solver. Qed.
  Lemma length_baddrs t : length (baddrs t) = bin_size t.
  Proof.
    unfold baddrs. rewrite map_length. induction t as [|[a v] l IHl r IHr]; cbn; [reflexivity|].
    rewrite app_length. lia.
  Qed.
  Lemma NoDup_baddrs_inv a v l r : NoDup (baddrs (BNode (a, v) l r)) ->
    a ∉ baddrs l /\ a ∉ baddrs r /\ NoDup (baddrs l) /\ NoDup (baddrs r) /\
    (forall x, x ∈ baddrs l -> x ∉ baddrs r).
  Proof. rewrite baddrs_node, NoDup_cons, NoDup_app. set_solver. Qed.
  Lemma NoDup_baddrs_node a v l r :
    a ∉ baddrs l -> a ∉ baddrs r -> NoDup (baddrs l) -> NoDup (baddrs r) ->
    (forall x, x ∈ baddrs l -> x ∉ baddrs r) -> NoDup (baddrs (BNode (a, v) l r)).
  Proof. rewrite baddrs_node, NoDup_cons, NoDup_app. set_solver. Qed.

  Lemma brep_ext (h h' : heap) t : forall par,
    (forall a, a ∈ baddrs t -> h' !! a = h !! a) -> brep h par t -> brep h' par t.
  Proof.
    induction t as [|[a v] l IHl r IHr]; intros par Hh; cbn [brep]; [auto|].
    intros (H1 & H2 & H3). rewrite baddrs_node in Hh. split; [rewrite Hh by set_solver; exact H1|].
    split; [apply IHl; [set_solver|exact H2]|apply IHr; [set_solver|exact H3]].
  Qed.
  Lemma brep_dom h t par a : brep h par t -> a ∈ baddrs t -> is_Some (h !! a).
  Proof.
    revert par. induction t as [|[b v] l IHl r IHr]; intros par; cbn [brep].
    - intros _ Ha. apply elem_of_nil in Ha as [].
    - intros (H1 & H2 & H3). rewrite baddrs_node, elem_of_cons, elem_of_app. intros [->|[Ha|Ha]]; eauto.
  Qed.

  (** Navigation. *)
  Definition brose (t : btree) : list (rose addr) := bin_forest (bin_map fst t).
  Lemma brose_head t : head_label (brose t) = baddr t.
  Proof. destruct t as [|[a v] l r]; reflexivity. Qed.
  Lemma brose_last t : last_label (brose t) = baddr t.
  Proof. destruct t as [|[a v] l r]; reflexivity. Qed.
  Lemma bin_labels_map {A B} (f : A -> B) (u : bin A) : bin_labels (bin_map f u) = map f (bin_labels u).
  Proof. induction u as [|a x IHx y IHy]; cbn; [reflexivity|]. rewrite map_app, IHx, IHy. reflexivity. Qed.
  Lemma forest_labels {A} (u : bin A) : flat_map preorder (bin_forest u) = bin_labels u.
  Proof.
    induction u as [|a x IHx y IHy]; cbn; [reflexivity|]. rewrite app_nil_r, flat_map_app', IHx, IHy. reflexivity.
  Qed.
  Lemma brose_addrs t : flat_map preorder (brose t) = baddrs t.
  Proof. unfold brose. rewrite forest_labels. apply bin_labels_map. Qed.

  Lemma brep_ops_ok (h : heap) t : forall par, brep h par t -> NoDup (baddrs t) ->
    Forall (ops_ok (bin_ops h)) (brose t).
  Proof.
    induction t as [|[a v] l IHl r IHr]; intros par Hr Hnd; [constructor|].
    cbn [brep] in Hr. destruct Hr as (Ha & Hl & Hr).
    pose proof (NoDup_baddrs_inv _ _ _ _ Hnd) as (Hal & Har & Hndl & Hndr & Hd).
    cbn [brose bin_forest bin_map fst]. fold (brose l) (brose r). constructor; [|constructor].
    apply ops_ok_unfold.
    assert (Hboth : forall b c, baddr l = Some b -> baddr r = Some c -> b <> c).
    { intros b c Hb Hc ->. apply (Hd c); apply baddr_in; assumption. }
    split; [|split; [|split]].
    - cbn [op_first bin_ops]. unfold b_first. rewrite (deref_Some _ _ _ Ha). cbn.
      destruct l as [|[b w] ll lr]; [|reflexivity]. cbn. rewrite brose_head. reflexivity.
    - cbn [op_last bin_ops]. unfold b_last. rewrite (deref_Some _ _ _ Ha). cbn.
      destruct r as [|[b w] rl rr]; cbn.
      + rewrite app_nil_r, brose_last. reflexivity.
      + cbn. rewrite last_label_snoc. reflexivity.
    - (* the children's own links *)
      assert (Hlk : forall x, baddr l = Some x \/ baddr r = Some x ->
                b_parent h (Some x) = Ok (Some a) /\
                b_is_left h (Some x) = Ok (ptr_eqb (Some x) (baddr l)) /\
                b_is_right h (Some x) = Ok (ptr_eqb (Some x) (baddr r))).
      { intros x Hx.
        assert (Hn : exists n, h !! x = Some n /\ bparent n = Some a).
        { destruct Hx as [Hx|Hx]; apply baddr_root in Hx as (w & ll & lr & ->); cbn in *; eexists;
            (split; [apply Hl || apply Hr|reflexivity]). }
        destruct Hn as (n & Hn & Hp).
        unfold b_parent, b_is_left, b_is_right, b_left, b_right.
        rewrite !(deref_Some _ _ _ Hn). cbn [mbind res_bind]. rewrite Hp, (deref_Some _ _ _ Ha). auto. }
      intros ls s rs Hs. cbn [op_parent op_prev op_next bin_ops].
      assert (Hcase : (exists x, s = x /\ brose l = [x] /\ ls = [] /\ rs = brose r) \/
                      (exists x, s = x /\ brose r = [x] /\ ls = brose l /\ rs = [])).
      { destruct l as [|[b w] ll lr]; destruct r as [|[c u] rl rr]; cbn in *.
        - destruct ls; discriminate.
        - destruct ls as [|? ls]; [injection Hs as <- <-; right; eauto|destruct ls; discriminate].
        - destruct ls as [|? ls]; [injection Hs as <- <-; left; eauto|destruct ls; discriminate].
        - destruct ls as [|? ls]; [injection Hs as <- <-; left; eauto|].
          destruct ls as [|? ls]; [injection Hs as <- <- <-; right; eauto|destruct ls; discriminate]. }
      destruct Hcase as [(x & -> & Hx & -> & ->)|(x & -> & Hx & -> & ->)].
      + assert (Hb : baddr l = Some (label x)) by (rewrite <- brose_head, Hx; reflexivity).
        destruct (Hlk (label x) (or_introl Hb)) as (H1 & H2 & H3).
        rewrite H1. split; [reflexivity|].
        unfold b_prev, b_next. rewrite H2, H3. cbn [mbind res_bind]. rewrite Hb, ptr_eqb_true.
        rewrite H1. cbn [mbind res_bind]. split.
        * destruct (baddr r) as [y|] eqn:Ey.
          -- rewrite ptr_eqb_false; [reflexivity|]. intros [=Heq]. apply (Hboth _ _ Hb eq_refl). exact Heq.
          -- rewrite ptr_eqb_false by discriminate. reflexivity.
        * unfold b_right. rewrite (deref_Some _ _ _ Ha). cbn. rewrite brose_head. reflexivity.
      + assert (Hb : baddr r = Some (label x)) by (rewrite <- brose_head, Hx; reflexivity).
        destruct (Hlk (label x) (or_intror Hb)) as (H1 & H2 & H3).
        rewrite H1. split; [reflexivity|].
        unfold b_prev, b_next. rewrite H2, H3. cbn [mbind res_bind]. rewrite Hb, ptr_eqb_true.
        rewrite H1. cbn [mbind res_bind]. split.
        * unfold b_left. rewrite (deref_Some _ _ _ Ha). cbn. rewrite brose_last. reflexivity.
        * destruct (baddr l) as [y|] eqn:Ey.
          -- rewrite ptr_eqb_false; [reflexivity|]. intros [=Heq]. apply (Hboth _ _ eq_refl Hb). congruence.
          -- rewrite ptr_eqb_false by discriminate. reflexivity.
    - apply Forall_app. split; [eapply IHl; eassumption|eapply IHr; eassumption].
  Qed.

  (** Positions in the heap. *)
  Notation bctx := (list (bframe (addr * V))).
  Definition cpar (par : ptr) (c : bctx) : ptr :=
    match c with [] => par | LeftOf a _ :: _ => Some (fst a) | RightOf a _ :: _ => Some (fst a) end.
  Fixpoint bctx_rep (h : heap) (par : ptr) (c : bctx) (hole : ptr) : Prop :=
    match c with
    | [] => True
    | LeftOf (a, v) r :: c =>
        h !! a = Some (BNodeR v (cpar par c) hole (baddr r)) /\ brep h (Some a) r /\ bctx_rep h par c (Some a)
    | RightOf (a, v) l :: c =>
        h !! a = Some (BNodeR v (cpar par c) (baddr l) hole) /\ brep h (Some a) l /\ bctx_rep h par c (Some a)
    end.
  Lemma brep_bplug h par c : forall s,
    brep h par (bplug c s) <-> bctx_rep h par c (baddr s) /\ brep h (cpar par c) s.
  Proof.
    induction c as [|[[a v] r|[a v] l] c IH]; intros s; cbn [bplug bctx_rep cpar].
    - tauto.
    - rewrite IH. cbn. tauto.
    - rewrite IH. cbn. tauto.
  Qed.
  Fixpoint bctx_addrs (c : bctx) : list addr :=
    match c with
    | [] => []
    | LeftOf (a, _) r :: c => a :: baddrs r ++ bctx_addrs c
    | RightOf (a, _) l :: c => a :: baddrs l ++ bctx_addrs c
    end.
  Lemma baddrs_bplug c s : Permutation (baddrs (bplug c s)) (baddrs s ++ bctx_addrs c).
  Proof.
    revert s. induction c as [|[[a v] r|[a v] l] c IH]; intros s; cbn [bplug bctx_addrs].
    - rewrite app_nil_r. reflexivity.
    - rewrite IH, baddrs_node. cbn [app]. rewrite <- Permutation_middle. norm_app. reflexivity.
    - rewrite IH, baddrs_node. cbn [app]. rewrite <- Permutation_middle.
      rewrite (Permutation_app_comm (baddrs l)). norm_app. reflexivity.
  Qed.
  Lemma bctx_rep_ext (h h' : heap) c : forall par hole,
    (forall a, a ∈ bctx_addrs c -> h' !! a = h !! a) -> bctx_rep h par c hole -> bctx_rep h' par c hole.
  Proof.
    induction c as [|[[a v] r|[a v] l] c IH]; intros par hole Hh; cbn [bctx_rep]; [auto| |];
      cbn [bctx_addrs] in Hh; intros (H1 & H2 & H3);
      (split; [rewrite Hh by set_solver; exact H1|]);
      (split; [eapply brep_ext; [|exact H2]; set_solver|]); apply IH; [set_solver|exact H3|set_solver|exact H3].
  Qed.
  Lemma bctx_rep_dom h c par hole a : bctx_rep h par c hole -> a ∈ bctx_addrs c -> is_Some (h !! a).
  Proof.
    revert hole. induction c as [|[[b v] r|[b v] l] c IH]; intros hole; cbn [bctx_rep bctx_addrs].
    - intros _ Ha. apply elem_of_nil in Ha as [].
    - intros (H1 & H2 & H3). rewrite elem_of_cons, elem_of_app. intros [->|[Ha|Ha]]; eauto using brep_dom.
    - intros (H1 & H2 & H3). rewrite elem_of_cons, elem_of_app. intros [->|[Ha|Ha]]; eauto using brep_dom.
  Qed.

  (** The binary navigation facts. *)
  Definition bctx_map (c : bctx) : list (bframe addr) :=
    map (fun f => match f with LeftOf a r => LeftOf (fst a) (bin_map fst r)
                             | RightOf a l => RightOf (fst a) (bin_map fst l) end) c.
  Lemma bplug_map_inv (c : list (bframe addr)) : forall a (l r : bin addr) t, bplug c (BNode a l r) = bin_map fst t ->
    exists c' v l' r', c = bctx_map c' /\ l = bin_map fst l' /\ r = bin_map fst r' /\
      bplug c' (BNode (a, v) l' r') = t.
  Proof.
    induction c as [|f c IH] using rev_ind; intros a l r t Ht.
    - cbn in Ht. destruct t as [|[b v] l' r']; cbn in Ht; [discriminate|].
      injection Ht as -> -> ->. exists [], v, l', r'. auto.
    - rewrite bplug_app in Ht. destruct t as [|[b w] tl tr]; [destruct f; discriminate|].
      destruct f as [b' r1|b' l1]; cbn in Ht; injection Ht as -> Ht1 Ht2.
      + destruct (IH _ _ _ _ Ht1) as (c' & v & l' & r' & -> & -> & -> & <-).
        exists (c' ++ [LeftOf (b, w) tr]), v, l', r'. unfold bctx_map. rewrite map_app, bplug_app. subst r1. auto.
      + destruct (IH _ _ _ _ Ht2) as (c' & v & l' & r' & -> & -> & -> & <-).
        exists (c' ++ [RightOf (b, w) tl]), v, l', r'. unfold bctx_map. rewrite map_app, bplug_app. subst l1. auto.
  Qed.
  Lemma broot_map t : broot (bin_map fst t) = baddr t.
  Proof. destruct t as [|[a v] l r]; reflexivity. Qed.

  Lemma brep_bnav_ok (h : heap) t par a : brep h par t -> NoDup (baddrs t) -> baddr t = Some a ->
    bnav_ok (node_navigator (bin_ops h) (Some a)) (bin_map fst t).
  Proof.
    intros Hr Hnd Hroot.
    assert (Hisroot : forall c x v l r, bplug c (BNode (x, v) l r) = t ->
              base_is_root (Some a) (Some x) = is_nil c).
    { intros c x v l r Hp. unfold base_is_root. destruct c as [|f c _] using rev_ind.
      - cbn in Hp. subst t. cbn in Hroot. injection Hroot as ->. apply ptr_eqb_true.
      - replace (is_nil (c ++ [f])) with false by (destruct c; reflexivity).
        apply ptr_eqb_false. intros [=->]. rewrite bplug_app in Hp.
        assert (Hx : a ∈ baddrs (bplug c (BNode (a, v) l r))).
        { rewrite baddrs_bplug, baddrs_node. set_solver. }
        subst t. destruct f as [[b w] r1|[b w] l1]; cbn in Hroot; injection Hroot as ->;
          apply NoDup_baddrs_inv in Hnd; set_solver. }
    split.
    - rewrite bin_labels_map. exact Hnd.
    - cbn. rewrite broot_map. auto.
    - intros c x l r Hp. apply bplug_map_inv in Hp as (c' & v & l' & r' & -> & -> & -> & <-).
      apply brep_bplug in Hr as [_ Hr]. cbn in Hr. destruct Hr as (Hx & _).
      cbn [node_navigator nav_left bin_ops op_left]. unfold b_left. rewrite (deref_Some _ _ _ Hx), broot_map. reflexivity.
    - intros c x l r Hp. apply bplug_map_inv in Hp as (c' & v & l' & r' & -> & -> & -> & <-).
      apply brep_bplug in Hr as [_ Hr]. cbn in Hr. destruct Hr as (Hx & _).
      cbn [node_navigator nav_right bin_ops op_right]. unfold b_right. rewrite (deref_Some _ _ _ Hx), broot_map. reflexivity.
    - intros c x l r Hp. apply bplug_map_inv in Hp as (c' & v & l' & r' & -> & -> & -> & Hp).
      cbn [node_navigator nav_parent]. unfold base_unless_root. rewrite (Hisroot _ _ _ _ _ Hp). subst t.
      apply brep_bplug in Hr as [_ Hr]. cbn in Hr. destruct Hr as (Hx & _).
      destruct c' as [|[[b w] r1|[b w] l1] c']; cbn; [reflexivity| |];
        unfold b_parent; rewrite (deref_Some _ _ _ Hx); reflexivity.
    - intros c x l r Hp. apply bplug_map_inv in Hp as (c' & v & l' & r' & -> & -> & -> & Hp).
      cbn [node_navigator nav_is_left]. unfold base_is_child. rewrite (Hisroot _ _ _ _ _ Hp). subst t.
      apply brep_bplug in Hr as [Hc Hr]. cbn in Hr. destruct Hr as (Hx & _).
      destruct c' as [|[[b w] r1|[b w] l1] c']; cbn in Hc |- *; [reflexivity| |];
        unfold b_parent, b_left; rewrite (deref_Some _ _ _ Hx); cbn; destruct Hc as (Hb & _); rewrite (deref_Some _ _ _ Hb); cbn; f_equal.
      + apply ptr_eqb_true.
      + apply ptr_eqb_false. intros Heq. symmetry in Heq. apply baddr_in in Heq.
        rewrite baddrs_bplug, baddrs_node in Hnd. cbn [bctx_addrs] in Hnd.
        apply NoDup_app in Hnd as (_ & Hd & _). apply (Hd x); set_solver.
    - intros c x l r Hp. apply bplug_map_inv in Hp as (c' & v & l' & r' & -> & -> & -> & Hp).
      cbn [node_navigator nav_is_right]. unfold base_is_child. rewrite (Hisroot _ _ _ _ _ Hp). subst t.
      apply brep_bplug in Hr as [Hc Hr]. cbn in Hr. destruct Hr as (Hx & _).
      destruct c' as [|[[b w] r1|[b w] l1] c']; cbn in Hc |- *; [reflexivity| |];
        unfold b_parent, b_right; rewrite (deref_Some _ _ _ Hx); cbn; destruct Hc as (Hb & _); rewrite (deref_Some _ _ _ Hb); cbn; f_equal.
      + apply ptr_eqb_false. intros Heq. symmetry in Heq. apply baddr_in in Heq.
        rewrite baddrs_bplug, baddrs_node in Hnd. cbn [bctx_addrs] in Hnd.
        apply NoDup_app in Hnd as (_ & Hd & _). apply (Hd x); set_solver.
      + apply ptr_eqb_true.
  Qed.
End BinRep.
