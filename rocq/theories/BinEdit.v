(** BinEdit.v: editing binary trees in the heap: [replace_with],
    [prepend_child], [append_child]. *)
From Verif Require Import Base Spec BinaryNode NavFacts Rep EditSpec BinOrder BinRep BinOps.

Section BinEdit.
  Context {V : Type} `{EqDecision V}.
  Notation heap := (gmap addr (bnode V)).
  Notation btree := (bin (addr * V)).
  Notation bctx := (list (bframe (addr * V))).
  Implicit Types (t l r s u : btree) (c : bctx).

  Lemma bsub_out a t : a ∉ baddrs t -> bsub a t = BLeaf.
  Proof.
    induction t as [|[x v] l IHl r IHr]; [reflexivity|]. rewrite baddrs_node. intros Ha. cbn.
    rewrite decide_False by set_solver. rewrite IHl, IHr by set_solver. reflexivity.
  Qed.
  Lemma bsubst_out a u t : a ∉ baddrs t -> bsubst a u t = t.
  Proof.
    induction t as [|[x v] l IHl r IHr]; [reflexivity|]. rewrite baddrs_node. intros Ha. cbn.
    rewrite decide_False by set_solver. rewrite IHl, IHr by set_solver. reflexivity.
  Qed.
  Lemma baddrs_position a t : a ∈ baddrs t -> exists c s, t = bplug c s /\ baddr s = Some a.
  Proof.
    induction t as [|[x v] l IHl r IHr]; [intros Ha; apply elem_of_nil in Ha as []|].
    rewrite baddrs_node, elem_of_cons, elem_of_app. intros [->|[Ha|Ha]].
    - exists [], (BNode (x, v) l r). auto.
    - destruct (IHl Ha) as (c & s & -> & Hs). exists (c ++ [LeftOf (x, v) r]), s. rewrite bplug_app. auto.
    - destruct (IHr Ha) as (c & s & -> & Hs). exists (c ++ [RightOf (x, v) l]), s. rewrite bplug_app. auto.
  Qed.
  Lemma NoDup_bplug c s : NoDup (baddrs (bplug c s)) ->
    NoDup (baddrs s) /\ NoDup (bctx_addrs c) /\ (forall x, x ∈ baddrs s -> x ∉ bctx_addrs c).
  Proof. rewrite baddrs_bplug. intros Hn. apply NoDup_app in Hn as (H1 & H2 & H3). auto. Qed.
  Lemma bctx_addrs_app c c' : bctx_addrs (c ++ c') = bctx_addrs c ++ bctx_addrs c'.
  Proof.
    induction c as [|[[a v] x|[a v] x] c IH]; cbn; [reflexivity| |]; rewrite IH, <- app_assoc; reflexivity.
  Qed.
  Lemma bsubst_plug a u c s : baddr s = Some a -> a ∉ bctx_addrs c -> bsubst a u (bplug c s) = bplug c u.
  Proof.
    intros Hs. induction c as [|f c IH] using rev_ind; intros Ha.
    - apply baddr_root in Hs as (v & l & r & ->). cbn. rewrite decide_True by reflexivity. reflexivity.
    - rewrite bctx_addrs_app in Ha. rewrite !bplug_app.
      destruct f as [[b w] r|[b w] l]; cbn [bctx_addrs] in Ha; cbn; rewrite decide_False by set_solver;
        rewrite IH by set_solver; rewrite bsubst_out by set_solver; reflexivity.
  Qed.
  Lemma bsub_plug a c s : baddr s = Some a -> a ∉ bctx_addrs c -> bsub a (bplug c s) = s.
  Proof.
    intros Hs. induction c as [|f c IH] using rev_ind; intros Ha.
    - apply baddr_root in Hs as (v & l & r & ->). cbn. rewrite decide_True by reflexivity. reflexivity.
    - rewrite bctx_addrs_app in Ha. rewrite !bplug_app. assert (Hne : s <> BLeaf) by (destruct s; discriminate).
      destruct f as [[b w] r|[b w] l]; cbn [bctx_addrs] in Ha; cbn; rewrite decide_False by set_solver.
      + rewrite IH by set_solver. destruct s; congruence.
      + rewrite (bsub_out a l) by set_solver. apply IH. set_solver.
  Qed.

  (** A new subtree under the same parent and at the same address. *)
  Lemma brep_change h h' par c s s' :
    brep h par (bplug c s) -> (forall x, x ∈ bctx_addrs c -> h' !! x = h !! x) ->
    baddr s' = baddr s -> brep h' (cpar par c) s' -> brep h' par (bplug c s').
  Proof.
    intros Hr Hh Ha Hs. apply brep_bplug in Hr as [Hc _]. apply brep_bplug. rewrite Ha.
    split; [eapply bctx_rep_ext; eassumption|exact Hs].
  Qed.

  (** *** replace_with *)
  Lemma b_replace_root h a t u : brep h None t -> baddr t = Some a -> brep h None u ->
    b_replace_with h (Some a) (baddr u) = Ok h.
  Proof.
    intros Ht Ha Hu. apply baddr_root in Ha as (v & l & r & ->). cbn [brep] in Ht. destruct Ht as (Ha & _).
    unfold b_replace_with, b_parent. destruct u as [|[b w] ul ur]; cbn [baddr].
    - cbn. rewrite (deref_Some _ _ _ Ha). reflexivity.
    - cbn [brep] in Hu. destruct Hu as (Hb & _). rewrite (deref_Some _ _ _ Hb), (deref_Some _ _ _ Ha). reflexivity.
  Qed.

  Lemma b_replace_ok h c s a u :
    brep h None (bplug c s) -> NoDup (baddrs (bplug c s)) -> baddr s = Some a -> c <> [] ->
    brep h None u -> NoDup (baddrs u) -> (forall x, x ∈ baddrs u -> x ∉ baddrs (bplug c s)) ->
    exists h', b_replace_with h (Some a) (baddr u) = Ok h' /\
      brep h' None (bplug c u) /\ brep h' None s /\
      (forall x, x ∉ baddrs (bplug c s) -> x ∉ baddrs u -> h' !! x = h !! x).
  Proof.
    intros Hr Hnd Ha Hc Hu Hndu Hdis.
    pose proof (NoDup_bplug _ _ Hnd) as (Hnds & Hndc & Hdsc).
    assert (Hdu : forall x, x ∈ baddrs u -> x ∉ baddrs s /\ x ∉ bctx_addrs c).
    { intros x Hx. apply Hdis in Hx. rewrite baddrs_bplug in Hx. set_solver +Hx. }
    pose proof (baddr_in _ _ Ha) as Hains.
    apply brep_bplug in Hr as [Hcr Hsr].
    destruct (brep_dom _ _ _ _ Hsr Hains) as (n & Hn).
    assert (Hpn : bparent n = cpar None c).
    { apply baddr_root in Ha as (v & l & r & ->). cbn in Hsr. destruct Hsr as (Hx & _).
      rewrite Hx in Hn. injection Hn as <-. reflexivity. }
    (* the parent of the replaced node *)
    assert (Hq : exists q, cpar None c = Some q /\ q ∈ bctx_addrs c /\ exists m, h !! q = Some m /\
              (exists il : bool, ptr_eqb (Some a) (bleft m) = il /\
               forall h', h' !! q = Some ((if il then bset_left (baddr u) else bset_right (baddr u)) m) ->
                 (forall x, x ∈ bctx_addrs c -> x <> q -> h' !! x = h !! x) ->
                 bctx_rep h' None c (baddr u))).
    { destruct c as [|[[q w] r|[q w] l] c]; [congruence| |]; cbn [cpar fst bctx_addrs bctx_rep] in *;
        exists q; (split; [reflexivity|]); (split; [set_solver +|]); destruct Hcr as (Hm & Hsib & Hup);
        rewrite Ha in Hm; eexists; (split; [exact Hm|]); cbn [bleft].
      - exists true. split; [apply ptr_eqb_true|]. intros h' Hq' Ho. split; [rewrite Hq'; reflexivity|].
        assert (Hqr : q ∉ baddrs r /\ q ∉ bctx_addrs c). { apply NoDup_cons in Hndc as [Hq _]. set_solver +Hq. }
        split; [eapply brep_ext; [|exact Hsib]|eapply bctx_rep_ext; [|exact Hup]]; intros x Hx; apply Ho;
          [set_solver +Hx|intros ->; tauto|set_solver +Hx|intros ->; tauto].
      - exists false. split.
        { apply ptr_eqb_false. intros Heq. symmetry in Heq. apply baddr_in in Heq. apply (Hdsc a Hains). set_solver +Heq. }
        intros h' Hq' Ho. split; [rewrite Hq'; reflexivity|].
        assert (Hqr : q ∉ baddrs l /\ q ∉ bctx_addrs c). { apply NoDup_cons in Hndc as [Hq _]. set_solver +Hq. }
        split; [eapply brep_ext; [|exact Hsib]|eapply bctx_rep_ext; [|exact Hup]]; intros x Hx; apply Ho;
          [set_solver +Hx|intros ->; tauto|set_solver +Hx|intros ->; tauto]. }
    destruct Hq as (q & Hcq & Hqin & m & Hm & il & Hil & Hctx).
    assert (Haq : a <> q). { intros ->. exact (Hdsc _ Hains Hqin). }
    unfold b_replace_with, b_parent, b_is_left, b_left. rewrite !(deref_Some _ _ _ Hn). cbn [mbind res_bind].
    rewrite Hpn, Hcq. rewrite (deref_Some _ _ _ Hm). cbn [mbind res_bind]. rewrite Hil.
    set (m' := (if il then bset_left (baddr u) else bset_right (baddr u)) m).
    assert (Hg : (match baddr u with
              | None => Ok ()
              | Some _ => q0 ← (n0 ← deref h (baddr u); Ok (bparent n0)); guard_res (is_null q0) end) = Ok ()).
    { destruct u as [|[b w] ul ur]; [reflexivity|]. cbn [baddr]. cbn [brep] in Hu. destruct Hu as (Hb & _).
      rewrite (deref_Some _ _ _ Hb). reflexivity. }
    cbn [mbind res_bind] in Hg. rewrite Hg. clear Hg. cbn [mbind res_bind].
    rewrite (update_Some _ _ _ _ Hm). cbn [mbind res_bind].
    replace (((if il then bset_left (baddr u) else bset_right (baddr u)) m)) with m' by reflexivity.
    (* attach the replacement *)
    assert (H2 : exists h2, (match baddr u with None => Ok (<[q:=m']> h) | Some _ => b_attach_child (<[q:=m']> h) (Some q) (baddr u) end) = Ok h2 /\
              brep h2 (Some q) u /\ forall x, x ∉ baddrs u -> h2 !! x = <[q:=m']> h !! x).
    { assert (Hqu : q ∉ baddrs u) by (intros Hx; apply Hdu in Hx as [_ Hx]; exact (Hx Hqin)).
      assert (Hu1 : brep (<[q:=m']> h) None u) by (apply brep_insert; assumption).
      destruct (baddr u) as [b|] eqn:Eb.
      - destruct (brep_dom _ _ _ b Hu1 (baddr_in _ _ Eb)) as (nb & Hnb). unfold b_attach_child. cbn [is_null negb guard_res].
        cbn [mbind res_bind]. rewrite (update_Some _ _ _ _ Hnb). eexists. split; [reflexivity|].
        split; [eapply brep_set_parent; eassumption|].
        intros x Hx. rewrite lookup_insert_ne; [reflexivity|]. intros ->. apply Hx, baddr_in, Eb.
      - destruct u as [|[? ?] ? ?]; [|discriminate]. eexists. split; [reflexivity|]. split; [exact I|auto]. }
    destruct H2 as (h2 & -> & Hu2 & Ho2). cbn [mbind res_bind].
    assert (Hau : a ∉ baddrs u). { intros Hx. apply Hdu in Hx as [Hx _]. exact (Hx Hains). }
    assert (Ha2 : h2 !! a = Some n).
    { rewrite Ho2 by exact Hau. rewrite lookup_insert_ne by congruence. exact Hn. }
    rewrite (update_Some _ _ _ _ Ha2). eexists. split; [reflexivity|].
    assert (Hs2 : brep h2 (cpar None c) s).
    { eapply brep_ext; [|exact Hsr]. intros x Hx. rewrite Ho2 by (intros Hxu; apply Hdu in Hxu as [Hxu _]; exact (Hxu Hx)).
      rewrite lookup_insert_ne; [reflexivity|]. intros ->. exact (Hdsc _ Hx Hqin). }
    split; [|split].
    - apply brep_bplug. rewrite Hcq. split; [|apply brep_insert; assumption].
      assert (Hqu : q ∉ baddrs u) by (intros Hx; apply Hdu in Hx as [_ Hx]; exact (Hx Hqin)).
      apply Hctx.
      + rewrite lookup_insert_ne by congruence. rewrite Ho2 by exact Hqu. apply lookup_insert.
      + intros x Hx Hxq. rewrite lookup_insert_ne by (intros ->; exact (Hdsc _ Hains Hx)).
        rewrite Ho2 by (intros Hxu; apply Hdu in Hxu as [_ Hxu]; exact (Hxu Hx)).
        rewrite lookup_insert_ne by congruence. reflexivity.
    - eapply brep_set_parent; eassumption.
    - intros x Hx Hxu. rewrite baddrs_bplug in Hx.
      rewrite lookup_insert_ne by (intros ->; apply Hx; set_solver +Hains).
      rewrite Ho2 by exact Hxu. rewrite lookup_insert_ne; [reflexivity|]. intros ->. apply Hx. set_solver +Hqin.
  Qed.

  (** *** prepend_child / append_child *)
  (** The children slots after adding [u] as first or last child of a node
      with the slots [l], [r], one of which is free. *)
  Lemma badd_out first a u t : a ∉ baddrs t -> badd first a u t = t.
  Proof.
    induction t as [|[x v] l IHl r IHr]; [reflexivity|]. rewrite baddrs_node. intros Ha. cbn.
    rewrite decide_False by set_solver. rewrite IHl, IHr by set_solver. reflexivity.
  Qed.
  Lemma badd_plug first a v l r u c : a ∉ bctx_addrs c ->
    badd first a u (bplug c (BNode (a, v) l r)) =
      bplug c (BNode (a, v) (fst (bslots first u l r)) (snd (bslots first u l r))).
  Proof.
    induction c as [|f c IH] using rev_ind; intros Ha.
    - cbn. rewrite decide_True by reflexivity. destruct (bslots first u l r). reflexivity.
    - rewrite bctx_addrs_app in Ha. rewrite !bplug_app.
      destruct f as [[b w] x|[b w] x]; cbn [bctx_addrs] in Ha; cbn; rewrite decide_False by set_solver;
        rewrite IH by set_solver; rewrite badd_out by set_solver; reflexivity.
  Qed.

  (** After the slots of a node are rewritten and the new child is attached. *)
  Lemma b_add_finish h c a v l r u l' r' b nb :
    brep h None (bplug c (BNode (a, v) l r)) -> NoDup (baddrs (bplug c (BNode (a, v) l r))) ->
    brep h None u -> NoDup (baddrs u) -> baddr u = Some b -> h !! b = Some nb ->
    (forall x, x ∈ baddrs u -> x ∉ baddrs (bplug c (BNode (a, v) l r))) ->
    (l' = u /\ (r' = l \/ r' = r) \/ r' = u /\ (l' = l \/ l' = r)) ->
    brep (<[a := BNodeR v (cpar None c) (baddr l') (baddr r')]> (<[b := bset_parent (Some a) nb]> h)) None
      (bplug c (BNode (a, v) l' r')).
  Proof.
    intros Hr Hnd Hu Hndu Hb Hnb Hdis Hcase.
    pose proof (NoDup_bplug _ _ Hnd) as (Hnds & _ & Hdsc).
    assert (Hain : a ∈ baddrs (BNode (a, v) l r)) by (rewrite baddrs_node; set_solver +).
    pose proof (NoDup_baddrs_inv _ _ _ _ Hnds) as (Hal & Har & Hndl & Hndr & Hdlr).
    pose proof (baddr_in _ _ Hb) as Hbin.
    assert (Hdu : forall x, x ∈ baddrs u -> x <> a /\ x ∉ baddrs l /\ x ∉ baddrs r /\ x ∉ bctx_addrs c).
    { intros x Hx. apply Hdis in Hx. rewrite baddrs_bplug, baddrs_node in Hx. set_solver +Hx. }
    destruct (Hdu b Hbin) as (Hba & Hbl & Hbr & Hbc).
    pose proof Hr as Hr0. apply brep_bplug in Hr as [_ Hsr]. cbn [brep] in Hsr. destruct Hsr as (_ & Hl & Hr).
    assert (Hu' : forall n, brep (<[a := n]> (<[b := bset_parent (Some a) nb]> h)) (Some a) u).
    { intros n'. apply brep_insert; [intros Hx; apply Hdu in Hx; tauto|]. eapply brep_set_parent; eassumption. }
    assert (Hl' : forall n, brep (<[a := n]> (<[b := bset_parent (Some a) nb]> h)) (Some a) l)
      by (intros n'; do 2 (apply brep_insert; [assumption|]); exact Hl).
    assert (Hr' : forall n, brep (<[a := n]> (<[b := bset_parent (Some a) nb]> h)) (Some a) r)
      by (intros n'; do 2 (apply brep_insert; [assumption|]); exact Hr).
    eapply brep_change; [exact Hr0| |reflexivity|].
    - intros x Hx. rewrite !lookup_insert_ne; [reflexivity| |]; intros ->; [exact (Hbc Hx)|exact (Hdsc _ Hain Hx)].
    - cbn [brep]. rewrite lookup_insert. split; [reflexivity|].
      destruct Hcase as [(-> & [->| ->])|(-> & [->| ->])]; auto.
  Qed.
  Lemma b_prepend_ok h c a v l r u b :
    brep h None (bplug c (BNode (a, v) l r)) -> NoDup (baddrs (bplug c (BNode (a, v) l r))) ->
    l = BLeaf \/ r = BLeaf ->
    brep h None u -> NoDup (baddrs u) -> baddr u = Some b ->
    (forall x, x ∈ baddrs u -> x ∉ baddrs (bplug c (BNode (a, v) l r))) ->
    exists h', b_prepend_child h (Some a) (Some b) = Ok (Some b, h') /\
      brep h' None (bplug c (BNode (a, v) (fst (bslots true u l r)) (snd (bslots true u l r)))) /\
      (forall x, x ∉ baddrs (bplug c (BNode (a, v) l r)) -> x ∉ baddrs u -> h' !! x = h !! x).
  Proof.
    intros Hr Hnd Hfree Hu Hndu Hb Hdis.
    destruct (brep_dom _ _ _ b Hu (baddr_in _ _ Hb)) as (nb & Hnb).
    assert (Hba : b <> a).
    { intros ->. eapply Hdis; [apply baddr_in, Hb|]. rewrite baddrs_bplug, baddrs_node. set_solver +. }
    pose proof Hr as Hr0. apply brep_bplug in Hr as [_ Hsr]. cbn [brep] in Hsr. destruct Hsr as (Ha & _ & _).
    unfold b_prepend_child. rewrite (deref_Some _ _ _ Ha). cbn [mbind res_bind bright bleft].
    set (r' := match r with BLeaf => l | _ => r end).
    exists (<[a := BNodeR v (cpar None c) (baddr u) (baddr r')]> (<[b := bset_parent (Some a) nb]> h)).
    split; [|split].
    - unfold b_attach_child. destruct r as [|[rb rv] rl rr]; cbn [is_null baddr].
      + rewrite (update_Some _ _ _ _ Ha). cbn [mbind res_bind bset_right bval bparent bleft].
        erewrite update_Some by apply lookup_insert. cbn [mbind res_bind bset_left bval bparent bright].
        rewrite insert_insert. erewrite deref_Some by apply lookup_insert. cbn [mbind res_bind bleft is_null negb guard_res].
        erewrite update_Some by (rewrite lookup_insert_ne by congruence; exact Hnb). cbn [mbind res_bind].
        erewrite update_Some by (rewrite lookup_insert_ne by congruence; apply lookup_insert).
        cbn [mbind res_bind bset_left bval bparent bright]. rewrite Hb. subst r'.
        rewrite (insert_commute _ b a) by congruence. rewrite insert_insert. reflexivity.
      + destruct Hfree as [->|Hx]; [|discriminate]. cbn [mbind res_bind baddr].
        rewrite (deref_Some _ _ _ Ha). cbn [mbind res_bind bleft is_null negb guard_res baddr].
        rewrite (update_Some _ _ _ _ Hnb). cbn [mbind res_bind].
        erewrite update_Some by (rewrite lookup_insert_ne by congruence; exact Ha).
        cbn [mbind res_bind bset_left bval bparent bright]. rewrite Hb. subst r'. reflexivity.
    - cbn [bslots fst snd]. fold r'. refine (b_add_finish _ _ _ _ _ _ _ _ _ _ _ Hr0 Hnd Hu Hndu Hb Hnb Hdis _). left. split; [reflexivity|].
      subst r'. destruct r; auto.
    - intros x Hx Hxu. rewrite baddrs_bplug, baddrs_node in Hx.
      rewrite !lookup_insert_ne; [reflexivity| |]; intros ->; [apply Hxu, baddr_in, Hb|apply Hx; set_solver +].
  Qed.
  Lemma b_append_ok h c a v l r u b :
    brep h None (bplug c (BNode (a, v) l r)) -> NoDup (baddrs (bplug c (BNode (a, v) l r))) ->
    l = BLeaf \/ r = BLeaf ->
    brep h None u -> NoDup (baddrs u) -> baddr u = Some b ->
    (forall x, x ∈ baddrs u -> x ∉ baddrs (bplug c (BNode (a, v) l r))) ->
    exists h', b_append_child h (Some a) (Some b) = Ok (Some b, h') /\
      brep h' None (bplug c (BNode (a, v) (fst (bslots false u l r)) (snd (bslots false u l r)))) /\
      (forall x, x ∉ baddrs (bplug c (BNode (a, v) l r)) -> x ∉ baddrs u -> h' !! x = h !! x).
  Proof.
    intros Hr Hnd Hfree Hu Hndu Hb Hdis.
    destruct (brep_dom _ _ _ b Hu (baddr_in _ _ Hb)) as (nb & Hnb).
    assert (Hba : b <> a).
    { intros ->. eapply Hdis; [apply baddr_in, Hb|]. rewrite baddrs_bplug, baddrs_node. set_solver +. }
    pose proof Hr as Hr0. apply brep_bplug in Hr as [_ Hsr]. cbn [brep] in Hsr. destruct Hsr as (Ha & _ & _).
    unfold b_append_child. rewrite (deref_Some _ _ _ Ha). cbn [mbind res_bind bright bleft].
    set (l' := match l with BLeaf => r | _ => l end).
    exists (<[a := BNodeR v (cpar None c) (baddr l') (baddr u)]> (<[b := bset_parent (Some a) nb]> h)).
    split; [|split].
    - unfold b_attach_child. destruct l as [|[lb lv] ll lr]; cbn [is_null baddr].
      + rewrite (update_Some _ _ _ _ Ha). cbn [mbind res_bind bset_left bval bparent bright].
        erewrite update_Some by apply lookup_insert. cbn [mbind res_bind bset_right bval bparent bleft].
        rewrite insert_insert. erewrite deref_Some by apply lookup_insert. cbn [mbind res_bind bright is_null negb guard_res].
        erewrite update_Some by (rewrite lookup_insert_ne by congruence; exact Hnb). cbn [mbind res_bind].
        erewrite update_Some by (rewrite lookup_insert_ne by congruence; apply lookup_insert).
        cbn [mbind res_bind bset_right bval bparent bleft]. rewrite Hb. subst l'.
        rewrite (insert_commute _ b a) by congruence. rewrite insert_insert. reflexivity.
      + destruct Hfree as [Hx| ->]; [discriminate|]. cbn [mbind res_bind baddr].
        rewrite (deref_Some _ _ _ Ha). cbn [mbind res_bind bright is_null negb guard_res baddr].
        rewrite (update_Some _ _ _ _ Hnb). cbn [mbind res_bind].
        erewrite update_Some by (rewrite lookup_insert_ne by congruence; exact Ha).
        cbn [mbind res_bind bset_right bval bparent bleft]. rewrite Hb. subst l'. reflexivity.
    - cbn [bslots fst snd]. fold l'. refine (b_add_finish _ _ _ _ _ _ _ _ _ _ _ Hr0 Hnd Hu Hndu Hb Hnb Hdis _). right. split; [reflexivity|].
      subst l'. destruct l; auto.
    - intros x Hx Hxu. rewrite baddrs_bplug, baddrs_node in Hx.
      rewrite !lookup_insert_ne; [reflexivity| |]; intros ->; [apply Hxu, baddr_in, Hb|apply Hx; set_solver +].
  Qed.
End BinEdit.
