(** BinOps.v: building, copying, releasing, comparing and counting binary nodes
    in the heap. *)
From Verif Require Import Base Spec StructNode BinaryNode NaryNode Nav Policy Tree RoseFacts RowFacts
  NavFacts Orders PolicyFacts BinOrder Rep BinRep.

Section BinOps.
  Context {V : Type} `{EqDecision V}.
  Notation heap := (gmap addr (bnode V)).
  Notation btree := (bin (addr * V)).
  Implicit Types (t l r s u : btree).

  (** The heap [h'] is [h] plus the nodes of a new tree [t] at addresses that
      were free in [h]. *)
  Definition bbuilt (h h' : heap) t : Prop :=
    brep h' None t /\ NoDup (baddrs t) /\
    (forall x, x ∈ baddrs t -> h !! x = None) /\
    (forall x, x ∉ baddrs t -> h' !! x = h !! x).

  Lemma bbuilt_leaf h : bbuilt h h BLeaf.
  Proof. split; [exact I|]. split; [constructor|]. split; [|auto]. intros x Hx. apply elem_of_nil in Hx as []. Qed.
  Lemma bbuilt_old h h' t x n : bbuilt h h' t -> h !! x = Some n -> h' !! x = Some n.
  Proof.
    intros (_ & _ & Hnew & Hold) Hx. rewrite Hold; [exact Hx|]. intros Hin. rewrite (Hnew _ Hin) in Hx. discriminate.
  Qed.
  Lemma brep_grow h h' par t : (forall x n, h !! x = Some n -> h' !! x = Some n) -> brep h par t -> brep h' par t.
  Proof.
    intros Hh Hr. eapply brep_ext; [|exact Hr]. intros a Ha.
    destruct (brep_dom _ _ _ _ Hr Ha) as (n & Hn). rewrite Hn. apply Hh. exact Hn.
  Qed.

  (** Changing the parent of a root. *)
  Lemma brep_set_parent h par par' t a n :
    brep h par t -> NoDup (baddrs t) -> baddr t = Some a -> h !! a = Some n ->
    brep (<[a := bset_parent par' n]> h) par' t.
  Proof.
    intros Hr Hnd Ha Hn. apply baddr_root in Ha as (v & l & r & ->). cbn [brep] in *.
    destruct Hr as (H1 & H2 & H3). pose proof (NoDup_baddrs_inv _ _ _ _ Hnd) as (Hl & Hrr & _).
    rewrite H1 in Hn. injection Hn as <-. rewrite lookup_insert. split; [reflexivity|].
    split; (eapply brep_ext; [|eassumption]); intros x Hx; rewrite lookup_insert_ne; set_solver.
  Qed.
  (** Writing outside a tree. *)
  Lemma brep_insert h par t a n : a ∉ baddrs t -> brep h par t -> brep (<[a := n]> h) par t.
  Proof. intros Ha. apply brep_ext. intros x Hx. rewrite lookup_insert_ne; [reflexivity|]. intros ->. auto. Qed.

  (** [attach_child()] on a node that already points at its children. *)
  Lemma b_attach_ok h a v l r :
    h !! a = Some (BNodeR v None (baddr l) (baddr r)) ->
    brep h None l -> brep h None r -> NoDup (baddrs (BNode (a, v) l r)) ->
    exists h', b_attach_children h a = Ok h' /\ brep h' None (BNode (a, v) l r) /\
      (forall x, x ∉ baddrs (BNode (a, v) l r) -> h' !! x = h !! x).
  Proof.
    intros Ha Hl Hr Hnd. pose proof (NoDup_baddrs_inv _ _ _ _ Hnd) as (Hal & Har & Hndl & Hndr & Hd).
    unfold b_attach_children. rewrite (deref_Some _ _ _ Ha). cbn [mbind res_bind bleft bright].
    assert (H1 : exists h1, (if is_null (baddr l) then Ok h else update h (baddr l) (bset_parent (Some a))) = Ok h1 /\
              brep h1 (Some a) l /\ forall x, x ∉ baddrs l -> h1 !! x = h !! x).
    { destruct (baddr l) as [b|] eqn:Eb.
      - destruct (brep_dom _ _ _ b Hl (baddr_in _ _ Eb)) as (n & Hn). cbn [is_null].
        rewrite (update_Some _ _ _ _ Hn). eexists. split; [reflexivity|].
        split; [eapply brep_set_parent; eassumption|].
        intros x Hx. rewrite lookup_insert_ne; [reflexivity|]. intros ->. apply Hx, baddr_in, Eb.
      - destruct l as [|[? ?] ? ?]; [|discriminate]. exists h. cbn. auto. }
    destruct H1 as (h1 & -> & Hl1 & Ho1). cbn [mbind res_bind].
    assert (Hr1 : brep h1 None r) by (eapply brep_ext; [|exact Hr]; intros x Hx; apply Ho1; intros Hx'; exact (Hd x Hx' Hx)).
    assert (H2 : exists h2, (if is_null (baddr r) then Ok h1 else update h1 (baddr r) (bset_parent (Some a))) = Ok h2 /\
              brep h2 (Some a) r /\ forall x, x ∉ baddrs r -> h2 !! x = h1 !! x).
    { destruct (baddr r) as [b|] eqn:Eb.
      - destruct (brep_dom _ _ _ b Hr1 (baddr_in _ _ Eb)) as (n & Hn). cbn [is_null].
        rewrite (update_Some _ _ _ _ Hn). eexists. split; [reflexivity|].
        split; [eapply brep_set_parent; eassumption|].
        intros x Hx. rewrite lookup_insert_ne; [reflexivity|]. intros ->. apply Hx, baddr_in, Eb.
      - destruct r as [|[? ?] ? ?]; [|discriminate]. exists h1. cbn. auto. }
    destruct H2 as (h2 & -> & Hr2 & Ho2). exists h2. split; [reflexivity|]. split.
    - cbn [brep]. split; [rewrite Ho2, Ho1 by assumption; exact Ha|]. split; [|exact Hr2].
      eapply brep_ext; [|exact Hl1]. intros x Hx. apply Ho2. exact (Hd x Hx).
    - intros x Hx. rewrite baddrs_node in Hx. rewrite Ho2, Ho1 by set_solver +Hx. reflexivity.
  Qed.

  (** The common body of the recursive constructors. *)
  Lemma b_assemble h a v h1 l :
    h !! a = None -> bbuilt (<[a := BNodeR v None None None]> h) h1 l ->
    exists h1', update h1 (Some a) (bset_left (baddr l)) = Ok h1' /\
    (forall x n, h !! x = Some n -> h1' !! x = Some n) /\
    forall h2 r, bbuilt h1' h2 r ->
    exists h2' h3, update h2 (Some a) (bset_right (baddr r)) = Ok h2' /\
      b_attach_children h2' a = Ok h3 /\ bbuilt h h3 (BNode (a, v) l r).
  Proof.
    intros Hfree Hb. pose proof Hb as (Hl & Hndl & Hnewl & Holdl).
    assert (Hal : a ∉ baddrs l). { intros Hin. apply Hnewl in Hin. rewrite lookup_insert in Hin. discriminate. }
    assert (Ha1 : h1 !! a = Some (BNodeR v None None None)).
    { rewrite Holdl by exact Hal. apply lookup_insert. }
    rewrite (update_Some _ _ _ _ Ha1). eexists. split; [reflexivity|]. cbn [bset_left bval bparent bright].
    split.
    { intros x n Hx. rewrite lookup_insert_ne by congruence. eapply bbuilt_old; [exact Hb|].
      rewrite lookup_insert_ne by congruence. exact Hx. }
    intros h2 r Hb2. pose proof Hb2 as (Hr & Hndr & Hnewr & Holdr).
    assert (Har : a ∉ baddrs r). { intros Hin. apply Hnewr in Hin. rewrite lookup_insert in Hin. discriminate. }
    assert (Ha2 : h2 !! a = Some (BNodeR v None (baddr l) None)).
    { rewrite Holdr by exact Har. apply lookup_insert. }
    rewrite (update_Some _ _ _ _ Ha2). cbn [bset_right bval bparent bleft].
    assert (Hd : forall x, x ∈ baddrs l -> x ∉ baddrs r).
    { intros x Hx Hx'. apply Hnewr in Hx'. rewrite lookup_insert_ne in Hx' by congruence.
      destruct (brep_dom _ _ _ _ Hl Hx) as (n & Hn). congruence. }
    assert (Hnd : NoDup (baddrs (BNode (a, v) l r))) by (apply NoDup_baddrs_node; assumption).
    edestruct (b_attach_ok (<[a:=BNodeR v None (baddr l) (baddr r)]> h2) a v l r) as (h3 & Hat & Hrep & Hold3).
    - apply lookup_insert.
    - apply brep_insert; [exact Hal|]. eapply brep_ext; [|exact Hl].
      intros x Hx. rewrite Holdr by auto. rewrite lookup_insert_ne by congruence. reflexivity.
    - apply brep_insert; [exact Har|exact Hr].
    - exact Hnd.
    - eexists. exists h3. split; [reflexivity|]. split; [exact Hat|]. split; [exact Hrep|]. split; [exact Hnd|].
      rewrite baddrs_node. split.
      + intros x. rewrite elem_of_cons, elem_of_app. intros [->|[Hx|Hx]]; [exact Hfree| |].
        * apply Hnewl in Hx. destruct (decide (x = a)) as [->|]; [exact Hfree|].
          rewrite lookup_insert_ne in Hx by congruence. exact Hx.
        * pose proof (Hnewr _ Hx) as Hx'. rewrite lookup_insert_ne in Hx' by congruence.
          rewrite Holdl in Hx' by (intros Hx''; exact (Hd x Hx'' Hx)). rewrite lookup_insert_ne in Hx' by congruence. exact Hx'.
      + intros x Hx. rewrite not_elem_of_cons, not_elem_of_app in Hx. destruct Hx as (Hxa & Hxl & Hxr).
        rewrite Hold3 by (rewrite baddrs_node; set_solver +Hxa Hxl Hxr). rewrite lookup_insert_ne by congruence.
        rewrite Holdr by exact Hxr. rewrite lookup_insert_ne by congruence.
        rewrite Holdl by exact Hxl. rewrite lookup_insert_ne by congruence. reflexivity.
  Qed.

  (** *** Copy *)
  Lemma b_copy_ok al t : forall fuel h par a,
    brep h par t -> baddr t = Some a -> bin_size t <= fuel ->
    exists a' h' t', b_copy fuel al h (Some a) = Ok (a', h') /\ baddr t' = Some a' /\
      bin_map snd t' = bin_map snd t /\ bbuilt h h' t'.
  Proof.
    induction t as [|[b v] l IHl r IHr]; intros fuel h par a Hr Ha Hf; [discriminate|].
    cbn in Ha. injection Ha as ->. destruct fuel as [|fuel]; [cbn in Hf; lia|].
    cbn [bin_size] in Hf. cbn [brep] in Hr. destruct Hr as (Hb & Hl & Hr).
    cbn [b_copy]. rewrite (deref_Some _ _ _ Hb). cbn [mbind res_bind bval bleft bright].
    unfold b_alloc. set (a' := new_addr al h). pose proof (new_addr_fresh al h) as Hfree. fold a' in Hfree.
    set (h0 := <[a' := BNodeR v None None None]> h).
    assert (Hgrow0 : forall x n, h !! x = Some n -> h0 !! x = Some n).
    { intros x n Hx. unfold h0. rewrite lookup_insert_ne by congruence. exact Hx. }
    assert (HL : exists h1 l', (match baddr l with
                     | None => Ok (None, h0)
                     | Some _ => '(x, h') ← b_copy fuel al h0 (baddr l); Ok (Some x, h')
                     end) = Ok (baddr l', h1) /\ bin_map snd l' = bin_map snd l /\ bbuilt h0 h1 l').
    { destruct (baddr l) as [x|] eqn:El.
      - destruct (IHl fuel h0 _ _ (brep_grow _ _ _ _ Hgrow0 Hl) eq_refl ltac:(lia)) as (x' & h1 & l' & Hc & Hx' & Hm & Hbl).
        exists h1, l'. rewrite Hc. cbn. rewrite Hx'. auto.
      - destruct l as [|[? ?] ? ?]; [|discriminate]. exists h0, BLeaf. split; [reflexivity|]. split; [reflexivity|apply bbuilt_leaf]. }
    destruct HL as (h1 & l' & -> & Hml & Hbl). cbn [mbind res_bind].
    destruct (b_assemble h a' v h1 l' Hfree Hbl) as (h1' & -> & Hgrow1 & Hrest). cbn [mbind res_bind].
    assert (HR : exists h2 r', (match baddr r with
                     | None => Ok (None, h1')
                     | Some _ => '(x, h') ← b_copy fuel al h1' (baddr r); Ok (Some x, h')
                     end) = Ok (baddr r', h2) /\ bin_map snd r' = bin_map snd r /\ bbuilt h1' h2 r').
    { destruct (baddr r) as [x|] eqn:Er.
      - destruct (IHr fuel h1' _ _ (brep_grow _ _ _ _ Hgrow1 Hr) eq_refl ltac:(lia)) as (x' & h2 & r' & Hc & Hx' & Hm & Hbr).
        exists h2, r'. rewrite Hc. cbn. rewrite Hx'. auto.
      - destruct r as [|[? ?] ? ?]; [|discriminate]. exists h1', BLeaf. split; [reflexivity|]. split; [reflexivity|apply bbuilt_leaf]. }
    destruct HR as (h2 & r' & -> & Hmr & Hbr). cbn [mbind res_bind].
    destruct (Hrest h2 r' Hbr) as (h2' & h3 & -> & Hat & Hbt). cbn [mbind res_bind]. rewrite Hat. cbn [mbind res_bind].
    exists a', h3, (BNode (a', v) l' r'). split; [reflexivity|]. split; [reflexivity|].
    split; [cbn; rewrite Hml, Hmr; reflexivity|exact Hbt].
  Qed.

  (** *** Release *)
  Lemma b_deallocate_ok t : forall fuel h par,
    brep h par t -> NoDup (baddrs t) -> bin_size t < fuel ->
    exists h', deallocate (binary_impl V) fuel h (baddr t) = Ok h' /\
      forall x, h' !! x = if bool_decide (x ∈ baddrs t) then None else h !! x.
  Proof.
    induction t as [|[a v] l IHl r IHr]; intros fuel h par Hr Hnd Hf.
    - destruct fuel as [|fuel]; [lia|]. exists h. split; [reflexivity|].
      intros x. rewrite bool_decide_eq_false_2; [reflexivity|]. apply not_elem_of_nil.
    - destruct fuel as [|fuel]; [lia|]. cbn [bin_size] in Hf. cbn [brep] in Hr. destruct Hr as (Ha & Hl & Hr).
      pose proof (NoDup_baddrs_inv _ _ _ _ Hnd) as (Hal & Har & Hndl & Hndr & Hd).
      cbn [baddr deallocate ni_resources binary_impl]. unfold b_resources.
      rewrite (deref_Some _ _ _ Ha). cbn [mbind res_bind bleft bright foldl].
      destruct (IHl fuel h _ Hl Hndl ltac:(lia)) as (h1 & -> & H1). cbn [mbind res_bind].
      assert (Hr1 : brep h1 (Some a) r).
      { eapply brep_ext; [|exact Hr]. intros x Hx. rewrite H1, bool_decide_eq_false_2; [reflexivity|intros Hx'; exact (Hd x Hx' Hx)]. }
      destruct (IHr fuel h1 _ Hr1 Hndr ltac:(lia)) as (h2 & -> & H2). cbn [mbind res_bind].
      rewrite H2, bool_decide_eq_false_2 by assumption. rewrite H1, bool_decide_eq_false_2 by assumption.
      rewrite Ha. eexists. split; [reflexivity|]. intros x. rewrite baddrs_node.
      destruct (decide (x = a)) as [->|Hxa].
      { rewrite lookup_delete, bool_decide_eq_true_2 by set_solver +. reflexivity. }
      rewrite lookup_delete_ne by congruence. rewrite H2, H1.
      destruct (decide (x ∈ baddrs r)) as [Hxr|Hxr]; [rewrite !bool_decide_eq_true_2 by set_solver +Hxr; reflexivity|].
      rewrite (bool_decide_eq_false_2 (x ∈ baddrs r)) by exact Hxr.
      destruct (decide (x ∈ baddrs l)) as [Hxl|Hxl]; [rewrite !bool_decide_eq_true_2 by set_solver +Hxl; reflexivity|].
      rewrite !bool_decide_eq_false_2 by set_solver +Hxa Hxl Hxr. reflexivity.
  Qed.

  (** *** Counting *)
  Lemma b_calculate_size_ok t : forall fuel h par a,
    brep h par t -> baddr t = Some a -> bin_size t <= fuel ->
    b_calculate_size fuel h (Some a) = Ok (N.of_nat (bin_size t) mod W64)%N.
  Proof.
    induction t as [|[b v] l IHl r IHr]; intros fuel h par a Hr Ha Hf; [discriminate|].
    cbn in Ha. injection Ha as ->. destruct fuel as [|fuel]; [cbn in Hf; lia|].
    cbn [bin_size] in Hf |- *. cbn [brep] in Hr. destruct Hr as (Hb & Hl & Hr).
    cbn [b_calculate_size]. rewrite (deref_Some _ _ _ Hb). cbn [mbind res_bind bleft bright].
    assert (HL : (match baddr l with None => Ok 0%N | Some _ => b_calculate_size fuel h (baddr l) end)
                 = Ok (N.of_nat (bin_size l) mod W64)%N).
    { destruct (baddr l) as [x|] eqn:El; [eapply IHl; eauto; lia|].
      destruct l as [|[? ?] ? ?]; [reflexivity|discriminate]. }
    assert (HR : (match baddr r with None => Ok 0%N | Some _ => b_calculate_size fuel h (baddr r) end)
                 = Ok (N.of_nat (bin_size r) mod W64)%N).
    { destruct (baddr r) as [x|] eqn:Er; [eapply IHr; eauto; lia|].
      destruct r as [|[? ?] ? ?]; [reflexivity|discriminate]. }
    rewrite HL. cbn [mbind res_bind]. rewrite HR. cbn [mbind res_bind]. f_equal. unfold wadd.
    assert (HW : W64 <> 0%N) by (unfold W64; lia).
    rewrite (N.add_mod_idemp_r 1) by exact HW. rewrite <- N.add_mod by exact HW. f_equal. lia.
  Qed.

  (** *** Comparison *)
  Global Instance bin_eq_dec {A} `{EqDecision A} : EqDecision (bin A).
  Proof. solve_decision. Defined.
  Lemma b_eq_ok t : forall fuel h1 h2 u p1 p2 a b,
    brep h1 p1 t -> brep h2 p2 u -> baddr t = Some a -> baddr u = Some b -> bin_size t <= fuel ->
    b_eq fuel h1 h2 (Some a) (Some b) = Ok (bool_decide (bin_map snd t = bin_map snd u)).
  Proof.
    induction t as [|[x v] l IHl r IHr]; intros fuel h1 h2 u p1 p2 a b Ht Hu Ha Hb Hf; [discriminate|].
    destruct u as [|[y w] ul ur]; [discriminate|]. cbn in Ha, Hb. injection Ha as ->. injection Hb as ->.
    destruct fuel as [|fuel]; [cbn in Hf; lia|]. cbn [bin_size] in Hf.
    cbn [brep] in Ht, Hu. destruct Ht as (Hx & Hl & Hr). destruct Hu as (Hy & Hul & Hur).
    cbn [b_eq]. rewrite (deref_Some _ _ _ Hx), (deref_Some _ _ _ Hy). cbn [mbind res_bind bleft bright bval].
    assert (Hnull : forall t1 t2 : btree, Bool.eqb (is_null (baddr t1)) (is_null (baddr t2)) = false ->
              bin_map snd t1 <> bin_map snd t2).
    { intros [|[? ?] ? ?] [|[? ?] ? ?]; cbn; discriminate. }
    assert (Hsub : forall t1 t2 pa1 pa2, brep h1 pa1 t1 -> brep h2 pa2 t2 ->
              Bool.eqb (is_null (baddr t1)) (is_null (baddr t2)) = true ->
              (forall c d, baddr t1 = Some c -> baddr t2 = Some d ->
                 b_eq fuel h1 h2 (Some c) (Some d) = Ok (bool_decide (bin_map snd t1 = bin_map snd t2))) ->
              (if is_null (baddr t1) then Ok true else b_eq fuel h1 h2 (baddr t1) (baddr t2))
              = Ok (bool_decide (bin_map snd t1 = bin_map snd t2))).
    { intros [|[c ?] ? ?] [|[d ?] ? ?] pa1 pa2 _ _ Hn Hc; cbn in Hn |- *; try discriminate; [|apply Hc; reflexivity].
      rewrite bool_decide_eq_true_2; reflexivity. }
    destruct (Bool.eqb (is_null (baddr l)) (is_null (baddr ul))) eqn:Enl; cbn [negb orb].
    2:{ rewrite bool_decide_eq_false_2; [reflexivity|]. cbn. intros [=_ Heq _]. exact (Hnull _ _ Enl Heq). }
    destruct (Bool.eqb (is_null (baddr r)) (is_null (baddr ur))) eqn:Enr; cbn [negb orb].
    2:{ rewrite bool_decide_eq_false_2; [reflexivity|]. cbn. intros [=_ _ Heq]. exact (Hnull _ _ Enr Heq). }
    destruct (decide (v = w)) as [->|Hvw].
    2:{ rewrite (bool_decide_eq_false_2 (v = w)) by exact Hvw. cbn [negb].
        rewrite bool_decide_eq_false_2; [reflexivity|]. cbn. congruence. }
    rewrite (bool_decide_eq_true_2 (w = w)) by reflexivity. cbn [negb].
    rewrite (Hsub l ul _ _ Hl Hul Enl).
    2:{ intros c d Hc Hd. eapply IHl; eauto; lia. }
    cbn [mbind res_bind]. destruct (decide (bin_map snd l = bin_map snd ul)) as [El|El].
    2:{ rewrite (bool_decide_eq_false_2 (bin_map snd l = _)) by exact El. cbn [negb].
        rewrite bool_decide_eq_false_2; [reflexivity|]. cbn. congruence. }
    rewrite (bool_decide_eq_true_2 (bin_map snd l = _)) by exact El. cbn [negb].
    rewrite (Hsub r ur _ _ Hr Hur Enr).
    2:{ intros c d Hc Hd. eapply IHr; eauto; lia. }
    cbn [mbind res_bind]. destruct (decide (bin_map snd r = bin_map snd ur)) as [Er|Er].
    - rewrite (bool_decide_eq_true_2 (bin_map snd r = _)) by exact Er. cbn [negb].
      rewrite bool_decide_eq_true_2; [reflexivity|]. cbn. congruence.
    - rewrite (bool_decide_eq_false_2 (bin_map snd r = _)) by exact Er. cbn [negb].
      rewrite bool_decide_eq_false_2; [reflexivity|]. cbn. congruence.
  Qed.
End BinOps.
