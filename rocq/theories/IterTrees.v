(** IterTrees.v: iteration over binary and n-ary trees in place (whole trees or
    subtrees). *)
From Verif Require Import Base Spec StructNode LitFacts BinaryNode NaryNode Nav Policy Tree RoseFacts RowFacts
  NavFacts BranchFacts Orders PolicyFacts BinOrder Rep BinRep NaryRep User Iter.

Lemma leaves_in {A} (t : rose A) x : x ∈ leaves t -> x ∈ preorder t.
Proof.
  induction t as [a cs IH] using rose_ind'. destruct cs as [|c cs]; [auto|].
  change (x ∈ flat_map leaves (c :: cs) -> x ∈ a :: flat_map preorder (c :: cs)).
  rewrite elem_of_flat_map. intros (s & Hs & Hx). apply elem_of_cons. right. apply elem_of_flat_map. exists s.
  split; [exact Hs|]. rewrite Forall_forall in IH. apply (IH s Hs Hx).
Qed.

Section Rose.
  Context {V : Type}.
  Variable nav : navigator.
  Variable t : rose (addr * V).
  Variable F : nat.
  Hypothesis Hok : nav_ok nav (rose_map fst t).
  Hypothesis HF : rsize t < F.
  Local Lemma HF' : rsize (rose_map fst t) <= F.
  Proof. rewrite rsize_map. lia. Qed.

  Lemma rose_order_map k : map fst (rose_order k t) = rose_order k (rose_map fst t).
  Proof.
    destruct k; cbn.
    - rewrite preorder_map. reflexivity.
    - rewrite postorder_map. reflexivity.
    - reflexivity.
    - rewrite levelorder_map. reflexivity.
    - rewrite leaves_map. reflexivity.
    - rewrite children_map, !map_map. apply map_ext. intros s. symmetry. apply label_map.
    - reflexivity.
  Qed.
  Lemma full_rose k : two_way_nary k -> full_order F nav k (map fst (rose_order k t)).
  Proof.
    rewrite rose_order_map. intros Hk. split. pose proof HF' as H'. destruct Hk as [->|[->| ->]].
    - exists st_nil. split; [|split; [|split; [|split]]].
      + apply pre_steps; assumption.
      + apply pre_first; assumption.
      + apply pre_back; assumption.
      + apply pre_last; assumption.
      + apply plain_init. discriminate.
    - exists st_nil. split; [|split; [|split; [|split]]].
      + apply post_steps; assumption.
      + apply post_first; assumption.
      + apply post_back; assumption.
      + apply post_last; assumption.
      + apply plain_init. discriminate.
    - exists (st_bfs (rose_map fst t)). split; [|split; [|split; [|split]]].
      + apply bfs_steps; assumption.
      + apply bfs_first; assumption.
      + apply bfs_back; assumption.
      + apply bfs_last; assumption.
      + apply bfs_init; assumption.
  Qed.
  Lemma fwd_leaves : fwd_order F nav Leaves (map fst (leaves t)).
  Proof.
    change (leaves t) with (rose_order Leaves t). rewrite rose_order_map. split. pose proof HF' as H'.
    exists (st_leaves (rose_map fst t)). split; [|split].
    - apply leaves_steps; assumption.
    - apply leaves_first; assumption.
    - exists []. split; reflexivity.
  Qed.
  Lemma nd_rose k : NoDup (map fst (rose_order k t)).
  Proof.
    rewrite rose_order_map. destruct k; cbn.
    - apply (no_nd _ _ Hok).
    - eapply nd_post, Hok.
    - constructor.
    - eapply nd_level, Hok.
    - eapply nd_leaves, Hok.
    - eapply nd_children with (c := []); [exact Hok|]. apply rose_eta.
    - constructor.
  Qed.
  Lemma rose_order_in k x : x ∈ rose_order k t -> x ∈ preorder t.
  Proof.
    destruct k; cbn.
    - auto.
    - rewrite pre_post_perm. auto.
    - set_solver +.
    - rewrite levelorder_perm. auto.
    - apply leaves_in.
    - intros Hx. apply (row_labels_preorder 1). rewrite row_1. exact Hx.
    - set_solver +.
  Qed.
  Lemma rose_order_length k : length (rose_order k t) <= rsize t.
  Proof.
    rewrite <- length_preorder. rewrite <- (map_length fst), <- (map_length fst (preorder t)).
    apply submseteq_length, NoDup_submseteq; [apply nd_rose|].
    intros a Ha. apply elem_of_list_fmap in Ha as (x & -> & Hx). apply elem_of_list_fmap. exists x. split; [reflexivity|].
    apply rose_order_in in Hx. exact Hx.
  Qed.
End Rose.

(** ** Binary trees. *)
Section Bin.
  Context {V : Type} `{EqDecision V}.
  Notation im := (binary_impl V).
  Variable h : gmap addr (bnode V).
  Variable t : bin (addr * V).
  Variable F : nat.
  Hypothesis Ht : bin_in h t.
  Hypothesis HF : bin_size t < F.

  Lemma bin_value x : x ∈ bin_labels t -> ni_value im h (Some (fst x)) = Ok (snd x).
  Proof. clear HF F.
    destruct Ht as (par & Hr & _). clear Ht. revert par Hr. induction t as [|[a v] l IHl r IHr]; intros par Hr Hx; cbn in *.
    - apply elem_of_nil in Hx. tauto.
    - destruct Hr as (Ha & Hl & Hr). rewrite elem_of_cons, elem_of_app in Hx. destruct Hx as [->|[Hx|Hx]]; eauto.
      cbn. unfold b_value. rewrite (deref_Some _ _ _ Ha). reflexivity.
  Qed.
  Lemma bin_roots : t <> BLeaf -> exists a u, baddr t = Some a /\ bin_forest t = [u] /\ rsize u = bin_size t /\ raddr u = a /\ nav_ok (tree_nav im h (Some a)) (rose_map fst u) /\ bnav_ok (tree_nav im h (Some a)) (bin_map fst t) /\ bin_labels t = preorder u.
  Proof. clear HF F.
    destruct Ht as (par & Hr & Hnd). destruct t as [|[a v] l r] eqn:Et; [congruence|]. intros _.
    rewrite <- Et in *. exists a, (Rose (a, v) (bin_forest l ++ bin_forest r)).
    assert (Hf : bin_forest t = [Rose (a, v) (bin_forest l ++ bin_forest r)]) by (rewrite Et; reflexivity).
    assert (Hlab : bin_labels t = preorder (Rose (a, v) (bin_forest l ++ bin_forest r))).
    { rewrite <- forest_labels, Hf. cbn. rewrite app_nil_r. reflexivity. }
    split; [rewrite Et; reflexivity|]. split; [exact Hf|]. split.
    { rewrite <- length_preorder, <- Hlab. rewrite <- inorder_labels. apply length_inorder. }
    split; [reflexivity|]. split; [|split; [|exact Hlab]].
    - pose proof (brep_ops_ok h t par Hr Hnd) as Hops. unfold brose in Hops. rewrite bin_forest_map', Hf in Hops.
      cbn [map] in Hops. apply Forall_inv in Hops.
      change (Some a) with (Some (label (rose_map fst (Rose (a, v) (bin_forest l ++ bin_forest r))))).
      apply node_navigator_ok; [exact Hops|]. rewrite preorder_map, <- Hlab. exact Hnd.
    - apply (brep_bnav_ok h t par a Hr Hnd). rewrite Et. reflexivity.
  Qed.
  Lemma bin_order_forest k u : bin_forest t = [u] -> k <> InOrder -> bin_order k t = rose_order k u.
  Proof. clear HF F. intros Hu Hk. destruct k; cbn [bin_order]; try congruence; rewrite Hu; cbn [flat_map]; rewrite app_nil_r; reflexivity. Qed.
  Lemma bin_full k a : baddr t = Some a -> two_way_bin k -> full_order F (tree_nav im h (Some a)) k (map fst (bin_order k t)).
  Proof.
    intros Ha Hk. destruct (bin_roots) as (a' & u & Ha' & Hu & Hsz & Hra & Hok & Hbok & Hlab).
    { intros E. rewrite E in Ha. discriminate. }
    rewrite Ha in Ha'. injection Ha' as <-. destruct Hk as [->|Hk].
    - cbn [bin_order]. rewrite <- inorder_map. split. exists st_nil.
      assert (Hne : bin_map fst t <> BLeaf) by (destruct t; [discriminate|discriminate]).
      assert (HF' : bin_size (bin_map fst t) <= F) by (rewrite bin_size_map; lia).
      split; [|split; [|split; [|split]]].
      + apply in_steps; assumption.
      + apply in_first; assumption.
      + apply in_back; assumption.
      + apply in_last; assumption.
      + apply plain_init. discriminate.
    - rewrite (bin_order_forest k u Hu) by (destruct Hk as [->|[->| ->]]; discriminate).
      apply full_rose; [exact Hok|lia|exact Hk].
  Qed.
  Lemma bin_fwd k a : baddr t = Some a -> two_way_bin k \/ k = Leaves -> fwd_order F (tree_nav im h (Some a)) k (map fst (bin_order k t)).
  Proof.
    intros Ha [Hk| ->]; [apply full_fwd, bin_full; assumption|].
    destruct (bin_roots) as (a' & u & Ha' & Hu & Hsz & Hra & Hok & Hbok & Hlab).
    { intros E. rewrite E in Ha. discriminate. }
    rewrite Ha in Ha'. injection Ha' as <-.
    rewrite (bin_order_forest Leaves u Hu) by discriminate. apply fwd_leaves; [exact Hok|lia].
  Qed.
  Lemma bin_order_in k x : x ∈ bin_order k t -> x ∈ bin_labels t.
  Proof. clear HF F.
    destruct (decide (k = InOrder)) as [->|Hk]; [cbn; rewrite inorder_labels; auto|].
    assert (He : bin_order k t = flat_map (rose_order k) (bin_forest t)) by (destruct k; try reflexivity; congruence).
    rewrite He, <- forest_labels, !elem_of_flat_map. intros (u & Hu & Hx). exists u. split; [exact Hu|].
    eapply rose_order_in, Hx.
  Qed.
  Lemma bin_nd k : NoDup (map fst (bin_order k t)).
  Proof. clear HF F.
    assert (Hd : t = BLeaf \/ t <> BLeaf) by (clear; destruct t; [left; reflexivity|right; discriminate]).
    destruct Hd as [->|Hne]; [destruct k; constructor|].
    destruct (bin_roots Hne) as (a' & u & Ha' & Hu & Hsz & Hra & Hok & Hbok & Hlab).
    destruct (decide (k = InOrder)) as [->|Hk].
    - cbn [bin_order]. destruct Ht as (par & _ & Hnd). unfold baddrs in Hnd. rewrite inorder_labels. exact Hnd.
    - rewrite (bin_order_forest k u Hu Hk). eapply nd_rose, Hok.
  Qed.
  Lemma bin_order_length k : length (bin_order k t) <= bin_size t.
  Proof. clear HF F.
    rewrite <- length_inorder, (Permutation_length (inorder_labels t)).
    rewrite <- (map_length fst), <- (map_length fst (bin_labels t)).
    apply submseteq_length, NoDup_submseteq; [apply bin_nd|].
    intros a Ha. apply elem_of_list_fmap in Ha as (x & -> & Hx). apply elem_of_list_fmap. exists x. split; [reflexivity|].
    apply bin_order_in in Hx. exact Hx.
  Qed.
  Lemma two_way_length k : two_way_bin k -> length (bin_order k t) = bin_size t.
  Proof. clear HF F.
    rewrite <- length_inorder. intros [->|Hk]; [reflexivity|]. rewrite (Permutation_length (inorder_labels t)).
    rewrite <- forest_labels. destruct Hk as [->|[->| ->]]; cbn [bin_order rose_order]; [reflexivity| |].
    - induction (bin_forest t) as [|u l IH]; cbn; [reflexivity|]. rewrite !app_length, IH, (Permutation_length (pre_post_perm u)). reflexivity.
    - induction (bin_forest t) as [|u l IH]; cbn [flat_map]; [reflexivity|]. change (rose_order BreadthFirst u) with (levelorder u); rewrite !app_length, IH, (Permutation_length (levelorder_perm u)). reflexivity.
  Qed.
End Bin.

(** Nothing to visit in an empty tree. *)
Section Empty.
  Context {V Nd : Type}.
  Variable im : node_impl V Nd.
  Variable h : gmap addr Nd.
  Variable F : nat.
  Hypothesis HF : 0 < F.
  Lemma get_instance_empty k : get_instance F (tree_nav im h) k None None = Ok (Iter k None None [] None).
  Proof. destruct k; reflexivity. Qed.
  Lemma begin_empty k : tree_begin F (tree_nav im h) k None = Ok (Iter k None None [] None).
  Proof. unfold tree_begin, it_end. rewrite get_instance_empty. reflexivity. Qed.
  Lemma end_empty k : tree_end F (tree_nav im h) k None = Ok (Iter k None None [] None).
  Proof. apply get_instance_empty. Qed.
  Lemma iterate_empty k : iterate F im h k None = Ok [].
  Proof. unfold iterate. rewrite begin_empty, end_empty. destruct F; [lia|]. reflexivity. Qed.
  Lemma iterate_back_empty k : iterate_back F im h k None = Ok [].
  Proof. unfold iterate_back. rewrite begin_empty, end_empty. destruct F; [lia|]. reflexivity. Qed.
  Lemma iterate_filtered_empty p k : iterate_filtered F im h p k None = Ok [].
  Proof. unfold iterate_filtered. rewrite begin_empty, end_empty. destruct F; [lia|]. reflexivity. Qed.
End Empty.

(** ** N-ary trees. *)
Section Nary.
  Context {V : Type} `{EqDecision V}.
  Notation im := (nary_impl V).
  Variable h : gmap addr (nnode V).
  Variable t : rose (addr * V).
  Variable F : nat.
  Hypothesis Ht : nary_in h t.
  Hypothesis HF : rsize t < F.

  Lemma nrep_value : forall (s : rose (addr * V)) par prev next fs x, nrep h par prev next fs s -> x ∈ preorder s ->
    n_val h (Some (fst x)) = Ok (snd x).
  Proof.
    induction s as [[a v] cs IH] using rose_ind'. intros par prev next fs x. rewrite nrep_unfold. intros [Ha Hs] Hx.
    cbn [preorder] in Hx. apply elem_of_cons in Hx as [->|Hx].
    - cbn. unfold n_val. rewrite (deref_Some _ _ _ Ha). reflexivity.
    - apply elem_of_flat_map in Hx as (c & Hc & Hx). rewrite Forall_forall in IH.
      destruct (nseg_in _ _ _ _ _ _ _ Hs Hc) as (p & q & m & Hrep). eapply IH; eassumption.
  Qed.
  Lemma nary_value x : x ∈ preorder t -> ni_value im h (Some (fst x)) = Ok (snd x).
  Proof. destruct Ht as (par & prev & next & fs & Hr & _). intros Hx. eapply nrep_value; eassumption. Qed.
  Lemma nary_nav : nav_ok (tree_nav im h (Some (raddr t))) (rose_map fst t).
  Proof. destruct Ht as (par & prev & next & fs & Hr & Hnd). eapply nrep_nav_ok; eassumption. Qed.
  Lemma nary_full k : two_way_nary k -> full_order F (tree_nav im h (Some (raddr t))) k (map fst (rose_order k t)).
  Proof. intros Hk. apply full_rose; [apply nary_nav|exact HF|exact Hk]. Qed.
  Lemma nary_fwd k : two_way_nary k \/ k = Leaves -> fwd_order F (tree_nav im h (Some (raddr t))) k (map fst (rose_order k t)).
  Proof.
    intros [Hk| ->]; [apply full_fwd, nary_full, Hk|]. apply fwd_leaves; [apply nary_nav|exact HF].
  Qed.
End Nary.
