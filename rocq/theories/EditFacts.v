(** EditFacts.v: lemmas used by PropEdit.v. *)
From Verif Require Import Base Spec EditSpec StructNode BinaryNode NaryNode Nav Policy Tree Rep RoseFacts BinRep NaryRep User World Kinds TreeSpec
  TreeOps TreeOps2 TreeOps3 TreeOps4 History TreeFacts BinOrder Orders RowFacts IterMain IterProofs.

(** *** The contents determine the heap *)
Lemma brep_lookup {V} (h h' : gmap addr (bnode V)) t : forall p, brep h p t -> brep h' p t -> forall x, x ∈ baddrs t -> h !! x = h' !! x.
Proof.
  induction t as [|[a v] l IHl r IHr]; intros p H H' x Hx; [apply elem_of_nil in Hx as []|].
  cbn in H, H'. destruct H as (H1 & H2 & H3), H' as (H1' & H2' & H3'). unfold baddrs in Hx. cbn in Hx.
  apply elem_of_cons in Hx as [->|Hx]; [congruence|]. rewrite map_app in Hx. apply elem_of_app in Hx as [Hx|Hx]; [eapply IHl|eapply IHr]; eassumption.
Qed.
Lemma nrep_lookup {V} (h h' : gmap addr (nnode V)) t : forall p q n f, nrep h p q n f t -> nrep h' p q n f t -> forall x, x ∈ raddrs t -> h !! x = h' !! x.
Proof.
  induction t as [[a v] cs IH] using rose_ind'. intros p q n f H H' x Hx. cbn [nrep] in H, H'. destruct H as [H1 H2], H' as [H1' H2'].
  unfold raddrs in Hx. cbn [preorder map fst] in Hx. apply elem_of_cons in Hx as [->|Hx]; [congruence|].
  clear H1 H1'. revert H2' H2 Hx. generalize (@None addr) as z. revert IH.
  induction cs as [|c cs IHcs]; intros IH z H2' H2 Hx; [apply elem_of_nil in Hx as []|].
  inversion IH as [|? ? Hc Hcs]; subst. destruct H2 as [H2 H3], H2' as [H2' H3']. cbn [flat_map] in Hx. rewrite map_app in Hx.
  apply elem_of_app in Hx as [Hx|Hx]; [eapply Hc; eassumption|]. eapply IHcs; eassumption.
Qed.
Lemma rep_lookup {V} {EV : EqDecision V} {Nd} {im : node_impl V Nd} {K} : tree_kind V EV Nd im K ->
  forall h h' c, crep K h c -> crep K h' c -> forall x, x ∈ caddrs K c -> h !! x = h' !! x.
Proof.
  intros HK h h' c H H' x Hx. destruct HK; cbn in c, Hx, H, H'.
  - destruct H as [H _], H' as [H' _]. eapply brep_lookup; eassumption.
  - destruct c as [c|]; [|apply elem_of_nil in Hx as []]. destruct H as [H _], H' as [H' _]. eapply nrep_lookup; eassumption.
Qed.
Lemma heap_unique {V} {EV : EqDecision V} {Nd} {im : node_impl V Nd} {K} : tree_kind V EV Nd im K ->
  forall w w' M, consistent K w M -> consistent K w' M -> w_heap w = w_heap w'.
Proof.
  intros HK w w' M H H'. apply map_eq. intros x.
  destruct (w_heap w !! x) as [n|] eqn:E.
  - destruct (proj1 (wo_owned _ _ _ _ _ H x) ltac:(eauto)) as (i & c & Hi & Hx).
    destruct (proj2 (wo_live _ _ _ _ _ H i) ltac:(eauto)) as [t Ht]. destruct (proj2 (wo_live _ _ _ _ _ H' i) ltac:(eauto)) as [t' Ht'].
    destruct (wo_tree _ _ _ _ _ H i t c Ht Hi) as (_ & _ & Hc). destruct (wo_tree _ _ _ _ _ H' i t' c Ht' Hi) as (_ & _ & Hc').
    rewrite <- E. destruct HK; cbn in c, Hx, Hc, Hc'.
    + destruct Hc as [Hc _], Hc' as [Hc' _]. eapply brep_lookup; eassumption.
    + destruct c as [c|]; [|apply elem_of_nil in Hx as []]. destruct Hc as [Hc _], Hc' as [Hc' _]. eapply nrep_lookup; eassumption.
  - destruct (w_heap w' !! x) as [n|] eqn:E'; [|reflexivity].
    destruct (proj2 (wo_owned _ _ _ _ _ H x)) as [m Hm]; [|congruence]. apply (wo_owned _ _ _ _ _ H'). eauto.
Qed.

(** *** Removing subtrees *)
Lemma bprune_cons {V} x ds (t : bin (addr * V)) : bprune (x :: ds) t = bprune ds (bsubst x BLeaf t).
Proof.
  induction t as [|[a v] l IHl r IHr]; [reflexivity|]. cbn [bprune bsubst]. destruct (decide (a = x)) as [->|Hne].
  - rewrite decide_True by left. reflexivity.
  - cbn [bprune]. destruct (decide (a ∈ ds)); [rewrite decide_True by (right; assumption); reflexivity|].
    rewrite decide_False by set_solver. rewrite IHl, IHr. reflexivity.
Qed.
Lemma bprune_nil {V} (t : bin (addr * V)) : bprune [] t = t.
Proof. induction t as [|[a v] l IHl r IHr]; [reflexivity|]. cbn [bprune]. rewrite decide_False by (apply not_elem_of_nil). rewrite IHl, IHr. reflexivity. Qed.
Lemma prune_binary {V} ds (t : bin (addr * V)) : prune (binary_kind V) ds t = bprune ds t.
Proof.
  revert t. induction ds as [|x ds IH]; intros t; [symmetry; apply bprune_nil|]. rewrite bprune_cons, <- IH. reflexivity.
Qed.
Lemma rprune_nil {V} (t : rose (addr * V)) : rprune [] t = Some t.
Proof.
  induction t as [[a v] cs IH] using rose_ind'. cbn [rprune]. rewrite decide_False by (apply not_elem_of_nil). f_equal. f_equal.
  induction cs as [|c cs IHcs]; [reflexivity|]. inversion IH as [|? ? Hc Hcs]; subst. cbn [flat_map]. rewrite Hc. cbn. f_equal. apply IHcs, Hcs.
Qed.
Lemma rprune_cons {V} x ds (t : rose (addr * V)) : rprune (x :: ds) t = rsubst x None t ≫= rprune ds.
Proof.
  induction t as [[a v] cs IH] using rose_ind'. cbn [rprune rsubst]. destruct (decide (a = x)) as [->|Hne].
  - rewrite decide_True by left. reflexivity.
  - cbn [mbind option_bind]. cbn [rprune]. destruct (decide (a ∈ ds)); [rewrite decide_True by (right; assumption); reflexivity|].
    rewrite decide_False by set_solver. f_equal. f_equal.
    induction cs as [|c cs IHcs]; [reflexivity|]. inversion IH as [|? ? Hc Hcs]; subst. cbn [flat_map]. rewrite flat_map_app, IHcs by exact Hcs. f_equal.
    rewrite Hc. destruct (rsubst x None c); cbn; [rewrite app_nil_r|]; reflexivity.
Qed.
Lemma prune_nary {V} ds (t : option (rose (addr * V))) : prune (nary_kind V) ds t = nprune ds t.
Proof.
  revert t. induction ds as [|x ds IH]; intros t.
  - destruct t as [t|]; [symmetry; apply rprune_nil|reflexivity].
  - destruct t as [t|]; cbn [nprune mbind option_bind].
    + rewrite rprune_cons. change (prune (nary_kind V) ds (rsubst x None t) = nprune ds (rsubst x None t)). apply IH.
    + change (prune (nary_kind V) ds None = None). rewrite IH. reflexivity.
Qed.

Lemma erasable_binary {V} ds (t : bin (addr * V)) : erasable (binary_kind V) ds t.
Proof. revert t. induction ds as [|x ds IH]; intros t; [exact I|]. split; [intros _; exact I|apply IH]. Qed.

(** *** The nodes of a replaced subtree *)
Section Gone.
  Context {V : Type} {EV : EqDecision V} {Nd : Type}.
  Variable F : nat.
  Variable im : node_impl V Nd.
  Variable al : allocator Nd.
  Variable K : kind_data V Nd.
  Hypothesis HK : tree_kind V EV Nd im K.
  Hypothesis HFW : (N.of_nat F <= W64)%N.

  Lemma sub_in h c a x : crep K h c -> a ∈ caddrs K c -> x ∈ caddrs K (csub K a c) -> x ∈ caddrs K c.
  Proof using All.
    intros Hc Ha Hx. destruct (k_subst _ _ _ _ (kind_is_ok F al HK) h c (cnil K) a Hc Ha) as (_ & Hroot & Hne).
    destruct (decide (croot K c = Some a)) as [E|E].
    - destruct (Hroot E) as [<- _]. exact Hx.
    - destruct (Hne E) as [_ Hp]. destruct (k_nil _ _ _ _ (kind_is_ok F al HK)) as (Hn & _). rewrite Hn, app_nil_r in Hp.
      rewrite <- Hp. apply elem_of_app. auto.
  Qed.
  Lemma sub_out h c a u x : crep K h c -> a ∈ caddrs K c -> x ∈ caddrs K (csub K a c) -> x ∉ caddrs K u -> x ∉ caddrs K (csubst K a u c).
  Proof using All.
    intros Hc Ha Hx Hu Hx'. destruct (k_subst _ _ _ _ (kind_is_ok F al HK) h c (cnil K) a Hc Ha) as (_ & Hroot & Hne).
    destruct (k_subst _ _ _ _ (kind_is_ok F al HK) h c u a Hc Ha) as (_ & Hroot' & Hne').
    destruct (decide (croot K c = Some a)) as [E|E].
    - destruct (Hroot' E) as [_ E']. rewrite E' in Hx'. exact (Hu Hx').
    - destruct (Hne E) as [_ Hp], (Hne' E) as [_ Hp']. destruct (k_nil _ _ _ _ (kind_is_ok F al HK)) as (Hn & _). rewrite Hn, app_nil_r in Hp.
      assert (Hq : Permutation (caddrs K (csubst K a u c)) (caddrs K (csubst K a (cnil K) c) ++ caddrs K u)).
      { rewrite <- Hp in Hp'. apply (Permutation_app_inv_r (caddrs K (csub K a c))). rewrite Hp', <- !app_assoc. apply Permutation_app_head, Permutation_app_comm. }
      rewrite Hq in Hx'. apply elem_of_app in Hx' as [Hx'|Hx']; [|exact (Hu Hx')].
      pose proof (k_nd _ _ _ _ (kind_is_ok F al HK) h c Hc) as Hnd. rewrite <- Hp in Hnd. apply NoDup_app in Hnd as (_ & Hnd & _). exact (Hnd x Hx' Hx).
  Qed.
  (** A node of tree [i] that is in no tree afterwards is released. *)
  Lemma released w M w' M' i c x : consistent K w M -> M !! i = Some c -> consistent K w' M' -> x ∈ caddrs K c ->
    (forall k d, M' !! k = Some d -> k <> i -> x ∈ caddrs K d -> exists d', M !! k = Some d' /\ x ∈ caddrs K d') ->
    (forall c', M' !! i = Some c' -> x ∉ caddrs K c') -> w_heap w' !! x = None.
  Proof using All.
    intros Hw Hi Hw' Hx Ho Hn. destruct (w_heap w' !! x) as [n|] eqn:E; [|reflexivity]. exfalso.
    destruct (proj1 (wo_owned _ _ _ _ _ Hw' x) ltac:(eauto)) as (k & d & Hk & Hd). destruct (decide (k = i)) as [->|Hne].
    - exact (Hn d Hk Hd).
    - destruct (Ho k d Hk Hne Hd) as (d' & Hk' & Hd'). apply Hne. eapply (wo_disjoint _ _ _ _ _ Hw); eassumption.
  Qed.
End Gone.

Lemma instance_fields F mk k p r it : get_instance F mk k p (Some r) = Ok it -> it_kind it = k /\ it_cur it = p /\ it_root it = Some r.
Proof.
  unfold get_instance, fix_navigator_root. intros H. apply bind_Ok in H as (root' & Hr & H). injection Hr as <-.
  apply bind_Ok in H as (o & _ & H). injection H as <-. auto.
Qed.
(** Every iterator reached by ++ and -- from an iterator made at a node of the
    tree, or from begin, stands at its node. *)
Lemma same_iter_stands {V Nd} F (im : node_impl V Nd) h root k p it it2 : iterator_at F im h k (Some p) root = Ok it2 ->
  same_iter it it2 -> root <> None -> stands F im h root p it.
Proof.
  intros E (Hk & Hc & Hr & Ho) Hn. destruct root as [r|]; [|congruence]. destruct (instance_fields _ _ _ _ _ _ E) as (E3 & E1 & E2). split; [congruence|]. split; [congruence|]. intros Hb. exists it2. split; [|exact Ho]. rewrite <- E. f_equal. congruence.
Qed.
Lemma below_root {A} (q : A) cs s t : rsubtree (Rose q cs) t -> s ∈ cs -> label s ∈ flat_map preorder (children t).
Proof.
  intros H Hs. induction H as [|y cs' d Hd H IH].
  - cbn. apply elem_of_list_In, in_flat_map. exists s. rewrite <- !elem_of_list_In. split; [exact Hs|]. destruct s. left.
  - cbn. apply elem_of_list_In, in_flat_map. exists d. rewrite <- !elem_of_list_In. split; [exact Hd|]. destruct d as [z es]. cbn. right. apply IH.
Qed.
Lemma child_ne_root {V} (q : addr * V) cs s t : NoDup (raddrs t) -> rsubtree (Rose q cs) t -> s ∈ cs -> raddr s <> raddr t.
Proof.
  intros Hnd H Hs E. pose proof (below_root _ _ _ _ H Hs) as Hb. destruct t as [[a v] ts]. unfold raddrs in Hnd. cbn in Hnd, Hb. apply NoDup_cons in Hnd as [Hn _].
  apply Hn. unfold raddr in E. cbn in E. rewrite <- E. apply elem_of_list_fmap. eauto.
Qed.

(** *** The iterator returned by insert_over *)
Lemma same_walk {V Nd} F (im : node_impl V Nd) h e : forall k a b, same_iter a b -> it_kind a <> Fixed ->
  walk (visit im h) (incr F im h) k a e = walk (visit im h) (incr F im h) k b e.
Proof.
  induction k as [|k IH]; intros a b H Hf; [reflexivity|]. cbn [walk].
  pose proof H as (Hk & Hc & Hr & Ho). unfold it_eqb. rewrite Hc, Hr. destruct (ptr_eqb (it_cur b) (it_cur e) && ptr_eqb (it_root b) (it_root e)); [reflexivity|].
  destruct (visit im h (it_cur b)) as [x|er]; [|reflexivity]. cbn [mbind res_bind].
  pose proof (same_incr F im h a b H Hf) as Hi. pose proof (incr_kind F im h a) as Hka.
  destruct (incr F im h a) as [a'|ea], (incr F im h b) as [b'|eb]; cbn in Hi; try contradiction; cbn [mbind res_bind].
  - rewrite (IH a' b' Hi); [reflexivity|]. rewrite (Hka a' eq_refl). exact Hf.
  - congruence.
Qed.
Lemma modify_open {V Nd} F (im : node_impl V Nd) (w : world Nd) i pos p s r it w' :
  modify_subtree F im w i pos p s r = Ret it w' -> it_kind pos <> BreadthFirst -> it_open it = it_open pos.
Proof.
  unfold modify_subtree. intros H Hk. destruct (get_tree w i) as [t|]; [|discriminate]. cbn [res_out] in H. destruct (it_cur pos) as [a|].
  - destruct (guard_res _) as [[]|]; [|discriminate]. cbn [mbind res_bind] in H.
    destruct (it_update im (w_heap w) pos (Some a) p) as [pos'|] eqn:E; [|discriminate]. cbn [res_out] in H.
    assert (Ho : it_open pos' = it_open pos).
    { unfold it_update in E. destruct (it_kind pos); try congruence; cbn in E; injection E as <-; reflexivity. }
    rewrite <- Ho. destruct (ptr_eqb (Some a) (t_root t)).
    + destruct (assign F im w i p s r); cbn in H; [|discriminate]. congruence.
    + destruct (replace_node F im w i (Some a) p s r) as [[old w1]|]; cbn in H; [|discriminate]. destruct (drop F im w1 old); cbn in H; [|discriminate]. congruence.
  - destruct (t_root t); [discriminate|]. destruct (assign F im w i p s r); cbn in H; [|discriminate]. congruence.
Qed.
Lemma insert_over_open {V Nd} F (im : node_impl V Nd) al (w : world Nd) i pos src it w' :
  insert_over F im al w i pos src = Ret it w' -> it_kind pos <> BreadthFirst -> it_open it = it_open pos.
Proof.
  intros H Hk. unfold insert_over in H. destruct src as [v|s|j|t|j].
  - destruct (ni_from_value im al (w_heap w) v) as [[a h]|]; [|discriminate]. eapply modify_open; eassumption.
  - destruct (ni_from_struct im al (w_heap w) s) as [[a h]|]; [|discriminate]. eapply modify_open; eassumption.
  - destruct (_ ← get_tree w j; _) as [[p h]|]; [|discriminate]. cbn [res_out] in H.
    match type of H with res_out ?m _ = _ => destruct m as [[[s r] w2]|]; [|discriminate] end. eapply modify_open; eassumption.
  - destruct (copy_root F im al (w_heap w) t) as [[p h]|]; [|discriminate]. cbn [res_out] in H.
    match type of H with res_out ?m _ = _ => destruct m as [[s r]|]; [|discriminate] end. eapply modify_open; eassumption.
  - destruct (decide (i = j)); [discriminate|]. match type of H with res_out ?m _ = _ => destruct m as [[p w1]|]; [|discriminate] end. cbn [res_out] in H.
    match type of H with res_out ?m _ = _ => destruct m as [[[s r] w3]|]; [|discriminate] end. cbn [res_out] in H.
    destruct (modify_subtree F im w3 i pos p s r) as [it' w4| |] eqn:E; cbn in H; try discriminate. injection H as <- _. eapply modify_open; eassumption.
Qed.
Lemma stands_instance {V Nd} F (im : node_impl V Nd) h r a it it2 k : stands F im h (Some r) a it -> it_kind it = k ->
  (k <> BreadthFirst -> it_open it = []) -> get_instance F (tree_nav im h) k (Some a) (Some r) = Ok it2 -> same_iter it it2.
Proof.
  intros (Hc & Hr & Ho) Hk Hn E. destruct (instance_fields _ _ _ _ _ _ E) as (E1 & E2 & E3). split; [congruence|]. split; [congruence|]. split; [congruence|].
  destruct (decide (k = BreadthFirst)) as [->|Hb].
  - destruct (Ho Hk) as (it3 & E' & Ho'). unfold iterator_at in E'. congruence.
  - rewrite Hn by exact Hb. unfold get_instance, fix_navigator_root in E. cbn in E. destruct k; try congruence; cbn in E; injection E as <-; reflexivity.
Qed.

Lemma bin_order_perm {V} k (t : bin (addr * V)) : two_way_bin k -> Permutation (map fst (bin_order k t)) (baddrs t).
Proof.
  intros Hk. unfold baddrs. apply Permutation_map. destruct Hk as [->|Hk]; [apply inorder_labels|].
  rewrite <- forest_labels. replace (bin_order k t) with (flat_map (rose_order k) (bin_forest t)) by (destruct Hk as [->|[->| ->]]; reflexivity).
  induction (bin_forest t) as [|u l IH]; [reflexivity|]. cbn [flat_map]. apply Permutation_app; [|exact IH].
  destruct Hk as [->|[->| ->]]; [reflexivity|symmetry; apply pre_post_perm|apply levelorder_perm].
Qed.
Lemma nary_order_perm {V} k (t : option (rose (addr * V))) : two_way_nary k -> Permutation (map fst (nary_order k t)) (naddrs t).
Proof.
  intros Hk. destruct t as [t|]; [|reflexivity]. apply Permutation_map. cbn.
  destruct Hk as [->|[->| ->]]; [reflexivity|symmetry; apply pre_post_perm|apply levelorder_perm].
Qed.
Lemma bsubst_in {V} a (u : bin (addr * V)) x t : a ∈ baddrs t -> x ∈ baddrs u -> x ∈ baddrs (bsubst a u t).
Proof.
  induction t as [|[y v] l IHl r IHr]; intros Ha Hx; [apply elem_of_nil in Ha as []|]. cbn [bsubst]. destruct (decide (y = a)) as [->|Hne]; [exact Hx|].
  unfold baddrs in *. cbn [bin_labels map] in *. apply elem_of_cons in Ha as [Ha|Ha]; [cbn in Ha; congruence|]. right.
  rewrite map_app in *. apply elem_of_app in Ha as [Ha|Ha]; apply elem_of_app; auto.
Qed.
Lemma rsubst_in {V} a (u : rose (addr * V)) x t : a ∈ raddrs t -> x ∈ raddrs u -> x ∈ naddrs (rsubst a (Some u) t).
Proof.
  induction t as [[y v] cs IH] using rose_ind'; intros Ha Hx. cbn [rsubst]. destruct (decide (y = a)) as [->|Hne]; [exact Hx|].
  unfold raddrs in Ha. cbn [preorder map] in Ha. apply elem_of_cons in Ha as [Ha|Ha]; [cbn in Ha; congruence|].
  cbn [naddrs opt_list]. unfold raddrs. cbn [preorder map]. right.
  apply elem_of_list_fmap in Ha as (q & -> & Hq). apply elem_of_list_In, in_flat_map in Hq as (d & Hd & Hq). apply elem_of_list_In in Hd, Hq.
  rewrite Forall_forall in IH. assert (Hdx : x ∈ naddrs (rsubst q.1 (Some u) d)) by (apply IH; [exact Hd|apply elem_of_list_fmap; eauto|exact Hx]).
  destruct (rsubst q.1 (Some u) d) as [s|] eqn:Es; [|apply elem_of_nil in Hdx as []]. cbn in Hdx. apply elem_of_list_fmap in Hdx as (z & -> & Hz).
  apply elem_of_list_fmap. exists z. split; [reflexivity|]. apply elem_of_list_In, in_flat_map. exists s. rewrite <- !elem_of_list_In. split; [|exact Hz].
  apply elem_of_list_In, in_flat_map. exists d. rewrite <- !elem_of_list_In, Es. split; [exact Hd|]. left.
Qed.
