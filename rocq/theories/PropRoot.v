(** PropRoot.v: C41, [insert_over] at the root, for every tree. *)
From Verif Require Import Base Spec EditSpec StructNode LitFacts BinaryNode NaryNode Nav Policy Tree RoseFacts RowFacts
  NavFacts BranchFacts Orders PolicyFacts BinOrder Rep BinRep NaryRep User Iter IterTrees IterMain IterProofs Kinds World TreeSpec TreeOps TreeOps2 TreeOps3 TreeBin TreeNary TreeFacts EditFacts Stand RootOver Examples Examples2.

(** What the model's iterators need to know about a released node. *)
Lemma gone_b {V} (h : gmap addr (bnode V)) r : h !! r = None ->
  (forall q, op_parent (bin_ops h) (Some r) <> Ok q) /\ (forall q, op_prev (bin_ops h) (Some r) <> Ok q) /\ (forall q, op_next (bin_ops h) (Some r) <> Ok q).
Proof.
  intros E. cbn [bin_ops op_parent op_prev op_next]. unfold b_prev, b_next, b_is_right, b_is_left, b_parent, deref. rewrite E. repeat split; discriminate.
Qed.
Lemma gone_n {V} (h : gmap addr (nnode V)) r : h !! r = None ->
  (forall q, op_parent (nary_ops h) (Some r) <> Ok q) /\ (forall q, op_prev (nary_ops h) (Some r) <> Ok q) /\ (forall q, op_next (nary_ops h) (Some r) <> Ok q).
Proof.
  intros E. cbn [nary_ops op_parent op_prev op_next]. unfold n_parent, n_prev, n_next, deref. rewrite E. repeat split; discriminate.
Qed.
Lemma top_b {V} (h : gmap addr (bnode V)) b v l r : brep h None (BNode (b, v) l r) ->
  op_parent (bin_ops h) (Some b) = Ok None /\ op_prev (bin_ops h) (Some b) = Ok None /\ op_next (bin_ops h) (Some b) = Ok None.
Proof.
  intros [E _]. cbn [bin_ops op_parent op_prev op_next]. unfold b_prev, b_next, b_is_right, b_is_left, b_parent, deref. rewrite E. repeat split; reflexivity.
Qed.
Lemma top_n {V} (h : gmap addr (nnode V)) t : nrep h None None None (szt 0) t ->
  op_parent (nary_ops h) (Some (raddr t)) = Ok None /\ op_prev (nary_ops h) (Some (raddr t)) = Ok None /\ op_next (nary_ops h) (Some (raddr t)) = Ok None.
Proof.
  destruct t as [[b v] cs]. intros [E _]. change (raddr (Rose (b, v) cs)) with b. cbn [nary_ops op_parent op_prev op_next raddr]. unfold n_parent, n_prev, n_next, deref. rewrite E. repeat split; reflexivity.
Qed.

(** What [insert_over] at the root returns, for both node types: the iterator's
    current node is the new root, its navigator has the released root [r]. *)
Definition returned {V Nd} (F : nat) (im : node_impl V Nd) (h : gmap addr Nd) (k : kind) (r b : addr) (U : rose addr) (it : iter) : Prop :=
  b <> r /\ h !! r = None /\ it_kind it = k /\ it_cur it = Some b /\ it_root it = Some r /\
  stands F im h (Some b) b (with_root it (Some b)) /\ (k <> BreadthFirst -> it_open it = []) /\
  nav_ok (tree_nav im h (Some b)) U /\ label U = b /\ rsize U < F.

Lemma over_root_b V (EV : EqDecision V) F (al : allocator (bnode V)) : (N.of_nat F <= W64)%N ->
  forall (w : world (bnode V)) (M M1 : gmap tid (bin (addr * V))) (i : tid) (c : bin (addr * V)) (src : source V) (x : bin V) (r : addr) (k : kind) (pos it0 : iter),
  consistent (binary_kind V) w M -> M !! i = Some c -> gives (binary_kind V) w M i src x M1 -> fits F w src ->
  baddr c = Some r -> x <> BLeaf ->
  iterator_at F (binary_impl V) (w_heap w) k (Some r) (Some r) = Ok it0 -> same_iter pos it0 ->
  exists u it w' b U, insert_over F (binary_impl V) al w i pos src = Ret it w' /\ bin_map snd u = x /\
    consistent (binary_kind V) w' (<[i := u]> M1) /\ baddr u = Some b /\ bin_forest (bin_map fst u) = [U] /\ bin_size u < F /\ r ∉ baddrs u /\
    bin_at (w_heap w') u /\ returned F (binary_impl V) (w_heap w') k r b U it.
Proof.
  intros HFW w M M1 i c src x r k pos it0 Hw Hi Hg Hf Hr Hx E0 Hs.
  pose proof (binary_tree_kind V EV) as HK. pose proof (kind_is_ok F al HK) as KO. pose proof Hw as H. apply (to_holds F _ al _ HK HFW) in H.
  assert (Hst : stands F (binary_impl V) (w_heap w) (Some r) r pos) by (eapply same_iter_stands; [exact E0|exact Hs|discriminate]).
  destruct (insert_over_root F _ al _ KO HFW w M i c src x M1 r pos H Hi Hg Hf Hr Hst)
    as (u & it & w1 & w' & E & Hu & H' & Rc & Ru & S1 & Hup & K1 & K2 & K3 & HFu & Hru & Hgone).
  change (bin_map snd u = x) in Hu. change (length (baddrs c) + length (baddrs u) < F) in HFu. rewrite !length_baddrs in HFu.
  change (it_cur it = baddr u) in K3. change (bin_at (w_heap w1) c) in Rc. change (bin_at (w_heap w1) u) in Ru. change (r ∉ baddrs u) in Hru.
  change (it_update (binary_impl V) (w_heap w1) pos (Some r) (baddr u) = Ok it) in Hup.
  assert (Ru' : bin_at (w_heap w') u) by (eapply (holds_rep (croot (binary_kind V))); [exact H'|apply lookup_insert]).
  assert (Hw' : consistent (binary_kind V) w' (<[i := u]> M1)) by (apply (to_holds F _ al _ HK HFW), H').
  destruct u as [|[b v] ul ur]; [cbn in Hu; congruence|]. set (u := BNode (b, v) ul ur) in *.
  assert (EU : exists U, bin_forest (bin_map fst u) = [U] /\ label U = b) by (eexists; split; reflexivity). destruct EU as (U & EU & LU).
  assert (ER : exists R, bin_forest (bin_map fst c) = [R] /\ label R = r).
  { destruct c as [|[a ?] ? ?]; [discriminate|]. cbn in Hr. injection Hr as ->. eexists; split; reflexivity. } destruct ER as (R & ER & LR).
  destruct (bin_nav (w_heap w1) c R (ex_intro _ None Rc) ER) as (OkR & _ & SR).
  destruct (bin_nav (w_heap w') u U (ex_intro _ None Ru') EU) as (OkU & _ & SU).
  assert (Hfc : op_first (ni_ops (binary_impl V) (w_heap w1)) (Some (label U)) = Ok (head_label (children U))).
  { destruct (bin_nav (w_heap w1) u U (ex_intro _ None Ru) EU) as (Ok1 & _). exact (no_first _ _ Ok1 [] U eq_refl). }
  destruct (instance_fields _ _ _ _ _ _ E0) as (F1 & F2 & F3). pose proof Hs as (G1 & G2 & G3 & G4).
  assert (Hkp : it_kind pos = k) by congruence.
  assert (Hopen : k <> BreadthFirst -> it_open it = []).
  { intros Hb. rewrite (insert_over_open _ _ _ _ _ _ _ _ _ E) by congruence. rewrite G4. unfold iterator_at, get_instance, fix_navigator_root in E0. cbn in E0.
    destruct k; try congruence; cbn in E0; injection E0 as <-; reflexivity. }
  assert (Hbr : b <> r). { intros ->. apply Hru. left. }
  exists u, it, w', b, U. split; [exact E|]. split; [exact Hu|]. split; [exact Hw'|]. split; [reflexivity|]. split; [exact EU|]. split; [lia|]. split; [exact Hru|]. split; [exact Ru'|].
  split; [exact Hbr|]. split; [exact Hgone|]. split; [congruence|]. split; [exact K3|]. split; [exact K2|].
  split. { rewrite <- LU. apply (restand F _ (w_heap w1) (w_heap w') R U pos); [exact OkR|lia|rewrite LR; exact S1|exact Hfc|exact OkU|lia|rewrite LR, LU; exact Hup]. }
  split; [exact Hopen|]. split; [rewrite <- LU; exact OkU|]. split; [exact LU|]. lia.
Qed.

Lemma over_root_n V (EV : EqDecision V) F (al : allocator (nnode V)) : (N.of_nat F <= W64)%N ->
  forall (w : world (nnode V)) (M M1 : gmap tid (option (rose (addr * V)))) (i : tid) (c : option (rose (addr * V))) (src : source V) (x : option (rose V)) (r : addr) (k : kind) (pos it0 : iter),
  consistent (nary_kind V) w M -> M !! i = Some c -> gives (nary_kind V) w M i src x M1 -> fits F w src ->
  nroot c = Some r -> x <> None ->
  iterator_at F (nary_impl V) (w_heap w) k (Some r) (Some r) = Ok it0 -> same_iter pos it0 ->
  exists u it w', insert_over F (nary_impl V) al w i pos src = Ret it w' /\ Some (rose_map snd u) = x /\
    consistent (nary_kind V) w' (<[i := Some u]> M1) /\ rsize u < F /\ r ∉ raddrs u /\
    nary_at (w_heap w') u /\ returned F (nary_impl V) (w_heap w') k r (raddr u) (nrose u) it.
Proof.
  intros HFW w M M1 i c src x r k pos it0 Hw Hi Hg Hf Hr Hx E0 Hs.
  pose proof (nary_tree_kind V EV) as HK. pose proof (kind_is_ok F al HK) as KO. pose proof Hw as H. apply (to_holds F _ al _ HK HFW) in H.
  assert (Hst : stands F (nary_impl V) (w_heap w) (Some r) r pos) by (eapply same_iter_stands; [exact E0|exact Hs|discriminate]).
  destruct (insert_over_root F _ al _ KO HFW w M i c src x M1 r pos H Hi Hg Hf Hr Hst)
    as (u & it & w1 & w' & E & Hu & H' & Rc & Ru & S1 & Hup & K1 & K2 & K3 & HFu & Hru & Hgone).
  change (nvals u = x) in Hu. change (length (naddrs c) + length (naddrs u) < F) in HFu.
  change (it_cur it = nroot u) in K3. change (r ∉ naddrs u) in Hru.
  change (it_update (nary_impl V) (w_heap w1) pos (Some r) (nroot u) = Ok it) in Hup.
  assert (Ru' : crep (nary_kind V) (w_heap w') u) by (eapply (holds_rep (croot (nary_kind V))); [exact H'|apply lookup_insert]).
  assert (Hw' : consistent (nary_kind V) w' (<[i := u]> M1)) by (apply (to_holds F _ al _ HK HFW), H').
  destruct u as [u|]; [|cbn in Hu; congruence]. destruct c as [c|]; [|discriminate]. cbn in Hr. injection Hr as LR.
  change (nary_at (w_heap w1) c) in Rc. change (nary_at (w_heap w1) u) in Ru. change (nary_at (w_heap w') u) in Ru'.
  cbn [naddrs opt_list] in HFu, Hru. rewrite !length_raddrs in HFu. change (it_cur it = Some (raddr u)) in K3. change (nroot (Some u)) with (Some (raddr u)) in Hup.
  pose proof Rc as [C1 C2]. pose proof Ru as [U1 U2]. pose proof Ru' as [T1 T2].
  pose proof (nrep_nav_ok _ _ _ _ _ _ C1 C2) as OkR. pose proof (nrep_nav_ok _ _ _ _ _ _ U1 U2) as Ok1. pose proof (nrep_nav_ok _ _ _ _ _ _ T1 T2) as OkU.
  assert (SR : rsize (nrose c) = rsize c) by apply rsize_map. assert (SU : rsize (nrose u) = rsize u) by apply rsize_map.
  destruct (instance_fields _ _ _ _ _ _ E0) as (F1 & F2 & F3). pose proof Hs as (G1 & G2 & G3 & G4).
  assert (Hkp : it_kind pos = k) by congruence.
  assert (Hopen : k <> BreadthFirst -> it_open it = []).
  { intros Hb. rewrite (insert_over_open _ _ _ _ _ _ _ _ _ E) by congruence. rewrite G4. unfold iterator_at, get_instance, fix_navigator_root in E0. cbn in E0.
    destruct k; try congruence; cbn in E0; injection E0 as <-; reflexivity. }
  assert (Hbr : raddr u <> r). { intros <-. apply Hru. destruct u as [[? ?] ?]. left. }
  exists u, it, w'. split; [exact E|]. split; [exact Hu|]. split; [exact Hw'|]. split; [lia|]. split; [exact Hru|]. split; [exact Ru'|].
  split; [exact Hbr|]. split; [exact Hgone|]. split; [congruence|]. split; [exact K3|]. split; [exact K2|].
  split.
  { pose proof (label_nrose u) as LU. pose proof (label_nrose c) as LC. rewrite <- LU. apply (restand F _ (w_heap w1) (w_heap w') (nrose c) (nrose u) pos).
    - rewrite LC. exact OkR.
    - lia.
    - rewrite LC, LR. exact S1.
    - rewrite <- LU in Ok1. exact (no_first _ _ Ok1 [] (nrose u) eq_refl).
    - rewrite LU. exact OkU.
    - lia.
    - rewrite LC, LR, LU. exact Hup. }
  split; [exact Hopen|]. split; [exact OkU|]. split; [apply label_nrose|]. lia.
Qed.

(** *** C41: insert_over at the root of a non-empty tree *)
(** Pre-order: the returned iterator never becomes end().  After n increments it
    is at the node with number n modulo the size: the loop visits the new tree
    again and again. *)
Theorem C41_root_preorder_binary_refuted :
  forall (V : Type) (EV : EqDecision V) (F : nat) (al : allocator (bnode V)), (N.of_nat F <= W64)%N ->
  forall (w : world (bnode V)) (M M1 : gmap tid (bin (addr * V))) (i : tid) (c : bin (addr * V)) (src : source V) (x : bin V) (r : addr) (pos it0 : iter),
  consistent (binary_kind V) w M -> M !! i = Some c -> gives (binary_kind V) w M i src x M1 -> fits F w src ->
  baddr c = Some r -> x <> BLeaf ->
  iterator_at F (binary_impl V) (w_heap w) PreOrder (Some r) (Some r) = Ok it0 -> same_iter pos it0 ->
  exists u it w', insert_over F (binary_impl V) al w i pos src = Ret it w' /\ bin_map snd u = x /\
    consistent (binary_kind V) w' (<[i := u]> M1) /\
    forall n, exists it', run F (binary_impl V) (w_heap w') (repeat true n) it = Ok it' /\
      it_cur it' <> None /\ it_cur it' = fst <$> bin_order PreOrder u !! (n mod bin_size u).
Proof.
  intros V EV F al HFW w M M1 i c src x r pos it0 Hw Hi Hg Hf Hr Hx E0 Hs.
  destruct (over_root_b V EV F al HFW w M M1 i c src x r PreOrder pos it0 Hw Hi Hg Hf Hr Hx E0 Hs)
    as (u & it & w' & b & U & E & Hu & Hw' & Hb & EU & HF & Hru & Ru & Hbr & Hg' & H1 & H2 & H3 & H4 & H5 & H6 & H7 & H8).
  exists u, it, w'. split; [exact E|]. split; [exact Hu|]. split; [exact Hw'|]. intros n.
  pose proof Ru as [R1 R2]. destruct u as [|[b' v] ul ur]; [discriminate|]. set (u := BNode (b', v) ul ur) in *. injection Hb as ->.
  destruct (top_b _ _ _ _ _ R1) as (P1 & P2 & P3). destruct (gone_b _ _ Hg') as (Q1 & Q2 & Q3).
  pose proof (bin_two F (w_heap w') u PreOrder (ex_intro _ None Ru) HF ltac:(right; left; reflexivity)) as Ht.
  assert (HP : map fst (bin_order PreOrder u) = preorder U).
  { transitivity (flat_map preorder (bin_forest (bin_map fst u))); [|rewrite EU; cbn; apply app_nil_r]. rewrite forest_labels, bin_labels_map, <- forest_labels. reflexivity. }
  assert (Hp : Permutation (map fst (bin_order PreOrder u)) (baddrs u)) by (apply bin_order_perm; right; left; reflexivity).
  assert (HL : length (bin_order PreOrder u) = bin_size u) by (rewrite <- (map_length fst), Hp; apply length_baddrs).
  destruct (round_runs F (binary_impl V) (w_heap w') b r Hbr P1 P2 P3 Q1 Q3 PreOrder _ Ht ltac:(rewrite Hp; exact Hru) it H1 H2 H3 H4 H5 eq_refl U H6 H7 ltac:(lia) HP n) as (it' & E1 & E2 & _).
  rewrite HL in E2. exists it'. split; [exact E1|]. split; [|exact E2]. rewrite E2. intros EN. apply fmap_None, lookup_ge_None in EN. rewrite HL in EN.
  pose proof (Nat.mod_upper_bound n (bin_size u) ltac:(discriminate)). lia.
Qed.
Print Assumptions C41_root_preorder_binary_refuted.
Theorem C41_root_preorder_nary_refuted :
  forall (V : Type) (EV : EqDecision V) (F : nat) (al : allocator (nnode V)), (N.of_nat F <= W64)%N ->
  forall (w : world (nnode V)) (M M1 : gmap tid (option (rose (addr * V)))) (i : tid) (c : option (rose (addr * V))) (src : source V) (x : option (rose V)) (r : addr) (pos it0 : iter),
  consistent (nary_kind V) w M -> M !! i = Some c -> gives (nary_kind V) w M i src x M1 -> fits F w src ->
  nroot c = Some r -> x <> None ->
  iterator_at F (nary_impl V) (w_heap w) PreOrder (Some r) (Some r) = Ok it0 -> same_iter pos it0 ->
  exists u it w', insert_over F (nary_impl V) al w i pos src = Ret it w' /\ Some (rose_map snd u) = x /\
    consistent (nary_kind V) w' (<[i := Some u]> M1) /\
    forall n, exists it', run F (nary_impl V) (w_heap w') (repeat true n) it = Ok it' /\
      it_cur it' <> None /\ it_cur it' = fst <$> preorder u !! (n mod rsize u).
Proof.
  intros V EV F al HFW w M M1 i c src x r pos it0 Hw Hi Hg Hf Hr Hx E0 Hs.
  destruct (over_root_n V EV F al HFW w M M1 i c src x r PreOrder pos it0 Hw Hi Hg Hf Hr Hx E0 Hs)
    as (u & it & w' & E & Hu & Hw' & HF & Hru & Ru & Hbr & Hg' & H1 & H2 & H3 & H4 & H5 & H6 & H7 & H8).
  exists u, it, w'. split; [exact E|]. split; [exact Hu|]. split; [exact Hw'|]. intros n.
  pose proof Ru as [R1 R2]. destruct (top_n _ _ R1) as (P1 & P2 & P3). destruct (gone_n _ _ Hg') as (Q1 & Q2 & Q3).
  assert (Hin : onary_in (w_heap w') (Some u)) by (do 4 eexists; exact Ru).
  pose proof (nary_two F (w_heap w') (Some u) PreOrder Hin HF ltac:(left; reflexivity)) as Ht.
  assert (HP : map fst (preorder u) = preorder (nrose u)) by (symmetry; apply preorder_map).
  assert (HL : length (preorder u) = rsize u) by apply length_preorder.
  destruct (round_runs F (nary_impl V) (w_heap w') (raddr u) r Hbr P1 P2 P3 Q1 Q3 PreOrder (preorder u) Ht Hru it H1 H2 H3 H4 H5 eq_refl (nrose u) H6 H7 ltac:(lia) HP n) as (it' & E1 & E2 & _).
  rewrite HL in E2. exists it'. split; [exact E1|]. split; [|exact E2]. rewrite E2. intros EN. apply fmap_None, lookup_ge_None in EN. rewrite HL in EN.
  pose proof (rsize_pos u). pose proof (Nat.mod_upper_bound n (rsize u) ltac:(lia)). lia.
Qed.
Print Assumptions C41_root_preorder_nary_refuted.

(** Post-order, in-order, breadth-first: the iterator visits the rest of the
    order and then denotes no element, but it does not compare equal to end()
    (the navigators' roots differ), so the loop dereferences null. *)
Theorem C41_root_null_binary_refuted :
  forall (V : Type) (EV : EqDecision V) (F : nat) (al : allocator (bnode V)), (N.of_nat F <= W64)%N ->
  forall (w : world (bnode V)) (M M1 : gmap tid (bin (addr * V))) (i : tid) (c : bin (addr * V)) (src : source V) (x : bin V) (r : addr) (k : kind) (pos it0 : iter),
  consistent (binary_kind V) w M -> M !! i = Some c -> gives (binary_kind V) w M i src x M1 -> fits F w src ->
  baddr c = Some r -> x <> BLeaf -> k = PostOrder \/ k = InOrder \/ k = BreadthFirst ->
  iterator_at F (binary_impl V) (w_heap w) k (Some r) (Some r) = Ok it0 -> same_iter pos it0 ->
  exists u it w' l1 y l2, insert_over F (binary_impl V) al w i pos src = Ret it w' /\ bin_map snd u = x /\
    consistent (binary_kind V) w' (<[i := u]> M1) /\ baddr u = Some (fst y) /\ bin_order k u = l1 ++ y :: l2 /\
    (forall n, n <= S (length l2) -> exists it', run F (binary_impl V) (w_heap w') (repeat true n) it = Ok it' /\ it_cur it' = fst <$> (y :: l2) !! n) /\
    iterate_from F (binary_impl V) (w_heap w') it k (baddr u) = Err NullDeref.
Proof.
  intros V EV F al HFW w M M1 i c src x r k pos it0 Hw Hi Hg Hf Hr Hx Hk E0 Hs.
  destruct (over_root_b V EV F al HFW w M M1 i c src x r k pos it0 Hw Hi Hg Hf Hr Hx E0 Hs)
    as (u & it & w' & b & U & E & Hu & Hw' & Hb & EU & HF & Hru & Ru & Hbr & Hg' & H1 & H2 & H3 & H4 & H5 & H6 & H7 & H8).
  assert (Hk2 : two_way_bin k) by (destruct Hk as [->|[->| ->]]; [right; right; left|left|right; right; right]; reflexivity).
  pose proof Ru as [R1 R2]. destruct u as [|[b' v] ul ur]; [discriminate|]. set (u := BNode (b', v) ul ur) in *. injection Hb as ->.
  destruct (top_b _ _ _ _ _ R1) as (P1 & P2 & P3). destruct (gone_b _ _ Hg') as (Q1 & Q2 & Q3).
  pose proof (bin_two F (w_heap w') u k (ex_intro _ None Ru) HF Hk2) as Ht. change (baddr u) with (Some b) in Ht.
  pose proof (bin_order_perm k u Hk2) as Hp.
  assert (Hin : b ∈ map fst (bin_order k u)) by (rewrite Hp; left).
  apply elem_of_list_fmap in Hin as ([b' y] & Eb & Hin). cbn in Eb. subst b'. apply elem_of_list_split in Hin as (l1 & l2 & El).
  assert (Hrl : r ∉ map fst (bin_order k u)) by (rewrite Hp; exact Hru).
  exists u, it, w', l1, (b, y), l2. split; [exact E|]. split; [exact Hu|]. split; [exact Hw'|]. split; [reflexivity|]. split; [exact El|]. split.
  - intros n Hn. destruct (through_runs F (binary_impl V) (w_heap w') b r Hbr P1 P3 Q1 Q3 k _ Ht Hrl it H1 H2 H3 H4 H5 Hk l1 l2 (b, y) El eq_refl n Hn) as (it' & E1 & E2 & _). eauto.
  - exact (through_loop F (binary_impl V) (w_heap w') b r Hbr P1 P3 Q1 Q3 k _ Ht Hrl it H1 H2 H3 H4 H5 Hk l1 l2 (b, y) El eq_refl).
Qed.
Print Assumptions C41_root_null_binary_refuted.
Theorem C41_root_null_nary_refuted :
  forall (V : Type) (EV : EqDecision V) (F : nat) (al : allocator (nnode V)), (N.of_nat F <= W64)%N ->
  forall (w : world (nnode V)) (M M1 : gmap tid (option (rose (addr * V)))) (i : tid) (c : option (rose (addr * V))) (src : source V) (x : option (rose V)) (r : addr) (k : kind) (pos it0 : iter),
  consistent (nary_kind V) w M -> M !! i = Some c -> gives (nary_kind V) w M i src x M1 -> fits F w src ->
  nroot c = Some r -> x <> None -> k = PostOrder \/ k = BreadthFirst ->
  iterator_at F (nary_impl V) (w_heap w) k (Some r) (Some r) = Ok it0 -> same_iter pos it0 ->
  exists u it w' l1 y l2, insert_over F (nary_impl V) al w i pos src = Ret it w' /\ Some (rose_map snd u) = x /\
    consistent (nary_kind V) w' (<[i := Some u]> M1) /\ raddr u = fst y /\ rose_order k u = l1 ++ y :: l2 /\
    (forall n, n <= S (length l2) -> exists it', run F (nary_impl V) (w_heap w') (repeat true n) it = Ok it' /\ it_cur it' = fst <$> (y :: l2) !! n) /\
    iterate_from F (nary_impl V) (w_heap w') it k (Some (raddr u)) = Err NullDeref.
Proof.
  intros V EV F al HFW w M M1 i c src x r k pos it0 Hw Hi Hg Hf Hr Hx Hk E0 Hs.
  destruct (over_root_n V EV F al HFW w M M1 i c src x r k pos it0 Hw Hi Hg Hf Hr Hx E0 Hs)
    as (u & it & w' & E & Hu & Hw' & HF & Hru & Ru & Hbr & Hg' & H1 & H2 & H3 & H4 & H5 & H6 & H7 & H8).
  assert (Hk2 : two_way_nary k) by (destruct Hk as [->| ->]; [right; left|right; right]; reflexivity).
  assert (Hk3 : k = PostOrder \/ k = InOrder \/ k = BreadthFirst) by tauto.
  pose proof Ru as [R1 R2]. destruct (top_n _ _ R1) as (P1 & P2 & P3). destruct (gone_n _ _ Hg') as (Q1 & Q2 & Q3).
  assert (Hon : onary_in (w_heap w') (Some u)) by (do 4 eexists; exact Ru).
  pose proof (nary_two F (w_heap w') (Some u) k Hon HF Hk2) as Ht. change (nroot (Some u)) with (Some (raddr u)) in Ht. change (nary_order k (Some u)) with (rose_order k u) in Ht.
  pose proof (nary_order_perm k (Some u) Hk2) as Hp. change (nary_order k (Some u)) with (rose_order k u) in Hp. change (naddrs (Some u)) with (raddrs u) in Hp.
  assert (Hin : raddr u ∈ map fst (rose_order k u)) by (rewrite Hp; destruct u as [[? ?] ?]; left).
  apply elem_of_list_fmap in Hin as ([b' y] & Eb & Hin). cbn in Eb. subst b'. apply elem_of_list_split in Hin as (l1 & l2 & El).
  assert (Hrl : r ∉ map fst (rose_order k u)) by (rewrite Hp; exact Hru).
  exists u, it, w', l1, (raddr u, y), l2. split; [exact E|]. split; [exact Hu|]. split; [exact Hw'|]. split; [reflexivity|]. split; [exact El|]. split.
  - intros n Hn. destruct (through_runs F (nary_impl V) (w_heap w') (raddr u) r Hbr P1 P3 Q1 Q3 k _ Ht Hrl it H1 H2 H3 H4 H5 Hk3 l1 l2 (raddr u, y) El eq_refl n Hn) as (it' & E1 & E2 & _). eauto.
  - exact (through_loop F (nary_impl V) (w_heap w') (raddr u) r Hbr P1 P3 Q1 Q3 k _ Ht Hrl it H1 H2 H3 H4 H5 Hk3 l1 l2 (raddr u, y) El eq_refl).
Qed.
Print Assumptions C41_root_null_nary_refuted.

(** Into an empty tree: the returned iterator is the argument, it denotes no
    element, and it does not compare equal to begin() of the new tree. *)
Theorem C41_empty_refuted :
  forall (V : Type) (EV : EqDecision V) (Nd : Type) (im : node_impl V Nd) (K : kind_data V Nd) (F : nat) (al : allocator Nd),
  tree_kind V EV Nd im K -> (N.of_nat F <= W64)%N ->
  forall (w : world Nd) (M M1 : gmap tid (C K)) (i : tid) (src : source V) (x : X K) (pos : iter),
  consistent K w M -> M !! i = Some (cnil K) -> gives K w M i src x M1 -> fits F w src -> it_cur pos = None ->
  exists u w', insert_over F im al w i pos src = Ret pos w' /\ cvals K u = x /\ consistent K w' (<[i := u]> M1) /\
    forall b, croot K u = Some b -> forall a, it_eqb pos a = true -> it_cur a <> Some b.
Proof.
  intros V EV Nd im K F al HK HFW w M M1 i src x pos Hw Hi Hg Hf Hp. pose proof Hw as H. apply (to_holds F _ al _ HK HFW) in H.
  destruct (insert_over_empty_ok F im al K (kind_is_ok F al HK) HFW w M i src x M1 pos H Hi Hg Hf Hp) as (u & w' & E & Hu & _ & H' & _).
  exists u, w'. split; [exact E|]. split; [exact Hu|]. split; [apply (to_holds F _ al _ HK HFW), H'|].
  intros b _ a Ha Hb. unfold it_eqb in Ha. rewrite Hp, Hb in Ha. discriminate.
Qed.
Print Assumptions C41_empty_refuted.

(** The tree 10(20,30(50,60),40) with its root replaced by a copy of itself. *)
Example C41_root_used : exists u it w', insert_over 100 (nary_impl nat) (first_fit _) ex_nw 1%positive (Iter PreOrder (Some 1%positive) (Some 1%positive) [] (Some 1%positive)) (SrcCopy 1%positive) = Ret it w' /\
  nvals (Some u) = nvals (Some ex_nary) /\ forall n, exists it', run 100 (nary_impl nat) (w_heap w') (repeat true n) it = Ok it' /\ it_cur it' = fst <$> preorder u !! (n mod 6).
Proof.
  destruct (C41_root_preorder_nary_refuted nat _ 100 (first_fit _) ex_word ex_nw ex_nM ex_nM 1%positive (Some ex_nary) (SrcCopy 1%positive) (nvals (Some ex_nary)) 1%positive
    (Iter PreOrder (Some 1%positive) (Some 1%positive) [] (Some 1%positive)) (Iter PreOrder (Some 1%positive) (Some 1%positive) [] (Some 1%positive)) ex_nw_ok eq_refl) as (u & it & w' & E & Hu & _ & Hn).
  - apply (GCopy (nary_kind nat) ex_nw ex_nM 1%positive 1%positive (Some ex_nary)). reflexivity.
  - vm_compute. lia.
  - reflexivity.
  - discriminate.
  - reflexivity.
  - repeat split.
  - exists u, it, w'. split; [exact E|]. split; [exact Hu|]. intros n. destruct (Hn n) as (it' & E1 & _ & E2). exists it'. split; [exact E1|].
    assert (Hs : rsize u = 6). { rewrite <- (rsize_map snd). cbn in Hu. injection Hu as ->. reflexivity. } rewrite Hs in E2. exact E2.
Qed.
Example C41_null_used : exists u it w', insert_over 100 (binary_impl nat) (first_fit _) ex_bw 1%positive (Iter PostOrder (Some 1%positive) (Some 1%positive) [] (Some 1%positive)) (SrcCopy 1%positive) = Ret it w' /\
  bin_map snd u = bin_map snd ex_bin /\ iterate_from 100 (binary_impl nat) (w_heap w') it PostOrder (baddr u) = Err NullDeref.
Proof.
  destruct (C41_root_null_binary_refuted nat _ 100 (first_fit _) ex_word ex_bw ex_bM ex_bM 1%positive ex_bin (SrcCopy 1%positive) (bin_map snd ex_bin) 1%positive PostOrder
    (Iter PostOrder (Some 1%positive) (Some 1%positive) [] (Some 1%positive)) (Iter PostOrder (Some 1%positive) (Some 1%positive) [] (Some 1%positive)) ex_bw_ok eq_refl) as (u & it & w' & _ & _ & _ & E & Hu & _ & _ & _ & _ & Hn).
  - apply (GCopy (binary_kind nat) ex_bw ex_bM 1%positive 1%positive ex_bin). reflexivity.
  - vm_compute. lia.
  - reflexivity.
  - discriminate.
  - auto.
  - reflexivity.
  - repeat split.
  - exists u, it, w'. split; [exact E|]. split; [exact Hu|exact Hn].
Qed.
