(** PropHist.v: histories of calls (C31, C35). Conventions: see PropTree.v and
    History.v ([call], [exec], [valid], [reach], [careful]). *)
From Verif Require Import Base Spec EditSpec StructNode BinaryNode NaryNode Nav Policy Tree Rep User World Kinds TreeSpec History TreeFacts Examples Examples2.

(** *** C35: along every history of valid calls, the world stays consistent (no
    leak, no shared node, coherent links), and the next valid call is not
    undefined: it returns or throws, and its result is again a reachable world.
    Missing for the full statement: the calls excluded from [valid] (History.v),
    which do go wrong (C30_*_refuted, C33_insert_over_refuted,
    C34_insert_child_refuted). *)
Theorem C35_history_partial :
  forall (V : Type) (EV : EqDecision V) (Nd : Type) (im : node_impl V Nd) (K : kind_data V Nd) (F : nat) (al : allocator Nd),
  tree_kind V EV Nd im K -> (N.of_nat F <= W64)%N ->
  forall w : world Nd, reach F im al K w ->
  exists M, consistent K w M /\ (forall M', consistent K w M' -> M' = M) /\
    forall c, valid F im K w M c -> size (w_heap w) < F ->
      exists w' M', (exec F im al w c = Ret () w' \/ exec F im al w c = Throw w') /\ reach F im al K w' /\ consistent K w' M'.
Proof.
  intros V EV Nd im K F al HK HFW w Hr. destruct (reach_consistent F im al K HK HFW w Hr) as (M & H). exists M. split; [exact H|].
  split; [intros M' H'; exact (contents_unique HK w M' M H' H)|]. intros c Hv HF.
  destruct (exec_ok F im al K HK HFW w M c H Hv HF) as (w' & M' & E & H' & _). exists w', M'. split; [exact E|]. split; [|exact H'].
  eapply reach_call; eassumption.
Qed.
Print Assumptions C35_history_partial.
(** When the last tree is destroyed, every node has been released. *)
Theorem C35_all_released_partial :
  forall (V : Type) (EV : EqDecision V) (Nd : Type) (im : node_impl V Nd) (K : kind_data V Nd) (F : nat) (al : allocator Nd),
  tree_kind V EV Nd im K -> (N.of_nat F <= W64)%N ->
  forall w : world Nd, reach F im al K w -> (forall i, w_trees w !! i = None) -> forall a, w_heap w !! a = None.
Proof.
  intros V EV Nd im K F al HK HFW w Hr Hn a. destruct (reach_consistent F im al K HK HFW w Hr) as (M & H).
  destruct (w_heap w !! a) as [n|] eqn:E; [|reflexivity]. exfalso.
  destruct (proj1 (wo_owned _ _ _ _ _ H a) ltac:(eauto)) as (i & c & Hc & _).
  destruct (proj2 (wo_live _ _ _ _ _ H i) ltac:(eauto)) as [t Ht]. rewrite Hn in Ht. discriminate.
Qed.
Print Assumptions C35_all_released_partial.

(** *** C31: size() and arity() *)
Theorem C31_size_arity_partial :
  forall (V : Type) (EV : EqDecision V) (Nd : Type) (im : node_impl V Nd) (K : kind_data V Nd) (F : nat) (al : allocator Nd),
  tree_kind V EV Nd im K -> (N.of_nat F <= W64)%N ->
  forall w : world Nd, careful F im al K w -> size (w_heap w) < F ->
  exists M, consistent K w M /\ reports K F im w M.
Proof.
  intros V EV Nd im K F al HK HFW w Hc HF. destruct (careful_ok F im al K HK HFW w Hc) as (M & H & Hca). exists M. split; [exact H|].
  apply (reports_caches F im al K HK HFW); assumption.
Qed.
Print Assumptions C31_size_arity_partial.

(** Two concrete histories.  The first: a tree from the literal 10, then
    insert_child_front of the literal 20(30) at the root.  The tree has three
    nodes, size() returns 2.  The second: a binary tree from the literal 10(20),
    assigned from a view of itself whose size is not yet known, then erase of the
    leaf.  One node is left, size() returns 2^64 - 1. *)
Lemma consistent_one {V Nd} (K : kind_data V Nd) (w : world Nd) (c : C K) t (l : list addr) :
  map_to_list (w_trees w) = [(1%positive, t)] -> t_root t = croot K c -> t_nav t = croot K c ->
  crep K (w_heap w) c -> l = caddrs K c -> bool_decide (dom (w_heap w) = list_to_set l) = true ->
  consistent K w (<[1%positive := c]> ∅).
Proof.
  intros Hm E1 E2 Hc -> Hdom. apply bool_decide_eq_true in Hdom.
  assert (Hin : forall i e, (<[1%positive := c]> ∅ : gmap tid (C K)) !! i = Some e -> i = 1%positive /\ e = c).
  { intros i e H. apply lookup_insert_Some in H as [[<- <-]|[_ H]]; [auto|]. rewrite lookup_empty in H. discriminate. }
  assert (Ht : forall i x, w_trees w !! i = Some x <-> i = 1%positive /\ x = t).
  { intros i x. rewrite <- elem_of_map_to_list, Hm, elem_of_list_singleton. split; [intros [=]; auto|intros [-> ->]; reflexivity]. }
  split.
  - intros i. split.
    + intros [x Hx]. apply Ht in Hx as [-> ->]. rewrite lookup_insert. eauto.
    + intros [x Hx]. apply Hin in Hx as [-> ->]. exists t. apply Ht. auto.
  - intros i x e Hx He. apply Ht in Hx as [-> ->]. destruct (Hin _ _ He) as [_ ->]. auto.
  - intros i j e f a He Hf _ _. destruct (Hin _ _ He) as [-> _], (Hin _ _ Hf) as [-> _]. reflexivity.
  - intros a. rewrite <- elem_of_dom, Hdom, elem_of_list_to_set. split.
    + intros Ha. exists 1%positive, c. split; [apply lookup_insert|exact Ha].
    + intros (i & e & He & Ha). destruct (Hin _ _ He) as [-> ->]. exact Ha.
Qed.
Definition run_call {Nd} (im : node_impl nat Nd) (w : world Nd) (c : call nat) : world Nd :=
  match exec 100 im (first_fit _) w c with Ret _ w' => w' | _ => w end.
Definition hist_pos : iter := Iter PreOrder (Some 1%positive) (Some 1%positive) [] (Some 1%positive).
Definition hist_w1 : world (nnode nat) := run_call (nary_impl nat) empty_world (CLiteral 1%positive (LNode 10 [])).
Definition hist_w2 : world (nnode nat) := run_call (nary_impl nat) hist_w1 (CInsertChild true false 1%positive hist_pos (SrcStruct (eval_lit (LNode 20 [LNode 30 []])))).
Definition hist_c2 : rose (addr * nat) := Rose (1%positive, 10) [Rose (2%positive, 20) [Rose (3%positive, 30) []]].
Lemma hist_ok1 : consistent (nary_kind nat) hist_w1 (<[1%positive := Some (Rose (1%positive, 10) [])]> ∅).
Proof.
  eapply (consistent_one (nary_kind nat) _ (Some (Rose (1%positive, 10) [])) _ [1%positive]); try (vm_compute; reflexivity).
  split; [vm_compute; tauto|]. apply (bool_decide_unpack _). vm_compute. exact I.
Qed.
Lemma hist_ok2 : consistent (nary_kind nat) hist_w2 (<[1%positive := Some hist_c2]> ∅).
Proof.
  eapply (consistent_one (nary_kind nat) _ (Some hist_c2) _ [1;2;3]%positive); try (vm_compute; reflexivity).
  split; [vm_compute; tauto|]. apply (bool_decide_unpack _). vm_compute. exact I.
Qed.
Lemma hist_reach1 : reach 100 (nary_impl nat) (first_fit _) (nary_kind nat) hist_w1.
Proof.
  eapply (reach_call _ _ _ _ empty_world ∅ (CLiteral 1%positive (LNode 10 []))); [apply reach_start|exact (empty_consistent _)| | |left].
  - split; [reflexivity|]. exists 10, []. split; [reflexivity|]. vm_compute. tauto.
  - vm_compute. lia.
  - unfold hist_w1, run_call. destruct (exec _ _ _ _ _) as [[] w'|w'|e] eqn:E; [reflexivity|vm_compute in E; discriminate|vm_compute in E; discriminate].
Qed.
Lemma hist_reach2 : reach 100 (nary_impl nat) (first_fit _) (nary_kind nat) hist_w2.
Proof.
  eapply (reach_call _ _ _ _ hist_w1 _ (CInsertChild true false 1%positive hist_pos (SrcStruct (eval_lit (LNode 20 [LNode 30 []]))))); [exact hist_reach1|exact hist_ok1| | |left].
  - exists (Some (Rose (1%positive, 10) [])), (Some (Rose 20 [Rose 30 []])), (<[1%positive := Some (Rose (1%positive, 10) [])]> ∅). split; [reflexivity|].
    split; [apply (GStruct (nary_kind nat) _ _ 1%positive 20 [LNode 30 []]); vm_compute; tauto|]. split; [vm_compute; lia|].
    left. exists 1%positive. split; [vm_compute; set_solver +|]. split; [reflexivity|]. intros [].
  - vm_compute. lia.
  - unfold hist_w2, run_call. destruct (exec _ _ _ _ _) as [[] w'|w'|e] eqn:E; [reflexivity|vm_compute in E; discriminate|vm_compute in E; discriminate].
Qed.
Definition hist_b1 : world (bnode nat) := run_call (binary_impl nat) empty_world (CLiteral 1%positive (LNode 10 [LNode 20 []])).
Definition hist_view : call nat := CAssignView 1%positive (TreeRec (Some 1%positive) 0 0 (Some 1%positive)).
Definition hist_b2 : world (bnode nat) := run_call (binary_impl nat) hist_b1 hist_view.
Definition hist_leaf : iter := Iter PostOrder (Some 4%positive) (Some 3%positive) [] (Some 4%positive).
Definition hist_b3 : world (bnode nat) := run_call (binary_impl nat) hist_b2 (CErase 1%positive hist_leaf).
Definition hist_t1 : bin (addr * nat) := BNode (1%positive, 10) (BNode (2%positive, 20) BLeaf BLeaf) BLeaf.
Definition hist_t2 : bin (addr * nat) := BNode (3%positive, 10) (BNode (4%positive, 20) BLeaf BLeaf) BLeaf.
Definition hist_t3 : bin (addr * nat) := BNode (3%positive, 10) BLeaf BLeaf.
Lemma hist_okb1 : consistent (binary_kind nat) hist_b1 (<[1%positive := hist_t1]> ∅).
Proof.
  eapply (consistent_one (binary_kind nat) _ hist_t1 _ [1;2]%positive); try (vm_compute; reflexivity).
  split; [vm_compute; tauto|]. apply (bool_decide_unpack _). vm_compute. exact I.
Qed.
Lemma hist_okb2 : consistent (binary_kind nat) hist_b2 (<[1%positive := hist_t2]> ∅).
Proof.
  eapply (consistent_one (binary_kind nat) _ hist_t2 _ [3;4]%positive); try (vm_compute; reflexivity).
  split; [vm_compute; tauto|]. apply (bool_decide_unpack _). vm_compute. exact I.
Qed.
Lemma hist_okb3 : consistent (binary_kind nat) hist_b3 (<[1%positive := hist_t3]> ∅).
Proof.
  eapply (consistent_one (binary_kind nat) _ hist_t3 _ [3]%positive); try (vm_compute; reflexivity).
  split; [vm_compute; tauto|]. apply (bool_decide_unpack _). vm_compute. exact I.
Qed.
Lemma hist_reachb3 : reach 100 (binary_impl nat) (first_fit _) (binary_kind nat) hist_b3.
Proof.
  assert (R1 : reach 100 (binary_impl nat) (first_fit _) (binary_kind nat) hist_b1).
  { eapply (reach_call _ _ _ _ empty_world ∅ (CLiteral 1%positive (LNode 10 [LNode 20 []]))); [apply reach_start|exact (empty_consistent _)| | |left].
    - split; [reflexivity|]. exists 10, [LNode 20 []]. split; [reflexivity|]. vm_compute. repeat split; lia.
    - vm_compute. lia.
    - unfold hist_b1, run_call. destruct (exec _ _ _ _ _) as [[] w'|w'|e] eqn:E; [reflexivity|vm_compute in E; discriminate|vm_compute in E; discriminate]. }
  assert (R2 : reach 100 (binary_impl nat) (first_fit _) (binary_kind nat) hist_b2).
  { eapply (reach_call _ _ _ _ hist_b1 _ hist_view); [exact R1|exact hist_okb1| | |left].
    - split; [exists hist_t1; reflexivity|]. exists hist_t1. split; [|reflexivity]. exists None. apply (wo_tree _ _ _ _ _ hist_okb1 1%positive (TreeRec (Some 1%positive) 2 1 (Some 1%positive))); reflexivity.
    - vm_compute. lia.
    - unfold hist_b2, run_call. destruct (exec _ _ _ _ _) as [[] w'|w'|e] eqn:E; [reflexivity|vm_compute in E; discriminate|vm_compute in E; discriminate]. }
  eapply (reach_call _ _ _ _ hist_b2 _ (CErase 1%positive hist_leaf)); [exact R2|exact hist_okb2| | |left].
  - exists hist_t2. split; [reflexivity|]. split; [reflexivity|]. left. exists 4%positive. split; [vm_compute; set_solver +|]. split; [reflexivity|]. intros _. exact I.
  - vm_compute. lia.
  - unfold hist_b3, run_call. destruct (exec _ _ _ _ _) as [[] w'|w'|e] eqn:E; [reflexivity|vm_compute in E; discriminate|vm_compute in E; discriminate].
Qed.
Theorem C31_size_refuted :
  exists (w : world (nnode nat)) (M : gmap tid (option (rose (addr * nat)))) (w' : world (nnode nat)),
  reach 100 (nary_impl nat) (first_fit _) (nary_kind nat) w /\ consistent (nary_kind nat) w M /\
  M !! 1%positive = Some (Some hist_c2) /\ nsize (Some hist_c2) = 3 /\
  tree_size 100 (nary_impl nat) w 1%positive = Ok (2%N, w').
Proof.
  exists hist_w2, (<[1%positive := Some hist_c2]> ∅). eexists. split; [exact hist_reach2|]. split; [exact hist_ok2|]. split; [reflexivity|]. split; [reflexivity|].
  vm_compute. reflexivity.
Qed.
Print Assumptions C31_size_refuted.
Theorem C31_size_wraps_refuted :
  exists (w : world (bnode nat)) (M : gmap tid (bin (addr * nat))) (w' : world (bnode nat)),
  reach 100 (binary_impl nat) (first_fit _) (binary_kind nat) w /\ consistent (binary_kind nat) w M /\
  M !! 1%positive = Some hist_t3 /\ bin_size hist_t3 = 1 /\
  tree_size 100 (binary_impl nat) w 1%positive = Ok (2 ^ 64 - 1, w')%N.
Proof.
  exists hist_b3, (<[1%positive := hist_t3]> ∅). eexists. split; [exact hist_reachb3|]. split; [exact hist_okb3|]. split; [reflexivity|]. split; [reflexivity|].
  vm_compute. reflexivity.
Qed.
Print Assumptions C31_size_wraps_refuted.
(** The histories above are reachable, so the hypotheses of C35 are met by them;
    the careful variant of the first one keeps size() right. *)
Example C35_used : exists M, consistent (nary_kind nat) hist_w2 M /\
  exists w' M', (exec 100 (nary_impl nat) (first_fit _) hist_w2 (CDestroy 1%positive) = Ret () w' \/ exec 100 (nary_impl nat) (first_fit _) hist_w2 (CDestroy 1%positive) = Throw w') /\
    consistent (nary_kind nat) w' M'.
Proof.
  destruct (C35_history_partial nat _ _ _ _ 100 (first_fit _) (nary_tree_kind nat _) ex_word hist_w2 hist_reach2) as (M & H & Hu & Hc). exists M. split; [exact H|].
  destruct (Hc (CDestroy 1%positive)) as (w' & M' & E & _ & H').
  - rewrite <- (Hu _ hist_ok2). exists (Some hist_c2). reflexivity.
  - vm_compute. lia.
  - eauto.
Qed.
Example C31_used : exists w', careful 100 (nary_impl nat) (first_fit _) (nary_kind nat) w' /\ size (w_heap w') = 2.
Proof.
  set (c := CInsertChild true false 1%positive hist_pos (SrcValue 20)).
  exists (run_call (nary_impl nat) (run_call (nary_impl nat) (run_call (nary_impl nat) hist_w1 (CSize 1%positive)) (CArity 1%positive)) c). split; [|vm_compute; reflexivity].
  eapply (careful_edit _ _ _ _ hist_w1 (<[1%positive := Some (Rose (1%positive, 10) [])]> ∅) 1%positive c).
  - eapply (careful_plain _ _ _ _ empty_world ∅ (CLiteral 1%positive (LNode 10 []))); [apply careful_start|exact (empty_consistent _)| | |exact I|exact I|left].
    + split; [reflexivity|]. exists 10, []. split; [reflexivity|]. vm_compute. tauto.
    + vm_compute. lia.
    + unfold hist_w1, run_call. destruct (exec _ _ _ _ _) as [[] w'|w'|e] eqn:E; [reflexivity|vm_compute in E; discriminate|vm_compute in E; discriminate].
  - exact hist_ok1.
  - exists (Some (Rose (1%positive, 10) [])). reflexivity.
  - vm_compute. lia.
  - instantiate (1 := run_call (nary_impl nat) hist_w1 (CSize 1%positive)). unfold run_call at 1.
    destruct (exec _ _ _ _ (CSize _)) as [[] w'|w'|e] eqn:E; [reflexivity|vm_compute in E; discriminate|vm_compute in E; discriminate].
  - instantiate (1 := run_call (nary_impl nat) (run_call (nary_impl nat) hist_w1 (CSize 1%positive)) (CArity 1%positive)). unfold run_call at 2.
    destruct (exec _ _ _ _ (CArity _)) as [[] w'|w'|e] eqn:E; [reflexivity|vm_compute in E; discriminate|vm_compute in E; discriminate].
  - exists (Some (Rose (1%positive, 10) [])), (Some (Rose 20 [])), (<[1%positive := Some (Rose (1%positive, 10) [])]> ∅). split; [reflexivity|].
    split; [apply (GValue (nary_kind nat))|]. split; [vm_compute; lia|].
    left. exists 1%positive. split; [vm_compute; set_solver +|]. split; [reflexivity|]. intros [].
  - split; [reflexivity|exact I].
  - exact I.
  - left. set (w2 := run_call _ (run_call _ _ _) _). unfold run_call.
    destruct (exec _ _ _ w2 c) as [[] w'|w'|e] eqn:E; [reflexivity|vm_compute in E; discriminate|vm_compute in E; discriminate].
Qed.
