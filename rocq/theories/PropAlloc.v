(** PropAlloc.v: nodes go back to the allocator they came from (C74), and what
    get_allocator() says (C75). *)
From Verif Require Import Base Spec StructNode BinaryNode NaryNode Nav Policy Tree User Rep EditSpec RoseFacts NavFacts World Kinds
  TreeSpec TreeOps TreeOps2 TreeOps3 TreeOps4 TreeFacts EditFacts History PropTree Allocs AllocFacts Examples Examples2.

(** *** C74.  In every state reached by calls that do not mix allocators, the nodes of
    each tree were made by the tree's allocator; and every further such call releases
    nodes only to the allocator that made them. *)
Theorem C74_partial :
  forall (V : Type) (EV : EqDecision V) (Nd : Type) (im : node_impl V Nd) (K : kind_data V Nd), tree_kind V EV Nd im K ->
  forall (al : allocator Nd) (F : nat) (x : aworld Nd), (N.of_nat F <= W64)%N -> areach F im al K x ->
  exists M, consistent K (aw_world x) M /\ own_made K x M /\
    (forall c : acall V, avalid F im K (aw_world x) M c -> unmixed K (aw_alloc x) M c -> size (w_heap (aw_world x)) < F ->
       exists x', astep F im al x c = Good x' /\ areach F im al K x').
Proof.
  intros V EV Nd im K HK al F x HFW Hx. destruct (areach_own F im al K HK HFW x Hx) as (M & HM & Ho). exists M. split; [exact HM|]. split; [exact Ho|].
  intros c Hv Hu HF. destruct (astep_ok F im al K HK HFW x M c HM Ho Hv Hu HF) as (x' & M' & E & _). exists x'. split; [exact E|].
  eapply areach_call; eassumption.
Qed.
Print Assumptions C74_partial.

Section Wrong.
  Context {V Nd : Type} {EV : EqDecision V}.
  Variable F : nat.
  Variable im : node_impl V Nd.
  Variable al : allocator Nd.
  Variable K : kind_data V Nd.
  Hypothesis HK : tree_kind V EV Nd im K.
  Hypothesis HFW : (N.of_nat F <= W64)%N.
  Let KO := kind_is_ok F al HK.

  Lemma some_node c : c <> cnil K -> exists a, a ∈ caddrs K c.
  Proof using All.
    intros Hn. destruct (croot K c) as [a|] eqn:E; [exists a; exact (k_root _ _ _ _ KO _ _ E)|]. destruct Hn. exact (k_null _ _ _ _ KO c E).
  Qed.
  (** If a call gives the nodes of a tree to a tree with another allocator, destroying
      the latter is wrong. *)
  Lemma gone_wrong x M c i j d : consistent K (aw_world x) M -> own_made K x M -> valid F im K (aw_world x) M c -> size (w_heap (aw_world x)) < F ->
    (forall i j, c <> CAssignMove i j) -> loses c <> Some j ->
    M !! j = Some d -> d <> cnil K -> (forall k, takes c k j -> k = i) -> after (aw_alloc x) (ACall c) i <> aw_alloc x j ->
    exists x', astep F im al x (ACall c) = Good x' /\
      (size (w_heap (aw_world x')) < F -> astep F im al x' (ACall (CDestroy i)) = WrongAllocator).
  Proof using All.
    intros H Ho Hv HF Hc Hl Hj Hd Ht Hne. destruct (some_node d Hd) as (a & Ha).
    destruct (astep_run F im al K HK HFW x M (ACall c) H Ho Hv HF) as (w' & M' & b & x' & E & Es & -> & H' & Hf & Hs).
    { intros i0 j0 E. injection E as ->. destruct (Hc i0 j0 eq_refl). }
    eexists. split; [exact Es|]. cbn [aw_world]. intros HF'.
    pose proof (Hs j d a Hj Ha (or_intror Hl)) as Hin. destruct (proj1 (wo_owned _ _ _ _ _ H' a) Hin) as (k & c' & Hk & Ha').
    destruct (in_heap K (aw_world x) M j d a H Hj Ha) as [n Hn].
    destruct (Hf k c' a Hk Ha') as [[E0 _]|(j' & d' & Ht' & Hj' & Hd')]; [congruence|].
    assert (j' = j) as -> by exact (wo_disjoint _ _ _ _ _ H j' j d' d a Hj' Hj Hd' Ha).
    assert (k = i) as -> by exact (Ht k Ht').
    apply (destroy_wrong F im al K HK HFW _ M' i c' a (aw_alloc x j)); cbn [aw_world aw_maker aw_alloc]; try assumption; [|congruence].
    rewrite remade_lookup by exact Hin. rewrite Hn. destruct Ho as [Ho _]. exact (Ho j d a Hj Ha).
  Qed.
End Wrong.

(** Move assignment takes the allocator of the other tree before it releases its own
    nodes: if the allocators differ, they go to the wrong one. *)
Theorem C74_move_assign_refuted :
  forall (V : Type) (EV : EqDecision V) (Nd : Type) (im : node_impl V Nd) (K : kind_data V Nd), tree_kind V EV Nd im K ->
  forall (al : allocator Nd) (F : nat) (x : aworld Nd) (M : gmap tid (C K)) (i j : tid) (c d : C K),
  (N.of_nat F <= W64)%N -> size (w_heap (aw_world x)) < F -> consistent K (aw_world x) M -> own_made K x M ->
  M !! i = Some c -> M !! j = Some d -> c <> cnil K -> aw_alloc x i <> aw_alloc x j ->
  astep F im al x (ACall (CAssignMove i j)) = WrongAllocator.
Proof.
  intros V EV Nd im K HK al F x M i j c d HFW HF H [Ho _] Hi Hj Hc Hne. pose proof H as Hh. apply (to_holds F im al K HK HFW) in Hh.
  set (KO := kind_is_ok F al HK).
  destruct (some_node F im al K HK HFW c Hc) as (a & Ha). assert (Hij : i <> j) by congruence.
  destruct (tree_get F im al K HK HFW (aw_world x) M j Hh (ex_intro _ _ Hj)) as (d0 & t & Hd0 & Ht & L). rewrite Hj in Hd0. injection Hd0 as <-.
  pose proof (holds_size _ _ _ _ _ _ _ _ Hh Hi) as Lc.
  destruct (assign_move_ok F im al K KO (aw_world x) M i j c d t Hh Hij Hi Hj Ht ltac:(lia)) as (w' & E & H' & _).
  apply (to_holds F im al K HK HFW) in H'. unfold astep. cbn [aexec exec]. rewrite E. cbn [done]. unfold settle.
  rewrite bool_decide_eq_false_2; [reflexivity|]. intros Hall. apply Hne. refine (Hall a _ (Ho i c a Hi Ha) _).
  destruct (w_heap w' !! a) eqn:En; [|reflexivity]. exfalso.
  destruct (proj1 (wo_owned _ _ _ _ _ H' a)) as (k & e & Hk & Hae); [eauto|].
  destruct (decide (k = j)) as [->|Hkj]; [rewrite lookup_insert in Hk; injection Hk as <-; exact (nil_none F im al K HK HFW a Hae)|].
  rewrite lookup_insert_ne in Hk by congruence. destruct (decide (k = i)) as [->|Hki].
  - rewrite lookup_insert in Hk. injection Hk as <-. apply Hij. exact (wo_disjoint _ _ _ _ _ H i j c d a Hi Hj Ha Hae).
  - rewrite lookup_insert_ne in Hk by congruence. apply Hki. symmetry. exact (wo_disjoint _ _ _ _ _ H i k c e a Hi Hk Ha Hae).
Qed.
Print Assumptions C74_move_assign_refuted.

(** swap leaves the allocators in place. *)
Theorem C74_swap_refuted :
  forall (V : Type) (EV : EqDecision V) (Nd : Type) (im : node_impl V Nd) (K : kind_data V Nd), tree_kind V EV Nd im K ->
  forall (al : allocator Nd) (F : nat) (x : aworld Nd) (M : gmap tid (C K)) (i j : tid) (c d : C K),
  (N.of_nat F <= W64)%N -> size (w_heap (aw_world x)) < F -> consistent K (aw_world x) M -> own_made K x M ->
  M !! i = Some c -> M !! j = Some d -> d <> cnil K -> aw_alloc x i <> aw_alloc x j ->
  exists x', astep F im al x (ACall (CSwap i j)) = Good x' /\ astep F im al x' (ACall (CDestroy i)) = WrongAllocator.
Proof.
  intros V EV Nd im K HK al F x M i j c d HFW HF H Ho Hi Hj Hd Hne. assert (Hij : i <> j) by congruence.
  destruct (gone_wrong F im al K HK HFW x M (CSwap i j) i j d H Ho) as (x' & E & Hw); try assumption; try discriminate.
  - cbn. split; eexists; eassumption.
  - cbn. intros k. intuition congruence.
  - exists x'. split; [exact E|]. apply Hw. clear Hw. unfold astep in E. cbn [aexec exec] in E.
    pose proof H as Hh. apply (to_holds F im al K HK HFW) in Hh.
    destruct (tree_get F im al K HK HFW (aw_world x) M i Hh (ex_intro _ _ Hi)) as (c0 & ti & _ & Hti & _).
    destruct (tree_get F im al K HK HFW (aw_world x) M j Hh (ex_intro _ _ Hj)) as (d0 & tj & _ & Htj & _).
    destruct (swap_ok K (aw_world x) M i j c d ti tj Hh Hi Hj Hti Htj) as (w' & E' & _ & Hh' & _). rewrite E' in E. cbn [done] in E.
    unfold settle in E. destruct (bool_decide _); [|discriminate]. injection E as <-. cbn [aw_world]. rewrite Hh'. exact HF.
Qed.
Print Assumptions C74_swap_refuted.

(** Inserting a moved tree puts its nodes under the allocator of the other tree. *)
Theorem C74_insert_move_refuted :
  forall (V : Type) (EV : EqDecision V) (Nd : Type) (im : node_impl V Nd) (K : kind_data V Nd), tree_kind V EV Nd im K ->
  forall (al : allocator Nd) (F : nat) (x : aworld Nd) (M : gmap tid (C K)) (c : call V) (i j : tid) (pos : iter) (first emplace : bool) (d : C K),
  (N.of_nat F <= W64)%N -> size (w_heap (aw_world x)) < F -> consistent K (aw_world x) M -> own_made K x M ->
  c = CInsertOver i pos (SrcMove j) \/ c = CInsertChild first emplace i pos (SrcMove j) -> valid F im K (aw_world x) M c ->
  M !! j = Some d -> d <> cnil K -> aw_alloc x i <> aw_alloc x j ->
  exists x', astep F im al x (ACall c) = Good x' /\
    (size (w_heap (aw_world x')) < F -> astep F im al x' (ACall (CDestroy i)) = WrongAllocator).
Proof.
  intros V EV Nd im K HK al F x M c i j pos first emplace d HFW HF H Ho Hc Hv Hj Hd Hne. assert (Hij : i <> j) by congruence.
  apply (gone_wrong F im al K HK HFW x M c i j d H Ho Hv HF); try assumption.
  - destruct Hc as [->| ->]; discriminate.
  - destruct Hc as [->| ->]; cbn; congruence.
  - destruct Hc as [->| ->]; cbn; intros k; intuition congruence.
  - destruct Hc as [->| ->]; exact Hne.
Qed.
Print Assumptions C74_insert_move_refuted.

(** The copy of a tree with another policy has the other tree's allocator, but its nodes
    come from a default-constructed one. *)
Theorem C74_copy_policy_refuted :
  forall (V : Type) (EV : EqDecision V) (Nd : Type) (im : node_impl V Nd) (K : kind_data V Nd), tree_kind V EV Nd im K ->
  forall (al : allocator Nd) (F : nat) (x : aworld Nd) (M : gmap tid (C K)) (i j : tid) (d : C K),
  (N.of_nat F <= W64)%N -> size (w_heap (aw_world x)) < F -> consistent K (aw_world x) M -> own_made K x M ->
  M !! i = None -> M !! j = Some d -> d <> cnil K -> aw_alloc x j <> 0 ->
  exists x', astep F im al x (ACopyPolicy i j) = Good x' /\
    (size (w_heap (aw_world x')) < F -> astep F im al x' (ACall (CDestroy i)) = WrongAllocator).
Proof.
  intros V EV Nd im K HK al F x M i j d HFW HF H Ho Hi Hj Hd Hne. set (KO := kind_is_ok F al HK).
  destruct (astep_run F im al K HK HFW x M (ACopyPolicy i j) H Ho (conj Hi (ex_intro _ _ Hj)) HF) as (w' & M' & b & x' & E & Es & -> & H' & Hf & Hs); [discriminate|].
  eexists. split; [exact Es|]. cbn [aw_world]. intros HF'. pose proof H as Hh. apply (to_holds F im al K HK HFW) in Hh.
  destruct (tree_get F im al K HK HFW (aw_world x) M j Hh (ex_intro _ _ Hj)) as (d0 & t & Hd0 & Ht & L). rewrite Hj in Hd0. injection Hd0 as <-.
  destruct (construct_copy_ok F im al K KO (aw_world x) M i j d t Hh Hi Hj Ht ltac:(lia)) as (w2 & c2 & E2 & H2 & _ & El & _ & Hnew & _).
  cbn [aexec exec] in E. rewrite E2 in E. destruct b; [discriminate|]. injection E as <-. apply (to_holds F im al K HK HFW) in H2.
  destruct (some_node F im al K HK HFW d Hd) as (a0 & Ha0).
  destruct (caddrs K c2) as [|a l] eqn:Ec; [destruct (caddrs K d); [apply elem_of_nil in Ha0 as []|discriminate]|].
  assert (Ha : a ∈ caddrs K c2) by (rewrite Ec; left).
  assert (Hi2 : <[i := c2]> M !! i = Some c2) by apply lookup_insert.
  apply (destroy_wrong F im al K HK HFW _ (<[i := c2]> M) i c2 a 0); cbn [aw_world aw_maker aw_alloc after]; try assumption.
  - rewrite remade_lookup by exact (in_heap K w2 _ i c2 a H2 Hi2 Ha). rewrite (Hnew a ltac:(left)). reflexivity.
  - rewrite put_eq. auto.
Qed.
Print Assumptions C74_copy_policy_refuted.

(** *** C75.  get_allocator() gives the default-constructed allocator, whatever the tree
    was constructed with or given: it is the tree's own if and only if that is the
    default one.  get_node_allocator() is the allocator of the tree. *)
Theorem C75_partial :
  forall (V Nd : Type) (F : nat) (im : node_impl V Nd) (al : allocator Nd) (x : aworld Nd) (i : tid), aany F im al x ->
  get_allocator x i = 0 /\ (get_allocator x i = get_node_allocator x i <-> get_node_allocator x i = 0).
Proof.
  intros V Nd F im al x i Hx.
  assert (H0 : forall k, aw_shown x k = 0).
  { clear i. induction Hx as [|x c x' Hx IH E]; [reflexivity|]. intros k.
    assert (Hs : aw_shown x' = shown_after (aw_shown x) c).
    { unfold astep in E. destruct (aexec F im al (aw_world x) c) as [[] w'|w'|e]; [| |discriminate];
      unfold settle in E; destruct (bool_decide _); try discriminate; injection E as <-; reflexivity. }
    rewrite Hs. assert (Hp : forall i, put (aw_shown x) i 0 k = 0) by (intros i; unfold put; destruct (bool_decide _); auto).
    destruct c as [| |[]]; cbn [shown_after]; auto. }
  unfold get_allocator. rewrite H0. split; [reflexivity|]. split; congruence.
Qed.
Print Assumptions C75_partial.
Theorem C75_refuted :
  forall (V : Type) (EV : EqDecision V) (Nd : Type) (im : node_impl V Nd) (K : kind_data V Nd), tree_kind V EV Nd im K ->
  forall (al : allocator Nd) (F : nat) (x : aworld Nd) (M : gmap tid (C K)) (i : tid) (a : aid),
  (N.of_nat F <= W64)%N -> size (w_heap (aw_world x)) < F -> consistent K (aw_world x) M -> own_made K x M -> M !! i = None -> a <> 0 ->
  exists x', astep F im al x (AWith i a) = Good x' /\ get_node_allocator x' i = a /\ get_allocator x' i <> a.
Proof.
  intros V EV Nd im K HK al F x M i a HFW HF H Ho Hi Ha.
  destruct (astep_run F im al K HK HFW x M (AWith i a) H Ho Hi HF) as (w' & M' & b & x' & _ & Es & -> & _); [discriminate|].
  eexists. split; [exact Es|]. unfold get_node_allocator, get_allocator. cbn [aw_alloc aw_shown after shown_after]. rewrite !put_eq. auto.
Qed.
Print Assumptions C75_refuted.

(** *** Examples *)
(** A program: trees 1 and 2 with allocators 5 and 6, each given a literal; the tree 1
    gets a child copied from tree 2, is copied to tree 3 and everything is destroyed. *)
Fixpoint arun {V Nd} (F : nat) (im : node_impl V Nd) (al : allocator Nd) (x : aworld Nd) (cs : list (acall V)) : aout Nd :=
  match cs with
  | [] => Good x
  | c :: cs => match astep F im al x c with Good x' => arun F im al x' cs | o => o end
  end.
Definition ex_build : list (acall nat) :=
  [AWith 1%positive 5; AWith 2%positive 6; ACall (CAssignLiteral 1%positive (LNode 10 [LNode 20 []; LNode 30 []]));
   ACall (CAssignLiteral 2%positive (LNode 40 [LNode 50 []]))].
Definition shows {Nd} (o : aout Nd) : option (list aid * list aid) :=
  match o with
  | Good x => Some (map (fun a => default 99 (aw_maker x !! a)) [1;2;3;4;5;6;7;8;9;10]%positive, [aw_alloc x 1%positive; aw_alloc x 2%positive; aw_alloc x 3%positive])
  | _ => None
  end.
Definition ex_more : list (acall nat) := [ACall (CCopy 3%positive 1%positive); ACall (CAssignCopy 1%positive 2%positive)].
Definition ex_end : list (acall nat) := [ACall (CDestroy 1%positive); ACall (CDestroy 2%positive); ACall (CDestroy 3%positive)].
(** The nodes of tree 3 come from the default allocator, those of trees 1 and 2 from
    theirs (99: no such node); in the end nothing is left. *)
Example C74_run :
  shows (arun 100 (nary_impl nat) (first_fit _) aempty (ex_build ++ ex_more)) = Some ([99; 99; 99; 6; 6; 0; 0; 0; 5; 5], [5; 6; 0]) /\
  shows (arun 100 (nary_impl nat) (first_fit _) aempty (ex_build ++ ex_more ++ ex_end)) = Some ([99; 99; 99; 99; 99; 99; 99; 99; 99; 99], [5; 6; 0]) /\
  arun 100 (nary_impl nat) (first_fit _) aempty (ex_build ++ [ACall (CAssignMove 1%positive 2%positive)]) = WrongAllocator /\
  arun 100 (nary_impl nat) (first_fit _) aempty (ex_build ++ [ACall (CSwap 1%positive 2%positive); ACall (CDestroy 1%positive)]) = WrongAllocator.
Proof. repeat split; vm_compute; reflexivity. Qed.
(** The states in between are reached in the sense of C74. *)
Example C74_reached : exists x, arun 100 (nary_impl nat) (first_fit _) aempty ex_build = Good x /\ areach 100 (nary_impl nat) (first_fit _) (nary_kind nat) x /\
  map (aw_alloc x) [1; 2]%positive = [5; 6] /\ map (fun a => aw_maker x !! a) [1; 2; 3; 4; 5]%positive = map Some [5; 5; 5; 6; 6].
Proof.
  assert (Hstep : forall x c cs, areach 100 (nary_impl nat) (first_fit _) (nary_kind nat) x ->
    (size (w_heap (aw_world x)) <? 100) = true ->
    (forall M, consistent (nary_kind nat) (aw_world x) M -> avalid 100 (nary_impl nat) (nary_kind nat) (aw_world x) M c /\ unmixed (nary_kind nat) (aw_alloc x) M c) ->
    exists x', astep 100 (nary_impl nat) (first_fit _) x c = Good x' /\ arun 100 (nary_impl nat) (first_fit _) x (c :: cs) = arun 100 (nary_impl nat) (first_fit _) x' cs /\
      areach 100 (nary_impl nat) (first_fit _) (nary_kind nat) x').
  { intros x c cs Hx Hs Hv. destruct (C74_partial nat _ _ _ _ (nary_tree_kind nat _) (first_fit _) 100 x ex_word Hx) as (M & HM & _ & Hc).
    destruct (Hv M HM) as [Hv1 Hv2]. apply Nat.ltb_lt in Hs. destruct (Hc c Hv1 Hv2 Hs) as (x' & E & Hx'). exists x'. cbn [arun]. rewrite E. auto. }
  unfold ex_build.
  destruct (Hstep aempty (AWith 1%positive 5) [AWith 2%positive 6; ACall (CAssignLiteral 1%positive (LNode 10 [LNode 20 []; LNode 30 []]));
   ACall (CAssignLiteral 2%positive (LNode 40 [LNode 50 []]))]) as (x1 & E1 & R1 & H1); [constructor|reflexivity| |].
  { intros M HM. split; [|exact I]. cbn. apply eq_None_not_Some. intros Hs. apply (wo_live _ _ _ _ _ HM) in Hs as [t Ht]. discriminate. }
  rewrite R1. clear R1. vm_compute in E1. injection E1 as E1.
  destruct (Hstep x1 (AWith 2%positive 6) [ACall (CAssignLiteral 1%positive (LNode 10 [LNode 20 []; LNode 30 []]));
   ACall (CAssignLiteral 2%positive (LNode 40 [LNode 50 []]))]) as (x2 & E2 & R2 & H2); [exact H1|subst x1; reflexivity| |].
  { intros M HM. split; [|exact I]. cbn. apply eq_None_not_Some. intros Hs. apply (wo_live _ _ _ _ _ HM) in Hs as [t Ht]. subst x1. vm_compute in Ht. discriminate. }
  rewrite R2. clear R2. subst x1. vm_compute in E2. injection E2 as E2.
  destruct (Hstep x2 (ACall (CAssignLiteral 1%positive (LNode 10 [LNode 20 []; LNode 30 []]))) [ACall (CAssignLiteral 2%positive (LNode 40 [LNode 50 []]))])
    as (x3 & E3 & R3 & H3); [exact H2|subst x2; reflexivity| |].
  { intros M HM. split; [|exact I]. cbn. split.
    - apply (wo_live _ _ _ _ _ HM). subst x2. vm_compute. eauto.
    - eexists _, _. split; [reflexivity|]. vm_compute. tauto. }
  rewrite R3. clear R3. subst x2. vm_compute in E3. injection E3 as E3.
  destruct (Hstep x3 (ACall (CAssignLiteral 2%positive (LNode 40 [LNode 50 []]))) []) as (x4 & E4 & R4 & H4); [exact H3|subst x3; reflexivity| |].
  { intros M HM. split; [|exact I]. cbn. split.
    - apply (wo_live _ _ _ _ _ HM). subst x3. vm_compute. eauto.
    - eexists _, _. split; [reflexivity|]. vm_compute. tauto. }
  rewrite R4. clear R4. subst x3. exists x4. split; [reflexivity|]. split; [exact H4|]. vm_compute in E4. injection E4 as <-. split; vm_compute; reflexivity.
Qed.
(** Two trees with different allocators, as the refutations ask for. *)
Definition ex_aw : aworld (nnode nat) :=
  AWorld ex_nw (fun i => if decide (i = 1%positive) then 5 else 6) (fun _ => 0)
    (list_to_map [(1%positive, 5); (2%positive, 5); (3%positive, 5); (4%positive, 5); (5%positive, 5); (6%positive, 5); (7%positive, 6)]).
Example C74_used : own_made (nary_kind nat) ex_aw ex_nM /\ aw_alloc ex_aw 1%positive <> aw_alloc ex_aw 2%positive /\
  astep 100 (nary_impl nat) (first_fit _) ex_aw (ACall (CAssignMove 1%positive 2%positive)) = WrongAllocator.
Proof.
  assert (Ho : own_made (nary_kind nat) ex_aw ex_nM).
  { split.
    - intros i c a Hi Ha. unfold ex_nM in Hi. apply lookup_insert_Some in Hi as [[<- <-]|[Hne Hi]].
      + change (a ∈ [1;2;3;5;6;4]%positive) in Ha. repeat (apply elem_of_cons in Ha as [->|Ha]; [reflexivity|]). apply elem_of_nil in Ha as [].
      + apply lookup_insert_Some in Hi as [[<- <-]|[_ Hi]]; [|discriminate].
        change (a ∈ [7]%positive) in Ha. repeat (apply elem_of_cons in Ha as [->|Ha]; [reflexivity|]). apply elem_of_nil in Ha as [].
    - intros a [m Hm]. cbn [ex_aw aw_maker] in Hm. apply elem_of_list_to_map_2 in Hm.
      repeat (apply elem_of_cons in Hm as [E|Hm]; [injection E as -> ->; vm_compute; eauto|]). apply elem_of_nil in Hm as []. }
  split; [exact Ho|]. split; [discriminate|].
  apply (C74_move_assign_refuted nat _ _ _ _ (nary_tree_kind nat _) (first_fit _) 100 ex_aw ex_nM 1%positive 2%positive (Some ex_nary) (Some (Rose (7%positive, 70) [])) ex_word);
    [vm_compute; lia|exact ex_nw_ok|exact Ho|reflexivity|reflexivity|discriminate|discriminate].
Qed.
