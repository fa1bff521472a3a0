(** PropAdoptAlloc.v: nodes that come to trees from smart pointers, and allocators (C79). *)
From Verif Require Import Base Spec StructNode BinaryNode NaryNode Nav Policy Tree User Rep EditSpec RoseFacts NavFacts World Kinds
  TreeSpec TreeOps TreeOps2 TreeOps3 TreeOps4 TreeFacts EditFacts History PropTree Allocs AllocFacts PropAlloc Adopt AdoptFacts AdoptAlloc AdoptAllocFacts Examples Examples2.

(** *** C79.  Along every history of calls on pointers and trees that do not mix
    allocators, each node is owned by a tree or pointer with the allocator that made it, and
    released to that allocator. *)
Theorem C79_partial :
  forall (V : Type) (EV : EqDecision V) (Nd : Type) (im : node_impl V Nd) mv (K : kind_data V Nd), owner_kind V EV Nd im mv K ->
  forall (F : nat) (al : allocator Nd) (x : aworld Nd), (N.of_nat F <= W64)%N -> qreach F im mv al K x ->
  exists M, consistent K (aw_world x) M /\ own_made K x M /\
    (forall c : qcall V, qvalid F im K (aw_world x) M c -> qunmixed K (aw_alloc x) M c -> size (w_heap (aw_world x)) < F ->
       exists x', qstep F im mv al x c = Good x' /\ qreach F im mv al K x').
Proof.
  intros V EV Nd im mv K HO F al x HFW Hx. destruct (qreach_own F im mv al K HO HFW x Hx) as (M & HM & Ho). exists M. split; [exact HM|]. split; [exact Ho|].
  intros c Hv Hu HF. destruct (qstep_ok F im mv al K HO HFW x M c HM Ho Hv Hu HF) as (x' & M' & E & _). exists x'. split; [exact E|].
  eapply qreach_call; eassumption.
Qed.
Print Assumptions C79_partial.

(** A tree made from a pointer whose allocator is not the default one: the nodes go back
    to the wrong allocator when the tree ends. *)
Theorem C79_new_refuted :
  forall (V : Type) (EV : EqDecision V) (Nd : Type) (im : node_impl V Nd) mv (K : kind_data V Nd), owner_kind V EV Nd im mv K ->
  forall (F : nat) (al : allocator Nd) (x : aworld Nd) (M : gmap tid (C K)) (i p : tid) (c : C K) (s r : N) (a : aid), (N.of_nat F <= W64)%N ->
  size (w_heap (aw_world x)) < F -> consistent K (aw_world x) M -> own_made K x M -> M !! i = None -> M !! p = Some c -> c <> cnil K -> aw_alloc x p <> 0 ->
  exists x', qstep F im mv al x (QOwn a (PNew i p s r)) = Good x' /\ qstep F im mv al x' (QTree (ACall (CDestroy i))) = WrongAllocator.
Proof.
  intros V EV Nd im mv K HO F al x M i p c s r a HFW HF H Ho Hi Hp Hc Hne. pose proof (owner_tree F im mv al K HO HFW) as HK.
  destruct (some_node F im al K HK HFW c Hc) as (n & Hn). pose proof H as Hh. apply (to_holds F im al K HK HFW) in Hh.
  destruct (adopt_new_ok F im mv al K HO HFW (aw_world x) M i p c s r Hh Hi Hp) as (w' & E & H' & Eh & _). apply (to_holds F im al K HK HFW) in H'.
  destruct (goes_wrong F im mv al K HO HFW x M a (PNew i p s r) i p c n H Ho) as (x' & Es & Hd); try assumption.
  - split; [exact Hi|exact (ex_intro _ _ Hp)].
  - discriminate.
  - cbn [pexec]. rewrite E. cbn [done]. intros M' k c' HM' Hk Hnk.
    rewrite (contents_unique HK w' M' _ HM' H') in Hk. apply lookup_insert_Some in Hk as [[<- <-]|[Hk1 Hk]]; [destruct (nil_no F im mv al K HO HFW n Hnk)|].
    apply lookup_insert_Some in Hk as [[<- <-]|[Hk2 Hk]]; [reflexivity|]. destruct Hk1. exact (wo_disjoint _ _ _ _ _ H p k c c' n Hp Hk Hn Hnk).
  - cbn [qafter]. rewrite put_eq. congruence.
  - exists x'. split; [exact Es|]. apply Hd. cbn [qstep pexec] in Es. rewrite E in Es. cbn [done] in Es. unfold qsettle in Es. case_bool_decide; [|discriminate].
    injection Es as <-. cbn [aw_world]. rewrite Eh. exact HF.
Qed.
Print Assumptions C79_new_refuted.
(** A pointer assigned to a tree with another allocator: likewise. *)
Theorem C79_assign_refuted :
  forall (V : Type) (EV : EqDecision V) (Nd : Type) (im : node_impl V Nd) mv (K : kind_data V Nd), owner_kind V EV Nd im mv K ->
  forall (F : nat) (al : allocator Nd) (x : aworld Nd) (M : gmap tid (C K)) (i p : tid) (c d : C K) (a : aid), (N.of_nat F <= W64)%N ->
  size (w_heap (aw_world x)) < F -> consistent K (aw_world x) M -> own_made K x M -> M !! i = Some d -> M !! p = Some c -> i <> p -> c <> cnil K ->
  aw_alloc x i <> aw_alloc x p ->
  exists x', qstep F im mv al x (QOwn a (PAssign i p)) = Good x' /\
    (size (w_heap (aw_world x')) < F -> qstep F im mv al x' (QTree (ACall (CDestroy i))) = WrongAllocator).
Proof.
  intros V EV Nd im mv K HO F al x M i p c d a HFW HF H Ho Hi Hp Hip Hc Hne. pose proof (owner_tree F im mv al K HO HFW) as HK.
  destruct (some_node F im al K HK HFW c Hc) as (n & Hn). pose proof H as Hh. apply (to_holds F im al K HK HFW) in Hh.
  pose proof (holds_size _ _ _ _ _ _ _ _ Hh Hi) as L.
  destruct (adopt_assign_ok F im mv al K HO HFW (aw_world x) M i p c d Hh Hi Hp Hip ltac:(lia)) as (w' & E & H' & _). apply (to_holds F im al K HK HFW) in H'.
  apply (goes_wrong F im mv al K HO HFW x M a (PAssign i p) i p c n H Ho); try assumption.
  - split; [exact (ex_intro _ _ Hi)|]. split; [exact (ex_intro _ _ Hp)|exact Hip].
  - cbn. congruence.
  - cbn [pexec]. rewrite E. cbn [done]. intros M' k c' HM' Hk Hnk.
    rewrite (contents_unique HK w' M' _ HM' H') in Hk. apply lookup_insert_Some in Hk as [[<- <-]|[Hk1 Hk]]; [reflexivity|].
    apply lookup_insert_Some in Hk as [[<- <-]|[Hk2 Hk]]; [destruct (nil_no F im mv al K HO HFW n Hnk)|]. destruct Hk2. exact (wo_disjoint _ _ _ _ _ H p k c c' n Hp Hk Hn Hnk).
Qed.
Print Assumptions C79_assign_refuted.
(** A node with children moved into one of another allocator: the pointer to it gives
    the children to the wrong allocator. *)
Theorem C79_moved_refuted :
  forall (V : Type) (EV : EqDecision V) (Nd : Type) (im : node_impl V Nd) mv (K : kind_data V Nd), owner_kind V EV Nd im mv K ->
  forall (F : nat) (al : allocator Nd) (x : aworld Nd) (M : gmap tid (C K)) (p q : tid) (c : C K) (a b : aid), (N.of_nat F <= W64)%N ->
  size (w_heap (aw_world x)) < F -> consistent K (aw_world x) M -> own_made K x M -> M !! p = None -> M !! q = Some c -> 1 < length (caddrs K c) ->
  aw_alloc x q <> a ->
  exists x', qstep F im mv al x (QOwn a (PMoved p q)) = Good x' /\
    (size (w_heap (aw_world x')) < F -> qstep F im mv al x' (QOwn b (PDrop p)) = WrongAllocator).
Proof.
  intros V EV Nd im mv K HO F al x M p q c a b HFW HF H Ho Hp Hq Hlen Hne. pose proof (owner_tree F im mv al K HO HFW) as HK. set (KO := kind_is_ok F al HK).
  pose proof H as Hh. apply (to_holds F im al K HK HFW) in Hh. pose proof (holds_size _ _ _ _ _ _ _ _ Hh Hq) as L.
  assert (Hc : c <> cnil K) by (intros ->; rewrite (nil_addrs F im al K KO) in Hlen; cbn in Hlen; lia).
  destruct (moved_ok F im mv al K HO HFW (aw_world x) M p q c Hh Hp Hq Hc ltac:(lia)) as (w' & u & e & a0 & b0 & l & E & H' & _ & _ & _ & Hb & Hlc & Hle & Hlu & _).
  apply (to_holds F im al K HK HFW) in H'. destruct l as [|n l]; [rewrite Hlc in Hlen; cbn in Hlen; lia|].
  assert (Hpq : p <> q) by congruence.
  assert (Hd : exists x', qstep F im mv al x (QOwn a (PMoved p q)) = Good x' /\
      (size (w_heap (aw_world x')) < F -> qstep F im mv al x' (QTree (ACall (CDestroy p))) = WrongAllocator)).
  { apply (goes_wrong F im mv al K HO HFW x M a (PMoved p q) p q c n H Ho); try assumption.
    - split; [exact Hp|]. exists c. auto.
    - rewrite Hlc. apply elem_of_cons. right. apply elem_of_cons. auto.
    - discriminate.
    - cbn [pexec]. rewrite E. cbn [done]. intros M' k c' HM' Hk Hnk.
      rewrite (contents_unique HK w' M' _ HM' H') in Hk. apply (wo_disjoint _ _ _ _ _ H' k p c' u n Hk); [apply lookup_insert|exact Hnk|].
      rewrite Hlu. apply elem_of_cons. right. apply elem_of_cons. auto.
    - cbn [qafter]. rewrite put_eq. congruence. }
  destruct Hd as (x' & Es & Hd). exists x'. split; [exact Es|]. intros HF'. specialize (Hd HF').
  cbn [qstep] in Hd |- *. unfold astep in Hd. cbn [aexec exec pexec] in Hd |- *. destruct (destroy F im (aw_world x') p) as [w2|err]; [|discriminate]. cbn [done] in Hd |- *.
  unfold settle in Hd. unfold qsettle. cbn [releases] in Hd. cbn [qreleases]. case_bool_decide as Hb1; [discriminate|reflexivity].
Qed.
Print Assumptions C79_moved_refuted.

(** *** Examples *)
Fixpoint qrun' {V Nd} F (im : node_impl V Nd) mv al (x : aworld Nd) (cs : list (qcall V)) : aout Nd :=
  match cs with
  | [] => Good x
  | c :: cs => match qstep F im mv al x c with Good x' => qrun' F im mv al x' cs | o => o end
  end.
(** A pointer of allocator 5 assigned to a tree of allocator 5, all in order; made into a
    new tree, or assigned to a tree of allocator 6, not. *)
Definition ex_q : list (qcall nat) :=
  [QTree (AWith 1%positive 5); QOwn 5 (PLiteral 2%positive (LNode 10 [LNode 20 []; LNode 30 []]))].
Definition left_of {Nd} (o : aout Nd) : option (nat * nat) :=
  match o with Good x => Some (size (w_heap (aw_world x)), size (aw_maker x)) | _ => None end.
Example C79_run :
  left_of (qrun' 100 (nary_impl nat) n_move (first_fit _) aempty (ex_q ++ [QOwn 0 (PAssign 1%positive 2%positive)])) = Some (3, 3) /\
  left_of (qrun' 100 (nary_impl nat) n_move (first_fit _) aempty (ex_q ++ [QOwn 0 (PAssign 1%positive 2%positive); QTree (ACall (CDestroy 1%positive))])) = Some (0, 0) /\
  left_of (qrun' 100 (binary_impl nat) b_move (first_fit _) aempty (ex_q ++ [QOwn 5 (PMoved 3%positive 2%positive); QOwn 0 (PDrop 2%positive); QOwn 0 (PDrop 3%positive)])) = Some (0, 0) /\
  qrun' 100 (nary_impl nat) n_move (first_fit _) aempty (ex_q ++ [QOwn 0 (PNew 3%positive 2%positive 0 0); QTree (ACall (CDestroy 3%positive))]) = WrongAllocator /\
  qrun' 100 (binary_impl nat) b_move (first_fit _) aempty (ex_q ++ [QOwn 6 (PMoved 3%positive 2%positive); QOwn 0 (PDrop 3%positive)]) = WrongAllocator.
Proof. repeat split; vm_compute; reflexivity. Qed.
Example C79_reached : exists x, qrun' 100 (nary_impl nat) n_move (first_fit _) aempty ex_q = Good x /\
  qreach 100 (nary_impl nat) n_move (first_fit _) (nary_kind nat) x /\ map (aw_alloc x) [1; 2]%positive = [5; 5] /\ size (aw_maker x) = 3.
Proof.
  assert (Hstep : forall x c cs, qreach 100 (nary_impl nat) n_move (first_fit _) (nary_kind nat) x ->
    (size (w_heap (aw_world x)) <? 100) = true ->
    (forall M, consistent (nary_kind nat) (aw_world x) M -> qvalid 100 (nary_impl nat) (nary_kind nat) (aw_world x) M c /\ qunmixed (nary_kind nat) (aw_alloc x) M c) ->
    exists x', qstep 100 (nary_impl nat) n_move (first_fit _) x c = Good x' /\
      qrun' 100 (nary_impl nat) n_move (first_fit _) x (c :: cs) = qrun' 100 (nary_impl nat) n_move (first_fit _) x' cs /\
      qreach 100 (nary_impl nat) n_move (first_fit _) (nary_kind nat) x').
  { intros x c cs Hx Hs Hv. destruct (C79_partial nat _ _ _ _ _ (nary_owner nat _) 100 (first_fit _) x ex_word Hx) as (M & HM & _ & Hc).
    destruct (Hv M HM) as [Hv1 Hv2]. apply Nat.ltb_lt in Hs. destruct (Hc c Hv1 Hv2 Hs) as (x' & E & Hx'). exists x'. cbn [qrun']. rewrite E. auto. }
  unfold ex_q.
  destruct (Hstep aempty (QTree (AWith 1%positive 5)) [QOwn 5 (PLiteral 2%positive (LNode 10 [LNode 20 []; LNode 30 []]))])
    as (x1 & E1 & R1 & H1); [constructor|reflexivity| |].
  { intros M HM. split; [|exact I]. cbn. apply eq_None_not_Some. intros Hs. apply (wo_live _ _ _ _ _ HM) in Hs as [t Ht]. discriminate. }
  rewrite R1. clear R1. vm_compute in E1. injection E1 as E1.
  destruct (Hstep x1 (QOwn 5 (PLiteral 2%positive (LNode 10 [LNode 20 []; LNode 30 []]))) []) as (x2 & E2 & R2 & H2); [exact H1|subst x1; reflexivity| |].
  { intros M HM. split; [|exact I]. split.
    - apply eq_None_not_Some. intros Hs. apply (wo_live _ _ _ _ _ HM) in Hs as [t Ht]. subst x1. vm_compute in Ht. discriminate.
    - exists 10, [LNode 20 []; LNode 30 []]. split; [reflexivity|]. vm_compute. tauto. }
  rewrite R2. clear R2. subst x1. exists x2. split; [reflexivity|]. split; [exact H2|]. vm_compute in E2. injection E2 as <-. split; vm_compute; reflexivity.
Qed.
(** The hypotheses of the refutations are met (tree 1 of [ex_aw] in the part of the pointer). *)
Example C79_used :
  (exists x', qstep 100 (nary_impl nat) n_move (first_fit _) ex_aw (QOwn 0 (PNew 3%positive 1%positive 0 0)) = Good x' /\
     qstep 100 (nary_impl nat) n_move (first_fit _) x' (QTree (ACall (CDestroy 3%positive))) = WrongAllocator) /\
  (exists x', qstep 100 (nary_impl nat) n_move (first_fit _) ex_aw (QOwn 0 (PAssign 2%positive 1%positive)) = Good x' /\
     (size (w_heap (aw_world x')) < 100 -> qstep 100 (nary_impl nat) n_move (first_fit _) x' (QTree (ACall (CDestroy 2%positive))) = WrongAllocator)) /\
  (exists x', qstep 100 (nary_impl nat) n_move (first_fit _) ex_aw (QOwn 6 (PMoved 3%positive 1%positive)) = Good x' /\
     (size (w_heap (aw_world x')) < 100 -> qstep 100 (nary_impl nat) n_move (first_fit _) x' (QOwn 0 (PDrop 3%positive)) = WrongAllocator)).
Proof.
  destruct C74_used as (Ho & _). assert (HF : size (w_heap (aw_world ex_aw)) < 100) by (vm_compute; lia). split; [|split].
  - apply (C79_new_refuted nat _ _ _ _ _ (nary_owner nat _) 100 (first_fit _) ex_aw ex_nM 3%positive 1%positive (Some ex_nary) 0 0 0 ex_word HF ex_nw_ok Ho);
      [reflexivity|reflexivity|discriminate|discriminate].
  - apply (C79_assign_refuted nat _ _ _ _ _ (nary_owner nat _) 100 (first_fit _) ex_aw ex_nM 2%positive 1%positive (Some ex_nary) (Some (Rose (7%positive, 70) [])) 0 ex_word HF ex_nw_ok Ho);
      [reflexivity|reflexivity|discriminate|discriminate|discriminate].
  - apply (C79_moved_refuted nat _ _ _ _ _ (nary_owner nat _) 100 (first_fit _) ex_aw ex_nM 3%positive 1%positive (Some ex_nary) 6 0 ex_word HF ex_nw_ok Ho);
      [reflexivity|reflexivity|vm_compute; lia|discriminate].
Qed.
