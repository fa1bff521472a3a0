(** PropCopy.v: copying views (C42).  [view] holds the attributes of the view:
    its root node, and the size and arity it reports. *)
From Verif Require Import Base Spec EditSpec StructNode BinaryNode NaryNode Nav Policy Tree Rep User World Kinds TreeSpec IterMain
  NodeFacts RoseFacts Iter NaryRep NaryOps TreeOps TreeOps2 TreeOps3 TreeFacts PropTree Examples Examples2.

Theorem C42_view_binary :
  forall (V : Type) (EV : EqDecision V) (F : nat) (al : allocator (bnode V)), (N.of_nat F <= W64)%N ->
  forall (w : world (bnode V)) (M : gmap tid (bin (addr * V))) (i j : tid) (view : tree_rec) (c t s : bin (addr * V)),
  consistent (binary_kind V) w M -> size (w_heap w) < F -> M !! i = Some c -> M !! j = Some t ->
  bsubtree s t -> t_root view = baddr s ->
  exists w' c', assign_view F (binary_impl V) al w i view = Ok w' /\
    consistent (binary_kind V) w' (<[i := c']> M) /\ bin_map snd c' = bin_map snd s /\
    (forall x, x ∈ baddrs c' -> w_heap w !! x = None).
Proof.
  intros V EV F al HFW w M i j view c t s Hw HF Hi Hj Hs Hv.
  destruct (wo_tree _ _ _ _ _ Hw j) with (c := t) (t := default (TreeRec None 0 0 None) (w_trees w !! j)) as (_ & _ & Ht); [|exact Hj|].
  { destruct (proj2 (wo_live _ _ _ _ _ Hw j) ltac:(eauto)) as [tr ->]. reflexivity. }
  destruct (C18_view_assign V EV _ _ _ F al (binary_tree_kind V EV) HFW w M i view c s Hw HF Hi) as (w' & c' & H1 & H2 & H3 & H4 & _).
  - eapply bin_in_sub; [exists None; exact Ht|exact Hs].
  - exact Hv.
  - exists w', c'. auto.
Qed.
Print Assumptions C42_view_binary.

(** N-ary: proved when the viewed node is the root of its tree or the last child
    of its parent.  Missing: the other nodes, for which it is false, see below. *)
Theorem C42_view_nary_partial :
  forall (V : Type) (EV : EqDecision V) (F : nat) (al : allocator (nnode V)), (N.of_nat F <= W64)%N ->
  forall (w : world (nnode V)) (M : gmap tid (option (rose (addr * V)))) (i j : tid) (view : tree_rec)
    (c : option (rose (addr * V))) (t s : rose (addr * V)),
  consistent (nary_kind V) w M -> size (w_heap w) < F -> M !! i = Some c -> M !! j = Some (Some t) ->
  (s = t \/ exists x cs, rsubtree (Rose x (cs ++ [s])) t) -> t_root view = Some (raddr s) ->
  exists w' c', assign_view F (nary_impl V) al w i view = Ok w' /\
    consistent (nary_kind V) w' (<[i := c']> M) /\ nvals c' = Some (rose_map snd s) /\
    (forall x, x ∈ naddrs c' -> w_heap w !! x = None).
Proof.
  intros V EV F al HFW w M i j view c t s Hw HF Hi Hj Hs Hv.
  destruct (wo_tree _ _ _ _ _ Hw j) with (c := Some t) (t := default (TreeRec None 0 0 None) (w_trees w !! j)) as (_ & _ & Ht); [|exact Hj|].
  { destruct (proj2 (wo_live _ _ _ _ _ Hw j) ltac:(eauto)) as [tr ->]. reflexivity. }
  destruct (C18_view_assign V EV _ _ _ F al (nary_tree_kind V EV) HFW w M i view c (Some s) Hw HF Hi) as (w' & c' & H1 & H2 & H3 & H4 & _).
  - destruct Hs as [->|(x & cs & Hs)].
    + destruct Ht as [Ht Hnd]. split; [|exact Hnd]. exists None, None. exact Ht.
    + assert (Hin : nary_in (w_heap w) (Rose x (cs ++ [s]))).
      { eapply nary_in_sub; [|exact Hs]. exists None, None, None, (szt 0). exact Ht. }
      destruct Hin as (par & prev & next & fs & Hr & Hnd). destruct x as [a v]. rewrite nrep_unfold in Hr. destruct Hr as [_ Hr].
      apply nseg_app in Hr as [_ Hr]. cbn [nseg] in Hr. destruct Hr as [Hr _]. cbn. split.
      * exists (Some a), (last_or None cs). exact Hr.
      * rewrite raddrs_rose, faddrs_app, faddrs_cons in Hnd. apply NoDup_cons in Hnd as [_ Hnd].
        apply NoDup_app in Hnd as (_ & _ & Hnd). apply NoDup_app in Hnd as (Hnd & _). exact Hnd.
  - exact Hv.
  - exists w', c'. auto.
Qed.
Print Assumptions C42_view_nary_partial.

(** For every other node of every n-ary tree it is false: the copy includes the
    following siblings and everything below them, as many new nodes are
    allocated, and the target's root node has a next sibling, so that the result
    is no tree: there is no way to see it as a collection of properly linked,
    disjoint trees. *)
Theorem C42_view_nary_refuted :
  forall (V : Type) (EV : EqDecision V) (F : nat) (al : allocator (nnode V)), (N.of_nat F <= W64)%N ->
  forall (w : world (nnode V)) (M : gmap tid (option (rose (addr * V)))) (i j : tid) (view : tree_rec)
    (c : option (rose (addr * V))) (t s r : rose (addr * V)) (x : addr * V) (ls rs : list (rose (addr * V))),
  consistent (nary_kind V) w M -> size (w_heap w) < F -> M !! i = Some c -> M !! j = Some (Some t) ->
  rsubtree (Rose x (ls ++ s :: r :: rs)) t -> t_root view = Some (raddr s) ->
  exists w' fresh, assign_view F (nary_impl V) al w i view = Ok w' /\
    NoDup fresh /\ length fresh = list_sum (map rsize (s :: r :: rs)) /\
    (forall y, y ∈ fresh -> w_heap w !! y = None /\ is_Some (w_heap w' !! y)) /\
    (forall M', ~ consistent (nary_kind V) w' M').
Proof.
  intros V EV F al HFW w M i j view c t s r x ls rs Hw HF Hi Hj Hs Hv.
  destruct (proj2 (wo_live _ _ _ _ _ Hw j) ltac:(eauto)) as [tj Htj].
  destruct (wo_tree _ _ _ _ _ Hw j _ _ Htj Hj) as (_ & _ & Ht).
  destruct (proj2 (wo_live _ _ _ _ _ Hw i) ltac:(eauto)) as [ti Hti].
  destruct (wo_tree _ _ _ _ _ Hw i _ _ Hti Hi) as (Hri & _ & Hci).
  assert (Hin : nary_in (w_heap w) (Rose x (ls ++ s :: r :: rs))).
  { eapply nary_in_sub; [|exact Hs]. exists None, None, None, (szt 0). exact Ht. }
  pose proof (kind_is_ok F al (nary_tree_kind V EV)) as KO.
  assert (Hlen : fsize (s :: r :: rs) <= F).
  { pose proof (src_size F _ al _ KO (w_heap w) (Some t)) as Ls. cbn [caddrs nary_kind naddrs opt_list] in Ls.
    specialize (Ls ltac:(destruct Ht as [Ht Hnd]; split; [|exact Hnd]; exists None, None; exact Ht)).
    rewrite length_raddrs in Ls. apply rsubtree_plug in Hs as [cx Hp]. pose proof (ctx_length_size cx (Rose x (ls ++ s :: r :: rs))) as Hcl.
    rewrite Hp in Hcl. cbn [rsize] in Hcl. rewrite map_app, list_sum_app in Hcl. unfold fsize. lia. }
  assert (Hc : length (caddrs (nary_kind V) c) < F).
  { pose proof (src_size F _ al _ KO (w_heap w) c (k_src _ _ _ _ KO _ _ Hci)). lia. }
  destruct Hin as (par & prev & next & fs & Hr & Hnd). destruct x as [a v]. rewrite nrep_unfold in Hr. destruct Hr as [_ Hr].
  apply nseg_app in Hr as [_ Hr].
  destruct (n_copy_from_ok al F (w_heap w) s (r :: rs) _ _ None None Hr Hlen) as (a' & h' & l' & Hcp & Ha' & Hm & Hb); [discriminate|].
  destruct Hb as (Hseg & Hnd' & Hnew & Hold & _).
  assert (Hold' : forall y, y ∉ faddrs l' -> h' !! y = w_heap w !! y) by (intros y Hy; apply Hold; [exact Hy|discriminate]).
  assert (Hcl : forall y, y ∈ caddrs (nary_kind V) c -> y ∉ faddrs l').
  { intros y Hy Hy'. destruct (k_dom _ _ _ _ KO _ _ _ Hci Hy) as [n Hn]. rewrite (Hnew y Hy') in Hn. discriminate. }
  assert (Hci' : crep (nary_kind V) h' c).
  { eapply (k_ext _ _ _ _ KO); [|exact Hci]. intros y Hy. apply Hold', Hcl, Hy. }
  destruct (k_dealloc _ _ _ _ KO h' c Hci' Hc) as (h2 & Hd & Hh2).
  set (w' := set_tree (set_heap w h2) i (TreeRec (Some a') (t_size view) (t_arity view) (Some a'))).
  assert (Hrun : assign_view F (nary_impl V) al w i view = Ok w').
  { unfold assign_view, copy_root. rewrite Hv. cbn [ni_copy nary_impl]. unfold n_copy. rewrite Hcp. cbn [mbind res_bind].
    unfold assign, get_tree. cbn [set_heap w_trees w_heap]. rewrite Hti. cbn [mbind res_bind].
    rewrite Hri. destruct (croot (nary_kind V) c) eqn:Ec.
    - rewrite Hd. reflexivity.
    - assert (h' = h2) as -> by (destruct F; [lia|]; cbn in Hd; congruence). reflexivity. }
  exists w', (faddrs l'). split; [exact Hrun|]. split; [exact Hnd'|]. split; [|split].
  - change (list_sum (map rsize (s :: r :: rs))) with (fsize (s :: r :: rs)). clear -Hm.
    assert (Hg : forall l1 l2 : list (rose (addr * V)), map (rose_map snd) l1 = map (rose_map snd) l2 -> length (faddrs l1) = fsize l2).
    { induction l1 as [|y l1 IH]; intros [|z l2] H; try discriminate; [reflexivity|]. injection H as H1 H2.
      rewrite faddrs_cons, app_length, length_raddrs, (IH _ H2). unfold fsize. cbn [map list_sum foldr].
      rewrite <- (rsize_map snd y), H1, rsize_map. reflexivity. }
    apply Hg, Hm.
  - intros y Hy. split; [apply Hnew, Hy|]. cbn [w_heap w' set_tree set_heap]. rewrite Hh2, bool_decide_false.
    + destruct (nseg_dom _ _ _ _ _ _ _ Hseg Hy) as [n Hn]. eauto.
    + intros Hyc. exact (Hcl y Hyc Hy).
  - intros M' HM'.
    assert (Hti' : w_trees w' !! i = Some (TreeRec (Some a') (t_size view) (t_arity view) (Some a'))) by apply lookup_insert.
    destruct (proj1 (wo_live _ _ _ _ _ HM' i) ltac:(eauto)) as [c' Hc'].
    destruct (wo_tree _ _ _ _ _ HM' i _ _ Hti' Hc') as (Hr' & _ & Hrep'). cbn in Hr'.
    destruct c' as [[[a2 v2] cs2]|]; [|discriminate]. injection Hr' as ->. destruct Hrep' as [Hrep' _]. rewrite nrep_unfold in Hrep'.
    destruct Hrep' as [Hx _]. cbn [w_heap w' set_tree set_heap] in Hx. rewrite Hh2 in Hx.
    destruct (bool_decide _); [discriminate|].
    destruct l' as [|[[a3 v3] cs3] [|r' l']]; try discriminate. cbn [first_or raddr label fst] in Ha'. injection Ha' as ->.
    cbn [nseg] in Hseg. destruct Hseg as [H1 _]. rewrite nrep_unfold in H1. destruct H1 as [H1 _]. rewrite H1 in Hx. discriminate.
Qed.
Print Assumptions C42_view_nary_refuted.

(** The view of the middle child (with two nodes below it) of the example tree is
    assigned to the other tree: four nodes are allocated instead of three. *)
Example C42_used : exists w' (fresh : list addr), assign_view 100 (nary_impl nat) (first_fit _) ex_nw 2%positive (TreeRec (Some 3%positive) 0 0 (Some 3%positive)) = Ok w' /\
  length fresh = 4 /\ (forall M', ~ consistent (nary_kind nat) w' M').
Proof.
  destruct (C42_view_nary_refuted nat _ 100 (first_fit _) ex_word ex_nw ex_nM 2%positive 1%positive (TreeRec (Some 3%positive) 0 0 (Some 3%positive))
    (Some (Rose (7%positive, 70) [])) ex_nary ex_nsub (Rose (4%positive, 40) []) (1%positive, 10) [Rose (2%positive, 20) []] [] ex_nw_ok)
    as (w' & fresh & H1 & _ & H2 & _ & H3); [vm_compute; lia|reflexivity|reflexivity|apply rsub_here|reflexivity|].
  exists w', fresh. auto.
Qed.
(** A copy of a proper subtree that is correct. *)
Example C42_used_binary : exists w' c', assign_view 100 (binary_impl nat) (first_fit _) ex_bw 2%positive (TreeRec (Some 2%positive) 0 0 (Some 2%positive)) = Ok w' /\
  consistent (binary_kind nat) w' (<[2%positive := c']> ex_bM) /\ bin_map snd c' = bin_map snd ex_bsub.
Proof.
  destruct (C42_view_binary nat _ 100 (first_fit _) ex_word ex_bw ex_bM 2%positive 1%positive (TreeRec (Some 2%positive) 0 0 (Some 2%positive))
    (BNode (7%positive, 70) BLeaf BLeaf) ex_bin ex_bsub ex_bw_ok) as (w' & c' & H1 & H2 & H3 & _); [vm_compute; lia|reflexivity|reflexivity|exact ex_bsub_ok|reflexivity|].
  exists w', c'. auto.
Qed.
