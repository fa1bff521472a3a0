(** PropAdopt.v: nodes owned by smart pointers (C77) and the move constructors of the nodes
    (C78).  Calls and histories: see Adopt.v. *)
From Verif Require Import Base Spec StructNode BinaryNode NaryNode Nav Policy Tree User Rep EditSpec RoseFacts MatchWalk NavFacts World BinRep BinOps NaryRep NaryOps NaryOps2 Kinds
  TreeSpec TreeOps TreeOps2 TreeOps3 TreeOps4 TreeFacts EditFacts NodeFacts History PropTree PropMove Adopt AdoptFacts Examples Examples2.

(** *** C77.  A tree made from a pointer has the nodes the pointer owned, the very same
    ones; the pointer is null, nothing is created, copied or released, the other
    trees and pointers are as before. *)
Theorem C77_new :
  forall (V : Type) (EV : EqDecision V) (Nd : Type) (im : node_impl V Nd) mv (K : kind_data V Nd), owner_kind V EV Nd im mv K ->
  forall (F : nat) (al : allocator Nd) (w : world Nd) (M : gmap tid (C K)) (i p : tid) (c : C K) (s r : N), (N.of_nat F <= W64)%N ->
  consistent K w M -> M !! i = None -> M !! p = Some c ->
  exists w', pexec F im mv al w (PNew i p s r) = Ret () w' /\ consistent K w' (<[p := cnil K]> (<[i := c]> M)) /\ w_heap w' = w_heap w.
Proof.
  intros V EV Nd im mv K HO F al w M i p c s r HFW H Hi Hp. pose proof (owner_tree F im mv al K HO HFW) as HK. apply (to_holds F im al K HK HFW) in H.
  destruct (adopt_new_ok F im mv al K HO HFW w M i p c s r H Hi Hp) as (w' & E & H' & Hh & _). exists w'. cbn [pexec]. rewrite E. split; [reflexivity|].
  split; [apply (to_holds F im al K HK HFW), H'|exact Hh].
Qed.
Print Assumptions C77_new.
(** ... and without sizes it reports the right ones. *)
Theorem C77_new_size :
  forall (V : Type) (EV : EqDecision V) (Nd : Type) (im : node_impl V Nd) mv (K : kind_data V Nd), owner_kind V EV Nd im mv K ->
  forall (F : nat) (al : allocator Nd) (w w' : world Nd) (M : gmap tid (C K)) (i p : tid) (c : C K), (N.of_nat F <= W64)%N -> size (w_heap w) < F ->
  consistent K w M -> M !! i = None -> M !! p = Some c -> pexec F im mv al w (PNew i p 0 0) = Ret () w' ->
  (exists w1, tree_size F im w' i = Ok (N.of_nat (length (caddrs K c)), w1)) /\ (exists w1, tree_arity F im w' i = Ok (N.of_nat (carity K c), w1)).
Proof.
  intros V EV Nd im mv K HO F al w w' M i p c HFW HF H Hi Hp E. pose proof (owner_tree F im mv al K HO HFW) as HK. set (KO := kind_is_ok F al HK).
  apply (to_holds F im al K HK HFW) in H. pose proof (holds_size _ _ _ _ _ _ _ _ H Hp) as L. assert (Hne : i <> p) by congruence.
  destruct (adopt_new_ok F im mv al K HO HFW w M i p c 0 0 H Hi Hp) as (w2 & E2 & H' & Hh & Htr). cbn [pexec] in E. rewrite E2 in E. injection E as <-.
  assert (Hc : (<[p := cnil K]> (<[i := c]> M)) !! i = Some c) by (rewrite lookup_insert_ne by congruence; apply lookup_insert).
  assert (Ht : w_trees w2 !! i = Some (TreeRec (croot K c) 0 0 (croot K c))) by (rewrite Htr, lookup_insert_ne by congruence; apply lookup_insert).
  destruct (tree_size_ok F im al K KO w2 _ [] i c _ H' Hc Ht ltac:(lia)) as (s & Es & _ & Hs & _).
  destruct (tree_arity_ok F im al K KO w2 _ [] i c _ H' Hc Ht ltac:(lia) ltac:(lia)) as (r & Er & _ & Hr & _).
  rewrite (Hs eq_refl), (lt_szt F HFW) in Es by lia. rewrite (Hr eq_refl) in Er. eauto.
Qed.
Print Assumptions C77_new_size.
(** A size given with the pointer is believed, whatever it is. *)
Theorem C77_given_size_refuted :
  forall (V : Type) (EV : EqDecision V) (Nd : Type) (im : node_impl V Nd) mv (K : kind_data V Nd), owner_kind V EV Nd im mv K ->
  forall (F : nat) (al : allocator Nd) (w : world Nd) (M : gmap tid (C K)) (i p : tid) (c : C K) (s r : N), (N.of_nat F <= W64)%N ->
  consistent K w M -> M !! i = None -> M !! p = Some c -> s <> 0%N -> s <> N.of_nat (length (caddrs K c)) ->
  exists w' w1, pexec F im mv al w (PNew i p s r) = Ret () w' /\ tree_size F im w' i = Ok (s, w1) /\ s <> N.of_nat (length (caddrs K c)).
Proof.
  intros V EV Nd im mv K HO F al w M i p c s r HFW H Hi Hp Hs Hne. pose proof (owner_tree F im mv al K HO HFW) as HK.
  apply (to_holds F im al K HK HFW) in H. assert (Hip : i <> p) by congruence.
  destruct (adopt_new_ok F im mv al K HO HFW w M i p c s r H Hi Hp) as (w2 & E2 & H' & Hh & Htr).
  assert (Ht : w_trees w2 !! i = Some (TreeRec (croot K c) s r (croot K c))) by (rewrite Htr, lookup_insert_ne by congruence; apply lookup_insert).
  eexists w2, _. cbn [pexec]. rewrite E2. split; [reflexivity|]. split; [|exact Hne].
  unfold tree_size, get_tree. rewrite Ht. cbn [mbind res_bind]. unfold size_of. cbn [t_size t_root].
  apply N.eqb_neq in Hs. rewrite Hs, andb_false_r. reflexivity.
Qed.
Print Assumptions C77_given_size_refuted.
(** Assigning a pointer to a tree gives the tree these nodes and releases the ones it
    had, all of them and nothing else. *)
Theorem C77_assign :
  forall (V : Type) (EV : EqDecision V) (Nd : Type) (im : node_impl V Nd) mv (K : kind_data V Nd), owner_kind V EV Nd im mv K ->
  forall (F : nat) (al : allocator Nd) (w : world Nd) (M : gmap tid (C K)) (i p : tid) (c d : C K), (N.of_nat F <= W64)%N -> size (w_heap w) < F ->
  consistent K w M -> M !! i = Some d -> M !! p = Some c -> i <> p ->
  exists w', pexec F im mv al w (PAssign i p) = Ret () w' /\ consistent K w' (<[i := c]> (<[p := cnil K]> M)) /\
    (forall a, a ∈ caddrs K d -> w_heap w' !! a = None) /\
    (exists w1, tree_size F im w' i = Ok (N.of_nat (length (caddrs K c)), w1)) /\ (exists w1, tree_arity F im w' i = Ok (N.of_nat (carity K c), w1)).
Proof.
  intros V EV Nd im mv K HO F al w M i p c d HFW HF Hw Hi Hp Hne. pose proof (owner_tree F im mv al K HO HFW) as HK. set (KO := kind_is_ok F al HK).
  pose proof Hw as H. apply (to_holds F im al K HK HFW) in H. pose proof (holds_size _ _ _ _ _ _ _ _ H Hp) as L. pose proof (holds_size _ _ _ _ _ _ _ _ H Hi) as L2.
  destruct (adopt_assign_ok F im mv al K HO HFW w M i p c d H Hi Hp Hne ltac:(lia)) as (w' & E & H' & Htr). exists w'. cbn [pexec]. rewrite E. split; [reflexivity|].
  assert (Hw' : consistent K w' (<[i := c]> (<[p := cnil K]> M))) by (apply (to_holds F im al K HK HFW), H'). split; [exact Hw'|].
  assert (Hc : (<[i := c]> (<[p := cnil K]> M)) !! i = Some c) by apply lookup_insert.
  assert (Ht : w_trees w' !! i = Some (TreeRec (croot K c) 0 0 (croot K c))) by (rewrite Htr; apply lookup_insert).
  split.
  - intros a Ha. destruct (w_heap w' !! a) eqn:En; [|reflexivity]. exfalso.
    destruct (proj1 (wo_owned _ _ _ _ _ Hw' a)) as (k & e & Hk & Hae); [eauto|].
    destruct (decide (k = i)) as [->|Hki].
    + rewrite lookup_insert in Hk. injection Hk as <-. apply Hne. exact (wo_disjoint _ _ _ _ _ Hw i p d c a Hi Hp Ha Hae).
    + rewrite lookup_insert_ne in Hk by congruence. destruct (decide (k = p)) as [->|Hkp].
      * rewrite lookup_insert in Hk. injection Hk as <-. rewrite (nil_addrs F im al K KO) in Hae. apply elem_of_nil in Hae as [].
      * rewrite lookup_insert_ne in Hk by congruence. apply Hki. symmetry. exact (wo_disjoint _ _ _ _ _ Hw i k d e a Hi Hk Ha Hae).
  - pose proof (holds_size _ _ _ _ _ _ _ _ H' Hc) as _.
    destruct (tree_size_ok F im al K KO w' _ [] i c _ H' Hc Ht ltac:(lia)) as (s & Es & _ & Hs & _).
    destruct (tree_arity_ok F im al K KO w' _ [] i c _ H' Hc Ht ltac:(lia) ltac:(lia)) as (r & Er & _ & Hr & _).
    rewrite (Hs eq_refl), (lt_szt F HFW) in Es by lia. rewrite (Hr eq_refl) in Er. eauto.
Qed.
Print Assumptions C77_assign.
(** Along every history of valid calls on pointers and trees, each node belongs to exactly
    one of them, and the next valid call returns or throws. *)
Theorem C77_history :
  forall (V : Type) (EV : EqDecision V) (Nd : Type) (im : node_impl V Nd) mv (K : kind_data V Nd), owner_kind V EV Nd im mv K ->
  forall (F : nat) (al : allocator Nd) (w : world Nd), (N.of_nat F <= W64)%N -> preach F im mv al K w ->
  exists M, consistent K w M /\ (forall M', consistent K w M' -> M' = M) /\
    forall c, pvalid F im K w M c -> size (w_heap w) < F ->
      exists w', (pexec F im mv al w c = Ret () w' \/ pexec F im mv al w c = Throw w') /\ preach F im mv al K w'.
Proof.
  intros V EV Nd im mv K HO F al w HFW Hr. pose proof (owner_tree F im mv al K HO HFW) as HK.
  destruct (preach_ok F im mv al K HO HFW w Hr) as (M & H). exists M. split; [exact H|].
  split; [intros M' H'; exact (contents_unique HK w M' M H' H)|]. intros c Hv HF.
  destruct (pexec_ok F im mv al K HO HFW w M c H Hv HF) as (w' & M' & E & H' & _). exists w'. split; [exact E|]. eapply preach_call; eassumption.
Qed.
Print Assumptions C77_history.
(** When no pointer and no tree is left, every node was released. *)
Theorem C77_all_released :
  forall (V : Type) (EV : EqDecision V) (Nd : Type) (im : node_impl V Nd) mv (K : kind_data V Nd), owner_kind V EV Nd im mv K ->
  forall (F : nat) (al : allocator Nd) (w : world Nd), (N.of_nat F <= W64)%N -> preach F im mv al K w ->
  (forall i, w_trees w !! i = None) -> forall a, w_heap w !! a = None.
Proof.
  intros V EV Nd im mv K HO F al w HFW Hr Hn a. destruct (preach_ok F im mv al K HO HFW w Hr) as (M & H).
  destruct (w_heap w !! a) as [n|] eqn:E; [|reflexivity]. exfalso.
  destruct (proj1 (wo_owned _ _ _ _ _ H a) ltac:(eauto)) as (i & c & Hc & _).
  destruct (proj2 (wo_live _ _ _ _ _ H i) ltac:(eauto)) as [t Ht]. rewrite Hn in Ht. discriminate.
Qed.
Print Assumptions C77_all_released.
(** If the sizes given with pointers are right (or not given), all trees report right
    sizes. *)
Theorem C77_sizes :
  forall (V : Type) (EV : EqDecision V) (Nd : Type) (im : node_impl V Nd) mv (K : kind_data V Nd), owner_kind V EV Nd im mv K ->
  forall (F : nat) (al : allocator Nd) (w : world Nd), (N.of_nat F <= W64)%N -> pcareful F im mv al K w -> size (w_heap w) < F ->
  exists M, consistent K w M /\ reports K F im w M.
Proof.
  intros V EV Nd im mv K HO F al w HFW Hr HF. pose proof (owner_tree F im mv al K HO HFW) as HK.
  destruct (pcareful_ok F im mv al K HO HFW w Hr) as (M & H & Hc). exists M. split; [exact H|]. apply (reports_caches F im al K HK HFW); assumption.
Qed.
Print Assumptions C77_sizes.

(** *** C78.  A node constructed by moving from the root of a whole tree: it has the value
    and takes over the children, with all their nodes; the old root is left alone,
    with its value; nothing else changes. *)
Theorem C78_root :
  forall (V : Type) (EV : EqDecision V) (Nd : Type) (im : node_impl V Nd) mv (K : kind_data V Nd), owner_kind V EV Nd im mv K ->
  forall (F : nat) (al : allocator Nd) (w : world Nd) (M : gmap tid (C K)) (p q : tid) (c : C K), (N.of_nat F <= W64)%N -> size (w_heap w) < F ->
  consistent K w M -> M !! p = None -> M !! q = Some c -> c <> cnil K ->
  exists w' u e a b l, pexec F im mv al w (PMoved p q) = Ret () w' /\ consistent K w' (<[p := u]> (<[q := e]> M)) /\
    croot K c = Some a /\ caddrs K c = a :: l /\
    w_heap w !! b = None /\ croot K u = Some b /\ caddrs K u = b :: l /\ cvals K u = cvals K c /\
    croot K e = Some a /\ caddrs K e = [a] /\
    (forall x, x ∉ caddrs K c -> x <> b -> w_heap w' !! x = w_heap w !! x).
Proof.
  intros V EV Nd im mv K HO F al w M p q c HFW HF H Hp Hq Hne. pose proof (owner_tree F im mv al K HO HFW) as HK. apply (to_holds F im al K HK HFW) in H.
  pose proof (holds_size _ _ _ _ _ _ _ _ H Hq) as L.
  destruct (moved_ok F im mv al K HO HFW w M p q c H Hp Hq Hne ltac:(lia)) as (w' & u & e & a & b & l & E & H' & H1 & H2 & H3 & H4 & H5 & H6 & H7 & H8 & _ & _ & H9).
  exists w', u, e, a, b, l. cbn [pexec]. rewrite E. split; [reflexivity|]. split; [apply (to_holds F im al K HK HFW), H'|]. repeat (split; [assumption|]). exact H9.
Qed.
Print Assumptions C78_root.
(** Exactly: which contents, and that the old root keeps its value. *)
Theorem C78_nary :
  forall (V : Type) (EV : EqDecision V) (F : nat) (al : allocator (nnode V)) (h : gmap addr (nnode V)) (a : addr) (v : V) (cs : list (rose (addr * V))),
  nary_at h (Rose (a, v) cs) -> length cs < F ->
  exists b h', n_move F al h (Some a) = Ok (b, h') /\ h !! b = None /\ nary_at h' (Rose (b, v) cs) /\ nary_at h' (Rose (a, v) []).
Proof.
  intros V EV F al h a v cs [Hr Hnd] HF. destruct (n_move_ok F al h None None None (szt 0) a v cs Hr Hnd HF) as (b & h' & E & Hb & Hu & He & _).
  exists b, h'. split; [exact E|]. split; [exact Hb|]. split; split; [exact Hu| |rewrite nrep_unfold; split; [exact He|exact I]|apply NoDup_singleton].
  rewrite raddrs_rose in *. apply NoDup_cons in Hnd as [_ Hnd]. constructor; [|exact Hnd]. intros Hi. rewrite nrep_unfold in Hr. destruct Hr as [_ Hs].
  destruct (nseg_dom _ _ _ _ _ _ _ Hs Hi). congruence.
Qed.
Print Assumptions C78_nary.
Theorem C78_binary :
  forall (V : Type) (F : nat) (al : allocator (bnode V)) (h : gmap addr (bnode V)) (a : addr) (v : V) (l r : bin (addr * V)),
  bin_at h (BNode (a, v) l r) ->
  exists b h', b_move F al h (Some a) = Ok (b, h') /\ h !! b = None /\ bin_at h' (BNode (b, v) l r) /\ bin_at h' (BNode (a, v) BLeaf BLeaf).
Proof.
  intros V F al h a v l r [Hr Hnd]. destruct (b_move_ok F al h None a v l r Hr Hnd) as (b & h' & E & Hb & Hu & He & _).
  exists b, h'. split; [exact E|]. split; [exact Hb|]. split; split; [exact Hu| |cbn; auto|apply NoDup_singleton].
  assert (Hl : forall y, baddrs (BNode (y, v) l r) = y :: baddrs l ++ baddrs r) by (intros y; unfold baddrs; cbn [bin_labels]; rewrite map_cons, map_app; reflexivity).
  rewrite Hl in *. apply NoDup_cons in Hnd as [_ Hnd]. constructor; [|exact Hnd]. intros Hi. destruct Hr as (_ & H1 & H2).
  apply elem_of_app in Hi as [Hi|Hi]; [destruct (brep_dom _ _ _ _ H1 Hi)|destruct (brep_dom _ _ _ _ H2 Hi)]; congruence.
Qed.
Print Assumptions C78_binary.

(** Moving from a node that is not a root breaks its tree, whatever the tree and the node:
    its parent (or sibling) still refers to the old node, which no longer
    refers to it. *)
Theorem C78_inner_nary_refuted :
  forall (V : Type) (EV : EqDecision V) (F : nat) (al : allocator (nnode V)) (w : world (nnode V)) (M : gmap tid (option (rose (addr * V)))) (i p : tid)
    (t s : rose (addr * V)) (q : addr * V) (ls rs : list (rose (addr * V))), (N.of_nat F <= W64)%N -> size (w_heap w) < F ->
  consistent (nary_kind V) w M -> M !! i = Some (Some t) -> rsubtree (Rose q (ls ++ s :: rs)) t ->
  exists w', own w p (n_move F al (w_heap w) (Some (raddr s))) = Ok w' /\ forall M', ~ consistent (nary_kind V) w' M'.
Proof.
  intros V EV F al w M i p t [[a u] cs] [q v] ls rs HFW HF Hw Hi Hs. pose proof (nary_tree_kind V EV) as HK.
  pose proof Hw as H. apply (to_holds F _ al _ HK HFW) in H. pose proof (holds_size _ _ _ _ _ _ _ _ H Hi) as L.
  pose proof (holds_rep _ _ _ _ _ _ _ _ H Hi) as Hrep. 
  assert (Hin : nary_in (w_heap w) (Rose (q, v) (ls ++ Rose (a, u) cs :: rs))).
  { eapply nary_in_sub; [|exact Hs]. destruct Hrep as [Hr Hnd]. exists None, None, None, (szt 0). auto. }
  destruct Hin as (par & prev & next & fs & Hq & Hnd). rewrite nrep_unfold in Hq. destruct Hq as [Hq Hseg].
  rewrite nseg_app in Hseg. destruct Hseg as [Hls Hseg]. cbn [nseg] in Hseg. destruct Hseg as [Ha Hrs].
  rewrite raddrs_rose in Hnd. apply NoDup_cons in Hnd as [Hqn Hnd]. unfold faddrs in Hqn, Hnd. rewrite flat_map_app in Hqn, Hnd. cbn [flat_map] in Hqn, Hnd.
  fold (faddrs ls) in Hqn, Hnd. apply NoDup_app in Hnd as (Hndl & Hd & Hnd). apply NoDup_app in Hnd as (Hnda & _ & _).
  assert (HL : length cs < F).
  { change (length (raddrs t) <= size (w_heap w)) in L. rewrite length_raddrs in L.
    apply rsubtree_plug in Hs as (cx & <-). pose proof (PropMove.plug_size_le cx (Rose (q, v) (ls ++ Rose (a, u) cs :: rs))) as Hp.
    rewrite rsize_rose in Hp. unfold fsize in Hp. rewrite map_app, list_sum_app in Hp. cbn [map list_sum fold_right] in Hp. rewrite rsize_rose in Hp.
    pose proof (MatchWalk.length_children cs). unfold fsize in Hp. change (fold_right Nat.add 0) with list_sum in Hp. lia. }
  destruct (n_move_ok F al (w_heap w) _ _ _ _ a u cs Ha Hnda HL) as (b & h' & E & Hb & _ & Ha' & Ho).
  change (raddr (Rose (a, u) cs)) with a. unfold own. rewrite E. cbn [mbind res_bind]. eexists. split; [reflexivity|]. intros M' H'.
  assert (Hback : forall x n, x ∉ raddrs (Rose (a, u) cs) -> w_heap w !! x = Some n -> nfirst n = Some a \/ nnext n = Some a -> False).
  { intros x n Hx Hn Hl. assert (Hn' : h' !! x = Some n) by (rewrite Ho; [exact Hn|exact Hx|congruence]).
    destruct (proj1 (wo_owned _ _ _ _ _ H' x)) as (k & c & Hk & Hxc); [cbn; eauto|].
    destruct (proj2 (wo_live _ _ _ _ _ H' k) ltac:(eauto)) as [tr Htr]. destruct (wo_tree _ _ _ _ _ H' k tr c Htr Hk) as (_ & _ & Hc).
    cbn [crep nary_kind] in Hc. destruct c as [c|]; [|apply elem_of_nil in Hxc as []]. destruct Hc as [Hc _].
    destruct (n_links_back h' x n a c _ _ _ _ Hc Hxc Hn') as [H1 H2]. destruct Hl as [Hl|Hl].
    - destruct (H1 Hl) as (m & Hm & Hp). rewrite Ha' in Hm. injection Hm as <-. discriminate.
    - destruct (H2 Hl) as [[_ ?]|(m & Hm & Hp)]; [discriminate|]. rewrite Ha' in Hm. injection Hm as <-. discriminate. }
  destruct ls as [|d ls _] using rev_ind.
  - eapply (Hback q); [|exact Hq|left; reflexivity]. intros Hx. apply Hqn, elem_of_app. right. apply elem_of_app. left. exact Hx.
  - rewrite nseg_app in Hls. destruct Hls as [_ Hls]. cbn [nseg first_or] in Hls. destruct Hls as [Hdr _]. apply nrep_root in Hdr.
    eapply (Hback (raddr d)); [|exact Hdr|right; reflexivity]. intros Hx. apply (Hd (raddr d)); [|apply elem_of_app; left; exact Hx].
    unfold faddrs. rewrite flat_map_app. cbn. destruct d as [[d0 d1] ds]. rewrite raddrs_rose. change (raddr (Rose (d0, d1) ds)) with d0. set_solver +.
Qed.
Print Assumptions C78_inner_nary_refuted.
Theorem C78_inner_binary_refuted :
  forall (V : Type) (EV : EqDecision V) (F : nat) (al : allocator (bnode V)) (w : world (bnode V)) (M : gmap tid (bin (addr * V))) (i p : tid)
    (t l r : bin (addr * V)) (q : addr * V) (a : addr), (N.of_nat F <= W64)%N ->
  consistent (binary_kind V) w M -> M !! i = Some t -> bsubtree (BNode q l r) t -> baddr l = Some a \/ baddr r = Some a ->
  exists w', own w p (b_move F al (w_heap w) (Some a)) = Ok w' /\ forall M', ~ consistent (binary_kind V) w' M'.
Proof.
  intros V EV F al w M i p t l r [q v] a HFW Hw Hi Hs Hlr. pose proof (binary_tree_kind V EV) as HK.
  pose proof Hw as H. apply (to_holds F _ al _ HK HFW) in H. pose proof (holds_rep _ _ _ _ _ _ _ _ H Hi) as Hrep.
  assert (Hin : bin_in (w_heap w) (BNode (q, v) l r)).
  { eapply bin_in_sub; [|exact Hs]. destruct Hrep as [Hr Hnd]. exists None. auto. }
  destruct Hin as (par & (Hq & Hl & Hr) & Hnd). pose proof (NoDup_baddrs_inv _ _ _ _ Hnd) as (Hql & Hqr & Hndl & Hndr & _).
  assert (Hx : exists s, brep (w_heap w) (Some q) s /\ NoDup (baddrs s) /\ baddr s = Some a /\ q ∉ baddrs s) by (destruct Hlr; eauto 10).
  destruct Hx as ([|[a0 u] sl sr] & Hsr & Hsn & Ea & Hqs); [discriminate|]. injection Ea as ->.
  destruct (b_move_ok F al (w_heap w) _ a u sl sr Hsr Hsn) as (b & h' & E & Hb & _ & Ha' & Ho).
  unfold own. rewrite E. cbn [mbind res_bind]. eexists. split; [reflexivity|]. intros M' H'.
  assert (Hn' : h' !! q = Some (BNodeR v par (baddr l) (baddr r))) by (rewrite Ho; [exact Hq|exact Hqs|congruence]).
  destruct (proj1 (wo_owned _ _ _ _ _ H' q)) as (k & c & Hk & Hxc); [cbn; eauto|].
  destruct (proj2 (wo_live _ _ _ _ _ H' k) ltac:(eauto)) as [tr Htr]. destruct (wo_tree _ _ _ _ _ H' k tr c Htr Hk) as (_ & _ & [Hc _]).
  destruct (b_links_back h' q _ a c _ Hc Hxc Hn' Hlr) as (m & Hm & Hp). rewrite Ha' in Hm. injection Hm as <-. discriminate.
Qed.
Print Assumptions C78_inner_binary_refuted.

(** *** A concrete run: a pointer to a literal becomes a tree, a second one is moved from a
    third, is assigned to the tree, the rest ends. *)
Fixpoint prun {V Nd} F (im : node_impl V Nd) mv al (w : world Nd) (cs : list (pcall V)) : option (world Nd) :=
  match cs with
  | [] => Some w
  | c :: cs => match pexec F im mv al w c with Ret _ w' | Throw w' => prun F im mv al w' cs | Bad _ => None end
  end.
Definition pshows {Nd} (o : option (world Nd)) : option (nat * list (tid * ptr)) :=
  match o with Some w => Some (size (w_heap w), map (fun '(i, t) => (i, t_root t)) (map_to_list (w_trees w))) | None => None end.
Definition ex_own : list (pcall nat) :=
  [PLiteral 1%positive (LNode 10 [LNode 20 []; LNode 30 []]); PNew 2%positive 1%positive 0 0;
   PLiteral 3%positive (LNode 40 [LNode 50 []; LNode 60 []]); PMoved 4%positive 3%positive].
Definition ex_drop : list (pcall nat) :=
  [PAssign 2%positive 4%positive; PDrop 1%positive; PDrop 3%positive; PDrop 4%positive; PCall (CDestroy 2%positive)].
Example C77_run :
  match prun 100 (nary_impl nat) n_move (first_fit _) empty_world ex_own with
  | Some w => (size (w_heap w), map (fun i => match w_trees w !! i with Some t => t_root t | None => Some 99%positive end) [1; 2; 3; 4]%positive)
  | None => (0, [])
  end = (7, [None; Some 1%positive; Some 4%positive; Some 7%positive]) /\
  pshows (prun 100 (nary_impl nat) n_move (first_fit _) empty_world (ex_own ++ ex_drop)) = Some (0, []) /\
  pshows (prun 100 (binary_impl nat) b_move (first_fit _) empty_world (ex_own ++ ex_drop)) = Some (0, []).
Proof. repeat split; vm_compute; reflexivity. Qed.
(** All the states of that run are reached in the sense of C77. *)
Example C77_reached : exists w, prun 100 (nary_impl nat) n_move (first_fit _) empty_world ex_own = Some w /\
  preach 100 (nary_impl nat) n_move (first_fit _) (nary_kind nat) w /\ pcareful 100 (nary_impl nat) n_move (first_fit _) (nary_kind nat) w /\ size (w_heap w) = 7.
Proof.
  assert (Hstep : forall w c cs, preach 100 (nary_impl nat) n_move (first_fit _) (nary_kind nat) w /\ pcareful 100 (nary_impl nat) n_move (first_fit _) (nary_kind nat) w ->
    (size (w_heap w) <? 100) = true ->
    (forall M, consistent (nary_kind nat) w M -> pvalid 100 (nary_impl nat) (nary_kind nat) w M c /\ pexact (nary_kind nat) w M c) ->
    exists w', (pexec 100 (nary_impl nat) n_move (first_fit _) w c = Ret () w' \/ pexec 100 (nary_impl nat) n_move (first_fit _) w c = Throw w') /\
      prun 100 (nary_impl nat) n_move (first_fit _) w (c :: cs) = prun 100 (nary_impl nat) n_move (first_fit _) w' cs /\
      preach 100 (nary_impl nat) n_move (first_fit _) (nary_kind nat) w' /\ pcareful 100 (nary_impl nat) n_move (first_fit _) (nary_kind nat) w').
  { intros w c cs [Hx Hy] Hs Hv. apply Nat.ltb_lt in Hs.
    destruct (C77_history nat _ _ _ _ _ (nary_owner nat _) 100 (first_fit _) w ex_word Hx) as (M & HM & _ & Hc).
    destruct (Hv M HM) as [Hv1 Hv2]. destruct (Hc c Hv1 Hs) as (w' & E & Hx'). exists w'. split; [exact E|].
    split; [destruct E as [E|E]; cbn [prun]; rewrite E; reflexivity|]. split; [exact Hx'|]. eapply pcareful_call; eassumption. }
  assert (Hnone : forall w (M : gmap tid (option (rose (addr * nat)))) i, consistent (nary_kind nat) w M -> w_trees w !! i = None -> M !! i = None).
  { intros w M i HM Hi. apply eq_None_not_Some. intros Hs. apply (wo_live _ _ _ _ _ HM) in Hs as [t Ht]. congruence. }
  unfold ex_own.
  destruct (Hstep empty_world (PLiteral 1%positive (LNode 10 [LNode 20 []; LNode 30 []])) [PNew 2%positive 1%positive 0 0;
   PLiteral 3%positive (LNode 40 [LNode 50 []; LNode 60 []]); PMoved 4%positive 3%positive]) as (w1 & E1 & R1 & H1); [split; constructor|reflexivity| |].
  { intros M HM. split; [|exact I]. split; [eapply Hnone; [exact HM|reflexivity]|]. exists 10, [LNode 20 []; LNode 30 []]. split; [reflexivity|]. vm_compute. tauto. }
  rewrite R1. clear R1. destruct E1 as [E1|E1]; vm_compute in E1; [|discriminate]. injection E1 as E1.
  destruct (Hstep w1 (PNew 2%positive 1%positive 0 0) [PLiteral 3%positive (LNode 40 [LNode 50 []; LNode 60 []]); PMoved 4%positive 3%positive])
    as (w2 & E2 & R2 & H2); [exact H1|subst w1; reflexivity| |].
  { intros M HM. split.
    - split; [eapply Hnone; [exact HM|subst w1; reflexivity]|]. apply (wo_live _ _ _ _ _ HM). subst w1. vm_compute. eauto.
    - intros c Hc. split; left; reflexivity. }
  rewrite R2. clear R2. subst w1. destruct E2 as [E2|E2]; vm_compute in E2; [|discriminate]. injection E2 as E2.
  destruct (Hstep w2 (PLiteral 3%positive (LNode 40 [LNode 50 []; LNode 60 []])) [PMoved 4%positive 3%positive])
    as (w3 & E3 & R3 & H3); [exact H2|subst w2; reflexivity| |].
  { intros M HM. split; [|exact I]. split; [eapply Hnone; [exact HM|subst w2; reflexivity]|]. exists 40, [LNode 50 []; LNode 60 []]. split; [reflexivity|]. vm_compute. tauto. }
  rewrite R3. clear R3. subst w2. destruct E3 as [E3|E3]; vm_compute in E3; [|discriminate]. injection E3 as E3.
  destruct (Hstep w3 (PMoved 4%positive 3%positive) []) as (w4 & E4 & R4 & H4); [exact H3|subst w3; reflexivity| |].
  { intros M HM. split.
    - split; [eapply Hnone; [exact HM|subst w3; reflexivity]|]. assert (Hl : is_Some (w_trees w3 !! 3%positive)) by (subst w3; vm_compute; eauto).
      apply (wo_live _ _ _ _ _ HM) in Hl as [c Hc]. exists c. split; [exact Hc|]. intros ->.
      assert (Ht : exists t, w_trees w3 !! 3%positive = Some t /\ t_root t = Some 4%positive) by (subst w3; eexists; split; vm_compute; reflexivity).
      destruct Ht as (t & Ht & Er). destruct (wo_tree _ _ _ _ _ HM _ _ _ Ht Hc) as (Hroot & _). rewrite Er in Hroot. discriminate.
    - subst w3. eexists. split; [vm_compute; reflexivity|]. split; reflexivity. }
  rewrite R4. clear R4. exists w4. split; [reflexivity|]. destruct H4 as [H4 H5]. split; [exact H4|]. split; [exact H5|].
  subst w3. destruct E4 as [E4|E4]; vm_compute in E4; [|discriminate]. injection E4 as <-. vm_compute. reflexivity.
Qed.
(** The hypotheses of the statements about one call are met. *)
Example C77_used : ex_nM !! 3%positive = None /\ ex_nM !! 1%positive = Some (Some ex_nary) /\ 1%N <> N.of_nat (length (caddrs (nary_kind nat) (Some ex_nary))) /\
  exists w', pexec 100 (nary_impl nat) n_move (first_fit _) ex_nw (PAssign 2%positive 1%positive) = Ret () w' /\
    consistent (nary_kind nat) w' (<[2%positive := Some ex_nary]> (<[1%positive := None]> ex_nM)) /\ w_heap w' !! 7%positive = None.
Proof.
  split; [reflexivity|]. split; [reflexivity|]. split; [discriminate|].
  destruct (C77_assign nat _ _ _ _ _ (nary_owner nat _) 100 (first_fit _) ex_nw ex_nM 2%positive 1%positive (Some ex_nary) (Some (Rose (7%positive, 70) [])) ex_word)
    as (w' & E & H & Hf & _); [vm_compute; lia|exact ex_nw_ok|reflexivity|reflexivity|discriminate|].
  exists w'. split; [exact E|]. split; [exact H|]. apply Hf. apply elem_of_list_singleton. reflexivity.
Qed.
Example C78_used : (exists w' b, pexec 100 (nary_impl nat) n_move (first_fit _) ex_nw (PMoved 3%positive 1%positive) = Ret () w' /\
    w_heap ex_nw !! b = None /\ w_heap w' !! b <> None) /\
  (exists w', own ex_nw 3%positive (n_move 100 (first_fit _) (w_heap ex_nw) (Some 3%positive)) = Ok w' /\ forall M', ~ consistent (nary_kind nat) w' M') /\
  (exists w', own ex_bw 3%positive (b_move 100 (first_fit _) (w_heap ex_bw) (Some 4%positive)) = Ok w' /\ forall M', ~ consistent (binary_kind nat) w' M').
Proof.
  split; [|split].
  - destruct (C78_root nat _ _ _ _ _ (nary_owner nat _) 100 (first_fit _) ex_nw ex_nM 3%positive 1%positive (Some ex_nary) ex_word)
      as (w' & u & e & a & b & l & E & H & _ & _ & Hb & _ & Hu & _); [vm_compute; lia|exact ex_nw_ok|reflexivity|reflexivity|discriminate|].
    exists w', b. split; [exact E|]. split; [exact Hb|]. intros Hn.
    destruct (proj2 (wo_owned _ _ _ _ _ H b)) as [n En]; [|congruence]. exists 3%positive, u. split; [apply lookup_insert|]. rewrite Hu. apply elem_of_cons. left. reflexivity.
  - apply (C78_inner_nary_refuted nat _ 100 (first_fit _) ex_nw ex_nM 1%positive 3%positive ex_nary ex_nsub (1%positive, 10)
      [Rose (2%positive, 20) []] [Rose (4%positive, 40) []] ex_word); [vm_compute; lia|exact ex_nw_ok|reflexivity|apply rsub_here].
  - apply (C78_inner_binary_refuted nat _ 100 (first_fit _) ex_bw ex_bM 1%positive 3%positive ex_bin BLeaf
      (BNode (4%positive, 40) (BNode (5%positive, 50) BLeaf BLeaf) BLeaf) (2%positive, 20) 4%positive ex_word); [exact ex_bw_ok|reflexivity|exact ex_bsub_ok|right; reflexivity].
Qed.
