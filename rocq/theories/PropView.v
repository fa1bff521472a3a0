(** PropView.v: views, and trees of different kinds (C22, C23, C25).
    Conventions: see PropTree.v.  A view is an object outside the world, given by
    its attributes (a [tree_rec]); [view_of t pos] is the view made from the
    iterator [pos] of tree [t]. *)
From Verif Require Import Base Spec EditSpec StructNode BinaryNode NaryNode Nav Policy Tree Rep RoseFacts BinRep NaryRep NaryEdit NodeFacts NaryOps2 Iter User World Kinds TreeSpec
  TreeOps TreeOps3 TreeBin TreeNary History TreeFacts IterMain Examples Examples2 ViewFacts.

(** *** C22: a view made from an iterator at node [a] shows the subtree at [a],
    and its size and arity are right or not yet known if those of the tree are. *)
Theorem C22_view_shows :
  forall (V : Type) (EV : EqDecision V) (Nd : Type) (im : node_impl V Nd) (K : kind_data V Nd),
  tree_kind V EV Nd im K ->
  forall (w : world Nd) (M : gmap tid (C K)) (i : tid) (t : tree_rec) (c : C K) (a : addr) (pos : iter),
  consistent K w M -> w_trees w !! i = Some t -> M !! i = Some c -> a ∈ caddrs K c -> it_cur pos = Some a ->
  t_root (view_of t pos) = croot K (csub K a c) /\ t_nav (view_of t pos) = croot K (csub K a c) /\ (cached K t c -> cached K (view_of t pos) (csub K a c)).
Proof.
  intros V EV Nd im K HK w M i t c a pos Hw Ht Hc Ha Hp. pose proof (first_fit Nd) as al. pose proof (kind_is_ok 0 al HK) as KO.
  destruct (wo_tree _ _ _ _ _ Hw i t c Ht Hc) as (Hr & Hn & Hrep). destruct (k_subst _ _ _ _ KO _ c c a Hrep Ha) as (Hs & Hroot & _).
  unfold view_of. rewrite Hp, Hn. unfold ptr_eqb. destruct (bool_decide (Some a = croot K c)) eqn:E; cbn [t_root t_size t_arity].
  - apply bool_decide_eq_true in E. destruct (Hroot (eq_sym E)) as [-> _]. split; [exact E|]. split; [exact E|]. intros H. exact H.
  - split; [symmetry; exact Hs|]. split; [symmetry; exact Hs|]. intros _. split; left; reflexivity.
Qed.
Print Assumptions C22_view_shows.

(** Comparing views of binary trees, anywhere. *)
Theorem C22_binary_views :
  forall (V : Type) (EV : EqDecision V) (F : nat), (N.of_nat F <= W64)%N ->
  forall (h : gmap addr (bnode V)) (t u : bin (addr * V)) (va vb : tree_rec),
  bin_in h t -> bin_in h u -> t_root va = baddr t -> t_root vb = baddr u ->
  cached (binary_kind V) va t -> cached (binary_kind V) vb u -> bin_size t < F -> bin_size u < F ->
  exists r, base_eq F (binary_impl V) h va vb = Ok r /\ (r = true <-> bin_map snd t = bin_map snd u).
Proof.
  intros V EV F HFW h t u va vb Ht Hu Ea Eb Ca Cb Lt Lu.
  apply (base_eq_ok F (binary_impl V) (first_fit _) (binary_kind V) (binary_tree_kind V EV) HFW h t u va vb); try assumption; cbn; rewrite length_baddrs; assumption.
Qed.
Print Assumptions C22_binary_views.

(** Comparing views of n-ary trees is right if the root of the left one has no
    next sibling (as for a whole tree, or a last child); the right one may be
    anywhere. *)
Theorem C22_nary_views_partial :
  forall (V : Type) (EV : EqDecision V) (F : nat), (N.of_nat F <= W64)%N ->
  forall (h : gmap addr (nnode V)) (t u : option (rose (addr * V))) (va vb : tree_rec),
  nary_src h t -> onary_in h u -> t_root va = nroot t -> t_root vb = nroot u ->
  cached (nary_kind V) va t -> cached (nary_kind V) vb u -> nsize t < F -> nsize u < F ->
  exists r, base_eq F (nary_impl V) h va vb = Ok r /\ (r = true <-> nvals t = nvals u).
Proof.
  intros V EV F HFW h t u va vb Ht Hu Ea Eb Ca Cb Lt Lu. destruct t as [t|], u as [u|].
  - destruct Ht as [(p & q & Ht) _]. destruct Hu as (p2 & q2 & n2 & f2 & Hu & _).
    rewrite (nary_view_eq F h va vb t u _ _ _ _ _ _ _ _ Ht Hu Ea Eb Ca Cb Lt Lu HFW). cbn [is_null].
    exists (bool_decide (rose_map snd t = rose_map snd u)). destruct (bool_decide _) eqn:E; (split; [reflexivity|]).
    + apply bool_decide_eq_true in E. cbn. split; [congruence|reflexivity].
    + apply bool_decide_eq_false in E. cbn. split; [discriminate|]. congruence.
  - exists false. unfold base_eq, tree_empty. rewrite Ea, Eb. cbn. split; [reflexivity|]. split; discriminate.
  - exists false. unfold base_eq, tree_empty. rewrite Ea, Eb. cbn. split; [reflexivity|]. split; discriminate.
  - apply (base_eq_ok F (nary_impl V) (first_fit _) (nary_kind V) (nary_tree_kind V EV) HFW h None None va vb); try assumption; exact I.
Qed.
Print Assumptions C22_nary_views_partial.

(** If the root of the left view has a next sibling [r], comparing it with an
    equal subtree, a whole tree for example, does not answer true but uses a null
    reference: for all trees [t] and [u], every node [s] of [t] that is not a last
    child, whenever the subtree at [s] equals [u]. *)
Theorem C22_next_sibling_refuted :
  forall (V : Type) (EV : EqDecision V) (F : nat), (N.of_nat F <= W64)%N ->
  forall (h : gmap addr (nnode V)) (t u s r : rose (addr * V)) (q : addr * V) (ls rs : list (rose (addr * V))) (va vb : tree_rec),
  nary_in h t -> rsubtree (Rose q (ls ++ s :: r :: rs)) t -> nary_src h (Some u) ->
  t_root va = Some (raddr s) -> t_root vb = Some (raddr u) ->
  cached (nary_kind V) va (Some s) -> cached (nary_kind V) vb (Some u) -> rsize t < F -> rsize u < F ->
  rose_map snd s = rose_map snd u ->
  base_eq F (nary_impl V) h va vb = Err NullDeref.
Proof.
  intros V EV F HFW h t u s r q ls rs va vb Ht Hsub Hu Ea Eb Ca Cb Lt Lu E.
  assert (Hq : nary_in h (Rose q (ls ++ s :: r :: rs))) by (eapply nary_in_sub; eassumption).
  destruct Hq as (p & pv & nx & f & Hq & _). destruct q as [a v]. rewrite nrep_unfold in Hq. destruct Hq as [_ Hseg].
  apply nseg_app in Hseg as [_ Hseg]. cbn [nseg first_or] in Hseg. destruct Hseg as (Hs & Hr & _).
  destruct Hu as [(p2 & q2 & Hu) _].
  rewrite (nary_view_eq F h va vb s u _ _ _ _ _ _ _ _ Hs Hu Ea Eb Ca Cb); try assumption.
  2:{ rewrite <- (rsize_map snd s), E, rsize_map. exact Lu. }
  rewrite bool_decide_eq_true_2 by exact E. cbn [is_null].
  destruct F as [|[|F]]; [lia| |].
  { exfalso. pose proof (rsize_pos u). lia. }
  cbn [pred]. cbn [n_eq]. destruct r as [[b w] cs]. cbn [raddr label fst] in *. rewrite (n_children_ok _ _ _ _ _ _ _ _ Hr). reflexivity.
Qed.
Print Assumptions C22_next_sibling_refuted.

(** *** C23: an n-ary tree against a binary tree *)
Theorem C23_nary_binary :
  forall (V : Type) (EV : EqDecision V) (F : nat), (N.of_nat F <= W64)%N ->
  forall (nh : gmap addr (nnode V)) (bh : gmap addr (bnode V)) (t : option (rose (addr * V))) (b : bin (addr * V)) (va vb : tree_rec),
  nary_src nh t -> bin_in bh b -> t_root va = nroot t -> t_root vb = baddr b ->
  cached (nary_kind V) va t -> cached (binary_kind V) vb b -> nsize t < F -> bin_size b < F ->
  exists r, nary_eq_binary F nh va bh vb = Ok r /\
    (r = true <-> opt_list (fun x => [x]) (nvals t) = bin_forest (bin_map snd b)).
Proof.
  intros V EV F HFW nh bh t b va vb Ht Hb Ea Eb Ca Cb Lt Lb.
  pose proof (kind_is_ok F (first_fit _) (nary_tree_kind V EV)) as KN. pose proof (kind_is_ok F (first_fit _) (binary_tree_kind V EV)) as KB.
  unfold nary_eq_binary, tree_empty. rewrite Ea, Eb.
  assert (Lt' : length (caddrs (nary_kind V) t) < F) by (destruct t; cbn [caddrs nary_kind naddrs opt_list nsize] in *; [rewrite length_raddrs|]; assumption).
  assert (Lb' : length (caddrs (binary_kind V) b) < F) by (cbn; rewrite length_baddrs; exact Lb).
  destruct (Bool.eqb (is_null (nroot t)) (is_null (baddr b))) eqn:Ee; cbn [negb].
  2:{ exists false. split; [reflexivity|]. split; [discriminate|]. destruct t, b as [|[? ?] ? ?]; cbn in *; discriminate. }
  rewrite (size_exact F _ (first_fit _) _ KN HFW nh va t Ht Ea Lt' Ca). cbn [mbind res_bind].
  rewrite (size_exact F _ (first_fit _) _ KB HFW bh vb b Hb Eb Lb' Cb). cbn [mbind res_bind].
  rewrite (arity_exact F _ (first_fit _) _ KN HFW nh (TreeRec (t_root va) _ (t_arity va) (t_nav va)) t Ht Ea Lt') by (split; [right; reflexivity|apply Ca]).
  rewrite (arity_exact F _ (first_fit _) _ KB HFW bh (TreeRec (t_root vb) _ (t_arity vb) (t_nav vb)) b Hb Eb Lb') by (split; [right; reflexivity|apply Cb]).
  cbn [mbind res_bind]. destruct t as [t|], b as [|[a v] l r]; try discriminate.
  2:{ cbn. exists true. split; [reflexivity|]. tauto. }
  set (b := BNode (a, v) l r) in *. cbn [nvals opt_list fmap option_fmap option_map] in *.
  assert (Hsz : [rose_map snd t] = bin_forest (bin_map snd b) -> length (caddrs (nary_kind V) (Some t)) = length (caddrs (binary_kind V) b) /\ carity (nary_kind V) (Some t) = carity (binary_kind V) b).
  { intros E. destruct (forest_sizes _ _ E) as [E1 E2]. cbn [caddrs nary_kind naddrs opt_list carity binary_kind]. rewrite length_raddrs, length_baddrs.
    rewrite rsize_map, bin_size_map in E1. rewrite rarity_map in E2. split; [exact E1|]. rewrite E2, bin_forest_map, map_map. f_equal. apply map_ext. intros x. apply rarity_map. }
  destruct (N.eqb_spec (N.of_nat (length (caddrs (nary_kind V) (Some t)))) (N.of_nat (length (caddrs (binary_kind V) b)))) as [Es|Es]; cbn [negb].
  2:{ exists false. split; [reflexivity|]. split; [discriminate|]. intros E. destruct (Hsz E). lia. }
  destruct (N.eqb_spec (N.of_nat (carity (nary_kind V) (Some t))) (N.of_nat (carity (binary_kind V) b))) as [Er|Er]; cbn [negb].
  2:{ exists false. split; [reflexivity|]. split; [discriminate|]. intros E. destruct (Hsz E). lia. }
  cbn [nroot fmap option_fmap option_map]. change (baddr b) with (Some a).
  destruct Ht as [(p & q & Ht) _]. destruct Hb as (par & Hb & Hnd). cbn [nsize] in Lt. destruct F as [|F]; [lia|].
  rewrite (n_eq_binary_root F nh bh t b _ _ _ _ par a Ht Hb Hnd eq_refl) by lia. cbn [is_null].
  exists (bool_decide ([rose_map snd t] = bin_forest (bin_map snd b))). destruct (bool_decide _) eqn:E; (split; [reflexivity|]).
  - apply bool_decide_eq_true in E. tauto.
  - apply bool_decide_eq_false in E. split; [discriminate|]. contradiction.
Qed.
Print Assumptions C23_nary_binary.
(** The ordered-tree reading of a binary tree used above. *)
Example C23_reading : forall (V : Type) (v : V) (l r : bin V), bin_forest (BNode v l r) = [Rose v (bin_forest l ++ bin_forest r)] /\ bin_forest (@BLeaf V) = [].
Proof. intros. split; reflexivity. Qed.

(** *** C25: an n-ary tree from a binary tree *)
Lemma copy_binary {V} {EV : EqDecision V} F (al : allocator (nnode V)) (w : world (nnode V)) bh (b : bin (addr * V)) vb M :
  (N.of_nat F <= W64)%N -> holds (croot (nary_kind V)) (caddrs (nary_kind V)) (crep (nary_kind V)) w M [] ->
  bin_at bh b -> t_root vb = baddr b -> bin_size b < F ->
  exists c h s r, nary_copy_binary F al (w_heap w) bh vb = Ok (nroot c, h, s, r) /\
    holds (croot (nary_kind V)) (caddrs (nary_kind V)) (crep (nary_kind V)) (set_heap w h) M [c] /\
    opt_list (fun x => [x]) (nvals c) = bin_forest (bin_map snd b) /\
    (forall x, x ∈ naddrs c -> w_heap w !! x = None) /\
    (cached (binary_kind V) vb b -> s = N.of_nat (length (naddrs c)) /\ r = N.of_nat (carity (nary_kind V) c)).
Proof.
  intros HFW Hw Hb Eb Lb. pose proof (kind_is_ok F al (nary_tree_kind V EV)) as KN. pose proof (kind_is_ok F (first_fit _) (binary_tree_kind V EV)) as KB.
  assert (Hin : csrc (binary_kind V) bh b) by (exists None; exact Hb). assert (Lb' : length (caddrs (binary_kind V) b) < F) by (cbn; rewrite length_baddrs; exact Lb).
  destruct (size_of_ok F _ (first_fit _) _ KB bh vb b Hin Eb ltac:(lia)) as (s & Es & Hs1 & Hs2).
  destruct (arity_of_ok F _ (first_fit _) _ KB bh (TreeRec (t_root vb) s (t_arity vb) (t_nav vb)) b Hin Eb ltac:(lia) ltac:(lia)) as (r & Er & Hr1 & Hr2). cbn [t_arity] in Hr1, Hr2.
  assert (Hcs : cached (binary_kind V) vb b -> s = N.of_nat (length (caddrs (binary_kind V) b)) /\ r = N.of_nat (carity (binary_kind V) b)).
  { intros Hc. pose proof (size_exact F _ (first_fit _) _ KB HFW bh vb b Hin Eb Lb' Hc) as E1. rewrite Es in E1. injection E1 as -> .
    pose proof (arity_exact F _ (first_fit _) _ KB HFW bh (TreeRec (t_root vb) (N.of_nat (length (caddrs (binary_kind V) b))) (t_arity vb) (t_nav vb)) b Hin Eb Lb' (conj (or_intror eq_refl) (proj2 Hc))) as E2.
    pose proof (eq_trans (eq_sym Er) E2) as E3. injection E3 as ->. auto. }
  unfold nary_copy_binary. rewrite Eb. destruct (baddr b) as [a|] eqn:Ea.
  - destruct Hb as [Hb Hnd]. destruct (n_from_binary_ok al bh b F (w_heap w) a Hb Hnd Ea ltac:(lia)) as (a' & h' & t' & E & Er' & Ef & Hbt).
    exists (Some t'), h', s, r. rewrite E. cbn [mbind res_bind]. rewrite Es. cbn [mbind res_bind]. rewrite Er. cbn [mbind res_bind].
    split; [rewrite <- Er'; reflexivity|]. split; [eapply holds_alloc; [exact KN|exact Hw|apply kn_built, Hbt]|]. split; [exact Ef|]. split; [apply Hbt|].
    intros Hc. destruct (Hcs Hc) as [-> ->]. destruct (forest_sizes _ _ Ef) as [E1 E2]. cbn [caddrs nary_kind naddrs opt_list carity binary_kind]. rewrite length_raddrs, length_baddrs.
    rewrite rsize_map, bin_size_map in E1. rewrite rarity_map in E2. split; [congruence|]. rewrite E2, bin_forest_map, map_map. f_equal. f_equal. apply map_ext. intros x. symmetry. apply rarity_map.
  - destruct b as [|[? ?] ? ?]; [|discriminate]. exists None, (w_heap w), s, r. cbn [mbind res_bind]. rewrite Es. cbn [mbind res_bind]. rewrite Er. cbn [mbind res_bind].
    split; [reflexivity|]. split; [destruct w; cbn; exact (holds_add_nil F _ al _ KN _ _ _ Hw)|]. split; [reflexivity|]. split; [intros x Hx; apply elem_of_nil in Hx as []|]. exact Hcs.
Qed.
Theorem C25_construct :
  forall (V : Type) (EV : EqDecision V) (F : nat) (al : allocator (nnode V)), (N.of_nat F <= W64)%N ->
  forall (w : world (nnode V)) (M : gmap tid (option (rose (addr * V)))) (i : tid) (bh : gmap addr (bnode V)) (b : bin (addr * V)) (vb : tree_rec),
  consistent (nary_kind V) w M -> M !! i = None -> bin_at bh b -> t_root vb = baddr b -> bin_size b < F ->
  exists w' c, nary_construct_binary F al w i bh vb = Ok w' /\ consistent (nary_kind V) w' (<[i := c]> M) /\
    opt_list (fun x => [x]) (nvals c) = bin_forest (bin_map snd b) /\
    (forall x, x ∈ naddrs c -> w_heap w !! x = None) /\
    (cached (binary_kind V) vb b -> exists t, w_trees w' !! i = Some t /\ cached (nary_kind V) t c).
Proof.
  intros V EV F al HFW w M i bh b vb Hw Hi Hb Eb Lb. pose proof (kind_is_ok F al (nary_tree_kind V EV)) as KN. apply (to_holds F _ al _ (nary_tree_kind V EV) HFW) in Hw.
  destruct (copy_binary F al w bh b vb M HFW Hw Hb Eb Lb) as (c & h & s & r & E & H & Ef & Hn & Hc).
  exists (set_tree (set_heap w h) i (TreeRec (nroot c) s r (nroot c))), c. unfold nary_construct_binary. rewrite E. split; [reflexivity|].
  split; [apply (to_holds F _ al _ (nary_tree_kind V EV) HFW); apply holds_new; [exact H|exact Hi]|]. split; [exact Ef|]. split; [exact Hn|].
  intros Hca. destruct (Hc Hca) as [-> ->]. eexists. split; [apply lookup_insert|]. split; right; reflexivity.
Qed.
Print Assumptions C25_construct.
Theorem C25_assign :
  forall (V : Type) (EV : EqDecision V) (F : nat) (al : allocator (nnode V)), (N.of_nat F <= W64)%N ->
  forall (w : world (nnode V)) (M : gmap tid (option (rose (addr * V)))) (i : tid) (old : option (rose (addr * V))) (bh : gmap addr (bnode V)) (b : bin (addr * V)) (vb : tree_rec),
  consistent (nary_kind V) w M -> M !! i = Some old -> bin_at bh b -> t_root vb = baddr b -> bin_size b < F -> size (w_heap w) < F ->
  exists w' c, nary_assign_binary F al w i bh vb = Ok w' /\ consistent (nary_kind V) w' (<[i := c]> M) /\
    opt_list (fun x => [x]) (nvals c) = bin_forest (bin_map snd b) /\
    (forall x, x ∈ naddrs c -> w_heap w !! x = None) /\
    (forall x, x ∈ naddrs old -> w_heap w' !! x = None) /\
    (cached (binary_kind V) vb b -> exists t, w_trees w' !! i = Some t /\ cached (nary_kind V) t c).
Proof.
  intros V EV F al HFW w M i old bh b vb Hw Hi Hb Eb Lb LF. pose proof (kind_is_ok F al (nary_tree_kind V EV)) as KN.
  pose proof Hw as Hw0. apply (to_holds F _ al _ (nary_tree_kind V EV) HFW) in Hw.
  destruct (copy_binary F al w bh b vb M HFW Hw Hb Eb Lb) as (c & h & s & r & E & H & Ef & Hn & Hc).
  pose proof (holds_size _ _ _ _ _ _ _ _ Hw Hi) as Lo.
  destruct (assign_ok F (nary_impl V) al (nary_kind V) KN (set_heap w h) M [] i old c s r H Hi ltac:(lia)) as (w' & Ew & H' & Htr).
  apply (to_holds F _ al _ (nary_tree_kind V EV) HFW) in H'.
  exists w', c. unfold nary_assign_binary. rewrite E. split; [exact Ew|]. split; [exact H'|]. split; [exact Ef|]. split; [exact Hn|]. split.
  - intros x Hx. eapply (gone F (nary_impl V) al (nary_kind V) (nary_tree_kind V EV) HFW w M w' i old c x Hw0 Hi H' Hx).
    intros Hxc. apply (old_in F (nary_impl V) al (nary_kind V) (nary_tree_kind V EV) HFW w M i old x Hw0 Hi Hx). apply Hn, Hxc.
  - intros Hca. destruct (Hc Hca) as [-> ->]. eexists. split; [rewrite Htr; apply lookup_insert|]. split; right; reflexivity.
Qed.
Print Assumptions C25_assign.

(** Concrete uses: the n-ary example, with another one-node tree 20 at address 8. *)
Definition ex_vheap : gmap addr (nnode nat) := <[8%positive := NNodeR 20 None 0 None None None None]> ex_nheap.
Example ex_vin : nary_in ex_vheap ex_nary.
Proof. exists None, None, None, (szt 0). split; [vm_compute; tauto|]. apply (bool_decide_unpack _). vm_compute. exact I. Qed.
Example ex_vsrc : nary_src ex_vheap (Some (Rose (8%positive, 20) [])).
Proof. split; [exists None, None; vm_compute; tauto|]. apply (bool_decide_unpack _). vm_compute. exact I. Qed.
(** The view of node 2 (value 20) against this tree, in both orders. *)
Example C22_used :
  base_eq 100 (nary_impl nat) ex_vheap (TreeRec (Some 2%positive) 0 0 (Some 2%positive)) (TreeRec (Some 8%positive) 0 0 (Some 8%positive)) = Err NullDeref /\
  exists r, base_eq 100 (nary_impl nat) ex_vheap (TreeRec (Some 8%positive) 0 0 (Some 8%positive)) (TreeRec (Some 2%positive) 0 0 (Some 2%positive)) = Ok r /\ r = true.
Proof.
  split.
  - apply (C22_next_sibling_refuted nat _ 100 ex_word ex_vheap ex_nary (Rose (8%positive, 20) []) (Rose (2%positive, 20) [])
      (Rose (3%positive, 30) [Rose (5%positive, 50) []; Rose (6%positive, 60) []]) (1%positive, 10) [] [Rose (4%positive, 40) []]);
      [exact ex_vin|apply rsub_here|exact ex_vsrc|reflexivity|reflexivity|split; left; reflexivity|split; left; reflexivity|vm_compute; lia|vm_compute; lia|reflexivity].
  - destruct (C22_nary_views_partial nat _ 100 ex_word ex_vheap (Some (Rose (8%positive, 20) [])) (Some (Rose (2%positive, 20) []))
      (TreeRec (Some 8%positive) 0 0 (Some 8%positive)) (TreeRec (Some 2%positive) 0 0 (Some 2%positive))) as (r & E & Hiff);
      [exact ex_vsrc| |reflexivity|reflexivity|split; left; reflexivity|split; left; reflexivity|vm_compute; lia|vm_compute; lia|].
    + eapply (nary_in_sub _ _ ex_nary); [exact ex_vin|]. eapply rsub_child; [|apply rsub_here]. left.
    + exists r. split; [exact E|]. apply Hiff. reflexivity.
Qed.
(** The binary example 10 (20 (-, 40 (50, -)), 30) against the n-ary one, and
    converted to an n-ary tree. *)
Example C23_used : nary_eq_binary 100 (w_heap ex_nw) (TreeRec (Some 1%positive) 0 0 (Some 1%positive)) ex_bheap (TreeRec (Some 1%positive) 0 0 (Some 1%positive)) = Ok false.
Proof.
  destruct (C23_nary_binary nat _ 100 ex_word (w_heap ex_nw) ex_bheap (Some ex_nary) ex_bin (TreeRec (Some 1%positive) 0 0 (Some 1%positive)) (TreeRec (Some 1%positive) 0 0 (Some 1%positive))) as ([] & E & Hiff).
    destruct ex_nw_ok as [_ Ht _ _]. destruct (Ht 1%positive (TreeRec (Some 1%positive) 0 0 (Some 1%positive)) (Some ex_nary) eq_refl eq_refl) as (_ & _ & H1 & H2).
    split; [exists None, None; exact H1|exact H2].
  - exact ex_bin_in.
  - reflexivity.
  - reflexivity.
  - split; left; reflexivity.
  - split; left; reflexivity.
  - vm_compute; lia.
  - vm_compute; lia.
  - exfalso. assert (Hx := proj1 Hiff eq_refl). discriminate.
  - exact E.
Qed.
Example C25_used : exists w' c, nary_assign_binary 100 (first_fit _) ex_nw 2%positive ex_bheap (TreeRec (Some 1%positive) 5 2 (Some 1%positive)) = Ok w' /\
  consistent (nary_kind nat) w' (<[2%positive := c]> ex_nM) /\ nvals c = Some (Rose 10 [Rose 20 [Rose 40 [Rose 50 []]]; Rose 30 []]).
Proof.
  destruct (C25_assign nat _ 100 (first_fit _) ex_word ex_nw ex_nM 2%positive (Some (Rose (7%positive, 70) [])) ex_bheap ex_bin (TreeRec (Some 1%positive) 5 2 (Some 1%positive)) ex_nw_ok eq_refl ex_bin_at eq_refl
    ltac:(vm_compute; lia) ltac:(vm_compute; lia)) as (w' & c & E & H & Hf & _).
  exists w', c. split; [exact E|]. split; [exact H|]. destruct (nvals c) as [x|]; cbn in Hf; [congruence|discriminate].
Qed.
