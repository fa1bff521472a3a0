(** PropConvFail.v: converting a binary tree to an n-ary tree when the creation of
    a node fails (C58, C59). *)
From Verif Require Import Base Spec StructNode BinaryNode NaryNode Nav Policy Tree User Rep EditSpec World Kinds TreeSpec History
  BinRep NaryRep TreeOps TreeBin TreeNary TreeFacts NaryOps2 Iter ViewFacts Fail FailSpec FailFacts FailUser ConvFail Examples Examples2.

Section Facts.
  Context {V : Type} {EV : EqDecision V}.
  Variable al : allocator (nnode V).
  Variable late : bool.

  Lemma n_binary_agrees (h0 : gmap addr (nnode V)) bh fuel : forall src parent prev, newp h0 parent -> newp h0 prev ->
    agrees late nlinks h0 (n_binary_from_try al late fuel bh src parent prev) (fun h => n_from_binary_from fuel al bh h src parent prev) (fun a => h0 !! a = None).
  Proof.
    induction fuel as [|fuel IH]; intros src parent prev Hp Hv; [intros h _; exact I|].
    pose (FL := fun p q r h => match p with None => Ok (None, h) | Some _ => '(x, h') ← n_from_binary_from fuel al bh h p q r; Ok (Some x, h') end).
    assert (Hopt : forall p q r, newp h0 q -> newp h0 r -> agrees late nlinks h0 (match p with None => give None | Some _ => then_ (n_binary_from_try al late fuel bh p q r) (fun x => give (Some x)) end)
      (FL p q r) (newp h0)).
    { intros [b|] q r Hq Hr; [apply agrees_opt, IH; assumption|apply agrees_give, newp_none]. }
    cbn [n_binary_from_try n_from_binary_from]. apply agrees_read. intros v. apply agrees_read. intros fs. unfold n_alloc.
    refine (agrees_create late nlinks h0 al (NNodeR v parent fs prev None None None) _ (fun a h0' => ns ← b_next bh src; '(l, h1) ← FL ns parent (Some a) h0'; h1' ← update h1 (Some a) (nset_next l); fcs ← b_first bh src; '(r, h2) ← FL fcs (Some a) None h1'; h2' ← update h2 (Some a) (nset_first r); h3 ← n_manage_parent_last_child h2' a; Ok (a, h3)) _ _ _).
    { apply n_links_ok; assumption. }
    intros a Ha. apply (agrees_read late nlinks h0 (fun _ => b_next bh src)). intros ns.
    refine (agrees_bind late nlinks h0 _ (FL ns parent (Some a)) _ (fun l h1 => h1' ← update h1 (Some a) (nset_next l); fcs ← b_first bh src; '(r, h2) ← FL fcs (Some a) None h1'; h2' ← update h2 (Some a) (nset_first r); h3 ← n_manage_parent_last_child h2' a; Ok (a, h3)) _ _ (Hopt ns parent (Some a) Hp (newp_some h0 a Ha)) _). intros l Hl.
    refine (n_tail_next late h0 a l (fun h => fcs ← b_first bh src; '(r, h2) ← FL fcs (Some a) None h; h2' ← update h2 (Some a) (nset_first r); h3 ← n_manage_parent_last_child h2' a; Ok (a, h3)) _ Ha Hl _).
    apply (agrees_read late nlinks h0 (fun _ => b_first bh src)). intros fcs.
    refine (agrees_bind late nlinks h0 _ (FL fcs (Some a) None) _ (fun r h => h2' ← update h (Some a) (nset_first r); h3 ← n_manage_parent_last_child h2' a; Ok (a, h3)) _ _ (Hopt fcs (Some a) None (newp_some h0 a Ha) (newp_none h0)) _). intros r Hr.
    apply n_tail_first; assumption.
  Qed.

  Lemma root_try F (h : gmap addr (nnode V)) bh (b : bin (addr * V)) vb : bin_at bh b -> t_root vb = baddr b -> bin_size b < F ->
    exists p h', (match t_root vb with None => Ok (None, h) | Some _ => '(a, h') ← n_from_binary F al bh h (t_root vb); Ok (Some a, h') end) = Ok (p, h') /\
      (forall k, bin_size b <= k -> binary_root_try F al late bh vb h k = Made p h' (k - bin_size b)) /\
      (forall k, k < bin_size b -> exists h2, binary_root_try F al late bh vb h k = Lost h2 /\ (forall y o, h !! y = Some o -> h2 !! y = Some o) /\
         size h2 = size h + k + (if late then 1 else 0)).
  Proof.
    intros Hb Eb Lb. unfold binary_root_try. rewrite Eb. destruct (baddr b) as [a|] eqn:Ea.
    2:{ destruct b as [|[? ?] ? ?]; [|discriminate]. exists None, h. split; [reflexivity|]. split; [|cbn; intros k Hk; lia].
        intros k _. unfold give. cbn. rewrite Nat.sub_0_r. reflexivity. }
    destruct Hb as [Hb Hnd]. destruct (n_from_binary_ok al bh b F h a Hb Hnd Ea ltac:(lia)) as (a' & h' & t' & E & _ & Ef & Hbt).
    exists (Some a'), h'. rewrite E. split; [reflexivity|].
    pose proof (agrees_opt late nlinks h _ _ (n_binary_agrees h bh F (Some a) None None (newp_none h) (newp_none h)) h (inv_self nlinks h)) as Hag.
    unfold n_from_binary in E. cbn beta in Hag. rewrite E in Hag. cbn [mbind res_bind] in Hag.
    destruct Hag as (_ & _ & m & Hm & H1 & H2).
    assert (m = bin_size b) as ->.
    { pose proof (built_size (nary_fail_kind V EV) F al h h' (Some t') (kn_built _ _ _ Hbt)) as Hs.
      destruct (forest_sizes _ _ Ef) as [E1 _]. rewrite rsize_map, bin_size_map in E1. cbn [caddrs nary_kind naddrs opt_list] in Hs. rewrite length_raddrs in Hs. lia. }
    split; [exact H1|]. intros k Hk. destruct (H2 k Hk) as (h2 & E2 & Hi & Hsz). exists h2. split; [exact E2|]. split; [apply Hi|exact Hsz].
  Qed.
End Facts.

(** *** C58: the two conversions. *)
Theorem C58_convert :
  forall (V : Type) (EV : EqDecision V) (F : nat) (al : allocator (nnode V)) (late : bool)
    (w : world (nnode V)) (M : gmap tid (option (rose (addr * V)))) (i : tid) (bh : gmap addr (bnode V)) (b : bin (addr * V)) (vb : tree_rec) (k : nat),
  consistent (nary_kind V) w M -> bin_at bh b -> t_root vb = baddr b -> bin_size b < F -> k < bin_size b ->
  exists w', construct_binary_try F al late k w i bh vb = Throw w' /\ assign_binary_try F al late k w i bh vb = Throw w' /\
    w_trees w' = w_trees w /\
    (forall a o, w_heap w !! a = Some o -> w_heap w' !! a = Some o) /\
    (forall j d, M !! j = Some d -> crep (nary_kind V) (w_heap w') d).
Proof.
  intros V EV F al late w M i bh b vb k Hw Hb Eb Lb Hk.
  destruct (root_try al late F (w_heap w) bh b vb Hb Eb Lb) as (p & h' & _ & _ & H2). destruct (H2 k Hk) as (h2 & E2 & Hold & _).
  exists (set_heap w h2). unfold construct_binary_try, assign_binary_try, converting. rewrite E2. split; [reflexivity|]. split; [reflexivity|].
  split; [reflexivity|]. split; [exact Hold|].
  intros j d Hj. assert (Hti : is_Some (w_trees w !! j)) by (apply (wo_live _ _ _ _ _ Hw); eauto). destruct Hti as [t Hti].
  destruct (wo_tree _ _ _ _ _ Hw j t d Hti Hj) as (_ & _ & Hd). pose proof (kind_is_ok F al (nary_tree_kind V EV)) as KO.
  eapply (k_ext _ _ _ _ KO); [|exact Hd]. intros y Hy. destruct (k_dom _ _ _ _ KO _ _ _ Hd Hy) as [o Ho]. cbn. rewrite Ho. apply Hold, Ho.
Qed.
Print Assumptions C58_convert.
Theorem C58_convert_enough :
  forall (V : Type) (EV : EqDecision V) (F : nat) (al : allocator (nnode V)) (late : bool)
    (w : world (nnode V)) (i : tid) (bh : gmap addr (bnode V)) (b : bin (addr * V)) (vb : tree_rec) (k : nat),
  bin_at bh b -> t_root vb = baddr b -> bin_size b < F -> bin_size b <= k ->
  (forall w', nary_construct_binary F al w i bh vb = Ok w' -> construct_binary_try F al late k w i bh vb = Ret tt w') /\
  (forall w', nary_assign_binary F al w i bh vb = Ok w' -> assign_binary_try F al late k w i bh vb = Ret tt w').
Proof.
  intros V EV F al late w i bh b vb k Hb Eb Lb Hk.
  destruct (root_try al late F (w_heap w) bh b vb Hb Eb Lb) as (p & h' & E & H1 & _). specialize (H1 k Hk).
  unfold construct_binary_try, assign_binary_try, converting, nary_construct_binary, nary_assign_binary, nary_copy_binary. rewrite E, H1. cbn [mbind res_bind].
  destruct (size_of F (binary_impl V) bh vb) as [[s b1]|]; cbn [mbind res_bind]; [|split; discriminate].
  destruct (arity_of F (binary_impl V) bh b1) as [[r b2]|]; cbn [mbind res_bind]; [|split; discriminate].
  split; intros w' Hw'; [injection Hw' as <-; reflexivity|rewrite Hw'; reflexivity].
Qed.
Print Assumptions C58_convert_enough.

(** *** C59: the nodes created before the failure stay allocated. *)
Theorem C59_convert_refuted :
  forall (V : Type) (EV : EqDecision V) (F : nat) (al : allocator (nnode V)) (late : bool)
    (w : world (nnode V)) (M : gmap tid (option (rose (addr * V)))) (i : tid) (bh : gmap addr (bnode V)) (b : bin (addr * V)) (vb : tree_rec) (k : nat),
  consistent (nary_kind V) w M -> bin_at bh b -> t_root vb = baddr b -> bin_size b < F -> k < bin_size b ->
  exists w', construct_binary_try F al late k w i bh vb = Throw w' /\ assign_binary_try F al late k w i bh vb = Throw w' /\
    size (w_heap w') = size (w_heap w) + k + (if late then 1 else 0) /\
    (0 < k \/ late = true -> exists a, is_Some (w_heap w' !! a) /\ forall j d, M !! j = Some d -> a ∉ naddrs d).
Proof.
  intros V EV F al late w M i bh b vb k Hw Hb Eb Lb Hk.
  destruct (root_try al late F (w_heap w) bh b vb Hb Eb Lb) as (p & h' & _ & _ & H2). destruct (H2 k Hk) as (h2 & E2 & Hold & Hsz).
  exists (set_heap w h2). unfold construct_binary_try, assign_binary_try, converting. rewrite E2. split; [reflexivity|]. split; [reflexivity|].
  split; [exact Hsz|].
  intros Hp. assert (exists y, is_Some (h2 !! y) /\ w_heap w !! y = None) as (y & Hy & Hny).
  { destruct (decide (forall y, y ∈ dom (D := gset addr) h2 -> y ∈ dom (D := gset addr) (w_heap w))) as [Hall|Hall].
    - apply subseteq_size in Hall. rewrite !size_dom in Hall. destruct late, Hp; try discriminate; lia.
    - apply not_set_Forall_Exists in Hall; [|apply _]. destruct Hall as (y & Hy & Hny). exists y. split; [apply elem_of_dom, Hy|apply not_elem_of_dom, Hny]. }
  exists y. split; [exact Hy|]. intros j d Hj Hyd.
  destruct (proj2 (wo_owned _ _ _ _ _ Hw y)) as [o Ho]; [exists j, d; split; [exact Hj|exact Hyd]|]. congruence.
Qed.
Print Assumptions C59_convert_refuted.

(** The five nodes of the binary example converted when three can be created. *)
Example C58_convert_used : exists w',
  assign_binary_try 100 (first_fit _) false 3 ex_nw 1%positive ex_bheap (TreeRec (Some 1%positive) 0 0 (Some 1%positive)) = Throw w' /\
  crep (nary_kind nat) (w_heap w') (Some ex_nary) /\ size (w_heap w') = size (w_heap ex_nw) + 3.
Proof.
  destruct (C58_convert nat _ 100 (first_fit _) false ex_nw ex_nM 1%positive ex_bheap ex_bin (TreeRec (Some 1%positive) 0 0 (Some 1%positive)) 3 ex_nw_ok ex_bin_at eq_refl) as (w' & _ & E & _ & _ & Hc); [vm_compute; lia|vm_compute; lia|].
  destruct (C59_convert_refuted nat _ 100 (first_fit _) false ex_nw ex_nM 1%positive ex_bheap ex_bin (TreeRec (Some 1%positive) 0 0 (Some 1%positive)) 3 ex_nw_ok ex_bin_at eq_refl) as (w2 & _ & E' & Hs & _); [vm_compute; lia|vm_compute; lia|].
  assert (w2 = w') as -> by congruence. exists w'. split; [exact E|]. split; [apply (Hc 1%positive); reflexivity|]. rewrite Hs. cbn. lia.
Qed.
