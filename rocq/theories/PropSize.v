(** PropSize.v: when size() and arity() are wrong (C31), in every tree.
    Conventions: see PropTree.v.  [length (caddrs K c)] is the number of nodes of
    [c], [cdeg K a c] the number of children of its node [a], [carity K c] the
    largest number of children.  Statements about both kinds of trees
    ([tree_kind]). *)
From Verif Require Import Base Spec EditSpec StructNode BinaryNode NaryNode Nav Policy Tree Rep User World Kinds TreeSpec
  NaryOps2 TreeOps TreeOps2 TreeOps3 TreeOps4 History TreeFacts Examples Examples2.

Section Lemmas.
  Context {V : Type} {EV : EqDecision V} {Nd : Type} {im : node_impl V Nd} {K : kind_data V Nd}.
  Variable F : nat.
  Variable al : allocator Nd.
  Hypothesis HK : tree_kind V EV Nd im K.
  Hypothesis HFW : (N.of_nat F <= W64)%N.
  Lemma size_known w i t : w_trees w !! i = Some t -> t_size t <> 0%N -> exists w', tree_size F im w i = Ok (t_size t, w').
  Proof.
    intros Ht Hs. unfold tree_size, get_tree. rewrite Ht. cbn [mbind res_bind]. unfold size_of.
    apply N.eqb_neq in Hs. rewrite Hs, Bool.andb_false_r. cbn. eauto.
  Qed.
  Lemma arity_known w i t : w_trees w !! i = Some t -> t_arity t <> 0%N -> exists w', tree_arity F im w i = Ok (t_arity t, w').
  Proof.
    intros Ht Hs. unfold tree_arity, get_tree. rewrite Ht. cbn [mbind res_bind]. unfold arity_of.
    apply N.eqb_neq in Hs. rewrite Hs, Bool.andb_false_r. cbn. eauto.
  Qed.
  (** Erasing a node below the root. *)
  Lemma erase_at w M i c a pos : consistent K w M -> size (w_heap w) < F -> M !! i = Some c ->
    a ∈ caddrs K c -> croot K c <> Some a -> it_cur pos = Some a -> it_root pos = croot K c -> crepl K a (cnil K) c ->
    exists t it w', w_trees w !! i = Some t /\ erase F im w i pos = Ret it w' /\
      consistent K w' (<[i := csubst K a (cnil K) c]> M) /\
      w_trees w' !! i = Some (if decide (cdeg K a c = 0) then TreeRec (croot K c) (wadd (t_size t) (W64 - 1)) 0 (croot K c) else TreeRec (croot K c) 0 0 (croot K c)) /\
      length (caddrs K (csubst K a (cnil K) c)) < length (caddrs K c) /\
      size (w_heap w') < F /\ croot K (csubst K a (cnil K) c) = croot K c.
  Proof.
    intros Hw HF Hi Ha Hne Hcur Hroot Hok. pose proof (kind_is_ok F al HK) as KO.
    pose proof Hw as H. apply (to_holds F _ al _ HK HFW) in H.
    destruct (holds_get _ _ _ _ _ _ _ _ H Hi) as (t & Ht & _ & _ & _). pose proof (holds_size _ _ _ _ _ _ _ _ H Hi) as Lc.
    destruct (erase_ok F im al K KO w M [] i c t a pos H Hi Ht Ha Hcur Hroot (fun _ => Hok) ltac:(lia)) as (it & w' & E & H' & Htr & _).
    pose proof (holds_rep _ _ _ _ _ _ _ _ H Hi) as Hrep.
    destruct (k_subst _ _ _ _ KO (w_heap w) c (cnil K) a Hrep Ha) as (Hsub & _ & Hsn). destruct (Hsn Hne) as (Hs1 & Hs2).
    exists t, it, w'. split; [exact Ht|]. split; [exact E|]. split; [apply (to_holds F _ al _ HK HFW), H'|].
    split. { rewrite Htr, lookup_insert. unfold replaced_rec. rewrite decide_False by exact Hne. reflexivity. }
    pose proof (Permutation_length Hs2) as HL. rewrite !app_length, (nil_addrs F im al K KO) in HL. cbn [length] in HL.
    assert (Hpos : 0 < length (caddrs K (csub K a c))).
    { destruct (caddrs K (csub K a c)) as [|y ys] eqn:Es; [|cbn; lia]. exfalso.
      destruct (decide (cdeg K a c = 0)) as [Hd|Hd].
      - pose proof (proj2 (k_deg_sub _ _ _ _ KO (w_heap w) c a Hrep Ha) Hd) as Hl1. rewrite Es in Hl1. discriminate.
      - (* an empty subtree has no root *)
        pose proof (Hsub) as Hsr. revert Hsr Es. generalize (csub K a c). clear -HK. destruct HK; intros c Hr Ec; destruct c; cbn in Hr, Ec; try discriminate; destruct r; discriminate. }
    split; [lia|]. split; [|exact Hs1].
    assert (Hw' : consistent K w' (<[i := csubst K a (cnil K) c]> M)) by (apply (to_holds F _ al _ HK HFW), H').
    eapply Nat.le_lt_trans; [|exact HF]. rewrite <- !size_dom. apply subseteq_size. intros x Hx.
    apply elem_of_dom. apply elem_of_dom in Hx. apply (wo_owned _ _ _ _ _ Hw' x) in Hx as (j & d & Hj & Hxd).
    apply (wo_owned _ _ _ _ _ Hw x). destruct (decide (i = j)) as [<-|Hij].
    - rewrite lookup_insert in Hj. injection Hj as <-. exists i, c. split; [exact Hi|].
      assert (Hin : x ∈ caddrs K c ++ caddrs K (cnil K)) by (rewrite <- Hs2; apply elem_of_app; left; exact Hxd).
      rewrite (nil_addrs F im al K KO), app_nil_r in Hin. exact Hin.
    - rewrite lookup_insert_ne in Hj by exact Hij. eauto.
  Qed.
End Lemmas.

(** Erasing a node that has children and then a leaf (both below the root),
    without calling size() in between: size() returns 2^64 - 1. *)
Theorem C31_two_erasures_refuted :
  forall (V : Type) (EV : EqDecision V) (Nd : Type) (im : node_impl V Nd) (K : kind_data V Nd) (F : nat) (al : allocator Nd),
  tree_kind V EV Nd im K -> (N.of_nat F <= W64)%N ->
  forall (w : world Nd) (M : gmap tid (C K)) (i : tid) (c : C K) (a b : addr) (pos1 pos2 : iter),
  consistent K w M -> size (w_heap w) < F -> M !! i = Some c ->
  a ∈ caddrs K c -> croot K c <> Some a -> cdeg K a c <> 0 -> crepl K a (cnil K) c -> it_cur pos1 = Some a -> it_root pos1 = croot K c ->
  let c1 := csubst K a (cnil K) c in
  b ∈ caddrs K c1 -> croot K c1 <> Some b -> cdeg K b c1 = 0 -> crepl K b (cnil K) c1 -> it_cur pos2 = Some b -> it_root pos2 = croot K c1 ->
  exists it1 w1 it2 w2 w3, erase F im w i pos1 = Ret it1 w1 /\ erase F im w1 i pos2 = Ret it2 w2 /\
    consistent K w2 (<[i := csubst K b (cnil K) c1]> M) /\
    tree_size F im w2 i = Ok (2 ^ 64 - 1, w3)%N /\ (N.of_nat (length (caddrs K (csubst K b (cnil K) c1))) < 2 ^ 64 - 1)%N.
Proof.
  intros V EV Nd im K F al HK HFW w M i c a b pos1 pos2 Hw HF Hi Ha Hra Hda Hoka Hc1 Hr1 c1 Hb Hrb Hdb Hokb Hc2 Hr2.
  destruct (erase_at F al HK HFW w M i c a pos1 Hw HF Hi Ha Hra Hc1 Hr1 Hoka) as (t & it1 & w1 & Ht & E1 & Hw1 & Ht1 & _ & HF1 & _).
  rewrite decide_False in Ht1 by exact Hda. fold c1 in Hw1.
  assert (Hi1 : <[i := c1]> M !! i = Some c1) by apply lookup_insert.
  destruct (erase_at F al HK HFW w1 _ i c1 b pos2 Hw1 HF1 Hi1 Hb Hrb Hc2 Hr2 Hokb) as (t1 & it2 & w2 & Ht1' & E2 & Hw2 & Ht2 & HL & HF2 & _).
  rewrite Ht1 in Ht1'. injection Ht1' as <-. rewrite decide_True in Ht2 by exact Hdb. rewrite insert_insert in Hw2.
  change (wadd 0 (W64 - 1)) with (W64 - 1)%N in Ht2.
  destruct (size_known (V := V) (im := im) F w2 i _ Ht2 ltac:(discriminate)) as (w3 & E3). exists it1, w1, it2, w2, w3.
  split; [exact E1|]. split; [exact E2|]. split; [exact Hw2|]. split; [exact E3|].
  pose proof Hw1 as H1. apply (to_holds F _ al _ HK HFW) in H1. pose proof (holds_size _ _ _ _ _ _ _ _ H1 Hi1) as L1.
  change (2 ^ 64)%N with W64. lia.
Qed.
Print Assumptions C31_two_erasures_refuted.

(** insert_child_* of a tree (copied, moved, or shown by a view), and
    insert_child_front of a literal: whatever is inserted counts as one node. *)
Theorem C31_insert_child_refuted :
  forall (V : Type) (EV : EqDecision V) (Nd : Type) (im : node_impl V Nd) (K : kind_data V Nd) (F : nat) (al : allocator Nd),
  tree_kind V EV Nd im K -> (N.of_nat F <= W64)%N ->
  forall (w : world Nd) (M M1 : gmap tid (C K)) (i : tid) (c : C K) (first emplace : bool) (src : source V) (x : X K) (a : addr) (pos : iter),
  consistent K w M -> M !! i = Some c -> measured K w M i -> gives K w M i src x M1 -> fits F w src ->
  ~ child_exact first emplace src ->
  a ∈ caddrs K c -> it_cur pos = Some a -> ~ cfull K a c ->
  exists it w1 w2 u, insert_child F im al first emplace w i pos src = Ret it w1 /\ cvals K u = x /\
    consistent K w1 (<[i := cput K first a u c]> M1) /\
    length (caddrs K (cput K first a u c)) = length (caddrs K c) + length (caddrs K u) /\
    tree_size F im w1 i = Ok (N.of_nat (length (caddrs K c) + 1), w2).
Proof.
  intros V EV Nd im K F al HK HFW w M M1 i c first emplace src x a pos Hw Hi Hm Hg HF Hne Ha Hpos Hfull.
  pose proof (kind_is_ok F al HK) as KO. pose proof Hw as H. apply (to_holds F _ al _ HK HFW) in H.
  destruct (holds_get _ _ _ _ _ _ _ _ H Hi) as (t & Ht & _ & _ & _). pose proof (holds_size _ _ _ _ _ _ _ _ H Hi) as Lc.
  destruct (Hm t c Ht Hi) as [Hs _].
  destruct (insert_child_rec F im al K KO HFW first emplace w M i c t src x M1 a pos H Hi Ht Hg HF Ha Hpos Hfull)
    as (u & s & r & it & w1 & E & Hx & H1 & Ht1 & HL & _ & Hns & Hlen).
  destruct (Hns Hne) as [-> ->].
  assert (Hlt : length (caddrs K c) + 1 < F).
  { unfold fits in HF. assert (0 < length (caddrs K c)) by (destruct (caddrs K c); [apply elem_of_nil in Ha as []|cbn; lia]).
    assert (1 <= needs w src); [|lia].
    assert (Hh : 1 <= size (w_heap w)) by lia. clear -Hg KO HK Hh. destruct Hg; unfold needs; try lia.
    destruct (k_struct _ _ _ _ KO (w_heap w) v cs H) as (a' & h' & u' & _ & Hr' & _ & Hl' & _). rewrite <- Hl'.
    clear -HK Hr'. rewrite Nat2N.id. destruct HK; destruct u'; cbn in *; try discriminate; try lia. destruct r; cbn; lia. }
  assert (Hsz : wadd (t_size t) 1 = N.of_nat (length (caddrs K c) + 1)).
  { rewrite Hs. unfold wadd. rewrite N.mod_small by lia. lia. }
  destruct (size_known (V := V) (im := im) F w1 i _ Ht1) as (w2 & E2); [unfold added_rec; cbn [t_size]; rewrite Hsz; lia|].
  unfold added_rec in E2. cbn [t_size] in E2. rewrite Hsz in E2.
  exists it, w1, w2, u. split; [exact E|]. split; [exact Hx|]. split; [apply (to_holds F _ al _ HK HFW), H1|]. split; [|exact E2].
  destruct (croot K u) eqn:Er; [apply Hlen; discriminate|]. unfold cput. rewrite Er.
  apply (k_null _ _ _ _ KO) in Er. subst u. rewrite (nil_addrs F im al K KO). cbn. lia.
Qed.
Print Assumptions C31_insert_child_refuted.

(** Inserting after a node with children was erased: size() returns the number of
    nodes of what was inserted (or 1, in the cases above), whatever the tree. *)
Theorem C31_erase_insert_refuted :
  forall (V : Type) (EV : EqDecision V) (Nd : Type) (im : node_impl V Nd) (K : kind_data V Nd) (F : nat) (al : allocator Nd),
  tree_kind V EV Nd im K -> (N.of_nat F <= W64)%N ->
  forall (w : world Nd) (M : gmap tid (C K)) (i : tid) (c : C K) (a : addr) (pos1 : iter),
  consistent K w M -> size (w_heap w) < F -> M !! i = Some c ->
  a ∈ caddrs K c -> croot K c <> Some a -> cdeg K a c <> 0 -> crepl K a (cnil K) c -> it_cur pos1 = Some a -> it_root pos1 = croot K c ->
  let c1 := csubst K a (cnil K) c in
  exists it1 w1, erase F im w i pos1 = Ret it1 w1 /\ consistent K w1 (<[i := c1]> M) /\
  forall (M2 : gmap tid (C K)) (first emplace : bool) (src : source V) (x : X K) (b : addr) (pos2 : iter),
    gives K w1 (<[i := c1]> M) i src x M2 -> fits F w1 src -> b ∈ caddrs K c1 -> it_cur pos2 = Some b -> ~ cfull K b c1 ->
    exists it2 w2 w3 w4 u, insert_child F im al first emplace w1 i pos2 src = Ret it2 w2 /\ cvals K u = x /\
      consistent K w2 (<[i := cput K first b u c1]> M2) /\
      (child_exact first emplace src -> tree_size F im w2 i = Ok (N.of_nat (length (caddrs K u)), w3)) /\
      (~ child_exact first emplace src -> tree_size F im w2 i = Ok (1%N, w3)) /\
      (* arity(), for a value: the number of children of the node it was added to *)
      (forall v, src = SrcValue v -> tree_arity F im w2 i = Ok (N.of_nat (S (cdeg K b c1)), w4)).
Proof.
  intros V EV Nd im K F al HK HFW w M i c a pos1 Hw HF Hi Ha Hra Hda Hoka Hc1 Hr1 c1.
  destruct (erase_at F al HK HFW w M i c a pos1 Hw HF Hi Ha Hra Hc1 Hr1 Hoka) as (t & it1 & w1 & Ht & E1 & Hw1 & Ht1 & _ & HF1 & _).
  rewrite decide_False in Ht1 by exact Hda. fold c1 in Hw1. exists it1, w1. split; [exact E1|]. split; [exact Hw1|].
  intros M2 first emplace src x b pos2 Hg Hfit Hb Hpos Hfull.
  assert (Hi1 : <[i := c1]> M !! i = Some c1) by apply lookup_insert.
  pose proof (kind_is_ok F al HK) as KO. pose proof Hw1 as H1. apply (to_holds F _ al _ HK HFW) in H1.
  destruct (insert_child_rec F im al K KO HFW first emplace w1 _ i c1 _ src x M2 b pos2 H1 Hi1 Ht1 Hg Hfit Hb Hpos Hfull)
    as (u & s & r & it & w2 & E & Hx & H2 & Ht2 & HL & Hex & Hns & Hlen).
  unfold added_rec in Ht2. cbn [t_size t_arity] in Ht2.
  assert (Hroot : child_exact first emplace src -> croot K u <> None /\ 0 < length (caddrs K u)).
  { intros Hce. assert (Hv : exists v cs, cvals K u = lit_vals K (LNode v cs)).
    { inversion Hg; subst; try destruct Hce; eexists _, _; symmetry; eassumption. }
    destruct Hv as (v & cs & Hv). clear -HK Hv. destruct HK; cbn in Hv.
    - destruct u as [|y l r]; [cbn in Hv; destruct cs as [|? [|? ?]]; cbn in Hv; discriminate Hv|]. cbn. split; [destruct y; discriminate|lia].
    - destruct u as [[y ds]|]; [|cbn in Hv; discriminate Hv]. cbn. split; [destruct y; discriminate|lia]. }
  assert (Hs : s <> 0%N /\ wadd 0 s = s).
  { destruct (decide (first && negb emplace = false)) as [Hfe|Hfe]; destruct src; cbn [child_exact] in *;
      first [destruct (Hns ltac:(tauto)) as [-> _]; split; [discriminate|reflexivity]
            |destruct (Hex ltac:(tauto)) as [-> _]; destruct (Hroot ltac:(tauto)) as [_ Hp]; split; [lia|unfold wadd; rewrite N.mod_small; lia]]. }
  destruct Hs as [Hs0 Hs]. rewrite Hs in Ht2.
  destruct (size_known (V := V) (im := im) F w2 i _ Ht2 Hs0) as (w3 & E3). cbn [t_size] in E3.
  assert (Har : exists w4, forall v, src = SrcValue v -> tree_arity F im w2 i = Ok (N.of_nat (S (cdeg K b c1)), w4)).
  { destruct src as [v| | | |]; try (exists w2; intros ? [=]; fail).
    assert (Hce : child_exact first emplace (SrcValue v)) by (cbn; tauto). destruct (Hex Hce) as [_ Hr]. destruct (Hroot Hce) as [Hu _]. destruct (Hlen Hu) as (Hl2 & Hd & Hca).
    rewrite Hd, decide_False in Ht2 by lia.
    assert (Hcu : carity K u = 0).
    { assert (Hv : cvals K u = lit_vals K (LNode v [])) by (inversion Hg; subst; congruence).
      clear -HK Hv. destruct HK; cbn in Hv.
      - destruct u as [|x [|] [|]]; cbn in Hv; try discriminate. reflexivity.
      - destruct u as [[x cs]|]; cbn in Hv; [|discriminate]. injection Hv as _ Hv. apply map_eq_nil in Hv as ->. reflexivity. }
    rewrite Hcu in Hr. subst r. cbn [N.of_nat] in Ht2. rewrite !N.max_0_l in Ht2.
    assert (Hdl : S (cdeg K b c1) <= length (caddrs K (cput K first b u c1))).
    { pose proof (k_arity_lt _ _ _ _ KO (cput K first b u c1)) as Hle. rewrite Hca in Hle. lia. }
    rewrite NaryOps2.szt_small in Ht2 by lia.
    destruct (arity_known (V := V) (im := im) F w2 i _ Ht2 ltac:(cbn [t_arity]; lia)) as (w4 & E4). exists w4. intros _ _. exact E4. }
  destruct Har as (w4 & Har). exists it, w2, w3, w4, u. split; [exact E|]. split; [exact Hx|]. split; [apply (to_holds F _ al _ HK HFW), H2|].
  split; [intros Hce; destruct (Hex Hce) as [<- _]; exact E3|]. split; [intros Hce; destruct (Hns Hce) as [<- _]; exact E3|exact Har].
Qed.
Print Assumptions C31_erase_insert_refuted.

(** Erasing 40 (with its child 50), then 30, in 10(20(-, 40(50, -)), 30): two
    nodes remain, and size() returns 2^64 - 1. *)
Example C31_used_two_erasures : exists it1 w1 it2 w2 w3,
  erase 100 (binary_impl nat) ex_bw 1%positive (Iter PreOrder (Some 4%positive) (Some 1%positive) [] None) = Ret it1 w1 /\
  erase 100 (binary_impl nat) w1 1%positive (Iter PreOrder (Some 3%positive) (Some 1%positive) [] None) = Ret it2 w2 /\
  consistent (binary_kind nat) w2 (<[1%positive := BNode (1%positive, 10) (BNode (2%positive, 20) BLeaf BLeaf) BLeaf]> ex_bM) /\
  tree_size 100 (binary_impl nat) w2 1%positive = Ok (2 ^ 64 - 1, w3)%N.
Proof.
  destruct (C31_two_erasures_refuted nat _ _ _ _ 100 (first_fit _) (binary_tree_kind nat _) ex_word ex_bw ex_bM 1%positive ex_bin 4%positive 3%positive
    (Iter PreOrder (Some 4%positive) (Some 1%positive) [] None) (Iter PreOrder (Some 3%positive) (Some 1%positive) [] None) ex_bw_ok) as (it1 & w1 & it2 & w2 & w3 & E1 & E2 & H & E3 & _);
    [vm_compute; lia|reflexivity|vm_compute; set_solver +|discriminate|discriminate|exact I|reflexivity|reflexivity|vm_compute; set_solver +|discriminate|reflexivity|exact I|reflexivity|reflexivity|].
  exists it1, w1, it2, w2, w3. split; [exact E1|]. split; [exact E2|]. split; [exact H|exact E3].
Qed.
(** Adding a copy of this tree of five nodes below the only node of another tree:
    size() then returns 2. *)
Example C31_used_insert_child : exists it w1 w2 (u : bin (addr * nat)),
  insert_child 100 (binary_impl nat) (first_fit _) true false ex_bw 2%positive (Iter PreOrder (Some 7%positive) (Some 7%positive) [] None) (SrcCopy 1%positive) = Ret it w1 /\
  bin_map snd u = bin_map snd ex_bin /\
  tree_size 100 (binary_impl nat) w1 2%positive = Ok (2%N, w2).
Proof.
  destruct (C31_insert_child_refuted nat _ _ _ _ 100 (first_fit _) (binary_tree_kind nat _) ex_word ex_bw ex_bM ex_bM 2%positive (BNode (7%positive, 70) BLeaf BLeaf) true false (SrcCopy 1%positive)
    (bin_map snd ex_bin) 7%positive (Iter PreOrder (Some 7%positive) (Some 7%positive) [] None) ex_bw_ok) as (it & w1 & w2 & u & E & Hu & _ & _ & E2);
    [reflexivity|..|vm_compute; lia| |vm_compute; set_solver +|reflexivity|intros []|].
  - intros t c Ht Hc. vm_compute in Ht, Hc. injection Ht as <-. injection Hc as <-. vm_compute. auto.
  - apply (GCopy (binary_kind nat) ex_bw ex_bM 2%positive 1%positive ex_bin). reflexivity.
  - intros [].
  - exists it, w1, w2, u. split; [exact E|]. split; [exact Hu|exact E2].
Qed.
(** After the erasure of 40, adding the value 99 as a child of 30: size() returns 1
    for a tree of four nodes. *)
Example C31_used_erase_insert : exists it1 w1 it2 w2 w3,
  erase 100 (binary_impl nat) ex_bw 1%positive (Iter PreOrder (Some 4%positive) (Some 1%positive) [] None) = Ret it1 w1 /\
  insert_child 100 (binary_impl nat) (first_fit _) false false w1 1%positive (Iter PreOrder (Some 3%positive) (Some 1%positive) [] None) (SrcValue 99) = Ret it2 w2 /\
  tree_size 100 (binary_impl nat) w2 1%positive = Ok (1%N, w3).
Proof.
  destruct (C31_erase_insert_refuted nat _ _ _ _ 100 (first_fit _) (binary_tree_kind nat _) ex_word ex_bw ex_bM 1%positive ex_bin 4%positive
    (Iter PreOrder (Some 4%positive) (Some 1%positive) [] None) ex_bw_ok) as (it1 & w1 & E1 & H1 & Hins);
    [vm_compute; lia|reflexivity|vm_compute; set_solver +|discriminate|discriminate|exact I|reflexivity|reflexivity|].
  destruct (Hins _ false false (SrcValue 99) _ 3%positive (Iter PreOrder (Some 3%positive) (Some 1%positive) [] None) (GValue (binary_kind nat) w1 _ 1%positive 99)) as (it2 & w2 & w3 & w4 & u & E2 & Hu & _ & Hs & _);
    [|vm_compute; set_solver +|reflexivity|intros []|].
  - unfold fits. cbn [needs]. apply (Nat.le_lt_trans _ 10); [|lia]. revert E1. vm_compute. injection 1 as _ <-. vm_compute. lia.
  - exists it1, w1, it2, w2, w3. split; [exact E1|]. split; [exact E2|]. rewrite Hs by exact I.
    cbn in Hu. destruct u as [|[? ?] [|] [|]]; cbn in Hu; try discriminate. reflexivity.
Qed.
