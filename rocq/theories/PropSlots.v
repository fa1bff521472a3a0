(** PropSlots.v: C64, literals with more than two arguments given to a binary
    tree.  The static_assert of binary_node.hpp 84-86 bounds the number of
    children that are not [n()] by two, so [n(1)(n(2), n(), n(3))] is accepted. *)
From Verif Require Import Base Spec StructNode LitFacts BinaryNode NaryNode Nav Policy Tree User Rep BinOrder BinRep BinOps BinLit
  EditSpec World Kinds TreeSpec TreeOps TreeOps2 TreeOps3 TreeOps4 TreeBin TreeNary History TreeFacts Iter Examples Examples2.

(** The values written in a literal. *)
Definition written {V} (l : lit V) : nat := list_sum (map rsize (lit_rose l)).
(** What the compiler accepts for a binary tree: at most two of the arguments of
    each node that is built are not [n()]. *)
Fixpoint accepted {V} (l : lit V) : Prop :=
  match l with
  | LEmpty => True
  | LNode _ cs => length (flat_map lit_rose cs) <= 2 /\
      match cs with
      | [] => True
      | [a] => accepted a
      | a :: b :: _ => accepted a /\ accepted b
      end
  end.
Definition not_empty {V} (l : lit V) : bool := match l with LEmpty => false | _ => true end.

Lemma written_cons {V} (v : V) cs : written (LNode v cs) = S (list_sum (map written cs)).
Proof.
  unfold written at 1. cbn [lit_rose map list_sum foldr]. rewrite Nat.add_0_r. cbn [rsize]. f_equal.
  change (list_sum (map rsize (flat_map lit_rose cs)) = list_sum (map written cs)).
  induction cs as [|c cs IH]; [reflexivity|]. cbn [flat_map map]. rewrite map_app, list_sum_app, IH. reflexivity.
Qed.
Lemma lit_bin_le {V} (l : lit V) : bin_size (lit_bin l) <= written l.
Proof.
  induction l as [|v cs IH] using lit_ind'; [cbn; lia|]. rewrite written_cons.
  destruct cs as [|c1 [|c2 cs]]; cbn [lit_bin bin_size map].
  - cbn. lia.
  - inversion IH as [|? ? H1 _]; subst. cbn. lia.
  - inversion IH as [|? ? H1 H2]; subst. inversion H2 as [|? ? H3 _]; subst. cbn. lia.
Qed.
Lemma written_rest {V} (rest : list (lit V)) : existsb not_empty rest = true -> 0 < list_sum (map written rest).
Proof.
  induction rest as [|c rest IH]; [discriminate|]. cbn [existsb map]. intros H.
  change (0 < written c + list_sum (map written rest)). destruct c as [|v cs].
  - cbn in H. specialize (IH H). lia.
  - rewrite written_cons. lia.
Qed.
Lemma rest_rose {V} (rest : list (lit V)) : existsb not_empty rest = true -> 0 < length (flat_map lit_rose rest).
Proof.
  induction rest as [|c rest IH]; [discriminate|]. cbn [existsb flat_map]. intros H. rewrite app_length.
  destruct c as [|v cs]; [cbn in H; specialize (IH H); lia|]. cbn [lit_rose length]. lia.
Qed.

Section Slots.
  Context {V : Type} {EV : EqDecision V}.
  Variable al : allocator (bnode V).

  Lemma build_any (w : world (bnode V)) M i v cs :
    consistent (binary_kind V) w M -> M !! i = None ->
    exists w' t a, construct_struct (binary_impl V) al w i (eval_lit (LNode v cs)) = Ok w' /\
      consistent (binary_kind V) w' (<[i := t]> M) /\ bin_map snd t = lit_bin (LNode v cs) /\ baddr t = Some a /\
      w_trees w' = <[i := TreeRec (Some a) (N.of_nat (written (LNode v cs))) (subtree_arity (eval_lit (LNode v cs))) (Some a)]> (w_trees w) /\
      (forall x, x ∈ baddrs t -> w_heap w !! x = None).
  Proof.
    intros H Hi. pose proof (kind_is_ok 0 al (binary_tree_kind V EV)) as KO.
    apply (to_holds 0 _ al _ (binary_tree_kind V EV) ltac:(vm_compute; discriminate)) in H.
    destruct (b_from_struct_ok al v cs (w_heap w)) as (a & h' & t & Hc & Hr & Hv & Hb).
    unfold construct_struct. change (ni_from_struct (binary_impl V) al (w_heap w) (eval_lit (LNode v cs))) with
      (b_from_struct al (w_heap w) (eval_lit (LNode v cs))). rewrite Hc. cbn [mbind res_bind].
    eexists _, t, a. split; [reflexivity|].
    rewrite (subtree_size_ok _ _ _ (reads_eval (LNode v cs))). fold (written (LNode v cs)).
    split; [|split; [exact Hv|split; [exact Hr|split; [reflexivity|apply Hb]]]].
    apply (to_holds 0 _ al _ (binary_tree_kind V EV) ltac:(vm_compute; discriminate)).
    rewrite <- Hr. change (baddr t) with (croot (binary_kind V) t). eapply holds_new; [|exact Hi].
    eapply holds_alloc; [exact KO|exact H|apply kb_built, Hb].
  Qed.
End Slots.

(** What holds: the binary tree of the first two arguments of each node is built,
    properly linked; size() is the number of values written in the literal. *)
Theorem C64_build_partial :
  forall (V : Type) (EV : EqDecision V) (F : nat) (al : allocator (bnode V)) (w : world (bnode V)) (M : gmap tid (bin (addr * V))) (i : tid) (v : V) (cs : list (lit V)),
  consistent (binary_kind V) w M -> M !! i = None ->
  exists w' t, construct_struct (binary_impl V) al w i (eval_lit (LNode v cs)) = Ok w' /\
    consistent (binary_kind V) w' (<[i := t]> M) /\ bin_map snd t = lit_bin (LNode v cs) /\
    (exists w2, tree_size F (binary_impl V) w' i = Ok (N.of_nat (written (LNode v cs)), w2)) /\
    (forall x, x ∈ baddrs t -> w_heap w !! x = None) /\ (forall k, k <> i -> w_trees w' !! k = w_trees w !! k).
Proof.
  intros V EV F al w M i v cs H Hi. destruct (build_any al w M i v cs H Hi) as (w' & t & a & E & H' & Hv & Ha & Ht & Hf).
  exists w', t. split; [exact E|]. split; [exact H'|]. split; [exact Hv|]. split; [|split; [exact Hf|]].
  - eexists. unfold tree_size, get_tree. rewrite Ht, lookup_insert. cbn [mbind res_bind]. unfold size_of. cbn [t_size t_root].
    rewrite written_cons. destruct (N.eqb_spec (N.of_nat (S (list_sum (map written cs)))) 0) as [Hz|_]; [lia|].
    cbn. reflexivity.
  - intros k Hk. rewrite Ht. apply lookup_insert_ne. congruence.
Qed.
Print Assumptions C64_build_partial.

(** A third argument that is not [n()] gets no node, but it is counted. *)
Theorem C64_size_refuted :
  forall (V : Type) (EV : EqDecision V) (F : nat) (al : allocator (bnode V)) (w : world (bnode V)) (M : gmap tid (bin (addr * V))) (i : tid)
    (v : V) (c1 c2 : lit V) (rest : list (lit V)),
  consistent (binary_kind V) w M -> M !! i = None -> existsb not_empty rest = true ->
  exists w' t s w2, construct_struct (binary_impl V) al w i (eval_lit (LNode v (c1 :: c2 :: rest))) = Ok w' /\
    consistent (binary_kind V) w' (<[i := t]> M) /\ bin_map snd t = BNode v (lit_bin c1) (lit_bin c2) /\
    tree_size F (binary_impl V) w' i = Ok (s, w2) /\ (N.of_nat (bin_size t) < s)%N.
Proof.
  intros V EV F al w M i v c1 c2 rest H Hi Hr.
  destruct (C64_build_partial V EV F al w M i v (c1 :: c2 :: rest) H Hi) as (w' & t & E & H' & Hv & (w2 & Hs) & _).
  eexists w', t, _, w2. split; [exact E|]. split; [exact H'|]. split; [exact Hv|]. split; [exact Hs|].
  rewrite <- (bin_size_map snd t), Hv, written_cons. cbn [lit_bin bin_size map].
  change (list_sum (written c1 :: written c2 :: map written rest)) with (written c1 + (written c2 + list_sum (map written rest))).
  pose proof (lit_bin_le c1). pose proof (lit_bin_le c2). pose proof (written_rest rest Hr). lia.
Qed.
Print Assumptions C64_size_refuted.

(** The tree built from such a literal does not compare equal to it. *)
Theorem C64_unequal_refuted :
  forall (V : Type) (EV : EqDecision V) (F : nat) (al : allocator (bnode V)) (w : world (bnode V)) (M : gmap tid (bin (addr * V))) (i : tid)
    (v : V) (c1 c2 : lit V) (rest : list (lit V)),
  consistent (binary_kind V) w M -> M !! i = None -> existsb not_empty rest = true ->
  exists w' w2, construct_struct (binary_impl V) al w i (eval_lit (LNode v (c1 :: c2 :: rest))) = Ok w' /\
    tree_eq_struct F (binary_impl V) w' i (eval_lit (LNode v (c1 :: c2 :: rest))) = Ok (false, w2).
Proof.
  intros V EV F al w M i v c1 c2 rest H Hi Hr.
  destruct (build_any al w M i v (c1 :: c2 :: rest) H Hi) as (w' & t & a & E & H' & Hv & Ha & Ht & Hf).
  set (lt := LNode v (c1 :: c2 :: rest)) in *.
  assert (Hrd : reads (eval_lit lt) [lt]) by apply reads_eval.
  assert (Hget : get_tree w' i = Ok (TreeRec (Some a) (N.of_nat (written lt)) (subtree_arity (eval_lit lt)) (Some a))).
  { unfold get_tree. rewrite Ht, lookup_insert. reflexivity. }
  assert (Hpos : (N.of_nat (written lt) =? 0)%N = false).
  { unfold lt. rewrite written_cons. apply N.eqb_neq. lia. }
  assert (Hapos : (subtree_arity (eval_lit lt) =? 0)%N = false).
  { rewrite (subtree_arity_ok _ _ _ Hrd). unfold lt. cbn [lit_rose map rarity list_max foldr].
    pose proof (rest_rose rest Hr). apply N.eqb_neq. cbn [flat_map]. rewrite !app_length. lia. }
  exists w'. unfold tree_eq_struct. rewrite Hget. cbn [mbind res_bind].
  assert (is_empty_node (eval_lit lt) = false) as -> by reflexivity.
  unfold tree_size at 1. rewrite Hget. cbn [mbind res_bind]. unfold size_of. cbn [t_size t_root]. rewrite Hpos, andb_false_r.
  cbn [mbind res_bind]. rewrite (subtree_size_ok _ _ _ Hrd). fold (written lt). rewrite N.eqb_refl. cbn [negb].
  unfold tree_arity, get_tree. cbn [w_trees set_tree]. rewrite lookup_insert. cbn [mbind res_bind].
  unfold arity_of. cbn [t_arity t_root]. rewrite Hapos, andb_false_r. cbn [mbind res_bind]. rewrite N.eqb_refl. cbn [negb t_root].
  change (w_heap (set_tree (set_tree w' i _) i _)) with (w_heap w').
  assert (Hb : b_eq_struct (w_heap w') (Some a) (eval_lit lt) = Ok false).
  { assert (Hrep : crep (binary_kind V) (w_heap w') t).
    { eapply (wo_tree _ _ _ _ _ H'); rewrite ?Ht; apply lookup_insert. }
    destruct Hrep as [Hrep _]. destruct t as [|[x u] l r]; [discriminate|]. cbn [brep] in Hrep. destruct Hrep as (Hx & _ & _).
    cbn in Ha. injection Ha as ->. cbn in Hv. injection Hv as -> Hl Hrr.
    destruct (eval_lit lt) as [|[v'|] lv ix fc ns] eqn:El; [destruct Hrd| |destruct Hrd].
    cbn [b_eq_struct]. rewrite !(deref_Some _ _ _ Hx). cbn [mbind res_bind].
    destruct (2 <? _)%N; [reflexivity|]. cbn [bval].
    destruct (negb (bool_decide _)); [reflexivity|]. unfold b_children. rewrite (deref_Some _ _ _ Hx). cbn [mbind res_bind bleft bright].
    rewrite (s_children_ok _ _ _ _ Hrd), count_slots, Hl, Hrr.
    assert ((N.of_nat (length (bin_forest (lit_bin c1)) + length (bin_forest (lit_bin c2))) =?
             N.of_nat (length (flat_map lit_rose (c1 :: c2 :: rest))))%N = false) as ->.
    { apply N.eqb_neq. pose proof (rest_rose rest Hr). cbn [flat_map]. rewrite !app_length.
      assert (Hlb : forall c : lit V, length (bin_forest (lit_bin c)) = length (lit_rose c)) by (intros [|? [|? [|? ?]]]; reflexivity).
      rewrite !Hlb. lia. }
    rewrite orb_true_r. reflexivity. }
  change (ni_eq_struct (binary_impl V)) with (b_eq_struct (V := V)). rewrite Hb. cbn. eexists. split; [exact E|reflexivity].
Qed.
Print Assumptions C64_unequal_refuted.

(** A tree compares equal to a literal it is not: the right child is not looked
    at when the second argument is [n()] and the third is not. *)
Theorem C64_wrong_equal_refuted :
  forall (V : Type) (EV : EqDecision V) (F : nat) (w : world (bnode V)) (M : gmap tid (bin (addr * V))) (i : tid) (t : bin (addr * V))
    (v a b x : V),
  (N.of_nat F <= W64)%N ->
  consistent (binary_kind V) w M -> caches (binary_kind V) w M -> M !! i = Some t -> size (w_heap w) < F ->
  bin_map snd t = BNode v (BNode a BLeaf BLeaf) (BNode x BLeaf BLeaf) ->
  accepted (LNode v [LNode a []; LEmpty; LNode b []]) /\
  lit_bin (LNode v [LNode a []; LEmpty; LNode b []]) = BNode v (BNode a BLeaf BLeaf) BLeaf /\
  exists w', tree_eq_struct F (binary_impl V) w i (eval_lit (LNode v [LNode a []; LEmpty; LNode b []])) = Ok (true, w').
Proof.
  intros V EV F w M i t v a b x HFW H Hc Hi HF Hv. split; [cbn; lia|]. split; [reflexivity|].
  pose proof (kind_is_ok F (first_fit _) (binary_tree_kind V EV)) as KO.
  apply (to_holds F _ (first_fit _) _ (binary_tree_kind V EV) HFW) in H.
  destruct (tree_get F _ (first_fit _) _ (binary_tree_kind V EV) HFW w M i H ltac:(eexists; exact Hi)) as (c0 & tr & Hc0 & Htr & L).
  assert (Ec : Some t = Some c0) by exact (eq_trans (eq_sym Hi) Hc0). injection Ec as <-. clear Hc0.
  destruct t as [|[pa ?] [|[pl ?] [|[? ?] ? ?] [|[? ?] ? ?]] [|[pr ?] [|[? ?] ? ?] [|[? ?] ? ?]]]; try discriminate.
  cbn in Hv. injection Hv as -> -> ->.
  set (t := BNode (pa, v) (BNode (pl, a) BLeaf BLeaf) (BNode (pr, x) BLeaf BLeaf)) in *.
  destruct (holds_get _ _ _ _ _ _ _ _ H Hi) as (ta & _ & Hga & Hra & _).
  unfold tree_eq_struct. rewrite Hga. cbn [mbind res_bind].
  change (is_empty_node _) with false. cbv iota.
  destruct (size_step F _ (first_fit _) _ KO HFW w M [] i t H Hc Hi ltac:(lia)) as (w1 & -> & H1 & Hc1 & Hh1 & _). cbn [mbind res_bind].
  change (negb (N.of_nat (length (caddrs (binary_kind V) t)) =? subtree_size (eval_lit (LNode v [LNode a []; LEmpty; LNode b []])))%N) with false.
  cbv iota.
  destruct (arity_step F _ (first_fit _) _ KO HFW w1 M [] i t H1 Hc1 Hi ltac:(lia)) as (w2 & -> & H2 & Hc2 & Hh2 & _). cbn [mbind res_bind].
  change (negb (N.of_nat (carity (binary_kind V) t) =? subtree_arity (eval_lit (LNode v [LNode a []; LEmpty; LNode b []])))%N) with false.
  cbv iota. rewrite Hra. change (croot (binary_kind V) t) with (Some pa). cbv iota.
  change (ni_eq_struct (binary_impl V)) with (b_eq_struct (V := V)).
  assert (Hrep : crep (binary_kind V) (w_heap w2) t) by (eapply holds_rep; eassumption).
  destruct Hrep as [Hrep _]. cbn in Hrep. destruct Hrep as (X1 & (X2 & _ & _) & (X3 & _ & _)).
  exists w2. cbn -[deref]. rewrite !(deref_Some _ _ _ X1). cbn -[deref]. rewrite bool_decide_eq_true_2 by reflexivity. cbn -[deref].
  unfold b_children. rewrite !(deref_Some _ _ _ X1). cbn -[deref].
  change (2 <? _)%N with false. change (negb (1 + 1 =? 0 + 1 + 1)%N) with false. cbv iota.
  rewrite !(deref_Some _ _ _ X2). cbn -[deref].
  rewrite bool_decide_eq_true_2 by reflexivity. cbn -[deref]. rewrite ?(deref_Some _ _ _ X2). reflexivity.
Qed.
Print Assumptions C64_wrong_equal_refuted.

(** Cases: [n(1)(n(2), n(), n(3))] as third tree of [ex_bw]; a tree [1(2, 9)]. *)
Example C64_used : accepted (LNode 1 [LNode 2 []; LEmpty; LNode 3 []]) /\ exists w' t s w2,
  construct_struct (binary_impl nat) (first_fit _) ex_bw 3%positive (eval_lit (LNode 1 [LNode 2 []; LEmpty; LNode 3 []])) = Ok w' /\
  consistent (binary_kind nat) w' (<[3%positive := t]> ex_bM) /\ bin_map snd t = BNode 1 (BNode 2 BLeaf BLeaf) BLeaf /\
  tree_size 100 (binary_impl nat) w' 3%positive = Ok (s, w2) /\ (N.of_nat (bin_size t) < s)%N.
Proof.
  split; [cbn; lia|].
  exact (C64_size_refuted nat _ 100 (first_fit _) ex_bw ex_bM 3%positive 1 (LNode 2 []) LEmpty [LNode 3 []] ex_bw_ok eq_refl eq_refl).
Qed.
Example C64_used_equal :
  match construct_struct (binary_impl nat) (first_fit _) ex_bw 3%positive (eval_lit (LNode 1 [LNode 2 []; LNode 9 []])) with
  | Ok w' => match tree_eq_struct 100 (binary_impl nat) w' 3%positive (eval_lit (LNode 1 [LNode 2 []; LEmpty; LNode 3 []])) with
             | Ok (true, _) => true | _ => false end
  | _ => false
  end = true.
Proof. vm_compute. reflexivity. Qed.
