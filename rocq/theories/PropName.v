(** PropName.v: captures with names (C60, C61).

    A pattern [u] is written with named captures ([wpat], Names.v); [unname u] is the
    pattern without the names (as in C48, C50), [wtype u NTNil] what the compiler
    knows about the names.  [names u] are the names from left to right, and
    [mark_of u a n s b] says that the matcher [s] of [u] is marked [n] and took the
    nodes [b] (NameSpec.v). *)
From Verif Require Import Base Spec MatchSpec StructNode BinaryNode NaryNode Nav Policy Tree Rep
  BinRep NaryRep Iter IterTrees EditSpec User World Kinds TreeSpec TreeOps TreeFacts
  Matcher Star StarSpec StarResultSpec StarMain PropStarResult Names NameSpec NameFacts Examples Examples2.
From Coq Require Import String.

(** How often a name is used. *)
Definition uses (n : string) (l : list string) : nat := List.length (List.filter (fun m => bool_decide (m = n)) l).

(** *** C60: assign_mark with a name that is used once gives the result of the
    matcher marked with that name. *)
Theorem C60_name_nary :
  forall (V : Type) (EV : EqDecision V) (F : nat) (al : allocator (nnode V)), (N.of_nat F <= W64)%N ->
  forall (w : world (nnode V)) (M : gmap tid (option (rose (addr * V)))) (i j : tid) (c : option (rose (addr * V)))
    (h : gmap addr (nnode V)) (t0 t : rose (addr * V)) (u : wpat V) (x x' : xpattern),
  consistent (nary_kind V) w M -> size (w_heap w) < F -> M !! i = Some c -> M !! j = Some (Some t0) -> rsubtree t t0 ->
  ssolid (unname u) -> lone (unname u) -> xp_pat x = xbuild (unname u) XNil ->
  nary_in h t -> xsearch F (nary_impl V) x h (Some (raddr t)) = Ok (true, x') ->
  exists a, smatch snd (unname u) t a /\
    forall n, n <> ""%string -> uses n (names u) = 1 ->
    exists s b m w1 c1, mark_of u a n s b /\ smatch snd s (at_node b) b /\ rsubtree (at_node b) t /\ sresult snd s b m /\
      assign_name F (nary_impl V) al (n_assign_child_like F) (wtype u NTNil) x' n w i = Ret () w1 /\
      consistent (nary_kind V) w1 (<[i := c1]> M) /\ nvals c1 = Some (rose_map snd m) /\
      (forall z, z ∈ naddrs c1 -> w_heap w !! z = None).
Proof.
  intros V EV F al HFW w M i j c h t0 t u x x' Hw HF Hi Hj Hs Hp Hl Hx Hh Hsearch.
  destruct (C50_result_nary V EV F al HFW w M i j c h t0 t (unname u) x x' Hw HF Hi Hj Hs Hp Hl Hx Hh Hsearch)
    as (a & m & w' & c' & Ha & _ & _ & _ & _ & _ & _ & Hmarks).
  exists a. split; [exact Ha|]. intros n Hn Hu. pose proof (smatch_fits snd u t a Ha) as Hf.
  assert (Hin : n ∈ names u).
  { unfold uses in Hu. destruct (List.filter (fun m => bool_decide (m = n)) (names u)) as [|y l] eqn:E; [discriminate|].
    assert (In y (List.filter (fun m => bool_decide (m = n)) (names u))) as Hy by (rewrite E; left; reflexivity).
    apply filter_In in Hy as [Hy Ey]. apply bool_decide_eq_true_1 in Ey as ->. apply elem_of_list_In, Hy. }
  destruct (name_marked u a n Hf Hin) as (s & b & Hm). destruct (mark_nth u a n s b Hm Hf) as (k & E1 & E2).
  destruct (Hmarks k s b E2) as (m1 & w1 & c1 & Hm1 & Hs1 & Hr1 & Ea & Hw1 & Hv & Hfr & _).
  exists s, b, m1, w1, c1. split; [exact Hm|]. split; [exact Hm1|]. split; [exact Hs1|]. split; [exact Hr1|].
  split; [|split; [exact Hw1|split; [exact Hv|exact Hfr]]].
  unfold assign_name. rewrite captures_wtype, bool_decide_eq_false_2 by exact Hn.
  rewrite (proj2 (index_valid n (names u)) Hin), (once_nth n (names u) k Hu E1). exact Ea.
Qed.
Print Assumptions C60_name_nary.

Theorem C60_name_binary :
  forall (V : Type) (EV : EqDecision V) (F : nat) (al : allocator (bnode V)), (N.of_nat F <= W64)%N ->
  forall (w : world (bnode V)) (M : gmap tid (bin (addr * V))) (i j : tid) (c : bin (addr * V))
    (h : gmap addr (bnode V)) (t0 t : bin (addr * V)) (r : rose (addr * V)) (u : wpat V) (x x' : xpattern),
  consistent (binary_kind V) w M -> size (w_heap w) < F -> M !! i = Some c -> M !! j = Some t0 -> bsubtree t t0 ->
  bin_forest t = [r] -> ssolid (unname u) -> lone (unname u) -> xp_pat x = xbuild (unname u) XNil ->
  bin_in h t -> xsearch F (binary_impl V) x h (baddr t) = Ok (true, x') ->
  exists a, smatch snd (unname u) r a /\
    forall n, n <> ""%string -> uses n (names u) = 1 ->
    exists s b m b1 t1 w1 c1, mark_of u a n s b /\ smatch snd s (at_node b) b /\ bsubtree t1 t /\ bin_forest t1 = [at_node b] /\ sresult snd s b m /\
      bin_forest b1 = [m] /\ cut_of b1 t1 /\
      assign_name F (binary_impl V) al b_assign_child_like (wtype u NTNil) x' n w i = Ret () w1 /\
      consistent (binary_kind V) w1 (<[i := c1]> M) /\ bin_map snd c1 = bin_map snd b1 /\
      (forall z, z ∈ baddrs c1 -> w_heap w !! z = None).
Proof.
  intros V EV F al HFW w M i j c h t0 t r u x x' Hw HF Hi Hj Hs Ht Hp Hl Hx Hh Hsearch.
  destruct (C50_result_binary V EV F al HFW w M i j c h t0 t r (unname u) x x' Hw HF Hi Hj Hs Ht Hp Hl Hx Hh Hsearch)
    as (a & m & b0 & w' & c' & Ha & _ & _ & _ & _ & _ & _ & _ & _ & Hmarks).
  exists a. split; [exact Ha|]. intros n Hn Hu. pose proof (smatch_fits snd u r a Ha) as Hf.
  assert (Hin : n ∈ names u).
  { unfold uses in Hu. destruct (List.filter (fun m => bool_decide (m = n)) (names u)) as [|y l] eqn:E; [discriminate|].
    assert (In y (List.filter (fun m => bool_decide (m = n)) (names u))) as Hy by (rewrite E; left; reflexivity).
    apply filter_In in Hy as [Hy Ey]. apply bool_decide_eq_true_1 in Ey as ->. apply elem_of_list_In, Hy. }
  destruct (name_marked u a n Hf Hin) as (s & b & Hm). destruct (mark_nth u a n s b Hm Hf) as (k & E1 & E2).
  destruct (Hmarks k s b E2) as (m1 & b1 & t1 & w1 & c1 & Hm1 & Hs1 & Ht1 & Hr1 & Hb1 & Hc1 & Ea & Hw1 & Hv & Hfr & _).
  exists s, b, m1, b1, t1, w1, c1. split; [exact Hm|]. split; [exact Hm1|]. split; [exact Hs1|]. split; [exact Ht1|]. split; [exact Hr1|].
  split; [exact Hb1|]. split; [exact Hc1|]. split; [|split; [exact Hw1|split; [exact Hv|exact Hfr]]].
  unfold assign_name. rewrite captures_wtype, bool_decide_eq_false_2 by exact Hn.
  rewrite (proj2 (index_valid n (names u)) Hin), (once_nth n (names u) k Hu E1). exact Ea.
Qed.
Print Assumptions C60_name_binary.

(** A name that is not in the pattern, or an empty one, does not compile; every
    other one does. *)
Theorem C60_unknown :
  forall (V Nd : Type) (F : nat) (im : node_impl V Nd) (al : allocator Nd) like (u : wpat V) (x : xpattern) (n : string) (w : world Nd) (i : tid),
  (n ∉ names u \/ n = ""%string -> assign_name F im al like (wtype u NTNil) x n w i = Bad AssertFail) /\
  (n ∈ names u -> n <> ""%string -> exists k, nth_error (names u) k = Some n /\
     assign_name F im al like (wtype u NTNil) x n w i = xassign_mark F im al like x (S k) w i).
Proof.
  intros. unfold assign_name. rewrite captures_wtype. split.
  - intros [Hn|Hn].
    + destruct (is_valid_name n (names u)) eqn:E; [apply index_valid in E; contradiction|]. rewrite orb_true_r. reflexivity.
    + rewrite bool_decide_eq_true_2 by exact Hn. reflexivity.
  - intros Hn Hne. exists (index_of_capture n (names u)). rewrite bool_decide_eq_false_2 by exact Hne.
    rewrite (proj2 (index_valid n (names u)) Hn). split; [|reflexivity].
    clear -Hn. induction (names u) as [|m l IH]; [apply elem_of_nil in Hn as []|]. cbn. destruct (decide (n = m)) as [->|H]; [reflexivity|].
    apply elem_of_cons in Hn as [Hn|Hn]; [contradiction|]. exact (IH Hn).
Qed.
Print Assumptions C60_unknown.

(** *** C61: "named captures must have unique names" is not enforced.  Two captures
    next to each other may have the same name, and so may a capture without a next
    sibling and one inside it; the name then means the first one. *)
Theorem C61_siblings_refuted :
  forall (V Nd : Type) (F : nat) (im : node_impl V Nd) (al : allocator Nd) like (vm : V -> bool) (p r : wpat V) (n : string) (x : xpattern) (w : world Nd) (i : tid),
  n <> ""%string -> n ∉ names p -> compiles (wtype p NTNil) = true -> compiles (wtype r NTNil) = true ->
  let u := WOne vm [WCpt n p; WCpt n r] in
  compiles (wtype u NTNil) = true /\ uses n (names u) >= 2 /\
  assign_name F im al like (wtype u NTNil) x n w i = xassign_mark F im al like x 1 w i.
Proof.
  intros V Nd F im al like vm p r n x w i Hn Hnp Hp Hr u. split; [|split].
  - subst u. cbn [wtype foldr compiles]. rewrite Hp, Hr. cbn [negb andb].
    assert (is_valid_name n (children_captures (wtype p NTNil) (NT (Some n) (wtype r NTNil) NTNil)) = false) as ->.
    { destruct (is_valid_name _ _) eqn:E; [|reflexivity]. apply index_valid in E. exfalso. apply Hnp. unfold children_captures in E.
      destruct (wtype p NTNil) eqn:Ep; [apply elem_of_nil in E as []|]. rewrite <- Ep, captures_wtype in E. exact E. }
    assert (is_valid_name n (children_captures (wtype r NTNil) NTNil) = false) as ->.
    { destruct (is_valid_name _ _) eqn:E; [|reflexivity]. apply index_valid in E. unfold children_captures in E. destruct (wtype r NTNil); apply elem_of_nil in E as []. }
    rewrite !andb_false_r. reflexivity.
  - subst u. unfold uses. cbn [names flat_map]. rewrite app_nil_r. cbn [List.filter List.app]. rewrite bool_decide_eq_true_2 by reflexivity.
    cbn [List.length]. rewrite List.filter_app, app_length. cbn [List.filter]. rewrite bool_decide_eq_true_2 by reflexivity. cbn [List.length]. lia.
  - unfold assign_name. rewrite captures_wtype, bool_decide_eq_false_2 by exact Hn.
    rewrite (proj2 (index_valid n (names u))) by (subst u; cbn; left). subst u. cbn. rewrite decide_True by reflexivity. reflexivity.
Qed.
Print Assumptions C61_siblings_refuted.
Theorem C61_nested_refuted :
  forall (V Nd : Type) (F : nat) (im : node_impl V Nd) (al : allocator Nd) like (p : wpat V) (n : string) (x : xpattern) (w : world Nd) (i : tid),
  n <> ""%string -> n ∈ names p -> compiles (wtype p NTNil) = true ->
  let u := WCpt n p in
  compiles (wtype u NTNil) = true /\ uses n (names u) >= 2 /\
  assign_name F im al like (wtype u NTNil) x n w i = xassign_mark F im al like x 1 w i.
Proof.
  intros V Nd F im al like p n x w i Hn Hin Hp u. split; [|split].
  - subst u. cbn [wtype compiles]. rewrite Hp.
    assert (children_captures (wtype p NTNil) NTNil = []) as -> by (unfold children_captures; destruct (wtype p NTNil); reflexivity).
    cbn. rewrite andb_false_r. reflexivity.
  - subst u. unfold uses. cbn [names List.filter]. rewrite bool_decide_eq_true_2 by reflexivity. cbn [List.length].
    assert (In n (List.filter (fun m => bool_decide (m = n)) (names p))) as H.
    { apply filter_In. split; [apply elem_of_list_In, Hin|apply bool_decide_eq_true_2; reflexivity]. }
    destruct (List.filter _ _); [destruct H|cbn; lia].
  - unfold assign_name. rewrite captures_wtype, bool_decide_eq_false_2 by exact Hn.
    rewrite (proj2 (index_valid n (names u))) by (subst u; cbn; left). subst u. cbn. rewrite decide_True by reflexivity. reflexivity.
Qed.
Print Assumptions C61_nested_refuted.
(** What is true: a pattern with no repeated name compiles; a repeated name is
    rejected inside a capture that has a next sibling. *)
Theorem C61_enforced_partial :
  forall (V : Type),
  (forall u : wpat V, (forall n, n <> ""%string -> uses n (names u) <= 1) -> compiles (wtype u NTNil) = true) /\
  (forall (vm : V -> bool) (l : list (wpat V)) (n : string) (p r : wpat V) (rs : list (wpat V)),
     n <> ""%string -> n ∈ names p -> compiles (wtype (WOne vm (l ++ WCpt n p :: r :: rs)) NTNil) = false).
Proof.
  intros V. split.
  - assert (Hadd : forall n l1 l2, uses n (l1 ++ l2) = uses n l1 + uses n l2) by (intros n l1 l2; unfold uses; rewrite List.filter_app, app_length; reflexivity).
    assert (Hin : forall n l, n ∈ l -> 1 <= uses n l).
    { intros n l H. unfold uses. assert (In n (List.filter (fun m => bool_decide (m = n)) l)) as Hf.
      { apply filter_In. split; [apply elem_of_list_In, H|apply bool_decide_eq_true_2; reflexivity]. }
      destruct (List.filter _ _); [destruct Hf|cbn; lia]. }
    assert (Hgen : forall ty, (forall n, n <> ""%string -> uses n (flat_names ty) <= 1) -> compiles ty = true).
    { induction ty as [|o fc IH1 ns IH2]; intros H; [reflexivity|]. cbn [compiles]. rewrite IH1, IH2.
      - rewrite !andb_true_r. destruct o as [n|]; [|reflexivity]. destruct (decide (n = ""%string)) as [->|Hn]; [rewrite bool_decide_eq_true_2 by reflexivity; reflexivity|].
        rewrite bool_decide_eq_false_2 by exact Hn. cbn [negb andb].
        destruct (is_valid_name n (children_captures fc ns)) eqn:E; [|reflexivity]. exfalso. apply index_valid in E.
        assert (E2 : n ∈ flat_names fc).
        { unfold children_captures in E. rewrite captures_flat in E. destruct fc; [apply elem_of_nil in E as []|]. destruct ns; [apply elem_of_nil in E as []|exact E]. }
        apply Hin in E2. specialize (H n Hn). cbn [flat_names] in H. rewrite !Hadd in H. unfold uses at 1 in H. cbn in H. rewrite bool_decide_eq_true_2 in H by reflexivity. cbn in H. lia.
      - intros n Hn. specialize (H n Hn). cbn [flat_names] in H. rewrite !Hadd in H. lia.
      - intros n Hn. specialize (H n Hn). cbn [flat_names] in H. rewrite !Hadd in H. lia. }
    intros u H. apply Hgen. intros n Hn. rewrite flat_wtype. cbn. rewrite app_nil_r. apply H, Hn.
  - intros vm l n p r rs Hn Hin. cbn [wtype compiles]. cbn [negb andb]. rewrite andb_true_r.
    induction l as [|c l IH].
    + cbn [List.app foldr]. cbn [wtype compiles]. rewrite bool_decide_eq_false_2 by exact Hn.
      assert (is_valid_name n (children_captures (wtype p NTNil) (wtype r (foldr wtype NTNil rs))) = true) as ->; [|reflexivity].
      apply index_valid. unfold children_captures. destruct (wtype p NTNil) eqn:Ep; [destruct p; discriminate|]. rewrite <- Ep.
      destruct (wtype r _) eqn:Er; [destruct r; discriminate|]. rewrite captures_wtype. exact Hin.
    + cbn [List.app foldr]. destruct c; cbn [wtype compiles]; rewrite IH; apply andb_false_r.
Qed.
Print Assumptions C61_enforced_partial.

(** *** Cases met: one(10)(cpt("a", one(20)), cpt("b", one(30)(cpt("c", one(60))))). *)
Definition ex_named : wpat nat :=
  WOne (fun v => v =? 10) [WCpt "a" (WOne (fun v => v =? 20) []); WCpt "b" (WOne (fun v => v =? 30) [WCpt "c" (WOne (fun v => v =? 60) [])])].
Example C60_used : exists a s b m w1 c1, smatch snd (unname ex_named) ex_nary a /\ mark_of ex_named a "b" s b /\ sresult snd s b m /\
  assign_name 100 (nary_impl nat) (first_fit _) (n_assign_child_like 100) (wtype ex_named NTNil)
    (match xsearch 100 (nary_impl nat) (make_xpattern (xbuild (unname ex_named) XNil)) ex_nheap (Some 1%positive) with Ok (_, x) => x | Err _ => make_xpattern XNil end) "b" ex_nw 2%positive = Ret () w1 /\
  consistent (nary_kind nat) w1 (<[2%positive := c1]> ex_nM) /\ nvals c1 = Some (rose_map snd m).
Proof.
  destruct (xsearch 100 (nary_impl nat) (make_xpattern (xbuild (unname ex_named) XNil)) ex_nheap (Some 1%positive)) as [[b x]|] eqn:E; [|vm_compute in E; discriminate].
  assert (b = true) as -> by (vm_compute in E; congruence).
  destruct (C60_name_nary nat _ 100 (first_fit _) ex_word ex_nw ex_nM 2%positive 1%positive (Some (Rose (7%positive, 70) [])) ex_nheap ex_nary ex_nary ex_named
    (make_xpattern (xbuild (unname ex_named) XNil)) x ex_nw_ok ltac:(pose proof ex_fuel; lia) eq_refl eq_refl (rsub_here _) ltac:(vm_compute; repeat split; congruence) ltac:(cbn; repeat split) eq_refl ex_nary_in E)
    as (a & Ha & H).
  destruct (H "b"%string) as (s & b & m & w1 & c1 & H1 & _ & _ & H2 & H3 & H4 & H5 & _); [discriminate|reflexivity|].
  exists a, s, b, m, w1, c1. auto 10.
Qed.
Example C61_used : let u := WOne (fun v => v =? 10) [WCpt "a" (WOne (fun v => v =? 20) []); WCpt "a" (WOne (fun v => v =? 30) [])] in
  compiles (wtype u NTNil) = true /\ uses "a" (names u) >= 2.
Proof.
  destruct (C61_siblings_refuted nat (nnode nat) 100 (nary_impl nat) (first_fit _) (n_assign_child_like 100) (fun v => v =? 10) (WOne (fun v => v =? 20) []) (WOne (fun v => v =? 30) []) "a"
    (make_xpattern XNil) ex_nw 1%positive) as (H1 & H2 & _); try discriminate; try reflexivity; [cbn; apply not_elem_of_nil|]. split; assumption.
Qed.
