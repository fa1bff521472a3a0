(** PropLeafLaw.v: C15, what a leaves iterator does under any sequence of ++ and --. *)
From Verif Require Import Base Spec EditSpec StructNode BinaryNode NaryNode Nav Policy Tree Rep User IterTrees IterMain NodeFacts LeafIter LeafStay StarMain LeafLaw LeafLawFacts Examples.

(** For every tree and every sequence of moves from begin that LeafLaw.v allows
    (all of them, except [--] at the first leaf), the iterator is where LeafLaw.v
    says. *)
Theorem C15_law_nary :
  forall (V : Type) (EV : EqDecision V) (F : nat) (h : gmap addr (nnode V)) (t : rose (addr * V)) (ms : list bool) (st : leaf_state (addr * V)),
  nary_in h t -> rsize t < F -> leaf_moves t ms (leaf_begin t) st ->
  exists b it, tree_begin F (tree_nav (nary_impl V) h) Leaves (Some (raddr t)) = Ok b /\ run F (nary_impl V) h ms b = Ok it /\
    it_cur it = option_map fst (fst st).
Proof. intros V EV F h t ms st Ht HF. apply law_ok, nary_seen; assumption. Qed.
Print Assumptions C15_law_nary.
Theorem C15_law_binary :
  forall (V : Type) (EV : EqDecision V) (F : nat) (h : gmap addr (bnode V)) (c : bin (addr * V)) (t : rose (addr * V)) (ms : list bool) (st : leaf_state (addr * V)),
  bin_in h c -> bin_size c < F -> bin_forest c = [t] -> leaf_moves t ms (leaf_begin t) st ->
  exists b it, tree_begin F (tree_nav (binary_impl V) h) Leaves (baddr c) = Ok b /\ run F (binary_impl V) h ms b = Ok it /\
    it_cur it = option_map fst (fst st).
Proof. intros V EV F h c t ms st Hc HF Ht. rewrite (bin_root c t Ht). apply law_ok. apply (bin_seen F h c t Hc HF Ht). Qed.
Print Assumptions C15_law_binary.
(** The specification allows every other move, and stays in the tree. *)
Theorem C15_law_possible :
  forall (A : Type) (t : rose A) (ms : list bool) (st : leaf_state A), leaf_moves t ms (leaf_begin t) st ->
  (forall a, fst st = Some a \/ a ∈ snd st -> a ∈ leaves t) /\
  (exists st', leaf_move t true st st') /\
  (fst st <> head (leaves t) -> exists st', leaf_move t false st st').
Proof. intros A t ms st. apply moves_possible. Qed.
Print Assumptions C15_law_possible.

(** Right are the sequences in which each [--] starts at the end or at a leaf that
    is the last one below the parent under which it and the leaf before it meet. *)
Theorem C15_fine_nary_partial :
  forall (V : Type) (EV : EqDecision V) (F : nat) (h : gmap addr (nnode V)) (t : rose (addr * V)) (ms : list bool) (j : nat),
  nary_in h t -> rsize t < F -> fine t ms 0 j ->
  exists b it, tree_begin F (tree_nav (nary_impl V) h) Leaves (Some (raddr t)) = Ok b /\ run F (nary_impl V) h ms b = Ok it /\
    it_cur it = nth_addr (leaves t) j.
Proof. intros V EV F h t ms j Ht HF. apply fine_ok, nary_seen; assumption. Qed.
Print Assumptions C15_fine_nary_partial.
Theorem C15_fine_binary_partial :
  forall (V : Type) (EV : EqDecision V) (F : nat) (h : gmap addr (bnode V)) (c : bin (addr * V)) (t : rose (addr * V)) (ms : list bool) (j : nat),
  bin_in h c -> bin_size c < F -> bin_forest c = [t] -> fine t ms 0 j ->
  exists b it, tree_begin F (tree_nav (binary_impl V) h) Leaves (baddr c) = Ok b /\ run F (binary_impl V) h ms b = Ok it /\
    it_cur it = nth_addr (leaves t) j.
Proof. intros V EV F h c t ms j Hc HF Ht. rewrite (bin_root c t Ht). apply fine_ok. apply (bin_seen F h c t Hc HF Ht). Qed.
Print Assumptions C15_fine_binary_partial.

(** Wrong, in every tree, is [--] then [++] at any other leaf [x]: the iterator is
    back at [x], but then goes on to the rest [z :: f] of the family of [x], and to
    all the leaves [l2] after [x] only then (they begin with [z :: f]: these are
    visited twice). *)
Theorem C15_round_trip_nary_refuted :
  forall (V : Type) (EV : EqDecision V) (F : nat) (h : gmap addr (nnode V)) (t : rose (addr * V)) (l1 l2 f : list (addr * V)) (y x z : addr * V),
  nary_in h t -> rsize t < F -> leaves t = l1 ++ y :: x :: l2 -> family t y x (x :: z :: f) ->
  exists b it, tree_begin F (tree_nav (nary_impl V) h) Leaves (Some (raddr t)) = Ok b /\
    run F (nary_impl V) h (repeat true (S (length l1)) ++ [false; true]) b = Ok it /\ it_cur it = Some (fst x) /\
    forall k, k <= S (length ((z :: f) ++ l2)) ->
      exists it', run F (nary_impl V) h (repeat true k) it = Ok it' /\ it_cur it' = nth_addr (x :: (z :: f) ++ l2) k.
Proof. intros V EV F h t l1 l2 f y x z Ht HF. apply round_trip, nary_seen; assumption. Qed.
Print Assumptions C15_round_trip_nary_refuted.
Theorem C15_round_trip_binary_refuted :
  forall (V : Type) (EV : EqDecision V) (F : nat) (h : gmap addr (bnode V)) (c : bin (addr * V)) (t : rose (addr * V)) (l1 l2 f : list (addr * V)) (y x z : addr * V),
  bin_in h c -> bin_size c < F -> bin_forest c = [t] -> leaves t = l1 ++ y :: x :: l2 -> family t y x (x :: z :: f) ->
  exists b it, tree_begin F (tree_nav (binary_impl V) h) Leaves (baddr c) = Ok b /\
    run F (binary_impl V) h (repeat true (S (length l1)) ++ [false; true]) b = Ok it /\ it_cur it = Some (fst x) /\
    forall k, k <= S (length ((z :: f) ++ l2)) ->
      exists it', run F (binary_impl V) h (repeat true k) it = Ok it' /\ it_cur it' = nth_addr (x :: (z :: f) ++ l2) k.
Proof. intros V EV F h c t l1 l2 f y x z Hc HF Ht. rewrite (bin_root c t Ht). apply round_trip. apply (bin_seen F h c t Hc HF Ht). Qed.
Print Assumptions C15_round_trip_binary_refuted.
(** Each leaf but the first has a family, which begins with it. *)
Theorem C15_family :
  forall (A : Type) (t : rose A) (l1 l2 : list A) (y x : A), leaves t = l1 ++ y :: x :: l2 ->
  exists f l3, family t y x (x :: f) /\ l2 = f ++ l3.
Proof. intros A t l1 l2 y x. apply family_ex. Qed.
Print Assumptions C15_family.

(** In 10(20, 30(50, 60), 40): the families of 50 (50, 60, 40), 60 (60 alone) and 40
    (40 alone). *)
Example C15_used_families :
  family ex_nary (2%positive, 20) (5%positive, 50) [(5%positive, 50); (6%positive, 60); (4%positive, 40)] /\
  family ex_nary (5%positive, 50) (6%positive, 60) [(6%positive, 60)] /\
  family ex_nary (6%positive, 60) (4%positive, 40) [(4%positive, 40)].
Proof.
  split; [|split].
  - apply (Family _ _ _ _ (1%positive, 10) [] (Rose (2%positive, 20) []) ex_nsub [Rose (4%positive, 40) []]); [apply rsub_here|reflexivity..].
  - apply (Family _ _ _ _ (3%positive, 30) [] (Rose (5%positive, 50) []) (Rose (6%positive, 60) []) []); [exact ex_nsub_ok|reflexivity..].
  - apply (Family _ _ _ _ (1%positive, 10) [Rose (2%positive, 20) []] ex_nsub (Rose (4%positive, 40) []) []); [apply rsub_here|reflexivity..].
Qed.
(** A sequence that is right: each [--] starts at 60, at 40 or at the end. *)
Example C15_used_fine : fine ex_nary [true; true; false; true; true; true; false; false; true; true; true; true] 0 1.
Proof.
  destruct C15_used_families as (_ & H6 & H4).
  apply fine_next; [vm_compute; lia|]. apply fine_next; [vm_compute; lia|].
  eapply (fine_back _ _ 1); [reflexivity|reflexivity|exact H6|].
  apply fine_next; [vm_compute; lia|]. apply fine_next; [vm_compute; lia|]. apply fine_next; [vm_compute; lia|].
  apply (fine_last ex_nary). eapply (fine_back _ _ 2); [reflexivity|reflexivity|exact H4|].
  apply fine_next; [vm_compute; lia|]. apply fine_next; [vm_compute; lia|]. apply (fine_first ex_nary). apply fine_next; [vm_compute; lia|].
  apply fine_nil. vm_compute. lia.
Qed.
(** ++, --, ++, ++, ++, ++ is at 60 for the second time. *)
Example C15_used_trip : exists b it, tree_begin 100 (tree_nav (nary_impl nat) ex_nheap) Leaves (Some 1%positive) = Ok b /\
  run 100 (nary_impl nat) ex_nheap [true; false; true; true; true; true] b = Ok it /\ it_cur it = Some 6%positive.
Proof.
  destruct (C15_round_trip_nary_refuted nat _ 100 ex_nheap ex_nary [] [(6%positive, 60); (4%positive, 40)] [(4%positive, 40)] (2%positive, 20) (5%positive, 50) (6%positive, 60))
    as (b & it & Eb & E & _ & Hk); [exact ex_nary_in|exact (proj2 ex_sizes)|reflexivity|exact (proj1 C15_used_families)|].
  destruct (Hk 3) as (it' & E' & Hc); [cbn; lia|]. exists b, it'. split; [exact Eb|]. split; [|exact Hc].
  change [true; false; true; true; true; true] with ((repeat true (S (length (@nil (addr * nat)))) ++ [false; true]) ++ repeat true 3). rewrite (LeafIter.run_app 100 (nary_impl nat) ex_nheap _ (repeat true 3) b it E). exact E'.
Qed.
