(** PropIterFail.v: C80, iterators whose [++] or [--] runs out of memory. *)
From Verif Require Import Base Spec EditSpec StructNode BinaryNode NaryNode Nav Policy Tree Rep User Kinds World TreeSpec Iter IterTrees IterMain LeafStay StarMain NodeFacts
  Examples Examples2 PropPred IterFail IterFailFacts.

(** True of every policy: a [++] or [--] that throws leaves the iterator at its node; and
    it throws only for want of memory. *)
Theorem C80_increment_partial :
  forall (V Nd : Type) (F : nat) (im : node_impl V Nd) (h : gmap addr Nd) (it it' : iter),
  incr F im h it = Ok it' -> may_fail (fun room => incr_try F im h room it) it it'.
Proof. intros V Nd F im h it it'. apply incr_need. Qed.
Print Assumptions C80_increment_partial.
Theorem C80_decrement_partial :
  forall (V Nd : Type) (F : nat) (im : node_impl V Nd) (h : gmap addr Nd) (it it' : iter),
  decr F im h it = Ok it' -> may_fail (fun room => decr_try F im h room it) it it'.
Proof. intros V Nd F im h it it'. apply decr_need. Qed.
Print Assumptions C80_decrement_partial.
(** The policies other than breadth_first and leaves never throw. *)
Theorem C80_other_policies_partial :
  forall (V Nd : Type) (F : nat) (im : node_impl V Nd) (h : gmap addr Nd) (room : nat) (it it1 : iter),
  incr_try F im h room it = Ok (Thrown it1) \/ decr_try F im h room it = Ok (Thrown it1) -> it_kind it = BreadthFirst \/ it_kind it = Leaves.
Proof.
  intros V Nd F im h room it it1 [H|H]; unfold incr_try, it_incr_try, decr_try, it_decr_try in H; destruct (it_cur it) eqn:Ec.
  - destruct (it_kind it) eqn:Ek; auto; cbn [increment_try] in H; destruct (increment_impl _ _ _ _ _) in H; discriminate H.
  - destruct (it_root it) eqn:Er; [|discriminate H]. destruct (it_kind it) eqn:Ek; auto; cbn [go_first_try] in H; destruct (go_first_impl _ _ _ _ _) in H; discriminate H.
  - destruct (it_kind it) eqn:Ek; auto; cbn [decrement_try] in H; destruct (decrement_impl _ _ _ _ _) in H; discriminate H.
  - destruct (it_decr _ _ _) in H; discriminate H.
Qed.
Print Assumptions C80_other_policies_partial.
(** [--] of a leaves iterator, and [++] of a breadth-first iterator at the end, can be
    repeated. *)
Theorem C80_leaves_back_partial :
  forall (V Nd : Type) (F : nat) (im : node_impl V Nd) (h : gmap addr Nd) (room : nat) (it it1 : iter),
  it_kind it = Leaves -> decr_try F im h room it = Ok (Thrown it1) -> it1 = it.
Proof. intros V Nd F im h room it it1. apply leaves_decr_same. Qed.
Print Assumptions C80_leaves_back_partial.
Theorem C80_breadth_first_begin_partial :
  forall (V Nd : Type) (F : nat) (im : node_impl V Nd) (h : gmap addr Nd) (room : nat) (it it1 : iter),
  it_kind it = BreadthFirst -> it_cur it = None -> incr_try F im h room it = Ok (Thrown it1) -> incr F im h it1 = incr F im h it.
Proof. intros V Nd F im h room it it1. apply bfs_end_again. Qed.
Print Assumptions C80_breadth_first_begin_partial.

(** Not so [++] of a breadth-first iterator at [x]: if the next node [y] has children, for
    whose first one there is no room, the iterator stays at [x], but the next [++] does not
    go to [y]: it and everything below it is never visited. *)
Theorem C80_breadth_first_next_nary_refuted :
  forall (V : Type) (EV : EqDecision V) (F : nat) (h : gmap addr (nnode V)) (t : rose (addr * V)) (it it0 : iter) (l1 l2 : list (addr * V)) (x y : addr * V) (s : rose (addr * V)),
  nary_in h t -> rsize t < F ->
  levelorder t = l1 ++ x :: y :: l2 -> rsubtree s t -> label s = y -> children s <> [] ->
  iterator_at F (nary_impl V) h BreadthFirst (Some (fst x)) (Some (raddr t)) = Ok it0 -> same_iter it it0 ->
  exists it1, incr_try F (nary_impl V) h 0 it = Ok (Thrown it1) /\
    iterate_from F (nary_impl V) h it1 BreadthFirst (Some (raddr t)) = Ok (x :: outside (raddrs s) l2).
Proof. intros V EV F h t it it0 l1 l2 x y s Ht HF. exact (bfs_incr_lost F _ h _ t (nary_seen F h t Ht HF) it it0 l1 x y l2 s). Qed.
Print Assumptions C80_breadth_first_next_nary_refuted.
Theorem C80_breadth_first_next_binary_refuted :
  forall (V : Type) (EV : EqDecision V) (F : nat) (h : gmap addr (bnode V)) (c : bin (addr * V)) (t : rose (addr * V)) (it it0 : iter) (l1 l2 : list (addr * V)) (x y : addr * V) (s : rose (addr * V)),
  bin_in h c -> bin_size c < F -> bin_forest c = [t] ->
  levelorder t = l1 ++ x :: y :: l2 -> rsubtree s t -> label s = y -> children s <> [] ->
  iterator_at F (binary_impl V) h BreadthFirst (Some (fst x)) (baddr c) = Ok it0 -> same_iter it it0 ->
  exists it1, incr_try F (binary_impl V) h 0 it = Ok (Thrown it1) /\
    iterate_from F (binary_impl V) h it1 BreadthFirst (baddr c) = Ok (x :: outside (raddrs s) l2).
Proof. intros V EV F h c t it it0 l1 l2 x y s Hc HF Ht. rewrite (bin_root c t Ht). exact (bfs_incr_lost F _ h _ t (bin_seen F h c t Hc HF Ht) it it0 l1 x y l2 s). Qed.
Print Assumptions C80_breadth_first_next_binary_refuted.

(** Nor [--] of a breadth-first iterator at a node [x] other than the root: after it threw, the
    nodes below [x], the later siblings of [x] and the nodes below those are not visited. *)
Theorem C80_breadth_first_previous_nary_refuted :
  forall (V : Type) (EV : EqDecision V) (F : nat) (h : gmap addr (nnode V)) (t : rose (addr * V)) (it it0 : iter) (l1 l2 : list (addr * V)) (x q : addr * V) (ls rs : list (rose (addr * V))) (s : rose (addr * V)),
  nary_in h t -> rsize t < F ->
  levelorder t = l1 ++ x :: l2 -> rsubtree (Rose q (ls ++ s :: rs)) t -> label s = x ->
  iterator_at F (nary_impl V) h BreadthFirst (Some (fst x)) (Some (raddr t)) = Ok it0 -> same_iter it it0 ->
  exists it1, decr_try F (nary_impl V) h 0 it = Ok (Thrown it1) /\
    iterate_from F (nary_impl V) h it1 BreadthFirst (Some (raddr t)) = Ok (x :: outside (flat_map raddrs (s :: rs)) l2).
Proof. intros V EV F h t it it0 l1 l2 x q ls rs s Ht HF. exact (bfs_decr_lost F _ h _ t (nary_seen F h t Ht HF) it it0 l1 x l2 q ls s rs). Qed.
Print Assumptions C80_breadth_first_previous_nary_refuted.
Theorem C80_breadth_first_previous_binary_refuted :
  forall (V : Type) (EV : EqDecision V) (F : nat) (h : gmap addr (bnode V)) (c : bin (addr * V)) (t : rose (addr * V)) (it it0 : iter) (l1 l2 : list (addr * V)) (x q : addr * V) (ls rs : list (rose (addr * V))) (s : rose (addr * V)),
  bin_in h c -> bin_size c < F -> bin_forest c = [t] ->
  levelorder t = l1 ++ x :: l2 -> rsubtree (Rose q (ls ++ s :: rs)) t -> label s = x ->
  iterator_at F (binary_impl V) h BreadthFirst (Some (fst x)) (baddr c) = Ok it0 -> same_iter it it0 ->
  exists it1, decr_try F (binary_impl V) h 0 it = Ok (Thrown it1) /\
    iterate_from F (binary_impl V) h it1 BreadthFirst (baddr c) = Ok (x :: outside (flat_map raddrs (s :: rs)) l2).
Proof. intros V EV F h c t it it0 l1 l2 x q ls rs s Hc HF Ht. rewrite (bin_root c t Ht). exact (bfs_decr_lost F _ h _ t (bin_seen F h c t Hc HF Ht) it it0 l1 x l2 q ls s rs). Qed.
Print Assumptions C80_breadth_first_previous_binary_refuted.

(** Nor [++] of a leaves iterator, which came from begin() to the leaf [x]: if the leaves
    after [x] are those below a node [n] and its later siblings, the [++] can throw such that
    the next [++] skips all of these. *)
Theorem C80_leaves_next_nary_refuted :
  forall (V : Type) (EV : EqDecision V) (F : nat) (h : gmap addr (nnode V)) (t : rose (addr * V)) (b it : iter) (l1 l3 : list (addr * V)) (x q : addr * V) (ls rs : list (rose (addr * V))) (n r : rose (addr * V)),
  nary_in h t -> rsize t < F ->
  rsubtree (Rose q (ls ++ n :: r :: rs)) t -> leaves t = l1 ++ x :: flat_map leaves (n :: r :: rs) ++ l3 ->
  tree_begin F (tree_nav (nary_impl V) h) Leaves (Some (raddr t)) = Ok b -> run F (nary_impl V) h (repeat true (length l1)) b = Ok it ->
  exists room it1, incr_try F (nary_impl V) h room it = Ok (Thrown it1) /\
    iterate_from F (nary_impl V) h it1 Leaves (Some (raddr t)) = Ok (x :: l3).
Proof. intros V EV F h t b it l1 l3 x q ls rs n r Ht HF. exact (leaves_incr_lost F _ h _ t (nary_seen F h t Ht HF) it b l1 x q ls n r rs l3). Qed.
Print Assumptions C80_leaves_next_nary_refuted.
Theorem C80_leaves_next_binary_refuted :
  forall (V : Type) (EV : EqDecision V) (F : nat) (h : gmap addr (bnode V)) (c : bin (addr * V)) (t : rose (addr * V)) (b it : iter) (l1 l3 : list (addr * V)) (x q : addr * V) (ls rs : list (rose (addr * V))) (n r : rose (addr * V)),
  bin_in h c -> bin_size c < F -> bin_forest c = [t] ->
  rsubtree (Rose q (ls ++ n :: r :: rs)) t -> leaves t = l1 ++ x :: flat_map leaves (n :: r :: rs) ++ l3 ->
  tree_begin F (tree_nav (binary_impl V) h) Leaves (baddr c) = Ok b -> run F (binary_impl V) h (repeat true (length l1)) b = Ok it ->
  exists room it1, incr_try F (binary_impl V) h room it = Ok (Thrown it1) /\
    iterate_from F (binary_impl V) h it1 Leaves (baddr c) = Ok (x :: l3).
Proof. intros V EV F h c t b it l1 l3 x q ls rs n r Hc HF Ht. rewrite (bin_root c t Ht). exact (leaves_incr_lost F _ h _ t (bin_seen F h c t Hc HF Ht) it b l1 x q ls n r rs l3). Qed.
Print Assumptions C80_leaves_next_binary_refuted.

(** Nor [++] of a leaves iterator at the end, that is, begin(): if it throws and is repeated
    (with memory), the loop from there visits leaves a second time: [l3], those after the
    leaves below the node that could not be recorded and its later siblings. *)
Theorem C80_leaves_begin_nary_refuted :
  forall (V : Type) (EV : EqDecision V) (F : nat) (h : gmap addr (nnode V)) (t : rose (addr * V)) (l3 : list (addr * V)) (q : addr * V) (ls rs : list (rose (addr * V))) (n r : rose (addr * V)),
  nary_in h t -> rsize t < F ->
  rsize t + rsize t < F -> rsubtree (Rose q (ls ++ n :: r :: rs)) t -> leaves t = flat_map leaves (n :: r :: rs) ++ l3 ->
  exists e room e1 it, tree_end F (tree_nav (nary_impl V) h) Leaves (Some (raddr t)) = Ok e /\
    incr_try F (nary_impl V) h room e = Ok (Thrown e1) /\ incr F (nary_impl V) h e1 = Ok it /\
    iterate_from F (nary_impl V) h it Leaves (Some (raddr t)) = Ok (leaves t ++ l3).
Proof. intros V EV F h t l3 q ls rs n r Ht HF. exact (leaves_end_twice F _ h _ t (nary_seen F h t Ht HF) q ls n r rs l3). Qed.
Print Assumptions C80_leaves_begin_nary_refuted.
Theorem C80_leaves_begin_binary_refuted :
  forall (V : Type) (EV : EqDecision V) (F : nat) (h : gmap addr (bnode V)) (c : bin (addr * V)) (t : rose (addr * V)) (l3 : list (addr * V)) (q : addr * V) (ls rs : list (rose (addr * V))) (n r : rose (addr * V)),
  bin_in h c -> bin_size c < F -> bin_forest c = [t] ->
  rsize t + rsize t < F -> rsubtree (Rose q (ls ++ n :: r :: rs)) t -> leaves t = flat_map leaves (n :: r :: rs) ++ l3 ->
  exists e room e1 it, tree_end F (tree_nav (binary_impl V) h) Leaves (baddr c) = Ok e /\
    incr_try F (binary_impl V) h room e = Ok (Thrown e1) /\ incr F (binary_impl V) h e1 = Ok it /\
    iterate_from F (binary_impl V) h it Leaves (baddr c) = Ok (leaves t ++ l3).
Proof. intros V EV F h c t l3 q ls rs n r Hc HF Ht. rewrite (bin_root c t Ht). exact (leaves_end_twice F _ h _ t (bin_seen F h c t Hc HF Ht) q ls n r rs l3). Qed.
Print Assumptions C80_leaves_begin_binary_refuted.

(** Node 2 of 10(20,30(50,60),40): [++] cannot record the children of node 3, the next visits
    4; node 3: [--] throws, nothing is visited after it; leaves at 2 (20): 50 and 60 are skipped. *)
Example C80_used : exists it1 it2 room it3,
  incr_try 100 (nary_impl nat) ex_nheap 0 (Iter BreadthFirst (Some 2%positive) (Some 1%positive) [Some 3%positive] (Some 2%positive)) = Ok (Thrown it1) /\
  iterate_from 100 (nary_impl nat) ex_nheap it1 BreadthFirst (Some 1%positive) = Ok [(2%positive, 20); (4%positive, 40)] /\
  decr_try 100 (nary_impl nat) ex_nheap 0 (Iter BreadthFirst (Some 3%positive) (Some 1%positive) [Some 4%positive; Some 5%positive] (Some 3%positive)) = Ok (Thrown it2) /\
  iterate_from 100 (nary_impl nat) ex_nheap it2 BreadthFirst (Some 1%positive) = Ok [(3%positive, 30)] /\
  incr_try 100 (nary_impl nat) ex_nheap room (Iter Leaves (Some 2%positive) (Some 1%positive) [Some 2%positive] None) = Ok (Thrown it3) /\
  iterate_from 100 (nary_impl nat) ex_nheap it3 Leaves (Some 1%positive) = Ok [(2%positive, 20); (4%positive, 40)].
Proof.
  set (s3 := Rose (3%positive, 30) [Rose (5%positive, 50) []; Rose (6%positive, 60) []]).
  assert (Hs3 : rsubtree s3 ex_nary) by (apply (rsub_child s3 _ _ s3); [right; left|constructor]).
  set (i2 := Iter BreadthFirst (Some 2%positive) (Some 1%positive) [Some 3%positive] (Some 2%positive)).
  destruct (C80_breadth_first_next_nary_refuted nat _ 100 ex_nheap ex_nary i2 i2 [(1%positive, 10)] [(4%positive, 40); (5%positive, 50); (6%positive, 60)] (2%positive, 20) (3%positive, 30) s3 ex_nary_in)
    as (it1 & E1 & W1); [vm_compute; lia|reflexivity|exact Hs3|reflexivity|discriminate|vm_compute; reflexivity|repeat split|].
  set (i3 := Iter BreadthFirst (Some 3%positive) (Some 1%positive) [Some 4%positive; Some 5%positive] (Some 3%positive)).
  destruct (C80_breadth_first_previous_nary_refuted nat _ 100 ex_nheap ex_nary i3 i3 [(1%positive, 10); (2%positive, 20)] [(4%positive, 40); (5%positive, 50); (6%positive, 60)] (3%positive, 30) (1%positive, 10)
    [Rose (2%positive, 20) []] [Rose (4%positive, 40) []] s3 ex_nary_in)
    as (it2 & E2 & W2); [vm_compute; lia|reflexivity|constructor|reflexivity|vm_compute; reflexivity|repeat split|].
  set (b := Iter Leaves (Some 2%positive) (Some 1%positive) [Some 2%positive] None).
  destruct (C80_leaves_next_nary_refuted nat _ 100 ex_nheap ex_nary b b [] [(4%positive, 40)] (2%positive, 20) (3%positive, 30) [] [] (Rose (5%positive, 50) []) (Rose (6%positive, 60) []) ex_nary_in)
    as (room & it3 & E3 & W3); [vm_compute; lia|exact Hs3|reflexivity|vm_compute; reflexivity|reflexivity|].
  exists it1, it2, room, it3. split; [exact E1|]. split; [exact W1|]. split; [exact E2|]. split; [exact W2|]. split; [exact E3|exact W3].
Qed.
(** 1(2(3,4),5): begin() that threw and was repeated visits 5 twice. *)
Example C80_begin_used : exists e room e1 it, tree_end 100 (tree_nav (nary_impl nat) ex_pheap) Leaves (Some 1%positive) = Ok e /\
  incr_try 100 (nary_impl nat) ex_pheap room e = Ok (Thrown e1) /\ incr 100 (nary_impl nat) ex_pheap e1 = Ok it /\
  iterate_from 100 (nary_impl nat) ex_pheap it Leaves (Some 1%positive) = Ok [(3%positive, 3); (4%positive, 4); (5%positive, 5); (5%positive, 5)].
Proof.
  assert (Ht : nary_in ex_pheap ex_prune) by (exists None, None, None, (szt 0); split; [vm_compute; tauto|]; apply (bool_decide_unpack _); vm_compute; exact I).
  exact (C80_leaves_begin_nary_refuted nat _ 100 ex_pheap ex_prune [(5%positive, 5)] (2%positive, 2) [] [] (Rose (3%positive, 3) []) (Rose (4%positive, 4) []) Ht
    ltac:(vm_compute; lia) ltac:(vm_compute; lia) ltac:(apply (rsub_child _ _ _ (Rose (2%positive, 2) [Rose (3%positive, 3) []; Rose (4%positive, 4) []])); [left|constructor]) eq_refl).
Qed.
