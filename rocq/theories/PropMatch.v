(** PropMatch.v: searching patterns in trees (C40).

    A pattern [u] of [one] and [cpt] matchers ([plain u]) denotes the tree
    [strip u] of what its nodes accept.  [occurs snd (strip u) t m] (MatchSpec.v)
    says that [m] is an occurrence of it in [t] at the root: the root is accepted
    and the children of the pattern are assigned, in order, to distinct children
    in which they occur in turn.  Patterns are searched at the root of a tree, or
    of a view of a subtree. *)
From Verif Require Import Base Spec MatchSpec StructNode BinaryNode NaryNode Nav Policy Tree Rep RoseFacts NavFacts
  BinRep NaryRep Iter IterTrees IterMain NodeFacts EditSpec User World Kinds TreeSpec TreeOps TreeBin TreeNary TreeFacts
  Matcher OptSpec MatchUser MatchFacts MatchWalk MatchResult MatchKinds MatchBin MatchCaps MatchMain
  Examples Examples2 PropOpt.

(** The search ends, with success exactly if the pattern occurs; whatever was
    searched before with the same pattern object [x]. *)
Theorem C40_search_nary :
  forall (V : Type) (EV : EqDecision V) (F : nat) (h : gmap addr (nnode V)) (t : rose (addr * V)) (u : upat V) (x : pattern),
  nary_in h t -> rsize t < F -> plain u -> p_pat x = build u PNil ->
  exists b x', search F (nary_impl V) x h (Some (raddr t)) = Ok (b, x') /\
    (b = true <-> exists m, occurs snd (strip u) t m).
Proof.
  intros V EV F h t u x Ht HF Hp Hx. destruct (C44_search_nary V EV F h t u x Ht HF (plain_solid u Hp) Hx) as (b & x' & E & Hb).
  exists b, x'. split; [exact E|]. rewrite Hb. setoid_rewrite (plain_matches snd u Hp). reflexivity.
Qed.
Print Assumptions C40_search_nary.
Theorem C40_search_binary :
  forall (V : Type) (EV : EqDecision V) (F : nat) (h : gmap addr (bnode V)) (t : bin (addr * V)) (s : rose (addr * V)) (u : upat V) (x : pattern),
  bin_in h t -> bin_forest t = [s] -> rsize s < F -> plain u -> p_pat x = build u PNil ->
  exists b x', search F (binary_impl V) x h (baddr t) = Ok (b, x') /\
    (b = true <-> exists m, occurs snd (strip u) s m).
Proof.
  intros V EV F h t s u x Ht Hs HF Hp Hx. destruct (C44_search_binary V EV F h t s u x Ht Hs HF (plain_solid u Hp) Hx) as (b & x' & E & Hb).
  exists b, x'. split; [exact E|]. rewrite Hb. setoid_rewrite (plain_matches snd u Hp). reflexivity.
Qed.
Print Assumptions C40_search_binary.
(** In an empty tree nothing is found. *)
Theorem C40_search_empty :
  forall (V : Type) (EV : EqDecision V) (Nd : Type) (im : node_impl V Nd) (F : nat) (h : gmap addr Nd) (u : upat V) (x : pattern),
  0 < F -> plain u -> p_pat x = build u PNil -> exists x', search F im x h None = Ok (false, x').
Proof. intros V EV Nd im F h u x HF Hp Hx. exact (C44_search_empty V EV Nd im F h u x HF (plain_solid u Hp) Hx). Qed.
Print Assumptions C40_search_empty.

(** There is one occurrence in which every child of the pattern takes the first
    remaining child it occurs in, if there is any occurrence at all. *)
Theorem C40_leftmost_unique :
  forall (V A : Type) (val : A -> V) (p : rose (V -> bool)) (t m m' : rose A),
  leftmost val p t m -> leftmost val p t m' -> m' = m /\ occurs val p t m.
Proof.
  intros V A val p t m m' H H'. split; [eapply leftmost_unique; eassumption|apply leftmost_occurs, H].
Qed.
Print Assumptions C40_leftmost_unique.

(** A successful search in [t], the tree object [j] or a subtree of it, and
    assign_result to the tree object [i] (possibly [j] itself), at any later time
    as long as [j] is unchanged: [i] holds the values of the leftmost occurrence
    in the shape of the pattern, in new nodes; its old nodes were released;
    every other tree is unchanged. *)
Theorem C40_result_nary :
  forall (V : Type) (EV : EqDecision V) (F : nat) (al : allocator (nnode V)), (N.of_nat F <= W64)%N ->
  forall (w : world (nnode V)) (M : gmap tid (option (rose (addr * V)))) (i j : tid) (c : option (rose (addr * V)))
    (h : gmap addr (nnode V)) (t0 t : rose (addr * V)) (u : upat V) (x x' : pattern),
  consistent (nary_kind V) w M -> size (w_heap w) < F -> M !! i = Some c -> M !! j = Some (Some t0) -> rsubtree t t0 ->
  plain u -> p_pat x = build u PNil ->
  nary_in h t -> search F (nary_impl V) x h (Some (raddr t)) = Ok (true, x') ->
  exists m w' c', leftmost snd (strip u) t m /\
    assign_result F (nary_impl V) al (n_assign_child_like F) x' w i = Ret () w' /\
    consistent (nary_kind V) w' (<[i := c']> M) /\ nvals c' = Some (rose_map snd m) /\
    (forall a, a ∈ naddrs c' -> w_heap w !! a = None) /\
    (caches (nary_kind V) w M -> caches (nary_kind V) w' (<[i := c']> M)) /\
    (* and the marks *)
    (forall k m', nth_error (marks u m) k = Some m' ->
       exists w1 c1, assign_mark F (nary_impl V) al (n_assign_child_like F) x' (S k) w i = Ret () w1 /\
         consistent (nary_kind V) w1 (<[i := c1]> M) /\ nvals c1 = Some (rose_map snd m') /\
         (forall a, a ∈ naddrs c1 -> w_heap w !! a = None) /\
         (caches (nary_kind V) w M -> caches (nary_kind V) w1 (<[i := c1]> M))).
Proof.
  intros V EV F al HFW w M i j c h t0 t u x x' Hw HF Hi Hj Hs Hp Hx Hh Hsearch.
  destruct (C44_result_nary V EV F al HFW w M i j c h t0 t u x x' Hw HF Hi Hj Hs (plain_solid u Hp) Hx Hh Hsearch) as (m & l & w' & c' & Hb & Hrest).
  destruct (plain_best _ _ _ _ _ Hb Hp) as [Hl ->]. exists m, w', c'. split; [exact Hl|exact Hrest].
Qed.
Print Assumptions C40_result_nary.

(** The same for a binary tree: [b] is the occurrence [m] with every node in the
    slot, left or right, that it has in [t]. *)
Theorem C40_result_binary :
  forall (V : Type) (EV : EqDecision V) (F : nat) (al : allocator (bnode V)), (N.of_nat F <= W64)%N ->
  forall (w : world (bnode V)) (M : gmap tid (bin (addr * V))) (i j : tid) (c : bin (addr * V))
    (h : gmap addr (bnode V)) (t0 t : bin (addr * V)) (s : rose (addr * V)) (u : upat V) (x x' : pattern),
  consistent (binary_kind V) w M -> size (w_heap w) < F -> M !! i = Some c -> M !! j = Some t0 -> bsubtree t t0 ->
  bin_forest t = [s] -> plain u -> p_pat x = build u PNil ->
  bin_in h t -> search F (binary_impl V) x h (baddr t) = Ok (true, x') ->
  exists m b w' c', leftmost snd (strip u) s m /\ bin_forest b = [m] /\ cut_of b t /\
    assign_result F (binary_impl V) al b_assign_child_like x' w i = Ret () w' /\
    consistent (binary_kind V) w' (<[i := c']> M) /\ bin_map snd c' = bin_map snd b /\
    (forall a, a ∈ baddrs c' -> w_heap w !! a = None) /\
    (caches (binary_kind V) w M -> caches (binary_kind V) w' (<[i := c']> M)) /\
    (* and the marks *)
    (forall k m', nth_error (marks u m) k = Some m' ->
       exists b1 t1 w1 c1, bsubtree t1 t /\ bin_forest b1 = [m'] /\ cut_of b1 t1 /\
         assign_mark F (binary_impl V) al b_assign_child_like x' (S k) w i = Ret () w1 /\
         consistent (binary_kind V) w1 (<[i := c1]> M) /\ bin_map snd c1 = bin_map snd b1 /\
         (forall a, a ∈ baddrs c1 -> w_heap w !! a = None) /\
         (caches (binary_kind V) w M -> caches (binary_kind V) w1 (<[i := c1]> M))).
Proof.
  intros V EV F al HFW w M i j c h t0 t s u x x' Hw HF Hi Hj Hs Hts Hp Hx Hh Hsearch.
  destruct (C44_result_binary V EV F al HFW w M i j c h t0 t s u x x' Hw HF Hi Hj Hs Hts (plain_solid u Hp) Hx Hh Hsearch) as (m & l & b & w' & c' & Hb & Hrest).
  destruct (plain_best _ _ _ _ _ Hb Hp) as [Hl ->]. exists m, b, w', c'. split; [exact Hl|exact Hrest].
Qed.
Print Assumptions C40_result_binary.

(** The result of a search that failed (with a pattern object that had succeeded
    before; see [C40_never_searched] for the other case) is the empty tree. *)
Theorem C40_failed_nary :
  forall (V : Type) (EV : EqDecision V) (F : nat) (al : allocator (nnode V)), (N.of_nat F <= W64)%N ->
  forall (w : world (nnode V)) (M : gmap tid (option (rose (addr * V)))) (i : tid) (c : option (rose (addr * V)))
    (h : gmap addr (nnode V)) (t : rose (addr * V)) (u : upat V) (x x' : pattern),
  consistent (nary_kind V) w M -> size (w_heap w) < F -> M !! i = Some c -> plain u -> p_pat x = build u PNil -> p_found x = true ->
  nary_in h t -> rsize t < F -> search F (nary_impl V) x h (Some (raddr t)) = Ok (false, x') ->
  exists w', assign_result F (nary_impl V) al (n_assign_child_like F) x' w i = Ret () w' /\
    consistent (nary_kind V) w' (<[i := None]> M).
Proof.
  intros V EV F al HFW w M i c h t u x x' Hw HF Hi Hp. exact (C44_failed_nary V EV F al HFW w M i c h t u x x' Hw HF Hi (plain_solid u Hp)).
Qed.
Print Assumptions C40_failed_nary.
Theorem C40_failed_binary :
  forall (V : Type) (EV : EqDecision V) (F : nat) (al : allocator (bnode V)), (N.of_nat F <= W64)%N ->
  forall (w : world (bnode V)) (M : gmap tid (bin (addr * V))) (i : tid) (c : bin (addr * V))
    (h : gmap addr (bnode V)) (t : bin (addr * V)) (s : rose (addr * V)) (u : upat V) (x x' : pattern),
  consistent (binary_kind V) w M -> size (w_heap w) < F -> M !! i = Some c -> plain u -> p_pat x = build u PNil -> p_found x = true ->
  bin_in h t -> bin_forest t = [s] -> rsize s < F -> search F (binary_impl V) x h (baddr t) = Ok (false, x') ->
  exists w', assign_result F (binary_impl V) al b_assign_child_like x' w i = Ret () w' /\
    consistent (binary_kind V) w' (<[i := BLeaf]> M).
Proof.
  intros V EV F al HFW w M i c h t s u x x' Hw HF Hi Hp. exact (C44_failed_binary V EV F al HFW w M i c h t s u x x' Hw HF Hi (plain_solid u Hp)).
Qed.
Print Assumptions C40_failed_binary.
(** A pattern that was never searched successfully has no result: the call throws
    and changes nothing. *)
Theorem C40_never_searched :
  forall (V Nd : Type) (F : nat) (im : node_impl V Nd) (al : allocator Nd) like (p : pat V) (w : world Nd) (i : tid) (k : nat),
  assign_result F im al like (make_pattern p) w i = Throw w /\ assign_mark F im al like (make_pattern p) k w i = Throw w /\
  forall h root x', search F im (make_pattern p) h root = Ok (false, x') ->
    assign_result F im al like x' w i = Throw w /\ assign_mark F im al like x' k w i = Throw w.
Proof.
  intros V Nd F im al like p w i k. split; [reflexivity|]. split; [reflexivity|]. intros h root x'. unfold search.
  destruct (get_instance _ _ _ _ _) as [it|]; cbn [mbind res_bind]; [|discriminate]. cbn [make_pattern p_pat p_state p_found].
  destruct (search_node _ _ _ _ _ _) as [[[b s] i']|]; cbn [mbind res_bind]; [|discriminate]. intros [= -> <-]. split; reflexivity.
Qed.
Print Assumptions C40_never_searched.

(** *** Cases met *)
Definition ex_pat : upat nat :=
  UOne (fun v => v =? 10) [UOne (fun v => v =? 20) []; UCpt (UOne (fun v => 25 <=? v) [UOne (fun v => v =? 60) []])].
Example C40_used_nary : exists m w' c', leftmost snd (strip ex_pat) ex_nary m /\
  assign_result 100 (nary_impl nat) (first_fit _) (n_assign_child_like 100)
    (match search 100 (nary_impl nat) (make_pattern (build ex_pat PNil)) ex_nheap (Some 1%positive) with Ok (_, x) => x | Err _ => make_pattern PNil end) ex_nw 2%positive = Ret () w' /\
  consistent (nary_kind nat) w' (<[2%positive := c']> ex_nM) /\ nvals c' = Some (Rose 10 [Rose 20 []; Rose 30 [Rose 60 []]]) /\
  marks ex_pat m = [Rose (3%positive, 30) [Rose (6%positive, 60) []]].
Proof.
  destruct (search 100 (nary_impl nat) (make_pattern (build ex_pat PNil)) ex_nheap (Some 1%positive)) as [[b x]|] eqn:E; [|vm_compute in E; discriminate].
  assert (b = true) as -> by (vm_compute in E; congruence).
  destruct (C40_result_nary nat _ 100 (first_fit _) ex_word ex_nw ex_nM 2%positive 1%positive (Some (Rose (7%positive, 70) [])) ex_nheap ex_nary ex_nary ex_pat
    (make_pattern (build ex_pat PNil)) x ex_nw_ok ltac:(pose proof ex_fuel; lia) eq_refl eq_refl (rsub_here _) ltac:(vm_compute; tauto) eq_refl ex_nary_in E)
    as (m & w' & c' & Hl & Ha & Hw & Hv & _).
  assert (Hm : leftmost snd (strip ex_pat) ex_nary (Rose (1%positive, 10) [Rose (2%positive, 20) []; Rose (3%positive, 30) [Rose (6%positive, 60) []]])).
  { constructor; [reflexivity|]. apply Firsts_take; [constructor; [reflexivity|constructor]|]. apply Firsts_take; [|constructor].
    constructor; [reflexivity|]. apply Firsts_skip; [intros ? H; inversion H; discriminate|]. apply Firsts_take; [|constructor].
    constructor; [reflexivity|constructor]. }
  apply (leftmost_unique _ _ _ _ Hm) in Hl. subst m. exists (Rose (1%positive, 10) [Rose (2%positive, 20) []; Rose (3%positive, 30) [Rose (6%positive, 60) []]]), w', c'.
  split; [exact Hm|]. split; [exact Ha|]. split; [exact Hw|]. split; [exact Hv|reflexivity].
Qed.
Definition ex_bpat : upat nat := UOne (fun v => v =? 10) [UOne (fun v => v =? 20) [UCpt (UOne (fun v => v =? 40) [])]].
Example C40_used_binary : exists m b w' c', leftmost snd (strip ex_bpat) (Rose (1%positive, 10) (bin_forest ex_bsub ++ [Rose (3%positive, 30) []])) m /\
  bin_forest b = [m] /\ cut_of b ex_bin /\
  assign_result 100 (binary_impl nat) (first_fit _) b_assign_child_like
    (match search 100 (binary_impl nat) (make_pattern (build ex_bpat PNil)) ex_bheap (Some 1%positive) with Ok (_, x) => x | Err _ => make_pattern PNil end) ex_bw 2%positive = Ret () w' /\
  consistent (binary_kind nat) w' (<[2%positive := c']> ex_bM) /\ bin_map snd c' = bin_map snd b.
Proof.
  destruct (search 100 (binary_impl nat) (make_pattern (build ex_bpat PNil)) ex_bheap (Some 1%positive)) as [[b0 x]|] eqn:E; [|vm_compute in E; discriminate].
  assert (b0 = true) as -> by (vm_compute in E; congruence).
  destruct (C40_result_binary nat _ 100 (first_fit _) ex_word ex_bw ex_bM 2%positive 1%positive (BNode (7%positive, 70) BLeaf BLeaf) ex_bheap ex_bin ex_bin
    (Rose (1%positive, 10) (bin_forest ex_bsub ++ [Rose (3%positive, 30) []])) ex_bpat
    (make_pattern (build ex_bpat PNil)) x ex_bw_ok ltac:(pose proof ex_fuel; lia) eq_refl eq_refl (bsub_here _) eq_refl ltac:(vm_compute; tauto) eq_refl ex_bin_in E)
    as (m & b & w' & c' & Hl & Hf & Hc & Ha & Hw & Hv & _).
  exists m, b, w', c'. auto 7.
Qed.
Example C40_used_failed : exists x x', search 100 (nary_impl nat) (make_pattern (build ex_pat PNil)) ex_nheap (Some 1%positive) = Ok (true, x) /\
  search 100 (nary_impl nat) x ex_nheap (Some 3%positive) = Ok (false, x') /\ p_found x = true.
Proof.
  destruct (search 100 (nary_impl nat) (make_pattern (build ex_pat PNil)) ex_nheap (Some 1%positive)) as [[b x]|] eqn:E; [|vm_compute in E; discriminate].
  vm_compute in E. injection E as <- <-. eexists _, _. split; [reflexivity|]. split; vm_compute; reflexivity.
Qed.
