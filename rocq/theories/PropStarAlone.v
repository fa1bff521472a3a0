(** PropStarAlone.v: a [star] without children (C52, C53). *)
From Verif Require Import Base Spec MatchSpec StructNode BinaryNode NaryNode Nav Policy Tree Rep RoseFacts NavFacts
  BinRep NaryRep Iter IterTrees IterMain NodeFacts EditSpec User World Kinds TreeSpec TreeOps TreeBin TreeNary TreeFacts
  Matcher MatchFacts MatchResult MatchMain Star StarSpec StarMain StarKinds StarAlone StarAloneUser PropStar PropStarResult Examples Examples2.

(** What [star<q>(v)] is to report in a tree: nothing, the root, all of it. *)
Definition alone {A} (q : quantifier) (t : rose A) : option (rose A) :=
  match q with QReluctant => None | QDefault => Some (Rose (label t) []) | QGreedy | QPossessive => Some t end.
Definition balone {A} (q : quantifier) (t : bin A) : bin A :=
  match q, t with
  | QReluctant, _ | _, BLeaf => BLeaf
  | QDefault, BNode x _ _ => BNode x BLeaf BLeaf
  | _, _ => t
  end.

(** The search, with any test, finds a match; assign_result to any tree object
    [i] gives it [alone q t], in new nodes, when the test accepts every node below
    the root (greedy and possessive; the others do not look). *)
Theorem C52_alone_nary :
  forall (V : Type) (EV : EqDecision V) (F : nat) (al : allocator (nnode V)), (N.of_nat F <= W64)%N ->
  forall (w : world (nnode V)) (M : gmap tid (option (rose (addr * V)))) (i j : tid) (c : option (rose (addr * V)))
    (h : gmap addr (nnode V)) (t0 t : rose (addr * V)) (q : quantifier) (vm : V -> bool) (x : xpattern),
  consistent (nary_kind V) w M -> size (w_heap w) < F -> M !! i = Some c -> M !! j = Some (Some t0) -> rsubtree t t0 ->
  xp_pat x = xbuild (SStar q vm []) XNil -> nary_in h t ->
  exists x', xsearch F (nary_impl V) x h (Some (raddr t)) = Ok (true, x') /\
    ((q = QGreedy \/ q = QPossessive -> forall y, y ∈ flat_map preorder (children t) -> vm (snd y) = true) ->
     exists w' c', xassign_result F (nary_impl V) al (n_assign_child_like F) x' w i = Ret () w' /\
       consistent (nary_kind V) w' (<[i := c']> M) /\ nvals c' = alone q (rose_map snd t) /\
       (forall z, z ∈ naddrs c' -> w_heap w !! z = None) /\
       (caches (nary_kind V) w M -> caches (nary_kind V) w' (<[i := c']> M))).
Proof.
  intros V EV F al HFW w M i j c h t0 t q vm x Hw HF Hi Hj Hs Hx Hh.
  assert (Ht0 : nary_in (w_heap w) t0 /\ rsize t0 <= size (w_heap w)).
  { apply (to_holds F _ al _ (nary_tree_kind V EV) HFW) in Hw. pose proof (holds_rep _ _ _ _ _ _ _ _ Hw Hj) as Hrep.
    split; [exists None, None, None, (szt 0); exact Hrep|]. pose proof (holds_size _ _ _ _ _ _ _ _ Hw Hj) as Hl. cbn in Hl.
    unfold raddrs in Hl. rewrite map_length, length_preorder in Hl. exact Hl. }
  destruct Ht0 as [Ht0 Hsz]. pose proof (nary_in_sub _ _ _ Ht0 Hs) as Ht.
  assert (Hst : rsize t <= rsize t0) by (apply rsubtree_plug in Hs as [cx <-]; pose proof (ctx_length_size cx t); lia).
  destruct (nary_facts h t Hh) as (F1 & F2 & F3).
  destruct (alone_search F (nary_impl V) h t F1 F2 F3 ltac:(lia) q vm x Hx) as (x' & E & Hpat & Hfound & Hm).
  exists x'. split; [exact E|]. intros Hacc. unfold xassign_result. rewrite Hfound, Hpat, Hx. cbn [negb xbuild foldr].
  assert (Hq : q = QReluctant \/ q = QDefault \/ (q = QGreedy \/ q = QPossessive)) by (destruct q; auto).
  destruct Hq as [-> | [-> | Hq]].
  - cbn [xresult]. rewrite Hm. cbn [mbind res_bind].
    destruct (assign_none F (nary_impl V) al (nary_kind V) (nary_tree_kind V EV) HFW w M i c Hw HF Hi) as (w' & Ea & Hw' & Hc').
    rewrite Ea. exists w', None. split; [reflexivity|]. split; [exact Hw'|]. split; [reflexivity|].
    split; [intros z Hz; apply elem_of_nil in Hz as []|exact Hc'].
  - cbn [xresult]. rewrite Hm. cbn [no_children_result]. destruct (nary_facts _ t Ht) as (_ & _ & F3'). change (Some (raddr t)) with (Some (fst (label t))).
    rewrite F3' by (destruct t; left). cbn [mbind res_bind].
    destruct (k_value _ _ _ _ (nary_ok F al) (w_heap w) (snd (label t))) as (b & h1 & c' & E1 & Hr & Hv & _ & _ & Hb). rewrite E1. cbn [mbind res_bind].
    destruct (assign_built F (nary_impl V) al (nary_kind V) (nary_tree_kind V EV) HFW w M i c (Some b) h1 c' Hw HF Hi Hr Hb) as (w' & Ea & Hw' & Hc').
    rewrite Ea. exists w', c'. split; [reflexivity|]. split; [exact Hw'|]. split; [|split; [apply Hb|exact Hc']].
    cbn in Hv |- *. rewrite label_map. exact Hv.
  - destruct (nary_alone F al (w_heap w) t q vm ltac:(lia) Ht Hq) as [[_ (y & Hy & Hn)]|(b & h1 & c' & E1 & Hr & Hv & Hb & _)].
    { rewrite (Hacc Hq y Hy) in Hn. discriminate. }
    assert (Hm' : xs_matched (xp_state x') = Some (raddr t)) by (destruct Hq as [-> | ->]; exact Hm).
    cbn [xresult]. rewrite Hm', E1. cbn [mbind res_bind].
    destruct (assign_built F (nary_impl V) al (nary_kind V) (nary_tree_kind V EV) HFW w M i c (Some b) h1 c' Hw HF Hi Hr Hb) as (w' & Ea & Hw' & Hc').
    rewrite Ea. exists w', c'. split; [reflexivity|]. split; [exact Hw'|]. split; [|split; [apply Hb|exact Hc']].
    destruct Hq as [-> | ->]; exact Hv.
Qed.
Print Assumptions C52_alone_nary.
Theorem C52_alone_binary :
  forall (V : Type) (EV : EqDecision V) (F : nat) (al : allocator (bnode V)), (N.of_nat F <= W64)%N ->
  forall (w : world (bnode V)) (M : gmap tid (bin (addr * V))) (i j : tid) (c : bin (addr * V))
    (h : gmap addr (bnode V)) (t0 : bin (addr * V)) (y0 : addr * V) (l r : bin (addr * V)) (q : quantifier) (vm : V -> bool) (x : xpattern),
  consistent (binary_kind V) w M -> size (w_heap w) < F -> M !! i = Some c -> M !! j = Some t0 -> bsubtree (BNode y0 l r) t0 ->
  xp_pat x = xbuild (SStar q vm []) XNil -> bin_in h (BNode y0 l r) ->
  exists x', xsearch F (binary_impl V) x h (Some (fst y0)) = Ok (true, x') /\
    ((q = QGreedy \/ q = QPossessive -> forall y, y ∈ bin_labels l ++ bin_labels r -> vm (snd y) = true) ->
     exists w' c', xassign_result F (binary_impl V) al b_assign_child_like x' w i = Ret () w' /\
       consistent (binary_kind V) w' (<[i := c']> M) /\ bin_map snd c' = balone q (bin_map snd (BNode y0 l r)) /\
       (forall z, z ∈ baddrs c' -> w_heap w !! z = None) /\
       (caches (binary_kind V) w M -> caches (binary_kind V) w' (<[i := c']> M))).
Proof.
  intros V EV F al HFW w M i j c h t0 y0 l r q vm x Hw HF Hi Hj Hs Hx Hh. set (t := BNode y0 l r) in *.
  assert (Ht0 : bin_in (w_heap w) t0 /\ length (baddrs t0) <= size (w_heap w)).
  { apply (to_holds F _ al _ (binary_tree_kind V EV) HFW) in Hw. pose proof (holds_rep _ _ _ _ _ _ _ _ Hw Hj) as Hrep.
    split; [exists None; exact Hrep|]. exact (holds_size _ _ _ _ _ _ _ _ Hw Hj). }
  destruct Ht0 as [Ht0 Hsz]. pose proof (bin_in_sub _ _ _ Ht0 Hs) as Ht.
  assert (Hst : bin_size t <= bin_size t0) by (clearbody t; clear -Hs; induction Hs; cbn; lia). rewrite length_baddrs in Hsz.
  set (s := Rose y0 (bin_forest l ++ bin_forest r)). assert (Hts : bin_forest t = [s]) by reflexivity. pose proof (forest_size t s Hts) as Hfs.
  destruct (binary_facts h t s Hh Hts) as (F1 & F2 & F3).
  destruct (alone_search F (binary_impl V) h s F1 F2 F3 ltac:(lia) q vm x Hx) as (x' & E & Hpat & Hfound & Hm).
  exists x'. split; [exact E|]. intros Hacc. unfold xassign_result. rewrite Hfound, Hpat, Hx. cbn [negb xbuild foldr].
  assert (Hbelow : forall y, y ∈ flat_map preorder (children s) -> y ∈ bin_labels l ++ bin_labels r).
  { intros y. unfold s. cbn [children]. rewrite flat_map_app, !forest_labels. auto. }
  assert (Hq : q = QReluctant \/ q = QDefault \/ (q = QGreedy \/ q = QPossessive)) by (destruct q; auto).
  destruct Hq as [-> | [-> | Hq]].
  - cbn [xresult]. rewrite Hm. cbn [mbind res_bind].
    destruct (assign_none F (binary_impl V) al (binary_kind V) (binary_tree_kind V EV) HFW w M i c Hw HF Hi) as (w' & Ea & Hw' & Hc').
    rewrite Ea. exists w', BLeaf. split; [reflexivity|]. split; [exact Hw'|]. split; [reflexivity|].
    split; [intros z Hz; apply elem_of_nil in Hz as []|exact Hc'].
  - cbn [xresult]. rewrite Hm. cbn [no_children_result]. destruct (binary_facts _ t s Ht Hts) as (_ & _ & F3'). change (Some (raddr s)) with (Some (fst y0)).
    rewrite F3' by left. cbn [mbind res_bind].
    destruct (k_value _ _ _ _ (binary_ok F al) (w_heap w) (snd y0)) as (b & h1 & c' & E1 & Hr & Hv & _ & _ & Hb). rewrite E1. cbn [mbind res_bind].
    destruct (assign_built F (binary_impl V) al (binary_kind V) (binary_tree_kind V EV) HFW w M i c (Some b) h1 c' Hw HF Hi Hr Hb) as (w' & Ea & Hw' & Hc').
    rewrite Ea. exists w', c'. split; [reflexivity|]. split; [exact Hw'|]. split; [exact Hv|split; [apply Hb|exact Hc']].
  - destruct (binary_alone F al (w_heap w) t s q vm ltac:(lia) Ht Hts Hq) as [[_ (y & Hy & Hn)]|(b & h1 & c' & E1 & Hr & Hv & Hb & _)].
    { rewrite (Hacc Hq y (Hbelow y Hy)) in Hn. discriminate. }
    assert (Hm' : xs_matched (xp_state x') = Some (raddr s)) by (destruct Hq as [-> | ->]; exact Hm).
    rewrite (bin_root t s Hts) in E1. cbn [xresult]. rewrite Hm', E1. cbn [mbind res_bind].
    destruct (assign_built F (binary_impl V) al (binary_kind V) (binary_tree_kind V EV) HFW w M i c (Some b) h1 c' Hw HF Hi Hr Hb) as (w' & Ea & Hw' & Hc').
    rewrite Ea. exists w', c'. split; [reflexivity|]. split; [exact Hw'|]. split; [|split; [apply Hb|exact Hc']].
    destruct Hq as [-> | ->]; exact Hv.
Qed.
Print Assumptions C52_alone_binary.
(** In an empty tree it is found too, and the reported tree is empty. *)
Theorem C52_empty :
  forall (V : Type) (EV : EqDecision V) (F : nat) (al : allocator (nnode V)), (N.of_nat F <= W64)%N ->
  forall (w : world (nnode V)) (M : gmap tid (option (rose (addr * V)))) (i : tid) (c : option (rose (addr * V)))
    (h : gmap addr (nnode V)) (q : quantifier) (vm : V -> bool) (x : xpattern),
  consistent (nary_kind V) w M -> size (w_heap w) < F -> M !! i = Some c -> xp_pat x = xbuild (SStar q vm []) XNil ->
  exists x' w', xsearch F (nary_impl V) x h None = Ok (true, x') /\
    xassign_result F (nary_impl V) al (n_assign_child_like F) x' w i = Ret () w' /\ consistent (nary_kind V) w' (<[i := None]> M).
Proof.
  intros V EV F al HFW w M i c h q vm x Hw HF Hi Hx.
  destruct (alone_search_empty F (nary_impl V) h q vm x ltac:(lia) Hx) as (x' & E & Hpat & Hfound & Hm).
  destruct (assign_none F (nary_impl V) al (nary_kind V) (nary_tree_kind V EV) HFW w M i c Hw HF Hi) as (w' & Ea & Hw' & Hc').
  exists x', w'. split; [exact E|]. split; [|exact Hw']. unfold xassign_result. rewrite Hfound, Hpat, Hx. cbn [negb xbuild foldr xresult]. rewrite Hm.
  cbn [mbind res_bind]. rewrite Ea. reflexivity.
Qed.
Print Assumptions C52_empty.

(** *** What is wrong *)
(** One node below the root that the test does not accept, and assign_result of
    the greedy and of the possessive [star] does not end: whatever the number [F]
    of steps it is given, it is used up. *)
Theorem C53_hang_nary_refuted :
  forall (V : Type) (EV : EqDecision V) (F : nat) (al : allocator (nnode V)), (N.of_nat F <= W64)%N ->
  forall (w : world (nnode V)) (M : gmap tid (option (rose (addr * V)))) (i j : tid)
    (h : gmap addr (nnode V)) (t0 t : rose (addr * V)) (q : quantifier) (vm : V -> bool) (x : xpattern),
  consistent (nary_kind V) w M -> size (w_heap w) < F -> M !! j = Some (Some t0) -> rsubtree t t0 ->
  q = QGreedy \/ q = QPossessive -> (exists y, y ∈ flat_map preorder (children t) /\ vm (snd y) = false) ->
  xp_pat x = xbuild (SStar q vm []) XNil -> nary_in h t ->
  exists x', xsearch F (nary_impl V) x h (Some (raddr t)) = Ok (true, x') /\
    xassign_result F (nary_impl V) al (n_assign_child_like F) x' w i = Bad OutOfFuel.
Proof.
  intros V EV F al HFW w M i j h t0 t q vm x Hw HF Hj Hs Hq Hbad Hx Hh.
  assert (Ht0 : nary_in (w_heap w) t0 /\ rsize t0 <= size (w_heap w)).
  { apply (to_holds F _ al _ (nary_tree_kind V EV) HFW) in Hw. pose proof (holds_rep _ _ _ _ _ _ _ _ Hw Hj) as Hrep.
    split; [exists None, None, None, (szt 0); exact Hrep|]. pose proof (holds_size _ _ _ _ _ _ _ _ Hw Hj) as Hl. cbn in Hl.
    unfold raddrs in Hl. rewrite map_length, length_preorder in Hl. exact Hl. }
  destruct Ht0 as [Ht0 Hsz]. pose proof (nary_in_sub _ _ _ Ht0 Hs) as Ht.
  assert (Hst : rsize t <= rsize t0) by (apply rsubtree_plug in Hs as [cx <-]; pose proof (ctx_length_size cx t); lia).
  destruct (nary_facts h t Hh) as (F1 & F2 & F3).
  destruct (alone_search F (nary_impl V) h t F1 F2 F3 ltac:(lia) q vm x Hx) as (x' & E & Hpat & Hfound & Hm).
  exists x'. split; [exact E|]. unfold xassign_result. rewrite Hfound, Hpat, Hx. cbn [negb xbuild foldr].
  assert (Hm' : xs_matched (xp_state x') = Some (raddr t)) by (destruct Hq as [-> | ->]; exact Hm).
  destruct (nary_alone F al (w_heap w) t q vm ltac:(lia) Ht Hq) as [[E1 _]|(b & h1 & c' & _ & _ & _ & _ & Hn)]; [|destruct (Hn Hbad)].
  cbn [xresult]. rewrite Hm', E1. reflexivity.
Qed.
Print Assumptions C53_hang_nary_refuted.
Theorem C53_hang_binary_refuted :
  forall (V : Type) (EV : EqDecision V) (F : nat) (al : allocator (bnode V)), (N.of_nat F <= W64)%N ->
  forall (w : world (bnode V)) (M : gmap tid (bin (addr * V))) (i j : tid)
    (h : gmap addr (bnode V)) (t0 : bin (addr * V)) (y0 : addr * V) (l r : bin (addr * V)) (q : quantifier) (vm : V -> bool) (x : xpattern),
  consistent (binary_kind V) w M -> size (w_heap w) < F -> M !! j = Some t0 -> bsubtree (BNode y0 l r) t0 ->
  q = QGreedy \/ q = QPossessive -> (exists y, y ∈ bin_labels l ++ bin_labels r /\ vm (snd y) = false) ->
  xp_pat x = xbuild (SStar q vm []) XNil -> bin_in h (BNode y0 l r) ->
  exists x', xsearch F (binary_impl V) x h (Some (fst y0)) = Ok (true, x') /\
    xassign_result F (binary_impl V) al b_assign_child_like x' w i = Bad OutOfFuel.
Proof.
  intros V EV F al HFW w M i j h t0 y0 l r q vm x Hw HF Hj Hs Hq Hbad Hx Hh. set (t := BNode y0 l r) in *.
  assert (Ht0 : bin_in (w_heap w) t0 /\ length (baddrs t0) <= size (w_heap w)).
  { apply (to_holds F _ al _ (binary_tree_kind V EV) HFW) in Hw. pose proof (holds_rep _ _ _ _ _ _ _ _ Hw Hj) as Hrep.
    split; [exists None; exact Hrep|]. exact (holds_size _ _ _ _ _ _ _ _ Hw Hj). }
  destruct Ht0 as [Ht0 Hsz]. pose proof (bin_in_sub _ _ _ Ht0 Hs) as Ht.
  assert (Hst : bin_size t <= bin_size t0) by (clearbody t; clear -Hs; induction Hs; cbn; lia). rewrite length_baddrs in Hsz.
  set (s := Rose y0 (bin_forest l ++ bin_forest r)). assert (Hts : bin_forest t = [s]) by reflexivity. pose proof (forest_size t s Hts) as Hfs.
  destruct (binary_facts h t s Hh Hts) as (F1 & F2 & F3).
  destruct (alone_search F (binary_impl V) h s F1 F2 F3 ltac:(lia) q vm x Hx) as (x' & E & Hpat & Hfound & Hm).
  exists x'. split; [exact E|]. unfold xassign_result. rewrite Hfound, Hpat, Hx. cbn [negb xbuild foldr].
  assert (Hbad' : bad vm (children s)).
  { destruct Hbad as (y & Hy & Hn). exists y. split; [|exact Hn]. unfold s. cbn [children]. rewrite flat_map_app, !forest_labels. exact Hy. }
  assert (Hm' : xs_matched (xp_state x') = Some (raddr s)) by (destruct Hq as [-> | ->]; exact Hm).
  destruct (binary_alone F al (w_heap w) t s q vm ltac:(lia) Ht Hts Hq) as [[E1 _]|(b & h1 & c' & _ & _ & _ & _ & Hn)]; [|destruct (Hn Hbad')].
  rewrite (bin_root t s Hts) in E1. cbn [xresult]. rewrite Hm', E1. reflexivity.
Qed.
Print Assumptions C53_hang_binary_refuted.
(** A test that accepts no value: [star(v)] still matches every tree, and reports
    its root. *)
Theorem C53_root_refuted :
  forall (V : Type) (EV : EqDecision V) (F : nat) (al : allocator (nnode V)), (N.of_nat F <= W64)%N ->
  forall (w : world (nnode V)) (M : gmap tid (option (rose (addr * V)))) (i j : tid) (c : option (rose (addr * V))) (t : rose (addr * V)),
  consistent (nary_kind V) w M -> size (w_heap w) < F -> M !! i = Some c -> M !! j = Some (Some t) ->
  exists x' w' a, xsearch F (nary_impl V) (make_xpattern (xbuild (SStar QDefault (fun _ => false) []) XNil)) (w_heap w) (Some (raddr t)) = Ok (true, x') /\
    xassign_result F (nary_impl V) al (n_assign_child_like F) x' w i = Ret () w' /\
    consistent (nary_kind V) w' (<[i := Some (Rose (a, snd (label t)) [])]> M).
Proof.
  intros V EV F al HFW w M i j c t Hw HF Hi Hj.
  assert (Ht : nary_in (w_heap w) t).
  { pose proof Hw as Hw'. apply (to_holds F _ al _ (nary_tree_kind V EV) HFW) in Hw'. pose proof (holds_rep _ _ _ _ _ _ _ _ Hw' Hj) as Hrep. exists None, None, None, (szt 0); exact Hrep. }
  destruct (C52_alone_nary V EV F al HFW w M i j c (w_heap w) t t QDefault (fun _ => false) (make_xpattern (xbuild (SStar QDefault (fun _ => false) []) XNil))
    Hw HF Hi Hj (rsub_here t) eq_refl Ht) as (x' & E & Hres).
  destruct Hres as (w' & c' & E' & Hw' & Hv & _); [intros [|]; discriminate|]. cbn in Hv.
  destruct c' as [[[a v] ts]|]; [|discriminate]. cbn in Hv. injection Hv as -> Hts. destruct ts; [|discriminate].
  exists x', w', a. rewrite label_map in Hw'. auto.
Qed.
Print Assumptions C53_root_refuted.

(** *** Cases met: 10 (20, 30 (50, 60), 40), with tests that accept all, and all but 60. *)
Example C52_used : forall q, exists x' w' c', xsearch 100 (nary_impl nat) (make_xpattern (xbuild (SStar q (fun v => 15 <? v) []) XNil)) ex_nheap (Some 1%positive) = Ok (true, x') /\
  xassign_result 100 (nary_impl nat) (first_fit _) (n_assign_child_like 100) x' ex_nw 2%positive = Ret () w' /\
  consistent (nary_kind nat) w' (<[2%positive := c']> ex_nM) /\ nvals c' = alone q (rose_map snd ex_nary).
Proof.
  intros q. destruct (C52_alone_nary nat _ 100 (first_fit _) ex_word ex_nw ex_nM 2%positive 1%positive (Some (Rose (7%positive, 70) [])) ex_nheap ex_nary ex_nary q (fun v => 15 <? v)
    (make_xpattern (xbuild (SStar q (fun v => 15 <? v) []) XNil)) ex_nw_ok ltac:(pose proof ex_fuel; lia) eq_refl eq_refl (rsub_here _) eq_refl ex_nary_in) as (x' & E & H).
  destruct H as (w' & c' & E' & Hw' & Hv & _).
  { intros _ y Hy. vm_compute in Hy. repeat (apply elem_of_cons in Hy as [->|Hy]; [reflexivity|]). apply elem_of_nil in Hy as []. }
  exists x', w', c'. auto.
Qed.
Example C53_used : exists x', xsearch 100 (nary_impl nat) (make_xpattern (xbuild (SStar QGreedy (fun v => v <? 60) []) XNil)) ex_nheap (Some 1%positive) = Ok (true, x') /\
  xassign_result 100 (nary_impl nat) (first_fit _) (n_assign_child_like 100) x' ex_nw 2%positive = Bad OutOfFuel.
Proof.
  refine (C53_hang_nary_refuted nat _ 100 (first_fit _) ex_word ex_nw ex_nM 2%positive 1%positive ex_nheap ex_nary ex_nary QGreedy (fun v => v <? 60)
    (make_xpattern (xbuild (SStar QGreedy (fun v => v <? 60) []) XNil)) ex_nw_ok ltac:(pose proof ex_fuel; lia) eq_refl (rsub_here _) (or_introl eq_refl) _ eq_refl ex_nary_in).
  exists (6%positive, 60). split; [|reflexivity]. vm_compute. set_solver.
Qed.
Example C52_used_binary : forall q, exists x', xsearch 100 (binary_impl nat) (make_xpattern (xbuild (SStar q (fun v => 15 <? v) []) XNil)) ex_bheap (Some 1%positive) = Ok (true, x').
Proof.
  intros q. destruct (C52_alone_binary nat _ 100 (first_fit _) ex_word ex_bw ex_bM 2%positive 1%positive (BNode (7%positive, 70) BLeaf BLeaf) ex_bheap ex_bin (1%positive, 10) _ _ q (fun v => 15 <? v)
    (make_xpattern (xbuild (SStar q (fun v => 15 <? v) []) XNil)) ex_bw_ok ltac:(pose proof ex_fuel; lia) eq_refl eq_refl (bsub_here _) eq_refl ex_bin_in) as (x' & E & _). eauto.
Qed.
