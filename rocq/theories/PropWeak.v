(** PropWeak.v: patterns with an optional node that has no children (C45).

    The claim, for every pattern: searching always ends; a childless [opt(v)]
    takes at most a node accepted by [v]; adding it to a pattern does not make a
    search succeed that failed without it; and what assign_result yields are nodes
    of the tree, in their positions.  The first part is proved; the others are
    false. *)
From Verif Require Import Base Spec MatchSpec StructNode BinaryNode NaryNode Nav Policy Tree Rep RoseFacts NavFacts
  BinRep NaryRep Iter IterTrees IterMain NodeFacts EditSpec User World Kinds TreeSpec TreeOps TreeBin TreeNary TreeFacts
  Matcher OptSpec MatchUser MatchFacts MatchWalk MatchResult MatchKinds MatchBin MatchCaps MatchMain WeakFacts Examples Examples2
  PropOpt PropMatch PropMove.

(** Whatever the pattern, and whatever was searched before with it, a search in a
    tree object or in a subtree of it ends and follows no invalid pointer. *)
Theorem C45_search_ends_nary_partial :
  forall (V : Type) (EV : EqDecision V) (F : nat) (w : world (nnode V)) (M : gmap tid (option (rose (addr * V)))) (j : tid)
    (t0 t : rose (addr * V)) (x : pattern (V := V)),
  consistent (nary_kind V) w M -> size (w_heap w) < F -> M !! j = Some (Some t0) -> rsubtree t t0 -> (N.of_nat F <= W64)%N ->
  exists b x', search F (nary_impl V) x (w_heap w) (Some (raddr t)) = Ok (b, x').
Proof.
  intros V EV F w M j t0 t x Hw HF Hj Hs HFW. pose proof (first_fit (nnode V)) as al.
  apply (to_holds F _ al _ (nary_tree_kind V EV) HFW) in Hw. pose proof (holds_rep _ _ _ _ _ _ _ _ Hw Hj) as [Hr Hnd].
  pose proof (holds_size _ _ _ _ _ _ _ _ Hw Hj) as Hl. cbn in Hl. unfold raddrs in Hl. rewrite map_length, length_preorder in Hl.
  pose proof (nrep_root _ _ _ _ _ _ Hr) as Hroot.
  destruct (tree_safe F (nary_impl V) (w_heap w) t0) with (p := p_pat x) (root := Some (raddr t)) as (b & s & it & E & _).
  - exact (nrep_ops_ok _ _ _ _ _ _ Hr).
  - intros y Hy. eapply nrep_value; eassumption.
  - lia.
  - cbn. unfold n_parent. rewrite (deref_Some _ _ _ Hroot). reflexivity.
  - cbn. unfold n_next. rewrite (deref_Some _ _ _ Hroot). reflexivity.
  - cbn. unfold node_of. rewrite pre_fst. apply elem_of_list_fmap. exists (label t). split; [reflexivity|].
    apply rsubtree_plug in Hs as [c <-]. apply position_elem.
  - unfold search, get_instance. assert (Hfix : fix_navigator_root (tree_nav (nary_impl V) (w_heap w)) Fixed (Some (raddr t)) (Some (raddr t)) = Ok (Some (raddr t))) by reflexivity.
    rewrite Hfix. cbn [mbind res_bind]. unfold reset. rewrite E. cbn [mbind res_bind]. eauto.
Qed.
Print Assumptions C45_search_ends_nary_partial.
Theorem C45_search_ends_binary_partial :
  forall (V : Type) (EV : EqDecision V) (F : nat) (w : world (bnode V)) (M : gmap tid (bin (addr * V))) (j : tid)
    (t0 t : bin (addr * V)) (x : pattern (V := V)),
  consistent (binary_kind V) w M -> size (w_heap w) < F -> M !! j = Some t0 -> bsubtree t t0 -> (N.of_nat F <= W64)%N ->
  exists b x', search F (binary_impl V) x (w_heap w) (baddr t) = Ok (b, x').
Proof.
  intros V EV F w M j t0 t x Hw HF Hj Hs HFW. pose proof (first_fit (bnode V)) as al.
  apply (to_holds F _ al _ (binary_tree_kind V EV) HFW) in Hw. pose proof (holds_rep _ _ _ _ _ _ _ _ Hw Hj) as [Hr Hnd].
  pose proof (holds_size _ _ _ _ _ _ _ _ Hw Hj) as Hl. cbn [caddrs binary_kind] in Hl.
  destruct t0 as [|[a v] l r].
  { assert (t = BLeaf) as -> by (inversion Hs; reflexivity). unfold search. cbn [baddr]. cbn [get_instance fix_navigator_root mbind res_bind].
    destruct (search_safe F (binary_impl V) (w_heap w) (fun _ => False)) with (p := p_pat x) (s := @MSNil) (it := Iter Fixed None None [] None) as (b & s & it & E & _);
      try (intros ? []); [lia|exact I|split; [left; reflexivity|exact I]|]. unfold reset. rewrite E. cbn [mbind res_bind]. eauto. }
  set (s0 := Rose (a, v) (bin_forest l ++ bin_forest r)).
  assert (Hts : bin_forest (BNode (a, v) l r) = [s0]) by reflexivity.
  assert (Hlab : bin_labels (BNode (a, v) l r) = preorder s0) by (rewrite <- forest_labels, Hts; cbn [flat_map]; rewrite app_nil_r; reflexivity).
  pose proof (brep_ops_ok _ _ _ Hr Hnd) as Hops. unfold brose in Hops. rewrite bin_forest_map', Hts in Hops. apply Forall_inv in Hops.
  pose proof (proj1 Hr) as Hroot.
  destruct (tree_safe F (binary_impl V) (w_heap w) s0) with (p := p_pat x) (root := baddr t) as (b & s & it & E & _).
  - exact Hops.
  - intros y Hy. apply (bin_value (w_heap w) (BNode (a, v) l r)); [exists None; auto|]. rewrite Hlab. exact Hy.
  - unfold baddrs in Hl. rewrite map_length, Hlab, length_preorder in Hl. lia.
  - cbn. unfold b_parent. rewrite (deref_Some _ _ _ Hroot). reflexivity.
  - cbn. unfold b_next, b_is_left. rewrite (deref_Some _ _ _ Hroot). reflexivity.
  - destruct t as [|[b w1] tl tr]; [exact I|]. cbn. unfold node_of. rewrite pre_fst, <- Hlab. apply elem_of_list_fmap. exists (b, w1). split; [reflexivity|].
    clear -Hs. remember (BNode (a, v) l r) as t0. remember (BNode (b, w1) tl tr) as t1. clear Heqt0. induction Hs; subst; cbn.
    + left.
    + set_solver +IHHs.
    + set_solver +IHHs.
  - unfold search, get_instance. assert (Hfix : fix_navigator_root (tree_nav (binary_impl V) (w_heap w)) Fixed (baddr t) (baddr t) = Ok (baddr t)) by (destruct (baddr t); reflexivity).
    rewrite Hfix. cbn [mbind res_bind]. unfold reset. rewrite E. cbn [mbind res_bind]. eauto.
Qed.
Print Assumptions C45_search_ends_binary_partial.

(** *** What is false *)
(** The tree 1 (2 (5 (9, 6), 8), 2 (5, 3)), and an empty tree. *)
Definition ex_weak : rose (addr * nat) :=
  Rose (1%positive, 1)
    [Rose (2%positive, 2) [Rose (4%positive, 5) [Rose (6%positive, 9) []; Rose (7%positive, 6) []]; Rose (5%positive, 8) []];
     Rose (3%positive, 2) [Rose (8%positive, 5) []; Rose (9%positive, 3) []]].
Definition ex_weak_heap : gmap addr (nnode nat) := list_to_map
 [(1%positive, NNodeR 1 None 0 None None (Some 2%positive) (Some 3%positive));
  (2%positive, NNodeR 2 (Some 1%positive) 1 None (Some 3%positive) (Some 4%positive) (Some 5%positive));
  (3%positive, NNodeR 2 (Some 1%positive) 0 (Some 2%positive) None (Some 8%positive) (Some 9%positive));
  (4%positive, NNodeR 5 (Some 2%positive) 1 None (Some 5%positive) (Some 6%positive) (Some 7%positive));
  (5%positive, NNodeR 8 (Some 2%positive) 0 (Some 4%positive) None None None);
  (6%positive, NNodeR 9 (Some 4%positive) 1 None (Some 7%positive) None None);
  (7%positive, NNodeR 6 (Some 4%positive) 0 (Some 6%positive) None None None);
  (8%positive, NNodeR 5 (Some 3%positive) 1 None (Some 9%positive) None None);
  (9%positive, NNodeR 3 (Some 3%positive) 0 (Some 8%positive) None None None)].
Definition ex_weak_w : world (nnode nat) :=
  World ex_weak_heap (<[1%positive := TreeRec (Some 1%positive) 0 0 (Some 1%positive)]> (<[2%positive := TreeRec None 0 0 None]> ∅)).
Example ex_weak_ok : consistent (nary_kind nat) ex_weak_w (<[1%positive := Some ex_weak]> (<[2%positive := None]> ∅)).
Proof.
  apply (consistent_two (nary_kind nat) _ (Some ex_weak) None 0 0 0 0 [1;2;4;6;7;5;3;8;9]%positive).
  - split; [vm_compute; tauto|]. apply (bool_decide_unpack _). vm_compute. exact I.
  - exact I.
  - vm_compute. reflexivity.
  - reflexivity.
  - vm_compute. reflexivity.
Qed.
Definition is (n : nat) : nat -> bool := fun m => m =? n.
(** Search in the tree above, assign the result to the empty tree. *)
Definition weak_run (u : upat nat) : option (bool * world (nnode nat)) :=
  match search 100 (nary_impl nat) (make_pattern (build u PNil)) ex_weak_heap (Some 1%positive) with
  | Ok (b, x) =>
      match assign_result 100 (nary_impl nat) (first_fit _) (n_assign_child_like 100) x ex_weak_w 2%positive with
      | Ret _ w => Some (b, w)
      | _ => None
      end
  | Err _ => None
  end.
Ltac run_weak u t :=
  destruct (weak_run u) as [[b w]|] eqn:E; [|vm_compute in E; discriminate];
  assert (b = true) as -> by (vm_compute in E; congruence);
  exists w; split; [reflexivity|];
  exists t; split; [split; [exists None, None, None, 0%N; split; [vm_compute in E; injection E as <-; vm_compute; tauto|apply (bool_decide_unpack _); vm_compute; exact I]|]|].

(** A childless [opt] below the root takes the first child whatever it accepts:
    it leaves the matchers in the state in which a [one] that accepts everything
    leaves them. *)
Section Leaf.
  Context {V Nd : Type}.
  Variable F : nat.
  Variable im : node_impl V Nd.
  Variable h : gmap addr Nd.
  Notation any := (fun _ : V => true).

  Lemma leaf_search k (f g : V -> bool) it x y cs ds ts :
    (k = MOne /\ g = any \/ exists q, q <> QReluctant /\ k = MOpt q) -> f (snd x) = true ->
    walks F im h it (Rose x (Rose y cs :: ds) :: ts) ->
    exists i, search_node F im h (PN MOne f (PN k g PNil PNil) PNil) MSNil it
      = Ok (true, MS (Some (fst x)) (MS (Some (fst y)) MSNil MSNil) MSNil, i).
  Proof.
    intros Hk Hf Hw. inversion Hw as [|? ? ? ? it' ti Hc Hv Hi Hw1 Ht Hwt _ Hne HF1 HF]; subst.
    destruct (walks_fixed _ _ _ _ _ _ _ Hwt) as (fi & Hfi & _).
    inversion Hwt as [|? ? ? ? it2 ti2 Hc2 Hv2 Hi2 Hw2 Ht2 _ _ _ _ _]; subst.
    destruct F as [|n]; [lia|]. exists it'.
    assert (E : exists j, search_node (S n) im h (PN k g PNil PNil) MSNil ti = Ok (true, MS (Some (fst y)) MSNil MSNil, j)).
    { exists it2. destruct Hk as [[-> ->]|(q & Hq & ->)].
      - cbn [search_node prefers_null ms_matched ms_first ms_next]. rewrite Hc2, Hv2. cbn [mbind res_bind negb]. rewrite Ht2.
        cbn [mbind res_bind]. rewrite Hi2. reflexivity.
      - assert (Hpn : prefers_null (PN (MOpt q) g PNil PNil) = false) by (destruct q; try reflexivity; congruence).
        cbn [search_node ms_matched ms_first ms_next]. rewrite Hpn, Hc2, Hv2. cbn [mbind res_bind].
        destruct (g (snd y)); cbn [negb].
        + rewrite Ht2. cbn [mbind res_bind]. rewrite andb_false_r. cbn [mbind res_bind]. rewrite Hi2. reflexivity.
        + change (child_may_steal PNil) with true. cbv iota. rewrite Hfi. cbn [mbind res_bind]. rewrite Hi2. reflexivity. }
    destruct E as [j E]. set (p := PN k g PNil PNil) in *.
    cbn [search_node prefers_null ms_matched ms_first ms_next]. rewrite Hc, Hv. cbn [mbind res_bind]. rewrite Hf. cbn [negb].
    rewrite Ht. cbn [mbind res_bind]. rewrite E. cbn [mbind res_bind]. rewrite Hi. cbn [mbind res_bind negb]. reflexivity.
  Qed.
  Lemma leaf_result al like q f g a b w i :
    assign_result F im al like (Pattern (PN MOne f (PN (MOpt q) g PNil PNil) PNil) (MS (Some a) (MS (Some b) MSNil MSNil) MSNil) true) w i =
    assign_result F im al like (Pattern (PN MOne f (PN MOne any PNil PNil) PNil) (MS (Some a) (MS (Some b) MSNil MSNil) MSNil) true) w i.
  Proof. reflexivity. Qed.
End Leaf.

Lemma leaf_leftmost {V} (f : V -> bool) (z y : addr * V) cs ds m :
  leftmost snd (Rose f [Rose (fun _ => true) []]) (Rose z (Rose y cs :: ds)) m -> rose_map snd m = Rose (snd z) [Rose (snd y) []].
Proof.
  intros Hl. remember (Rose z (Rose y cs :: ds)) as t eqn:Et. remember (Rose f [Rose (fun _ : V => true) []]) as p eqn:Ep.
  destruct Hl as [p0 ps x0 ts ms H0 H1]. injection Et as -> ->. injection Ep as -> ->. cbn. f_equal.
  remember (Rose y cs :: ds) as ts eqn:Et. remember [Rose (fun _ : V => true) []] as ps eqn:Ep.
  destruct H1 as [ts|p ps t ts m ms H1 H2|p ps t ts ms H1 H2].
  - discriminate.
  - injection Ep as -> ->. injection Et as -> ->. remember [] as ps eqn:Ep. destruct H2; [|discriminate|discriminate].
    remember (Rose y cs) as t eqn:Et. remember (Rose (fun _ : V => true) []) as p eqn:Ep2.
    destruct H1 as [p0 ps x0 ts1 ms H0' H1]. injection Et as -> ->. injection Ep2 as -> ->.
    remember [] as ps eqn:Ep2 in H1. destruct H1; [reflexivity|discriminate|discriminate].
  - injection Ep as -> ->. injection Et as -> ->. exfalso. apply (H1 (Rose y [])). constructor; [reflexivity|constructor].
Qed.

(** Whatever [g] accepts, [one(f)(opt(g))] takes the first child of a node
    accepted by [f] (unless the quantifier is reluctant). *)
Theorem C45_value_nary_refuted :
  forall (V : Type) (EV : EqDecision V) (F : nat) (al : allocator (nnode V)), (N.of_nat F <= W64)%N ->
  forall (w : world (nnode V)) (M : gmap tid (option (rose (addr * V)))) (i j : tid) (c : option (rose (addr * V)))
    (t0 : rose (addr * V)) (a : addr) (v : V) (d : rose (addr * V)) (ds : list (rose (addr * V)))
    (f g : V -> bool) (q : quantifier) (x : pattern),
  consistent (nary_kind V) w M -> size (w_heap w) < F -> M !! i = Some c -> M !! j = Some (Some t0) ->
  rsubtree (Rose (a, v) (d :: ds)) t0 -> q <> QReluctant -> f v = true ->
  p_pat x = build (UOne f [UOpt q g []]) PNil ->
  exists x' w' c', search F (nary_impl V) x (w_heap w) (Some a) = Ok (true, x') /\
    assign_result F (nary_impl V) al (n_assign_child_like F) x' w i = Ret () w' /\
    consistent (nary_kind V) w' (<[i := c']> M) /\ nvals c' = Some (Rose v [Rose (snd (label d)) []]).
Proof.
  intros V EV F al HFW w M i j c t0 a v [y cs] ds f g q x Hw HF Hi Hj Hsub Hq Hf Hx.
  assert (nary_in (w_heap w) (Rose (a, v) (Rose y cs :: ds)) /\ rsize (Rose (a, v) (Rose y cs :: ds)) < F) as [Hin HF'].
  { pose proof Hw as Hw'. apply (to_holds F _ al _ (nary_tree_kind V EV) HFW) in Hw'.
    pose proof (holds_rep _ _ _ _ _ _ _ _ Hw' Hj) as [Hr Hnd]. pose proof (holds_size _ _ _ _ _ _ _ _ Hw' Hj) as Hl.
    cbn in Hl. unfold raddrs in Hl. rewrite map_length, length_preorder in Hl. split.
    - eapply nary_in_sub; [|exact Hsub]. exists None, None, None, 0%N. split; assumption.
    - apply rsubtree_plug in Hsub as [k <-]. pose proof (plug_size_le k (Rose (a, v) (Rose y cs :: ds))). lia. }
  pose proof (nary_walks F _ _ Hin HF') as Hwk.
  destruct (leaf_search F (nary_impl V) (w_heap w) (MOpt q) f g _ (a, v) y cs ds [] (or_intror (ex_intro _ q (conj Hq eq_refl))) Hf Hwk) as [i1 E1].
  destruct (leaf_search F (nary_impl V) (w_heap w) MOne f (fun _ => true) _ (a, v) y cs ds [] (or_introl (conj eq_refl eq_refl)) Hf Hwk) as [i2 E2].
  set (u := UOne f [UOne (fun _ => true) []]).
  assert (S2 : search F (nary_impl V) (make_pattern (build u PNil)) (w_heap w) (Some a) = Ok (true, Pattern (build u PNil) (MS (Some a) (MS (Some (fst y)) MSNil MSNil) MSNil) true)).
  { unfold search, get_instance. change (fix_navigator_root (tree_nav (nary_impl V) (w_heap w)) Fixed (Some a) (Some a)) with (Ok (Some a)).
    cbn [mbind res_bind]. change (raddr (Rose (a, v) (Rose y cs :: ds))) with a in E2. unfold reset.
    change (p_pat (make_pattern (build u PNil))) with (PN MOne f (PN MOne (fun _ : V => true) PNil PNil) PNil). rewrite E2. reflexivity. }
  assert (S1 : search F (nary_impl V) x (w_heap w) (Some a) = Ok (true, Pattern (p_pat x) (MS (Some a) (MS (Some (fst y)) MSNil MSNil) MSNil) true)).
  { unfold search, get_instance. change (fix_navigator_root (tree_nav (nary_impl V) (w_heap w)) Fixed (Some a) (Some a)) with (Ok (Some a)).
    cbn [mbind res_bind]. change (raddr (Rose (a, v) (Rose y cs :: ds))) with a in E1. unfold reset.
    rewrite Hx. change (build (UOne f [UOpt q g []]) PNil) with (PN MOne f (PN (MOpt q) g PNil PNil) PNil). rewrite E1. cbn. rewrite orb_true_r. reflexivity. }
  destruct (C40_result_nary V EV F al HFW w M i j c (w_heap w) t0 _ u (make_pattern (build u PNil)) _ Hw HF Hi Hj Hsub ltac:(cbn; auto) eq_refl Hin S2)
    as (m & w' & c' & Hl & E & Hw' & Hv & _).
  eexists _, w', c'. split; [exact S1|]. rewrite Hx. split; [|split; [exact Hw'|]].
  - exact E.
  - rewrite Hv. f_equal. exact (leaf_leftmost f (a, v) y cs ds m Hl).
Qed.
Print Assumptions C45_value_nary_refuted.

Theorem C45_value_binary_refuted :
  forall (V : Type) (EV : EqDecision V) (F : nat) (al : allocator (bnode V)), (N.of_nat F <= W64)%N ->
  forall (w : world (bnode V)) (M : gmap tid (bin (addr * V))) (i j : tid) (c t0 t : bin (addr * V))
    (a : addr) (v : V) (d : rose (addr * V)) (ds : list (rose (addr * V))) (f g : V -> bool) (q : quantifier) (x : pattern),
  consistent (binary_kind V) w M -> size (w_heap w) < F -> M !! i = Some c -> M !! j = Some t0 ->
  bsubtree t t0 -> bin_forest t = [Rose (a, v) (d :: ds)] -> q <> QReluctant -> f v = true ->
  p_pat x = build (UOne f [UOpt q g []]) PNil ->
  exists x' w' c', search F (binary_impl V) x (w_heap w) (baddr t) = Ok (true, x') /\
    assign_result F (binary_impl V) al b_assign_child_like x' w i = Ret () w' /\
    consistent (binary_kind V) w' (<[i := c']> M) /\ bin_forest (bin_map snd c') = [Rose v [Rose (snd (label d)) []]].
Proof.
  intros V EV F al HFW w M i j c t0 t a v [y cs] ds f g q x Hw HF Hi Hj Hsub Hfor Hq Hf Hx.
  assert (Hba : baddr t = Some a).
  { destruct t as [|z tl tr]; [discriminate|]. cbn in Hfor. injection Hfor as -> _. reflexivity. }
  assert (bin_in (w_heap w) t /\ rsize (Rose (a, v) (Rose y cs :: ds)) < F) as [Hin HF'].
  { pose proof Hw as Hw'. apply (to_holds F _ al _ (binary_tree_kind V EV) HFW) in Hw'.
    pose proof (holds_rep _ _ _ _ _ _ _ _ Hw' Hj) as [Hr Hnd]. pose proof (holds_size _ _ _ _ _ _ _ _ Hw' Hj) as Hl.
    cbn in Hl. assert (Hin : bin_in (w_heap w) t) by (eapply bin_in_sub; [|exact Hsub]; exists None; split; assumption).
    split; [exact Hin|].
    assert (Hlab : bin_labels t = preorder (Rose (a, v) (Rose y cs :: ds))) by (rewrite <- forest_labels, Hfor; cbn; rewrite app_nil_r; reflexivity).
    pose proof (f_equal length Hlab) as Hlen. rewrite length_preorder in Hlen.
    assert (Hle : length (bin_labels t) <= length (baddrs t0)).
    { clear -Hsub. unfold baddrs. rewrite map_length. induction Hsub; cbn; rewrite ?app_length; lia. }
    rewrite Hlen in Hle. lia. }
  pose proof (binary_walks F _ _ _ Hin Hfor HF') as Hwk.
  destruct (leaf_search F (binary_impl V) (w_heap w) (MOpt q) f g _ (a, v) y cs ds [] (or_intror (ex_intro _ q (conj Hq eq_refl))) Hf Hwk) as [i1 E1].
  destruct (leaf_search F (binary_impl V) (w_heap w) MOne f (fun _ => true) _ (a, v) y cs ds [] (or_introl (conj eq_refl eq_refl)) Hf Hwk) as [i2 E2].
  set (u := UOne f [UOne (fun _ => true) []]). 
  assert (S2 : search F (binary_impl V) (make_pattern (build u PNil)) (w_heap w) (baddr t) = Ok (true, Pattern (build u PNil) (MS (Some a) (MS (Some (fst y)) MSNil MSNil) MSNil) true)).
  { rewrite Hba. unfold search, get_instance. change (fix_navigator_root (tree_nav (binary_impl V) (w_heap w)) Fixed (Some a) (Some a)) with (Ok (Some a)).
    cbn [mbind res_bind]. change (raddr (Rose (a, v) (Rose y cs :: ds))) with a in E2. unfold reset.
    change (p_pat (make_pattern (build u PNil))) with (PN MOne f (PN MOne (fun _ : V => true) PNil PNil) PNil). rewrite E2. reflexivity. }
  assert (S1 : search F (binary_impl V) x (w_heap w) (baddr t) = Ok (true, Pattern (p_pat x) (MS (Some a) (MS (Some (fst y)) MSNil MSNil) MSNil) true)).
  { rewrite Hba. unfold search, get_instance. change (fix_navigator_root (tree_nav (binary_impl V) (w_heap w)) Fixed (Some a) (Some a)) with (Ok (Some a)).
    cbn [mbind res_bind]. change (raddr (Rose (a, v) (Rose y cs :: ds))) with a in E1. unfold reset.
    rewrite Hx. change (build (UOne f [UOpt q g []]) PNil) with (PN MOne f (PN (MOpt q) g PNil PNil) PNil). rewrite E1. cbn. rewrite orb_true_r. reflexivity. }
  destruct (C40_result_binary V EV F al HFW w M i j c (w_heap w) t0 t _ u (make_pattern (build u PNil)) _ Hw HF Hi Hj Hsub Hfor ltac:(cbn; auto) eq_refl Hin S2)
    as (m & b & w' & c' & Hl & Hb & _ & E & Hw' & Hv & _).
  eexists _, w', c'. split; [exact S1|]. rewrite Hx. split; [|split; [exact Hw'|]].
  - exact E.
  - rewrite Hv. rewrite bin_forest_map', Hb. cbn [map]. rewrite (leaf_leftmost f (a, v) y cs ds m Hl). reflexivity.
Qed.
Print Assumptions C45_value_binary_refuted.
(** For instance *)
(** [one(1)(opt(99))] takes the child 2, which 99 does not accept. *)
Example C45_value_used :
  exists w', weak_run (UOne (is 1) [UOpt QDefault (is 99) []]) = Some (true, w') /\
  exists t', (nary_in (w_heap w') t' /\ (t_root <$> w_trees w' !! 2%positive) = Some (Some (raddr t'))) /\ rose_map snd t' = Rose 1 [Rose 2 []].
Proof.
  run_weak (UOne (is 1) [UOpt QDefault (is 99) []]) (Rose (10%positive, 1) [Rose (11%positive, 2) []]).
  - vm_compute in E. injection E as <-. reflexivity.
  - reflexivity.
Qed.

(** A node left over from a candidate that was given up is reported: the result
    is 1 (2 (5 (9), 3)), but no 5 with a child 9 has a sibling 3. *)
Theorem C45_stale_refuted :
  exists w', weak_run (UOne (is 1) [UOne (is 2) [UOne (is 5) [UOpt QDefault (fun _ => true) []]; UOne (is 3) []]]) = Some (true, w') /\
  exists t', (nary_in (w_heap w') t' /\ (t_root <$> w_trees w' !! 2%positive) = Some (Some (raddr t'))) /\
    rose_map snd t' = Rose 1 [Rose 2 [Rose 5 [Rose 9 []]; Rose 3 []]] /\
    forall p m, occurs snd p ex_weak m -> rose_map snd m <> rose_map snd t'.
Proof.
  run_weak (UOne (is 1) [UOne (is 2) [UOne (is 5) [UOpt QDefault (fun _ => true) []]; UOne (is 3) []]])
    (Rose (10%positive, 1) [Rose (11%positive, 2) [Rose (12%positive, 5) [Rose (13%positive, 9) []]; Rose (14%positive, 3) []]]).
  - vm_compute in E. injection E as <-. reflexivity.
  - split; [reflexivity|]. clear E. intros p m H E. unfold ex_weak in H. cbn [rose_map snd map] in E.
    repeat match goal with
    | H : _ = _ |- _ => discriminate H
    | H : occurs _ _ _ _ |- _ => inversion H; clear H; subst
    | H : chosen _ _ _ _ |- _ => inversion H; clear H; subst
    | H : _ = _ |- _ => progress cbn [rose_map map snd] in H
    | H : Rose _ _ = Rose _ _ |- _ => injection H; clear H; intros
    | H : _ :: _ = _ :: _ |- _ => injection H; clear H; intros
    end; try discriminate; cbn in *; congruence.
Qed.
Print Assumptions C45_stale_refuted.
(** [one(1)(one(2)(one(5)(opt(), one(6)), one(3)))] is found, although without
    the optional node the pattern is not. *)
Theorem C45_false_positive_refuted :
  (exists w', weak_run (UOne (is 1) [UOne (is 2) [UOne (is 5) [UOpt QDefault (fun _ => true) []; UOne (is 6) []]; UOne (is 3) []]]) = Some (true, w')) /\
  (forall m, ~ matches snd (UOne (is 1) [UOne (is 2) [UOne (is 5) [UOne (is 6) []]; UOne (is 3) []]]) ex_weak m) /\
  (exists x, search 100 (nary_impl nat) (make_pattern (build (UOne (is 1) [UOne (is 2) [UOne (is 5) [UOne (is 6) []]; UOne (is 3) []]]) PNil))
     ex_weak_heap (Some 1%positive) = Ok (false, x)).
Proof.
  split; [|split].
  - destruct (weak_run (UOne (is 1) [UOne (is 2) [UOne (is 5) [UOpt QDefault (fun _ => true) []; UOne (is 6) []]; UOne (is 3) []]])) as [[b w]|] eqn:E; [|vm_compute in E; discriminate].
    assert (b = true) as -> by (vm_compute in E; congruence). eauto.
  - intros m H. unfold ex_weak in H.
    repeat match goal with
    | H : _ = true |- _ => discriminate H
    | H : matches _ _ _ _ |- _ => inversion H; clear H; subst
    | H : matches_all _ _ _ _ |- _ => inversion H; clear H; subst
    end.
  - destruct (search _ _ _ _ _) as [[b x]|] eqn:E; [|vm_compute in E; discriminate]. assert (b = false) as -> by (vm_compute in E; congruence). eauto.
Qed.
Print Assumptions C45_false_positive_refuted.
