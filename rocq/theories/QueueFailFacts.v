(** QueueFailFacts.v: the calls of QueueFail.v compared with those of Tree.v. *)
From Verif Require Import Base Spec EditSpec StructNode BinaryNode NaryNode Nav Policy Tree User Rep Kinds World TreeSpec TreeOps TreeOps2 TreeOps3 TreeFacts QueueFail.

(** *** Making a breadth-first iterator *)
Definition left_over (room : nat) (acc acc' : list ptr) : option (list ptr * nat) :=
  if decide (length acc' <= length acc + room) then Some (acc', length acc + room - length acc') else None.

Lemma process_try nav node acc acc' room : process_child nav node acc = Ok acc' ->
  length acc <= length acc' /\ process_child_try nav node (acc, room) = Ok (left_over room acc acc').
Proof.
  unfold process_child, process_child_try. destruct (nav_first nav node) as [fc|]; [|discriminate]. cbn [mbind res_bind]. intros [= <-]. unfold left_over.
  destruct fc as [b|].
  - rewrite app_length. cbn [length]. split; [lia|]. unfold push_try. cbn [snd fst]. destruct room as [|room].
    + rewrite decide_False by lia. reflexivity.
    + rewrite decide_True by lia. do 3 f_equal. lia.
  - split; [lia|]. rewrite decide_True by lia. do 3 f_equal. lia.
Qed.
Lemma scan_try F nav k : forall node stop acc acc' room, scan_right F nav k node stop acc = Ok acc' ->
  length acc <= length acc' /\ scan_right_try F nav k node stop (acc, room) = Ok (left_over room acc acc').
Proof.
  induction k as [|k IH]; intros node stop acc acc' room; cbn [scan_right scan_right_try]; [discriminate|].
  destruct node as [b|].
  2:{ intros [= <-]. split; [lia|]. unfold left_over. rewrite decide_True by lia. do 3 f_equal. lia. }
  destruct (ptr_eqb (Some b) stop).
  { intros [= <-]. split; [lia|]. unfold left_over. rewrite decide_True by lia. do 3 f_equal. lia. }
  destruct (process_child nav (Some b) acc) as [acc1|] eqn:E1; [|discriminate]. cbn [mbind res_bind].
  destruct (process_try nav (Some b) acc acc1 room E1) as [L1 ->]. cbn [mbind res_bind].
  destruct (get_other_branch nav F false (Some b)) as [node'|] eqn:E2; [|discriminate]. cbn [mbind res_bind].
  intros E3. unfold left_over. destruct (decide (length acc1 <= length acc + room)) as [Hd|Hd].
  - destruct (IH node' stop acc1 acc' (length acc + room - length acc1) E3) as [L2 ->]. split; [lia|]. unfold left_over.
    destruct (decide (length acc' <= length acc1 + (length acc + room - length acc1))); [rewrite decide_True by lia; do 3 f_equal; lia|rewrite decide_False by lia; reflexivity].
  - destruct (IH node' stop acc1 acc' 0 E3) as [L2 _]. split; [lia|]. rewrite decide_False by lia. reflexivity.
Qed.
Lemma manage_try_ok F nav cur q room : manage_initial_status F nav cur = Ok q ->
  manage_try F nav room cur = Ok (if decide (length q <= room) then Some q else None).
Proof.
  unfold manage_initial_status, manage_try. destruct cur as [b|].
  2:{ intros [= <-]. rewrite decide_True by (cbn; lia). reflexivity. }
  destruct (nav_next nav (Some b)) as [ns|]; [|discriminate]. cbn [mbind res_bind].
  set (acc := match ns with Some _ => [ns] | None => [] end).
  destruct (if nav_is_root nav (Some b) then Ok None else p ← nav_parent nav (Some b); get_other_branch nav F false p) as [node|]; [|discriminate]. cbn [mbind res_bind].
  destruct (scan_right F nav F node None acc) as [acc1|] eqn:E1; [|discriminate]. cbn [mbind res_bind].
  destruct (get_row_extremum nav F true (Some b)) as [node2|]; [|discriminate]. cbn [mbind res_bind].
  destruct (scan_right F nav F node2 (Some b) acc1) as [acc2|] eqn:E2; [|discriminate]. cbn [mbind res_bind]. intros E3.
  assert (E0 : (match ns with Some _ => push_try ns ([], room) | None => Some ([], room) end) = left_over room [] acc).
  { unfold acc, left_over. destruct ns; cbn [length].
    - unfold push_try. cbn [snd fst app]. destruct room; [rewrite decide_False by lia; reflexivity|rewrite decide_True by lia; do 2 f_equal; lia].
    - rewrite decide_True by lia. do 2 f_equal. lia. }
  rewrite E0. unfold left_over at 1. cbn [length].
  pose proof (proj1 (scan_try F nav F node None acc acc1 0 E1)) as L1. pose proof (proj1 (scan_try F nav F node2 (Some b) acc1 acc2 0 E2)) as L2.
  pose proof (proj1 (process_try nav (Some b) acc2 q 0 E3)) as L3.
  destruct (decide (length acc <= 0 + room)) as [D0|D0]; [|rewrite decide_False by lia; reflexivity].
  rewrite (proj2 (scan_try F nav F node None acc acc1 _ E1)). cbn [mbind res_bind]. unfold left_over at 1.
  destruct (decide (length acc1 <= length acc + (0 + room - length acc))) as [D1|D1]; [|rewrite decide_False by lia; reflexivity].
  rewrite (proj2 (scan_try F nav F node2 (Some b) acc1 acc2 _ E2)). cbn [mbind res_bind]. unfold left_over at 1.
  destruct (decide (length acc2 <= length acc1 + _)) as [D2|D2]; [|rewrite decide_False by lia; reflexivity].
  rewrite (proj2 (process_try nav (Some b) acc2 q _ E3)). cbn [mbind res_bind]. unfold left_over.
  destruct (decide (length q <= length acc2 + _)) as [D3|D3]; [rewrite decide_True by lia|rewrite decide_False by lia]; reflexivity.
Qed.

(** Whether the memory is too short for the queue of an iterator. *)
Definition short (room : nat) (it : iter) : Prop := it_kind it = BreadthFirst /\ room < length (it_open it).
Global Instance short_dec room it : Decision (short room it).
Proof. unfold short. apply _. Defined.

Lemma get_instance_try_ok F mknav room k cur root it : get_instance F mknav k cur root = Ok it ->
  get_instance_try F mknav room k cur root = Ok (if decide (short room it) then None else Some it).
Proof.
  unfold get_instance, get_instance_try, short. destruct (fix_navigator_root mknav k cur root) as [r|]; [|discriminate]. cbn [mbind res_bind].
  assert (D : k = BreadthFirst \/ k <> BreadthFirst) by (destruct k; auto; right; discriminate). destruct D as [->|D].
  - destruct (manage_initial_status F (mknav r) cur) as [q|] eqn:E; [|discriminate]. cbn [mbind res_bind]. intros [= <-]. cbn [it_kind it_open].
    rewrite (manage_try_ok F _ cur q room E). cbn [mbind res_bind].
    destruct (decide (length q <= room)); [rewrite decide_False by lia|rewrite decide_True by (split; [reflexivity|lia])]; reflexivity.
  - assert (Hcase : match k with BreadthFirst => manage_initial_status F (mknav r) cur | _ => Ok [] end = Ok []) by (destruct k; try congruence; reflexivity).
    assert (Hcase2 : match k with BreadthFirst => manage_try F (mknav r) room cur | _ => Ok (Some []) end = Ok (Some [])) by (destruct k; try congruence; reflexivity).
    rewrite Hcase2. rewrite Hcase. cbn [mbind res_bind]. intros [= <-]. cbn [it_kind it_open]. rewrite decide_False by (intros [Hk _]; congruence). reflexivity.
Qed.

(** *** Adding children *)
Section Add.
  Context {V Nd : Type}.
  Variable F : nat.
  Variable im : node_impl V Nd.
  Variable al : allocator Nd.

  Lemma add_child_made first w i pos node s r it w' : add_child F im first w i pos node s r = Ret it w' ->
    exists t', get_tree w' i = Ok t' /\ get_instance F (tree_nav im (w_heap w')) (it_kind pos) (it_cur pos) (t_nav t') = Ok it /\
      (forall j, j <> i -> w_trees w' !! j = w_trees w !! j).
  Proof.
    unfold add_child. destruct (it_cur pos) as [a|].
    2:{ destruct (drop F im w node); discriminate. }
    destruct (ni_children im (w_heap w) (Some a)) as [k|]; [|discriminate]. cbn [res_out].
    destruct (ni_binary im && (k =? 2)%N). { destruct (drop F im w node); discriminate. }
    destruct (if first then ni_prepend im F (w_heap w) (Some a) node else ni_append im F (w_heap w) (Some a) node) as [[p h]|]; [|discriminate]. cbn [mbind res_bind].
    destruct (get_tree w i) as [t|]; [|discriminate]. cbn [mbind res_bind].
    destruct (op_first (ni_ops im h) (Some a)) as [fc|]; [|discriminate]. cbn [mbind res_bind].
    destruct (match fc with Some _ => k0 ← ni_following im h fc; Ok (wadd k0 1) | None => Ok 1%N end) as [l|]; [|discriminate]. cbn [mbind res_bind].
    destruct (get_instance F (tree_nav im h) (it_kind pos) (Some a) (t_nav t)) as [it'|] eqn:E; [|discriminate]. cbn. intros [= -> <-].
    eexists. unfold get_tree, set_tree. cbn [w_trees w_heap]. rewrite lookup_insert. split; [reflexivity|]. split; [exact E|].
    intros j Hj. rewrite lookup_insert_ne by congruence. reflexivity.
  Qed.
  Lemma add_child_try_ok room first w i pos node s r it w' : add_child F im first w i pos node s r = Ret it w' ->
    add_child_try F im room first w i pos node s r = if decide (short room it) then Throw w' else Ret it w'.
  Proof.
    intros E. destruct (add_child_made _ _ _ _ _ _ _ _ _ E) as (t' & Et & Ei & _). unfold add_child_try. rewrite E. cbn [out_bind]. rewrite Et. cbn [mbind res_bind].
    rewrite (get_instance_try_ok _ _ room _ _ _ _ Ei). cbn [res_out]. destruct (decide (short room it)); reflexivity.
  Qed.

  Lemma insert_child_try_ok room first emplace w i pos src it w' : (forall j, src <> SrcMove j) ->
    insert_child F im al first emplace w i pos src = Ret it w' ->
    insert_child_try F im al room first emplace w i pos src = if decide (short room it) then Throw w' else Ret it w'.
  Proof.
    intros Hm. unfold insert_child, insert_child_try. destruct src as [v|s|j|t|j].
    - destruct (ni_from_value im al (w_heap w) v) as [[a h]|]; [|discriminate]. apply add_child_try_ok.
    - destruct (ni_from_struct im al (w_heap w) s) as [[a h]|]; [|discriminate]. cbn [res_out]. destruct (first && negb emplace); apply add_child_try_ok.
    - destruct (get_tree w j) as [t|]; [|discriminate]. cbn [mbind res_bind]. destruct (copy_root F im al (w_heap w) t) as [[p h]|]; [|discriminate]. apply add_child_try_ok.
    - destruct (copy_root F im al (w_heap w) t) as [[p h]|]; [|discriminate]. apply add_child_try_ok.
    - destruct (Hm j eq_refl).
  Qed.
  (** A moved tree: the throw comes before its root is set to null. *)
  Lemma insert_child_try_move first emplace w i j t pos it w' : w_trees w !! j = Some t -> t_root t <> None ->
    insert_child F im al first emplace w i pos (SrcMove j) = Ret it w' ->
    exists w2 tj, w' = nullify w2 j /\ i <> j /\ w_trees w2 !! j = Some tj /\ t_root tj = t_root t /\
      forall room, insert_child_try F im al room first emplace w i pos (SrcMove j) = if decide (short room it) then Throw w2 else Ret it w'.
  Proof.
    intros Ht Hr. unfold insert_child. destruct (decide (i = j)) as [|Hne]; [discriminate|].
    assert (Hgt : get_tree w j = Ok t) by (unfold get_tree; rewrite Ht; reflexivity). rewrite Hgt. cbn [mbind res_bind].
    destruct (replace_node F im w j (t_root t) None 0 0) as [[p w1]|] eqn:Er; [|discriminate]. cbn [res_out].
    destruct (add_child F im first w1 i pos p 1 0) as [it0 w2|w2|e] eqn:Ea; try discriminate. cbn [out_bind]. intros [= -> <-].
    destruct (add_child_made _ _ _ _ _ _ _ _ _ Ea) as (t' & _ & _ & Ho). specialize (Ho j ltac:(congruence)).
    assert (Hj : exists tj, w_trees w1 !! j = Some tj /\ t_root tj = t_root t).
    { unfold replace_node in Er. destruct (t_root t) as [r|] eqn:Et; [|congruence]. unfold get_tree in Er. rewrite Ht in Er. cbn [mbind res_bind] in Er.
      rewrite Et in Er. cbn [is_null negb guard_res mbind res_bind] in Er.
      destruct (ni_replace_with im F (w_heap w) (Some r) None) as [h|]; [|discriminate]. cbn [mbind res_bind] in Er.
      assert (Hpp : ptr_eqb (Some r) (Some r) = true) by (cbn; apply bool_decide_eq_true; reflexivity). rewrite Hpp in Er. injection Er as _ <-. eexists. unfold set_tree. cbn [w_trees]. rewrite lookup_insert. split; [reflexivity|reflexivity]. }
    destruct Hj as (tj & Hj & Hrj). exists w2, tj. split; [reflexivity|]. split; [exact Hne|]. split; [rewrite Ho; exact Hj|]. split; [exact Hrj|].
    intros room. unfold insert_child_try. rewrite decide_False by exact Hne. rewrite Hgt. cbn [mbind res_bind]. rewrite Er. cbn [res_out].
    rewrite (add_child_try_ok room _ _ _ _ _ _ _ _ _ Ea). destruct (decide (short room it)); reflexivity.
  Qed.

  (** The other policies have no queue. *)
  Lemma instance_kind mknav k cur root it : get_instance F mknav k cur root = Ok it -> it_kind it = k.
  Proof.
    unfold get_instance. destruct (fix_navigator_root mknav k cur root) as [r|]; [|discriminate]. cbn [mbind res_bind].
    destruct (match k with BreadthFirst => manage_initial_status F (mknav r) cur | _ => Ok [] end); [|discriminate]. cbn [mbind res_bind]. intros [= <-]. reflexivity.
  Qed.
  Lemma add_child_try_other room first w i pos node s r : it_kind pos <> BreadthFirst ->
    add_child_try F im room first w i pos node s r = add_child F im first w i pos node s r.
  Proof.
    intros Hk. destruct (add_child F im first w i pos node s r) as [it w'|w'|e] eqn:E.
    - rewrite (add_child_try_ok room _ _ _ _ _ _ _ _ _ E). destruct (add_child_made _ _ _ _ _ _ _ _ _ E) as (t' & _ & Ei & _). apply instance_kind in Ei.
      rewrite decide_False; [reflexivity|]. intros [Hb _]. congruence.
    - unfold add_child_try. rewrite E. reflexivity.
    - unfold add_child_try. rewrite E. reflexivity.
  Qed.
  Lemma insert_child_try_other room first emplace w i pos src : it_kind pos <> BreadthFirst ->
    insert_child_try F im al room first emplace w i pos src = insert_child F im al first emplace w i pos src.
  Proof.
    intros Hk. unfold insert_child, insert_child_try. destruct src as [v|s|j|t|j].
    - destruct (ni_from_value im al (w_heap w) v) as [[a h]|]; [|reflexivity]. cbn [res_out]. apply add_child_try_other, Hk.
    - destruct (ni_from_struct im al (w_heap w) s) as [[a h]|]; [|reflexivity]. cbn [res_out]. destruct (first && negb emplace); apply add_child_try_other, Hk.
    - destruct (t ← get_tree w j; copy_root F im al (w_heap w) t) as [[p h]|]; [|reflexivity]. cbn [res_out]. apply add_child_try_other, Hk.
    - destruct (copy_root F im al (w_heap w) t) as [[p h]|]; [|reflexivity]. cbn [res_out]. apply add_child_try_other, Hk.
    - destruct (decide (i = j)); [reflexivity|]. destruct (t ← get_tree w j; replace_node F im w j (t_root t) None 0 0) as [[p w1]|]; [|reflexivity]. cbn [res_out].
      rewrite add_child_try_other by exact Hk. reflexivity.
  Qed.
  (** The queue of a node with children. *)
  Lemma queue_ne h a b root it : get_instance F (tree_nav im h) BreadthFirst (Some a) root = Ok it -> op_first (ni_ops im h) (Some a) = Ok (Some b) ->
    0 < length (it_open it).
  Proof.
    unfold get_instance. destruct (fix_navigator_root (tree_nav im h) BreadthFirst (Some a) root) as [r|]; [|discriminate]. cbn [mbind res_bind]. intros E Hf.
    destruct (manage_initial_status F (tree_nav im h r) (Some a)) as [q|] eqn:Eq; [|discriminate]. cbn [mbind res_bind] in E. injection E as <-. cbn [it_open].
    unfold manage_initial_status in Eq. destruct (nav_next (tree_nav im h r) (Some a)) as [ns|]; [|discriminate]. cbn [mbind res_bind] in Eq.
    destruct (if nav_is_root (tree_nav im h r) (Some a) then Ok None else p ← nav_parent (tree_nav im h r) (Some a); get_other_branch (tree_nav im h r) F false p) as [node|]; [|discriminate]. cbn [mbind res_bind] in Eq.
    destruct (scan_right F (tree_nav im h r) F node None _) as [acc1|]; [|discriminate]. cbn [mbind res_bind] in Eq.
    destruct (get_row_extremum (tree_nav im h r) F true (Some a)) as [node2|]; [|discriminate]. cbn [mbind res_bind] in Eq.
    destruct (scan_right F (tree_nav im h r) F node2 (Some a) acc1) as [acc2|]; [|discriminate]. cbn [mbind res_bind] in Eq.
    unfold process_child in Eq. change (nav_first (tree_nav im h r) (Some a)) with (op_first (ni_ops im h) (Some a)) in Eq. rewrite Hf in Eq. cbn [mbind res_bind] in Eq. injection Eq as <-.
    rewrite app_length. cbn. lia.
  Qed.

  (** *** Replacing *)
  Lemma update_try room h it cur p it' fc : it_update im h it cur p = Ok it' ->
    (match p with None => Ok None | Some _ => op_first (ni_ops im h) p end) = Ok fc ->
    it_update_try im room h it cur p = Ok (if decide (it_kind it = BreadthFirst /\ room = 0 /\ fc <> None) then None else Some it').
  Proof.
    unfold it_update, it_update_try. intros E Hf.
    assert (D : it_kind it = BreadthFirst \/ it_kind it <> BreadthFirst) by (destruct (it_kind it); auto; right; discriminate). destruct D as [D|D].
    - rewrite D in *. destruct (nav_first (tree_nav im h (it_root it)) cur) as [f|]; [|discriminate]. cbn [mbind res_bind] in *.
      destruct (match f with Some _ => b ← back (it_open it); p0 ← nav_parent (tree_nav im h (it_root it)) b; _ ← guard_res (ptr_eqb p0 cur); pop_back (it_open it) | None => Ok (it_open it) end) as [open1|]; [|discriminate]. cbn [mbind res_bind] in *.
      change (nav_first (tree_nav im h (it_root it)) p) with (op_first (ni_ops im h) p) in *. rewrite Hf in *. cbn [mbind res_bind] in *. injection E as <-.
      destruct fc as [c|]; [|rewrite decide_False by (intros (_ & _ & H); congruence); reflexivity].
      destruct room as [|room]; [rewrite decide_True by (repeat split; discriminate); reflexivity|rewrite decide_False by (intros (_ & H & _); discriminate); reflexivity].
    - rewrite decide_False by (intros (H & _); congruence). destruct (it_kind it); try congruence; cbn in *; injection E as <-; reflexivity.
  Qed.
  Lemma update_try_other room h it cur p : it_kind it <> BreadthFirst ->
    it_update_try im room h it cur p = (x ← it_update im h it cur p; Ok (Some x)).
  Proof.
    intros D. unfold it_update, it_update_try. destruct (it_kind it); try congruence; reflexivity.
  Qed.
  Lemma modify_try_other room w i pos p s r : it_kind pos <> BreadthFirst ->
    modify_subtree_try F im room w i pos p s r = modify_subtree F im w i pos p s r.
  Proof.
    intros D. unfold modify_subtree, modify_subtree_try. destruct (get_tree w i) as [t|]; [|reflexivity]. cbn [res_out].
    destruct (it_cur pos) as [a|]; [|reflexivity]. rewrite update_try_other by exact D.
    destruct (guard_res (negb (is_null (t_root t)))); [|reflexivity]. cbn [mbind res_bind].
    destruct (it_update im (w_heap w) pos (Some a) p) as [pos'|]; [|reflexivity]. cbn [mbind res_bind res_out]. reflexivity.
  Qed.
  Lemma insert_over_try_other room w i pos src : it_kind pos <> BreadthFirst ->
    insert_over_try F im al room w i pos src = insert_over F im al w i pos src.
  Proof.
    intros D. unfold insert_over, insert_over_try. destruct src as [v|st|j|t|j].
    - destruct (ni_from_value im al (w_heap w) v) as [[a h]|]; [|reflexivity]. cbn [res_out]. apply modify_try_other, D.
    - destruct (ni_from_struct im al (w_heap w) st) as [[a h]|]; [|reflexivity]. cbn [res_out]. apply modify_try_other, D.
    - destruct (t ← get_tree w j; copy_root F im al (w_heap w) t) as [[p h]|]; [|reflexivity]. cbn [res_out].
      destruct ('(s, w1) ← tree_size F im (set_heap w h) j; '(r, w2) ← tree_arity F im w1 j; Ok (s, r, w2)) as [[[s r] w2]|]; [|reflexivity]. cbn [res_out]. apply modify_try_other, D.
    - destruct (copy_root F im al (w_heap w) t) as [[p h]|]; [|reflexivity]. cbn [res_out].
      destruct ('(s, t1) ← size_of F im h t; '(r, _) ← arity_of F im h t1; Ok (s, r)) as [[s r]|]; [|reflexivity]. cbn [res_out]. apply modify_try_other, D.
    - destruct (decide (i = j)); [reflexivity|]. destruct (t ← get_tree w j; replace_node F im w j (t_root t) None 0 0) as [[p w1]|]; [|reflexivity]. cbn [res_out].
      destruct ('(s, w2) ← tree_size F im w1 j; '(r, w3) ← tree_arity F im w2 j; Ok (s, r, w3)) as [[[s r] w3]|]; [|reflexivity]. cbn [res_out].
      rewrite modify_try_other by exact D. reflexivity.
  Qed.
  (** With the position at node [a], the call comes to: the queue needs room for the
      first child of the new subtree. *)
  Lemma modify_try room w i t pos a p s r pos' fc : get_tree w i = Ok t -> t_root t <> None -> it_cur pos = Some a ->
    it_update im (w_heap w) pos (Some a) p = Ok pos' ->
    (match p with None => Ok None | Some _ => op_first (ni_ops im (w_heap w)) p end) = Ok fc ->
    modify_subtree_try F im room w i pos p s r =
      if decide (it_kind pos = BreadthFirst /\ room = 0 /\ fc <> None) then Throw w else modify_subtree F im w i pos p s r.
  Proof.
    intros Ht Hr Hc Hu Hf. unfold modify_subtree, modify_subtree_try. rewrite Ht. cbn [res_out]. rewrite Hc.
    assert (Hn : negb (is_null (t_root t)) = true) by (destruct (t_root t); [reflexivity|congruence]). rewrite Hn. cbn [guard_res mbind res_bind].
    rewrite (update_try room _ _ _ _ _ _ Hu Hf), Hu. cbn [res_out].
    destruct (decide (it_kind pos = BreadthFirst /\ room = 0 /\ fc <> None)); reflexivity.
  Qed.
End Add.

Section Over.
  Context {V Nd : Type}.
  Variable F : nat.
  Variable im : node_impl V Nd.
  Variable al : allocator Nd.
  Variable K : kind_data V Nd.
  Hypothesis KO : kind_ok F im al K.
  Hypothesis HFW : (N.of_nat F <= W64)%N.
  Notation holds := (World.holds (croot K) (caddrs K) (crep K)).
  Notation len c := (length (caddrs K c)).

  (** Taking the argument, for both versions of the call. *)
  Lemma prepare_try w M i src x M1 : holds w M [] -> is_Some (M !! i) -> gives K w M i src x M1 -> fits F w src -> (forall j, src <> SrcMove j) ->
    exists u s r w1, M1 = M /\ (forall pos, insert_over F im al w i pos src = modify_subtree F im w1 i pos (croot K u) s r) /\
      (forall room pos, insert_over_try F im al room w i pos src = modify_subtree_try F im room w1 i pos (croot K u) s r) /\
      holds w1 M [u] /\ cvals K u = x /\ placed K w M src u /\ (forall c, M !! i = Some c -> len c + len u < F).
  Proof using KO HFW.
    intros H [ci Hi] Hg HF Hm. unfold fits in HF. inversion Hg; subst; cbn [needs] in HF.
    - destruct (k_value _ _ _ _ KO (w_heap w) v) as (a & h & u & Ha & Hr & Hv & Hl & Har & Hb).
      assert (P : prepared F K w M1 i (SrcValue v) _ M1 u (set_heap w h)) by (apply (prepared_new F im al K KO HFW); [exact H|exact Hb|exact Hv|exact Hm|lia]).
      exists u, 1%N, 0%N, (set_heap w h). split; [reflexivity|]. split; [|split; [|split; [|split; [|split]]]]; try apply P.
      + intros pos. unfold insert_over. rewrite Ha. cbn [res_out]. rewrite <- Hr. reflexivity.
      + intros room pos. unfold insert_over_try. rewrite Ha. cbn [res_out]. rewrite <- Hr. reflexivity.
    - destruct (k_struct _ _ _ _ KO (w_heap w) v cs H0) as (a & h & u & Ha & Hr & Hv & Hl & Har & Hb).
      assert (P : prepared F K w M1 i (SrcStruct (eval_lit (LNode v cs))) (lit_vals K (LNode v cs)) M1 u (set_heap w h)).
      { apply (prepared_new F im al K KO HFW); [exact H|exact Hb|exact Hv|exact Hm|]. rewrite (lit_len F im al K KO HFW u v cs) by assumption. exact HF. }
      exists u, (subtree_size (eval_lit (LNode v cs))), (subtree_arity (eval_lit (LNode v cs))), (set_heap w h). split; [reflexivity|]. split; [|split; [|split; [|split; [|split]]]]; try apply P.
      + intros pos. unfold insert_over. rewrite Ha. cbn [res_out]. rewrite <- Hr. reflexivity.
      + intros room pos. unfold insert_over_try. rewrite Ha. cbn [res_out]. rewrite <- Hr. reflexivity.
    - destruct (holds_get _ _ _ _ _ _ _ _ H H0) as (t & Ht & Hgt & Hr & _).
      pose proof (holds_size _ _ _ _ _ _ _ _ H H0) as Hsz.
      destruct (copy_root_ok F im al K KO (w_heap w) t c) as (u & h & Hcp & Hv & Hl & Har & Hb); [|exact Hr|lia|].
      { eapply (rep_src F im al K KO), holds_rep; eassumption. }
      assert (P : prepared F K w M1 i (SrcCopy j) (cvals K c) M1 u (set_heap w h)).
      { apply (prepared_new F im al K KO HFW); try assumption. lia. }
      destruct (measure_ok F im al K KO HFW (set_heap w h) M1 [u] j c (pr_holds _ _ _ _ _ _ _ _ _ _ P) H0 ltac:(lia)) as (s & r & w2 & Hme & H2 & Hh2 & _).
      exists u, s, r, w2. split; [reflexivity|]. split; [|split; [|split; [exact H2|split; [|split]]]]; try apply P.
      + intros pos. unfold insert_over. rewrite Hgt. cbn [mbind res_bind]. rewrite Hcp. cbn [res_out]. rewrite Hme. reflexivity.
      + intros room pos. unfold insert_over_try. rewrite Hgt. cbn [mbind res_bind]. rewrite Hcp. cbn [res_out]. rewrite Hme. reflexivity.
    - pose proof (src_size F im al K KO _ _ H0) as Hsz.
      destruct (copy_root_ok F im al K KO (w_heap w) t c H0 H1 ltac:(lia)) as (u & h & Hcp & Hv & Hl & Har & Hb).
      assert (P : prepared F K w M1 i (SrcView t) (cvals K c) M1 u (set_heap w h)) by (apply (prepared_new F im al K KO HFW); try assumption; lia).
      assert (Hs : csrc K h c) by (eapply built_old_src; [exact KO|exact Hb|exact H0]).
      destruct (size_of_ok F im al K KO h t c Hs H1 ltac:(lia)) as (s & Es & Hs1 & Hs2).
      destruct (arity_of_ok F im al K KO h (TreeRec (t_root t) s (t_arity t) (t_nav t)) c Hs H1 ltac:(lia) ltac:(lia)) as (r & Er & Hr1 & Hr2).
      exists u, s, r, (set_heap w h). split; [reflexivity|]. split; [|split; [|split; [|split; [|split]]]]; try apply P.
      + intros pos. unfold insert_over. rewrite Hcp. cbn [res_out]. rewrite Es. cbn [mbind res_bind]. rewrite Er. reflexivity.
      + intros room pos. unfold insert_over_try. rewrite Hcp. cbn [res_out]. rewrite Es. cbn [mbind res_bind]. rewrite Er. reflexivity.
    - destruct (Hm j eq_refl).
  Qed.

  (** Whether the new subtree has a child of its root. *)
  Lemma first_of h u : crep K h u -> exists fc, (match croot K u with None => Ok None | Some _ => op_first (ni_ops im h) (croot K u) end) = Ok fc /\
    (fc = None <-> (croot K u = None \/ exists b, croot K u = Some b /\ cdeg K b u = 0)) /\ (1 < len u -> croot K u <> None -> fc <> None).
  Proof using KO HFW.
    intros Hu. destruct (croot K u) as [b|] eqn:E.
    - pose proof (k_root _ _ _ _ KO u b E) as Hb. destruct (k_deg _ _ _ _ KO h u b Hu Hb) as (fc & Hf & H0 & _). exists fc. split; [exact Hf|]. split.
      + rewrite H0. split; [intros D; right; eauto|]. intros [D|(b' & [= <-] & D)]; [discriminate|exact D].
      + intros Hl _ ->. destruct (k_deg_sub _ _ _ _ KO h u b Hu Hb) as [_ Hs]. specialize (Hs (proj1 H0 eq_refl)).
        destruct (k_subst _ _ _ _ KO h u u b Hu Hb) as (_ & Hsub & _). rewrite (proj1 (Hsub E)) in Hs. lia.
    - exists None. split; [reflexivity|]. split; [tauto|]. intros _ H. congruence.
  Qed.
End Over.
