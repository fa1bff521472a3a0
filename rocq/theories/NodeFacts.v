(** NodeFacts.v: the node queries, the navigation primitives and the siblings and
    fixed policies, in terms of the tree in the heap. *)
From Verif Require Import Base Spec StructNode LitFacts BinaryNode NaryNode Nav Policy Tree RoseFacts RowFacts
  NavFacts BranchFacts Orders PolicyFacts BinOrder Rep BinRep BinOps NaryRep NaryOps NaryOps2 User Iter IterTrees IterMain.

(** ** Subtrees and positions. *)
Lemma rsubtree_plug {A} (s t : rose A) : rsubtree s t <-> exists c, plug c s = t.
Proof.
  split.
  - induction 1 as [|a cs c Hc _ [x Hx]]; [exists []; reflexivity|].
    apply elem_of_list_split in Hc as (ls & rs & ->). exists (x ++ [(ls, a, rs)]). rewrite plug_app, Hx. reflexivity.
  - intros [c <-]. revert s. induction c as [|[[ls a] rs] c IH] using rev_ind; intros s; [constructor|].
    rewrite plug_app. cbn. eapply rsub_child; [|apply IH]. set_solver +.
Qed.
Lemma bsubtree_plug {A} (s t : bin A) : bsubtree s t <-> exists c, bplug c s = t.
Proof.
  split.
  - induction 1 as [|a l r _ [x Hx]|a l r _ [x Hx]]; [exists []; reflexivity| |].
    + exists (x ++ [LeftOf a r]). rewrite bplug_app, Hx. reflexivity.
    + exists (x ++ [RightOf a l]). rewrite bplug_app, Hx. reflexivity.
  - intros [c <-]. revert s. induction c as [|[a r|a l] c IH] using rev_ind; intros s; [constructor| |];
      rewrite bplug_app; cbn; [apply bsub_left|apply bsub_right]; apply IH.
Qed.

Section Bin.
  Context {V : Type} `{EqDecision V}.
  Notation heap := (gmap addr (bnode V)).
  Notation btree := (bin (addr * V)).

  (** A subtree of a stored tree is stored. *)
  Lemma bin_in_sub (h : heap) (s t : btree) : bin_in h t -> bsubtree s t -> bin_in h s.
  Proof.
    intros (par & Hr & Hnd) Hs. revert par Hr Hnd. induction Hs as [|[a v] l r _ IH|[a v] l r _ IH]; intros par Hr Hnd.
    - exists par. auto.
    - cbn in Hr. destruct Hr as (_ & Hl & _). apply NoDup_baddrs_inv in Hnd as (_ & _ & Hndl & _). eapply IH; eassumption.
    - cbn in Hr. destruct Hr as (_ & _ & Hr). apply NoDup_baddrs_inv in Hnd as (_ & _ & _ & Hndr & _). eapply IH; eassumption.
  Qed.

  (** What a node answers about its children. *)
  Lemma b_children_queries (h : heap) a v (l r : btree) : bin_in h (BNode (a, v) l r) ->
    let cs := opt_list (fun x => [x]) (baddr l) ++ opt_list (fun x => [x]) (baddr r) in
    b_value h (Some a) = Ok v /\
    b_left h (Some a) = Ok (baddr l) /\ b_right h (Some a) = Ok (baddr r) /\
    b_first h (Some a) = Ok (head cs) /\ b_last h (Some a) = Ok (last cs) /\
    b_children h (Some a) = Ok (N.of_nat (length cs)) /\
    forall i, b_child h (Some a) i = Ok (nth_error cs (N.to_nat i)).
  Proof.
    intros (par & Hr & Hnd) cs. cbn [brep] in Hr. destruct Hr as (Ha & Hl & Hr). subst cs.
    unfold b_value, b_left, b_right, b_first, b_last, b_children, b_child.
    rewrite (deref_Some _ _ _ Ha). cbn [mbind res_bind bleft bright bval].
    destruct (baddr l) as [x|], (baddr r) as [y|]; cbn [opt_list app head last length is_null];
      repeat (split; [reflexivity|]); intros [|[[p|p|]|[p|p|]|]]; try reflexivity;
      try (unfold b_first; rewrite (deref_Some _ _ _ Ha); reflexivity).
    all: cbn [mbind res_bind]; f_equal; symmetry; apply nth_error_None; cbn [length]; lia.
  Qed.
  (** What a child answers about its place. *)
  Lemma b_left_child_queries (h : heap) a v x w (ll lr r : btree) : bin_in h (BNode (a, v) (BNode (x, w) ll lr) r) ->
    b_parent h (Some x) = Ok (Some a) /\ b_is_left h (Some x) = Ok true /\ b_is_right h (Some x) = Ok false /\
    b_is_first h (Some x) = Ok true /\ b_is_last h (Some x) = Ok (is_null (baddr r)) /\
    b_prev h (Some x) = Ok None /\ b_next h (Some x) = Ok (baddr r) /\
    b_following_siblings h (Some x) = Ok (if is_null (baddr r) then 0 else 1)%N.
  Proof.
    intros (par & Hr & Hnd). cbn [brep] in Hr. destruct Hr as (Ha & (Hx & _) & Hr). cbn [baddr] in Ha.
    assert (Hne : baddr r <> Some x).
    { intros E. apply NoDup_baddrs_inv in Hnd as (_ & _ & _ & _ & Hd). apply (Hd x); [rewrite baddrs_node; set_solver +|].
      apply baddr_in, E. }
    assert (Hne' : ptr_eqb (Some x) (baddr r) = false) by (apply ptr_eqb_false; congruence).
    assert (Hne'' : ptr_eqb (baddr r) (Some x) = false) by (apply ptr_eqb_false; congruence).
    unfold b_parent, b_is_left, b_is_right, b_is_first, b_is_last, b_prev, b_next, b_following_siblings,
      b_is_right, b_is_left, b_parent, b_first, b_last, b_left, b_right.
    rewrite !(deref_Some _ _ _ Hx). cbn [mbind res_bind bparent]. rewrite !(deref_Some _ _ _ Ha).
    cbn [mbind res_bind bparent bleft bright]. rewrite Hne', ptr_eqb_true. cbn [mbind res_bind].
    repeat (split; [reflexivity|]). destruct (baddr r) as [y|] eqn:Ey; cbn [is_null].
    - rewrite Hne''. auto.
    - rewrite ptr_eqb_true. auto.
  Qed.
  Lemma b_right_child_queries (h : heap) a v x w (rl rr l : btree) : bin_in h (BNode (a, v) l (BNode (x, w) rl rr)) ->
    b_parent h (Some x) = Ok (Some a) /\ b_is_left h (Some x) = Ok false /\ b_is_right h (Some x) = Ok true /\
    b_is_first h (Some x) = Ok (is_null (baddr l)) /\ b_is_last h (Some x) = Ok true /\
    b_prev h (Some x) = Ok (baddr l) /\ b_next h (Some x) = Ok None /\
    b_following_siblings h (Some x) = Ok 0%N.
  Proof.
    intros (par & Hr & Hnd). cbn [brep] in Hr. destruct Hr as (Ha & Hl & (Hx & _)). cbn [baddr] in Ha.
    assert (Hne : baddr l <> Some x).
    { intros E. apply NoDup_baddrs_inv in Hnd as (_ & _ & _ & _ & Hd). apply (Hd x); [|rewrite baddrs_node; set_solver +].
      apply baddr_in, E. }
    assert (Hne' : ptr_eqb (Some x) (baddr l) = false) by (apply ptr_eqb_false; congruence).
    assert (Hne'' : ptr_eqb (baddr l) (Some x) = false) by (apply ptr_eqb_false; congruence).
    unfold b_parent, b_is_left, b_is_right, b_is_first, b_is_last, b_prev, b_next, b_following_siblings,
      b_is_right, b_is_left, b_parent, b_first, b_last, b_left, b_right.
    rewrite !(deref_Some _ _ _ Hx). cbn [mbind res_bind bparent]. rewrite !(deref_Some _ _ _ Ha).
    cbn [mbind res_bind bparent bleft bright]. rewrite Hne', ptr_eqb_true. cbn [mbind res_bind].
    repeat (split; [reflexivity|]). destruct (baddr l) as [y|] eqn:Ey; cbn [is_null].
    - rewrite Hne''. auto.
    - rewrite ptr_eqb_true. auto.
  Qed.
  Lemma b_root_queries (h : heap) (t : btree) a : bin_at h t -> baddr t = Some a ->
    b_parent h (Some a) = Ok None /\ b_is_left h (Some a) = Ok false /\ b_is_right h (Some a) = Ok false /\
    b_is_first h (Some a) = Ok false /\ b_is_last h (Some a) = Ok false /\
    b_prev h (Some a) = Ok None /\ b_next h (Some a) = Ok None /\ b_following_siblings h (Some a) = Ok 0%N.
  Proof.
    intros [Hr Hnd] Hb. apply baddr_root in Hb as (v & l & r & ->). cbn in Hr. destruct Hr as (Ha & _).
    unfold b_parent, b_is_left, b_is_right, b_is_first, b_is_last, b_prev, b_next, b_following_siblings, b_is_right, b_is_left.
    rewrite !(deref_Some _ _ _ Ha). repeat split.
  Qed.
End Bin.

Section Nary.
  Context {V : Type} `{EqDecision V}.
  Notation heap := (gmap addr (nnode V)).
  Notation ntree := (rose (addr * V)).

  Lemma nary_in_sub (h : heap) (s t : ntree) : nary_in h t -> rsubtree s t -> nary_in h s.
  Proof.
    intros (par & prev & next & fs & Hr & Hnd) Hs. revert par prev next fs Hr Hnd.
    induction Hs as [|[a v] cs c Hc _ IH]; intros par prev next fs Hr Hnd.
    - exists par, prev, next, fs. auto.
    - rewrite nrep_unfold in Hr. destruct Hr as [_ Hcs]. destruct (nseg_in _ _ _ _ _ _ _ Hcs Hc) as (p & n & f & Hrep).
      eapply IH; [exact Hrep|]. rewrite raddrs_rose in Hnd. apply NoDup_cons in Hnd as [_ Hnd].
      apply elem_of_list_split in Hc as (l1 & l2 & ->). rewrite faddrs_app, faddrs_cons in Hnd.
      apply NoDup_app in Hnd as (_ & _ & Hnd). apply NoDup_app in Hnd as (Hnd & _). exact Hnd.
  Qed.

  Lemma n_skip_seg (h : heap) : forall k l par prev next,
    nseg h par prev l None next -> n_skip h (first_or l None) k = Ok (first_or (skipn k l) None).
  Proof.
    induction k as [|k IH]; intros l par prev next Hs; [reflexivity|]. cbn [n_skip skipn].
    destruct l as [|[[a v] cs] l]; [reflexivity|]. cbn [nseg] in Hs. destruct Hs as [Hc Hl].
    cbn [first_or raddr label fst]. unfold n_next. pose proof (nrep_root _ _ _ _ _ _ Hc) as Ha. cbn [raddr label fst] in Ha.
    rewrite (deref_Some _ _ _ Ha). cbn [mbind res_bind nnext]. eapply IH, Hl.
  Qed.
  Lemma first_or_skipn k (l : list ntree) : first_or (skipn k l) None = nth_error (map raddr l) k.
  Proof. revert l. induction k as [|k IH]; intros [|c l]; cbn; auto. Qed.

  Lemma n_children_queries (h : heap) a v (cs : list ntree) : nary_in h (Rose (a, v) cs) ->
    (N.of_nat (length cs) < W64)%N ->
    n_val h (Some a) = Ok v /\
    n_first h (Some a) = Ok (head (map raddr cs)) /\ n_last h (Some a) = Ok (last (map raddr cs)) /\
    n_children h (Some a) = Ok (N.of_nat (length cs)) /\
    forall i, n_child h (Some a) i = Ok (nth_error (map raddr cs) (N.to_nat i)).
  Proof.
    intros (par & prev & next & fs & Hr & Hnd) HW. rewrite (n_children_ok _ _ _ _ _ _ _ _ Hr), szt_small by exact HW.
    rewrite nrep_unfold in Hr. destruct Hr as [Ha Hcs].
    assert (Hf : first_or cs None = head (map raddr cs)) by (destruct cs; reflexivity).
    assert (Hl : last_or None cs = last (map raddr cs)).
    { destruct (last_or_cases cs None) as [[-> ->]|(c & l' & -> & ->)]; [reflexivity|]. rewrite map_app; cbn [map]; rewrite last_snoc; reflexivity. }
    unfold n_val, n_first, n_last, n_child, n_first. rewrite !(deref_Some _ _ _ Ha). cbn [mbind res_bind nval nfirst nlast].
    split; [reflexivity|]. split; [rewrite Hf; reflexivity|]. split; [rewrite Hl; reflexivity|]. split; [reflexivity|].
    intros i. destruct cs as [|c cs]; cbn [first_or].
    - change (n_skip h (first_or (@nil ntree) None) (N.to_nat i) = Ok (nth_error (map raddr (@nil ntree)) (N.to_nat i))).
      rewrite (n_skip_seg h _ _ None None 0) by exact I. rewrite first_or_skipn. reflexivity.
    - pose proof Hcs as Hcs'. cbn [nseg] in Hcs. destruct Hcs as [Hc _].
      rewrite (deref_Some _ _ _ (nrep_root _ _ _ _ _ _ Hc)). cbn [mbind res_bind nfsize]. cbn [length] in HW.
      rewrite Nat.add_0_r, szt_small by lia.
      destruct (N.eqb_spec i (N.of_nat (length cs))) as [->|Hne].
      + unfold n_last. rewrite (deref_Some _ _ _ Ha). cbn [mbind res_bind nlast]. rewrite Hl.
        f_equal. rewrite Nat2N.id. clear. revert c. induction cs as [|d cs IH]; intros c; [reflexivity|].
        change (map raddr (c :: d :: cs)) with (raddr c :: map raddr (d :: cs)).
        cbn [length nth_error]. rewrite <- IH. reflexivity.
      + change (Some (raddr c)) with (first_or (c :: cs) None). rewrite (n_skip_seg h _ _ _ _ _ Hcs').
        rewrite first_or_skipn. reflexivity.
  Qed.
  Lemma n_child_queries (h : heap) a v ls x w xs (rs : list ntree) :
    nary_in h (Rose (a, v) (ls ++ Rose (x, w) xs :: rs)) -> (N.of_nat (length rs) < W64)%N ->
    n_parent h (Some x) = Ok (Some a) /\
    n_prev h (Some x) = Ok (last (map raddr ls)) /\ n_next h (Some x) = Ok (head (map raddr rs)) /\
    n_is_first h (Some x) = Ok (is_nil ls) /\ n_is_last h (Some x) = Ok (is_nil rs) /\
    n_following_siblings h (Some x) = Ok (N.of_nat (length rs)).
  Proof.
    intros (par & prev & next & fs & Hr & Hnd) HW. rewrite nrep_unfold in Hr. destruct Hr as [Ha Hcs].
    rewrite nseg_app in Hcs. destruct Hcs as [Hls Hcs]. cbn [nseg] in Hcs. destruct Hcs as [Hc Hrs].
    pose proof (nrep_root _ _ _ _ _ _ Hc) as Hx. cbn [raddr label fst] in Hx.
    rewrite first_or_app in Ha. rewrite last_or_app in Ha. cbn [first_or last_or] in Ha.
    rewrite raddrs_rose, faddrs_app, faddrs_cons, raddrs_rose in Hnd. apply NoDup_cons in Hnd as [_ Hnd].
    apply NoDup_app in Hnd as (_ & Hd1 & Hnd). apply NoDup_app in Hnd as (_ & Hd2 & _).
    unfold n_parent, n_prev, n_next, n_is_first, n_is_last, n_following_siblings, n_first, n_last.
    rewrite !(deref_Some _ _ _ Hx). cbn [mbind res_bind nparent nprev nnext nfsize].
    rewrite !(deref_Some _ _ _ Ha). cbn [mbind res_bind nfirst nlast]. rewrite Nat.add_0_r, szt_small by exact HW.
    split; [reflexivity|]. split; [|split; [|split; [|split; [|reflexivity]]]].
    - destruct (last_or_cases ls None) as [[-> ->]|(c & l' & -> & ->)]; [reflexivity|]. rewrite map_app; cbn [map]; rewrite last_snoc; reflexivity.
    - destruct rs; reflexivity.
    - destruct ls as [|c ls]; cbn [first_or is_nil]; [rewrite ptr_eqb_true; reflexivity|]. rewrite ptr_eqb_false; [reflexivity|].
      intros [=E]. apply (Hd1 x); [|set_solver +]. rewrite faddrs_cons, <- E. apply elem_of_app. left. apply raddr_in.
    - destruct (last_or_cases rs (Some (raddr (Rose (x, w) xs)))) as [[-> ->]|(c & l' & -> & ->)]; cbn [raddr label fst].
      + rewrite ptr_eqb_true. reflexivity.
      + replace (is_nil (l' ++ [c])) with false by (destruct l'; reflexivity).
        rewrite ptr_eqb_false; [reflexivity|]. intros [=E']. apply (Hd2 x); [set_solver +|].
        rewrite faddrs_app, faddrs_cons, <- E'. apply elem_of_app. right. apply elem_of_app. left. apply raddr_in.
  Qed.
  Lemma n_root_queries (h : heap) (t : ntree) : nary_at h t ->
    n_parent h (Some (raddr t)) = Ok None /\ n_prev h (Some (raddr t)) = Ok None /\ n_next h (Some (raddr t)) = Ok None /\
    n_is_first h (Some (raddr t)) = Ok false /\ n_is_last h (Some (raddr t)) = Ok false /\
    n_following_siblings h (Some (raddr t)) = Ok 0%N.
  Proof.
    intros [Hr Hnd]. pose proof (nrep_root _ _ _ _ _ _ Hr) as Ha.
    unfold n_parent, n_prev, n_next, n_is_first, n_is_last, n_following_siblings.
    rewrite !(deref_Some _ _ _ Ha). repeat split.
  Qed.
End Nary.

(** ** The navigation primitives, for any tree the navigator is right about. *)
Section Primitives.
  Context {V : Type}.
  Variable nav : navigator.
  Variable t : rose (addr * V).
  Variable F : nat.
  Hypothesis Hok : nav_ok nav (rose_map fst t).
  Hypothesis HF : rsize t < F.
  Local Lemma HF' : rsize (rose_map fst t) <= F.
  Proof. rewrite rsize_map. lia. Qed.
  Notation addrs := (map (fun s : rose (addr * V) => raddr s)).

  Lemma head_label_map (l : list (rose (addr * V))) : head_label (map (rose_map fst) l) = head (addrs l).
  Proof. destruct l as [|s l]; [reflexivity|]. cbn. rewrite label_map. reflexivity. Qed.
  Lemma last_label_map (l : list (rose (addr * V))) : last_label (map (rose_map fst) l) = last (addrs l).
  Proof.
    destruct l as [|s l _] using rev_ind; [reflexivity|]. rewrite !map_app. cbn [map].
    rewrite last_snoc, last_label_snoc, label_map. reflexivity.
  Qed.
  Lemma row_pos d P s Q : row d t = P ++ s :: Q ->
    exists c, plug c (rose_map fst s) = rose_map fst t /\ length c = d /\
      lsub c 0 = map (rose_map fst) P /\ rsub c 0 = map (rose_map fst) Q.
  Proof.
    intros Hrow. pose proof (row_map fst d t) as Hm. rewrite Hrow, map_app in Hm. cbn [map] in Hm.
    destruct (row_split_position _ _ _ _ _ (no_nd _ _ Hok) Hm) as (c & Hlen & Hp & Hl & Hr). eauto.
  Qed.
  Lemma other_branch_row d P s Q : row d t = P ++ s :: Q ->
    get_other_branch nav F false (Some (raddr s)) = Ok (head (addrs Q)) /\
    get_other_branch nav F true (Some (raddr s)) = Ok (last (addrs P)).
  Proof.
    intros Hrow. destruct (row_pos d P s Q Hrow) as (c & Hp & _ & HP & HQ).
    change (raddr s) with (fst (label s)). rewrite <- (label_map fst s).
    rewrite (get_other_branch_right nav _ Hok F HF' _ _ Hp), (get_other_branch_left nav _ Hok F HF' _ _ Hp).
    rewrite HP, HQ, head_label_map, last_label_map. auto.
  Qed.
  Lemma row_extremum_row d P s Q : row d t = P ++ s :: Q ->
    get_row_extremum nav F true (Some (raddr s)) = Ok (head (addrs (row d t))) /\
    get_row_extremum nav F false (Some (raddr s)) = Ok (last (addrs (row d t))).
  Proof.
    intros Hrow. destruct (row_pos d P s Q Hrow) as (c & Hp & Hlen & _).
    change (raddr s) with (fst (label s)). rewrite <- (label_map fst s).
    rewrite (get_row_extremum_left nav _ Hok F HF' _ _ Hp), (get_row_extremum_right nav _ Hok F HF' _ _ Hp).
    rewrite Hlen, row_map, head_label_map, last_label_map. auto.
  Qed.
  Lemma deepest_row :
    get_deepest_extremum_child nav F true = Ok (head (addrs (row (height t - 1) t))) /\
    get_deepest_extremum_child nav F false = Ok (last (addrs (row (height t - 1) t))).
  Proof.
    rewrite (get_deepest_left nav _ Hok F HF'), (get_deepest_right nav _ Hok F HF').
    rewrite height_map, row_map, head_label_map, last_label_map. replace (pred (height t)) with (height t - 1) by lia. auto.
  Qed.
  Lemma head_post_leaves (u : rose addr) : head (postorder u) = head (leaves u).
  Proof.
    induction u as [a cs IH] using rose_ind'. destruct cs as [|c cs]; [reflexivity|].
    change (head (flat_map postorder (c :: cs) ++ [a]) = head (flat_map leaves (c :: cs))). cbn [flat_map].
    inversion IH as [|? ? Hc _]; subst.
    destruct (postorder c) as [|x l] eqn:E; [destruct c; cbn in E; destruct (flat_map postorder cs0); discriminate|].
    cbn in Hc. destruct (leaves c) as [|y m]; [discriminate|]. exact Hc.
  Qed.
  Lemma last_pre_leaves (u : rose addr) : last (preorder u) = last (leaves u).
  Proof.
    induction u as [a cs IH] using rose_ind'. destruct cs as [|c cs _] using rev_ind; [reflexivity|].
    assert (Hlv : leaves (Rose a (cs ++ [c])) = flat_map leaves (cs ++ [c])) by (destruct cs; reflexivity).
    rewrite Hlv. cbn [preorder]. rewrite !flat_map_app'. cbn [flat_map]. rewrite !app_nil_r.
    apply Forall_app in IH as [_ IH]. apply Forall_inv in IH.
    assert (Hgen : forall (l1 l2 : list addr), l2 <> [] -> last (l1 ++ l2) = last l2).
    { intros l1 l2 Hne. destruct l2 as [|y l2 _] using rev_ind; [congruence|]. rewrite app_assoc, !last_snoc. reflexivity. }
    change (a :: flat_map preorder cs ++ preorder c) with ((a :: flat_map preorder cs) ++ preorder c).
    rewrite !Hgen; [exact IH| |].
    - intros E. rewrite E in IH. destruct c as [b ds]. cbn [preorder] in IH. clear -IH.
      revert IH. generalize (flat_map preorder ds). intros l. destruct l as [|y l _] using rev_ind; [discriminate|].
      change (b :: l ++ [y]) with ((b :: l) ++ [y]). rewrite last_snoc. discriminate.
    - destruct c; discriminate.
  Qed.
  Lemma highest_leaf : get_highest_leaf nav F true = Ok (head (map fst (leaves t))) /\
    get_highest_leaf nav F false = Ok (last (map fst (leaves t))).
  Proof.
    rewrite (post_go_first_ok nav _ Hok F HF'), (pre_go_last_ok nav _ Hok F HF').
    rewrite head_post_leaves, last_pre_leaves, leaves_map. auto.
  Qed.
End Primitives.
