(** IterFailFacts.v: what an iterator visits after a [++] or [--] that threw, see IterFail.v. *)
From Verif Require Import Base Spec EditSpec StructNode RoseFacts RowFacts BinaryNode NaryNode Nav Policy NavFacts BranchFacts Orders PolicyFacts NodeFacts
  Tree Rep User Iter IterTrees IterMain LeafStay LeafBack LeafLawFacts BfsStay NaryRep IterFail.

(** *** Iterators off the normal track: [goes o l]: with the queue [o], [++] visits [l]. *)
Section Goes.
  Context {V Nd : Type}.
  Variable F : nat.
  Variable im : node_impl V Nd.
  Variable h : gmap addr Nd.
  Variable r : addr.
  Variable t : rose (addr * V).
  Hypothesis Hs : seen F im h r t.
  Variable k : kind.
  Variable goes : list ptr -> list addr -> Prop.
  Hypothesis Hgoes : forall x o l, goes o l ->
    exists o', increment_impl F (tree_nav im h (Some r)) k (Some x) o = Ok (head l, o') /\ goes o' (tail l).

  Lemma goes_walk e (l : list (addr * V)) : forall o ini x fuel, goes o (map fst l) ->
    it_cur e = None -> it_root e = Some r -> (forall y, y ∈ x :: l -> ni_value im h (Some (fst y)) = Ok (snd y)) -> S (length l) < fuel ->
    walk (visit im h) (incr F im h) fuel (Iter k (Some (fst x)) (Some r) o ini) e = Ok (x :: l).
  Proof using Hgoes.
    intros o ini x fuel Ho He1 He2. revert o x fuel Ho.
    assert (Hstep : forall fuel o x, ni_value im h (Some (fst x)) = Ok (snd x) -> forall o' p, increment_impl F (tree_nav im h (Some r)) k (Some (fst x)) o = Ok (p, o') ->
      walk (visit im h) (incr F im h) (S fuel) (Iter k (Some (fst x)) (Some r) o ini) e = (xs ← walk (visit im h) (incr F im h) fuel (Iter k p (Some r) o' ini) e; Ok (x :: xs))).
    { intros fuel o x Hv o' p E. cbn [walk]. unfold it_eqb. cbn [it_cur it_root]. rewrite He1, He2, ptr_eqb_false by discriminate. cbn [andb].
      assert (Ev : visit im h (Some (fst x)) = Ok x) by (unfold visit; rewrite Hv; destruct x; reflexivity). rewrite Ev. cbn [mbind res_bind].
      assert (Ei : incr F im h (Iter k (Some (fst x)) (Some r) o ini) = Ok (Iter k p (Some r) o' ini)) by (unfold incr, it_incr; cbn [it_cur it_root it_kind it_open]; rewrite E; reflexivity).
      rewrite Ei. reflexivity. }
    induction l as [|y l IH]; intros o x fuel Ho Hv Hf; (destruct fuel as [|fuel]; [cbn in Hf; lia|]); destruct (Hgoes (fst x) o _ Ho) as (o' & Eo & Ho');
      rewrite (Hstep fuel o x (Hv x ltac:(left)) o' _ Eo); cbn [map head tail].
    - destruct fuel as [|fuel]; [cbn in Hf; lia|]. cbn [walk]. unfold it_eqb. cbn [it_cur it_root]. rewrite He1, He2, !ptr_eqb_true. reflexivity.
    - rewrite (IH o' y fuel); [reflexivity|exact Ho'| |cbn in Hf; lia]. intros z Hz. apply Hv. right. exact Hz.
  Qed.
  Lemma goes_iterate (l : list (addr * V)) it o x : it_kind it = k -> it_cur it = Some (fst x) -> it_root it = Some r -> it_open it = o -> goes o (map fst l) ->
    (forall y, y ∈ x :: l -> y ∈ preorder t) -> length l < length (preorder t) ->
    iterate_from F im h it k (Some r) = Ok (x :: l).
  Proof using Hs Hgoes.
    intros Hk Hc Hr Ho Hg Hin Hlen. unfold iterate_from, tree_end, it_end, get_instance, fix_navigator_root. cbn [mbind res_bind].
    assert (He : exists e, (match k with BreadthFirst => manage_initial_status F (tree_nav im h (Some r)) None | _ => Ok [] end) = Ok e) by (destruct k; eexists; reflexivity).
    destruct He as [e ->]. cbn [mbind res_bind]. destruct it as [k0 c0 r0 o0 i0]. cbn in Hk, Hc, Hr, Ho. subst k0 c0 r0 o0. eapply goes_walk; [exact Hg|reflexivity|reflexivity| |].
    - intros y Hy. apply (sn_val _ _ _ _ _ Hs), Hin, Hy.
    - pose proof (sn_size _ _ _ _ _ Hs) as Hz. rewrite <- length_preorder in Hz. lia.
  Qed.
End Goes.

(** *** Breadth first: a queue is a list of groups of siblings, of which only the first
    is kept. *)
Definition group : Type := rose addr * list (rose addr).
Definition grp (l : list (rose addr)) : list group := match l with [] => [] | s :: rs => [(s, rs)] end.
Definition gnodes (g : group) : list addr := flat_map preorder (fst g :: snd g).
Definition gptr (g : group) : ptr := Some (label (fst g)).
Inductive gvisits : list group -> list addr -> Prop :=
| gv_nil : gvisits [] []
| gv_cons s rs gs l : gvisits (grp rs ++ gs ++ grp (children s)) l -> gvisits ((s, rs) :: gs) (label s :: l).

Lemma grp_nodes l : flat_map gnodes (grp l) = flat_map preorder l.
Proof. destruct l; cbn; [reflexivity|]. rewrite app_nil_r. reflexivity. Qed.
Lemma preorder_children (s : rose addr) : preorder s = label s :: flat_map preorder (children s).
Proof. destruct s; reflexivity. Qed.
Lemma gvisits_perm gs l : gvisits gs l -> l ≡ₚ flat_map gnodes gs.
Proof.
  induction 1 as [|s rs gs l H IH]; [reflexivity|]. cbn [flat_map]. unfold gnodes at 1. cbn [fst snd flat_map]. rewrite (preorder_children s). cbn [app].
  apply perm_skip. rewrite IH, !flat_map_app', !grp_nodes. rewrite (app_assoc (flat_map preorder rs)), <- (app_assoc (flat_map preorder (children s))). apply Permutation_app_comm.
Qed.
Lemma gvisits_ex : forall n gs, length (flat_map gnodes gs) <= n -> exists l, gvisits gs l.
Proof.
  induction n as [|n IH]; intros gs Hn; (destruct gs as [|[s rs] gs]; [exists []; constructor|]).
  - cbn [flat_map] in Hn. unfold gnodes at 1 in Hn. cbn [fst snd flat_map] in Hn. rewrite (preorder_children s) in Hn. cbn in Hn. lia.
  - destruct (IH (grp rs ++ gs ++ grp (children s))) as [l Hl]; [|exists (label s :: l); constructor; exact Hl].
    cbn [flat_map] in Hn. unfold gnodes at 1 in Hn. cbn [fst snd flat_map] in Hn. rewrite (preorder_children s) in Hn.
    rewrite !flat_map_app', !grp_nodes. cbn [app length] in Hn. rewrite !app_length in *. lia.
Qed.

Section Cut.
  Variable D : list addr.
  Definition pure (g : group) : Prop := (forall x, x ∈ gnodes g -> x ∈ D) \/ (forall x, x ∈ gnodes g -> x ∉ D).
  Definition galive (g : group) : bool := bool_decide (label (fst g) ∉ D).
  Definition alive (x : addr) : bool := bool_decide (x ∉ D).
  Lemma head_node s rs : label s ∈ gnodes (s, rs).
  Proof. unfold gnodes. cbn [fst snd flat_map]. rewrite (preorder_children s). left. Qed.
  Lemma pure_part g g' : (forall x, x ∈ gnodes g' -> x ∈ gnodes g) -> pure g -> pure g'.
  Proof. intros H [Hp|Hp]; [left|right]; intros x Hx; apply Hp, H, Hx. Qed.
  Lemma grp_in g l : g ∈ grp l -> exists s rs, l = s :: rs /\ g = (s, rs).
  Proof. destruct l as [|s rs]; cbn; [intros H; inversion H|]. intros H. apply elem_of_list_singleton in H as ->. eauto. Qed.
  Lemma grp_gnodes g l x : g ∈ grp l -> x ∈ gnodes g -> x ∈ flat_map preorder l.
  Proof. intros Hg Hx. destruct (grp_in _ _ Hg) as (s & rs & -> & ->). exact Hx. Qed.
  Lemma galive_part g g' : pure g -> (forall x, x ∈ gnodes g' -> x ∈ gnodes g) -> galive g' = galive g.
  Proof.
    intros Hp Hsub. destruct g as [s rs], g' as [s' rs']. unfold galive. apply bool_decide_ext. cbn [fst].
    pose proof (head_node s rs) as H1. pose proof (Hsub _ (head_node s' rs')) as H2. destruct Hp as [Hp|Hp]; split; intros H.
    - exfalso. apply H, Hp, H2.
    - exfalso. apply H, Hp, H1.
    - apply Hp, H1.
    - apply Hp, H2.
  Qed.
  Lemma filter_part g l : pure g -> (forall x, x ∈ flat_map preorder l -> x ∈ gnodes g) -> List.filter galive (grp l) = if galive g then grp l else [].
  Proof.
    intros Hp Hsub. destruct l as [|s rs]; cbn [grp]; [destruct (galive g); reflexivity|]. cbn [List.filter].
    rewrite (galive_part g (s, rs) Hp); [destruct (galive g); reflexivity|]. exact Hsub.
  Qed.
  Lemma gvisits_cut gs l : gvisits gs l -> Forall pure gs -> gvisits (List.filter galive gs) (List.filter alive l).
  Proof.
    induction 1 as [|s rs gs l H IH]; intros Hp; [constructor|]. apply Forall_cons in Hp as [Hg Hp].
    assert (Hr : forall x, x ∈ flat_map preorder rs -> x ∈ gnodes (s, rs)) by (intros x Hx; unfold gnodes; cbn [fst snd flat_map]; apply elem_of_app; right; exact Hx).
    assert (Hc : forall x, x ∈ flat_map preorder (children s) -> x ∈ gnodes (s, rs)).
    { intros x Hx. unfold gnodes. cbn [fst snd flat_map]. apply elem_of_app; left. rewrite (preorder_children s). right. exact Hx. }
    assert (Hall : Forall pure (grp rs ++ gs ++ grp (children s))).
    { apply Forall_app; split; [|apply Forall_app; split; [exact Hp|]]; apply Forall_forall; intros g' Hg'; (eapply pure_part; [|exact Hg]); intros x Hx; [apply Hr|apply Hc]; eapply grp_gnodes; eauto. }
    specialize (IH Hall). rewrite !List.filter_app, (filter_part _ _ Hg Hr), (filter_part _ _ Hg Hc) in IH.
    cbn [List.filter]. change (alive (label s)) with (galive (s, rs)). destruct (galive (s, rs)) eqn:E.
    - constructor. exact IH.
    - rewrite app_nil_r in IH. exact IH.
  Qed.
  Lemma filter_none gs : (forall g x, g ∈ gs -> x ∈ gnodes g -> x ∈ D) -> List.filter galive gs = [].
  Proof.
    induction gs as [|[s rs] gs IH]; intros H; [reflexivity|]. cbn [List.filter]. unfold galive at 1. cbn [fst]. rewrite bool_decide_eq_false_2.
    - apply IH. intros g x Hg. apply H. right. exact Hg.
    - intros Hn. apply Hn. eapply H; [left|apply head_node].
  Qed.
  Lemma filter_all gs : (forall g x, g ∈ gs -> x ∈ gnodes g -> x ∉ D) -> List.filter galive gs = gs.
  Proof.
    induction gs as [|[s rs] gs IH]; intros H; [reflexivity|]. cbn [List.filter]. unfold galive at 1. cbn [fst]. rewrite bool_decide_eq_true_2.
    - f_equal. apply IH. intros g x Hg. apply H. right. exact Hg.
    - eapply H; [left|apply head_node].
  Qed.
End Cut.

(** Dropping groups from both ends. *)
Lemma gvisits_keep g1 g2 g3 l : gvisits (g1 ++ g2 ++ g3) l -> NoDup l ->
  gvisits g2 (List.filter (alive (flat_map gnodes (g1 ++ g3))) l).
Proof.
  intros H Hn. set (D := flat_map gnodes (g1 ++ g3)).
  pose proof (gvisits_perm _ _ H) as Hperm. rewrite Hperm, !flat_map_app' in Hn.
  assert (H13 : forall g x, g ∈ g1 \/ g ∈ g3 -> x ∈ gnodes g -> x ∈ D).
  { intros g x Hg Hx. apply elem_of_flat_map. exists g. split; [apply elem_of_app; exact Hg|exact Hx]. }
  assert (H2 : forall g x, g ∈ g2 -> x ∈ gnodes g -> x ∉ D).
  { intros g x Hg Hx HD. assert (Hx2 : x ∈ flat_map gnodes g2) by (apply elem_of_flat_map; eauto).
    unfold D in HD. rewrite flat_map_app' in HD. apply NoDup_app in Hn as (_ & Hd1 & Hn). apply NoDup_app in Hn as (_ & Hd2 & _).
    apply elem_of_app in HD as [HD|HD]; [apply (Hd1 x HD); apply elem_of_app; left; exact Hx2|exact (Hd2 x Hx2 HD)]. }
  pose proof (gvisits_cut D _ _ H) as Hc. rewrite !List.filter_app in Hc.
  rewrite (filter_none D g1), (filter_all D g2), (filter_none D g3) in Hc; [|eauto|eauto|eauto]. cbn [app] in Hc. rewrite app_nil_r in Hc. apply Hc.
  apply Forall_forall. intros g Hg. apply elem_of_app in Hg as [Hg|Hg]; [left; eauto|]. apply elem_of_app in Hg as [Hg|Hg]; [right; eauto|left; eauto].
Qed.

Section Bfs.
  Variable nav : navigator.
  Variable t : rose addr.
  Hypothesis Hok : nav_ok nav t.
  Variable F : nat.

  Definition rights (c : ctx addr) : list (rose addr) := match c with [] => [] | (_, _, rs) :: _ => rs end.
  Definition isgroup (g : group) : Prop := exists c, plug c (fst g) = t /\ rights c = snd g.
  Definition bgoes (o : list ptr) (l : list addr) : Prop := exists gs, o = map gptr gs /\ Forall isgroup gs /\ gvisits gs l.

  Lemma next_rights c : ctx_next c = head_label (rights c).
  Proof. destruct c as [|[[ls a] rs] c]; reflexivity. Qed.
  Lemma isgroup_next c s : plug c s = t -> Forall isgroup (grp (rights c)).
  Proof.
    destruct c as [|[[ls a] [|d rs]] c]; intros Hp; cbn [rights grp]; [constructor|constructor|]. constructor; [|constructor].
    exists ((ls ++ [s], a, rs) :: c). split; [|reflexivity]. rewrite <- Hp. cbn. rewrite <- app_assoc. reflexivity.
  Qed.
  Lemma isgroup_children c s : plug c s = t -> Forall isgroup (grp (children s)).
  Proof.
    destruct s as [y [|d rs]]; intros Hp; cbn [children grp]; constructor; [|constructor]. exists (([], y, rs) :: c). split; [exact Hp|reflexivity].
  Qed.
  Lemma grp_ptr l : map gptr (grp l) = opt_ptr (head_label l).
  Proof. destruct l; reflexivity. Qed.
  Lemma bgoes_step x o l : bgoes o l -> exists o', increment_impl F nav BreadthFirst (Some x) o = Ok (head l, o') /\ bgoes o' (tail l).
  Proof using Hok.
    intros (gs & -> & Hg & Hv). cbn [increment_impl]. destruct Hv as [|s rs gs l Hv]; cbn [map bfs_increment].
    - exists []. split; [reflexivity|]. exists []. repeat split; constructor.
    - apply Forall_cons in Hg as [(c & Hp & Hr) Hg]. cbn [fst snd] in Hp, Hr. change (gptr (s, rs)) with (Some (label s)).
      rewrite (no_next _ _ Hok _ _ Hp). cbn [mbind res_bind]. rewrite (no_first _ _ Hok _ _ Hp). cbn [mbind res_bind head tail].
      eexists. split; [reflexivity|]. exists (grp rs ++ gs ++ grp (children s)). split; [|split; [|exact Hv]].
      + rewrite !map_app, !grp_ptr, next_rights, Hr. destruct (head_label rs), (head_label (children s)); cbn; rewrite ?app_nil_r; reflexivity.
      + apply Forall_app; split; [|apply Forall_app; split; [exact Hg|]]; [rewrite <- Hr; eapply isgroup_next; exact Hp|eapply isgroup_children; exact Hp].
  Qed.
  Lemma groups_fcs l : (forall s, s ∈ l -> exists c, plug c s = t) -> exists gs, map gptr gs = fcs l /\ Forall isgroup gs.
  Proof.
    induction l as [|s l IH]; intros H; [exists []; split; [reflexivity|constructor]|].
    destruct IH as (gs & E & Hg). { intros s' Hs'. apply H. right. exact Hs'. }
    destruct (H s) as [c Hc]; [left|]. exists (grp (children s) ++ gs). split.
    - rewrite map_app, E, grp_ptr. unfold fcs at 2. cbn [flat_map]. destruct (children s); reflexivity.
    - apply Forall_app; split; [eapply isgroup_children; exact Hc|exact Hg].
  Qed.
  Lemma row_pos n s : s ∈ row n t -> exists c, plug c s = t.
  Proof using Hok.
    intros Hin. apply elem_of_list_split in Hin as (l1 & l2 & E). destruct (row_split_position _ _ _ _ _ (no_nd _ _ Hok) E) as (c & _ & Hp & _). eauto.
  Qed.
  (** The queue of an iterator at a node, as groups. *)
  Lemma queue_groups c s : plug c s = t -> exists g2, map gptr g2 = bfs_rest c /\ Forall isgroup g2 /\
    bfs_queue c s = map gptr (grp (rights c) ++ g2 ++ grp (children s)) /\ Forall isgroup (grp (rights c) ++ g2 ++ grp (children s)).
  Proof using Hok.
    intros Hp.
    assert (Hrest : exists g2, map gptr g2 = bfs_rest c /\ Forall isgroup g2).
    { destruct c as [|[[ls a] rs] c]; [exists []; split; [reflexivity|constructor]|]. cbn [bfs_rest]. rewrite <- fcs_app. apply groups_fcs.
      intros s' Hs'. apply elem_of_app in Hs' as [Hs'|Hs'].
      - pose proof (position_row c (Rose a (ls ++ s :: rs))) as Hrow. change (plug c (Rose a (ls ++ s :: rs))) with (plug ((ls, a, rs) :: c) s) in Hrow. rewrite Hp in Hrow.
        apply (row_pos (length c)). rewrite Hrow. apply elem_of_app. right. right. exact Hs'.
      - pose proof (position_row ((ls, a, rs) :: c) s) as Hrow. rewrite Hp in Hrow. apply (row_pos (length ((ls, a, rs) :: c))). rewrite Hrow. apply elem_of_app. left. exact Hs'. }
    destruct Hrest as (g2 & E2 & Hg2). exists g2. split; [exact E2|]. split; [exact Hg2|]. split.
    - rewrite !map_app, !grp_ptr, E2, <- next_rights. unfold bfs_queue. f_equal. f_equal. unfold fcs. cbn. destruct (children s); reflexivity.
    - apply Forall_app; split; [eapply isgroup_next; exact Hp|]. apply Forall_app; split; [exact Hg2|eapply isgroup_children; exact Hp].
  Qed.
  (** On the normal track, the groups visit the rest of the level order. *)
  Hypothesis HF : rsize t <= F.
  Lemma bgoes_rest l2 : forall l1 x o l, levelorder t = l1 ++ x :: l2 -> st_bfs t (Some x) o -> bgoes o l -> l = l2.
  Proof using Hok HF.
    induction l2 as [|y l2 IH]; intros l1 x o l El Hst Hg.
    - destruct (bgoes_step x o l Hg) as (o1 & E1 & Hg1). destruct (os_inc _ _ _ _ _ (bfs_steps _ _ Hok F HF) l1 x [] o El Hst) as (o2 & E2 & _).
      rewrite E1 in E2. injection E2 as E2 _. destruct l; [reflexivity|discriminate].
    - destruct (bgoes_step x o l Hg) as (o1 & E1 & Hg1). destruct (os_inc _ _ _ _ _ (bfs_steps _ _ Hok F HF) l1 x (y :: l2) o El Hst) as (o2 & E2 & Hst2).
      rewrite E1 in E2. injection E2 as E2 ->. destruct l as [|z l]; [discriminate|]. injection E2 as ->. cbn [tail head] in *. f_equal.
      apply (IH (l1 ++ [x]) y o2 l); [|exact Hst2|exact Hg1]. rewrite El, <- app_assoc. reflexivity.
  Qed.
  (** At a node of the tree. *)
  Lemma queue_visits c s l1 l2 : plug c s = t -> levelorder t = l1 ++ label s :: l2 ->
    exists g2, map gptr g2 = bfs_rest c /\ Forall isgroup g2 /\ gvisits (grp (rights c) ++ g2 ++ grp (children s)) l2.
  Proof using Hok HF.
    intros Hp El. destruct (queue_groups c s Hp) as (g2 & E2 & Hg2 & Eq & Hg). exists g2. split; [exact E2|]. split; [exact Hg2|].
    destruct (gvisits_ex _ (grp (rights c) ++ g2 ++ grp (children s)) (le_n _)) as [l Hl].
    rewrite <- (bgoes_rest l2 l1 (label s) (bfs_queue c s) l); [exact Hl|exact El|exists c, s; auto|exists (grp (rights c) ++ g2 ++ grp (children s)); auto].
  Qed.
  (** The queue without its front group and the children pushed last. *)
  Lemma queue_cut c s l1 l2 : plug c s = t -> levelorder t = l1 ++ label s :: l2 ->
    bgoes (bfs_rest c) (List.filter (alive (flat_map preorder (s :: rights c))) l2).
  Proof using Hok HF.
    intros Hp El. destruct (queue_visits c s l1 l2 Hp El) as (g2 & E2 & Hg2 & Hv). exists g2. split; [symmetry; exact E2|]. split; [exact Hg2|].
    pose proof (nd_level _ _ Hok) as Hn. rewrite El in Hn. apply NoDup_app in Hn as (_ & _ & Hn). apply NoDup_cons in Hn as [Hx Hn].
    pose proof (gvisits_keep _ _ _ _ Hv Hn) as Hk.
    replace (List.filter (alive (flat_map preorder (s :: rights c))) l2) with (List.filter (alive (flat_map gnodes (grp (rights c) ++ grp (children s)))) l2); [exact Hk|].
    apply List.filter_ext_in. intros a Ha. apply elem_of_list_In in Ha. unfold alive. apply bool_decide_ext. rewrite flat_map_app', !grp_nodes. cbn [flat_map]. rewrite (preorder_children s).
    assert (a <> label s) by (intros ->; exact (Hx Ha)). rewrite !elem_of_app, elem_of_cons. tauto.
  Qed.
  Lemma queue_cut_children c s l1 l2 : plug c s = t -> levelorder t = l1 ++ label s :: l2 ->
    bgoes (opt_ptr (ctx_next c) ++ bfs_rest c) (List.filter (alive (preorder s)) l2).
  Proof using Hok HF.
    intros Hp El. destruct (queue_visits c s l1 l2 Hp El) as (g2 & E2 & Hg2 & Hv).
    pose proof (nd_level _ _ Hok) as Hn. rewrite El in Hn. apply NoDup_app in Hn as (_ & _ & Hn). apply NoDup_cons in Hn as [Hx Hn].
    exists (grp (rights c) ++ g2). split; [rewrite map_app, grp_ptr, E2, next_rights; reflexivity|]. split.
    { apply Forall_app; split; [eapply isgroup_next; exact Hp|exact Hg2]. }
    rewrite app_assoc in Hv. pose proof (gvisits_keep [] _ _ _ Hv Hn) as Hk. cbn [app] in Hk. rewrite grp_nodes in Hk.
    replace (List.filter (alive (preorder s)) l2) with (List.filter (alive (flat_map preorder (children s))) l2); [exact Hk|].
    apply List.filter_ext_in. intros a Ha. apply elem_of_list_In in Ha. unfold alive. apply bool_decide_ext. rewrite (preorder_children s), elem_of_cons.
    assert (a <> label s) by (intros ->; exact (Hx Ha)). tauto.
  Qed.
  (** One push at most, and it comes last. *)
  Lemma bfs_increment_full room o : 0 < room -> forall x o', bfs_increment nav o = Ok (x, o') -> bfs_increment_try nav room o = Ok (Returned (x, o')).
  Proof.
    intros Hr x o'. destruct o as [|p o]; cbn [bfs_increment bfs_increment_try]; [intros [=<- <-]; reflexivity|].
    destruct (nav_next nav p) as [n|e]; cbn [mbind res_bind]; [|discriminate]. destruct (nav_first nav p) as [f|e]; cbn [mbind res_bind]; [|discriminate].
    intros [=<- <-]. destruct f, room; try lia; reflexivity.
  Qed.
End Bfs.

(** *** How much room a call needs *)
Section Need.
  Variable F : nat.
  Variable nav : navigator.

  Definition needs_room (f : nat -> res (tried (ptr * list ptr) (list ptr))) (x : ptr * list ptr) : Prop :=
    exists need, (forall room, need <= room -> f room = Ok (Returned x)) /\ (forall room, room < need -> exists o, f room = Ok (Thrown o)).

  Lemma need_none f x : (forall room, f room = Ok (Returned x)) -> needs_room f x.
  Proof. intros H. exists 0. split; [intros room _; apply H|lia]. Qed.
  Lemma bfs_increment_need o x : bfs_increment nav o = Ok x -> needs_room (fun room => bfs_increment_try nav room o) x.
  Proof.
    destruct o as [|p o]; cbn [bfs_increment bfs_increment_try]; [intros [=<-]; apply need_none; reflexivity|].
    destruct (nav_next nav p) as [n|e]; cbn [mbind res_bind]; [|discriminate]. destruct (nav_first nav p) as [f|e]; cbn [mbind res_bind]; [|discriminate].
    intros [=<-]. destruct f; [|apply need_none; reflexivity]. exists 1. split; [intros [|room] H; [lia|reflexivity]|]. intros [|room] H; [eexists; reflexivity|lia].
  Qed.
  Lemma bfs_decrement_need cur o x : bfs_decrement F nav cur o = Ok x -> needs_room (fun room => bfs_decrement_try F nav room cur o) x.
  Proof.
    intros E. unfold bfs_decrement_try. rewrite E. destruct x. cbn [mbind res_bind]. exists 1. split; [intros [|room] H; [lia|reflexivity]|]. intros [|room] H; [eexists; reflexivity|lia].
  Qed.
  Lemma leaves_decrement_need cur o x : leaves_decrement F nav cur o = Ok x -> needs_room (fun room => leaves_decrement_try F nav room cur o) x.
  Proof.
    intros E. unfold leaves_decrement_try. rewrite E. destruct x as [[p|] o']; cbn [mbind res_bind]; [|apply need_none; reflexivity].
    exists 1. split; [intros [|room] H; [lia|reflexivity]|]. intros [|room] H; [eexists; reflexivity|lia].
  Qed.
  Lemma leaves_call_need o p n o1 : leaves_call nav o p = Ok (n, o1) ->
    (forall room, leaves_call_try nav room o p = Ok (Returned (n, o1, room))) \/
    (leaves_call_try nav 0 o p = Ok (Thrown o) /\ forall room, leaves_call_try nav (S room) o p = Ok (Returned (n, o1, room))).
  Proof.
    unfold leaves_call, leaves_call_try. destruct (nav_next nav p) as [ns|e]; cbn [mbind res_bind]; [|discriminate].
    destruct ns as [b|]; destruct (nav_first nav p) as [f|e]; cbn [mbind res_bind]; try discriminate; intros [=<- <-].
    - right. split; reflexivity.
    - left. intros room. destruct room; reflexivity.
  Qed.
  Lemma need_call o p n o1 (g : ptr -> list ptr -> nat -> res (tried (ptr * list ptr) (list ptr))) x : leaves_call nav o p = Ok (n, o1) -> needs_room (g n o1) x ->
    needs_room (fun room => y ← leaves_call_try nav room o p; match y with Thrown st1 => Ok (Thrown st1) | Returned (next', st1, room1) => g next' st1 room1 end) x.
  Proof.
    intros E (need & H1 & H2). destruct (leaves_call_need _ _ _ _ E) as [Hc|[Hc0 Hc]].
    - exists need. split; intros room Hr; rewrite Hc; cbn [mbind res_bind]; auto.
    - exists (S need). split; intros [|room] Hr; try lia.
      + rewrite Hc. cbn [mbind res_bind]. apply H1. lia.
      + rewrite Hc0. eexists. reflexivity.
      + rewrite Hc. cbn [mbind res_bind]. apply H2. lia.
  Qed.
  Lemma leaves_loop_need fuel : forall prev next o x, keep_calling0_loop (leaves_call nav) fuel prev next o = Ok x ->
    needs_room (fun room => leaves_loop_try nav fuel room prev next o) x.
  Proof.
    induction fuel as [|fuel IH]; intros prev next o x; cbn [keep_calling0_loop leaves_loop_try]; [discriminate|]. destruct next as [a|]; [|intros [=<-]; apply need_none; reflexivity].
    destruct (leaves_call nav o (Some a)) as [[n o1]|e] eqn:Ec; cbn [mbind res_bind]; [|discriminate]. intros E.
    exact (need_call o (Some a) n o1 (fun n o1 room => leaves_loop_try nav fuel room (Some a) n o1) x Ec (IH _ _ _ _ E)).
  Qed.
  Lemma leaves_down_need from o x : keep_calling0 (leaves_call nav) F from o = Ok x -> needs_room (fun room => leaves_down_try F nav room from o) x.
  Proof.
    unfold keep_calling0, leaves_down_try. destruct (leaves_call nav o from) as [[n o1]|e] eqn:Ec; cbn [mbind res_bind]; [|discriminate]. intros E.
    exact (need_call o from n o1 (fun n o1 room => leaves_loop_try nav F room from n o1) x Ec (leaves_loop_need _ _ _ _ _ E)).
  Qed.
  Lemma leaves_increment_need o x : leaves_increment F nav o = Ok x -> needs_room (fun room => leaves_increment_try F nav room o) x.
  Proof.
    destruct o as [|p o]; cbn [leaves_increment leaves_increment_try]; [intros [=<-]; apply need_none; reflexivity|].
    destruct (nav_next nav p) as [n|e]; cbn [mbind res_bind]; [|discriminate]. apply leaves_down_need.
  Qed.
  Lemma increment_need k cur o x : increment_impl F nav k cur o = Ok x -> needs_room (fun room => increment_try F nav room k cur o) x.
  Proof.
    intros E. assert (Hother : k <> BreadthFirst -> k <> Leaves -> needs_room (fun room => increment_try F nav room k cur o) x).
    { intros H1 H2. apply need_none. intros room. unfold increment_try. rewrite E. destruct k; congruence || reflexivity. }
    destruct k; try (apply Hother; discriminate); [apply bfs_increment_need|apply leaves_increment_need]; exact E.
  Qed.
  Lemma decrement_need k cur o x : decrement_impl F nav k cur o = Ok x -> needs_room (fun room => decrement_try F nav room k cur o) x.
  Proof.
    intros E. assert (Hother : k <> BreadthFirst -> k <> Leaves -> needs_room (fun room => decrement_try F nav room k cur o) x).
    { intros H1 H2. apply need_none. intros room. unfold decrement_try. rewrite E. destruct k; congruence || reflexivity. }
    destruct k; try (apply Hother; discriminate); [apply bfs_decrement_need|apply leaves_decrement_need]; exact E.
  Qed.
  Lemma go_first_need k i o x : go_first_impl F nav k i o = Ok x -> needs_room (fun room => go_first_try F nav room k i o) x.
  Proof.
    intros E. assert (Hother : k <> BreadthFirst -> k <> Leaves -> needs_room (fun room => go_first_try F nav room k i o) x).
    { intros H1 H2. apply need_none. intros room. unfold go_first_try. rewrite E. destruct k; congruence || reflexivity. }
    destruct k; try (apply Hother; discriminate).
    - cbn [go_first_impl] in E. destruct (bfs_increment_need _ _ E) as (need & H1 & H2). exists (S need). split; intros [|room] H; cbn [go_first_try bfs_first_try].
      + lia.
      + apply H1. lia.
      + eexists. reflexivity.
      + apply H2. lia.
    - apply leaves_down_need. exact E.
  Qed.
End Need.

Section NeedUser.
  Context {V Nd : Type}.
  Variable F : nat.
  Variable im : node_impl V Nd.
  Variable h : gmap addr Nd.

  Lemma may_of_needs g it x : needs_room g x -> may_fail (fun room => y ← g room; Ok (it_tried it y)) it (it_set it x).
  Proof.
    intros (need & H1 & H2). exists need. split; intros room Hr.
    - rewrite (H1 room Hr). reflexivity.
    - destruct (H2 room Hr) as [o E]. rewrite E. eexists. split; [reflexivity|]. auto.
  Qed.
  Lemma may_none (f : nat -> res (tried iter iter)) it it' : (forall room, f room = Ok (Returned it')) -> may_fail f it it'.
  Proof. intros H. exists 0. split; [intros room _; apply H|lia]. Qed.
  Lemma incr_need it it' : incr F im h it = Ok it' -> may_fail (fun room => incr_try F im h room it) it it'.
  Proof.
    unfold incr, incr_try, it_incr, it_incr_try. destruct (it_cur it) as [a|] eqn:Ec.
    - destruct (increment_impl _ _ _ _ _) as [x|e] eqn:E; cbn [mbind res_bind]; [|discriminate]. intros [=<-]. apply (may_of_needs _ _ _ (increment_need _ _ _ _ _ _ E)).
    - destruct (it_root it) as [r|] eqn:Er; [|intros [=<-]; apply may_none; reflexivity].
      destruct (go_first_impl _ _ _ _ _) as [x|e] eqn:E; cbn [mbind res_bind]; [|discriminate]. intros [=<-]. apply (may_of_needs _ _ _ (go_first_need _ _ _ _ _ _ E)).
  Qed.
  Lemma decr_need it it' : decr F im h it = Ok it' -> may_fail (fun room => decr_try F im h room it) it it'.
  Proof.
    unfold decr, decr_try, it_decr_try. destruct (it_cur it) as [a|] eqn:Ec.
    - unfold it_decr. rewrite Ec. destruct (decrement_impl _ _ _ _ _) as [x|e] eqn:E; cbn [mbind res_bind]; [|discriminate]. intros [=<-]. apply (may_of_needs _ _ _ (decrement_need _ _ _ _ _ _ E)).
    - intros E. rewrite E. apply may_none. reflexivity.
  Qed.
  (** The calls that leave nothing changed. *)
  Lemma leaves_decr_same it it' room : it_kind it = Leaves -> decr_try F im h room it = Ok (Thrown it') -> it' = it.
  Proof.
    unfold decr_try, it_decr_try. intros Hk. destruct (it_cur it) as [a|] eqn:Ec.
    - rewrite Hk. cbn [decrement_try]. unfold leaves_decrement_try. destruct (leaves_decrement _ _ _ _) as [[p o]|e]; cbn [mbind res_bind]; [|discriminate].
      destruct p, room; cbn [it_tried]; try discriminate. intros [=<-]. destruct it; reflexivity.
    - destruct (it_decr _ _ _); cbn [mbind res_bind]; discriminate.
  Qed.
  Lemma bfs_end_again it it' room : it_kind it = BreadthFirst -> it_cur it = None -> incr_try F im h room it = Ok (Thrown it') -> incr F im h it' = incr F im h it.
  Proof.
    unfold incr_try, it_incr_try, incr, it_incr. intros Hk Hc. rewrite Hc. destruct (it_root it) as [r|] eqn:Er; [|discriminate].
    destruct (go_first_try _ _ _ _ _ _) as [x|e]; cbn [mbind res_bind]; [|discriminate]. destruct x as [x|o]; cbn [it_tried]; [discriminate|]. intros [=<-].
    cbn [it_set it_cur it_root it_kind it_open it_initial fst snd]. rewrite Hc, Er, Hk. reflexivity.
  Qed.
End NeedUser.

(** *** Leaves *)
Section Leaf.
  Variable nav : navigator.
  Variable t : rose addr.
  Hypothesis Hok : nav_ok nav t.
  Variable F : nat.
  Hypothesis HF : rsize t <= F.

  (** [n] is reached from [s] by first children; with positions. *)
  Inductive spine : ctx addr -> rose addr -> ctx addr -> rose addr -> Prop :=
  | sp_here c s : spine c s c s
  | sp_down c y d ds c' n : spine (([], y, ds) :: c) d c' n -> spine c (Rose y (d :: ds)) c' n.
  Lemma spine_snoc c s c' y d ds : spine c s c' (Rose y (d :: ds)) -> spine c s (([], y, ds) :: c') d.
  Proof.
    intros H. remember (Rose y (d :: ds)) as m eqn:E. induction H as [c s|c y' d' ds' c' n H IH].
    - subst s. constructor. constructor.
    - constructor. apply IH, E.
  Qed.
  Lemma spine_plug c s c' n : spine c s c' n -> plug c s = plug c' n.
  Proof. induction 1 as [c s|c y d ds c' n H IH]; [reflexivity|]. rewrite <- IH. reflexivity. Qed.

  (** A node that some leaf comes before is reached from the right neighbour of a node. *)
  Lemma spine_up c : forall n, leaves_before c <> [] ->
    exists ls m0 q rs1 c1 m, spine ((ls ++ [m0], q, rs1) :: c1) m c n /\ last (leaves m0) = last (leaves_before c).
  Proof.
    induction c as [|[[ls q] rs] c IH]; intros n Hb; cbn [leaves_before] in Hb; [congruence|].
    destruct ls as [|d ls _] using rev_ind.
    - cbn [flat_map] in Hb. rewrite app_nil_r in Hb. destruct (IH (Rose q (n :: rs)) Hb) as (ls' & m0 & q' & rs1 & c1 & m & Hs & Hl).
      exists ls', m0, q', rs1, c1, m. split; [apply spine_snoc, Hs|]. cbn [leaves_before flat_map]. rewrite app_nil_r. exact Hl.
    - exists ls, d, q, rs, c, n. split; [constructor|]. cbn [leaves_before]. rewrite flat_map_app'. cbn [flat_map]. rewrite app_nil_r, !app_assoc.
      rewrite last_app. destruct (last (leaves d)) eqn:E; [reflexivity|]. apply last_None in E. exfalso. exact (leaves_ne d E).
  Qed.
  (** The stack at the last leaf below a node is the stack at the node. *)
  Lemma last_stack s : forall x, last (leaves s) = Some x -> exists c', plug c' (Rose x []) = s /\ forall c, leaf_stack (c' ++ c) x = leaf_stack c (label s).
  Proof.
    induction s as [y cs IH] using rose_ind'. intros x Hx. destruct cs as [|d cs _] using rev_ind.
    - cbn in Hx. injection Hx as ->. exists []. auto.
    - apply Forall_app in IH as [_ IH]. apply Forall_cons in IH as [IH _].
      rewrite leaves_unfold in Hx by (destruct cs; discriminate). rewrite flat_map_app' in Hx. cbn [flat_map] in Hx. rewrite app_nil_r, last_app in Hx.
      destruct (last (leaves d)) as [z|] eqn:E; [|apply last_None in E; exfalso; exact (leaves_ne d E)]. injection Hx as ->.
      destruct (IH x eq_refl) as (c' & Hp & Hst). exists (c' ++ [(cs, y, [])]). split.
      + rewrite RoseFacts.plug_app, Hp. reflexivity.
      + intros c. rewrite <- app_assoc, Hst. reflexivity.
  Qed.
  Lemma pend_stack c : forall s, plug c s = t -> pend t (leaf_stack c (label s)) (leaves_after c).
  Proof.
    induction c as [|[[ls q] rs] c IH]; intros s Hp; cbn [leaf_stack leaves_after]; [constructor|].
    specialize (IH (Rose q (ls ++ s :: rs)) Hp). cbn [label] in IH. destruct rs as [|d rs]; [exact IH|]. cbn [app].
    exact (pend_cons t ls q s d rs c _ _ Hp IH).
  Qed.

  Lemma leaves_call_try_ok c s room st : plug c s = t -> leaves_call_try nav room st (Some (label s)) =
    Ok (match rights c, room with
        | _ :: _, 0 => Thrown st
        | _ :: _, S room => Returned (head_label (children s), Some (label s) :: st, room)
        | [], _ => Returned (head_label (children s), st, room)
        end).
  Proof using Hok.
    intros Hp. unfold leaves_call_try. rewrite (no_next _ _ Hok _ _ Hp), next_rights. cbn [mbind res_bind].
    rewrite (no_first _ _ Hok _ _ Hp). destruct (rights c), room; reflexivity.
  Qed.
  Definition down_from (fuel room : nat) (from : ptr) (st : list ptr) : res (tried (ptr * list ptr) (list ptr)) :=
    x ← leaves_call_try nav room st from;
    match x with
    | Thrown st1 => Ok (Thrown st1)
    | Returned (next, st1, room1) => leaves_loop_try nav fuel room1 from next st1
    end.
  (** The push that fails can be that of any node on the way down that has a next sibling;
      the leaves below it and below the later siblings are then missed. *)
  Lemma down_throw c s c' n : spine c s c' n -> plug c s = t -> rights c' <> [] -> forall st l fuel, pend t st l -> height s <= fuel ->
    exists room o l3, down_from fuel room (Some (label s)) st = Ok (Thrown o) /\
      leaves s ++ flat_map leaves (rights c) ++ l = flat_map leaves (n :: rights c') ++ l3 /\ pend t o l3.
  Proof using Hok HF.
    induction 1 as [c s|c y d ds c' n H IH]; intros Hp Hr st l fuel Hst Hf.
    - exists 0, st, l. split; [|split; [|exact Hst]].
      + unfold down_from. rewrite (leaves_call_try_ok c s 0 st Hp). destruct (rights c); [congruence|reflexivity].
      + cbn [flat_map]. rewrite <- app_assoc. reflexivity.
    - assert (Hf2 : exists f, fuel = S f /\ height d <= f).
      { destruct fuel as [|f]; [cbn in Hf; lia|]. exists f. split; [reflexivity|]. cbn [height map] in Hf. rewrite list_max_cons in Hf. lia. }
      destruct Hf2 as (f & -> & Hf2).
      assert (Hloop : forall room o prev, leaves_loop_try nav (S f) room prev (Some (label d)) o = down_from f room (Some (label d)) o) by reflexivity.
      destruct (rights c) as [|d0 ds0] eqn:Er.
      + destruct (IH Hp Hr st (l) f) as (room & o & l3 & E & El & Hpe); [exact Hst|exact Hf2|]. exists room, o, l3. split; [|split; [|exact Hpe]].
        * unfold down_from at 1. rewrite (leaves_call_try_ok c _ room st Hp), Er. cbn [mbind res_bind children head_label]. rewrite Hloop. exact E.
        * rewrite leaves_unfold by discriminate. cbn [flat_map rights app] in El |- *. rewrite <- El, <- !app_assoc. reflexivity.
      + assert (Hst1 : pend t (Some (label (Rose y (d :: ds))) :: st) (flat_map leaves (d0 :: ds0) ++ l)).
        { destruct c as [|[[ls q] rs] c]; [discriminate|]. cbn [rights] in Er. subst rs. exact (pend_cons t ls q (Rose y (d :: ds)) d0 ds0 c st l Hp Hst). }
        destruct (IH Hp Hr _ _ f Hst1 Hf2) as (room & o & l3 & E & El & Hpe). exists (S room), o, l3. split; [|split; [|exact Hpe]].
        * unfold down_from at 1. rewrite (leaves_call_try_ok c _ (S room) st Hp), Er. cbn [mbind res_bind children head_label]. rewrite Hloop. exact E.
        * rewrite leaves_unfold by discriminate. cbn [rights] in El. rewrite <- El. cbn [flat_map]. rewrite <- !app_assoc. reflexivity.
  Qed.
  (** [++] at [x], the leaf before those below [n]. *)
  Lemma leaves_throw c n l1 x o : plug c n = t -> rights c <> [] -> leaves_before c = l1 ++ [x] -> st_leaves t (Some x) o ->
    exists room o' l3, leaves_increment_try F nav room o = Ok (Thrown o') /\ leaves t = l1 ++ x :: flat_map leaves (n :: rights c) ++ l3 /\ pend t o' l3.
  Proof using Hok HF.
    intros Hp Hr Hb Hst. destruct (spine_up c n) as (ls & m0 & q & rs1 & c1 & m & Hsp & Hl); [rewrite Hb; destruct l1; discriminate|].
    rewrite Hb, last_snoc in Hl. destruct (last_stack m0 x Hl) as (c' & Hc' & Hstk).
    assert (Hpm : plug ((ls ++ [m0], q, rs1) :: c1) m = t) by (rewrite (spine_plug _ _ _ _ Hsp); exact Hp).
    assert (Hp0 : plug ((ls, q, m :: rs1) :: c1) m0 = t) by (rewrite <- Hpm; cbn; rewrite <- app_assoc; reflexivity).
    assert (Hpx : plug (c' ++ (ls, q, m :: rs1) :: c1) (Rose x []) = t) by (rewrite RoseFacts.plug_app, Hc'; exact Hp0).
    assert (Ho : o = Some (label m0) :: leaf_stack c1 q).
    { rewrite (st_leaves_fun _ _ Hok (Some x) o (leaf_stack (c' ++ (ls, q, m :: rs1) :: c1) x) Hst); [rewrite Hstk; reflexivity|]. exists (c' ++ (ls, q, m :: rs1) :: c1), (Rose x []). auto. }
    subst o. cbn [leaves_increment_try]. rewrite (no_next _ _ Hok _ _ Hp0). cbn [mbind res_bind ctx_next head_label].
    pose proof (pend_stack c1 (Rose q (ls ++ m0 :: m :: rs1)) Hp0) as Hpe. cbn [label] in Hpe.
    destruct (down_throw _ _ _ _ Hsp Hpm Hr _ _ F Hpe) as (room & o' & l3 & E & El & Hpe').
    { apply (pos_fuelB _ _ Hok F HF _ _ Hpm). }
    exists room, o', l3. split; [exact E|]. split; [|exact Hpe'].
    pose proof (leaves_plug (c' ++ (ls, q, m :: rs1) :: c1) (Rose x [])) as Hlp. rewrite Hpx in Hlp. rewrite Hlp.
    pose proof (leaves_plug c n) as Hlp2. rewrite Hp, Hlp, Hb in Hlp2. cbn [leaves] in Hlp2. rewrite <- app_assoc in Hlp2.
    assert (Hnd : NoDup (leaves t)) by (eapply nd_leaves, Hok). rewrite Hlp in Hnd. cbn [leaves] in Hnd.
    destruct (NoDup_split_unique _ _ _ _ _ Hnd Hlp2) as [-> Ha]. cbn [leaves app]. f_equal. f_equal. rewrite <- El.
    (* what comes after [x] *)
    pose proof (leaves_plug ((ls ++ [m0], q, rs1) :: c1) m) as Hlp3. rewrite Hpm, Hlp in Hlp3. cbn [leaves_before leaves_after leaves] in Hlp3.
    rewrite flat_map_app' in Hlp3. cbn [flat_map] in Hlp3. rewrite app_nil_r in Hlp3. apply last_Some in Hl as [l' Hl']. rewrite Hl' in Hlp3.
    rewrite !app_assoc in Hlp3. rewrite <- (app_assoc _ [x]) in Hlp3. rewrite <- !app_assoc in Hlp3. cbn [app] in Hlp3.
    rewrite (app_assoc (leaves_before c1)), app_assoc in Hlp3.
    destruct (NoDup_split_unique _ _ _ _ _ Hnd Hlp3) as [_ Ha3]. rewrite Ha3. reflexivity.
  Qed.
  (** [++] at the end. *)
  Lemma leaves_first_throw c n i : plug c n = t -> rights c <> [] -> leaves_before c = [] ->
    exists room o l3, go_first_try F nav room Leaves i [] = Ok (Thrown o) /\ leaves t = flat_map leaves (n :: rights c) ++ l3 /\ pend t o l3.
  Proof using Hok HF.
    intros Hp Hr Hb.
    assert (Hsp : spine [] t c n).
    { clear -Hp Hb. revert n Hp. induction c as [|[[ls q] rs] c IH]; intros n Hp; [cbn in Hp; subst n; constructor|].
      cbn [leaves_before] in Hb. apply app_eq_nil in Hb as [Hb Hls]. destruct ls as [|d ls]; [|cbn in Hls; apply app_eq_nil in Hls as [Hls _]; exfalso; exact (leaves_ne d Hls)].
      apply spine_snoc. apply (IH Hb _ Hp). }
    cbn [go_first_try]. rewrite (no_root _ _ Hok).
    destruct (down_throw [] t c n Hsp eq_refl Hr [] [] F (pend_nil t)) as (room & o & l3 & E & El & Hpe); [pose proof (height_rsize t); lia|].
    exists room, o, l3. split; [exact E|]. split; [|exact Hpe]. rewrite <- El. cbn [rights flat_map]. rewrite !app_nil_r. reflexivity.
  Qed.
End Leaf.

(** *** For the user *)
Section Lost.
  Context {V Nd : Type}.
  Variable F : nat.
  Variable im : node_impl V Nd.
  Variable h : gmap addr Nd.
  Variable r : addr.
  Variable t : rose (addr * V).
  Hypothesis Hs : seen F im h r t.
  Notation mk := (tree_nav im h).
  Notation T := (rose_map fst t).
  Let Hok := sn_nav _ _ _ _ _ Hs.
  Let HF' : rsize T <= F. Proof. rewrite rsize_map. pose proof (sn_size _ _ _ _ _ Hs). lia. Qed.

  Lemma outside_map D (l : list (addr * V)) : map fst (outside D l) = List.filter (alive D) (map fst l).
  Proof. induction l as [|z l IH]; [reflexivity|]. cbn. unfold outside in *. cbn. unfold alive at 1. destruct (bool_decide (fst z ∉ D)); cbn; rewrite IH; reflexivity. Qed.
  Lemma outside_in D (l : list (addr * V)) z : z ∈ outside D l -> z ∈ l.
  Proof. unfold outside. rewrite !elem_of_list_In. intros H. apply filter_In in H as [H _]. exact H. Qed.
  Lemma outside_length D (l : list (addr * V)) : length (outside D l) <= length l.
  Proof. induction l as [|z l IH]; [reflexivity|]. unfold outside in *. cbn. destruct (bool_decide (fst z ∉ D)); cbn; lia. Qed.

  Lemma pos_of (c : ctx (addr * V)) s : plug c s = t -> plug (cmap c) (rose_map fst s) = T.
  Proof. intros <-. rewrite plug_cmap. reflexivity. Qed.
  Lemma pos_unique (s : rose (addr * V)) s' c' : rsubtree s t -> plug c' s' = T -> label s' = raddr s -> s' = rose_map fst s.
  Proof using Hs.
    intros Hsub Hp Hl. apply rsubtree_plug in Hsub as [c Hc]. apply pos_of in Hc.
    pose proof (no_nd _ _ Hok) as Hn. rewrite <- Hp in Hn. destruct (ctx_unique c' s' (cmap c) (rose_map fst s) Hn) as [_ E]; [congruence|rewrite label_map, Hl; reflexivity|exact E].
  Qed.
  Lemma bfs_there x it it0 : x ∈ levelorder t -> iterator_at F im h BreadthFirst (Some (fst x)) (Some r) = Ok it0 -> same_iter it it0 ->
    it_kind it = BreadthFirst /\ it_cur it = Some (fst x) /\ it_root it = Some r /\ st_bfs T (Some (fst x)) (it_open it).
  Proof using Hs.
    intros Hx E0 (G1 & G2 & G3 & G4).
    assert (Hx' : fst x ∈ levelorder T) by (rewrite levelorder_map; apply elem_of_list_fmap; eauto).
    unfold iterator_at, get_instance, fix_navigator_root in E0. cbn [mbind res_bind] in E0.
    destruct (bfs_init _ _ Hok F HF' (Some (fst x))) as (o & Eo & Hst); [right; eauto|].
    unfold initial_open in Eo. rewrite Eo in E0. cbn [mbind res_bind] in E0. injection E0 as <-. cbn in *. rewrite G1, G2, G3, G4. auto.
  Qed.
  Lemma level_after l1 x l2 : levelorder t = l1 ++ x :: l2 -> length l2 < length (preorder t) /\ forall y, y ∈ x :: l2 -> y ∈ preorder t.
  Proof.
    intros El. split.
    - rewrite <- levelorder_perm, El, app_length. cbn. lia.
    - intros y Hy. rewrite <- levelorder_perm, El. apply elem_of_app. right. exact Hy.
  Qed.

  Lemma bfs_incr_lost it it0 l1 x y l2 s : levelorder t = l1 ++ x :: y :: l2 -> rsubtree s t -> label s = y -> children s <> [] ->
    iterator_at F im h BreadthFirst (Some (fst x)) (Some r) = Ok it0 -> same_iter it it0 ->
    exists it', incr_try F im h 0 it = Ok (Thrown it') /\ iterate_from F im h it' BreadthFirst (Some r) = Ok (x :: outside (raddrs s) l2).
  Proof using Hs.
    intros El Hsub Hl Hch E0 Hsi.
    destruct (bfs_there x it it0) as (G1 & G2 & G3 & (c0 & s0 & Hp0 & Hl0 & Ho)); [rewrite El; apply elem_of_app; right; left|exact E0|exact Hsi|].
    assert (ElT : levelorder T = map fst l1 ++ label s0 :: fst y :: map fst l2) by (rewrite levelorder_map, El, map_app, Hl0; reflexivity).
    pose proof (no_nd _ _ Hok) as Hn.
    assert (Hnext : Some (fst y) = head_label (rsub c0 0 ++ row (S (length c0)) T)).
    { pose proof Hn as Hn'. pose proof ElT as ElT'. rewrite <- Hp0 in Hn', ElT' |- *. change (Some (fst y)) with (head (fst y :: map fst l2)). eapply levelorder_next; eassumption. }
    destruct (bfs_step _ _ Hok F HF' c0 s0 Hp0) as [[_ H2]|(c' & s' & Hp' & H2 & H3)]; [rewrite H2 in Hnext; discriminate|].
    rewrite H2 in Hnext. injection Hnext as Hls.
    assert (Es : s' = rose_map fst s) by (apply (pos_unique s s' c' Hsub Hp'); rewrite <- Hls, <- Hl; reflexivity).
    assert (Hch' : exists d, head_label (children s') = Some d). { rewrite Es. destruct s as [z [|d ds]]; [cbn in Hch; congruence|]. eexists. reflexivity. }
    destruct Hch' as [d Hd].
    exists (it_set it (it_cur it, opt_ptr (ctx_next c') ++ bfs_rest c')). split.
    - unfold incr_try, it_incr_try. rewrite G2, G3, G1, Ho, H3. cbn [increment_try bfs_increment_try]. rewrite (no_next _ _ Hok _ _ Hp'). cbn [mbind res_bind].
      rewrite (no_first _ _ Hok _ _ Hp'), Hd. cbn [mbind res_bind it_tried]. rewrite G2. f_equal. f_equal. f_equal. f_equal. destruct (ctx_next c'); reflexivity.
    - destruct (level_after _ _ _ El) as [Hlen Hin].
      assert (Hg : bgoes T (opt_ptr (ctx_next c') ++ bfs_rest c') (map fst (outside (raddrs s) l2))).
      { rewrite outside_map. replace (raddrs s) with (preorder s') by (rewrite Es, preorder_map; reflexivity).
        apply (queue_cut_children _ _ Hok F HF' c' s' (map fst l1 ++ [label s0])); [exact Hp'|]. rewrite ElT, <- app_assoc, Hls. reflexivity. }
      eapply (goes_iterate F im h r t Hs BreadthFirst (bgoes T)) with (o := opt_ptr (ctx_next c') ++ bfs_rest c'); [|exact G1|exact G2|exact G3|reflexivity|exact Hg| |].
      + intros z o l. apply bgoes_step, Hok.
      + intros z Hz. apply Hin. apply elem_of_cons in Hz as [->|Hz]; [left|]. right. right. eapply outside_in, Hz.
      + pose proof (outside_length (raddrs s) l2). cbn in Hlen. lia.
  Qed.
  Lemma bfs_decr_lost it it0 l1 x l2 q ls s rs : levelorder t = l1 ++ x :: l2 -> rsubtree (Rose q (ls ++ s :: rs)) t -> label s = x ->
    iterator_at F im h BreadthFirst (Some (fst x)) (Some r) = Ok it0 -> same_iter it it0 ->
    exists it', decr_try F im h 0 it = Ok (Thrown it') /\ iterate_from F im h it' BreadthFirst (Some r) = Ok (x :: outside (flat_map raddrs (s :: rs)) l2).
  Proof using Hs.
    intros El Hsub Hl E0 Hsi. apply rsubtree_plug in Hsub as [c1 Hc1].
    assert (HpT : plug ((map (rose_map fst) ls, fst q, map (rose_map fst) rs) :: cmap c1) (rose_map fst s) = T).
    { apply (pos_of ((ls, q, rs) :: c1) s). exact Hc1. }
    set (c := (map (rose_map fst) ls, fst q, map (rose_map fst) rs) :: cmap c1) in *.
    destruct (bfs_there x it it0) as (G1 & G2 & G3 & Hst); [rewrite El; apply elem_of_app; right; left|exact E0|exact Hsi|].
    pose proof (no_nd _ _ Hok) as Hn.
    assert (Hlab : label (rose_map fst s) = fst x) by (rewrite label_map, Hl; reflexivity).
    assert (ElT : levelorder T = map fst l1 ++ fst x :: map fst l2) by (rewrite levelorder_map, El, map_app; reflexivity).
    assert (Hl1 : map fst l1 <> []).
    { intros E. rewrite E in ElT. pose proof (levelorder_at [] T) as Hla. cbn [plug rows length seq flat_map lsub map app] in Hla. rewrite ElT in Hla. injection Hla as Hla _.
      pose proof Hn as Hn'. rewrite <- HpT in Hn'. destruct (ctx_unique c (rose_map fst s) [] T Hn') as [Hbad _]; [exact HpT|congruence|discriminate Hbad]. }
    destruct (ob_dec _ _ _ _ _ (bfs_back _ _ Hok F HF') (map fst l1) (fst x) (map fst l2) (it_open it) ElT Hl1 Hst) as (o' & Ed & Hst').
    destruct (exists_last Hl1) as (l1' & p & El1). rewrite El1, last_snoc in Hst', Ed. destruct Hst' as (c0 & s0 & Hp0 & Hl0 & Ho').
    assert (Etl : tl o' = bfs_rest c).
    { assert (Hnext : Some (fst x) = head_label (rsub c0 0 ++ row (S (length c0)) T)).
      { pose proof Hn as Hn'. pose proof ElT as ElT'. rewrite El1, <- app_assoc, <- Hl0 in ElT'. cbn [app] in ElT'. rewrite <- Hp0 in Hn', ElT' |- *.
        change (Some (fst x)) with (head (fst x :: map fst l2)). eapply levelorder_next; eassumption. }
      destruct (bfs_step _ _ Hok F HF' c0 s0 Hp0) as [[_ H2]|(c' & s' & Hp' & H2 & H3)]; [rewrite H2 in Hnext; discriminate|].
      rewrite H2 in Hnext. injection Hnext as Hls. rewrite Ho', H3. cbn [tl]. pose proof Hn as Hn'. rewrite <- HpT in Hn'.
      destruct (ctx_unique c (rose_map fst s) c' s' Hn') as [<- _]; [congruence|congruence|reflexivity]. }
    exists (it_set it (it_cur it, bfs_rest c)). split.
    - unfold decr_try, it_decr_try. rewrite G2, G3, G1. cbn [decrement_try]. unfold bfs_decrement_try. cbn [decrement_impl] in Ed. rewrite Ed. cbn [mbind res_bind it_tried].
      rewrite G2, Etl. reflexivity.
    - destruct (level_after _ _ _ El) as [Hlen Hin].
      assert (Hg : bgoes T (bfs_rest c) (map fst (outside (flat_map raddrs (s :: rs)) l2))).
      { rewrite outside_map. replace (flat_map raddrs (s :: rs)) with (flat_map preorder (rose_map fst s :: rights c)).
        - apply (queue_cut _ _ Hok F HF' c (rose_map fst s) (map fst l1)); [exact HpT|]. rewrite ElT, Hlab. reflexivity.
        - cbn [flat_map rights c]. rewrite preorder_map. f_equal. clear. induction rs as [|d rs IH]; [reflexivity|]. cbn [map flat_map]. rewrite preorder_map, IH. reflexivity. }
      eapply (goes_iterate F im h r t Hs BreadthFirst (bgoes T)) with (o := bfs_rest c); [|exact G1|exact G2|exact G3|reflexivity|exact Hg| |].
      + intros z o l. apply bgoes_step, Hok.
      + intros z Hz. apply Hin. apply elem_of_cons in Hz as [->|Hz]; [left|]. right. eapply outside_in, Hz.
      + pose proof (outside_length (flat_map raddrs (s :: rs)) l2). lia.
  Qed.

  Lemma leaves_pos q ls n r0 rs : rsubtree (Rose q (ls ++ n :: r0 :: rs)) t ->
    exists c, plug c (rose_map fst n) = T /\ rights c = map (rose_map fst) (r0 :: rs) /\ flat_map leaves (rose_map fst n :: rights c) = map fst (flat_map leaves (n :: r0 :: rs)).
  Proof.
    intros Hsub. apply rsubtree_plug in Hsub as [c1 Hc1]. exists (cmap ((ls, q, r0 :: rs) :: c1)). split; [apply pos_of; exact Hc1|]. split; [reflexivity|].
    change (rose_map fst n :: rights (cmap ((ls, q, r0 :: rs) :: c1))) with (map (rose_map (B := addr) fst) (n :: r0 :: rs)).
    generalize (n :: r0 :: rs) as l. clear. induction l as [|d l IH]; [reflexivity|]. cbn [map flat_map]. rewrite leaves_map, map_app, IH. reflexivity.
  Qed.
  Lemma leaves_split (c : ctx addr) n (u : list addr) l2 : plug c n = T -> leaves T = u ++ leaves n ++ l2 -> leaves_before c = u.
  Proof using Hs.
    intros Hp E. pose proof (leaves_plug c n) as Hlp. rewrite Hp, E in Hlp. assert (Hnd : NoDup (leaves T)) by (eapply nd_leaves, Hok). rewrite E in Hnd.
    pose proof (leaves_ne n) as Hne. destruct (leaves n) as [|a as0]; [congruence|]. cbn [app] in Hlp, Hnd. destruct (NoDup_split_unique _ _ _ _ _ Hnd Hlp) as [-> _]. reflexivity.
  Qed.
  Lemma after_in l1 l2 z : leaves t = l1 ++ l2 -> z ∈ l2 -> z ∈ preorder t.
  Proof. intros E Hz. apply leaves_in. rewrite E. apply elem_of_app. right. exact Hz. Qed.

  Lemma leaves_incr_lost it b l1 x q ls n r0 rs l3 : rsubtree (Rose q (ls ++ n :: r0 :: rs)) t -> leaves t = l1 ++ x :: flat_map leaves (n :: r0 :: rs) ++ l3 ->
    tree_begin F mk Leaves (Some r) = Ok b -> run F im h (repeat true (length l1)) b = Ok it ->
    exists room it', incr_try F im h room it = Ok (Thrown it') /\ iterate_from F im h it' Leaves (Some r) = Ok (x :: l3).
  Proof using Hs.
    intros Hsub El Eb Er. destruct (leaves_pos _ _ _ _ _ Hsub) as (c & Hp & Hr & Ef).
    destruct (walked F im h r t Hs (length l1) x) as (b' & it1 & p & Eb' & Er' & G1 & G2 & G3 & G4 & Htr). { rewrite El, nth_error_app2, Nat.sub_diag by lia. reflexivity. }
    rewrite Eb in Eb'. injection Eb' as <-. rewrite Er in Er'. injection Er' as <-.
    assert (ElT : leaves T = (map fst l1 ++ [fst x]) ++ leaves (rose_map fst n) ++ map fst (flat_map leaves (r0 :: rs)) ++ map fst l3).
    { rewrite leaves_map, El, !map_app. cbn [flat_map map]. rewrite !map_app, leaves_map, <- !app_assoc. reflexivity. }
    pose proof (leaves_split c _ _ _ Hp ElT) as Hb.
    assert (Hst : st_leaves T (Some (fst x)) (it_open it)).
    { destruct (leaf_plug t x) as [cx Hcx]; [rewrite El; apply elem_of_app; right; left|].
      exists (cmap cx), (rose_map fst (Rose x [])). split; [apply pos_of, Hcx|]. split; [reflexivity|]. rewrite G4, leaf_stack_names. f_equal.
      pose proof (trail_at cx (Rose x [])) as Hta. rewrite Hcx in Hta. change (raddr (Rose x [])) with (fst x) in Hta. rewrite Htr in Hta.
      specialize (Hta (seen_raddrs _ _ _ _ _ Hs)). injection Hta as <-. reflexivity. }
    destruct (leaves_throw _ _ Hok F HF' c (rose_map fst n) (map fst l1) (fst x) (it_open it) Hp) as (room & o' & l3' & E & El' & Hpe); [rewrite Hr; discriminate|exact Hb|exact Hst|].
    assert (E3 : l3' = map fst l3).
    { rewrite Ef in El'. rewrite leaves_map, El, map_app in El'. apply app_inv_head in El'. cbn [map] in El'. injection El' as El'. rewrite map_app in El'. apply app_inv_head in El'. congruence. }
    subst l3'. exists room, (it_set it (it_cur it, o')). split.
    - unfold incr_try, it_incr_try. rewrite G2, G3, G1. cbn [increment_try]. rewrite E. cbn [mbind res_bind it_tried]. rewrite G2. reflexivity.
    - eapply (goes_iterate F im h r t Hs Leaves (pend T)) with (o := o'); [|exact G1|exact G2|exact G3|reflexivity|exact Hpe| |].
      + intros z o l Hz. exact (next_pend _ _ Hok F HF' o l Hz).
      + intros z Hz. eapply after_in; [exact El|]. apply elem_of_cons in Hz as [->|Hz]; [left|]. right. apply elem_of_app. right. exact Hz.
      + rewrite length_preorder. pose proof (LeafStay.seen_length t) as Hlen. rewrite El, app_length in Hlen. cbn in Hlen. rewrite app_length in Hlen. lia.
  Qed.
  Lemma leaves_end_twice q ls n r0 rs l3 : rsize t + rsize t < F -> rsubtree (Rose q (ls ++ n :: r0 :: rs)) t -> leaves t = flat_map leaves (n :: r0 :: rs) ++ l3 ->
    exists e room e' it, tree_end F mk Leaves (Some r) = Ok e /\ incr_try F im h room e = Ok (Thrown e') /\ incr F im h e' = Ok it /\
      iterate_from F im h it Leaves (Some r) = Ok (leaves t ++ l3).
  Proof using Hs.
    intros HF2 Hsub El. destruct (leaves_pos _ _ _ _ _ Hsub) as (c & Hp & Hr & Ef).
    assert (ElT : leaves T = [] ++ leaves (rose_map fst n) ++ map fst (flat_map leaves (r0 :: rs)) ++ map fst l3).
    { rewrite leaves_map, El, !map_app. cbn [flat_map map]. rewrite !map_app, leaves_map, <- !app_assoc. reflexivity. }
    pose proof (leaves_split c _ _ _ Hp ElT) as Hb.
    destruct (leaves_first_throw _ _ Hok F HF' c (rose_map fst n) None Hp) as (room & o & l3' & E & El' & Hpe); [rewrite Hr; discriminate|exact Hb|].
    assert (E3 : l3' = map fst l3). { rewrite Ef, leaves_map, El, map_app in El'. apply app_inv_head in El'. congruence. }
    subst l3'. destruct (first_pend _ _ Hok F HF' None o _ Hpe) as (o1 & E1 & Hpe1).
    exists (Iter Leaves None (Some r) [] None), room, (Iter Leaves None (Some r) o None), (Iter Leaves (head (leaves T)) (Some r) o1 None).
    split; [reflexivity|]. split. { unfold incr_try, it_incr_try. cbn [it_cur it_root it_kind it_open it_initial]. rewrite E. reflexivity. }
    split. { unfold incr, it_incr. cbn [it_cur it_root it_kind it_open it_initial]. rewrite E1. reflexivity. }
    rewrite leaves_map in *. pose proof (some_leaf t) as Hne. pose proof (LeafStay.seen_length t) as Hlen.
    destruct (leaves t) as [|x lt] eqn:Elt; [congruence|]. cbn [map head tail app] in *. rewrite <- map_app in Hpe1.
    unfold iterate_from, tree_end, it_end, get_instance, fix_navigator_root. cbn [mbind res_bind].
    apply (goes_walk F im h r Leaves (pend T)); [|exact Hpe1|reflexivity|reflexivity| |].
    - intros z o' l Hz. exact (next_pend _ _ Hok F HF' o' l Hz).
    - intros y Hy. apply (sn_val _ _ _ _ _ Hs). apply leaves_in. rewrite Elt. rewrite app_comm_cons in Hy. apply elem_of_app in Hy as [Hy|Hy]; [exact Hy|].
      rewrite El. apply elem_of_app. right. exact Hy.
    - assert (length l3 <= length (x :: lt)) by (rewrite El, app_length; lia). rewrite app_length. cbn in *. lia.
  Qed.
End Lost.
