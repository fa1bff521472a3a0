(** PropMove.v: C65, the explicit moves of iterators. *)
From Verif Require Import Base Spec EditSpec StructNode LitFacts BinaryNode NaryNode Nav Policy Tree RoseFacts RowFacts
  NavFacts BranchFacts Orders PolicyFacts BinOrder Rep BinRep NaryRep NaryOps NaryOps2 User Iter IterTrees IterMain NodeFacts SibFacts IterProofs
  LeafStay Moves Examples Examples2.

Section Move.
  Context {V Nd : Type} (F : nat) (im : node_impl V Nd) (h : gmap addr Nd) (t : rose (addr * V)).
  Notation nav := (tree_nav im h (Some (raddr t))).
  Hypothesis Hnav : nav_ok nav (rose_map fst t).
  Hypothesis Hchild : forall s i, rsubtree s t -> nav_child nav (Some (raddr s)) i = Ok (nth_error (map raddr (children s)) (N.to_nat i)).
  Hypothesis HF : rsize t < F.

  Lemma head_map (cs : list (rose (addr * V))) : head_label (map (rose_map fst) cs) = head (map raddr cs).
  Proof. destruct cs as [|[[? ?] ?] cs]; reflexivity. Qed.
  Lemma last_map (cs : list (rose (addr * V))) : last_label (map (rose_map fst) cs) = last (map raddr cs).
  Proof.
    destruct cs as [|s cs _] using rev_ind; [reflexivity|]. rewrite !map_app. cbn [map].
    rewrite last_label_snoc, last_snoc. destruct s as [[? ?] ?]. reflexivity.
  Qed.
  Lemma label_raddr (s : rose (addr * V)) : label (rose_map fst s) = raddr s.
  Proof. destruct s as [[? ?] ?]. reflexivity. Qed.

  Lemma leads_ok m a p : leads t m a p -> move_fun m nav (Some a) = Ok p /\ (forall x, p = Some x -> exists s, rsubtree s t /\ raddr s = x).
  Proof.
    assert (Hin : forall x cs c, rsubtree (Rose x cs) t -> c ∈ cs -> rsubtree c t).
    { intros x cs c Hs Hc. apply rsubtree_plug in Hs as (k & <-). apply rsubtree_plug. apply elem_of_list_split in Hc as (l1 & l2 & ->).
      exists ((l1, x, l2) :: k). reflexivity. }
    assert (Hpick : forall (cs : list (rose (addr * V))) x, x ∈ map raddr cs -> exists c, c ∈ cs /\ raddr c = x).
    { intros cs x Hx. apply elem_of_list_fmap in Hx as (c & -> & Hc). eauto. }
    assert (Hlast : forall (l : list addr) x, last l = Some x -> x ∈ l).
    { intros l x. destruct l as [|y l _] using rev_ind; [discriminate|]. rewrite last_snoc. intros [=<-]. set_solver. }
    assert (Hhead : forall (l : list addr) x, head l = Some x -> x ∈ l).
    { intros [|y l] x; [discriminate|]. intros [=<-]. left. }
    intros H. destruct H as [x ls s rs Hs|x ls s rs Hs|x ls s rs Hs|m Hm|s Hs|s Hs|s i Hs].
    - split.
      + apply rsubtree_plug in Hs as (c & Hc). pose proof (no_parent _ _ Hnav (cmap ((ls, x, rs) :: c)) (rose_map fst s)) as Hp.
        rewrite label_raddr in Hp. apply Hp. rewrite <- plug_cmap. cbn [plug]. rewrite Hc. reflexivity.
      + intros y [=<-]. exists (Rose x (ls ++ s :: rs)). split; [exact Hs|]. reflexivity.
    - split.
      + apply rsubtree_plug in Hs as (c & Hc). pose proof (no_prev _ _ Hnav (cmap ((ls, x, rs) :: c)) (rose_map fst s)) as Hp.
        rewrite label_raddr in Hp. rewrite <- last_map. apply Hp. rewrite <- plug_cmap. cbn [plug]. rewrite Hc. reflexivity.
      + intros y Hy. apply Hlast, Hpick in Hy as (c & Hc & <-). exists c. split; [|reflexivity]. eapply Hin; [exact Hs|set_solver +Hc].
    - split.
      + apply rsubtree_plug in Hs as (c & Hc). pose proof (no_next _ _ Hnav (cmap ((ls, x, rs) :: c)) (rose_map fst s)) as Hp.
        rewrite label_raddr in Hp. rewrite <- head_map. apply Hp. rewrite <- plug_cmap. cbn [plug]. rewrite Hc. reflexivity.
      + intros y Hy. apply Hhead, Hpick in Hy as (c & Hc & <-). exists c. split; [|reflexivity]. eapply Hin; [exact Hs|set_solver +Hc].
    - split; [|discriminate].
      destruct Hm as [->|[->| ->]]; cbn [move_fun];
        [pose proof (no_parent _ _ Hnav [] _ eq_refl) as E|pose proof (no_prev _ _ Hnav [] _ eq_refl) as E|pose proof (no_next _ _ Hnav [] _ eq_refl) as E];
        rewrite label_raddr in E; exact E.
    - split.
      + apply rsubtree_plug in Hs as (c & Hc). rewrite <- head_map, <- children_map.
        pose proof (no_first _ _ Hnav (cmap c) (rose_map fst s)) as E. rewrite label_raddr in E. apply E. rewrite <- plug_cmap, Hc. reflexivity.
      + intros y Hy. apply Hhead, Hpick in Hy as (c & Hc & <-). exists c. split; [|reflexivity]. destruct s as [x cs]. eapply Hin; [exact Hs|exact Hc].
    - split.
      + apply rsubtree_plug in Hs as (c & Hc). rewrite <- last_map, <- children_map.
        pose proof (no_last _ _ Hnav (cmap c) (rose_map fst s)) as E. rewrite label_raddr in E. apply E. rewrite <- plug_cmap, Hc. reflexivity.
      + intros y Hy. apply Hlast, Hpick in Hy as (c & Hc & <-). exists c. split; [|reflexivity]. destruct s as [x cs]. eapply Hin; [exact Hs|exact Hc].
    - split; [apply Hchild, Hs|].
      intros y Hy. assert (Hy' : y ∈ map raddr (children s)) by (eapply elem_of_list_In, nth_error_In; exact Hy).
      apply Hpick in Hy' as (c & Hc & <-). exists c. split; [|reflexivity]. destruct s as [x cs]. eapply Hin; [exact Hs|exact Hc].
  Qed.

  Lemma go_ok it m a p : leads t m a p -> it_cur it = Some a -> it_root it = Some (raddr t) ->
    exists it', go F im h m it = Ok it' /\ it_kind it' = it_kind it /\ it_cur it' = p /\ it_root it' = it_root it /\
      iterator_at F im h (it_kind it) p (it_root it) = Ok it'.
  Proof.
    intros Hl Hc Hr. destruct (leads_ok m a p Hl) as [Hm Hp]. unfold go, do_move, iterator_at. rewrite Hr, Hc, Hm. cbn [mbind res_bind].
    assert (Hi : exists it', get_instance F (tree_nav im h) (it_kind it) p (Some (raddr t)) = Ok it' /\
                   it_kind it' = it_kind it /\ it_cur it' = p /\ it_root it' = Some (raddr t)).
    { unfold get_instance. cbn [fix_navigator_root mbind res_bind].
      assert (Ho : exists o, (match it_kind it with BreadthFirst => manage_initial_status F nav p | _ => Ok [] end) = Ok o).
      { destruct (it_kind it); try (eexists; reflexivity). destruct p as [x|]; [|eexists; reflexivity].
        destruct (Hp x eq_refl) as (s & Hs & <-). apply rsubtree_plug in Hs as (c & Hs).
        eexists. pose proof (manage_ok nav _ Hnav F ltac:(rewrite rsize_map; lia) (cmap c) (rose_map fst s)) as E. rewrite label_raddr in E. apply E. rewrite <- plug_cmap, Hs. reflexivity. }
      destruct Ho as (o & ->). cbn [mbind res_bind]. eexists. split; [reflexivity|]. auto. }
    destruct Hi as (it' & E & H1 & H2 & H3). exists it'. auto.
  Qed.
End Move.

Lemma plug_size_le {A} (c : ctx A) : forall s, rsize s <= rsize (plug c s).
Proof.
  induction c as [|[[ls x] rs] c IH]; intros s; [cbn; lia|]. cbn [plug]. specialize (IH (Rose x (ls ++ s :: rs))).
  cbn [rsize] in IH. rewrite map_app in IH. cbn [map] in IH. change (fold_right Nat.add 0) with list_sum in IH.
  rewrite list_sum_app in IH. cbn in IH. change (fold_right Nat.add 0) with list_sum in IH. lia.
Qed.
Lemma forest_sub {A} (t : bin A) (u s : rose A) : bin_forest t = [u] -> rsubtree s u -> exists b, bsubtree b t /\ bin_forest b = [s].
Proof.
  revert u. induction t as [|x l IHl r IHr]; intros u Hu Hs; [discriminate|]. cbn in Hu. injection Hu as <-.
  remember (Rose x (bin_forest l ++ bin_forest r)) as t0 eqn:E. destruct Hs as [|y ds d Hd1 Hd2].
  - subst. exists (BNode x l r). split; [constructor|reflexivity].
  - injection E as -> ->. apply elem_of_app in Hd1 as [Hd|Hd].
    + destruct l as [|y l1 l2]; [apply elem_of_nil in Hd as []|]. cbn in Hd. apply elem_of_list_singleton in Hd as ->.
      destruct (IHl _ eq_refl Hd2) as (b & Hb & E). exists b. split; [apply bsub_left, Hb|exact E].
    + destruct r as [|y r1 r2]; [apply elem_of_nil in Hd as []|]. cbn in Hd. apply elem_of_list_singleton in Hd as ->.
      destruct (IHr _ eq_refl Hd2) as (b & Hb & E). exists b. split; [apply bsub_right, Hb|exact E].
Qed.
Lemma bin_child {V} (h : gmap addr (bnode V)) (t : bin (addr * V)) u s i : bin_in h t -> bin_forest t = [u] -> rsubtree s u ->
  b_child h (Some (raddr s)) i = Ok (nth_error (map raddr (children s)) (N.to_nat i)).
Proof.
  intros Ht Hu Hs. destruct (forest_sub t u s Hu Hs) as (b & Hb & Eb). destruct b as [|[a v] l r]; [discriminate|].
  pose proof (bin_in_sub _ _ _ Ht Hb) as Hin. destruct (b_children_queries h a v l r Hin) as (_ & _ & _ & _ & _ & _ & Hc).
  cbn in Eb. injection Eb as <-. change (raddr (Rose (a, v) _)) with a. rewrite Hc. f_equal. f_equal. cbn [children]. rewrite map_app.
  destruct l as [|[? ?] ? ?], r as [|[? ?] ? ?]; reflexivity.
Qed.

(** Every move is defined at every node, and leads to one place. *)
Theorem C65_moves_defined :
  forall (V : Type) (t s : rose (addr * V)) (m : iter_move), rsubtree s t -> exists p, leads t m (raddr s) p.
Proof.
  intros V t s m Hs. destruct m; try (eexists; constructor; exact Hs).
  all: destruct (proj1 (rsubtree_plug s t) Hs) as (c & Hc); destruct c as [|[[ls x] rs] c]; [cbn in Hc; subst s; eexists; apply leads_out; auto|].
  all: assert (Hs' : rsubtree (Rose x (ls ++ s :: rs)) t) by (apply rsubtree_plug; exists c; exact Hc).
  - eexists. eapply leads_parent, Hs'.
  - eexists. eapply leads_prev, Hs'.
  - eexists. eapply leads_next, Hs'.
Qed.
Print Assumptions C65_moves_defined.

Theorem C65_moves_nary :
  forall (V : Type) (EV : EqDecision V) (F : nat) (h : gmap addr (nnode V)) (t : rose (addr * V)) (it : iter) (m : iter_move) (a : addr) (p : ptr),
  nary_in h t -> rsize t < F -> (N.of_nat F <= W64)%N -> leads t m a p -> it_cur it = Some a -> it_root it = Some (raddr t) ->
  exists it', go F (nary_impl V) h m it = Ok it' /\ it_kind it' = it_kind it /\ it_cur it' = p /\ it_root it' = it_root it /\
    iterator_at F (nary_impl V) h (it_kind it) p (it_root it) = Ok it' /\
    (p = None -> exists e, tree_end F (tree_nav (nary_impl V) h) (it_kind it) (Some (raddr t)) = Ok e /\ it_eqb it' e = true) /\
    (two_way_nary (it_kind it) -> forall l1 x l2, rose_order (it_kind it) t = l1 ++ x :: l2 -> p = Some (fst x) ->
       iterate_from F (nary_impl V) h it' (it_kind it) (Some (raddr t)) = Ok (x :: l2)).
Proof.
  intros V EV F h t it m a p Ht HF HFW Hl Hc Hr.
  assert (Hch : forall s i, rsubtree s t -> n_child h (Some (raddr s)) i = Ok (nth_error (map raddr (children s)) (N.to_nat i))).
  { intros s i Hs. destruct s as [[b v] cs]. pose proof (nary_in_sub _ _ _ Ht Hs) as Hin.
    destruct (n_children_queries h b v cs Hin) as (_ & _ & _ & _ & Hch); [|exact (Hch i)].
    apply rsubtree_plug in Hs as (c & <-). pose proof (plug_size_le c (Rose (b, v) cs)) as Hle.
    cbn [rsize] in Hle. assert (length cs <= list_sum (map rsize cs)).
    { clear. induction cs as [|c cs IH]; cbn; [lia|]. destruct c. cbn. change (fold_right Nat.add 0) with list_sum in *. lia. }
    change (fold_right Nat.add 0) with list_sum in *. lia. }
  destruct (go_ok F (nary_impl V) h t (nary_nav h t Ht) Hch HF it m a p Hl Hc Hr) as (it' & E & H1 & H2 & H3 & H4).
  exists it'. do 5 (split; [assumption|]). split.
  - intros ->. exists it'. split; [rewrite Hr in H4; exact H4|]. unfold it_eqb. rewrite !ptr_eqb_true. reflexivity.
  - intros Hk l1 x l2 Ho ->. destruct (p_change_policy_nary V EV F h (Some t) (it_kind it) it' l1 l2 x Ht HF Hk Ho H2 (eq_trans H3 Hr)) as (it2 & E2 & _ & _ & Hi).
    unfold it_other_policy in E2. rewrite H2, H3, Hr in E2. rewrite Hr in H4. unfold iterator_at in H4. rewrite H4 in E2. injection E2 as <-. exact Hi.
Qed.
Print Assumptions C65_moves_nary.

Theorem C65_moves_binary :
  forall (V : Type) (EV : EqDecision V) (F : nat) (h : gmap addr (bnode V)) (t : bin (addr * V)) (u : rose (addr * V)) (it : iter) (m : iter_move) (a : addr) (p : ptr),
  bin_in h t -> bin_size t < F -> bin_forest t = [u] -> leads u m a p -> it_cur it = Some a -> it_root it = baddr t ->
  exists it', go F (binary_impl V) h m it = Ok it' /\ it_kind it' = it_kind it /\ it_cur it' = p /\ it_root it' = it_root it /\
    iterator_at F (binary_impl V) h (it_kind it) p (it_root it) = Ok it' /\
    (p = None -> exists e, tree_end F (tree_nav (binary_impl V) h) (it_kind it) (baddr t) = Ok e /\ it_eqb it' e = true) /\
    (two_way_bin (it_kind it) -> forall l1 x l2, bin_order (it_kind it) t = l1 ++ x :: l2 -> p = Some (fst x) ->
       iterate_from F (binary_impl V) h it' (it_kind it) (baddr t) = Ok (x :: l2)).
Proof.
  intros V EV F h t u it m a p Ht HF Hu Hl Hc Hr. destruct (bin_stored V EV h t u Ht Hu) as (Ha & Hsz & Hok & _).
  rewrite Ha in Hr.
  destruct (go_ok F (binary_impl V) h u Hok (fun s i Hs => bin_child h t u s i Ht Hu Hs) ltac:(lia) it m a p Hl Hc Hr) as (it' & E & H1 & H2 & H3 & H4).
  exists it'. do 5 (split; [assumption|]). rewrite Ha. split.
  - intros ->. exists it'. split; [rewrite Hr in H4; exact H4|]. unfold it_eqb. rewrite !ptr_eqb_true. reflexivity.
  - intros Hk l1 x l2 Ho ->. destruct (p_change_policy_binary V EV F h t (it_kind it) it' l1 l2 x Ht HF Hk Ho H2 ltac:(congruence)) as (it2 & E2 & _ & _ & Hi).
    unfold it_other_policy in E2. rewrite H2, H3, Hr in E2. rewrite Hr in H4. unfold iterator_at in H4. rewrite H4 in E2. injection E2 as <-. rewrite Ha in Hi. exact Hi.
Qed.
Print Assumptions C65_moves_binary.

(** Uses: node 30 of the n-ary example, moved to its next sibling 40 by a
    pre-order iterator; node 40 of the binary one, moved to its parent 20. *)
Example C65_used_nary : leads ex_nary GoNext 3%positive (Some 4%positive) /\
  exists it it', iterator_at 100 (nary_impl nat) ex_nheap PreOrder (Some 3%positive) (Some 1%positive) = Ok it /\
    go 100 (nary_impl nat) ex_nheap GoNext it = Ok it' /\
    iterate_from 100 (nary_impl nat) ex_nheap it' PreOrder (Some 1%positive) = Ok [(4%positive, 40)].
Proof.
  assert (Hl : leads ex_nary GoNext 3%positive (Some 4%positive)).
  { exact (leads_next ex_nary (1%positive, 10) [Rose (2%positive, 20) []] (Rose (3%positive, 30) [Rose (5%positive, 50) []; Rose (6%positive, 60) []])
      [Rose (4%positive, 40) []] (rsub_here _)). }
  split; [exact Hl|]. eexists. 
  assert (E : iterator_at 100 (nary_impl nat) ex_nheap PreOrder (Some 3%positive) (Some 1%positive) = Ok (Iter PreOrder (Some 3%positive) (Some 1%positive) [] (Some 3%positive))) by reflexivity.
  destruct (C65_moves_nary nat _ 100 ex_nheap ex_nary (Iter PreOrder (Some 3%positive) (Some 1%positive) [] (Some 3%positive)) GoNext 3%positive (Some 4%positive)
    ex_nary_in ltac:(vm_compute; lia) ltac:(vm_compute; discriminate) Hl eq_refl eq_refl) as (it' & H1 & _ & _ & _ & _ & _ & H2).
  exists it'. split; [exact E|]. split; [exact H1|].
  exact (H2 ltac:(left; reflexivity) [(1%positive, 10); (2%positive, 20); (3%positive, 30); (5%positive, 50); (6%positive, 60)] (4%positive, 40) [] eq_refl eq_refl).
Qed.
Example C65_used_binary : exists u, bin_forest ex_bin = [u] /\ leads u GoParent 4%positive (Some 2%positive).
Proof.
  eexists. split; [reflexivity|].
  eapply (leads_parent _ (2%positive, 20) [] (Rose (4%positive, 40) [Rose (5%positive, 50) []]) []).
  eapply rsub_child; [left|]. apply rsub_here.
Qed.

(** [other_node] (tree_iterator.hpp 127-129): the same policy and tree, at another
    node of the tree, and from there on in the order of the policy. *)
Theorem C65_other_node_nary :
  forall (V : Type) (EV : EqDecision V) (F : nat) (h : gmap addr (nnode V)) (t : option (rose (addr * V))) (it : iter) (l1 l2 : list (addr * V)) (x : addr * V),
  onary_in h t -> nsize t < F -> two_way_nary (it_kind it) -> it_root it = nroot t -> nary_order (it_kind it) t = l1 ++ x :: l2 ->
  exists it', it_other_node F (tree_nav (nary_impl V) h) it (Some (fst x)) = Ok it' /\ it_kind it' = it_kind it /\ it_cur it' = Some (fst x) /\ it_root it' = it_root it /\ iterate_from F (nary_impl V) h it' (it_kind it) (nroot t) = Ok (x :: l2).
Proof.
  intros V EV F h t it l1 l2 x Ht HF Hk Hr Ho.
  destruct (p_change_policy_nary V EV F h t (it_kind it) (Iter (it_kind it) (Some (fst x)) (it_root it) [] None) l1 l2 x Ht HF Hk Ho eq_refl Hr) as (it' & E & Hk' & Hc & Hi).
  exists it'. split; [exact E|]. split; [exact Hk'|]. split; [exact Hc|]. split; [|exact Hi].
  assert (exists r, it_root it = Some r) as [r Er].
  { rewrite Hr. destruct t as [u|]; [exists (raddr u); reflexivity|]. exfalso. cbn in Ho. destruct l1; discriminate Ho. }
  revert E. unfold it_other_policy, get_instance, fix_navigator_root. cbn [it_cur it_root]. rewrite Er. cbn [mbind res_bind].
  destruct (it_kind it); try (intros E; injection E as <-; reflexivity).
  destruct (manage_initial_status _ _ _) as [o|] in |- *; cbn [res_bind]; [|discriminate]. intros E; injection E as <-; reflexivity.
Qed.
Print Assumptions C65_other_node_nary.
Theorem C65_other_node_binary :
  forall (V : Type) (EV : EqDecision V) (F : nat) (h : gmap addr (bnode V)) (t : bin (addr * V)) (it : iter) (l1 l2 : list (addr * V)) (x : addr * V),
  bin_in h t -> bin_size t < F -> two_way_bin (it_kind it) -> it_root it = baddr t -> bin_order (it_kind it) t = l1 ++ x :: l2 ->
  exists it', it_other_node F (tree_nav (binary_impl V) h) it (Some (fst x)) = Ok it' /\ it_kind it' = it_kind it /\ it_cur it' = Some (fst x) /\ it_root it' = it_root it /\ iterate_from F (binary_impl V) h it' (it_kind it) (baddr t) = Ok (x :: l2).
Proof.
  intros V EV F h t it l1 l2 x Ht HF Hk Hr Ho.
  destruct (p_change_policy_binary V EV F h t (it_kind it) (Iter (it_kind it) (Some (fst x)) (it_root it) [] None) l1 l2 x Ht HF Hk Ho eq_refl Hr) as (it' & E & Hk' & Hc & Hi).
  exists it'. split; [exact E|]. split; [exact Hk'|]. split; [exact Hc|]. split; [|exact Hi].
  assert (exists r, it_root it = Some r) as [r Er].
  { rewrite Hr. destruct t as [|[a v] t1 t2]; [|exists a; reflexivity]. exfalso. destruct (it_kind it); cbn in Ho; destruct l1; discriminate Ho. }
  revert E. unfold it_other_policy, get_instance, fix_navigator_root. cbn [it_cur it_root]. rewrite Er. cbn [mbind res_bind].
  destruct (it_kind it); try (intros E; injection E as <-; reflexivity).
  destruct (manage_initial_status _ _ _) as [o|] in |- *; cbn [res_bind]; [|discriminate]. intros E; injection E as <-; reflexivity.
Qed.
Print Assumptions C65_other_node_binary.
