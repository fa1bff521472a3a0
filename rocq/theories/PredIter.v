(** PredIter.v: forward iteration with predicate navigators. *)
From Verif Require Import Base Spec PruneSpec RoseFacts RowFacts StructNode BinaryNode NaryNode Nav Policy Tree Rep NavFacts
  BranchFacts Orders PolicyFacts BinOrder BinRep NaryRep User Iter IterTrees PredUser PredFacts.

(** A loop over any navigator type. *)
Lemma iterate_any {V Nd} F (im : node_impl V Nd) h (mk : ptr -> navigator) r k (l : list (addr * V)) :
  (forall x, x ∈ l -> ni_value im h (Some (fst x)) = Ok (snd x)) -> NoDup (map fst l) -> length l < F ->
  fwd_order F (mk (Some r)) k (map fst l) ->
  (b ← tree_begin F mk k (Some r); e ← tree_end F mk k (Some r); walk (visit im h) (it_incr F mk) F b e) = Ok l.
Proof.
  intros Hval Hnd HF [(St & Hs & Hf & (o & Ho & Ho2))]. unfold tree_begin, tree_end, it_end, get_instance, fix_navigator_root.
  cbn [mbind res_bind].
  unfold initial_open in Ho. rewrite Ho. cbn [mbind res_bind].
  set (e := Iter k None (Some r) o None).
  assert (He : at_pos r k St None e) by (split; cbn; auto).
  destruct (incr_end F mk r k _ St Hf e He) as (b & Hb & Hb2 & _).
  rewrite Hb. cbn [mbind res_bind].
  destruct l as [|d l'] eqn:El.
  { cbn in Hb2. destruct F; [cbn in HF; lia|]. cbn [walk]. rewrite (at_pos_eqb _ _ _ _ _ _ _ Hb2 He), ptr_eqb_true. reflexivity. }
  rewrite <- El in *.
  rewrite (walk_at F mk r k _ St Hs (visit im h) (fun a => default d (find a l)) (visit_find im h l Hval Hnd d) (map fst l) [] b e F eq_refl Hb2 He)
    by (rewrite map_length; lia).
  f_equal. apply map_find; [exact Hnd|auto].
Qed.

(** The predicate as a test on addresses. *)
Definition keep_of {V} (p : addr * V -> bool) (l : list (addr * V)) (a : addr) : bool :=
  match find a l with Some x => p x | None => false end.
Lemma keep_of_in {V} (p : addr * V -> bool) l x : NoDup (map fst l) -> x ∈ l -> keep_of p l (fst x) = p x.
Proof. intros Hnd Hx. unfold keep_of. rewrite (find_in l x Hnd Hx). reflexivity. Qed.

Section Rose.
  Context {V Nd : Type}.
  Variable F : nat.
  Variable im : node_impl V Nd.
  Variable h : gmap addr Nd.
  Variable t : rose (addr * V).
  Hypothesis Hok : nav_ok (tree_nav im h (Some (raddr t))) (rose_map fst t).
  Hypothesis Hval : forall x, x ∈ preorder t -> ni_value im h (Some (fst x)) = Ok (snd x).
  Hypothesis HF : rsize t < F.
  Variable p : addr * V -> bool.
  Notation keep := (keep_of p (preorder t)).

  Lemma nd_t : NoDup (map fst (preorder t)).
  Proof using All. rewrite <- preorder_map. apply (no_nd _ _ Hok). Qed.
  Lemma keep_ok x : x ∈ preorder (rose_map fst t) -> node_pred im h p (Some x) = Ok (keep x).
  Proof using All.
    rewrite preorder_map. intros Hx. apply elem_of_list_fmap in Hx as (y & -> & Hy).
    rewrite keep_of_in by (exact Hy || apply nd_t). unfold node_pred, visit. rewrite Hval by exact Hy. cbn. destruct y; reflexivity.
  Qed.
  Lemma prune_fst : prune keep (rose_map fst t) = rose_map fst (prune p t).
  Proof using All.
    rewrite <- prune_map. f_equal. apply prune_ext. intros x Hx. apply keep_of_in; [apply nd_t|exact Hx].
  Qed.
  Lemma Hok' : nav_ok (node_navigator (ni_ops im h) (Some (label (rose_map fst t)))) (rose_map fst t).
  Proof using All. rewrite label_map. exact Hok. Qed.
  Lemma HF2 : rsize (rose_map fst t) <= F.
  Proof using All. rewrite rsize_map. lia. Qed.
  Lemma pnav_eq : pred_nav F im h p (Some (raddr t)) = node_pred_navigator (ni_ops im h) (Some (label (rose_map fst t))) (node_pred im h p) F.
  Proof using All. rewrite label_map. reflexivity. Qed.
  Lemma prune_nd : NoDup (map fst (preorder (prune p t))).
  Proof using All. rewrite <- preorder_map, <- prune_fst. eapply sublist_NoDup; [apply sublist_pre|apply (no_nd _ _ Hok)]. Qed.

  Lemma iter_pruned k l : fwd_order F (pred_nav F im h p (Some (raddr t))) k (map fst l) ->
    (forall x, x ∈ l -> x ∈ preorder (prune p t)) -> NoDup (map fst l) ->
    iterate_pred F im h p k (Some (raddr t)) = Ok l.
  Proof using All.
    intros Hf Hin Hnd. unfold iterate_pred. apply iterate_any; [|exact Hnd| |exact Hf].
    - intros x Hx. apply Hval, (prune_sub p), Hin, Hx.
    - eapply Nat.le_lt_trans; [|exact HF]. etransitivity; [|apply (rsize_prune p)]. rewrite <- length_preorder.
      rewrite <- (map_length fst), <- (map_length fst (preorder _)). apply submseteq_length, NoDup_submseteq; [exact Hnd|].
      intros a Ha. apply elem_of_list_fmap in Ha as (x & -> & Hx). apply elem_of_list_fmap. eauto.
  Qed.
  Definition last_kept : Prop := forall c a ls s, plug c (Rose a (ls ++ [s])) = t -> p (label s) = true.
  Lemma last_kept_keep : last_kept -> forall c a ls s, plug c (Rose a (ls ++ [s])) = rose_map fst t -> keep (label s) = true.
  Proof using All.
    intros Hl c a ls s Hp.
    assert (Hgen : forall (c : ctx addr) (s : rose addr) (u : rose (addr * V)), plug c s = rose_map fst u ->
      exists c' s', plug c' s' = u /\ rose_map fst s' = s).
    { clear. induction c as [|[[ls a] rs] c IH]; intros s u H; [exists [], u; auto|].
      cbn [plug] in H. apply IH in H as (c' & [x cs] & Hp & Hs). cbn in Hs. injection Hs as Ha Hs.
      symmetry in Hs. symmetry in Hs. apply map_eq_app in Hs as (l1 & l2 & -> & H1 & H2).
      apply map_eq_cons in H2 as (s' & l3 & -> & H3 & H4).
      exists ((l1, x, l3) :: c'), s'. auto. }
    apply Hgen in Hp as (c' & [x cs] & Hp & Hs). cbn in Hs. injection Hs as Ha Hs.
    apply map_eq_app in Hs as (l1 & l2 & -> & H1 & H2). apply map_eq_cons in H2 as (s' & l3 & -> & H3 & H4).
    apply map_eq_nil in H4 as ->. rewrite <- H3, label_map.
    rewrite keep_of_in; [exact (Hl _ _ _ _ Hp)|apply nd_t|].
    rewrite <- Hp. apply (position_elem ((l1, x, []) :: c') s').
  Qed.
  Lemma pruned_iter k : k = PostOrder \/ k = BreadthFirst \/ k = Leaves \/ (k = PreOrder /\ last_kept) ->
    iterate_pred F im h p k (Some (raddr t)) = Ok (rose_order k (prune p t)).
  Proof using All.
    intros Hk. apply (iter_pruned k).
    - rewrite rose_order_map, <- prune_fst, pnav_eq. split.
      destruct Hk as [->|[->|[->|[-> Hl]]]].
      + exists st_nil. destruct (pred_post (ni_ops im h) _ Hok' keep _ (fun x Hx _ => keep_ok x Hx) F HF2) as [H1 H2].
        split; [exact H1|]. split; [exact H2|]. exists []. split; reflexivity.
      + exists (st_bfs (prune keep (rose_map fst t))). destruct (pred_bfs (ni_ops im h) _ Hok' keep _ (fun x Hx _ => keep_ok x Hx) F HF2) as [H1 H2].
        split; [exact H1|]. split; [exact H2|]. exists []. split; reflexivity.
      + exists (st_leaves (prune keep (rose_map fst t))). destruct (pred_leaves (ni_ops im h) _ Hok' keep _ (fun x Hx _ => keep_ok x Hx) F HF2) as [H1 H2].
        split; [exact H1|]. split; [exact H2|]. exists []. split; reflexivity.
      + exists st_nil. destruct (pred_pre (ni_ops im h) _ Hok' keep _ (fun x Hx _ => keep_ok x Hx) F HF2 (last_kept_keep Hl)) as [H1 H2].
        split; [exact H1|]. split; [exact H2|]. exists []. split; reflexivity.
    - intros x. apply rose_order_in.
    - pose proof prune_nd as Hnd. rewrite rose_order_map. rewrite <- preorder_map in Hnd.
      destruct Hk as [->|[->|[->|[-> Hl]]]]; cbn [rose_order].
      + rewrite <- pre_post_perm. exact Hnd.
      + rewrite levelorder_perm. exact Hnd.
      + eapply sublist_NoDup; [|exact Hnd]. apply leaves_sublist.
      + exact Hnd.
  Qed.
End Rose.
