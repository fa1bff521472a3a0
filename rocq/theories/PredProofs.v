(** PredProofs.v: the lemmas behind PropPred.v. *)
From Verif Require Import Base Spec EditSpec PruneSpec RoseFacts RowFacts StructNode BinaryNode NaryNode Nav Policy Tree Rep NavFacts
  BranchFacts Orders PolicyFacts BinOrder BinRep NaryRep User Iter IterTrees NodeFacts PredUser PredFacts PredIter PredBin.

Lemma plug_map_ex {A B} (f : A -> B) (c : ctx A) : forall s t, plug c s = t ->
  plug (map (fun '(ls, a, rs) => (map (rose_map f) ls, f a, map (rose_map f) rs)) c) (rose_map f s) = rose_map f t.
Proof.
  induction c as [|[[ls a] rs] c IH]; intros s t H; cbn [plug map] in *; [congruence|].
  rewrite <- (IH _ _ H). cbn [rose_map]. rewrite map_app. reflexivity.
Qed.
Lemma head_kept {V} (p : addr * V -> bool) (keep : addr -> bool) (l : list (rose (addr * V))) :
  (forall s, s ∈ l -> keep (raddr s) = p (label s)) ->
  head_label (kept keep (map (rose_map fst) l)) = head (map raddr (kept p l)).
Proof.
  induction l as [|s l IH]; intros H; [reflexivity|]. cbn [map kept List.filter]. rewrite label_map.
  change (fst (label s)) with (raddr s). rewrite (H s) by set_solver +. destruct (p (label s)).
  - cbn [head_label map head]. rewrite label_map. reflexivity.
  - apply IH. intros s' Hs. apply H. set_solver +Hs.
Qed.

(** The nodes of the forest of a binary tree are those of the tree. *)
Lemma forest_sub {A} (t : bin A) : forall u a cs, bin_forest t = [u] -> rsubtree (Rose a cs) u ->
  exists l r, bsubtree (BNode a l r) t /\ cs = bin_forest l ++ bin_forest r.
Proof.
  induction t as [|x l IHl r IHr]; intros u a cs Hu Hs; [discriminate|]. cbn in Hu. injection Hu as <-.
  remember (Rose a cs) as t0 eqn:E0.
  remember (Rose x (bin_forest l ++ bin_forest r)) as u0 eqn:E.
  destruct Hs as [|y ds d Hd1 Hd2].
  - rewrite E0 in E. injection E as -> ->. exists l, r. split; [constructor|reflexivity].
  - injection E as -> ->. subst. apply elem_of_app in Hd1 as [Hd|Hd].
    + assert (El : bin_forest l = [d]) by (destruct l; [inversion Hd|cbn in *; apply elem_of_list_singleton in Hd; subst; reflexivity]).
      destruct (IHl d a cs El Hd2) as (l' & r' & H1 & H2). exists l', r'. split; [|exact H2]. apply bsub_left. exact H1.
    + assert (El : bin_forest r = [d]) by (destruct r; [inversion Hd|cbn in *; apply elem_of_list_singleton in Hd; subst; reflexivity]).
      destruct (IHr d a cs El Hd2) as (l' & r' & H1 & H2). exists l', r'. split; [|exact H2]. apply bsub_right. exact H1.
Qed.
Lemma last_ok {V} (p : addr * V -> bool) (ls : list (rose (addr * V))) :
  (forall y, last ls = Some y -> p (label y) = true) ->
  match last ls with None => Ok None | Some l => if p (label l) then Ok (Some (raddr l)) else Err OutOfFuel end =
  Ok (last (map raddr (kept p ls))).
Proof.
  intros H. destruct ls as [|l ls _] using rev_ind; [reflexivity|]. rewrite last_snoc in *. rewrite (H l eq_refl).
  unfold kept. rewrite List.filter_app. cbn [List.filter]. rewrite (H l eq_refl), map_app. cbn [map]. rewrite last_snoc. reflexivity.
Qed.
Lemma last_ok2 {V} (p : addr * V -> bool) (cs : list (rose (addr * V))) :
  (forall l y z, cs = l ++ [y; z] -> p (label y) = true \/ p (label z) = true) ->
  match rev cs with
  | [] => Ok None
  | l :: rest => if p (label l) then Ok (Some (raddr l)) else
      match rest with [] => Ok None | m :: _ => if p (label m) then Ok (Some (raddr m)) else Err OutOfFuel end
  end = Ok (last (map raddr (kept p cs))).
Proof.
  intros H. destruct cs as [|l cs _] using rev_ind; [reflexivity|]. rewrite rev_app_distr. cbn [rev app].
  unfold kept. rewrite List.filter_app. cbn [List.filter]. destruct (p (label l)) eqn:E.
  - rewrite map_app. cbn [map]. rewrite last_snoc. reflexivity.
  - destruct cs as [|m cs _] using rev_ind; [reflexivity|]. rewrite rev_app_distr. cbn [rev app].
    destruct (H cs m l) as [Hm|Hm]; [rewrite <- app_assoc; reflexivity| |congruence]. rewrite Hm, app_nil_r.
    rewrite List.filter_app. cbn [List.filter]. rewrite Hm, map_app. cbn [map]. rewrite last_snoc. reflexivity.
Qed.

Section Rose.
  Context {V Nd : Type}.
  Variable F : nat.
  Variable im : node_impl V Nd.
  Variable h : gmap addr Nd.
  Variable t : rose (addr * V).
  Hypothesis Hok : nav_ok (tree_nav im h (Some (raddr t))) (rose_map fst t).
  Hypothesis Hval : forall x, x ∈ preorder t -> ni_value im h (Some (fst x)) = Ok (snd x).
  Hypothesis HF : rsize t < F.
  Variable p : addr * V -> bool.
  Notation keep := (keep_of p (preorder t)).
  Notation nav := (pred_nav F im h p (Some (raddr t))).

  Lemma hok : nav_ok (node_navigator (ni_ops im h) (Some (label (rose_map fst t)))) (rose_map fst t).
  Proof using All. rewrite label_map. exact Hok. Qed.
  Lemma hf : rsize (rose_map fst t) <= F.
  Proof using All. rewrite rsize_map. lia. Qed.
  Lemma hkeep x : x ∈ preorder (rose_map fst t) -> x <> label (rose_map fst t) -> node_pred im h p (Some x) = Ok (keep x).
  Proof using All. intros Hx _. eapply keep_ok; eassumption. Qed.

  Lemma keep_sub s : rsubtree s t -> keep (raddr s) = p (label s).
  Proof using All.
    intros Hs. apply rsubtree_plug in Hs as [c Hp].
    apply (keep_of_in p (preorder t) (label s)); [eapply nd_t; eassumption|]. rewrite <- Hp. apply position_elem.
  Qed.
  Lemma keep_child x cs s : rsubtree (Rose x cs) t -> s ∈ cs -> keep (raddr s) = p (label s).
  Proof using All.
    intros Hx Hs. apply keep_sub. apply rsubtree_plug in Hx as [c Hp]. apply rsubtree_plug.
    apply elem_of_list_split in Hs as (l1 & l2 & ->). exists ((l1, x, l2) :: c). exact Hp.
  Qed.
  Lemma q_first x cs : rsubtree (Rose x cs) t -> nav_first nav (Some (fst x)) = Ok (head (map raddr (kept p cs))).
  Proof using All.
    intros Hx. pose proof Hx as Hc. apply rsubtree_plug in Hx as [c Hp]. apply (plug_map_ex fst) in Hp. cbn [rose_map] in Hp.
    pose proof (pred_first_ok (ni_ops im h) _ hok keep _ hkeep F hf _ _ _ Hp) as H.
    cbn [pred_nav node_pred_navigator nav_first]. rewrite label_map in H. change (fst (label t)) with (raddr t) in H. rewrite H.
    f_equal. apply head_kept. intros s Hs. exact (keep_child _ _ _ Hc Hs).
  Qed.
  Lemma q_next x ls s rs : rsubtree (Rose x (ls ++ s :: rs)) t -> nav_next nav (Some (raddr s)) = Ok (head (map raddr (kept p rs))).
  Proof using All.
    intros Hx. pose proof Hx as Hc. apply rsubtree_plug in Hx as [c Hp].
    assert (Hp2 : plug ((ls, x, rs) :: c) s = t) by exact Hp. apply (plug_map_ex fst) in Hp2. cbn [map] in Hp2.
    pose proof (pred_next_ok (ni_ops im h) _ hok keep _ hkeep F hf _ _ _ _ _ Hp2) as H.
    cbn [pred_nav node_pred_navigator nav_next]. rewrite !label_map in H. change (fst (label t)) with (raddr t) in H.
    change (fst (label s)) with (raddr s) in H. rewrite H.
    f_equal. apply head_kept. intros s' Hs. apply (keep_child _ _ _ Hc). set_solver +Hs.
  Qed.
  Lemma q_root : nav_next nav (Some (raddr t)) = Ok None.
  Proof using All.
    pose proof (pred_next_root (ni_ops im h) _ hok keep _ hkeep F hf) as H.
    rewrite !label_map in H. exact H.
  Qed.
  Lemma q_prev x ls s rs : rsubtree (Rose x (ls ++ s :: rs)) t -> nav_prev nav (Some (raddr s)) =
    match last ls with None => Ok None | Some l => if p (label l) then Ok (Some (raddr l)) else Err OutOfFuel end.
  Proof using All.
    intros Hx. pose proof Hx as Hc. apply rsubtree_plug in Hx as [c Hp].
    assert (Hp2 : plug ((ls, x, rs) :: c) s = t) by exact Hp. apply (plug_map_ex fst) in Hp2. cbn [map] in Hp2.
    pose proof (pred_prev_ok (ni_ops im h) _ hok keep _ hkeep F hf _ _ _ _ _ Hp2) as H.
    cbn [pred_nav node_pred_navigator nav_prev]. rewrite !label_map in H. change (fst (label t)) with (raddr t) in H.
    change (fst (label s)) with (raddr s) in H. rewrite H.
    destruct ls as [|l ls _] using rev_ind; [reflexivity|]. rewrite map_app. cbn [map]. rewrite !last_snoc, label_map.
    change (fst (label l)) with (raddr l). rewrite (keep_child _ _ l Hc) by set_solver +. reflexivity.
  Qed.
  Lemma q_last x cs : rsubtree (Rose x cs) t -> nav_last nav (Some (fst x)) =
    match rev cs with
    | [] => Ok None
    | l :: rest => if p (label l) then Ok (Some (raddr l)) else
        match rest with [] => Ok None | m :: _ => if p (label m) then Ok (Some (raddr m)) else Err OutOfFuel end
    end.
  Proof using All.
    intros Hx. pose proof Hx as Hc. apply rsubtree_plug in Hx as [c Hp]. apply (plug_map_ex fst) in Hp. cbn [rose_map] in Hp.
    pose proof (pred_last_ok (ni_ops im h) _ hok keep _ hkeep F hf _ _ _ Hp) as H.
    cbn [pred_nav node_pred_navigator nav_last]. rewrite label_map in H. change (fst (label t)) with (raddr t) in H. rewrite H.
    clear H Hp. rewrite <- map_rev. assert (Hk : forall s, s ∈ rev cs -> keep (raddr s) = p (label s)).
    { intros s Hs. apply (keep_child _ _ s Hc). rewrite <- elem_of_list_In, in_rev, elem_of_list_In in Hs || (apply elem_of_list_In in Hs; apply in_rev in Hs; apply elem_of_list_In in Hs). exact Hs. }
    destruct (rev cs) as [|l [|m rest]]; cbn [map]; [reflexivity| |]; rewrite ?label_map; change (fst (label l)) with (raddr l);
      rewrite (Hk l) by set_solver +; [reflexivity|].
    change (fst (label m)) with (raddr m). rewrite (Hk m) by set_solver +. reflexivity.
  Qed.
End Rose.

(** N-ary trees. *)
Section Nary.
  Context {V : Type}.
  Variable F : nat.
  Variable h : gmap addr (nnode V).
  Variable t : rose (addr * V).
  Context `{EqDecision V}.
  Hypothesis Ht : nary_in h t.
  Hypothesis HF : rsize t < F.
  Variable p : addr * V -> bool.
  Notation nav := (pred_nav F (nary_impl V) h p (Some (raddr t))).

  Lemma p_pred_forward_nary : (forall x cs, rsubtree (Rose x cs) t ->
    nav_first nav (Some (fst x)) = Ok (head (map raddr (kept p cs))) /\
    (forall ls s rs, cs = ls ++ s :: rs -> nav_next nav (Some (raddr s)) = Ok (head (map raddr (kept p rs))))) /\
    nav_next nav (Some (raddr t)) = Ok None.
  Proof using All.
    pose proof (nary_nav h t Ht) as Hok. pose proof (nary_value h t Ht) as Hval. split; [|apply q_root; assumption].
    intros x cs Hx. split; [apply q_first; assumption|]. intros ls s rs ->. eapply q_next; eassumption.
  Qed.
  Lemma p_pred_back_nary x cs : rsubtree (Rose x cs) t ->
    (forall ls s rs, cs = ls ++ s :: rs -> nav_prev nav (Some (raddr s)) =
       match last ls with None => Ok None | Some l => if p (label l) then Ok (Some (raddr l)) else Err OutOfFuel end) /\
    nav_last nav (Some (fst x)) =
    match rev cs with
    | [] => Ok None
    | l :: rest => if p (label l) then Ok (Some (raddr l)) else
        match rest with [] => Ok None | m :: _ => if p (label m) then Ok (Some (raddr m)) else Err OutOfFuel end
    end.
  Proof using All.
    pose proof (nary_nav h t Ht) as Hok. pose proof (nary_value h t Ht) as Hval.
    intros Hx. split; [|apply q_last; assumption]. intros ls s rs ->. eapply q_prev; eassumption.
  Qed.
  Lemma p_pruned_nary k : k = PostOrder \/ k = BreadthFirst \/ k = Leaves \/ (k = PreOrder /\ last_kept t p) ->
    iterate_pred F (nary_impl V) h p k (Some (raddr t)) = Ok (rose_order k (prune p t)).
  Proof using All.
    intros Hk. apply pruned_iter; [apply nary_nav, Ht|apply nary_value, Ht|exact HF|exact Hk].
  Qed.
End Nary.

(** Binary trees. *)
Section Bin.
  Context {V : Type}.
  Variable F : nat.
  Variable h : gmap addr (bnode V).
  Variable t : bin (addr * V).
  Context `{EqDecision V}.
  Hypothesis Ht : bin_in h t.
  Hypothesis HF : bin_size t < F.
  Variable p : addr * V -> bool.
  Notation im := (binary_impl V).
  Notation nav := (pred_nav F im h p (baddr t)).

  Lemma bsub_rsub x l r u : bsubtree (BNode x l r) t -> bin_forest t = [u] ->
    rsubtree (Rose x (bin_forest l ++ bin_forest r)) u.
  Proof using.
    clear. intros H. remember (BNode x l r) as s eqn:Es. revert u. induction H as [|a l' r' H IH|a l' r' H IH]; intros u Hu; subst.
    - injection Hu as <-. constructor.
    - cbn in Hu. injection Hu as <-. destruct l' as [|b l1 l2]; [inversion H|].
      eapply rsub_child; [|apply IH; reflexivity]. cbn. set_solver +.
    - cbn in Hu. injection Hu as <-. destruct r' as [|b l1 l2]; [inversion H|].
      eapply rsub_child; [|apply IH; reflexivity]. cbn. set_solver +.
  Qed.
  Lemma setting x l r : bsubtree (BNode x l r) t -> exists u, baddr t = Some (raddr u) /\ bin_forest t = [u] /\ rsize u < F /\
    nav_ok (tree_nav im h (Some (raddr u))) (rose_map fst u) /\
    (forall y, y ∈ preorder u -> ni_value im h (Some (fst y)) = Ok (snd y)) /\
    rsubtree (Rose x (bin_forest l ++ bin_forest r)) u /\ bnav_ok (tree_nav im h (Some (raddr u))) (bin_map fst t).
  Proof using All.
    intros Hs. assert (Hne : t <> BLeaf) by (intros E; rewrite E in Hs; inversion Hs).
    destruct (bin_roots h t Ht Hne) as (a & u & Ha & Hu & Hsz & Hra & Hok & Hb & Hlab). exists u.
    rewrite Hra. split; [exact Ha|]. split; [exact Hu|]. split; [lia|]. split; [exact Hok|]. split.
    - intros y Hy. apply (bin_value h t Ht). rewrite Hlab. exact Hy.
    - split; [apply bsub_rsub; assumption|exact Hb].
  Qed.

  Lemma p_pred_forward_binary : (forall x l r, bsubtree (BNode x l r) t ->
    let cs := bin_forest l ++ bin_forest r in
    nav_first nav (Some (fst x)) = Ok (head (map raddr (kept p cs))) /\
    (forall ls s rs, cs = ls ++ s :: rs -> nav_next nav (Some (raddr s)) = Ok (head (map raddr (kept p rs))))) /\
    (t <> BLeaf -> nav_next nav (baddr t) = Ok None).
  Proof using All.
    split.
    - intros x l r Hx cs. destruct (setting x l r Hx) as (u & Ha & Hu & Hsz & Hok & Hval & Hs & _). rewrite Ha. split.
      + apply q_first; assumption.
      + intros ls s rs Hcs. subst cs. rewrite Hcs in Hs. eapply q_next; eassumption.
    - intros Hne. destruct t as [|x l r] eqn:Et; [congruence|]. rewrite <- Et in *.
      destruct (setting x l r) as (u & Ha & Hu & Hsz & Hok & Hval & Hs & _); [rewrite Et; constructor|].
      rewrite Ha. apply q_root; assumption.
  Qed.
  Lemma p_pred_sides_binary x l r : bsubtree (BNode x l r) t ->
    nav_left nav (Some (fst x)) = Ok (match l with BNode y _ _ => if p y then Some (fst y) else None | BLeaf => None end) /\
    nav_right nav (Some (fst x)) = Ok (match r with BNode y _ _ => if p y then Some (fst y) else None | BLeaf => None end).
  Proof using All.
    intros Hx. destruct (setting x l r Hx) as (u & Ha & Hu & Hsz & Hok & Hval & Hs & Hb). rewrite Ha.
    apply bsubtree_plug in Hx as [c Hp].
    assert (Hl : bplug (LeftOf x r :: c) l = t) by exact Hp. assert (Hr : bplug (RightOf x l :: c) r = t) by exact Hp.
    assert (Hlab : forall (f : bframe (addr * V)) y s1 s2, bplug (f :: c) (BNode y s1 s2) = t -> ni_value im h (Some (fst y)) = Ok (snd y)).
    { intros f y s1 s2 <-. apply (bin_value h _ ltac:(exact Ht)).
      assert (Hm : forall c (s : bin (addr * V)) x, x ∈ bin_labels s -> x ∈ bin_labels (bplug c s)).
      { clear. induction c as [|[b q|b q] c0 IH]; intros s x Hx; [exact Hx| |]; cbn [bplug]; apply IH; cbn; set_solver +Hx. }
      apply Hm. cbn. set_solver +. }
    destruct Ht as (par & Hrep & _). clear Hs Hb Hok Hval.
    assert (Hb : forall c par (s : bin (addr * V)), brep h par (bplug c s) -> exists par', brep h par' s).
    { clear. induction c as [|[b q|b q] c IH]; intros par s H; [eauto| |]; cbn [bplug] in H;
        apply IH in H as (par' & H); destruct b; cbn in H; destruct H as (_ & H1 & H2); eauto. }
    rewrite <- Hp in Hrep. apply Hb in Hrep as (par' & Hrep). destruct x as [a v]. cbn in Hrep. destruct Hrep as (Hd & _ & _).
    cbn [pred_nav node_pred_navigator nav_left nav_right fst]. unfold pred_side. cbn [ni_ops binary_impl bin_ops op_left op_right].
    unfold b_left, b_right. rewrite (deref_Some _ _ _ Hd). cbn [mbind res_bind bleft bright]. split.
    - destruct l as [|[y w] l1 l2]; cbn [baddr mbind res_bind]; [reflexivity|]. unfold node_pred, visit.
      pose proof (Hlab _ _ _ _ Hl) as Hy. cbn [fst snd] in Hy. rewrite Hy. cbn [mbind res_bind]. destruct (p (y, w)); reflexivity.
    - destruct r as [|[y w] l1 l2]; cbn [baddr mbind res_bind]; [reflexivity|]. unfold node_pred, visit.
      pose proof (Hlab _ _ _ _ Hr) as Hy. cbn [fst snd] in Hy. rewrite Hy. cbn [mbind res_bind]. destruct (p (y, w)); reflexivity.
  Qed.
  Lemma p_pred_back_binary x l r : bsubtree (BNode x l r) t ->
    let cs := bin_forest l ++ bin_forest r in
    (forall ls s rs, cs = ls ++ s :: rs -> nav_prev nav (Some (raddr s)) =
       match last ls with None => Ok None | Some y => if p (label y) then Ok (Some (raddr y)) else Err OutOfFuel end) /\
    nav_last nav (Some (fst x)) =
    match rev cs with
    | [] => Ok None
    | y :: rest => if p (label y) then Ok (Some (raddr y)) else
        match rest with [] => Ok None | m :: _ => if p (label m) then Ok (Some (raddr m)) else Err OutOfFuel end
    end.
  Proof using All.
    intros Hx cs. destruct (setting x l r Hx) as (u & Ha & Hu & Hsz & Hok & Hval & Hs & _). rewrite Ha. split.
    - intros ls s rs Hcs. subst cs. rewrite Hcs in Hs. eapply q_prev; eassumption.
    - apply q_last; assumption.
  Qed.
  (** [t] is not empty *)
  Lemma p_pruned_binary k u : bin_forest t = [u] ->
    k = PostOrder \/ k = BreadthFirst \/ k = Leaves \/ (k = PreOrder /\ last_kept u p) ->
    iterate_pred F im h p k (baddr t) = Ok (bin_order k (bkeep p t)).
  Proof using All.
    intros Hu Hk. destruct t as [|x l r] eqn:Et; [discriminate|]. rewrite <- Et in *.
    destruct (setting x l r) as (u' & Ha & Hu' & Hsz & Hok & Hval & Hs & _); [rewrite Et; constructor|].
    rewrite Hu in Hu'. injection Hu' as <-. rewrite Ha.
    rewrite (bin_order_forest (bkeep p t) k (prune p u)).
    - apply pruned_iter; assumption.
    - apply bkeep_forest, Hu.
    - destruct Hk as [->|[->|[->|[-> _]]]]; discriminate.
  Qed.
  Lemma p_inorder_pruned : t <> BLeaf -> iterate_pred F im h p InOrder (baddr t) = Ok (inorder (bkeep p t)).
  Proof using All.
    intros Hne. destruct t as [|x l r] eqn:Et; [congruence|]. rewrite <- Et in *.
    destruct (setting x l r) as (u & Ha & Hu & Hsz & Hok & Hval & Hs & Hb); [rewrite Et; constructor|]. clear Hne.
    rewrite Ha.
    assert (Hnd : NoDup (map fst (bin_labels t))) by (destruct Ht as (par & _ & Hnd); exact Hnd).
    assert (Hmap : bin_map fst (bkeep p t) = bkeep (keep_of p (bin_labels t)) (bin_map fst t)).
    { apply bkeep_map. intros y Hy. apply keep_of_in; assumption. }
    assert (Hsub : forall y, y ∈ inorder (bkeep p t) -> y ∈ bin_labels t).
    { intros y Hy. rewrite inorder_labels in Hy. eapply elem_of_submseteq; [exact Hy|]. apply sublist_submseteq, bkeep_sublist. }
    assert (Hlabs : map fst (bin_labels t) = bin_labels (bin_map fst t)).
    { clear. induction t as [|y s1 IH1 s2 IH2]; cbn; [reflexivity|]. rewrite map_app, IH1, IH2. reflexivity. }
    unfold iterate_pred. apply iterate_any.
    - intros y Hy. apply (bin_value h t Ht), Hsub, Hy.
    - rewrite inorder_labels. eapply sublist_NoDup; [|exact Hnd]. apply fmap_sublist, bkeep_sublist.
    - rewrite length_inorder. pose proof (bkeep_size p t). lia.
    - rewrite <- inorder_map, Hmap.
      pose proof (pred_bnav_ok (ni_ops im h) (bin_map fst t) (Some (raddr u)) Hb (keep_of p (bin_labels t)) (node_pred im h p)) as Hn.
      assert (Hpred : forall y, y ∈ bin_labels (bin_map fst t) -> node_pred im h p (Some y) = Ok (keep_of p (bin_labels t) y)).
      { rewrite <- Hlabs. intros y Hy. apply elem_of_list_fmap in Hy as (z & -> & Hz). rewrite keep_of_in by assumption.
        unfold node_pred, visit. rewrite (bin_value h t Ht) by exact Hz. cbn. destruct z; reflexivity. }
      specialize (Hn Hpred F). split. exists st_nil.
      assert (Hne' : bkeep (keep_of p (bin_labels t)) (bin_map fst t) <> BLeaf) by (rewrite Et; discriminate).
      assert (Hsz' : bin_size (bkeep (keep_of p (bin_labels t)) (bin_map fst t)) <= F).
      { rewrite <- Hmap, bin_size_map. pose proof (bkeep_size p t). lia. }
      split; [apply (in_steps _ _ Hn F Hsz')|]. split; [apply (in_first _ _ Hn F Hsz' Hne')|]. exists []. split; reflexivity.
  Qed.
End Bin.
