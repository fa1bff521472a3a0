(** PathFacts.v: several trees of one shape, walked through together. *)
From Verif Require Import Base Spec BinaryNode NaryNode Nav Policy Tree Rep RoseFacts NavFacts NaryRep BinOrder BinRep BinOps BinEdit Iter IterTrees NodeFacts Gen PathSpec.

Section Path.
  Context {A : Type}.
  Implicit Types (t s : rose A).
  Lemma shape_children t s : same_shape t s -> map (rose_map (fun _ => tt)) (children t) = map (rose_map (fun _ => tt)) (children s).
  Proof. destruct t, s. unfold same_shape. cbn. intros [= H]. exact H. Qed.
  Lemma shape_nth (l k : list (rose A)) i : map (rose_map (fun _ => tt)) l = map (rose_map (fun _ => tt)) k ->
    match nth_error l i, nth_error k i with Some t, Some s => same_shape t s | None, None => True | _, _ => False end.
  Proof.
    revert k i. induction l as [|t l IH]; intros [|s k] [|i] H; try discriminate; cbn in *; try exact I.
    - injection H as H _. exact H.
    - injection H as _ H. apply IH, H.
  Qed.
  Lemma shape_path p t s : same_shape t s ->
    match at_path p t, at_path p s with Some t', Some s' => same_shape t' s' | None, None => True | _, _ => False end.
  Proof.
    intros H. induction p as [|i p IH]; [exact H|]. cbn. destruct (at_path p t) as [t'|], (at_path p s) as [s'|]; try contradiction; try exact I.
    apply shape_nth, shape_children, IH.
  Qed.
  Lemma shape_go m p t s : same_shape t s -> go m t p = go m s p.
  Proof.
    intros H. destruct m; try reflexivity. cbn. pose proof (shape_path p t s H) as Hp.
    destruct (at_path p t) as [t'|], (at_path p s) as [s'|]; try reflexivity; try contradiction.
    apply shape_children, (f_equal (@length _)) in Hp. rewrite !map_length in Hp. destruct (children t'), (children s'); try reflexivity; try discriminate. cbn in Hp |- *. injection Hp as ->. reflexivity.
  Qed.
  Lemma path_up t i p s : at_path (i :: p) t = Some s -> exists a ls rs, at_path p t = Some (Rose a (ls ++ s :: rs)) /\ length ls = i.
  Proof.
    cbn. destruct (at_path p t) as [[a cs]|]; [|discriminate]. cbn. intros H. apply nth_error_split in H as (ls & rs & -> & Hl). eauto 6.
  Qed.
  Lemma path_ctx t p s : at_path p t = Some s -> exists c : ctx A, plug c s = t /\ p = map (fun fr => length (fst (fst fr))) c.
  Proof.
    revert s. induction p as [|i p IH]; intros s E; [injection E as <-; exists []; auto|]. apply path_up in E as (a & ls & rs & E & Hl).
    destruct (IH _ E) as (c & <- & ->). exists ((ls, a, rs) :: c). split; [reflexivity|]. cbn. rewrite Hl. reflexivity.
  Qed.
End Path.
Lemma path_unique (t : rose addr) p q a : NoDup (preorder t) -> node_at t p = Some a -> node_at t q = Some a -> p = q.
Proof.
  unfold node_at. intros Hnd Hp Hq. destruct (at_path p t) as [s|] eqn:Ep; [|discriminate]. destruct (at_path q t) as [u|] eqn:Eq; [|discriminate].
  cbn in Hp, Hq. apply path_ctx in Ep as (c & Hc & ->). apply path_ctx in Eq as (d & Hd & ->).
  destruct (ctx_unique c s d u) as [-> _]; congruence.
Qed.
Lemma side_at {V} (h : gmap addr (bnode V)) par b p a : brep h par b -> bnode_at b p = Some a ->
  exists n, h !! fst a = Some n /\ option_map fst (bnode_at b (true :: p)) = bleft n /\ option_map fst (bnode_at b (false :: p)) = bright n.
Proof.
  intros Hr Hb. unfold bnode_at in *. cbn [at_bpath].
  assert (Hsub : forall p s, at_bpath p b = Some s -> exists par', brep h par' s).
  { intros p'. induction p' as [|s p' IH]; cbn; intros u Hu; [destruct b; [discriminate|]; injection Hu as <-; eauto|].
    destruct (at_bpath p' b) as [[|[x v] l r]|]; try discriminate. destruct (IH _ eq_refl) as (par' & _ & Hl & Hr').
    destruct s; [destruct l|destruct r]; try discriminate; injection Hu as <-; eauto. }
  destruct (at_bpath p b) as [[|[x v] l r]|] eqn:E; try discriminate. injection Hb as <-. destruct (Hsub _ _ E) as (par' & Hx & _).
  eexists. split; [exact Hx|]. cbn. destruct l as [|[? ?] ? ?], r as [|[? ?] ? ?]; split; reflexivity.
Qed.

Section Walk.
  Variable ops : node_ops.
  Implicit Types (t s : rose addr).
  (** A whole tree: nothing around its root. *)
  Definition whole t : Prop := ops_ok ops t /\
    op_parent ops (Some (label t)) = Ok None /\ op_prev ops (Some (label t)) = Ok None /\ op_next ops (Some (label t)) = Ok None.
  Lemma ok_path p t s : ops_ok ops t -> at_path p t = Some s -> ops_ok ops s.
  Proof.
    revert s. induction p as [|i p IH]; intros s H E; [injection E as <-; exact H|]. apply path_up in E as (a & ls & rs & E & _).
    apply IH in E; [|exact H]. apply ops_ok_unfold in E as (_ & _ & _ & E). rewrite Forall_app, Forall_cons in E. apply E.
  Qed.
  Definition do_step (m : step) : ptr -> res ptr :=
    match m with ToParent => op_parent ops | ToPrev => op_prev ops | ToNext => op_next ops | ToFirst => op_first ops | ToLast => op_last ops end.
  Lemma last_nth (l : list (rose addr)) : last_label l = option_map label (nth_error l (pred (length l))).
  Proof.
    destruct l as [|x l _] using rev_ind; [reflexivity|]. rewrite last_label_app_cons, app_length. cbn [length]. rewrite Nat.add_1_r. cbn [Nat.pred].
    rewrite nth_error_app2, Nat.sub_diag by lia. reflexivity.
  Qed.
  Lemma head_nth (l : list (rose addr)) : head_label l = option_map label (nth_error l 0).
  Proof. destruct l; reflexivity. Qed.
  Lemma step_ok m p t s : whole t -> at_path p t = Some s -> do_step m (Some (label s)) = Ok (node_after m t p).
  Proof.
    intros (Hok & H1 & H2 & H3) E. pose proof (ok_path _ _ _ Hok E) as Hs. unfold node_after, node_at.
    destruct m.
    - destruct p as [|i p]; [injection E as <-; exact H1|]. apply path_up in E as (a & ls & rs & E & _). cbn [go]. rewrite E. cbn.
      apply (ok_path _ _ _ Hok), ops_ok_unfold in E as (_ & _ & E & _). apply (E _ _ _ eq_refl).
    - destruct p as [|i p]; [injection E as <-; exact H2|]. apply path_up in E as (a & ls & rs & E & Hl). cbn [go].
      pose proof (ok_path _ _ _ Hok E) as Ho. apply ops_ok_unfold in Ho as (_ & _ & Ho & _). destruct (Ho _ _ _ eq_refl) as (_ & Hp & _). cbn [do_step]. rewrite Hp, last_nth.
      destruct i as [|i]; [destruct ls; [reflexivity|discriminate]|]. cbn [at_path]. rewrite E. cbn [children]. rewrite Hl. cbn [Nat.pred].
      rewrite nth_error_app1 by lia. reflexivity.
    - destruct p as [|i p]; [injection E as <-; exact H3|]. apply path_up in E as (a & ls & rs & E & Hl). cbn [go].
      pose proof (ok_path _ _ _ Hok E) as Ho. apply ops_ok_unfold in Ho as (_ & _ & Ho & _). destruct (Ho _ _ _ eq_refl) as (_ & _ & Hn). cbn [do_step]. rewrite Hn, head_nth.
      cbn [at_path]. rewrite E. cbn [children]. rewrite nth_error_app2 by lia. replace (S i - length ls) with 1 by lia. reflexivity.
    - cbn [go at_path]. rewrite E. destruct s as [a cs]. apply ops_ok_unfold in Hs as (Hs & _). cbn [do_step label children]. rewrite Hs, head_nth. reflexivity.
    - cbn [go]. rewrite E. destruct s as [a cs]. apply ops_ok_unfold in Hs as (_ & Hs & _). cbn [do_step label children]. rewrite Hs, last_nth.
      destruct cs as [|c cs]; [reflexivity|]. cbn [at_path]. rewrite E. reflexivity.
  Qed.
  Lemma mp_do_ok m (ts : list (rose addr)) fl p : Forall whole ts -> Forall (fun t => at_path p t <> None) ts ->
    exists q, mp_do (do_step m) (MPtr (map (fun t => node_at t p) ts) fl) = Ok q /\ mp_ptrs q = map (fun t => node_after m t p) ts /\ mp_assigned q = map (fun _ => false) ts.
  Proof.
    intros Hw Hp. unfold mp_do. cbn [mp_ptrs].
    assert (E : mapM (fun q : ptr => match q with None => Ok None | Some _ => do_step m q end) (map (fun t => node_at t p) ts) = Ok (map (fun t => node_after m t p) ts)).
    { induction ts as [|t ts IH]; [reflexivity|]. inversion Hw; subst. inversion Hp; subst. cbn [map]. unfold node_at at 1.
      destruct (at_path p t) as [s|] eqn:Es; [|congruence]. cbn [option_map mapM]. erewrite step_ok by eassumption. cbn [mbind res_bind].
      change (foldr _ _ _) with (mapM (fun q : ptr => match q with None => Ok None | Some _ => do_step m q end) (map (fun t => node_at t p) ts)) || idtac. rewrite IH by assumption. reflexivity. }
    rewrite E. cbn [mbind res_bind]. exists (mp_make (map (fun t => node_after m t p) ts)). split; [reflexivity|]. split; [reflexivity|]. cbn. rewrite map_map. reflexivity.
  Qed.
  (** All or none arrive. *)
  Lemma arrive m p t s : same_shape t s -> node_after m t p = None <-> node_after m s p = None.
  Proof.
    intros H. unfold node_after. rewrite (shape_go m p t s H). destruct (go m s p) as [q|]; [|tauto]. unfold node_at. pose proof (shape_path q t s H) as Hq.
    destruct (at_path q t), (at_path q s); cbn; try tauto; split; discriminate.
  Qed.
End Walk.

Lemma nary_whole {V} (h : gmap addr (nnode V)) t : nary_at h t -> whole (nary_ops h) (rose_map fst t).
Proof.
  intros [H _]. pose proof (nrep_ops_ok _ _ _ _ _ _ H) as Ho. split; [exact Ho|]. apply nrep_root in H. destruct t as [[a v] cs]. cbn in H |- *.
  unfold n_parent, n_prev, n_next. rewrite !(deref_Some _ _ _ H). repeat split.
Qed.
Lemma binary_whole {V} (h : gmap addr (bnode V)) b t : bin_at h b -> bin_forest b = [t] -> whole (bin_ops h) (rose_map fst t).
Proof.
  intros [H Hnd] Hf. pose proof (brep_ops_ok _ _ _ H Hnd) as Ho. unfold brose in Ho. rewrite bin_forest_map', Hf in Ho. cbn [map] in Ho. apply Forall_inv in Ho.
  split; [exact Ho|]. destruct b as [|[a v] l r]; [discriminate|]. cbn in Hf. injection Hf as <-. cbn in H |- *. destruct H as (H & _).
  unfold b_parent, b_prev, b_next, b_is_right, b_is_left. rewrite !(deref_Some _ _ _ H). repeat split.
Qed.
