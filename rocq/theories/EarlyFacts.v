(** EarlyFacts.v: pre-order with a predicate navigator, exactly. *)
From Verif Require Import Base Spec PruneSpec EarlySpec RoseFacts RowFacts StructNode BinaryNode NaryNode Nav Policy Tree Rep NavFacts
  BranchFacts Orders PolicyFacts BinOrder BinRep NaryRep User Iter IterTrees PredUser PredFacts PredIter PredProofs.

Section Met.
  Context {A : Type} (keep : A -> bool).
  Fixpoint mrow (cs : list (rose A)) : list A * bool :=
    match cs with
    | [] => ([], false)
    | c :: rest =>
        if passes keep c then
          let '(l, stopped) := met keep c in
          if stopped then (l, true)
          else match rest with
               | [] => (l, false)
               | _ :: _ =>
                   if existsb (passes keep) rest then let '(l', s') := mrow rest in (l ++ l', s')
                   else (l, true)
               end
        else mrow rest
    end.
  Lemma met_unfold x cs : met keep (Rose x cs) = let '(l, s) := mrow cs in (x :: l, s).
  Proof. reflexivity. Qed.
  Lemma mrow_none cs : kept keep cs = [] -> mrow cs = ([], false).
  Proof.
    induction cs as [|c cs IH]; [reflexivity|]. cbn [kept List.filter mrow]. unfold passes.
    destruct (keep (label c)); [discriminate|exact IH].
  Qed.
  Lemma passes_kept cs : existsb (passes keep) cs = negb (is_nil (kept keep cs)).
  Proof. induction cs as [|c cs IH]; [reflexivity|]. cbn [existsb kept List.filter]. unfold passes at 1. destruct (keep (label c)); [reflexivity|exact IH]. Qed.
  Lemma kept_split cs k ks : kept keep cs = k :: ks ->
    exists l r, cs = l ++ k :: r /\ kept keep l = [] /\ keep (label k) = true.
  Proof.
    induction cs as [|c cs IH]; [discriminate|]. cbn [kept List.filter]. destruct (keep (label c)) eqn:E; intros H.
    - injection H as -> H. exists [], cs. auto.
    - destruct (IH H) as (l & r & -> & H1 & H2). exists (c :: l), r. split; [reflexivity|]. cbn [kept List.filter]. rewrite E. auto.
  Qed.
  Lemma mrow_skip l cs : kept keep l = [] -> mrow (l ++ cs) = mrow cs.
  Proof.
    induction l as [|c l IH]; [reflexivity|]. cbn [kept List.filter]. destruct (keep (label c)) eqn:E; [discriminate|].
    intros H. cbn [app mrow]. unfold passes at 1. rewrite E. exact (IH H).
  Qed.

  (** What is left after the subtree in the hole. *)
  Fixpoint left_after (c : ctx A) : list A :=
    match c with
    | [] => []
    | (_, _, rs) :: c' =>
        match rs with
        | [] => left_after c'
        | _ :: _ =>
            match kept keep rs with
            | [] => []
            | _ :: _ => let '(l, s) := mrow rs in l ++ if s then [] else left_after c'
            end
        end
    end.
  Definition left_at (c : ctx A) (s : rose A) : list A :=
    let '(l, st) := mrow (children s) in l ++ if st then [] else left_after c.

  Lemma enter c ls a k rs : keep (label k) = true ->
    (let '(l, s) := mrow (k :: rs) in l ++ if s then [] else left_after c) = label k :: left_at ((ls, a, rs) :: c) k.
  Proof.
    intros Hk. cbn [mrow]. unfold passes at 1. rewrite Hk. destruct k as [y ds]. rewrite met_unfold. unfold left_at. cbn [children label].
    destruct (mrow ds) as [l s]. destruct s; [reflexivity|].
    destruct rs as [|r rs]; [cbn; reflexivity|].
    rewrite passes_kept. cbn [left_after]. destruct (kept keep (r :: rs)); cbn [is_nil negb]; [reflexivity|].
    destruct (mrow (r :: rs)) as [l' s']. cbn. rewrite app_assoc. reflexivity.
  Qed.
  Lemma up c : forall s y l, left_after c = y :: l ->
    exists c' s', plug c' s' = plug c s /\ label s' = y /\ left_at c' s' = l.
  Proof.
    induction c as [|[[ls a] rs] c IH]; intros s y l H; [discriminate|]. cbn [left_after] in H. destruct rs as [|r rs].
    - apply (IH (Rose a (ls ++ [s]))) in H as (c' & s' & H1 & H2). exists c', s'. split; [exact H1|exact H2].
    - destruct (kept keep (r :: rs)) as [|k ks] eqn:Ek; [discriminate|].
      apply kept_split in Ek as (l0 & r0 & Ec & Hn & Hk). rewrite Ec, (mrow_skip _ _ Hn), (enter c (ls ++ s :: l0) a k r0 Hk) in H.
      injection H as <- <-. exists ((ls ++ s :: l0, a, r0) :: c), k. split; [|auto]. cbn [plug]. rewrite Ec, <- app_assoc. reflexivity.
  Qed.
  Lemma step c s y l : left_at c s = y :: l ->
    exists c' s', plug c' s' = plug c s /\ label s' = y /\ left_at c' s' = l.
  Proof.
    destruct s as [a cs]. unfold left_at at 1. cbn [children]. destruct (kept keep cs) as [|k ks] eqn:Ek.
    - rewrite (mrow_none _ Ek). apply up.
    - apply kept_split in Ek as (l0 & r0 & -> & Hn & Hk). rewrite (mrow_skip _ _ Hn), (enter c l0 a k r0 Hk). intros [= <- <-].
      exists ((l0, a, r0) :: c), k. auto.
  Qed.
  Lemma met_left t : fst (met keep t) = label t :: left_at [] t.
  Proof. destruct t as [a cs]. rewrite met_unfold. unfold left_at. cbn. destruct (mrow cs) as [l s]. destruct s; rewrite app_nil_r; reflexivity. Qed.
  Lemma met_pos l1 : forall c s x l2, label s :: left_at c s = l1 ++ x :: l2 ->
    exists c' s', plug c' s' = plug c s /\ label s' = x /\ left_at c' s' = l2.
  Proof.
    induction l1 as [|y l1 IH]; intros c s x l2 H; cbn in H; injection H as <- H; [eauto|].
    assert (Hne : exists z l, left_at c s = z :: l) by (destruct (left_at c s); [destruct l1; discriminate|eauto]).
    destruct Hne as (z & l & Hz). destruct (step _ _ _ _ Hz) as (c' & s' & Hp & Hl & Hla).
    rewrite Hz, <- Hl, <- Hla in H. destruct (IH _ _ _ _ H) as (c2 & s2 & H1 & H2 & H3). exists c2, s2. rewrite H1. auto.
  Qed.

  (** What is met is the beginning of the pre-order of the cut tree, all of it
      unless the loop stopped. *)
  Lemma met_prefix t : exists l, preorder (prune keep t) = fst (met keep t) ++ l /\ (snd (met keep t) = false -> l = []).
  Proof.
    induction t as [a cs IH] using rose_ind'. rewrite prune_unfold, met_unfold. cbn [preorder].
    enough (exists l, flat_map preorder (pkids keep cs) = fst (mrow cs) ++ l /\ (snd (mrow cs) = false -> l = [])) as (l & H1 & H2).
    { exists l. destruct (mrow cs) as [m s]. cbn in *. rewrite H1. auto. }
    induction IH as [|c cs (l & Hc & Hcf) _ IHcs]; [exists []; auto|]. cbn [mrow pkids flat_map]. fold (pkids keep cs).
    change (passes keep c) with (keep (label c)). destruct (keep (label c)); [|exact IHcs]. cbn [app flat_map]. rewrite Hc.
    destruct (met keep c) as [m s]. cbn [fst snd] in *. destruct s.
    - cbn [fst snd]. eexists. rewrite <- app_assoc. split; [reflexivity|discriminate].
    - rewrite (Hcf eq_refl), app_nil_r. destruct cs as [|d cs]; [exists []; cbn; auto|].
      rewrite passes_kept. destruct (kept keep (d :: cs)) as [|k ks] eqn:Ek; cbn [is_nil negb].
      + cbn [fst snd]. exists []. rewrite pkids_kept, Ek. cbn. split; [reflexivity|discriminate].
      + destruct IHcs as (l' & H1 & H2). destruct (mrow (d :: cs)) as [m' s']. cbn [fst snd] in *. exists l'. rewrite H1, app_assoc. auto.
  Qed.
End Met.
Lemma met_map {A B} (f : A -> B) (keep : B -> bool) t :
  met keep (rose_map f t) = (map f (fst (met (fun a => keep (f a)) t)), snd (met (fun a => keep (f a)) t)).
Proof.
  induction t as [a cs IH] using rose_ind'. cbn [rose_map]. rewrite !met_unfold.
  enough (H : mrow keep (map (rose_map f) cs) = (map f (fst (mrow (fun a => keep (f a)) cs)), snd (mrow (fun a => keep (f a)) cs))).
  { rewrite H. destruct (mrow _ cs). reflexivity. }
  assert (Hp : forall l : list (rose A), existsb (passes keep) (map (rose_map f) l) = existsb (passes (fun a => keep (f a))) l).
  { clear. induction l as [|c l IH]; [reflexivity|]. cbn. rewrite IH. unfold passes. rewrite label_map. reflexivity. }
  induction IH as [|c cs Hc _ IHcs]; [reflexivity|]. cbn [map mrow]. change (passes keep (rose_map f c)) with (keep (label (rose_map f c))). change (passes (fun a0 => keep (f a0)) c) with (keep (f (label c))). rewrite label_map.
  destruct (keep (f (label c))); [|exact IHcs]. rewrite Hc. destruct (met _ c) as [l s]. cbn [fst snd]. destruct s; [reflexivity|].
  destruct cs as [|d cs]; [reflexivity|]. rewrite (Hp (d :: cs)). change (map (rose_map f) (d :: cs)) with (rose_map f d :: map (rose_map f) cs) in *.
  cbv iota. destruct (existsb _ (d :: cs)); [|reflexivity]. rewrite IHcs. destruct (mrow _ (d :: cs)). cbn. rewrite map_app. reflexivity.
Qed.
Lemma met_ext {A} (k1 k2 : A -> bool) t : (forall x, x ∈ preorder t -> k1 x = k2 x) -> met k1 t = met k2 t.
Proof.
  induction t as [a cs IH] using rose_ind'. intros H. rewrite !met_unfold.
  assert (H' : forall c x, c ∈ cs -> x ∈ preorder c -> k1 x = k2 x).
  { intros c x Hc Hx. apply H. cbn. apply elem_of_cons. right. apply elem_of_flat_map. eauto. }
  clear H. enough (E : mrow k1 cs = mrow k2 cs) by (rewrite E; reflexivity).
  assert (Hp : forall l, (forall c, c ∈ l -> c ∈ cs) -> existsb (passes k1) l = existsb (passes k2) l).
  { induction l as [|c l IHl]; intros Hl; [reflexivity|]. cbn. rewrite IHl by set_solver +Hl. unfold passes.
    rewrite (H' c (label c)); [reflexivity|apply Hl; set_solver +|apply (position_elem [] c)]. }
  revert H' Hp. induction IH as [|c cs Hc _ IHcs]; intros H' Hp; [reflexivity|]. cbn [mrow]. change (passes k1 c) with (k1 (label c)). change (passes k2 c) with (k2 (label c)).
  rewrite (H' c (label c)) by (first [set_solver + | apply (position_elem [] c)]).
  rewrite Hc by (intros x Hx; apply (H' c x); [set_solver +|exact Hx]).
  assert (E : mrow k1 cs = mrow k2 cs).
  { apply IHcs; [intros d x Hd Hx; apply (H' d x); [set_solver +Hd|exact Hx]|intros l Hl; apply Hp; set_solver +Hl]. }
  rewrite E, (Hp cs) by set_solver +. reflexivity.
Qed.

Section PredNav.
  Variable ops : node_ops.
  Variable t : rose addr.
  Notation base := (node_navigator ops (Some (label t))).
  Hypothesis Hok : nav_ok base t.
  Variable keep : addr -> bool.
  Variable pred : ptr -> res bool.
  Hypothesis Hpred : forall x, x ∈ preorder t -> x <> label t -> pred (Some x) = Ok (keep x).
  Variable fuel : nat.
  Hypothesis Hfuel : rsize t <= fuel.
  Notation pnav := (node_pred_navigator ops (Some (label t)) pred fuel).

  (** The node the climb finds: [Some None] is "nothing, stop", [None] the root. *)
  Fixpoint found (c : ctx addr) : option ptr :=
    match c with
    | [] => None
    | (_, _, rs) :: c' => match rs with [] => found c' | _ :: _ => Some (head_label (kept keep rs)) end
    end.
  Lemma found_left c : match found c with Some p => p | None => None end = head (left_after keep c).
  Proof using.
    induction c as [|[[ls a] rs] c IH]; [reflexivity|]. cbn [found left_after]. destruct rs as [|r rs]; [exact IH|].
    destruct (kept keep (r :: rs)) as [|k ks] eqn:Ek; [reflexivity|].
    apply kept_split in Ek as (l0 & r0 & -> & Hn & Hk). rewrite (mrow_skip _ _ _ Hn), (enter keep c [] a k r0 Hk). reflexivity.
  Qed.
  Lemma climb_pred c : forall s n, plug c s = t -> length c < n ->
    keep_calling_loop (S := unit) (pure_call (nav_parent pnav))
      (fun st child _ => b ← nav_is_last pnav child; Ok (negb b, st))
      (fun st child _ => q ← nav_next pnav child; Ok (q, st))
      n (Some (label s)) (ctx_parent c) ()
    = Ok (match found c with Some p => p | None => Some (label t) end, ()).
  Proof using All.
    induction c as [|[[ls a] rs] c IH]; intros s n Hp Hf; (destruct n as [|n]; [cbn in Hf; lia|]).
    - cbn in Hp. subst s. reflexivity.
    - cbn [keep_calling_loop ctx_parent].
      pose proof (no_is_last _ _ Hok _ _ Hp) as Hl. cbn [node_navigator nav_is_last] in Hl. cbn [node_pred_navigator nav_is_last].
      rewrite Hl. cbn [mbind res_bind].
      destruct rs as [|r rs]; cbn [is_nil negb found].
      + pose proof Hp as Hp2. cbn [plug] in Hp2.
        pose proof (no_parent _ _ Hok _ _ Hp2) as Hpar. cbn [label node_navigator nav_parent] in Hpar. cbn [nav_parent].
        rewrite (pure_call_ok _ _ _ _ Hpar). cbn [mbind res_bind].
        specialize (IH (Rose a (ls ++ [s])) n). cbn [label] in IH. apply IH; [exact Hp2|]. cbn in Hf; lia.
      + pose proof (pred_next_ok ops t Hok keep pred Hpred fuel Hfuel _ _ _ _ _ Hp) as Hn. cbn [nav_next node_pred_navigator]. rewrite Hn. reflexivity.
  Qed.
  Lemma mrow_in cs x : x ∈ fst (mrow keep cs) -> x ∈ flat_map preorder cs.
  Proof using.
    clear. destruct cs as [|d cs]; [set_solver +|]. set (l := d :: cs). clearbody l. intros Hx.
    destruct (met_prefix keep (Rose (label d) l)) as (r & Hr & _). rewrite prune_unfold, met_unfold in Hr.
    destruct (mrow keep l) as [m s] eqn:Em. cbn in Hr, Hx. injection Hr as Hr.
    assert (Hin : x ∈ flat_map preorder (pkids keep l)) by (rewrite Hr; set_solver +Hx).
    rewrite pkids_kept in Hin. apply elem_of_flat_map in Hin as (u & Hu & Hxu). apply elem_of_list_fmap in Hu as (v & -> & Hv).
    apply elem_of_flat_map. exists v. split; [|apply (prune_sub keep), Hxu].
    apply elem_of_list_In in Hv. apply filter_In in Hv as [Hv _]. apply elem_of_list_In. exact Hv.
  Qed.
  Lemma left_after_in c x : x ∈ left_after keep c -> x ∈ pre_after c.
  Proof using.
    clear. induction c as [|[[ls a] rs] c IH]; [set_solver +|]. cbn [left_after pre_after]. destruct rs as [|r rs]; [exact IH|].
    destruct (kept keep (r :: rs)); [set_solver +|]. pose proof (mrow_in (r :: rs) x) as Hm. destruct (mrow keep (r :: rs)) as [l0 s]. cbn [fst] in Hm.
    intros Hx. apply elem_of_app in Hx as [Hx|Hx]; apply elem_of_app; [left; exact (Hm Hx)|right]. apply IH. destruct s; [set_solver +Hx|exact Hx].
  Qed.
  Lemma met_not_root c s y l : plug c s = t -> left_at keep c s = y :: l -> y <> label t.
  Proof using All.
    intros Hp Hl E. pose proof (no_nd _ _ Hok) as Hnd.
    assert (Hy : y ∈ flat_map preorder (children s) ++ pre_after c).
    { assert (Hy : y ∈ left_at keep c s) by (rewrite Hl; set_solver +). unfold left_at in Hy.
      pose proof (mrow_in (children s) y) as Hm. destruct (mrow keep (children s)) as [l0 st]. cbn [fst] in Hm.
      apply elem_of_app in Hy as [Hy|Hy]; apply elem_of_app; [left; exact (Hm Hy)|right]. apply left_after_in. destruct st; [set_solver +Hy|exact Hy]. }
    assert (Hpp : preorder t = pre_before c ++ label s :: flat_map preorder (children s) ++ pre_after c).
    { rewrite <- Hp, preorder_plug. destruct s; reflexivity. }
    assert (Hh : head (preorder t) = Some (label t)) by (destruct t; reflexivity).
    rewrite Hpp in Hnd, Hh. destruct (pre_before c) as [|z zs]; cbn in Hnd, Hh; injection Hh as Hh; apply NoDup_cons in Hnd as [Hn _]; apply Hn.
    - rewrite Hh, <- E. exact Hy.
    - rewrite Hh, <- E. set_solver +Hy.
  Qed.
  Lemma pred_pre_step c s : plug c s = t -> pre_increment fuel pnav (Some (label s)) = Ok (head (left_at keep c s)).
  Proof using All.
    intros Hp. destruct s as [a cs]. unfold pre_increment. cbn [label node_pred_navigator nav_first].
    rewrite (pred_first_ok ops t Hok keep pred Hpred fuel Hfuel _ _ _ Hp). cbn [mbind res_bind].
    destruct (kept keep cs) as [|k ks] eqn:Ek; cbn [head_label].
    - unfold keep_calling. pose proof (no_parent _ _ Hok _ _ Hp) as Hpar. cbn [node_navigator nav_parent label] in Hpar. cbn [nav_parent].
      rewrite (pure_call_ok _ _ _ _ Hpar). cbn [mbind res_bind].
      assert (Hn : length c < fuel) by (pose proof (ctx_length_size c (Rose a cs)) as H; rewrite Hp in H; pose proof (rsize_pos (Rose a cs)); lia).
      pose proof (climb_pred c _ _ Hp Hn) as Hcl. cbn [label node_pred_navigator nav_parent nav_is_last nav_next] in Hcl |- *. rewrite Hcl.
      cbn [mbind res_bind node_pred_navigator nav_is_root]. unfold base_is_root.
      assert (E : left_at keep c (Rose a cs) = left_after keep c) by (unfold left_at; cbn [children]; rewrite (mrow_none _ _ Ek); reflexivity).
      rewrite E. pose proof (found_left c) as Hf. destruct (found c) as [q|]; [|rewrite <- Hf, ptr_eqb_true; reflexivity].
      rewrite Hf. destruct (left_after keep c) as [|y l] eqn:El; [reflexivity|]. cbn [head]. rewrite ptr_eqb_false; [reflexivity|].
      intros [=Ey]. exact (met_not_root c (Rose a cs) y l Hp E Ey).
    - apply kept_split in Ek as (l0 & r0 & -> & Hn & Hk). unfold left_at. cbn [children]. rewrite (mrow_skip _ _ _ Hn), (enter keep c l0 a k r0 Hk). reflexivity.
  Qed.
  Lemma met_nd : NoDup (fst (met keep t)).
  Proof using All.
    destruct (met_prefix keep t) as (l & Hl & _).
    assert (Hnd : NoDup (preorder (prune keep t))) by (eapply sublist_NoDup; [apply sublist_pre|apply (no_nd _ _ Hok)]).
    rewrite Hl in Hnd. apply NoDup_app in Hnd as [H _]. exact H.
  Qed.
  Lemma pred_pre_met : order_steps fuel pnav PreOrder (fst (met keep t)) st_nil /\
    order_first fuel pnav PreOrder (fst (met keep t)) st_nil.
  Proof using All.
    split; split.
    - exact met_nd.
    - intros p o o' -> ->. reflexivity.
    - intros l1 x l2 o Hl ->. exists []. split; [|reflexivity]. cbn [increment_impl].
      rewrite met_left in Hl. destruct (met_pos _ _ _ _ _ _ Hl) as (c & s & Hp & <- & <-). cbn [plug] in Hp.
      rewrite (pred_pre_step c s Hp). reflexivity.
    - intros i o ->. exists []. rewrite met_left. split; reflexivity.
  Qed.
End PredNav.

(** A tree in a heap. *)
Lemma early_iter {V Nd} F (im : node_impl V Nd) h t :
  nav_ok (tree_nav im h (Some (raddr t))) (rose_map fst t) ->
  (forall x, x ∈ preorder t -> ni_value im h (Some (fst x)) = Ok (snd x)) -> rsize t < F ->
  forall p, iterate_pred F im h p PreOrder (Some (raddr t)) = Ok (fst (met p t)).
Proof.
  intros Hok Hval HF p. apply iter_pruned; try assumption.
  - assert (E : map fst (fst (met p t)) = fst (met (keep_of p (preorder t)) (rose_map fst t))).
    { rewrite met_map. cbn [fst]. f_equal. f_equal. apply met_ext. intros x Hx. symmetry. apply keep_of_in; [|exact Hx].
      rewrite <- preorder_map. apply (no_nd _ _ Hok). }
    rewrite E. split. exists st_nil.
    rewrite (pnav_eq F im h t Hok Hval HF p).
    destruct (pred_pre_met (ni_ops im h) (rose_map fst t) (Hok' F im h t Hok Hval HF p) (keep_of p (preorder t)) _
      (fun x Hx _ => keep_ok F im h t Hok Hval HF p x Hx) F (HF2 F im h t Hok Hval HF p)) as [H1 H2].
    split; [exact H1|]. split; [exact H2|]. exists []. split; reflexivity.
  - intros x Hx. destruct (met_prefix p t) as (l & -> & _). set_solver +Hx.
  - pose proof (prune_nd F im h t Hok Hval HF p) as Hnd. destruct (met_prefix p t) as (l & Hl & _). rewrite Hl, map_app in Hnd.
    apply NoDup_app in Hnd as [H _]. exact H.
Qed.
Lemma p_early_nary {V} {EV : EqDecision V} F (h : gmap addr (nnode V)) t : nary_in h t -> rsize t < F ->
  forall p, iterate_pred F (nary_impl V) h p PreOrder (Some (raddr t)) = Ok (fst (met p t)).
Proof. intros Ht HF. apply early_iter; [apply nary_nav, Ht|apply nary_value, Ht|exact HF]. Qed.
Lemma p_early_binary {V} {EV : EqDecision V} F (h : gmap addr (bnode V)) t u : bin_in h t -> bin_size t < F -> bin_forest t = [u] ->
  forall p, iterate_pred F (binary_impl V) h p PreOrder (baddr t) = Ok (fst (met p u)).
Proof.
  intros Ht HF Hu p. destruct t as [|x l r] eqn:Et; [discriminate|]. rewrite <- Et in *.
  destruct (setting F h t Ht HF p x l r) as (u' & Ha & Hu' & Hsz & Hok & Hval & Hs & _); [rewrite Et; constructor|].
  rewrite Hu in Hu'. injection Hu' as <-. rewrite Ha. apply early_iter; assumption.
Qed.
