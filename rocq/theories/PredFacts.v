(** PredFacts.v: predicate navigators. *)
From Verif Require Import Base Spec PruneSpec RoseFacts RowFacts Nav Policy NavFacts BranchFacts Orders PolicyFacts Iter IterTrees.

Section Prune.
  Context {A : Type} (keep : A -> bool).
  Definition pkids (cs : list (rose A)) : list (rose A) :=
    flat_map (fun c => if keep (label c) then [prune keep c] else []) cs.
  Lemma prune_unfold a cs : prune keep (Rose a cs) = Rose a (pkids cs).
  Proof. reflexivity. Qed.
  Lemma pkids_kept cs : pkids cs = map (prune keep) (kept keep cs).
  Proof. induction cs as [|c cs IH]; cbn [pkids kept List.filter flat_map]; [reflexivity|]. fold (pkids cs). rewrite IH. destruct (keep (label c)); reflexivity. Qed.
  Lemma label_prune t : label (prune keep t) = label t.
  Proof. destruct t; reflexivity. Qed.
  Definition pctx (c : ctx A) : ctx A := map (fun '(ls, a, rs) => (pkids ls, a, pkids rs)) c.
  Lemma pkids_app l1 l2 : pkids (l1 ++ l2) = pkids l1 ++ pkids l2.
  Proof. apply flat_map_app'. Qed.
  Lemma pkids_split cs ls s rs : pkids cs = ls ++ s :: rs ->
    exists ls0 s0 rs0, cs = ls0 ++ s0 :: rs0 /\ pkids ls0 = ls /\ keep (label s0) = true /\ prune keep s0 = s /\ pkids rs0 = rs.
  Proof.
    revert ls. induction cs as [|c cs IH]; intros ls H; [destruct ls; discriminate|]. cbn in H.
    destruct (keep (label c)) eqn:E; cbn in H.
    - destruct ls as [|y ls]; cbn in H; injection H as <- H.
      + exists [], c, cs. auto.
      + apply IH in H as (l0 & s0 & r0 & -> & <- & H1 & H2 & H3). exists (c :: l0), s0, r0. cbn. rewrite E. auto.
    - apply IH in H as (l0 & s0 & r0 & -> & <- & H1 & H2 & H3). exists (c :: l0), s0, r0. cbn. rewrite E. auto.
  Qed.
  Lemma prune_position c : forall s t, plug c s = prune keep t ->
    exists c0 s0, plug c0 s0 = t /\ prune keep s0 = s /\ pctx c0 = c /\ (c0 <> [] -> keep (label s0) = true).
  Proof.
    induction c as [|[[ls a] rs] c IH]; intros s t H.
    - exists [], t. cbn in *. split; [reflexivity|]. split; [auto|]. split; [reflexivity|congruence].
    - cbn [plug] in H. apply IH in H as (c0 & [a0 cs0] & Hp & Hs & Hc & _). rewrite prune_unfold in Hs.
      injection Hs as -> Hs. apply pkids_split in Hs as (l0 & s0 & r0 & -> & <- & H1 & H2 & <-).
      exists ((l0, a, r0) :: c0), s0. split; [exact Hp|]. split; [exact H2|]. split; [cbn [pctx map]; fold (pctx c0); rewrite Hc; reflexivity|auto].
  Qed.
  Lemma prune_sub t : forall x, x ∈ preorder (prune keep t) -> x ∈ preorder t.
  Proof.
    intros x Hx. apply elem_position in Hx as (c & s & Hp & <-). apply prune_position in Hp as (c0 & s0 & <- & <- & _ & _).
    rewrite label_prune. apply position_elem.
  Qed.
  Lemma sublist_pre t : sublist (preorder (prune keep t)) (preorder t).
  Proof.
    induction t as [a cs IH] using rose_ind'. rewrite prune_unfold. cbn [preorder]. apply sublist_skip.
    induction IH as [|c cs Hc _ IHcs]; cbn; [constructor|]. destruct (keep (label c)); cbn [app flat_map].
    - rewrite ?app_nil_r. apply sublist_app; assumption.
    - apply sublist_inserts_l. exact IHcs.
  Qed.
  Lemma rsize_prune t : rsize (prune keep t) <= rsize t.
  Proof. rewrite <- !length_preorder. apply sublist_length, sublist_pre. Qed.
End Prune.
Lemma prune_map {A B} (f : A -> B) (keep : B -> bool) t :
  rose_map f (prune (fun a => keep (f a)) t) = prune keep (rose_map f t).
Proof.
  induction t as [a cs IH] using rose_ind'. cbn. f_equal.
  induction IH as [|c cs Hc _ IHcs]; cbn; [reflexivity|]. rewrite label_map.
  destruct (keep (f (label c))); cbn; rewrite IHcs; [rewrite Hc|]; reflexivity.
Qed.
Lemma prune_ext {A} (k1 k2 : A -> bool) t : (forall x, x ∈ preorder t -> k1 x = k2 x) -> prune k1 t = prune k2 t.
Proof.
  induction t as [a cs IH] using rose_ind'. intros H. cbn. f_equal.
  assert (H' : forall c x, c ∈ cs -> x ∈ preorder c -> k1 x = k2 x).
  { intros c x Hc Hx. apply H. cbn. apply elem_of_cons. right. apply elem_of_flat_map. eauto. }
  clear H. induction IH as [|c cs Hc _ IHcs]; cbn; [reflexivity|].
  rewrite (H' c (label c)) by (first [set_solver + | apply (position_elem [] c)]).
  rewrite Hc by (intros x Hx; apply (H' c x); [set_solver +|exact Hx]).
  rewrite IHcs; [reflexivity|]. intros d x Hd Hx. apply (H' d x); [set_solver +Hd|exact Hx].
Qed.

(** Where a node is. *)
Fixpoint locate (x : addr) (c : ctx addr) (s : rose addr) {struct s} : option (ctx addr * rose addr) :=
  match s with
  | Rose a cs =>
      if decide (a = x) then Some (c, s)
      else (fix go (ls l : list (rose addr)) : option (ctx addr * rose addr) :=
              match l with
              | [] => None
              | s' :: rs =>
                  match locate x ((ls, a, rs) :: c) s' with
                  | Some r => Some r
                  | None => go (ls ++ [s']) rs
                  end
              end) [] cs
  end.
Lemma locate_spec x s : forall c, x ∈ preorder s ->
  exists c' s', locate x c s = Some (c', s') /\ plug c' s' = plug c s /\ label s' = x.
Proof.
  assert (Hsound : forall s c c' s', locate x c s = Some (c', s') -> plug c' s' = plug c s /\ label s' = x).
  { induction s0 as [a cs IH] using rose_ind'. intros c c' s' H. cbn in H. destruct (decide (a = x)) as [->|Hne].
    { injection H as <- <-. auto. }
    assert (Hgo : forall l ls, cs = ls ++ l ->
      (fix go (ls l : list (rose addr)) := match l with [] => None | s' :: rs =>
          match locate x ((ls, a, rs) :: c) s' with Some r => Some r | None => go (ls ++ [s']) rs end end) ls l = Some (c', s') ->
      plug c' s' = plug c (Rose a cs) /\ label s' = x).
    { induction l as [|y l IHl]; intros ls Hcs Hg; [discriminate|].
      destruct (locate x ((ls, a, l) :: c) y) as [r|] eqn:E.
      - injection Hg as ->. rewrite Forall_forall in IH.
        destruct (IH y ltac:(rewrite Hcs; set_solver +) _ _ _ E) as [H1 H2].
        split; [|exact H2]. rewrite H1. cbn. rewrite Hcs. reflexivity.
      - apply (IHl (ls ++ [y])); [rewrite <- app_assoc; exact Hcs|exact Hg]. }
    apply (Hgo cs []); [reflexivity|exact H]. }
  intros c Hx.
  assert (Hc : exists r, locate x c s = Some r).
  { revert c Hx. clear Hsound. induction s as [a cs IH] using rose_ind'. intros c Hx. cbn. destruct (decide (a = x)) as [->|Hne]; [eauto|].
    cbn in Hx. apply elem_of_cons in Hx as [->|Hx]; [congruence|]. apply elem_of_flat_map in Hx as (y & Hy & Hx).
    assert (Hgo : forall l ls, y ∈ l -> Forall (fun s => forall c, x ∈ preorder s -> exists r, locate x c s = Some r) l -> exists r,
      (fix go (ls l : list (rose addr)) := match l with [] => None | s' :: rs =>
          match locate x ((ls, a, rs) :: c) s' with Some r => Some r | None => go (ls ++ [s']) rs end end) ls l = Some r).
    { induction l as [|z l IHl]; intros ls Hyl HF; [apply elem_of_nil in Hyl as []|].
      apply Forall_cons in HF as [IHz HF]. apply elem_of_cons in Hyl as [->|Hyl].
      - destruct (IHz ((ls, a, l) :: c) Hx) as [r ->]. eauto.
      - destruct (locate x ((ls, a, l) :: c) z); [eauto|]. apply IHl; assumption. }
    apply Hgo; assumption. }
  destruct Hc as [[c' s'] Hc]. exists c', s'. split; [exact Hc|]. apply Hsound, Hc.
Qed.
Lemma locate_ok t c s : NoDup (preorder t) -> plug c s = t -> locate (label s) [] t = Some (c, s).
Proof.
  intros Hnd Hp. destruct (locate_spec (label s) t []) as (c' & s' & Hl & Hp' & Hlab).
  { rewrite <- Hp. apply position_elem. }
  rewrite Hl. cbn [plug] in Hp'. rewrite <- Hp in Hnd. destruct (ctx_unique c s c' s' Hnd) as [-> ->]; congruence.
Qed.

Section PredNav.
  Variable ops : node_ops.
  Variable t : rose addr.
  Notation base := (node_navigator ops (Some (label t))).
  Hypothesis Hok : nav_ok base t.
  Variable keep : addr -> bool.
  Variable pred : ptr -> res bool.
  (* the root is never tested *)
  Hypothesis Hpred : forall x, x ∈ preorder t -> x <> label t -> pred (Some x) = Ok (keep x).
  Variable fuel : nat.
  Hypothesis Hfuel : rsize t <= fuel.
  Notation pnav := (node_pred_navigator ops (Some (label t)) pred fuel).

  Lemma pred_at f c s : plug (f :: c) s = t -> pred (Some (label s)) = Ok (keep (label s)).
  Proof using All.
    intros Hp. apply Hpred; [rewrite <- Hp; apply position_elem|]. pose proof (no_nd _ _ Hok) as Hnd. rewrite <- Hp in Hnd |- *.
    destruct (label_root_iff _ _ Hnd) as [H _]. intros E. specialize (H E). discriminate.
  Qed.
  Lemma next_loop a rs : forall ls c k, plug c (Rose a (ls ++ rs)) = t -> length rs < k ->
    pred_next_loop ops (Some (label t)) pred k (head_label rs) = Ok (head_label (kept keep rs)).
  Proof using All.
    induction rs as [|r rs IH]; intros ls c k Hp Hk; (destruct k as [|k]; [cbn in Hk; lia|]); cbn [head_label pred_next_loop kept List.filter]; [reflexivity|].
    assert (Hp2 : plug ((ls, a, rs) :: c) r = t) by exact Hp.
    rewrite (pred_at _ _ _ Hp2). cbn [mbind res_bind]. destruct (keep (label r)); [reflexivity|].
    pose proof (no_next _ _ Hok _ _ Hp2) as Hn. cbn [node_navigator nav_next ctx_next] in Hn. rewrite Hn. cbn [mbind res_bind].
    apply (IH (ls ++ [r]) c k); [rewrite <- app_assoc; exact Hp|cbn in Hk; lia].
  Qed.
  Lemma siblings_fuel a cs c : plug c (Rose a cs) = t -> length cs < fuel.
  Proof using All.
    intros <-. pose proof (ctx_length_size c (Rose a cs)) as H. cbn in H.
    assert (Hs : length cs <= list_sum (map rsize cs)).
    { clear. induction cs as [|x cs IH]; [cbn; lia|]. pose proof (rsize_pos x). change (S (length cs) <= rsize x + list_sum (map rsize cs)). lia. }
    lia.
  Qed.
  Lemma pred_next_ok ls a rs c s : plug ((ls, a, rs) :: c) s = t ->
    pred_next ops (Some (label t)) pred fuel (Some (label s)) = Ok (head_label (kept keep rs)).
  Proof using All.
    intros Hp. unfold pred_next. pose proof (no_next _ _ Hok _ _ Hp) as Hn. cbn [node_navigator nav_next ctx_next] in Hn.
    rewrite Hn. cbn [mbind res_bind]. apply (next_loop a rs (ls ++ [s]) c); [rewrite <- app_assoc; exact Hp|].
    pose proof (siblings_fuel _ _ _ Hp) as H. rewrite app_length in H. cbn in H. lia.
  Qed.
  Lemma pred_next_root : pred_next ops (Some (label t)) pred fuel (Some (label t)) = Ok None.
  Proof using All.
    unfold pred_next, base_unless_root, base_is_root. rewrite ptr_eqb_true. cbn [mbind res_bind].
    pose proof (rsize_pos t). destruct fuel; [lia|]. reflexivity.
  Qed.
  Lemma pred_first_ok c a cs : plug c (Rose a cs) = t ->
    pred_first ops (Some (label t)) pred fuel (Some a) = Ok (head_label (kept keep cs)).
  Proof using All.
    intros Hp. unfold pred_first. pose proof (no_first _ _ Hok _ _ Hp) as Hf. cbn [node_navigator nav_first label children] in Hf.
    rewrite Hf. cbn [mbind res_bind]. destruct cs as [|s cs]; [reflexivity|]. cbn [head_label kept List.filter].
    assert (Hp2 : plug (([], a, cs) :: c) s = t) by exact Hp.
    rewrite (pred_at _ _ _ Hp2). cbn [mbind res_bind]. destruct (keep (label s)); [reflexivity|].
    apply (pred_next_ok [] a cs c s Hp2).
  Qed.
  (** [get_prev_sibling]: right when the immediate previous sibling passes or
      there is none; otherwise it never returns. *)
  Lemma pred_prev_ok ls a rs c s : plug ((ls, a, rs) :: c) s = t ->
    pred_prev ops (Some (label t)) pred fuel (Some (label s)) =
    match last ls with None => Ok None | Some l => if keep (label l) then Ok (Some (label l)) else Err OutOfFuel end.
  Proof using All.
    intros Hp. unfold pred_prev. pose proof (no_prev _ _ Hok _ _ Hp) as Hn. cbn [node_navigator nav_prev ctx_prev] in Hn.
    rewrite Hn. cbn [mbind res_bind].
    assert (Hf : 0 < fuel) by (pose proof (rsize_pos t); lia).
    destruct ls as [|l ls _] using rev_ind.
    { destruct fuel; [lia|]. reflexivity. }
    rewrite last_label_snoc, last_snoc in *.
    assert (Hp2 : plug ((ls, a, s :: rs) :: c) l = t). { rewrite <- Hp. cbn. rewrite <- app_assoc. reflexivity. }
    pose proof (pred_at _ _ _ Hp2) as Hat.
    destruct (keep (label l)) eqn:E.
    - destruct fuel; [lia|]. cbn [pred_prev_loop]. rewrite Hat. reflexivity.
    - clear Hf Hfuel. induction fuel as [|n IH]; [reflexivity|]. cbn [pred_prev_loop].
      rewrite Hat. cbn [mbind res_bind]. rewrite Hn. cbn [mbind res_bind]. exact IH.
  Qed.
  Lemma pred_last_ok c a cs : plug c (Rose a cs) = t ->
    pred_last ops (Some (label t)) pred fuel (Some a) =
    match rev cs with
    | [] => Ok None
    | l :: rest => if keep (label l) then Ok (Some (label l)) else
        match rest with [] => Ok None | m :: _ => if keep (label m) then Ok (Some (label m)) else Err OutOfFuel end
    end.
  Proof using All.
    intros Hp. unfold pred_last. pose proof (no_last _ _ Hok _ _ Hp) as Hf. cbn [node_navigator nav_last label children] in Hf.
    rewrite Hf. cbn [mbind res_bind]. destruct cs as [|s cs _] using rev_ind; [reflexivity|].
    rewrite last_label_snoc, rev_app_distr. cbn [rev app].
    assert (Hp2 : plug ((cs, a, []) :: c) s = t) by exact Hp.
    rewrite (pred_at _ _ _ Hp2). cbn [mbind res_bind]. destruct (keep (label s)); [reflexivity|].
    rewrite (pred_prev_ok cs a [] c s Hp2). destruct cs as [|m cs _] using rev_ind; [reflexivity|].
    rewrite last_snoc, rev_app_distr. reflexivity.
  Qed.

  (** A navigator of the pruned tree that answers like the predicate navigator
      where only root, parent, first child and next sibling are asked. *)
  Definition lookup (f : ctx addr -> rose addr -> ptr) (p : ptr) : res ptr :=
    match p with Some x => match locate x [] (prune keep t) with Some (c, s) => Ok (f c s) | None => Ok None end | None => Ok None end.
  Definition lookupb (f : ctx addr -> bool) (p : ptr) : res bool :=
    match p with Some x => match locate x [] (prune keep t) with Some (c, s) => Ok (f c) | None => Ok false end | None => Ok false end.
  Definition inav (is_last : ptr -> res bool) : navigator :=
    Navigator (nav_root pnav) (nav_is_root pnav)
      (lookupb (fun c => match c with [] => false | (ls, _, _) :: _ => is_nil ls end)) is_last
      (nav_is_left pnav) (nav_is_right pnav) (nav_parent pnav)
      (lookup (fun c _ => ctx_prev c)) (nav_next pnav) (nav_first pnav)
      (lookup (fun _ s => last_label (children s)))
      (nav_left pnav) (nav_right pnav) (nav_child pnav).
  Definition ideal_last := lookupb (fun c => match c with [] => false | (_, _, rs) :: _ => is_nil rs end).

  Lemma nd_prune : NoDup (preorder (prune keep t)).
  Proof using All. eapply sublist_NoDup; [apply sublist_pre|apply (no_nd _ _ Hok)]. Qed.
  Lemma ideal_last_ok c s : plug c s = prune keep t ->
    ideal_last (Some (label s)) = Ok (match c with [] => false | (_, _, rs) :: _ => is_nil rs end).
  Proof using All. intros Hp. unfold ideal_last, lookupb. rewrite (locate_ok _ _ _ nd_prune Hp). reflexivity. Qed.
  Lemma inav_ok is_last :
    (forall c s, plug c s = prune keep t -> is_last (Some (label s)) = Ok (match c with [] => false | (_, _, rs) :: _ => is_nil rs end)) ->
    nav_ok (inav is_last) (prune keep t).
  Proof using All.
    intros Hlast. pose proof nd_prune as Hnd.
    split; cbn [inav nav_root nav_is_root nav_first nav_last nav_parent nav_prev nav_next nav_is_first nav_is_last node_pred_navigator].
    - exact Hnd.
    - rewrite label_prune. reflexivity.
    - intros p. rewrite label_prune. reflexivity.
    - intros c s Hp. apply prune_position in Hp as (c0 & [a cs] & Hp & <- & _ & _). rewrite prune_unfold. cbn [label children].
      rewrite (pred_first_ok _ _ _ Hp), pkids_kept. destruct (kept keep cs); cbn; [reflexivity|]. rewrite label_prune. reflexivity.
    - intros c s Hp. unfold lookup. rewrite (locate_ok _ _ _ Hnd Hp). reflexivity.
    - intros c s Hp. apply prune_position in Hp as (c0 & s0 & Hp & <- & <- & _). rewrite label_prune.
      pose proof (no_parent _ _ Hok _ _ Hp) as H. cbn [node_navigator nav_parent] in H. rewrite H.
      destruct c0 as [|[[? ?] ?] ?]; reflexivity.
    - intros c s Hp. unfold lookup. rewrite (locate_ok _ _ _ Hnd Hp). reflexivity.
    - intros c s Hp. apply prune_position in Hp as (c0 & s0 & Hp & <- & <- & _). rewrite label_prune.
      destruct c0 as [|[[ls a] rs] c0]; cbn [pctx map ctx_next].
      + cbn in Hp. subst s0. apply pred_next_root.
      + rewrite (pred_next_ok _ _ _ _ _ Hp), pkids_kept. destruct (kept keep rs); cbn; [reflexivity|]. rewrite label_prune. reflexivity.
    - intros c s Hp. unfold lookupb. rewrite (locate_ok _ _ _ Hnd Hp). reflexivity.
    - exact Hlast.
  Qed.

  (** The real [is_last_child] agrees with the pruned tree's when no last child
      is cut off. *)
  Lemma real_last_ok :
    (forall c a ls s, plug c (Rose a (ls ++ [s])) = t -> keep (label s) = true) ->
    forall c s, plug c s = prune keep t ->
      nav_is_last pnav (Some (label s)) = Ok (match c with [] => false | (_, _, rs) :: _ => is_nil rs end).
  Proof using All.
    intros Hl c s Hp. apply prune_position in Hp as (c0 & s0 & Hp & <- & <- & _). rewrite label_prune.
    pose proof (no_is_last _ _ Hok _ _ Hp) as H. cbn [node_navigator nav_is_last] in H. cbn [node_pred_navigator nav_is_last].
    rewrite H. destruct c0 as [|[[ls a] rs] c0]; [reflexivity|]. cbn [pctx map]. f_equal.
    destruct rs as [|r rs _] using rev_ind; [reflexivity|].
    rewrite pkids_app. cbn [pkids flat_map]. rewrite (Hl c0 a (ls ++ s0 :: rs) r).
    - destruct (pkids keep rs), rs; reflexivity.
    - rewrite <- Hp. cbn. rewrite <- app_assoc. reflexivity.
  Qed.

  (** Forward traversals. *)
  Lemma pred_post : order_steps fuel pnav PostOrder (postorder (prune keep t)) st_nil /\
    order_first fuel pnav PostOrder (postorder (prune keep t)) st_nil.
  Proof using All.
    pose proof (inav_ok ideal_last ideal_last_ok) as H. pose proof (rsize_prune keep t) as Hs.
    destruct (post_steps _ _ H fuel ltac:(lia)) as [? ? ?], (post_first _ _ H fuel ltac:(lia)) as [?].
    split; (split; assumption).
  Qed.
  Lemma pred_bfs : order_steps fuel pnav BreadthFirst (levelorder (prune keep t)) (st_bfs (prune keep t)) /\
    order_first fuel pnav BreadthFirst (levelorder (prune keep t)) (st_bfs (prune keep t)).
  Proof using All.
    pose proof (inav_ok ideal_last ideal_last_ok) as H. pose proof (rsize_prune keep t) as Hs.
    destruct (bfs_steps _ _ H fuel ltac:(lia)) as [? ? ?], (bfs_first _ _ H fuel) as [?].
    split; (split; assumption).
  Qed.
  Lemma pred_leaves : order_steps fuel pnav Leaves (leaves (prune keep t)) (st_leaves (prune keep t)) /\
    order_first fuel pnav Leaves (leaves (prune keep t)) (st_leaves (prune keep t)).
  Proof using All.
    pose proof (inav_ok ideal_last ideal_last_ok) as H. pose proof (rsize_prune keep t) as Hs.
    destruct (leaves_steps _ _ H fuel ltac:(lia)) as [? ? ?], (leaves_first _ _ H fuel ltac:(lia)) as [?].
    split; (split; assumption).
  Qed.
  Lemma pred_pre :
    (forall c a ls s, plug c (Rose a (ls ++ [s])) = t -> keep (label s) = true) ->
    order_steps fuel pnav PreOrder (preorder (prune keep t)) st_nil /\
    order_first fuel pnav PreOrder (preorder (prune keep t)) st_nil.
  Proof using All.
    intros Hl. pose proof (inav_ok (nav_is_last pnav) (real_last_ok Hl)) as H. pose proof (rsize_prune keep t) as Hs.
    destruct (pre_steps _ _ H fuel ltac:(lia)) as [? ? ?], (pre_first _ _ H fuel ltac:(lia)) as [?].
    split; (split; assumption).
  Qed.
End PredNav.
