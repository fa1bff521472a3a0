(** PredBin.v: predicate navigators on the nodes of binary and n-ary trees. *)
From Verif Require Import Base Spec EditSpec PruneSpec RoseFacts RowFacts StructNode BinaryNode NaryNode Nav Policy Tree Rep NavFacts
  BranchFacts Orders PolicyFacts BinOrder BinRep NaryRep User Iter IterTrees PredUser PredFacts PredIter.

Section Cut.
  Context {A : Type} (keep : A -> bool).
  Definition bcut (t : bin A) : bin A :=
    match t with BNode b _ _ => if keep b then bkeep keep t else BLeaf | BLeaf => BLeaf end.
  Lemma bkeep_unfold a l r : bkeep keep (BNode a l r) = BNode a (bcut l) (bcut r).
  Proof. reflexivity. Qed.
  Lemma bkeep_forest t : forall u, bin_forest t = [u] -> bin_forest (bkeep keep t) = [prune keep u].
  Proof.
    induction t as [|a l IHl r IHr]; intros u Hu; [discriminate|]. injection Hu as <-.
    rewrite bkeep_unfold. cbn [bin_forest]. rewrite prune_unfold, pkids_app.
    assert (Hc : forall s, (forall u, bin_forest s = [u] -> bin_forest (bkeep keep s) = [prune keep u]) ->
              bin_forest (bcut s) = pkids keep (bin_forest s)).
    { intros [|b s1 s2] IH; [reflexivity|]. cbn [bcut bin_forest]. cbn [pkids flat_map label].
      destruct (keep b); [|reflexivity]. rewrite (IH _ eq_refl), app_nil_r. reflexivity. }
    rewrite (Hc l IHl), (Hc r IHr). reflexivity.
  Qed.
  Definition pframe (f : bframe A) : bframe A :=
    match f with LeftOf a r => LeftOf a (bcut r) | RightOf a l => RightOf a (bcut l) end.
  Lemma bkeep_position c : forall a l r t, bplug c (BNode a l r) = bkeep keep t ->
    exists c0 l0 r0, bplug c0 (BNode a l0 r0) = t /\ bcut l0 = l /\ bcut r0 = r /\ map pframe c0 = c.
  Proof.
    induction c as [|[b rr|b ll] c IH]; intros a l r t H.
    - cbn in H. destruct t as [|b l0 r0]; [discriminate|]. rewrite bkeep_unfold in H. injection H as -> -> ->.
      exists [], l0, r0. auto.
    - cbn [bplug] in H. apply IH in H as (c0 & l0 & r0 & Hp & Hl & <- & <-).
      destruct l0 as [|x l1 r1]; cbn in Hl; [discriminate|]. destruct (keep x); [|discriminate].
      injection Hl as -> <- <-. exists (LeftOf b r0 :: c0), l1, r1. auto.
    - cbn [bplug] in H. apply IH in H as (c0 & l0 & r0 & Hp & <- & Hr & <-).
      destruct r0 as [|x l1 r1]; cbn in Hr; [discriminate|]. destruct (keep x); [|discriminate].
      injection Hr as -> <- <-. exists (RightOf b l0 :: c0), l1, r1. auto.
  Qed.
  Lemma bkeep_sublist t : sublist (bin_labels (bkeep keep t)) (bin_labels t).
  Proof.
    induction t as [|a l IHl r IHr]; [constructor|]. rewrite bkeep_unfold. cbn [bin_labels]. apply sublist_skip.
    assert (Hc : forall s, sublist (bin_labels (bkeep keep s)) (bin_labels s) -> sublist (bin_labels (bcut s)) (bin_labels s)).
    { intros [|b s1 s2] H; [constructor|]. cbn [bcut]. destruct (keep b); [exact H|apply sublist_nil_l]. }
    apply sublist_app; auto.
  Qed.
  Lemma bkeep_size t : bin_size (bkeep keep t) <= bin_size t.
  Proof.
    rewrite <- !length_inorder, !(Permutation_length (inorder_labels _)). apply sublist_length, bkeep_sublist.
  Qed.
End Cut.
Lemma bkeep_map {A B} (f : A -> B) (k1 : A -> bool) (k2 : B -> bool) t :
  (forall x, x ∈ bin_labels t -> k2 (f x) = k1 x) -> bin_map f (bkeep k1 t) = bkeep k2 (bin_map f t).
Proof.
  induction t as [|a l IHl r IHr]; intros H; [reflexivity|]. cbn [bin_map]. rewrite !bkeep_unfold. cbn [bin_map bin_labels] in *.
  assert (Hc : forall s, (forall x, x ∈ bin_labels s -> k2 (f x) = k1 x) -> bin_map f (bkeep k1 s) = bkeep k2 (bin_map f s) ->
     bin_map f (bcut k1 s) = bcut k2 (bin_map f s)).
  { intros [|b s1 s2] Hx IH; [reflexivity|]. cbn [bcut bin_map]. rewrite (Hx b) by (cbn; set_solver +).
    destruct (k1 b); [exact IH|reflexivity]. }
  rewrite (Hc l), (Hc r); [reflexivity| | | |].
  - intros x Hx. apply H. set_solver +Hx.
  - apply IHr. intros x Hx. apply H. set_solver +Hx.
  - intros x Hx. apply H. set_solver +Hx.
  - apply IHl. intros x Hx. apply H. set_solver +Hx.
Qed.

(** In-order on a predicate navigator. *)
Section In.
  Variable ops : node_ops.
  Variable t : bin addr.
  Variable r : ptr.
  Hypothesis Hok : bnav_ok (node_navigator ops r) t.
  Variable keep : addr -> bool.
  Variable pred : ptr -> res bool.
  Hypothesis Hpred : forall x, x ∈ bin_labels t -> pred (Some x) = Ok (keep x).
  Variable fuel : nat.

  Lemma bin_pos_in c : forall a l rr, a ∈ bin_labels (bplug c (BNode a l rr) : bin addr).
  Proof.
    assert (Hm : forall c (s : bin addr) x, x ∈ bin_labels s -> x ∈ bin_labels (bplug c s)).
    { induction c0 as [|[b q|b q] c0 IH]; intros s x Hx; [exact Hx| |]; cbn [bplug]; apply IH; cbn; set_solver +Hx. }
    intros. apply Hm. cbn. set_solver +.
  Qed.
  Lemma pred_side_ok get x s c fr : get (Some x) = Ok (broot s) ->
    (forall a l rr, s = BNode a l rr -> bplug (fr :: c) (BNode a l rr) = t) ->
    pred_side pred get (Some x) = Ok (broot (bcut keep s)).
  Proof using Hpred.
    intros Hg Hs. unfold pred_side. rewrite Hg. cbn [mbind res_bind]. destruct s as [|a l rr]; [reflexivity|].
    cbn [broot]. rewrite Hpred by (rewrite <- (Hs _ _ _ eq_refl); apply bin_pos_in). cbn [mbind res_bind bcut].
    destruct (keep a); reflexivity.
  Qed.
  Lemma pred_bnav_ok : bnav_ok (node_pred_navigator ops r pred fuel) (bkeep keep t).
  Proof using All.
    split; cbn [node_pred_navigator nav_root nav_left nav_right nav_parent nav_is_left nav_is_right].
    - eapply sublist_NoDup; [apply bkeep_sublist|apply (bn_nd _ _ Hok)].
    - pose proof (bn_root _ _ Hok) as H. cbn in H. rewrite H. destruct t; reflexivity.
    - intros c a l rr Hp. apply bkeep_position in Hp as (c0 & l0 & r0 & Hp & <- & <- & <-).
      apply (pred_side_ok _ _ _ c0 (LeftOf a r0)); [apply (bn_left _ _ Hok _ _ _ _ Hp)|]. intros ? ? ? ->. exact Hp.
    - intros c a l rr Hp. apply bkeep_position in Hp as (c0 & l0 & r0 & Hp & <- & <- & <-).
      apply (pred_side_ok _ _ _ c0 (RightOf a l0)); [apply (bn_right _ _ Hok _ _ _ _ Hp)|]. intros ? ? ? ->. exact Hp.
    - intros c a l rr Hp. apply bkeep_position in Hp as (c0 & l0 & r0 & Hp & <- & <- & <-).
      pose proof (bn_parent _ _ Hok _ _ _ _ Hp) as H. cbn [node_navigator nav_parent] in H. rewrite H.
      destruct c0 as [|[? ?|? ?] ?]; reflexivity.
    - intros c a l rr Hp. apply bkeep_position in Hp as (c0 & l0 & r0 & Hp & <- & <- & <-).
      pose proof (bn_is_left _ _ Hok _ _ _ _ Hp) as H. cbn [node_navigator nav_is_left] in H. rewrite H.
      destruct c0 as [|[? ?|? ?] ?]; reflexivity.
    - intros c a l rr Hp. apply bkeep_position in Hp as (c0 & l0 & r0 & Hp & <- & <- & <-).
      pose proof (bn_is_right _ _ Hok _ _ _ _ Hp) as H. cbn [node_navigator nav_is_right] in H. rewrite H.
      destruct c0 as [|[? ?|? ?] ?]; reflexivity.
  Qed.
End In.
