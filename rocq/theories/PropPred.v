(** PropPred.v: predicate navigators (C37) and iteration with them (C43).
    Statements only.  [pred_nav F im h p root] is a predicate navigator rooted at
    [root] whose predicate is [p] (given the node: its identity and value).
    [kept p cs] are the subtrees of [cs] whose root passes, [prune p t] /
    [bkeep p t] is the tree [t] with every failing non-root node cut off
    together with what is below it (PruneSpec.v). *)
From Verif Require Import Base Spec EditSpec PruneSpec StructNode BinaryNode NaryNode Nav Policy Tree Rep User IterTrees
  PredUser PredIter PredBin PredProofs EarlySpec EarlyFacts Examples.

Theorem C37_forward_nary :
  forall (V : Type) (EV : EqDecision V) (F : nat) (h : gmap addr (nnode V)) (t : rose (addr * V)) (p : addr * V -> bool),
  nary_in h t -> rsize t < F ->
  let nav := pred_nav F (nary_impl V) h p (Some (raddr t)) in
  (forall x cs, rsubtree (Rose x cs) t ->
     nav_first nav (Some (fst x)) = Ok (head (map raddr (kept p cs))) /\
     (forall ls s rs, cs = ls ++ s :: rs -> nav_next nav (Some (raddr s)) = Ok (head (map raddr (kept p rs))))) /\
  nav_next nav (Some (raddr t)) = Ok None.
Proof. intros. apply p_pred_forward_nary; assumption. Qed.
Print Assumptions C37_forward_nary.

(** In a binary tree the children of a node are the left one, if any, followed
    by the right one, if any. *)
Theorem C37_forward_binary :
  forall (V : Type) (EV : EqDecision V) (F : nat) (h : gmap addr (bnode V)) (t : bin (addr * V)) (p : addr * V -> bool),
  bin_in h t -> bin_size t < F ->
  let nav := pred_nav F (binary_impl V) h p (baddr t) in
  (forall x l r, bsubtree (BNode x l r) t ->
     let cs := bin_forest l ++ bin_forest r in
     nav_first nav (Some (fst x)) = Ok (head (map raddr (kept p cs))) /\
     (forall ls s rs, cs = ls ++ s :: rs -> nav_next nav (Some (raddr s)) = Ok (head (map raddr (kept p rs))))) /\
  (t <> BLeaf -> nav_next nav (baddr t) = Ok None).
Proof. intros. apply p_pred_forward_binary; assumption. Qed.
Print Assumptions C37_forward_binary.

Theorem C37_sides_binary :
  forall (V : Type) (EV : EqDecision V) (F : nat) (h : gmap addr (bnode V)) (t : bin (addr * V)) (p : addr * V -> bool)
    (x : addr * V) (l r : bin (addr * V)),
  bin_in h t -> bin_size t < F -> bsubtree (BNode x l r) t ->
  let nav := pred_nav F (binary_impl V) h p (baddr t) in
  nav_left nav (Some (fst x)) = Ok (match l with BNode y _ _ => if p y then Some (fst y) else None | BLeaf => None end) /\
  nav_right nav (Some (fst x)) = Ok (match r with BNode y _ _ => if p y then Some (fst y) else None | BLeaf => None end).
Proof. intros. apply p_pred_sides_binary; assumption. Qed.
Print Assumptions C37_sides_binary.

(** The backward half holds when the immediate previous sibling passes or there
    is none (for the last child: when one of the last two children passes, or
    there are fewer than two).  In that case the answer is the nearest passing one.
    Missing: everything else; see [C37_backward_nary_refuted]. *)
Theorem C37_backward_nary_partial :
  forall (V : Type) (EV : EqDecision V) (F : nat) (h : gmap addr (nnode V)) (t : rose (addr * V)) (p : addr * V -> bool)
    (x : addr * V) (cs : list (rose (addr * V))),
  nary_in h t -> rsize t < F -> rsubtree (Rose x cs) t ->
  let nav := pred_nav F (nary_impl V) h p (Some (raddr t)) in
  (forall ls s rs, cs = ls ++ s :: rs -> (forall y, last ls = Some y -> p (label y) = true) ->
     nav_prev nav (Some (raddr s)) = Ok (last (map raddr (kept p ls)))) /\
  ((forall l y z, cs = l ++ [y; z] -> p (label y) = true \/ p (label z) = true) ->
     nav_last nav (Some (fst x)) = Ok (last (map raddr (kept p cs)))).
Proof.
  intros V EV F h t p x cs Ht HF Hx nav. destruct (p_pred_back_nary F h t Ht HF p x cs Hx) as [H1 H2]. split.
  - intros ls s rs Hcs Hl. subst nav. rewrite (H1 ls s rs Hcs). exact (last_ok p ls Hl).
  - intros Hl. subst nav. rewrite H2. exact (last_ok2 p cs Hl).
Qed.
Print Assumptions C37_backward_nary_partial.

(** Missing: as for [C37_backward_nary_partial]; see [C37_backward_binary_refuted]. *)
Theorem C37_backward_binary_partial :
  forall (V : Type) (EV : EqDecision V) (F : nat) (h : gmap addr (bnode V)) (t : bin (addr * V)) (p : addr * V -> bool)
    (x : addr * V) (l r : bin (addr * V)),
  bin_in h t -> bin_size t < F -> bsubtree (BNode x l r) t ->
  let nav := pred_nav F (binary_impl V) h p (baddr t) in
  let cs := bin_forest l ++ bin_forest r in
  (forall ls s rs, cs = ls ++ s :: rs -> (forall y, last ls = Some y -> p (label y) = true) ->
     nav_prev nav (Some (raddr s)) = Ok (last (map raddr (kept p ls)))) /\
  ((forall ls y z, cs = ls ++ [y; z] -> p (label y) = true \/ p (label z) = true) ->
     nav_last nav (Some (fst x)) = Ok (last (map raddr (kept p cs)))).
Proof.
  intros V EV F h t p x l r Ht HF Hx nav cs. destruct (p_pred_back_binary F h t Ht HF p x l r Hx) as [H1 H2]. split.
  - intros ls s rs Hcs Hl. subst nav. rewrite (H1 ls s rs Hcs). exact (last_ok p ls Hl).
  - intros Hl. subst nav. rewrite H2. exact (last_ok2 p cs Hl).
Qed.
Print Assumptions C37_backward_binary_partial.

(** The backward half fails whenever the immediate previous sibling fails the
    predicate: the call does not return, however many steps it is given. *)
Theorem C37_backward_nary_refuted :
  forall (V : Type) (EV : EqDecision V) (F : nat) (h : gmap addr (nnode V)) (t : rose (addr * V)) (p : addr * V -> bool)
    (x : addr * V) (ls : list (rose (addr * V))) (y s : rose (addr * V)) (rs : list (rose (addr * V))),
  nary_in h t -> rsize t < F -> rsubtree (Rose x (ls ++ y :: s :: rs)) t -> p (label y) = false ->
  nav_prev (pred_nav F (nary_impl V) h p (Some (raddr t))) (Some (raddr s)) = Err OutOfFuel.
Proof.
  intros V EV F h t p x ls y s rs Ht HF Hx Hy.
  rewrite (proj1 (p_pred_back_nary F h t Ht HF p x _ Hx) (ls ++ [y]) s rs) by (rewrite <- app_assoc; reflexivity).
  rewrite last_snoc, Hy. reflexivity.
Qed.
Print Assumptions C37_backward_nary_refuted.

Theorem C37_backward_binary_refuted :
  forall (V : Type) (EV : EqDecision V) (F : nat) (h : gmap addr (bnode V)) (t : bin (addr * V)) (p : addr * V -> bool)
    (x y z : addr * V) (l1 l2 r1 r2 : bin (addr * V)),
  bin_in h t -> bin_size t < F -> bsubtree (BNode x (BNode y l1 l2) (BNode z r1 r2)) t -> p y = false ->
  nav_prev (pred_nav F (binary_impl V) h p (baddr t)) (Some (fst z)) = Err OutOfFuel.
Proof.
  intros V EV F h t p x y z l1 l2 r1 r2 Ht HF Hx Hy.
  pose proof (proj1 (p_pred_back_binary F h t Ht HF p x _ _ Hx) [_] _ [] eq_refl) as H. cbn [last label] in H. rewrite Hy in H. exact H.
Qed.
Print Assumptions C37_backward_binary_refuted.

Example C37_used :
  let nav := pred_nav 100 (nary_impl nat) ex_nheap (fun x => Nat.ltb 20 (snd x)) (Some 1%positive) in
  nav_first nav (Some 1%positive) = Ok (Some 3%positive) /\ nav_prev nav (Some 3%positive) = Err OutOfFuel.
Proof.
  assert (H : nary_in ex_nheap ex_nary) by exact ex_nary_in. assert (HF : rsize ex_nary < 100) by exact (proj2 ex_sizes). split.
  - exact (proj1 (proj1 (C37_forward_nary nat _ 100 ex_nheap ex_nary (fun x => Nat.ltb 20 (snd x)) H HF) _ _ (rsub_here _))).
  - exact (C37_backward_nary_refuted nat _ 100 ex_nheap ex_nary (fun x => Nat.ltb 20 (snd x)) (1%positive, 10) []
      (Rose (2%positive, 20) []) ex_nsub [Rose (4%positive, 40) []] H HF (rsub_here _) eq_refl).
Qed.

(** ** C43: iteration *)
Theorem C43_pruned_nary :
  forall (V : Type) (EV : EqDecision V) (F : nat) (h : gmap addr (nnode V)) (t : rose (addr * V)) (p : addr * V -> bool),
  nary_in h t -> rsize t < F ->
  iterate_pred F (nary_impl V) h p PostOrder (Some (raddr t)) = Ok (postorder (prune p t)) /\
  iterate_pred F (nary_impl V) h p BreadthFirst (Some (raddr t)) = Ok (levelorder (prune p t)) /\
  iterate_pred F (nary_impl V) h p Leaves (Some (raddr t)) = Ok (leaves (prune p t)).
Proof.
  intros V EV F h t p Ht HF. split; [|split].
  - apply (p_pruned_nary F h t Ht HF p PostOrder). auto.
  - apply (p_pruned_nary F h t Ht HF p BreadthFirst). auto.
  - apply (p_pruned_nary F h t Ht HF p Leaves). auto.
Qed.
Print Assumptions C43_pruned_nary.

Theorem C43_pruned_binary :
  forall (V : Type) (EV : EqDecision V) (F : nat) (h : gmap addr (bnode V)) (t : bin (addr * V)) (p : addr * V -> bool),
  bin_in h t -> bin_size t < F -> t <> BLeaf ->
  iterate_pred F (binary_impl V) h p PostOrder (baddr t) = Ok (flat_map postorder (bin_forest (bkeep p t))) /\
  iterate_pred F (binary_impl V) h p BreadthFirst (baddr t) = Ok (flat_map levelorder (bin_forest (bkeep p t))) /\
  iterate_pred F (binary_impl V) h p Leaves (baddr t) = Ok (flat_map leaves (bin_forest (bkeep p t))) /\
  iterate_pred F (binary_impl V) h p InOrder (baddr t) = Ok (inorder (bkeep p t)).
Proof.
  intros V EV F h t p Ht HF Hne.
  assert (Hu : exists u, bin_forest t = [u]) by (destruct t; [congruence|cbn; eauto]). destruct Hu as [u Hu].
  split; [|split; [|split]].
  - apply (p_pruned_binary F h t Ht HF p PostOrder u Hu). auto.
  - apply (p_pruned_binary F h t Ht HF p BreadthFirst u Hu). auto.
  - apply (p_pruned_binary F h t Ht HF p Leaves u Hu). auto.
  - apply p_inorder_pruned; assumption.
Qed.
Print Assumptions C43_pruned_binary.

(** Pre-order: only when every last child passes.  Missing: trees with a failing
    last child; see [C43_preorder_refuted]. *)
Theorem C43_preorder_nary_partial :
  forall (V : Type) (EV : EqDecision V) (F : nat) (h : gmap addr (nnode V)) (t : rose (addr * V)) (p : addr * V -> bool),
  nary_in h t -> rsize t < F ->
  (forall x cs s, rsubtree (Rose x (cs ++ [s])) t -> p (label s) = true) ->
  iterate_pred F (nary_impl V) h p PreOrder (Some (raddr t)) = Ok (preorder (prune p t)).
Proof.
  intros V EV F h t p Ht HF Hl. apply (p_pruned_nary F h t Ht HF p PreOrder). right; right; right. split; [reflexivity|].
  intros c a ls s Hp. apply (Hl a ls s). apply NodeFacts.rsubtree_plug. eauto.
Qed.
Print Assumptions C43_preorder_nary_partial.

(** Missing: as for [C43_preorder_nary_partial]. *)
Theorem C43_preorder_binary_partial :
  forall (V : Type) (EV : EqDecision V) (F : nat) (h : gmap addr (bnode V)) (t : bin (addr * V)) (p : addr * V -> bool),
  bin_in h t -> bin_size t < F -> t <> BLeaf ->
  (forall x l r cs s, bsubtree (BNode x l r) t -> bin_forest l ++ bin_forest r = cs ++ [s] -> p (label s) = true) ->
  iterate_pred F (binary_impl V) h p PreOrder (baddr t) = Ok (flat_map preorder (bin_forest (bkeep p t))).
Proof.
  intros V EV F h t p Ht HF Hne Hl.
  assert (Hu : exists u, bin_forest t = [u]) by (destruct t; [congruence|cbn; eauto]). destruct Hu as [u Hu].
  apply (p_pruned_binary F h t Ht HF p PreOrder u Hu). right; right; right. split; [reflexivity|].
  intros c a ls s Hp.
  destruct (forest_sub t u a (ls ++ [s]) Hu) as (l & r & Hs & E); [apply NodeFacts.rsubtree_plug; eauto|].
  exact (Hl a l r ls s Hs (eq_sym E)).
Qed.
Print Assumptions C43_preorder_binary_partial.

(** 1 (2 (3, 4), 5) *)
Definition ex_prune : rose (addr * nat) :=
  Rose (1%positive, 1) [Rose (2%positive, 2) [Rose (3%positive, 3) []; Rose (4%positive, 4) []]; Rose (5%positive, 5) []].
Definition ex_pheap : gmap addr (nnode nat) :=
  list_to_map
    [(1%positive, NNodeR 1 None 0 None None (Some 2%positive) (Some 5%positive));
     (2%positive, NNodeR 2 (Some 1%positive) 1 None (Some 5%positive) (Some 3%positive) (Some 4%positive));
     (5%positive, NNodeR 5 (Some 1%positive) 0 (Some 2%positive) None None None);
     (3%positive, NNodeR 3 (Some 2%positive) 1 None (Some 4%positive) None None);
     (4%positive, NNodeR 4 (Some 2%positive) 0 (Some 3%positive) None None None)].
(** Cutting off only the node 4, pre-order misses the node 5. *)
Theorem C43_preorder_refuted :
  exists (F : nat) (h : gmap addr (nnode nat)) (t : rose (addr * nat)) (p : addr * nat -> bool),
  nary_in h t /\ rsize t < F /\
  preorder (prune p t) = [(1%positive, 1); (2%positive, 2); (3%positive, 3); (5%positive, 5)] /\
  iterate_pred F (nary_impl nat) h p PreOrder (Some (raddr t)) = Ok [(1%positive, 1); (2%positive, 2); (3%positive, 3)].
Proof.
  exists 100, ex_pheap, ex_prune, (fun x => negb (Nat.eqb (snd x) 4)). split; [|split; [vm_compute; lia|split; vm_compute; reflexivity]].
  exists None, None, None, (szt 0). split; [vm_compute; tauto|]. apply (bool_decide_unpack _). vm_compute. exact I.
Qed.
Print Assumptions C43_preorder_refuted.

(** What pre-order visits, for every tree and every predicate ([met],
    EarlySpec.v): it goes through the passing children in order, and stops for
    good after a child whose later siblings exist but all fail. *)
Theorem C43_preorder_exact_nary :
  forall (V : Type) (EV : EqDecision V) (F : nat) (h : gmap addr (nnode V)) (t : rose (addr * V)) (p : addr * V -> bool),
  nary_in h t -> rsize t < F ->
  iterate_pred F (nary_impl V) h p PreOrder (Some (raddr t)) = Ok (fst (met p t)).
Proof. intros V EV F h t p Ht HF. apply p_early_nary; assumption. Qed.
Print Assumptions C43_preorder_exact_nary.

Theorem C43_preorder_exact_binary :
  forall (V : Type) (EV : EqDecision V) (F : nat) (h : gmap addr (bnode V)) (t : bin (addr * V)) (u : rose (addr * V)) (p : addr * V -> bool),
  bin_in h t -> bin_size t < F -> bin_forest t = [u] ->
  iterate_pred F (binary_impl V) h p PreOrder (baddr t) = Ok (fst (met p u)).
Proof. intros V EV F h t u p Ht HF Hu. apply p_early_binary; assumption. Qed.
Print Assumptions C43_preorder_exact_binary.

(** So nothing failing is ever visited and nothing is visited out of order: what
    is visited is the beginning of the pre-order of the cut tree, and all of it
    unless the traversal stopped after such a child. *)
Theorem C43_preorder_prefix_nary :
  forall (V : Type) (EV : EqDecision V) (F : nat) (h : gmap addr (nnode V)) (t : rose (addr * V)) (p : addr * V -> bool),
  nary_in h t -> rsize t < F ->
  exists l rest, iterate_pred F (nary_impl V) h p PreOrder (Some (raddr t)) = Ok l /\
    preorder (prune p t) = l ++ rest /\ (snd (met p t) = false -> rest = []).
Proof.
  intros V EV F h t p Ht HF. destruct (met_prefix p t) as (r & H1 & H2). exists (fst (met p t)), r.
  split; [apply p_early_nary; assumption|]. split; assumption.
Qed.
Print Assumptions C43_preorder_prefix_nary.

Theorem C43_preorder_prefix_binary :
  forall (V : Type) (EV : EqDecision V) (F : nat) (h : gmap addr (bnode V)) (t : bin (addr * V)) (u : rose (addr * V)) (p : addr * V -> bool),
  bin_in h t -> bin_size t < F -> bin_forest t = [u] ->
  exists l rest, iterate_pred F (binary_impl V) h p PreOrder (baddr t) = Ok l /\
    flat_map preorder (bin_forest (bkeep p t)) = l ++ rest /\ (snd (met p u) = false -> rest = []).
Proof.
  intros V EV F h t u p Ht HF Hu. destruct (met_prefix p u) as (r & H1 & H2). exists (fst (met p u)), r.
  split; [apply p_early_binary; assumption|]. rewrite (bkeep_forest p t u Hu). cbn. rewrite app_nil_r. split; assumption.
Qed.
Print Assumptions C43_preorder_prefix_binary.

(** Goes through the nodes of a concrete tree. *)
Ltac sub_cases :=
  repeat match goal with
  | H : rsubtree (Rose _ (_ ++ [_])) (Rose _ _) |- _ => inversion H; clear H; subst
  | H : _ ∈ [] |- _ => inversion H
  | H : _ ∈ _ :: _ |- _ => apply elem_of_cons in H as [->|H]
  | H : ?cs ++ [?s] = [] |- _ => destruct cs; discriminate H
  | H : ?cs ++ [?s] = _ :: _ |- _ => destruct cs; cbn in H; inversion H; clear H; subst
  | H : [] = ?cs ++ [?s] |- _ => destruct cs; discriminate H
  | H : _ :: _ = ?cs ++ [?s] |- _ => destruct cs; cbn in H; inversion H; clear H; subst
  end; try reflexivity.

Example C43_used :
  iterate_pred 100 (nary_impl nat) ex_nheap (fun x => Nat.ltb 20 (snd x)) PostOrder (Some 1%positive) =
    Ok [(5%positive, 50); (6%positive, 60); (3%positive, 30); (4%positive, 40); (1%positive, 10)] /\
  iterate_pred 100 (binary_impl nat) ex_bheap (fun x => negb (Nat.eqb (snd x) 40)) InOrder (Some 1%positive) =
    Ok [(2%positive, 20); (1%positive, 10); (3%positive, 30)] /\
  iterate_pred 100 (nary_impl nat) ex_nheap (fun x => Nat.ltb 20 (snd x)) PreOrder (Some 1%positive) =
    Ok [(1%positive, 10); (3%positive, 30); (5%positive, 50); (6%positive, 60); (4%positive, 40)].
Proof.
  split; [|split].
  - exact (proj1 (C43_pruned_nary nat _ 100 ex_nheap ex_nary (fun x => Nat.ltb 20 (snd x)) ex_nary_in (proj2 ex_sizes))).
  - refine (proj2 (proj2 (proj2 (C43_pruned_binary nat _ 100 ex_bheap ex_bin (fun x => negb (Nat.eqb (snd x) 40)) ex_bin_in (proj1 ex_sizes) _)))).
    discriminate.
  - refine (C43_preorder_nary_partial nat _ 100 ex_nheap ex_nary (fun x => Nat.ltb 20 (snd x)) ex_nary_in (proj2 ex_sizes) _).
    intros x cs s Hs. unfold ex_nary in Hs. sub_cases.
Qed.

(** Both binary partial theorems on the tree 10 (20 (-, 40 (50, -)), 30) with the predicate "not 20". *)
Example C37_C43_used_binary :
  nav_last (pred_nav 100 (binary_impl nat) ex_bheap (fun x => negb (Nat.eqb (snd x) 20)) (Some 1%positive)) (Some 1%positive) =
    Ok (Some 3%positive) /\
  iterate_pred 100 (binary_impl nat) ex_bheap (fun x => negb (Nat.eqb (snd x) 20)) PreOrder (Some 1%positive) =
    Ok [(1%positive, 10); (3%positive, 30)].
Proof.
  split.
  - refine (proj2 (C37_backward_binary_partial nat _ 100 ex_bheap ex_bin (fun x => negb (Nat.eqb (snd x) 20)) _ _ _ ex_bin_in (proj1 ex_sizes) (bsub_here _)) _).
    intros ls y z E. cbn in E. destruct ls as [|? [|? ls]]; [injection E as <- <-; right; reflexivity|discriminate|destruct ls; discriminate].
  - refine (C43_preorder_binary_partial nat _ 100 ex_bheap ex_bin (fun x => negb (Nat.eqb (snd x) 20)) ex_bin_in (proj1 ex_sizes) _ _);
      [discriminate|].
    intros x l r cs s Hs Hc. unfold ex_bin in Hs.
    assert (Ec : last (bin_forest l ++ bin_forest r) = Some s) by (rewrite Hc; apply last_snoc). clear Hc.
    repeat match goal with H : bsubtree (BNode _ _ _) _ |- _ => inversion H; clear H; subst end;
      cbn in Ec; (discriminate Ec || (injection Ec as <-; reflexivity)).
Qed.

(** Without the node 4 in [ex_prune] the loop stops at 3; without the node 40 in
    [ex_nary] it also stops early, but nothing was left to visit. *)
Example C43_exact_used :
  iterate_pred 100 (nary_impl nat) ex_pheap (fun x => negb (Nat.eqb (snd x) 4)) PreOrder (Some 1%positive) =
    Ok [(1%positive, 1); (2%positive, 2); (3%positive, 3)] /\
  iterate_pred 100 (nary_impl nat) ex_nheap (fun x => negb (Nat.eqb (snd x) 40)) PreOrder (Some 1%positive) =
    Ok [(1%positive, 10); (2%positive, 20); (3%positive, 30); (5%positive, 50); (6%positive, 60)].
Proof.
  split.
  - refine (C43_preorder_exact_nary nat _ 100 ex_pheap ex_prune (fun x => negb (Nat.eqb (snd x) 4)) _ _); [|vm_compute; lia].
    exists None, None, None, (szt 0). split; [vm_compute; tauto|]. apply (bool_decide_unpack _). vm_compute. exact I.
  - exact (C43_preorder_exact_nary nat _ 100 ex_nheap ex_nary (fun x => negb (Nat.eqb (snd x) 40)) ex_nary_in (proj2 ex_sizes)).
Qed.
