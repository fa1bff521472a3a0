(** NodeProofs.v: node lemmas in the form of the property statements. *)
From Verif Require Import Base Spec EditSpec StructNode BinaryNode NaryNode Nav Policy Tree Rep User BinRep NaryRep NaryOps2 IterTrees IterMain
  NodeFacts IterProofs.

Section P.
  Context (V : Type) (EV : EqDecision V).
  Lemma p_primitives_binary F (h : gmap addr (bnode V)) (t : bin (addr * V)) (u : rose (addr * V)) :
  bin_in h t -> bin_size t < F -> bin_forest t = [u] ->
  let nav := tree_nav (binary_impl V) h (baddr t) in
  (forall d P s Q, row d u = P ++ s :: Q ->
     get_other_branch nav F false (Some (raddr s)) = Ok (head (map raddr Q)) /\
     get_other_branch nav F true (Some (raddr s)) = Ok (last (map raddr P)) /\
     get_row_extremum nav F true (Some (raddr s)) = Ok (head (map raddr (P ++ s :: Q))) /\
     get_row_extremum nav F false (Some (raddr s)) = Ok (last (map raddr (P ++ s :: Q)))) /\
  get_deepest_extremum_child nav F true = Ok (head (map raddr (row (height u - 1) u))) /\
  get_deepest_extremum_child nav F false = Ok (last (map raddr (row (height u - 1) u))) /\
  get_highest_leaf nav F true = Ok (head (map fst (leaves u))) /\
  get_highest_leaf nav F false = Ok (last (map fst (leaves u))).
  Proof.
    intros Ht HF Hu nav. destruct (bin_stored V EV h t u Ht Hu) as (Ha & Hsz & Hok & _). subst nav. rewrite Ha.
    rewrite <- Hsz in HF. split.
    - intros d P s Q Hr. destruct (other_branch_row _ u F Hok HF d P s Q Hr) as [H1 H2].
      destruct (row_extremum_row _ u F Hok HF d P s Q Hr) as [H3 H4]. rewrite Hr in H3, H4. auto.
    - destruct (deepest_row _ u F Hok HF) as [H1 H2]. destruct (highest_leaf _ u F Hok HF) as [H3 H4]. auto.
  Qed.
  Lemma p_primitives_nary F (h : gmap addr (nnode V)) (u : rose (addr * V)) :
  nary_in h u -> rsize u < F ->
  let nav := tree_nav (nary_impl V) h (Some (raddr u)) in
  (forall d P s Q, row d u = P ++ s :: Q ->
     get_other_branch nav F false (Some (raddr s)) = Ok (head (map raddr Q)) /\
     get_other_branch nav F true (Some (raddr s)) = Ok (last (map raddr P)) /\
     get_row_extremum nav F true (Some (raddr s)) = Ok (head (map raddr (P ++ s :: Q))) /\
     get_row_extremum nav F false (Some (raddr s)) = Ok (last (map raddr (P ++ s :: Q)))) /\
  get_deepest_extremum_child nav F true = Ok (head (map raddr (row (height u - 1) u))) /\
  get_deepest_extremum_child nav F false = Ok (last (map raddr (row (height u - 1) u))) /\
  get_highest_leaf nav F true = Ok (head (map fst (leaves u))) /\
  get_highest_leaf nav F false = Ok (last (map fst (leaves u))).
  Proof.
    intros Ht HF nav. pose proof (nary_nav h u Ht) as Hok. fold nav in Hok. split.
    - intros d P s Q Hr. destruct (other_branch_row _ u F Hok HF d P s Q Hr) as [H1 H2].
      destruct (row_extremum_row _ u F Hok HF d P s Q Hr) as [H3 H4]. rewrite Hr in H3, H4. auto.
    - destruct (deepest_row _ u F Hok HF) as [H1 H2]. destruct (highest_leaf _ u F Hok HF) as [H3 H4]. auto.
  Qed.

  Lemma p_queries_binary (h : gmap addr (bnode V)) (whole : bin (addr * V)) :
  bin_at h whole ->
  (forall a v l r, bsubtree (BNode (a, v) l r) whole ->
     let cs := opt_list (fun x => [x]) (baddr l) ++ opt_list (fun x => [x]) (baddr r) in
     b_value h (Some a) = Ok v /\
     b_left h (Some a) = Ok (baddr l) /\ b_right h (Some a) = Ok (baddr r) /\
     b_first h (Some a) = Ok (head cs) /\ b_last h (Some a) = Ok (last cs) /\
     b_children h (Some a) = Ok (N.of_nat (length cs)) /\
     (forall i, b_child h (Some a) i = Ok (nth_error cs (N.to_nat i))) /\
     (forall x, baddr l = Some x ->
        b_parent h (Some x) = Ok (Some a) /\ b_is_left h (Some x) = Ok true /\ b_is_right h (Some x) = Ok false /\
        b_is_first h (Some x) = Ok true /\ b_is_last h (Some x) = Ok (is_null (baddr r)) /\
        b_prev h (Some x) = Ok None /\ b_next h (Some x) = Ok (baddr r) /\
        b_following_siblings h (Some x) = Ok (if is_null (baddr r) then 0 else 1)%N) /\
     (forall x, baddr r = Some x ->
        b_parent h (Some x) = Ok (Some a) /\ b_is_left h (Some x) = Ok false /\ b_is_right h (Some x) = Ok true /\
        b_is_first h (Some x) = Ok (is_null (baddr l)) /\ b_is_last h (Some x) = Ok true /\
        b_prev h (Some x) = Ok (baddr l) /\ b_next h (Some x) = Ok None /\
        b_following_siblings h (Some x) = Ok 0%N)) /\
  (forall a, baddr whole = Some a ->
     b_parent h (Some a) = Ok None /\ b_is_left h (Some a) = Ok false /\ b_is_right h (Some a) = Ok false /\
     b_is_first h (Some a) = Ok false /\ b_is_last h (Some a) = Ok false /\
     b_prev h (Some a) = Ok None /\ b_next h (Some a) = Ok None /\ b_following_siblings h (Some a) = Ok 0%N).
  Proof.
    intros Hw. split; [|intros a; apply b_root_queries, Hw].
    intros a v l r Hs cs. pose proof (bin_in_sub h _ _ (bin_at_in _ _ _ Hw) Hs) as Hin.
    destruct (b_children_queries h a v l r Hin) as (H1 & H2 & H3 & H4 & H5 & H6 & H7).
    do 7 (split; [assumption|]). split.
    - intros x Hx. apply baddr_root in Hx as (w & ll & lr & ->). eapply b_left_child_queries, Hin.
    - intros x Hx. apply baddr_root in Hx as (w & ll & lr & ->). eapply b_right_child_queries, Hin.
  Qed.
  Lemma p_queries_nary (h : gmap addr (nnode V)) (whole : rose (addr * V)) :
  nary_at h whole ->
  (forall a v cs, rsubtree (Rose (a, v) cs) whole -> (N.of_nat (length cs) < W64)%N ->
     n_val h (Some a) = Ok v /\
     n_first h (Some a) = Ok (head (map raddr cs)) /\ n_last h (Some a) = Ok (last (map raddr cs)) /\
     n_children h (Some a) = Ok (N.of_nat (length cs)) /\
     (forall i, n_child h (Some a) i = Ok (nth_error (map raddr cs) (N.to_nat i))) /\
     (forall ls x rs, cs = ls ++ x :: rs ->
        n_parent h (Some (raddr x)) = Ok (Some a) /\
        n_prev h (Some (raddr x)) = Ok (last (map raddr ls)) /\ n_next h (Some (raddr x)) = Ok (head (map raddr rs)) /\
        n_is_first h (Some (raddr x)) = Ok (bool_decide (ls = [])) /\ n_is_last h (Some (raddr x)) = Ok (bool_decide (rs = [])) /\
        n_following_siblings h (Some (raddr x)) = Ok (N.of_nat (length rs)))) /\
  n_parent h (Some (raddr whole)) = Ok None /\ n_prev h (Some (raddr whole)) = Ok None /\
  n_next h (Some (raddr whole)) = Ok None /\ n_is_first h (Some (raddr whole)) = Ok false /\
  n_is_last h (Some (raddr whole)) = Ok false /\ n_following_siblings h (Some (raddr whole)) = Ok 0%N.
  Proof.
    intros Hw. split; [|apply n_root_queries, Hw].
    assert (Hin : nary_in h whole) by (exists None, None, None, (szt 0); exact Hw).
    intros a v cs Hs Hlen. pose proof (nary_in_sub h _ _ Hin Hs) as Hsub.
    destruct (n_children_queries h a v cs Hsub Hlen) as (H1 & H2 & H3 & H4 & H5).
    do 5 (split; [assumption|]).
    intros ls [[x w] xs] rs ->. rewrite app_length in Hlen. cbn [length] in Hlen.
    destruct (n_child_queries h a v ls x w xs rs Hsub ltac:(lia)) as (K1 & K2 & K3 & K4 & K5 & K6).
    cbn [raddr label fst]. rewrite K4, K5. do 3 (split; [assumption|]).
    split; [destruct ls; reflexivity|]. split; [destruct rs; reflexivity|exact K6].
  Qed.
End P.
