(** ViewFacts.v: lemmas about views and about comparing and copying across node
    kinds, used by PropView.v. *)
From Verif Require Import Base Spec EditSpec StructNode BinaryNode NaryNode Nav Policy Tree Rep RoseFacts LitFacts BinRep NaryRep NaryOps NaryOps2 Arity User World Kinds TreeSpec
  TreeOps TreeOps2 TreeOps3 TreeBin TreeNary BinOrder Iter IterTrees History TreeFacts NodeFacts.

Section Eq.
  Context {V : Type} {EV : EqDecision V}.
  Notation tree := (rose (addr * V)).
  Notation heap := (gmap addr (nnode V)).

  (** Comparing two nodes anywhere: their subtrees, and then their next siblings
      if the left one has one. *)
  Lemma n_eq_root fuel (h1 h2 : heap) (t u : tree) p1 q1 n1 f1 p2 q2 n2 f2 :
    nrep h1 p1 q1 n1 f1 t -> nrep h2 p2 q2 n2 f2 u -> rsize t <= S fuel ->
    (N.of_nat (rsize t) < W64)%N -> (N.of_nat (rsize u) < W64)%N ->
    n_eq (S fuel) h1 h2 (Some (raddr t)) (Some (raddr u)) =
      if bool_decide (rose_map snd t = rose_map snd u)
      then if is_null n1 then Ok true else n_eq fuel h1 h2 n1 n2
      else Ok false.
  Proof.
    intros Hc Hd Hf HW1 HW2. destruct t as [[a v] cs], u as [[b w] ds]. rewrite rsize_rose in Hf, HW1, HW2.
    cbn [raddr label fst] in *. cbn [n_eq]. rewrite (n_children_ok _ _ _ _ _ _ _ _ Hc), (n_children_ok _ _ _ _ _ _ _ _ Hd).
    rewrite nrep_unfold in Hc, Hd. destruct Hc as [Ha Hcs]. destruct Hd as [Hb Hds].
    pose proof (fsize_length cs). pose proof (fsize_length ds).
    cbn [mbind res_bind]. rewrite !szt_small by lia.
    destruct (N.eqb_spec (N.of_nat (length cs)) (N.of_nat (length ds))) as [Hk|Hk]; cbn [negb].
    2:{ rewrite bool_decide_eq_false_2; [reflexivity|]. cbn. intros [=_ Heq]. apply Hk.
        rewrite <- (map_length (rose_map snd) cs), Heq, map_length. reflexivity. }
    rewrite (deref_Some _ _ _ Ha), (deref_Some _ _ _ Hb). cbn [mbind res_bind nval nfirst nnext].
    destruct (decide (v = w)) as [->|Hvw].
    2:{ rewrite (bool_decide_eq_false_2 (v = w)) by exact Hvw. cbn [negb].
        rewrite bool_decide_eq_false_2; [reflexivity|]. cbn. congruence. }
    rewrite (bool_decide_eq_true_2 (w = w)) by reflexivity. cbn [negb].
    assert (Hsub : (if is_null (first_or cs None) then Ok true else n_eq fuel h1 h2 (first_or cs None) (first_or ds None)) =
              Ok (bool_decide (map (rose_map snd) cs = map (rose_map snd) ds))).
    { destruct cs as [|x cs], ds as [|y ds]; cbn [length] in Hk; try lia.
      - cbn. rewrite bool_decide_eq_true_2; reflexivity.
      - cbn [first_or is_null]. eapply n_eq_seg; try eassumption; lia. }
    rewrite Hsub. cbn [mbind res_bind].
    destruct (decide (map (rose_map snd) cs = map (rose_map snd) ds)) as [Ec|Ec].
    2:{ rewrite (bool_decide_eq_false_2 (map _ cs = _)) by exact Ec. cbn [negb].
        rewrite bool_decide_eq_false_2; [reflexivity|]. cbn. congruence. }
    rewrite (bool_decide_eq_true_2 (map _ cs = _)) by exact Ec. cbn [negb].
    rewrite (bool_decide_eq_true_2 (rose_map _ _ = _)) by (cbn; congruence).
    destruct n1 as [x|]; cbn [is_null]; [|reflexivity]. destruct (n_eq fuel h1 h2 (Some x) n2) as [[]|]; reflexivity.
  Qed.
  (** size() and arity() of a view of any node. *)
  Lemma nary_view_size F (h : heap) v (t : tree) p q n f : nrep h p q n f t -> t_root v = Some (raddr t) -> rsize t < F -> (N.of_nat F <= W64)%N ->
    t_size v = 0%N \/ t_size v = N.of_nat (rsize t) ->
    size_of F (nary_impl V) h v = Ok (N.of_nat (rsize t), TreeRec (t_root v) (N.of_nat (rsize t)) (t_arity v) (t_nav v)).
  Proof.
    intros Ht Hr HF HFW Hs. unfold size_of, tree_empty. rewrite Hr. cbn [is_null negb andb]. pose proof (rsize_pos t).
    destruct (N.eqb_spec (t_size v) 0) as [Hz|Hz].
    - cbn [ni_size nary_impl]. rewrite (n_calculate_size_ok t F h _ _ _ _ Ht) by lia. cbn [mbind res_bind]. rewrite szt_small by lia. reflexivity.
    - destruct Hs as [Hs|Hs]; [contradiction|]. destruct v; cbn in *. subst. reflexivity.
  Qed.
  Lemma nary_view_arity F (h : heap) v (t : tree) p q n f : nrep h p q n f t -> t_root v = Some (raddr t) -> rsize t < F -> (N.of_nat F <= W64)%N ->
    t_arity v = 0%N \/ t_arity v = N.of_nat (rarity t) ->
    arity_of F (nary_impl V) h v = Ok (N.of_nat (rarity t), TreeRec (t_root v) (t_size v) (N.of_nat (rarity t)) (t_nav v)).
  Proof.
    intros Ht Hr HF HFW Hs. unfold arity_of, tree_empty. rewrite Hr. cbn [is_null negb andb]. pose proof (rarity_lt_rsize t).
    destruct (N.eqb_spec (t_arity v) 0) as [Hz|Hz].
    - pose proof (n_calculate_arity_ok F h _ _ _ _ t Ht ltac:(lia) ltac:(lia)) as Ha.
      destruct t as [[a w] cs]. rewrite nrep_unfold in Ht. destruct Ht as [Hn _]. cbn [raddr label fst] in *. change (op_first (ni_ops (nary_impl V) h) (Some a)) with (n_first h (Some a)). unfold n_first.
      rewrite (deref_Some _ _ _ Hn). cbn [mbind res_bind nfirst]. destruct cs as [|c cs]; cbn [first_or].
      + destruct v; cbn in *. subst. reflexivity.
      + change (max_expected (nary_impl V)) with (W64 - 1)%N. rewrite Ha. reflexivity.
    - destruct Hs as [Hs|Hs]; [contradiction|]. destruct v; cbn in *. subst. reflexivity.
  Qed.
  Lemma nary_view_eq F (h : heap) va vb (t u : tree) p1 q1 n1 f1 p2 q2 n2 f2 :
    nrep h p1 q1 n1 f1 t -> nrep h p2 q2 n2 f2 u -> t_root va = Some (raddr t) -> t_root vb = Some (raddr u) ->
    cached (nary_kind V) va (Some t) -> cached (nary_kind V) vb (Some u) -> rsize t < F -> rsize u < F -> (N.of_nat F <= W64)%N ->
    base_eq F (nary_impl V) h va vb =
      if bool_decide (rose_map snd t = rose_map snd u)
      then if is_null n1 then Ok true else n_eq (pred F) h h n1 n2
      else Ok false.
  Proof.
    intros Ht Hu Ea Eb Ca Cb Lt Lu HFW. destruct Ca as [Ca1 Ca2], Cb as [Cb1 Cb2]. cbn [caddrs nary_kind naddrs opt_list carity] in *.
    rewrite length_raddrs in Ca1, Cb1. unfold base_eq, tree_empty. rewrite Ea, Eb. cbn [is_null Bool.eqb negb].
    rewrite (nary_view_size F h va t _ _ _ _ Ht Ea Lt HFW Ca1). cbn [mbind res_bind].
    rewrite (nary_view_size F h vb u _ _ _ _ Hu Eb Lu HFW Cb1). cbn [mbind res_bind].
    destruct (N.eqb_spec (N.of_nat (rsize t)) (N.of_nat (rsize u))) as [Es|Es]; cbn [negb].
    2:{ rewrite bool_decide_eq_false_2; [reflexivity|]. intros E. apply Es. rewrite <- (rsize_map snd t), E, rsize_map. reflexivity. }
    rewrite (nary_view_arity F h (TreeRec (t_root va) (N.of_nat (rsize t)) (t_arity va) (t_nav va)) t _ _ _ _ Ht Ea Lt HFW Ca2). cbn [mbind res_bind].
    rewrite (nary_view_arity F h (TreeRec (t_root vb) (N.of_nat (rsize u)) (t_arity vb) (t_nav vb)) u _ _ _ _ Hu Eb Lu HFW Cb2). cbn [mbind res_bind].
    destruct (N.eqb_spec (N.of_nat (rarity t)) (N.of_nat (rarity u))) as [Er|Er]; cbn [negb].
    2:{ rewrite bool_decide_eq_false_2; [reflexivity|]. intros E. apply Er. rewrite <- (rarity_map snd t), E, rarity_map. reflexivity. }
    cbn [ni_eq nary_impl]. destruct F as [|F]; [lia|]. cbn [pred]. rewrite (n_eq_root F h h t u _ _ _ _ _ _ _ _ Ht Hu) by lia. reflexivity.
  Qed.
End Eq.

(** ** Comparing with a binary tree or view *)
Section Cross.
  Context {V : Type} {EV : EqDecision V}.
  Notation tree := (rose (addr * V)).

  Lemma n_eq_binary_root fuel (h : gmap addr (nnode V)) (bh : gmap addr (bnode V)) (t : tree) (b : bin (addr * V)) p q n f par a :
    nrep h p q n f t -> brep bh par b -> NoDup (baddrs b) -> baddr b = Some a -> rsize t <= S fuel -> bin_size b <= S fuel ->
    (N.of_nat (rsize t) < W64)%N ->
    n_eq_binary (S fuel) h bh (Some (raddr t)) (Some a) =
      if bool_decide ([rose_map snd t] = bin_forest (bin_map snd b))
      then if is_null n then Ok true else ns ← b_next bh (Some a); n_eq_binary fuel h bh n ns
      else Ok false.
  Proof.
    intros Hc Hb Hnd Hab Hf Hfb HW. destruct t as [[x v] cs]. rewrite rsize_rose in Hf, HW. apply baddr_root in Hab as (w & l & r & ->).
    pose proof (bin_children_answers bh par a w l r fuel Hb Hnd ltac:(cbn in Hfb; lia)) as Hans.
    destruct (b_children_queries bh a w l r (ex_intro _ par (conj Hb Hnd))) as (Qv & _ & _ & Qf & _ & Qc & _).
    cbn [raddr label fst] in *. cbn [n_eq_binary]. rewrite (n_children_ok _ _ _ _ _ _ _ _ Hc), Qc, Qv, Qf.
    rewrite nrep_unfold in Hc. destruct Hc as [Ha Hcs]. pose proof (fsize_length cs).
    assert (Elen : length (opt_list (fun x => [x]) (baddr l) ++ opt_list (fun x => [x]) (baddr r)) = length (bin_forest l ++ bin_forest r)).
    { destruct l as [|[? ?] ? ?], r as [|[? ?] ? ?]; reflexivity. }
    assert (Ehead : head (opt_list (fun x => [x]) (baddr l) ++ opt_list (fun x => [x]) (baddr r)) = first_or (bin_forest l ++ bin_forest r) None).
    { destruct l as [|[? ?] ? ?], r as [|[? ?] ? ?]; reflexivity. }
    rewrite Elen, Ehead. cbn [mbind res_bind]. rewrite !szt_small by lia.
    cbn [bin_map bin_forest snd rose_map].
    rewrite !bin_forest_map, <- map_app. set (ds := bin_forest l ++ bin_forest r) in *.
    destruct (N.eqb_spec (N.of_nat (length cs)) (N.of_nat (length ds))) as [Hk|Hk]; cbn [negb].
    2:{ rewrite bool_decide_eq_false_2; [reflexivity|]. intros [=_ Heq]. apply Hk.
        rewrite <- (map_length (rose_map snd) cs), Heq, map_length. reflexivity. }
    rewrite (deref_Some _ _ _ Ha). cbn [mbind res_bind nval nfirst nnext].
    destruct (decide (v = w)) as [->|Hvw].
    2:{ rewrite (bool_decide_eq_false_2 (v = w)) by exact Hvw. cbn [negb].
        rewrite bool_decide_eq_false_2; [reflexivity|]. congruence. }
    rewrite (bool_decide_eq_true_2 (w = w)) by reflexivity. cbn [negb].
    assert (Hsub : (if is_null (first_or cs None) then Ok true else n_eq_binary fuel h bh (first_or cs None) (first_or ds None)) =
              Ok (bool_decide (map (rose_map snd) cs = map (rose_map snd) ds))).
    { destruct cs as [|y cs], ds as [|z ds']; cbn [length] in Hk; try lia.
      - cbn. rewrite bool_decide_eq_true_2; reflexivity.
      - cbn [first_or is_null]. eapply n_eq_binary_seg; try eassumption; lia. }
    rewrite Hsub. cbn [mbind res_bind].
    destruct (decide (map (rose_map snd) cs = map (rose_map snd) ds)) as [Ec|Ec].
    2:{ rewrite (bool_decide_eq_false_2 (map _ cs = _)) by exact Ec. cbn [negb].
        rewrite bool_decide_eq_false_2; [reflexivity|]. congruence. }
    rewrite (bool_decide_eq_true_2 (map _ cs = _)) by exact Ec. cbn [negb].
    rewrite (bool_decide_eq_true_2 (_ = _)) by congruence.
    destruct n as [y|]; cbn [is_null]; [|reflexivity]. destruct (b_next bh (Some a)) as [ns|]; [|reflexivity]. cbn [mbind res_bind].
    destruct (n_eq_binary fuel h bh (Some y) ns) as [[]|]; reflexivity.
  Qed.
  Lemma forest_sizes (t : rose V) (b : bin V) : [t] = bin_forest b -> rsize t = bin_size b /\ rarity t = list_max (map rarity (bin_forest b)).
  Proof.
    intros E. split; [|rewrite <- E; cbn; lia].
    pose proof (forest_labels b) as Hl. rewrite <- E in Hl. cbn in Hl. rewrite app_nil_r in Hl.
    rewrite <- length_preorder, Hl. rewrite <- length_inorder. symmetry. apply Permutation_length, inorder_labels.
  Qed.
End Cross.
