(** LitFacts.v: facts about structure literals (StructNode.v). *)
From Verif Require Import Base Spec StructNode.

Section LitFacts.
  Context {V : Type}.

  (** The chain of sibling struct_nodes that starts at [s] is what the literals
      [ls] evaluate to, up to levels and indexes. *)
  Fixpoint reads (s : snode V) (ls : list (lit V)) : Prop :=
    match s, ls with
    | SNil, [] => True
    | SN None _ _ fc ns, LEmpty :: ls => fc = SNil /\ reads ns ls
    | SN (Some v) _ _ fc ns, LNode v' cs :: ls => v = v' /\ reads fc cs /\ reads ns ls
    | _, _ => False
    end.

  Lemma reads_set_level s : forall ls d, reads (set_level s d) ls <-> reads s ls.
  Proof.
    induction s as [|v l i fc IHf ns IHn]; intros ls d; cbn; [tauto|].
    destruct v, ls as [|[|v' cs] ls]; try tauto.
    - rewrite IHf, IHn. tauto.
    - rewrite IHn. destruct fc; cbn; [tauto|split; intros [? ?]; discriminate].
  Qed.
  Lemma reads_assign s : forall ls i, reads (assign_indexes s i) ls <-> reads s ls.
  Proof.
    induction s as [|v l i fc IHf ns IHn]; intros ls j; cbn; [tauto|].
    destruct v, ls as [|[|v' cs] ls]; try tauto; rewrite IHn; tauto.
  Qed.
  Lemma reads_nil (ls : list (lit V)) : reads SNil ls <-> ls = [].
  Proof. destruct ls; cbn; [tauto|]. split; [tauto|discriminate]. Qed.
  Lemma set_level_nil (s : snode V) d : set_level s d = SNil <-> s = SNil.
  Proof. destruct s; cbn; split; congruence. Qed.
  Lemma assign_nil (s : snode V) d : assign_indexes s d = SNil <-> s = SNil.
  Proof. destruct s; cbn; split; congruence. Qed.

  Lemma reads_fold (ss : list (snode V)) (ts : list (lit V)) :
    Forall2 (fun s t => reads s [t]) ss ts -> reads (foldr with_next_sibling SNil ss) ts.
  Proof.
    induction 1 as [|s t ss ts Hs _ IH]; cbn; [exact I|].
    destruct s as [|v l i fc ns]; [destruct Hs|].
    cbn in Hs |- *. destruct v as [v|], t as [|v' cs]; try tauto.
    - rewrite reads_set_level, reads_assign. tauto.
    - destruct Hs as [-> _]. split; [reflexivity|exact IH].
  Qed.
  Lemma reads_eval (t : lit V) : reads (eval_lit t) [t].
  Proof.
    induction t as [|v cs IH] using lit_ind'; [cbn; auto|].
    assert (HF : Forall2 (fun s t => reads s [t]) (map eval_lit cs) cs).
    { induction IH as [|c cs Hc _ IH']; constructor; assumption. }
    apply reads_fold in HF. cbn [eval_lit]. destruct cs as [|c cs]; [cbn; auto|].
    unfold apply_children, with_first_child, n_value, make_struct_node. cbn [reads].
    rewrite reads_set_level, reads_assign. auto.
  Qed.

  (** Sizes. *)
  Definition lit_count (ls : list (lit V)) : nat := list_sum (map rsize (flat_map lit_rose ls)).
  Lemma lit_count_cons l ls : lit_count (l :: ls) = list_sum (map rsize (lit_rose l)) + lit_count ls.
  Proof. unfold lit_count. cbn. rewrite map_app, list_sum_app. reflexivity. Qed.
  Lemma chain_size_ok (s : snode V) : forall ls acc, reads s ls -> chain_size s acc = (acc + N.of_nat (lit_count ls))%N.
  Proof.
    induction s as [|v l i fc IHf ns IHn]; intros ls acc Hr.
    - apply reads_nil in Hr as ->. cbn. lia.
    - destruct v as [v|], ls as [|[|v' cs] ls]; cbn in Hr; try tauto.
      + destruct Hr as (-> & Hf & Hn). cbn [chain_size]. rewrite (IHf _ _ Hf), (IHn _ _ Hn).
        rewrite lit_count_cons. cbn. fold (lit_count cs). unfold lit_count. cbn. lia.
      + destruct Hr as (-> & Hn). cbn [chain_size]. rewrite (IHn _ _ Hn). rewrite lit_count_cons. cbn. lia.
  Qed.
  Lemma subtree_size_ok (s : snode V) l ls : reads s (l :: ls) ->
    subtree_size s = N.of_nat (list_sum (map rsize (lit_rose l))).
  Proof.
    intros Hr. destruct s as [|v lv i fc ns]; [destruct Hr|].
    destruct v as [v|], l as [|v' cs]; cbn in Hr; try tauto.
    - destruct Hr as (_ & Hf & _). cbn [subtree_size]. rewrite (chain_size_ok _ _ _ Hf). cbn.
      unfold lit_count. lia.
    - destruct Hr as (-> & _). reflexivity.
  Qed.

  (** Number of children and arity. *)
  Definition count_valid (s : snode V) : N :=
    foldl_chain (fun acc e => if is_valid_node e then acc + 1 else acc)%N 0%N s.
  Lemma lit_rose_length (l : lit V) : length (lit_rose l) = match l with LEmpty => 0 | _ => 1 end.
  Proof. destruct l; reflexivity. Qed.
  Lemma foldl_chain_ok (s : snode V) : forall ls acc, reads s ls ->
    foldl_chain (fun acc e => if is_valid_node e then acc + 1 else acc)%N acc s
    = (acc + N.of_nat (length (flat_map lit_rose ls)))%N.
  Proof.
    induction s as [|v l i fc IHf ns IHn]; intros ls acc Hr.
    - apply reads_nil in Hr as ->. cbn. lia.
    - destruct v as [v|], ls as [|[|v' cs] ls]; cbn in Hr; try tauto.
      + destruct Hr as (_ & _ & Hn). cbn [foldl_chain is_valid_node]. rewrite (IHn _ _ Hn). cbn. lia.
      + destruct Hr as (_ & Hn). cbn [foldl_chain is_valid_node]. rewrite (IHn _ _ Hn). cbn. lia.
  Qed.
  Lemma count_valid_ok (s : snode V) ls : reads s ls -> count_valid s = N.of_nat (length (flat_map lit_rose ls)).
  Proof. intros Hr. unfold count_valid. rewrite (foldl_chain_ok _ _ _ Hr). lia. Qed.

  (** With no valid child the whole chain consists of [n()]. *)
  Lemma chain_arity_ok (s : snode V) : forall ls k acc, reads s ls ->
    chain_arity s k acc =
      N.max acc (if decide (ls = []) then 0 else
                   N.max k (N.of_nat (list_max (map rarity (flat_map lit_rose ls)))))%N.
  Proof.
    induction s as [|v l i fc IHf ns IHn]; intros ls k acc Hr.
    - apply reads_nil in Hr as ->. cbn [chain_arity]. rewrite decide_True by reflexivity. lia.
    - cbn [chain_arity]. fold (count_valid fc).
      assert (Hc : exists cs l' , ls = l' :: (tail ls) /\ reads fc cs /\ reads ns (tail ls) /\
                 N.of_nat (list_max (map rarity (lit_rose l'))) = 
                   N.max 0 (chain_arity fc (count_valid fc) 0)).
      { destruct v as [v|], ls as [|[|v' cs] ls]; cbn in Hr; try tauto.
        - destruct Hr as (-> & Hf & Hn). exists cs, (LNode v' cs). split; [reflexivity|]. split; [exact Hf|].
          split; [exact Hn|]. rewrite (IHf _ _ _ Hf), (count_valid_ok _ _ Hf). cbn [lit_rose map rarity list_max foldr].
          destruct (decide (cs = [])) as [->|]; [cbn; lia|].
          rewrite (Nat2N.inj_max _ 0), Nat2N.inj_max. lia.
        - destruct Hr as (-> & Hn). exists [], LEmpty. split; [reflexivity|]. cbn. auto. }
      destruct Hc as (cs & l' & Hls & Hf & Hn & Heq). rewrite (IHn _ _ _ Hn).
      rewrite (decide_False (P := ls = [])) by (rewrite Hls; discriminate).
      rewrite Hls. cbn [flat_map tail]. rewrite map_app.
      assert (Hmax : forall a b, list_max (a ++ b) = Nat.max (list_max a) (list_max b)) by (intros; apply list_max_app).
      rewrite Hmax, Nat2N.inj_max, Heq. cbn [tail].
      destruct (decide (tail ls = [])) as [->|]; [cbn; lia|]. lia.
  Qed.
  Lemma subtree_arity_ok (s : snode V) l ls : reads s (l :: ls) ->
    subtree_arity s = N.of_nat (list_max (map rarity (lit_rose l))).
  Proof.
    intros Hr. destruct s as [|v lv i fc ns]; [destruct Hr|].
    unfold subtree_arity, s_children. cbn [s_first_child]. fold (count_valid fc).
    destruct v as [v|], l as [|v' cs]; cbn in Hr; try tauto.
    - destruct Hr as (_ & Hf & _). rewrite (chain_arity_ok _ _ _ _ Hf), (count_valid_ok _ _ Hf). cbn [lit_rose map rarity list_max foldr].
      destruct (decide (cs = [])) as [->|]; [cbn; lia|].
      rewrite (Nat2N.inj_max _ 0), Nat2N.inj_max. lia.
    - destruct Hr as (-> & _). reflexivity.
  Qed.
  Lemma s_children_ok (s : snode V) v cs ls : reads s (LNode v cs :: ls) ->
    s_children s = N.of_nat (length (flat_map lit_rose cs)).
  Proof.
    destruct s as [|[w|] lv i fc ns]; cbn [reads]; try tauto. intros (_ & Hf & _). apply (count_valid_ok _ _ Hf).
  Qed.
  Lemma s_following_ok (s : snode V) : forall l ls, reads s (l :: ls) -> s_following_siblings s = N.of_nat (length ls).
  Proof.
    induction s as [|v l i fc IHf ns IHn]; intros l' ls Hr; [destruct Hr|].
    assert (Hn : reads ns ls) by (destruct v, l'; cbn in Hr; tauto).
    cbn [s_following_siblings]. destruct ns as [|v2 l2 i2 fc2 ns2].
    - apply reads_nil in Hn as ->. reflexivity.
    - destruct ls as [|l2' ls]; [destruct v2; destruct Hn|]. rewrite (IHn _ _ Hn). cbn [length]. lia.
  Qed.

  (** Levels and indexes: every element of the chain is at level [d], the
      first one has index [i], the next [i+1], ...; their children are at level
      [d+1] with indexes from 0, and so on. *)
  Fixpoint placed (s : snode V) (d i : N) : Prop :=
    match s with
    | SNil => True
    | SN _ l ix fc ns => l = d /\ ix = i /\ placed fc (d + 1) 0 /\ placed ns d (i + 1)
    end.
  (** Only the indexes below the chain. *)
  Fixpoint indexed (s : snode V) (i : N) : Prop :=
    match s with
    | SNil => True
    | SN _ _ ix fc ns => ix = i /\ indexed fc 0 /\ indexed ns (i + 1)
    end.
  Fixpoint inner_indexed (s : snode V) : Prop :=
    match s with SNil => True | SN _ _ _ fc ns => indexed fc 0 /\ inner_indexed ns end.
  Lemma indexed_assign s : forall i, inner_indexed s -> indexed (assign_indexes s i) i.
  Proof.
    induction s as [|v l ix fc _ ns IHn]; intros i; cbn; [auto|]. intros [Hf Hn]. auto.
  Qed.
  Lemma placed_set_level s : forall d i, indexed s i -> placed (set_level s d) d i.
  Proof.
    induction s as [|v l ix fc IHf ns IHn]; intros d i; cbn; [auto|]. intros (-> & Hf & Hn). auto.
  Qed.
  Lemma indexed_set_level s : forall d i, indexed s i -> indexed (set_level s d) i.
  Proof.
    induction s as [|v l ix fc IHf ns IHn]; intros d i; cbn; [auto|]. intros (-> & Hf & Hn). auto.
  Qed.
  Lemma placed_indexed s : forall d i, placed s d i -> indexed s i.
  Proof. induction s as [|v l ix fc IHf ns IHn]; intros d i; cbn; [auto|]. intros (_ & -> & Hf & Hn). eauto. Qed.
  Lemma indexed_inner s : forall i, indexed s i -> inner_indexed s.
  Proof. induction s as [|v l ix fc IHf ns IHn]; intros i; cbn; [auto|]. intros (_ & Hf & Hn). eauto. Qed.
  Lemma placed_eval (t : lit V) : placed (eval_lit t) 0 0.
  Proof.
    induction t as [|v cs IH] using lit_ind'; [cbn; auto|]. cbn [eval_lit].
    assert (Hin : inner_indexed (foldr with_next_sibling SNil (map eval_lit cs))).
    { induction IH as [|c cs Hc _ IH']; [exact I|]. cbn [map foldr].
      destruct (eval_lit c) as [|v' l i fc ns]; [exact I|]. cbn in Hc |- *. destruct Hc as (_ & _ & Hf & _).
      split; [|exact IH']. apply indexed_set_level, indexed_assign. eapply indexed_inner, placed_indexed, Hf. }
    destruct cs as [|c cs]; [cbn; auto|]. unfold apply_children, with_first_child, n_value, make_struct_node.
    cbn [placed]. split; [reflexivity|]. split; [reflexivity|]. split; [|exact I].
    apply placed_set_level, indexed_assign, Hin.
  Qed.

  (** Binary literals. *)
  Lemma two_slots_cons (v : V) cs : two_slots (LNode v cs) <-> length cs <= 2 /\ Forall two_slots cs.
  Proof.
    cbn [two_slots]. split; intros [H1 H2]; (split; [exact H1|]).
    - clear H1. induction cs as [|c cs IH]; constructor; [apply H2|apply IH, H2].
    - clear H1. induction H2; [exact I|]. split; assumption.
  Qed.
  Lemma no_empty_cons (v : V) cs : no_empty (LNode v cs) <-> Forall no_empty cs.
  Proof.
    cbn [no_empty]. split.
    - intros H. induction cs as [|c cs IH]; constructor; [apply H|apply IH, H].
    - induction 1; [exact I|]. split; assumption.
  Qed.
  Lemma lit_bin_forest (t : lit V) : two_slots t -> bin_forest (lit_bin t) = lit_rose t.
  Proof.
    induction t as [|v cs IH] using lit_ind'; [reflexivity|]. rewrite two_slots_cons. intros [Hlen Hall].
    assert (IH' : Forall (fun t => bin_forest (lit_bin t) = lit_rose t) cs).
    { clear Hlen. induction IH as [|c cs Hc _ IH2]; [constructor|]. inversion Hall; subst. constructor; auto. }
    destruct cs as [|a [|b [|c cs]]]; cbn in Hlen; [| | |lia]; cbn.
    - reflexivity.
    - inversion IH'; subst. rewrite H1, !app_nil_r. reflexivity.
    - inversion IH' as [|? ? Ha Hb']; subst. inversion Hb'; subst. rewrite Ha, H1, app_nil_r. reflexivity.
  Qed.
End LitFacts.
