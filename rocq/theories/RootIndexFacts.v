(** RootIndexFacts.v: [get_root] and the breadth first index, proofs (C72). *)
From Verif Require Import Base Spec StructNode BinaryNode NaryNode Nav Policy Tree Rep RoseFacts RowFacts NavFacts Orders
  BinRep NaryRep User Iter IterTrees IterMain RootIndex.

Section Facts.
  Context {V Nd : Type}.
  Variable F : nat.
  Variable im : node_impl V Nd.
  Variable h : gmap addr Nd.
  Notation ops := (ni_ops im h).

  Lemma climb_plug c : forall s fuel, ops_ok ops (plug c s) -> op_parent ops (Some (label (plug c s))) = Ok None -> length c < fuel ->
    exists q, op_parent ops (Some (label s)) = Ok q /\ climb im h fuel (Some (label s)) q = Ok (Some (label (plug c s))).
  Proof.
    induction c as [|[[ls a] rs] c IH]; intros s fuel Hok Hr Hf; (destruct fuel as [|fuel]; [cbn in Hf; lia|]).
    - cbn [plug] in *. exists None. split; [exact Hr|reflexivity].
    - destruct (ops_ok_plug _ _ _ Hok) as (_ & Hp & _). exists (Some a). split; [exact Hp|].
      cbn [plug] in Hok, Hr |- *. destruct (IH (Rose a (ls ++ s :: rs)) fuel Hok Hr) as (q & Hq & Hc); [cbn in Hf; lia|].
      cbn [label] in Hq, Hc. cbn [climb]. rewrite Hq. cbn [mbind res_bind]. exact Hc.
  Qed.
  Lemma get_root_ok c s : ops_ok ops (plug c s) -> op_parent ops (Some (label (plug c s))) = Ok None -> length c < F ->
    get_root F im h (Some (label s)) = Ok (Some (label (plug c s))).
  Proof.
    intros H1 H2 H3. destruct (climb_plug c s F H1 H2 H3) as (q & Hq & Hc). unfold get_root. rewrite Hq. exact Hc.
  Qed.
  Lemma count_ok r l k St : order_steps F (tree_nav im h (Some r)) k l St -> forall l2 l0 l1 x it i fuel,
    l = l0 ++ l1 ++ x :: l2 -> at_pos r k St (head (l1 ++ x :: l2)) it -> length l1 < fuel ->
    count_to F im h fuel (Some x) it i = Ok (i + length l1).
  Proof.
    intros Hs l2 l0 l1. revert l0. induction l1 as [|y l1 IH]; intros l0 x it i fuel El Hit Hf; (destruct fuel as [|fuel]; [cbn in Hf; lia|]).
    - cbn [count_to]. rewrite (ap_cur _ _ _ _ _ Hit). cbn [app head is_null orb]. rewrite ptr_eqb_true. cbn. f_equal. lia.
    - cbn [count_to]. rewrite (ap_cur _ _ _ _ _ Hit). cbn [app head].
      assert (Hne : y <> x).
      { intros ->. pose proof (os_nd _ _ _ _ _ Hs) as Hnd. rewrite El in Hnd. apply NoDup_app in Hnd as (_ & _ & Hnd).
        cbn in Hnd. apply NoDup_cons in Hnd as [Hnd _]. apply Hnd. apply elem_of_app. right. left. }
      rewrite (ptr_eqb_false (Some y) (Some x)) by congruence. cbn [is_null orb].
      destruct (incr_at F (tree_nav im h) r k l St Hs l0 y (l1 ++ x :: l2) it El Hit) as (it' & E & Hit' & _).
      rewrite E. cbn [mbind res_bind]. rewrite (IH (l0 ++ [y]) x it' (S i) fuel); [cbn; f_equal; lia| |exact Hit'|cbn in Hf; lia].
      rewrite El, <- app_assoc. reflexivity.
  Qed.
  Lemma index_ok root (l l1 l2 : list (addr * V)) x : two_ok F im h BreadthFirst root l -> l = l1 ++ x :: l2 ->
    root = nth_addr l 0 -> get_root F im h (Some (fst x)) = Ok root -> breadth_first_index F im h (Some (fst x)) = Ok (length l1).
  Proof.
    intros Hok El Hr Hg. unfold breadth_first_index. rewrite Hg. cbn [mbind res_bind].
    destruct Hok as [(_ & -> & _)|(r & -> & _ & Hval & Hnd & HF & [(St & Hs & Hf & Hb & Hl & Hi)])]; [destruct l1; discriminate|].
    unfold get_instance, fix_navigator_root. cbn [mbind res_bind].
    destruct (Hi (Some r)) as (o & Ho & HSt).
    { right. exists r. split; [reflexivity|]. unfold nth_addr in Hr. apply (elem_of_list_lookup_2 _ 0).
      destruct (map fst l); [discriminate|]. injection Hr as ->. reflexivity. }
    cbn [initial_open] in Ho. rewrite Ho. cbn [mbind res_bind].
    rewrite (count_ok r (map fst l) BreadthFirst St Hs (map fst l2) [] (map fst l1) (fst x)).
    - rewrite map_length. reflexivity.
    - rewrite El, map_app. reflexivity.
    - assert (Ehd : head (map fst l1 ++ fst x :: map fst l2) = Some r).
      { unfold nth_addr in Hr. rewrite El, map_app in Hr. cbn [map] in Hr. destruct (map fst l1); cbn in *; congruence. }
      rewrite Ehd. split; [reflexivity..|exact HSt].
    - rewrite map_length. rewrite El, app_length in HF. cbn in HF. lia.
  Qed.
End Facts.
