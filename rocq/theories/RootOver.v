(** RootOver.v: the iterator [insert_over] returns when it replaces the root.  Its
    navigator keeps the released root [r]; its current node is the new root [b]. *)
From Verif Require Import Base Spec EditSpec StructNode LitFacts BinaryNode NaryNode Nav Policy Tree RoseFacts RowFacts
  NavFacts BranchFacts Orders PolicyFacts BinOrder Rep BinRep NaryRep User Iter IterTrees IterMain IterProofs Kinds World TreeSpec TreeOps TreeOps2 TreeOps3.

(** *** The navigator with the old root, on the new tree *)
Section Stale.
  Variable ops : node_ops.
  Variable b r : addr.
  Hypothesis Hbr : b <> r.
  Hypothesis Hpar : op_parent ops (Some b) = Ok None.
  Hypothesis Hprev : op_prev ops (Some b) = Ok None.
  Hypothesis Hnext : op_next ops (Some b) = Ok None.
  Hypothesis Rpar : forall q, op_parent ops (Some r) <> Ok q.
  Hypothesis Rprev : forall q, op_prev ops (Some r) <> Ok q.
  Hypothesis Rnext : forall q, op_next ops (Some r) <> Ok q.
  Let good := node_navigator ops (Some b).
  Let stale := node_navigator ops (Some r).

  Lemma unless_ref get p q : get (Some b) = Ok None -> (forall q, get (Some r) <> Ok q) ->
    base_unless_root (Some b) get p = Ok q -> base_unless_root (Some r) get p = Ok q.
  Proof.
    intros Hb Hr. unfold base_unless_root, base_is_root. destruct (decide (p = Some b)) as [->|Hp].
    - rewrite ptr_eqb_true, ptr_eqb_false by congruence. intros [=<-]. exact Hb.
    - rewrite (ptr_eqb_false _ _ Hp). destruct (decide (p = Some r)) as [->|Hpr]; [|rewrite (ptr_eqb_false _ _ Hpr); auto].
      intros H. destruct (Hr _ H).
  Qed.
  Lemma par_ref p q : nav_parent good p = Ok q -> nav_parent stale p = Ok q.
  Proof. apply unless_ref; assumption. Qed.
  Lemma prev_ref p q : nav_prev good p = Ok q -> nav_prev stale p = Ok q.
  Proof. apply unless_ref; assumption. Qed.
  Lemma next_ref p q : nav_next good p = Ok q -> nav_next stale p = Ok q.
  Proof. apply unless_ref; assumption. Qed.
  Lemma is_child_ref get p x : p <> Some b -> base_is_child ops (Some b) get p = Ok x -> base_is_child ops (Some r) get p = Ok x.
  Proof.
    intros Hp. unfold base_is_child, base_is_root. rewrite (ptr_eqb_false _ _ Hp).
    destruct (decide (p = Some r)) as [->|Hpr]; [|rewrite (ptr_eqb_false _ _ Hpr); auto].
    destruct (op_parent ops (Some r)) as [q|] eqn:E; [destruct (Rpar _ eq_refl)|discriminate].
  Qed.

  (** Climbing: the test is asked only about nodes that have a parent. *)
  Lemma climb_ref {T} (test test' : T -> ptr -> ptr -> res (bool * T)) (result result' : T -> ptr -> ptr -> res (ptr * T)) :
    (forall s p q x, p <> Some b -> test s p q = Ok x -> test' s p q = Ok x) ->
    (forall s p q x, p <> Some b -> result s p q = Ok x -> result' s p q = Ok x) ->
    forall fuel p q s x, (p = Some b -> q = None) ->
    keep_calling_loop (pure_call (nav_parent good)) test result fuel p q s = Ok x ->
    keep_calling_loop (pure_call (nav_parent stale)) test' result' fuel p q s = Ok x.
  Proof.
    intros Ht Hr. induction fuel as [|fuel IH]; [discriminate|]. intros p q s x Hp. cbn [keep_calling_loop].
    destruct q as [q|]; [|auto]. assert (Hpb : p <> Some b) by (intros E; discriminate (Hp E)).
    destruct (test s p (Some q)) as [[t s1]|] eqn:Et; [|discriminate]. rewrite (Ht _ _ _ _ Hpb Et). cbn [mbind res_bind].
    destruct t; [apply Hr, Hpb|]. change (pure_call (S := T) (nav_parent good) s1 (Some q)) with (q' ← nav_parent good (Some q); Ok (q', s1)).
    change (pure_call (S := T) (nav_parent stale) s1 (Some q)) with (q' ← nav_parent stale (Some q); Ok (q', s1)).
    destruct (nav_parent good (Some q)) as [p'|] eqn:Ep; [|discriminate]. rewrite (par_ref _ _ Ep). cbn [mbind res_bind].
    apply IH. intros [=->]. revert Ep. unfold good. cbn [node_navigator nav_parent]. unfold base_unless_root, base_is_root. rewrite ptr_eqb_true. congruence.
  Qed.
  Lemma keep_ref {T} (test test' : T -> ptr -> ptr -> res (bool * T)) (result result' : T -> ptr -> ptr -> res (ptr * T)) :
    (forall s p q x, p <> Some b -> test s p q = Ok x -> test' s p q = Ok x) ->
    (forall s p q x, p <> Some b -> result s p q = Ok x -> result' s p q = Ok x) ->
    forall fuel p s x,
    keep_calling (pure_call (nav_parent good)) test result fuel p s = Ok x ->
    keep_calling (pure_call (nav_parent stale)) test' result' fuel p s = Ok x.
  Proof.
    intros Ht Hr fuel p s x. unfold keep_calling. change (pure_call (S := T) (nav_parent good) s p) with (q' ← nav_parent good p; Ok (q', s)).
    change (pure_call (S := T) (nav_parent stale) s p) with (q' ← nav_parent stale p; Ok (q', s)).
    destruct (nav_parent good p) as [q|] eqn:Ep; [|discriminate]. rewrite (par_ref _ _ Ep). cbn [mbind res_bind].
    apply climb_ref; [exact Ht|exact Hr|]. intros ->. revert Ep. unfold good. cbn [node_navigator nav_parent]. unfold base_unless_root, base_is_root. rewrite ptr_eqb_true. congruence.
  Qed.

  Variable F : nat.
  Lemma post_ref p x : p <> Some r -> post_increment F good p = Ok x -> post_increment F stale p = Ok x.
  Proof.
    intros Hr. unfold post_increment. change (nav_is_root good p) with (ptr_eqb p (Some b)). change (nav_is_root stale p) with (ptr_eqb p (Some r)).
    rewrite (ptr_eqb_false _ _ Hr). destruct (decide (p = Some b)) as [->|Hp].
    - rewrite ptr_eqb_true. intros [=<-]. change (nav_next stale) with (base_unless_root (Some r) (op_next ops)). change (nav_parent stale) with (base_unless_root (Some r) (op_parent ops)).
      unfold base_unless_root, base_is_root. rewrite (ptr_eqb_false _ _ Hr), Hnext. cbn [mbind res_bind]. exact Hpar.
    - rewrite (ptr_eqb_false _ _ Hp). destruct (nav_next good p) as [q|] eqn:E; [|discriminate]. rewrite (next_ref _ _ E). cbn [mbind res_bind].
      destruct q; [auto|apply par_ref].
  Qed.
  Lemma in_ref p x : in_increment F good p = Ok x -> in_increment F stale p = Ok x.
  Proof.
    unfold in_increment. change (nav_right stale) with (nav_right good). change (nav_left stale) with (nav_left good).
    destruct (nav_right good p) as [[q|]|]; [auto| |discriminate]. cbn [mbind res_bind].
    set (g := keep_calling (pure_call (nav_parent good)) _ _ F p false). destruct g as [[y f]|] eqn:Eg; [|discriminate]. subst g.
    erewrite keep_ref; [|..|exact Eg]; [auto| |auto].
    intros s p' q' [t s'] Hp'. cbn beta. destruct (nav_is_left good p') as [t'|] eqn:El; [|discriminate]. cbn [mbind res_bind]. intros [=<- <-].
    rewrite (is_child_ref (op_left ops) p' t' Hp' El : nav_is_left stale p' = Ok t'). reflexivity.
  Qed.
  Lemma bfs_ref o x : bfs_increment good o = Ok x -> bfs_increment stale o = Ok x.
  Proof.
    unfold bfs_increment. destruct o as [|p o]; [auto|]. destruct (nav_next good p) as [q|] eqn:E; [|discriminate]. rewrite (next_ref _ _ E). auto.
  Qed.
  Lemma step_ref k p o x : k = PostOrder \/ k = InOrder \/ k = BreadthFirst -> p <> Some r ->
    increment_impl F good k p o = Ok x -> increment_impl F stale k p o = Ok x.
  Proof.
    intros [->|[->| ->]] Hp; cbn [increment_impl]; [| |apply bfs_ref].
    - destruct (post_increment F good p) as [y|] eqn:E; [|discriminate]. rewrite (post_ref _ _ Hp E). auto.
    - destruct (in_increment F good p) as [y|] eqn:E; [|discriminate]. rewrite (in_ref _ _ E). auto.
  Qed.
  (** Pre-order: after the last node comes the root again. *)
  Lemma pre_ref t p x : nav_ok good t -> label t = b -> rsize t <= F -> r ∉ preorder t -> p ∈ preorder t ->
    pre_increment F good (Some p) = Ok x -> pre_increment F stale (Some p) = Ok (match x with None => Some b | Some _ => x end).
  Proof.
    intros Hok Hl HF Hr Hp. destruct (elem_position t p Hp) as (c & s & Ht & <-).
    unfold pre_increment. change (nav_first stale) with (nav_first good). rewrite (no_first _ _ Hok _ _ Ht). cbn [mbind res_bind].
    destruct (head_label (children s)) as [y|]; [intros [=<-]; reflexivity|].
    assert (Hc : keep_calling (S := unit) (pure_call (nav_parent good)) (fun s child _ => b ← nav_is_last good child; Ok (negb b, s))
      (fun s child _ => q ← nav_next good child; Ok (q, s)) F (Some (label s)) () = Ok (match next_up c with Some y => Some y | None => Some (label t) end, ())).
    { unfold keep_calling. rewrite (pure_call_ok _ _ _ _ (no_parent _ _ Hok _ _ Ht)). cbn [mbind res_bind].
      exact (climb_last _ _ Hok c s F Ht (proj1 (pos_fuelB _ _ Hok F HF _ _ Ht))). }
    rewrite Hc. cbn [mbind res_bind].
    erewrite keep_ref; [|..|exact Hc].
    - cbn [mbind res_bind]. change (nav_is_root good) with (fun q => ptr_eqb q (Some b)). change (nav_is_root stale) with (fun q => ptr_eqb q (Some r)). cbn beta.
      rewrite Hl. destruct (next_up c) as [y|] eqn:Ey.
      + assert (Hy : y ∈ preorder t).
        { rewrite <- Ht, preorder_plug. apply elem_of_app; right. apply elem_of_app; right. rewrite next_up_after in Ey. destruct (pre_after c); [discriminate|]. injection Ey as ->. left. }
        rewrite (ptr_eqb_false (Some y) (Some r)) by congruence.
        destruct (decide (Some y = Some b)) as [E|E].
        * rewrite E, ptr_eqb_true. intros [=<-]. reflexivity.
        * rewrite (ptr_eqb_false _ _ E). intros [=<-]. reflexivity.
      + rewrite ptr_eqb_true, ptr_eqb_false by congruence. intros [=<-]. reflexivity.
    - intros u p' q' [t0 u'] Hp'. cbn beta. destruct (nav_is_last good p') as [t'|] eqn:El; [|discriminate]. cbn [mbind res_bind]. intros [=<- <-].
      rewrite (is_child_ref (op_last ops) p' t' Hp' El : nav_is_last stale p' = Ok t'). reflexivity.
    - intros u p' q' [t0 u'] Hp'. cbn beta. destruct (nav_next good p') as [t'|] eqn:El; [|discriminate]. cbn [mbind res_bind]. intros [=<- <-].
      rewrite (next_ref _ _ El). reflexivity.
  Qed.
End Stale.

(** The same iterator with its navigator's root set to [p]. *)
Definition with_root (it : iter) (p : ptr) : iter := Iter (it_kind it) (it_cur it) p (it_open it) (it_initial it).

(** *** Iterating with it *)
Section Runs.
  Context {V Nd : Type}.
  Variable F : nat.
  Variable im : node_impl V Nd.
  Variable h : gmap addr Nd.
  Variable b r : addr.
  Let ops := ni_ops im h.
  Hypothesis Hbr : b <> r.
  Hypothesis Hpar : op_parent ops (Some b) = Ok None.
  Hypothesis Hprev : op_prev ops (Some b) = Ok None.
  Hypothesis Hnext : op_next ops (Some b) = Ok None.
  Hypothesis Rpar : forall q, op_parent ops (Some r) <> Ok q.
  Hypothesis Rprev : forall q, op_prev ops (Some r) <> Ok q.
  Hypothesis Rnext : forall q, op_next ops (Some r) <> Ok q.
  Variable k : kind.
  Variable l : list (addr * V).
  Hypothesis Hord : two_ok F im h k (Some b) l.
  Hypothesis Hrl : r ∉ map fst l.
  Variable it : iter.
  Hypothesis Hk : it_kind it = k.
  Hypothesis Hcur : it_cur it = Some b.
  Hypothesis Hroot : it_root it = Some r.
  Hypothesis Hst : stands F im h (Some b) b (with_root it (Some b)).
  Hypothesis Hop : k <> BreadthFirst -> it_open it = [].

  Lemma run_snoc n (i1 i2 i3 : iter) : run F im h (repeat true n) i1 = Ok i2 -> incr F im h i2 = Ok i3 -> run F im h (repeat true (S n)) i1 = Ok i3.
  Proof.
    revert i1. induction n as [|n IH]; intros i1 H1 H2.
    - cbn in H1. injection H1 as ->. cbn [repeat run]. rewrite H2. reflexivity.
    - cbn [repeat run] in H1 |- *. destruct (incr F im h i1) as [i1'|]; [|discriminate]. cbn [mbind res_bind] in *.
      specialize (IH _ H1 H2). exact IH.
  Qed.
  Lemma run_plus m n (i1 i2 : iter) : run F im h (repeat true m) i1 = Ok i2 -> run F im h (repeat true (m + n)) i1 = run F im h (repeat true n) i2.
  Proof.
    revert i1. induction m as [|m IH]; intros i1 H1.
    - cbn in H1. injection H1 as ->. reflexivity.
    - cbn [repeat run Nat.add] in H1 |- *. destruct (incr F im h i1) as [i1'|]; [|discriminate]. exact (IH _ H1).
  Qed.

  (** The auxiliary state of the stale iterator is the right one. *)
  Lemma stale_open (St : ptr -> list ptr -> Prop) : order_init F (tree_nav im h (Some b)) k (map fst l) St -> b ∈ map fst l -> St (Some b) (it_open it).
  Proof.
    intros Hi Hb. destruct (Hi (Some b) (or_intror (ex_intro _ b (conj eq_refl Hb)))) as (o & Ho & HS).
    assert (E : it_open it = o); [|rewrite E; exact HS]. unfold initial_open in Ho.
    destruct (decide (k = BreadthFirst)) as [->|Hne].
    - destruct Hst as (_ & _ & H3). destruct (H3 Hk) as (it0 & E0 & Eo). cbn [with_root it_open] in Eo. rewrite Eo.
      unfold iterator_at, get_instance, fix_navigator_root in E0. cbn [mbind res_bind] in E0. rewrite Ho in E0. cbn [mbind res_bind] in E0. injection E0 as <-. reflexivity.
    - rewrite (Hop Hne). destruct k; congruence.
  Qed.

  (** Post-order, in-order, breadth-first. *)
  Section Through.
    Hypothesis Hkk : k = PostOrder \/ k = InOrder \/ k = BreadthFirst.
    Variable l1 l2 : list (addr * V).
    Variable y : addr * V.
    Hypothesis Hl : l = l1 ++ y :: l2.
    Hypothesis Hy : fst y = b.
    Lemma through_runs n : n <= S (length l2) ->
      exists it', run F im h (repeat true n) it = Ok it' /\ it_cur it' = fst <$> (y :: l2) !! n /\ it_root it' = Some r.
    Proof.
      destruct Hord as [[Hx _]|(b' & Eb & _ & Hval & Hnd & Hlen & [(St & Hs & Hf & Hb & _ & Hi)])]; [discriminate|]. injection Eb as <-.
      assert (Hbl : b ∈ map fst l) by (rewrite Hl, map_app, elem_of_app; right; cbn [map]; rewrite Hy; left).
      pose proof (stale_open St Hi Hbl) as HS.
      intros Hn.
      enough (H : exists it', run F im h (repeat true n) it = Ok it' /\ it_cur it' = fst <$> (y :: l2) !! n /\ it_root it' = Some r /\ it_kind it' = k /\ St (it_cur it') (it_open it')).
      { destruct H as (it' & H1 & H2 & H3 & _). eauto. }
      induction n as [|n IH].
      { exists it. rewrite Hcur. cbn. rewrite Hy. auto. }
      destruct IH as (it' & E1 & E2 & E3 & E4 & E5); [lia|].
      destruct (lookup_lt_is_Some_2 (y :: l2) n) as [z Hz]; [cbn; lia|].
      rewrite Hz in E2. cbn in E2.
      set (A := take n (y :: l2)) in *. set (B := skipn (S n) (y :: l2)) in *.
      assert (HB : head (map fst B) = fst <$> (y :: l2) !! S n).
      { unfold B. rewrite <- (Nat.add_0_r (S n)), <- lookup_drop, Nat.add_0_r. destruct (skipn (S n) (y :: l2)); reflexivity. }
      assert (HL : map fst l = map fst (l1 ++ A) ++ fst z :: map fst B).
      { rewrite Hl. rewrite <- (take_drop_middle (y :: l2) n z Hz) at 1. fold A B. rewrite !map_app. cbn [map]. rewrite <- app_assoc. reflexivity. }
      rewrite E2 in E5. destruct (os_inc _ _ _ _ _ Hs _ _ _ _ HL E5) as (o' & Ho & HS').
      assert (Hz' : Some (fst z) <> Some r).
      { intros [=E]. apply Hrl. rewrite HL, <- E. apply elem_of_app. right. left. }
      pose proof (step_ref ops b r Hbr Hpar Hnext Rpar Rnext F k _ _ _ Hkk Hz' Ho) as Ho'.
      exists (it_set it' (head (map fst B), o')). split.
      { eapply run_snoc; [exact E1|]. unfold incr, it_incr. rewrite E2, E3, E4. unfold tree_nav. change (ni_ops im h) with ops. rewrite Ho'. reflexivity. }
      cbn [it_set it_cur it_root it_kind it_open fst snd]. rewrite <- HB. auto.
    Qed.
    (** The loop to the end of the new tree ends in a null dereference. *)
    Lemma through_loop : iterate_from F im h it k (Some b) = Err NullDeref.
    Proof.
      pose proof through_runs as Hr.
      destruct Hord as [[Hx _]|(b' & Eb & _ & Hval & Hnd & Hlen & [(St & Hs & Hf & Hb & _ & Hi)])]; [discriminate|]. injection Eb as <-.
      unfold iterate_from. destruct (end_at F (tree_nav im h) b k _ St Hi) as (e & Ee & [_ Ec Er _] & _). rewrite Ee. cbn [mbind res_bind].
      enough (H : forall m n i, n + m = S (length l2) -> run F im h (repeat true n) it = Ok i -> forall fuel, m < fuel -> walk (visit im h) (incr F im h) fuel i e = Err NullDeref).
      { apply (H (S (length l2)) 0 it); [lia|reflexivity|]. rewrite Hl, app_length in Hlen. cbn in Hlen. lia. }
      induction m as [|m IH]; intros n i Hn Ei fuel Hfu; (destruct fuel as [|fuel]; [lia|]); cbn [walk].
      - destruct (Hr n ltac:(lia)) as (i' & Ei' & C' & R'). rewrite Ei in Ei'. injection Ei' as <-.
        unfold it_eqb. rewrite Er, R'. rewrite (ptr_eqb_false (Some r) (Some b)) by congruence. rewrite andb_false_r, C'.
        rewrite lookup_ge_None_2 by (cbn; lia). reflexivity.
      - destruct (Hr n ltac:(lia)) as (i' & Ei' & C' & R'). rewrite Ei in Ei'. injection Ei' as <-.
        unfold it_eqb. rewrite Er, R'. rewrite (ptr_eqb_false (Some r) (Some b)) by congruence. rewrite andb_false_r.
        destruct (lookup_lt_is_Some_2 (y :: l2) n) as [z Hz]; [cbn; lia|]. rewrite C', Hz. cbn [fmap option_fmap option_map visit].
        rewrite Hval by (rewrite Hl; apply elem_of_app; right; eapply elem_of_list_lookup_2; exact Hz). cbn [mbind res_bind].
        destruct (Hr (S n) ltac:(lia)) as (i2 & E2 & _ & _). pose proof E2 as E2'.
        replace (S n) with (n + 1) in E2' by lia. rewrite (run_plus _ _ _ _ Ei) in E2'. cbn [repeat run] in E2'.
        destruct (incr F im h i) as [i3|] eqn:E3; [|discriminate]. cbn in E2'. injection E2' as ->. cbn [mbind res_bind].
        rewrite (IH (S n) i2 ltac:(lia) E2 fuel ltac:(lia)). reflexivity.
    Qed.
  End Through.

  (** Pre-order. *)
  Section Round.
    Hypothesis Hkk : k = PreOrder.
    Variable t : rose addr.
    Hypothesis Hok : nav_ok (tree_nav im h (Some b)) t.
    Hypothesis Hlab : label t = b.
    Hypothesis HFt : rsize t <= F.
    Hypothesis Hlt : map fst l = preorder t.
    Lemma round_once n : n < length l -> exists it', run F im h (repeat true n) it = Ok it' /\ it' = it_set it (fst <$> l !! n, it_open it).
    Proof.
      intros Hn. induction n as [|n IH].
      { exists it. split; [reflexivity|]. rewrite <- list_lookup_fmap. change (fst <$> l) with (map fst l). rewrite Hlt, <- Hlab in *. destruct t as [a cs]. cbn [preorder lookup list_lookup label] in *. unfold it_set. cbn [fst snd].
        rewrite Hlab in *. destruct it; cbn in *; congruence. }
      destruct IH as (it' & E1 & E2); [lia|]. exists (it_set it (fst <$> l !! S n, it_open it)). split; [|reflexivity].
      eapply run_snoc; [exact E1|]. rewrite E2. destruct (lookup_lt_is_Some_2 l n) as [z Hz]; [lia|]. rewrite Hz. cbn [fmap option_fmap option_map].
      unfold incr, it_incr. cbn [it_set it_cur it_root it_kind it_open fst snd]. rewrite Hk, Hkk, Hroot. cbn [increment_impl].
      assert (HL : preorder t = map fst (take n l) ++ fst z :: map fst (skipn (S n) l)).
      { rewrite <- Hlt. rewrite <- (take_drop_middle l n z Hz) at 1. rewrite map_app. reflexivity. }
      pose proof (pre_increment_ok _ _ Hok F HFt _ _ _ HL) as Ep.
      assert (HB : head (map fst (skipn (S n) l)) = fst <$> l !! S n).
      { rewrite <- (Nat.add_0_r (S n)), <- lookup_drop, Nat.add_0_r. destruct (skipn (S n) l); reflexivity. }
      rewrite HB in Ep. destruct (lookup_lt_is_Some_2 l (S n) Hn) as [z2 Hz2]. rewrite Hz2 in *. cbn [fmap option_fmap option_map] in *.
      assert (Hrt : r ∉ preorder t) by (rewrite <- Hlt; exact Hrl).
      assert (Hzt : fst z ∈ preorder t) by (rewrite HL; apply elem_of_app; right; left).
      pose proof (pre_ref ops b r Hbr Hpar Hnext Rpar Rnext F t (fst z) _ Hok Hlab HFt Hrt Hzt Ep) as Es.
      unfold tree_nav. change (ni_ops im h) with ops. rewrite Es. reflexivity.
    Qed.
    Lemma round_back : run F im h (repeat true (length l)) it = Ok it.
    Proof.
      assert (Hl0 : l <> []) by (intros ->; destruct t; discriminate).
      destruct (length l) as [|n] eqn:En; [destruct l; [congruence|discriminate]|].
      destruct (round_once n ltac:(lia)) as (it' & E1 & E2). eapply run_snoc; [exact E1|]. rewrite E2.
      destruct (lookup_lt_is_Some_2 l n) as [z Hz]; [lia|]. rewrite Hz. cbn [fmap option_fmap option_map].
      unfold incr, it_incr. cbn [it_set it_cur it_root it_kind it_open fst snd]. rewrite Hk, Hkk, Hroot. cbn [increment_impl].
      assert (HL : preorder t = map fst (take n l) ++ fst z :: []).
      { rewrite <- Hlt. rewrite <- (take_drop_middle l n z Hz) at 1. rewrite map_app. rewrite skipn_all2 by lia. reflexivity. }
      pose proof (pre_increment_ok _ _ Hok F HFt _ _ _ HL) as Ep. cbn [head] in Ep.
      assert (Hrt : r ∉ preorder t) by (rewrite <- Hlt; exact Hrl).
      assert (Hzt : fst z ∈ preorder t) by (rewrite HL; apply elem_of_app; right; left).
      pose proof (pre_ref ops b r Hbr Hpar Hnext Rpar Rnext F t (fst z) _ Hok Hlab HFt Hrt Hzt Ep) as Es. cbn iota in Es.
      unfold tree_nav. change (ni_ops im h) with ops. rewrite Es. cbn [mbind res_bind]. f_equal. unfold it_set. cbn [it_kind it_cur it_root it_open it_initial fst snd]. rewrite <- Hcur. clear. destruct it; reflexivity.
    Qed.
    Lemma round_runs n : exists it', run F im h (repeat true n) it = Ok it' /\ it_cur it' = fst <$> l !! (n mod length l) /\ it_root it' = Some r.
    Proof.
      assert (Hl0 : length l <> 0) by (intros H; apply nil_length_inv in H; rewrite H in Hlt; destruct t; discriminate).
      assert (Hm : forall q, run F im h (repeat true (length l * q)) it = Ok it).
      { induction q as [|q IH]; [rewrite Nat.mul_0_r; reflexivity|]. rewrite Nat.mul_succ_r, Nat.add_comm. rewrite (run_plus _ _ _ _ round_back). exact IH. }
      destruct (round_once (n mod length l)) as (it' & E1 & E2); [apply Nat.mod_upper_bound, Hl0|]. exists it'.
      split; [|rewrite E2; auto]. rewrite <- E1, <- (run_plus _ (n mod length l) _ _ (Hm (n / length l))). rewrite <- Nat.div_mod_eq. reflexivity.
    Qed.
  End Round.
End Runs.

(** *** insert_over at the root *)
Section Over.
  Context {V Nd : Type}.
  Variable F : nat.
  Variable im : node_impl V Nd.
  Variable al : allocator Nd.
  Variable K : kind_data V Nd.
  Hypothesis KO : kind_ok F im al K.
  Hypothesis HFW : (N.of_nat F <= W64)%N.
  Notation holds := (holds (croot K) (caddrs K) (crep K)).

  Lemma insert_over_root w M i c src x M1 r pos : holds w M [] -> M !! i = Some c ->
    gives K w M i src x M1 -> fits F w src -> croot K c = Some r -> stands F im (w_heap w) (Some r) r pos ->
    exists u it w1 w', insert_over F im al w i pos src = Ret it w' /\ cvals K u = x /\ holds w' (<[i := u]> M1) [] /\
      crep K (w_heap w1) c /\ crep K (w_heap w1) u /\ stands F im (w_heap w1) (Some r) r pos /\
      it_update im (w_heap w1) pos (Some r) (croot K u) = Ok it /\
      it_kind it = it_kind pos /\ it_root it = Some r /\ it_cur it = croot K u /\
      length (caddrs K c) + length (caddrs K u) < F /\ r ∉ caddrs K u /\ w_heap w' !! r = None.
  Proof using KO HFW.
    intros H Hi Hg HF Hr Hst.
    destruct (prepare_over F im al K KO HFW w M i src x M1 H (ex_intro _ _ Hi) Hg HF) as (u & s & ar & w1 & Hret & _ & P & _).
    pose proof (gives_other _ _ _ _ _ _ _ _ Hg Hi) as Hi1. pose proof (pr_holds _ _ _ _ _ _ _ _ _ _ P) as H1.
    destruct (holds_get _ _ _ _ _ _ _ _ H1 Hi1) as (t1 & Ht1 & Hg1 & Hrt & Hnt).
    pose proof (pr_fuel _ _ _ _ _ _ _ _ _ _ P c Hi1) as HFu.
    pose proof (holds_rep _ _ _ _ _ _ _ _ H Hi) as Hrep. pose proof (holds_rep _ _ _ _ _ _ _ _ H1 Hi1) as Hrep1.
    assert (Hra : r ∈ caddrs K c) by (eapply (k_root _ _ _ _ KO); eassumption).
    assert (Hst1 : stands F im (w_heap w1) (Some r) r pos).
    { rewrite <- Hr in Hst |- *. eapply (k_stands _ _ _ _ KO); [exact Hrep|exact Hrep1|exact Hra|lia|exact Hst]. }
    assert (Hu1 : crep K (w_heap w1) u).
    { pose proof (holds_unfold _ _ _ _ _ _ _ _ H1 Hi1) as Hu. eapply heap_ok_second, Hu. }
    assert (Hst1' : stands F im (w_heap w1) (croot K c) r pos) by (rewrite Hr; exact Hst1).
    destruct (k_update _ _ _ _ KO (w_heap w1) c u r pos Hrep1 Hu1 Hra ltac:(lia) Hst1') as (it & Hup & K1 & K2 & K3 & _).
    destruct (assign_ok F im al K KO w1 M1 [] i c u s ar H1 Hi1 ltac:(lia)) as (w' & Hw & Hh & Htr).
    assert (Em : modify_subtree F im w1 i pos (croot K u) s ar = Ret it w').
    { unfold modify_subtree. rewrite Hg1. cbn [res_out]. rewrite (proj1 Hst1), Hrt, Hr. cbn [is_null negb guard_res mbind res_bind]. rewrite Hup. cbn [res_out].
      rewrite ptr_eqb_true, Hw. reflexivity. }
    exists u, it, w1, w'. split; [apply Hret, Em|]. split; [apply P|]. split; [exact Hh|]. split; [exact Hrep1|]. split; [exact Hu1|]. split; [exact Hst1|].
    split; [exact Hup|]. split; [exact K1|]. split; [rewrite K2; apply Hst1|]. split; [exact K3|]. split; [exact HFu|].
    pose proof (holds_unfold _ _ _ _ _ _ _ _ H1 Hi1) as (_ & Hn & _). cbn [app flat_map] in Hn.
    assert (Hii : <[i := u]> M1 !! i = Some u) by apply lookup_insert.
    pose proof (holds_unfold _ _ _ _ _ _ _ _ Hh Hii) as (_ & _ & Hd). cbn [app flat_map] in Hd. rewrite delete_insert_delete in Hd.
    rewrite NoDup_app in Hn. destruct Hn as (_ & Hn & _). specialize (Hn r Hra). rewrite elem_of_app in Hn.
    split; [tauto|]. destruct (w_heap w' !! r) eqn:E; [|reflexivity]. destruct Hn.
    rewrite <- elem_of_app. apply Hd. eauto.
  Qed.
End Over.

(** The queue of the returned breadth-first iterator is that of the new root. *)
From Verif Require Import Stand.
Lemma restand {V Nd} F (im : node_impl V Nd) h1 h' (R U : rose addr) pos it :
  nav_ok (tree_nav im h1 (Some (label R))) R -> rsize R < F -> stands F im h1 (Some (label R)) (label R) pos ->
  op_first (ni_ops im h1) (Some (label U)) = Ok (head_label (children U)) ->
  nav_ok (tree_nav im h' (Some (label U))) U -> rsize U < F ->
  it_update im h1 pos (Some (label R)) (Some (label U)) = Ok it ->
  stands F im h' (Some (label U)) (label U) (with_root it (Some (label U))).
Proof.
  intros Hok HF Hst Hfc Hok' HF' Hup.
  destruct (rose_pop F im h1 R [] R pos (Some (label U)) (head_label (children U)) Hok HF eq_refl Hst) as (it' & Hup' & K1 & K2 & K3 & K4).
  { intros b [=<-]. exact Hfc. }
  rewrite Hup in Hup'. injection Hup' as <-. apply (stands_queue F im h' U [] U _ Hok' HF' eq_refl).
  split; [exact K3|]. split; [reflexivity|]. cbn [with_root it_kind it_open]. intros Hk. rewrite (K4 ltac:(discriminate)) by congruence.
  unfold bfs_queue, fcs. cbn [flat_map ctx_next opt_ptr app]. rewrite app_nil_r. destruct (children U); reflexivity.
Qed.
