(** AllocFacts.v: where the nodes of the trees come from after a call, and which tree
    loses nodes; allocators, proofs (C74, C75). *)
From Verif Require Import Base Spec StructNode BinaryNode NaryNode Nav Policy Tree User Rep EditSpec RoseFacts NavFacts World Kinds
  TreeSpec TreeOps TreeOps2 TreeOps3 TreeOps4 TreeFacts History Allocs.

Lemma bsubst_sub {V} a (t : bin (addr * V)) x : x ∈ baddrs (bsubst a BLeaf t) -> x ∈ baddrs t.
Proof.
  unfold baddrs. induction t as [|[b v] l IHl r IHr]; [auto|]. cbn [bsubst]. destruct (decide (b = a)); [intros H; apply elem_of_nil in H as []|].
  cbn [bin_labels map]. rewrite !map_app, !elem_of_cons, !elem_of_app. intuition auto.
Qed.
Lemma rsubst_sub {V} a x (t : rose (addr * V)) : x ∈ opt_list raddrs (rsubst a None t) -> x ∈ raddrs t.
Proof.
  induction t as [[b v] cs IH] using rose_ind'. cbn [rsubst]. destruct (decide (b = a)); [intros H; apply elem_of_nil in H as []|].
  cbn [opt_list]. unfold raddrs at 1 2. cbn [Spec.preorder map]. rewrite !elem_of_cons. intros [H|H]; [auto|right].
  induction IH as [|c cs Hc _ IHcs]; [exact H|]. cbn [flat_map] in *. rewrite map_app, elem_of_app.
  rewrite flat_map_app', map_app, elem_of_app in H. destruct H as [H|H]; [left|right; auto].
  apply Hc. destruct (rsubst a None c) as [y|]; cbn in *; [|exact H]. rewrite app_nil_r in H. exact H.
Qed.
Lemma subst_sub {V Nd} {EV : EqDecision V} {im : node_impl V Nd} {K} : tree_kind V EV Nd im K ->
  forall a c x, x ∈ caddrs K (csubst K a (cnil K) c) -> x ∈ caddrs K c.
Proof.
  intros HK a c x. destruct HK; [apply bsubst_sub|]. cbn. destruct c as [t|]; [|auto]. apply rsubst_sub.
Qed.
Lemma badd_sub {V} first a (u t : bin (addr * V)) x : x ∈ baddrs (badd first a u t) -> x ∈ baddrs t \/ x ∈ baddrs u.
Proof.
  unfold baddrs. induction t as [|[b v] l IHl r IHr]; [auto|]. cbn [badd]. destruct (decide (b = a)).
  - unfold bslots. destruct first, l as [|y l1 l2], r as [|z r1 r2]; cbn [bin_labels map app]; rewrite ?map_app, ?app_nil_r; set_solver +.
  - cbn [bin_labels map]. rewrite !map_app, !elem_of_cons, !elem_of_app. intuition auto.
Qed.
Lemma radd_sub {V} first a (u : rose (addr * V)) x (t : rose (addr * V)) : x ∈ raddrs (radd first a u t) -> x ∈ raddrs t \/ x ∈ raddrs u.
Proof.
  induction t as [[b v] cs IH] using rose_ind'. cbn [radd]. destruct (decide (b = a)).
  - unfold raddrs. destruct first; cbn [Spec.preorder map flat_map]; rewrite ?flat_map_app', ?map_app; cbn [flat_map]; rewrite ?app_nil_r; set_solver +.
  - unfold raddrs at 1 2. cbn [Spec.preorder map]. rewrite !elem_of_cons. intros [H|H]; [auto|].
    cut (x ∈ map fst (flat_map Spec.preorder cs) \/ x ∈ raddrs u); [tauto|].
    induction IH as [|c cs Hc _ IHcs]; [auto|]. cbn [flat_map map] in *. rewrite map_app, elem_of_app in H |- *.
    destruct H as [H|H]; [destruct (Hc H); tauto|]. destruct (IHcs H); tauto.
Qed.
Lemma put_sub {V Nd} {EV : EqDecision V} {im : node_impl V Nd} {K} : tree_kind V EV Nd im K ->
  forall first a u c x, x ∈ caddrs K (cput K first a u c) -> x ∈ caddrs K c \/ x ∈ caddrs K u.
Proof.
  intros HK first a u c x. unfold cput. destruct (croot K u); [|auto]. destruct HK; [apply badd_sub|]. cbn. destruct u as [u|], c as [c|]; cbn; auto. apply radd_sub.
Qed.
Lemma prune_sub {V Nd} {EV : EqDecision V} {im : node_impl V Nd} {K} : tree_kind V EV Nd im K ->
  forall ds c x, x ∈ caddrs K (prune K ds c) -> x ∈ caddrs K c.
Proof.
  intros HK ds. induction ds as [|d ds IH]; intros c x Hx; [exact Hx|]. cbn in Hx. apply (subst_sub HK d). apply IH. exact Hx.
Qed.

Section Origin.
  Context {V Nd : Type} {EV : EqDecision V}.
  Variable F : nat.
  Variable im : node_impl V Nd.
  Variable al : allocator Nd.
  Variable K : kind_data V Nd.
  Hypothesis HK : tree_kind V EV Nd im K.
  Hypothesis HFW : (N.of_nat F <= W64)%N.
  Let KO := kind_is_ok F al HK.
  Notation caddrs := (caddrs K).
  Notation cnil := (cnil K).
  Notation consistent := (consistent K).
  Notation holds := (World.holds (croot K) caddrs (crep K)).

  (** The tree that may get new nodes. *)
  Definition gains (c : call V) : option tid :=
    match c with
    | CLiteral i _ | CCopy i _ | CAssignCopy i _ | CAssignLiteral i _ | CAssignView i _
    | CInsertOver i _ _ | CInsertChild _ _ i _ _ => Some i
    | _ => None
    end.
  (** The tree that may lose nodes. *)
  Definition loses (c : call V) : option tid :=
    match c with
    | CDestroy i | CClear i | CAssignCopy i _ | CAssignMove i _ | CAssignLiteral i _ | CAssignView i _
    | CInsertOver i _ _ | CErase i _ | CEraseRange i _ _ => Some i
    | _ => None
    end.
  (** After the call, tree [k] may have nodes that tree [j] had. *)
  Definition takes (c : call V) (k j : tid) : Prop :=
    match c with
    | CMove i j' => (k = i /\ j = j') \/ (k <> i /\ k <> j' /\ j = k)
    | CAssignMove i j' => (k = i /\ j = j' /\ i <> j') \/ (k <> i /\ k <> j' /\ j = k)
    | CSwap i j' => (k = i /\ j = j') \/ (k = j' /\ j = i) \/ (k <> i /\ k <> j' /\ j = k)
    | CInsertOver i _ (SrcMove j') | CInsertChild _ _ i _ (SrcMove j') => (k = i /\ (j = i \/ j = j')) \/ (k <> i /\ k <> j' /\ j = k)
    | _ => j = k
    end.
  Definition from_before (c : call V) (w : world Nd) (M M' : gmap tid (C K)) : Prop :=
    forall k c' a, M' !! k = Some c' -> a ∈ caddrs c' ->
      (w_heap w !! a = None /\ gains c = Some k) \/ (exists j d, takes c k j /\ M !! j = Some d /\ a ∈ caddrs d).
  Definition still_there (c : call V) (M : gmap tid (C K)) (w' : world Nd) (threw : bool) : Prop :=
    forall k d a, M !! k = Some d -> a ∈ caddrs d -> threw = true \/ loses c <> Some k -> is_Some (w_heap w' !! a).

  Lemma in_heap w M k d a : consistent w M -> M !! k = Some d -> a ∈ caddrs d -> is_Some (w_heap w !! a).
  Proof. intros H Hk Ha. apply (wo_owned _ _ _ _ _ H). eauto. Qed.
  Lemma nil_none a : a ∈ caddrs cnil -> False.
  Proof using All. intros H. rewrite (nil_addrs F im al K KO) in H. apply elem_of_nil in H. exact H. Qed.

  Lemma subst_in h c u a x : crep K h c -> a ∈ caddrs c -> x ∈ caddrs (csubst K a u c) -> x ∈ caddrs c \/ x ∈ caddrs u.
  Proof using All.
    intros Hc Ha Hx. destruct (k_subst _ _ _ _ KO h c u a Hc Ha) as (_ & H1 & H2).
    destruct (decide (croot K c = Some a)) as [E|E].
    - destruct (H1 E) as [_ E2]. rewrite E2 in Hx. auto.
    - destruct (H2 E) as [_ Hp]. apply elem_of_app. rewrite <- Hp. apply elem_of_app. auto.
  Qed.
  Lemma sub_in h c a x : crep K h c -> a ∈ caddrs c -> x ∈ caddrs (csub K a c) -> x ∈ caddrs c.
  Proof using All.
    intros Hc Ha Hx. destruct (k_subst _ _ _ _ KO h c cnil a Hc Ha) as (_ & H1 & H2).
    destruct (decide (croot K c = Some a)) as [E|E].
    - destruct (H1 E) as [E2 _]. rewrite E2 in Hx. exact Hx.
    - destruct (H2 E) as [_ Hp]. assert (Hin : x ∈ caddrs c ++ caddrs cnil) by (rewrite <- Hp; apply elem_of_app; auto).
      apply elem_of_app in Hin as [Hin|Hin]; [exact Hin|]. destruct (nil_none _ Hin).
  Qed.
  Lemma subst_has h c u a x : crep K h c -> a ∈ caddrs c -> x ∈ caddrs u -> x ∉ caddrs c -> x ∈ caddrs (csubst K a u c).
  Proof using All.
    intros Hc Ha Hx Hnx. destruct (k_subst _ _ _ _ KO h c u a Hc Ha) as (_ & H1 & H2).
    destruct (decide (croot K c = Some a)) as [E|E].
    - destruct (H1 E) as [_ E2]. rewrite E2. exact Hx.
    - destruct (H2 E) as [_ Hp]. assert (Hin : x ∈ caddrs (csubst K a u c) ++ caddrs (csub K a c)) by (rewrite Hp; apply elem_of_app; auto).
      apply elem_of_app in Hin as [Hin|Hin]; [exact Hin|]. destruct Hnx. eapply sub_in; eassumption.
  Qed.

  (** Calls that change one tree only. *)
  Lemma one_tree c w M w' i c' : consistent w M -> consistent w' (<[i := c']> M) ->
    (forall k j, takes c k j <-> j = k) ->
    (forall a, a ∈ caddrs c' -> (w_heap w !! a = None /\ gains c = Some i) \/ (exists d, M !! i = Some d /\ a ∈ caddrs d)) ->
    from_before c w M (<[i := c']> M).
  Proof.
    intros H H' Ht Hc k d a Hk Ha. destruct (decide (k = i)) as [->|Hne].
    - rewrite lookup_insert in Hk. injection Hk as <-. destruct (Hc a Ha) as [Hn|(d & Hd & Hin)]; [left; exact Hn|right].
      exists i, d. split; [apply Ht; reflexivity|auto].
    - rewrite lookup_insert_ne in Hk by congruence. right. exists k, d. split; [apply Ht; reflexivity|auto].
  Qed.
  Lemma one_left c M w' i c' b : consistent w' (<[i := c']> M) -> loses c = Some i \/ M !! i = None -> b = false -> still_there c M w' b.
  Proof.
    intros H' Hl -> k d a Hk Ha [Hx|Hx]; [discriminate|]. apply (in_heap w' (<[i := c']> M) k d a H'); [|exact Ha].
    rewrite lookup_insert_ne; [exact Hk|]. intros <-. destruct Hl as [Hl|Hl]; congruence.
  Qed.
  Lemma same_trees c w M w' b : consistent w' M -> (forall k, takes c k k) -> from_before c w M M /\ still_there c M w' b.
  Proof.
    intros H' Ht. split.
    - intros k d a Hk Ha. right. exists k, d. auto.
    - intros k d a Hk Ha _. exact (in_heap w' M k d a H' Hk Ha).
  Qed.
  Definition after_call (c : call V) (w : world Nd) (M : gmap tid (C K)) : Prop :=
    exists w' M' (b : bool), exec F im al w c = (if b then Throw w' else Ret () w') /\ consistent w' M' /\ from_before c w M M' /\ still_there c M w' b.

  (** Inserting a moved tree. *)
  Lemma moved c w M w' i j u d c' : takes c = takes (CInsertOver i (Iter PreOrder None None [] None) (SrcMove j)) -> loses c = Some i \/ loses c = None -> j <> i ->
    consistent w M -> consistent w' (<[i := c']> (<[j := cnil]> M)) ->
    M !! i = Some d -> M !! j = Some u -> (forall a, a ∈ caddrs c' -> a ∈ caddrs d \/ a ∈ caddrs u) ->
    (forall a, a ∈ caddrs u -> a ∈ caddrs c') -> (loses c = None -> forall a, a ∈ caddrs d -> a ∈ caddrs c') ->
    from_before c w M (<[i := c']> (<[j := cnil]> M)) /\ still_there c M w' false.
  Proof using All.
    intros Ht Hl Hne H H' Hi Hj Hc Hu Hd. split.
    - intros k e a Hk Ha. right. rewrite Ht. cbn [takes]. destruct (decide (k = i)) as [->|Hki].
      + rewrite lookup_insert in Hk. injection Hk as <-. destruct (Hc a Ha) as [Hin|Hin]; [exists i, d|exists j, u]; auto.
      + rewrite lookup_insert_ne in Hk by congruence. destruct (decide (k = j)) as [->|Hkj].
        * rewrite lookup_insert in Hk. injection Hk as <-. destruct (nil_none _ Ha).
        * rewrite lookup_insert_ne in Hk by congruence. exists k, e. auto 6.
    - intros k e a Hk Ha [Hx|Hx]; [discriminate|]. destruct (decide (k = j)) as [->|Hkj].
      + rewrite Hj in Hk. injection Hk as <-. apply (in_heap w' _ i c' a H'); [apply lookup_insert|apply Hu, Ha].
      + destruct (decide (k = i)) as [->|Hki].
        * destruct Hl as [Hl|Hl]; [congruence|]. rewrite Hi in Hk. injection Hk as <-.
          apply (in_heap w' _ i c' a H'); [apply lookup_insert|apply Hd; assumption].
        * apply (in_heap w' _ k e a H'); [|exact Ha]. rewrite !lookup_insert_ne by congruence. exact Hk.
  Qed.

  Lemma insert_child_all first emplace w M i c src x M1 a pos : holds w M [] -> M !! i = Some c ->
    gives K w M i src x M1 -> fits F w src -> a ∈ caddrs c -> it_cur pos = Some a -> ~ cfull K a c ->
    exists u it w', insert_child F im al first emplace w i pos src = Ret it w' /\ placed K w M src u /\
      holds w' (<[i := cput K first a u c]> M1) [] /\
      (forall y, y ∈ caddrs c \/ y ∈ caddrs u -> y ∈ caddrs (cput K first a u c)).
  Proof using All.
    intros H Hi Hg HF Ha Hpos Hfull.
    destruct (prepare_child F im al K KO HFW first emplace w M i src x M1 H (ex_intro _ _ Hi) Hg HF) as (u & s & r & w1 & Hret & _ & _ & P & _).
    pose proof (gives_other _ _ _ _ _ _ _ _ Hg Hi) as Hi1.
    pose proof (pr_holds _ _ _ _ _ _ _ _ _ _ P) as Hh.
    destruct (holds_get _ _ _ _ _ _ _ _ Hh Hi1) as (t1 & Ht1 & _).
    pose proof (pr_fuel _ _ _ _ _ _ _ _ _ _ P c Hi1) as HFu.
    destruct (add_child_ok F im al K KO first w1 M1 [] i c t1 u a s r pos Hh Hi1 Ht1 Ha Hpos Hfull HFu)
      as (it & w' & Hm & Hw' & _).
    exists u, it, w'. split; [apply Hret, Hm|]. split; [apply P|]. split; [exact Hw'|].
    intros y Hy. unfold cput. destruct (croot K u) as [b|] eqn:Eu.
    2:{ rewrite (k_null _ _ _ _ KO u Eu) in Hy. destruct Hy as [Hy|Hy]; [exact Hy|destruct (nil_none _ Hy)]. }
    pose proof (holds_unfold _ _ _ _ _ _ _ _ Hh Hi1) as Hun. cbn [app] in Hun.
    destruct (k_add _ _ _ _ KO first (w_heap w1) c u a b) as (h' & _ & _ & _ & _ & Hp & _).
    { eapply heap_ok_head, Hun. }
    { eapply heap_ok_second, Hun. }
    { intros z Hz Hzc. eapply heap_ok_disj; [exact Hun|exact Hzc|exact Hz]. }
    { exact Ha. } { exact Hfull. } { exact Eu. } { lia. }
    rewrite Hp. apply elem_of_app, Hy.
  Qed.

  Lemma exec_origin c w M : consistent w M -> valid F im K w M c -> size (w_heap w) < F -> after_call c w M.
  Proof using All.
    intros H0 Hv HF. pose proof H0 as H. apply (to_holds F im al K HK HFW) in H.
    assert (Hret : forall w' M', exec F im al w c = Ret () w' -> holds w' M' [] -> from_before c w M M' /\ still_there c M w' false -> after_call c w M).
    { intros w' M' E H' [H1 H2]. exists w', M', false. apply (to_holds F im al K HK HFW) in H'. auto. }
    (* one tree is assigned *)
    assert (Hone : forall w' i c', exec F im al w c = Ret () w' -> holds w' (<[i := c']> M) [] ->
      (forall k j, takes c k j <-> j = k) -> loses c = Some i \/ M !! i = None ->
      (forall a, a ∈ caddrs c' -> (w_heap w !! a = None /\ gains c = Some i) \/ (exists d, M !! i = Some d /\ a ∈ caddrs d)) -> after_call c w M).
    { intros w' i c' E H' Ht Hl Hc. eapply Hret; [exact E|exact H'|]. apply (to_holds F im al K HK HFW) in H'. split.
      - eapply one_tree; eassumption.
      - eapply one_left; [exact H'|exact Hl|reflexivity]. }
    assert (Hsame : forall w', exec F im al w c = Ret () w' -> holds w' M [] -> (forall k, takes c k k) -> after_call c w M).
    { intros w' E H' Ht. eapply Hret; [exact E|exact H'|]. apply (to_holds F im al K HK HFW) in H'. apply same_trees; assumption. }
    destruct c; cbn [valid] in Hv; cbn [exec] in *.
    - destruct (construct_empty_ok F im al K KO w M i H Hv) as (w' & E & H' & Htr).
      eapply Hone; [rewrite E; reflexivity|exact H'|reflexivity|auto|]. intros a Ha. destruct (nil_none _ Ha).
    - destruct Hv as [Hi (v & cs & -> & Hl)].
      destruct (construct_struct_ok F im al K KO w M i v cs H Hi Hl) as (w' & c & E & H' & _ & Hf & Htr).
      eapply Hone; [rewrite E; reflexivity|exact H'|reflexivity|auto|]. intros a Ha. left. auto.
    - destruct Hv as [Hi Hj]. destruct (tree_get F im al K HK HFW w M j H Hj) as (c & t & Hc & Ht & L).
      destruct (construct_copy_ok F im al K KO w M i j c t H Hi Hc Ht ltac:(lia)) as (w' & c' & E & H' & _ & E1 & E2 & Hf & Htr).
      eapply Hone; [rewrite E; reflexivity|exact H'|reflexivity|auto|]. intros a Ha. left. auto.
    - destruct Hv as [Hi Hj]. destruct (tree_get F im al K HK HFW w M j H Hj) as (c & t & Hc & Ht & L).
      destruct (construct_move_ok F im al K KO w M i j c t H Hi Hc Ht) as (w' & E & H' & Hh & Htr).
      eapply Hret; [rewrite E; reflexivity|exact H'|]. split.
      + intros k d a Hk Ha. right. destruct (decide (k = j)) as [->|Hkj]; [rewrite lookup_insert in Hk; injection Hk as <-; destruct (nil_none _ Ha)|].
        rewrite lookup_insert_ne in Hk by congruence. cbn [takes]. destruct (decide (k = i)) as [->|Hki].
        * rewrite lookup_insert in Hk. injection Hk as <-. exists j, c. auto.
        * rewrite lookup_insert_ne in Hk by congruence. exists k, d. auto 6.
      + intros k d a Hk Ha _. rewrite Hh. exact (in_heap w M k d a H0 Hk Ha).
    - destruct (tree_get F im al K HK HFW w M i H Hv) as (c & t & Hc & Ht & L).
      destruct (destroy_ok F im al K KO w M i c H Hc ltac:(lia)) as (w' & E & H' & Htr). eapply Hret; [rewrite E; reflexivity|exact H'|].
      apply (to_holds F im al K HK HFW) in H'. split.
      + intros k d a Hk Ha. apply lookup_delete_Some in Hk as [_ Hk]. right. exists k, d. cbn. auto.
      + intros k d a Hk Ha [Hx|Hx]; [discriminate|]. apply (in_heap w' _ k d a H'); [|exact Ha]. apply lookup_delete_Some. cbn in Hx. split; [congruence|exact Hk].
    - destruct Hv as [Hi Hj]. destruct (tree_get F im al K HK HFW w M i H Hi) as (c & ti & Hc & Hti & L). destruct (tree_get F im al K HK HFW w M j H Hj) as (d & tj & Hd & Htj & Ld).
      destruct (assign_copy_ok F im al K KO w M i j c d tj H Hc Hd Htj ltac:(lia) ltac:(lia)) as (w' & c' & E & H' & _ & E1 & E2 & Hf & Htr).
      eapply Hone; [rewrite E; reflexivity|exact H'|reflexivity|auto|]. intros a Ha. left. auto.
    - destruct Hv as [Hi Hj]. destruct (tree_get F im al K HK HFW w M i H Hi) as (c & ti & Hc & Hti & L). destruct (tree_get F im al K HK HFW w M j H Hj) as (d & tj & Hd & Htj & Ld).
      destruct (decide (i = j)) as [<-|Hne].
      + destruct (assign_move_self_ok F im al K KO w M i c H Hc ltac:(lia)) as (w' & E & H' & Htr). eapply Hret; [rewrite E; reflexivity|exact H'|].
        apply (to_holds F im al K HK HFW) in H'. split; [|eapply one_left; [exact H'|left; reflexivity|reflexivity]].
        intros k e a Hk Ha. right. destruct (decide (k = i)) as [->|Hki]; [rewrite lookup_insert in Hk; injection Hk as <-; destruct (nil_none _ Ha)|].
        rewrite lookup_insert_ne in Hk by congruence. exists k, e. cbn. auto 6.
      + destruct (assign_move_ok F im al K KO w M i j c d tj H Hne Hc Hd Htj ltac:(lia)) as (w' & E & H' & _ & Htr). eapply Hret; [rewrite E; reflexivity|exact H'|].
        apply (to_holds F im al K HK HFW) in H'. split.
        * intros k e a Hk Ha. right. destruct (decide (k = j)) as [->|Hkj]; [rewrite lookup_insert in Hk; injection Hk as <-; destruct (nil_none _ Ha)|].
          rewrite lookup_insert_ne in Hk by congruence. cbn [takes]. destruct (decide (k = i)) as [->|Hki].
          -- rewrite lookup_insert in Hk. injection Hk as <-. exists j, d. auto.
          -- rewrite lookup_insert_ne in Hk by congruence. exists k, e. auto 6.
        * intros k e a Hk Ha [Hx|Hx]; [discriminate|]. cbn in Hx. destruct (decide (k = j)) as [->|Hkj].
          -- rewrite Hd in Hk. injection Hk as <-. apply (in_heap w' _ i d a H'); [|exact Ha]. rewrite lookup_insert_ne by congruence. apply lookup_insert.
          -- apply (in_heap w' _ k e a H'); [|exact Ha]. rewrite !lookup_insert_ne by congruence. exact Hk.
    - destruct Hv as [Hi (v & cs & -> & Hl)]. destruct (tree_get F im al K HK HFW w M i H Hi) as (c & t & Hc & Ht & L).
      destruct (assign_struct_ok F im al K KO w M i c v cs H Hc Hl ltac:(lia)) as (w' & c' & E & H' & _ & Hf & Htr).
      eapply Hone; [rewrite E; reflexivity|exact H'|reflexivity|auto|]. intros a Ha. left. auto.
    - destruct Hv as [Hi (s & Hs & Hr)]. destruct (tree_get F im al K HK HFW w M i H Hi) as (c & t' & Hc & Ht & L).
      pose proof (src_size F im al K KO (w_heap w) s Hs) as Ls.
      destruct (assign_view_ok F im al K KO w M i c t s H Hc Hs Hr ltac:(lia) ltac:(lia)) as (w' & c' & E & H' & _ & E1 & E2 & Hf & Htr).
      eapply Hone; [rewrite E; reflexivity|exact H'|reflexivity|auto|]. intros a Ha. left. auto.
    - destruct (tree_get F im al K HK HFW w M i H Hv) as (c & t & Hc & Ht & L).
      destruct (clear_ok F im al K KO w M [] i c H Hc ltac:(lia)) as (w' & E & H' & Htr).
      eapply Hone; [rewrite E; reflexivity|exact H'|reflexivity|auto|]. intros a Ha. destruct (nil_none _ Ha).
    - destruct Hv as [Hi Hj]. destruct (tree_get F im al K HK HFW w M i H Hi) as (c & ti & Hc & Hti & L). destruct (tree_get F im al K HK HFW w M j H Hj) as (d & tj & Hd & Htj & Ld).
      destruct (swap_ok K w M i j c d ti tj H Hc Hd Hti Htj) as (w' & E & H' & Hh & Htr). eapply Hret; [rewrite E; reflexivity|exact H'|]. split.
      + intros k e a Hk Ha. right. cbn [takes]. destruct (decide (k = j)) as [->|Hkj].
        * rewrite lookup_insert in Hk. injection Hk as <-. exists i, c. auto.
        * rewrite lookup_insert_ne in Hk by congruence. destruct (decide (k = i)) as [->|Hki].
          -- rewrite lookup_insert in Hk. injection Hk as <-. exists j, d. auto.
          -- rewrite lookup_insert_ne in Hk by congruence. exists k, e. auto 6.
      + intros k e a Hk Ha _. rewrite Hh. exact (in_heap w M k e a H0 Hk Ha).
    - destruct Hv as (c & x & M1 & Hc & Hg & Hfit & Hv). destruct (tree_get F im al K HK HFW w M i H ltac:(eexists; exact Hc)) as (c0 & t & Hc0 & Ht & L).
      rewrite Hc in Hc0. injection Hc0 as <-. pose proof (holds_rep _ _ _ _ _ _ _ _ H Hc) as Hrep.
      destruct Hv as [(a & Ha & Hst & Hrepl)|(-> & Hpos)].
      + destruct (insert_over_ok F im al K KO HFW w M i c t src x M1 a pos H Hc Ht Hg Hfit Ha Hst Hrepl) as (u & it & w' & E & _ & Hpl & H' & _).
        destruct Hg as [v|v cs _|j d Hj|vw d Hs Hr|j d Hne Hj].
        1-4: eapply Hone; [rewrite E; reflexivity|exact H'|reflexivity|auto|]; intros y Hy;
             destruct (subst_in _ _ _ _ _ Hrep Ha Hy) as [Hin|Hin]; [right; eauto|left; split; [apply Hpl, Hin|reflexivity]].
        cbn [placed] in Hpl. rewrite Hj in Hpl. injection Hpl as <-.
        eapply Hret; [rewrite E; reflexivity|exact H'|]. apply (to_holds F im al K HK HFW) in H'.
        eapply (moved _ w M w' i j d c (csubst K a d c)); try assumption; [reflexivity|left; reflexivity| | |discriminate].
        * intros y Hy. exact (subst_in _ _ _ _ _ Hrep Ha Hy).
        * intros y Hy. apply (subst_has (w_heap w)); try assumption. intros Hyc. apply Hne. symmetry. exact (wo_disjoint _ _ _ _ _ H0 i j c d y Hc Hj Hyc Hy).
      + destruct (insert_over_empty_ok F im al K KO HFW w M i src x M1 pos H Hc Hg Hfit Hpos) as (u & w' & E & _ & Hpl & H' & _).
        destruct Hg as [v|v cs _|j d Hj|vw d Hs Hr|j d Hne Hj].
        1-4: eapply Hone; [rewrite E; reflexivity|exact H'|reflexivity|auto|]; intros y Hy; left; split; [apply Hpl, Hy|reflexivity].
        cbn [placed] in Hpl. rewrite Hj in Hpl. injection Hpl as <-.
        eapply Hret; [rewrite E; reflexivity|exact H'|]. apply (to_holds F im al K HK HFW) in H'.
        eapply (moved _ w M w' i j d cnil d); try assumption; [reflexivity|left; reflexivity|auto|auto|discriminate].
    - destruct Hv as (c & x & M1 & Hc & Hg & Hfit & Hv). destruct (tree_get F im al K HK HFW w M i H ltac:(eexists; exact Hc)) as (c0 & t & Hc0 & Ht & L).
      rewrite Hc in Hc0. injection Hc0 as <-. pose proof (holds_rep _ _ _ _ _ _ _ _ H Hc) as Hrep.
      assert (Hthrow : (forall j, src <> SrcMove j) ->
        it_cur pos = None \/ (exists a, it_cur pos = Some a /\ a ∈ caddrs c /\ cfull K a c) -> after_call (CInsertChild first emplace i pos src) w M).
      { intros Hm Hp. destruct (insert_child_throw F im al K KO HFW first emplace w M i c src x M1 pos H Hc Hg Hfit Hm Hp) as (w' & E & H' & Htr).
        exists w', M, true. apply (to_holds F im al K HK HFW) in H'. split; [cbn [exec]; rewrite E; reflexivity|]. split; [exact H'|].
        apply same_trees; [exact H'|]. intros k. destruct src; try reflexivity. destruct (Hm j eq_refl). }
      destruct Hv as [(a & Ha & Hpos & Hm)|(Hpos & Hm)]; [|auto].
      assert (Hd : cfull K a c \/ ~ cfull K a c).
      { destruct (k_children _ _ _ _ KO (w_heap w) c a Hrep Ha) as (k & _ & Hk).
        destruct (ni_binary im && (k =? 2)%N); [left; apply Hk; reflexivity|right; intros Hf; apply Hk in Hf; discriminate]. }
      destruct Hd as [Hfull|Hfull].
      + apply Hthrow; [apply Hm, Hfull|]. right. eauto.
      + destruct (insert_child_all first emplace w M i c src x M1 a pos H Hc Hg Hfit Ha Hpos Hfull) as (u & it & w' & E & Hpl & H' & Hput).
        destruct Hg as [v|v cs _|j d Hj|vw d Hs Hr|j d Hne Hj].
        1-4: apply (to_holds F im al K HK HFW) in H';
             exists w', (<[i := cput K first a u c]> M), false; split; [cbn [exec]; rewrite E; reflexivity|]; split; [exact H'|]; split;
             [eapply one_tree; [exact H0|exact H'|reflexivity|]; intros y Hy; destruct (put_sub HK _ _ _ _ _ Hy) as [Hin|Hin]; [right; eauto|left; split; [apply Hpl, Hin|reflexivity]]
             |intros k e y Hk Hy _; destruct (decide (k = i)) as [->|Hki];
              [rewrite Hc in Hk; injection Hk as <-; apply (in_heap w' _ i _ y H' (lookup_insert _ _ _)); apply Hput; auto
              |apply (in_heap w' _ k e y H'); [rewrite lookup_insert_ne by congruence; exact Hk|exact Hy]]].
        cbn [placed] in Hpl. rewrite Hj in Hpl. injection Hpl as <-.
        eapply Hret; [rewrite E; reflexivity|exact H'|]. apply (to_holds F im al K HK HFW) in H'.
        eapply (moved _ w M w' i j d c (cput K first a d c)); try assumption; [reflexivity|right; reflexivity|intros y Hy; exact (put_sub HK _ _ _ _ _ Hy)|auto|auto].
    - destruct Hv as (c & Hc & Hroot & Hv). destruct (tree_get F im al K HK HFW w M i H ltac:(eexists; exact Hc)) as (c0 & t & Hc0 & Ht & L).
      rewrite Hc in Hc0. injection Hc0 as <-. destruct Hv as [(a & Ha & Hpos & Hrepl)|Hpos].
      + destruct (erase_ok F im al K KO w M [] i c t a pos H Hc Ht Ha Hpos Hroot Hrepl ltac:(lia)) as (it & w' & E & H' & Htr & _).
        eapply Hone; [rewrite E; reflexivity|exact H'|reflexivity|auto|]. intros y Hy. right. exists c. split; [exact Hc|]. exact (subst_sub HK _ _ _ Hy).
      + destruct (erase_end F im al K HK HFW w M i c pos H Hc Hroot Hpos HF) as [H1 H2]. destruct (croot K c) eqn:Er.
        * exists w, M, true. split; [cbn [exec]; rewrite H1 by discriminate; reflexivity|]. split; [exact H0|]. apply same_trees; [exact H0|reflexivity].
        * destruct (H2 eq_refl) as (it & E & _). eapply Hsame; [rewrite E; reflexivity|exact H|reflexivity].
    - destruct Hv as (c & pre & ds & post & Hc & Hpost & Hk & Hf & Hl & Hrf & Hrl & Her).
      pose proof (holds_size _ _ _ _ _ _ _ _ H Hc) as L.
      destruct (erase_range_ok F im al K KO HFW w M i c first last pre ds post H Hc ltac:(lia) Hpost Hk Hf Hl Hrf Hrl Her) as (it & w' & E & H' & _).
      eapply Hone; [rewrite E; reflexivity|exact H'|reflexivity|auto|]. intros y Hy. right. exists c. split; [exact Hc|]. exact (prune_sub HK _ _ _ Hy).
    - destruct (tree_get F im al K HK HFW w M i H Hv) as (c & t & Hc & Ht & L).
      destruct (tree_size_ok F im al K KO w M [] i c t H Hc Ht ltac:(lia)) as (s & E & H' & _). eapply Hsame; [rewrite E; reflexivity|exact H'|reflexivity].
    - destruct (tree_get F im al K HK HFW w M i H Hv) as (c & t & Hc & Ht & L).
      destruct (tree_arity_ok F im al K KO w M [] i c t H Hc Ht ltac:(lia) ltac:(lia)) as (s & E & H' & _). eapply Hsame; [rewrite E; reflexivity|exact H'|reflexivity].
    - destruct Hv as [Hi Hj]. destruct (tree_eq_safe F im al K HK HFW w M i j H Hi Hj HF) as (r & w' & E & H' & _). eapply Hsame; [rewrite E; reflexivity|exact H'|reflexivity].
    - destruct Hv as [Hi Hl]. destruct (tree_eq_struct_safe F im al K HK HFW w M i l H Hi Hl HF) as (r & w' & E & H' & _). eapply Hsame; [rewrite E; reflexivity|exact H'|reflexivity].
  Qed.
End Origin.

Section Steps.
  Context {V Nd : Type} {EV : EqDecision V}.
  Variable F : nat.
  Variable im : node_impl V Nd.
  Variable al : allocator Nd.
  Variable K : kind_data V Nd.
  Hypothesis HK : tree_kind V EV Nd im K.
  Hypothesis HFW : (N.of_nat F <= W64)%N.
  Let KO := kind_is_ok F al HK.
  Notation caddrs := (caddrs K).
  Notation cnil := (cnil K).
  Notation consistent := (consistent K).
  Notation own_made := (own_made K).

  Definition plain (c : acall V) : call V :=
    match c with AWith i _ => CEmpty i | ACopyPolicy i j => CCopy i j | ACall c => c end.

  Lemma remade_lookup (h h' : gmap addr Nd) mk m a : is_Some (h' !! a) ->
    remade h h' mk m !! a = match h !! a with Some _ => mk !! a | None => Some m end.
  Proof. intros [n Hn]. unfold remade. rewrite map_lookup_imap, Hn. reflexivity. Qed.
  Lemma remade_in (h h' : gmap addr Nd) mk m a : is_Some (remade h h' mk m !! a) -> is_Some (h' !! a).
  Proof. intros [n Hn]. unfold remade in Hn. rewrite map_lookup_imap in Hn. destruct (h' !! a); [eauto|discriminate]. Qed.
  Lemma put_eq A i a : put A i a i = a.
  Proof. unfold put. rewrite bool_decide_eq_true_2 by reflexivity. reflexivity. Qed.
  Lemma put_ne A i a k : k <> i -> put A i a k = A k.
  Proof. intros H. unfold put. rewrite bool_decide_eq_false_2 by exact H. reflexivity. Qed.

  (** The release check, from where nodes are lost. *)
  Lemma settle_good (x : aworld Nd) M c w' b : consistent (aw_world x) M -> own_made x M -> still_there K (plain c) M w' b ->
    (forall k d a, b = false -> loses (plain c) = Some k -> M !! k = Some d -> a ∈ caddrs d -> releases (aw_alloc x) c false = aw_alloc x k) ->
    settle x c w' b = Good (AWorld w' (after (aw_alloc x) c) (shown_after (aw_shown x) c)
                 (remade (w_heap (aw_world x)) (w_heap w') (aw_maker x) (makes (aw_alloc x) c))).
  Proof.
    intros H [Ho1 Ho2] Hs Hr. unfold settle. rewrite bool_decide_eq_true_2; [reflexivity|].
    intros a m Hm Hgone. destruct (proj1 (wo_owned _ _ _ _ _ H a)) as (k & d & Hk & Ha); [eauto|].
    pose proof (Ho1 k d a Hk Ha) as E. rewrite Hm in E. injection E as ->.
    destruct b.
    { destruct (Hs k d a Hk Ha (or_introl eq_refl)) as [n Hn]. congruence. }
    destruct (decide (loses (plain c) = Some k)) as [E|E]; [symmetry; eapply Hr; eauto|].
    destruct (Hs k d a Hk Ha (or_intror E)) as [n Hn]. congruence.
  Qed.

  Lemma aexec_origin c w M : consistent w M -> avalid F im K w M c -> size (w_heap w) < F ->
    exists w' M' b, aexec F im al w c = (if b : bool then Throw w' else Ret () w') /\ consistent w' M' /\
      from_before K (plain c) w M M' /\ still_there K (plain c) M w' b.
  Proof using All.
    intros H Hv HF. destruct c as [i a|i j|c]; cbn [avalid aexec plain] in *.
    - exact (exec_origin F im al K HK HFW (CEmpty i) w M H Hv HF).
    - exact (exec_origin F im al K HK HFW (CCopy i j) w M H Hv HF).
    - exact (exec_origin F im al K HK HFW c w M H Hv HF).
  Qed.
  (** The allocator a call releases to is that of the tree which loses nodes, unless it
      is a move assignment. *)
  Lemma releases_loses A c k : (forall i j, c <> ACall (CAssignMove i j)) -> loses (plain c) = Some k -> releases A c false = A k.
  Proof.
    intros Hc Hl. destruct c as [i a|i j|c]; cbn in *; try discriminate.
    destruct c; cbn in *; try discriminate; injection Hl as <-; try reflexivity.
    destruct (Hc i j eq_refl).
  Qed.

  Lemma astep_run (x : aworld Nd) M c : consistent (aw_world x) M -> own_made x M -> avalid F im K (aw_world x) M c -> size (w_heap (aw_world x)) < F ->
    (forall i j, c = ACall (CAssignMove i j) -> unmixed K (aw_alloc x) M c) ->
    exists w' M' b x', aexec F im al (aw_world x) c = (if b : bool then Throw w' else Ret () w') /\ astep F im al x c = Good x' /\
      x' = AWorld w' (after (aw_alloc x) c) (shown_after (aw_shown x) c)
                 (remade (w_heap (aw_world x)) (w_heap w') (aw_maker x) (makes (aw_alloc x) c)) /\
      consistent w' M' /\ from_before K (plain c) (aw_world x) M M' /\ still_there K (plain c) M w' b.
  Proof using All.
    intros H Ho Hv HF Hm. destruct (aexec_origin c (aw_world x) M H Hv HF) as (w' & M' & b & E & H' & Hf & Hs).
    assert (Hset : settle x c w' b = Good (AWorld w' (after (aw_alloc x) c) (shown_after (aw_shown x) c)
                 (remade (w_heap (aw_world x)) (w_heap w') (aw_maker x) (makes (aw_alloc x) c)))).
    { eapply settle_good; try eassumption. intros k d a _ Hl Hk Ha.
      assert (Hcases : (exists i j, c = ACall (CAssignMove i j)) \/ (forall i j, c <> ACall (CAssignMove i j))).
      { destruct c as [| |[]]; try (right; intros; discriminate). left. eauto. }
      destruct Hcases as [(i & j & ->)|Hn]; [|exact (releases_loses _ _ _ Hn Hl)].
      specialize (Hm i j eq_refl). cbn in Hm, Hl |- *. injection Hl as ->. destruct Hm as [Hm|Hm]; [|auto].
      rewrite Hm in Hk. injection Hk as <-. destruct (nil_none F im al K HK HFW a Ha). }
    exists w', M', b. eexists. split; [exact E|]. split; [unfold astep; rewrite E; destruct b; exact Hset|]. auto.
  Qed.

  Lemma astep_ok (x : aworld Nd) M c : consistent (aw_world x) M -> own_made x M -> avalid F im K (aw_world x) M c -> unmixed K (aw_alloc x) M c ->
    size (w_heap (aw_world x)) < F ->
    exists x' M', astep F im al x c = Good x' /\ consistent (aw_world x') M' /\ own_made x' M'.
  Proof using All.
    intros H Ho Hv Hu HF. destruct (astep_run x M c H Ho Hv HF (fun _ _ _ => Hu)) as (w' & M' & b & x' & E & Es & -> & H' & Hf & Hs).
    eexists _, M'. split; [exact Es|]. cbn [aw_world]. split; [exact H'|]. destruct Ho as [Ho1 Ho2]. split; cbn [aw_maker aw_alloc aw_world].
    2:{ intros a Ha. exact (remade_in _ _ _ _ _ Ha). }
    intros k c' a Hk Ha. rewrite remade_lookup by exact (in_heap K w' M' k c' a H' Hk Ha).
    destruct (Hf k c' a Hk Ha) as [[Hn Hg]|(j & d & Ht & Hj & Hin)].
    - rewrite Hn. f_equal. destruct c as [i m|i j|c]; cbn [plain gains] in Hg; [discriminate| |].
      + injection Hg as ->. cbn [makes after]. rewrite put_eq. cbn [unmixed] in Hu. destruct Hu as [Hu|Hu]; [|auto].
        exfalso. cbn [aexec exec avalid valid] in E, Hv. destruct Hv as [Hi Hj]. pose proof H as Hh. apply (to_holds F im al K HK HFW) in Hh.
        destruct (tree_get F im al K HK HFW (aw_world x) M j Hh Hj) as (c & t & Hc & Ht & L).
        destruct (construct_copy_ok F im al K KO (aw_world x) M k j c t Hh Hi Hc Ht ltac:(lia)) as (w2 & c2 & E2 & H2 & _ & El & _).
        rewrite E2 in E. destruct b; [discriminate|]. injection E as <-. apply (to_holds F im al K HK HFW) in H2.
        rewrite (contents_unique HK w2 M' (<[k := c2]> M) H' H2), lookup_insert in Hk. injection Hk as <-.
        rewrite Hu in Hc. injection Hc as <-. rewrite (nil_addrs F im al K KO) in El. destruct (caddrs c2); [apply elem_of_nil in Ha as []|discriminate].
      + destruct c; cbn [gains] in Hg; try discriminate; injection Hg as ->; cbn [makes after]; rewrite ?put_eq; reflexivity.
    - destruct (in_heap K (aw_world x) M j d a H Hj Hin) as [n Hn]. rewrite Hn, (Ho1 j d a Hj Hin). f_equal.
      assert (Hnew : forall i m, M !! i = None -> j = k -> aw_alloc x j = put (aw_alloc x) i m k).
      { intros i m Hi ->. rewrite put_ne; [reflexivity|]. intros ->. congruence. }
      assert (Hnil : forall i, M !! i = Some cnil -> j <> i).
      { intros i Hi ->. rewrite Hi in Hj. injection Hj as <-. exact (nil_none F im al K HK HFW a Hin). }
      destruct c as [i m|i j'|c]; cbn [avalid valid plain takes after unmixed] in *.
      + apply Hnew; assumption.
      + apply Hnew; [apply Hv|exact Ht].
      + destruct c; cbn [valid takes after unmixed] in *; try (subst j; reflexivity).
        * apply Hnew; assumption.
        * apply Hnew; [apply Hv|exact Ht].
        * apply Hnew; [apply Hv|exact Ht].
        * destruct Ht as [[-> ->]|(Hki & _ & ->)]; [rewrite put_eq; reflexivity|rewrite put_ne by exact Hki; reflexivity].
        * destruct Ht as [(-> & -> & _)|(Hki & _ & ->)]; [rewrite put_eq; reflexivity|rewrite put_ne by exact Hki; reflexivity].
        * destruct Hu as [[Hu1 Hu2]|Hu]; destruct Ht as [[-> ->]|[[-> ->]|(_ & _ & ->)]]; auto; [destruct (Hnil _ Hu2 eq_refl)|destruct (Hnil _ Hu1 eq_refl)].
        * destruct src; try (subst j; reflexivity). destruct Ht as [(-> & [->| ->])|(_ & _ & ->)]; [reflexivity| |reflexivity].
          destruct Hu as [Hu|Hu]; [destruct (Hnil _ Hu eq_refl)|auto].
        * destruct src; try (subst j; reflexivity). destruct Ht as [(-> & [->| ->])|(_ & _ & ->)]; [reflexivity| |reflexivity].
          destruct Hu as [Hu|Hu]; [destruct (Hnil _ Hu eq_refl)|auto].
  Qed.

  Lemma areach_own x : areach F im al K x -> exists M, consistent (aw_world x) M /\ own_made x M.
  Proof using All.
    induction 1 as [|x M c x' Hx (M0 & Hc0 & Ho) Hc Hv Hu HF E].
    - exists ∅. split; [|split].
      + constructor; cbn; intros; rewrite ?lookup_empty in *; try discriminate.
        * split; intros [? H]; discriminate.
        * split; [intros [? H]; discriminate|]. intros (i & c & H & _). rewrite lookup_empty in H. discriminate.
      + intros i c a H. discriminate.
      + intros a [m H]. cbn in H. discriminate.
    - assert (M0 = M) as -> by exact (contents_unique HK _ M0 M Hc0 Hc).
      destruct (astep_ok x M c Hc Ho Hv Hu HF) as (x2 & M' & E2 & H'). rewrite E in E2. injection E2 as <-. exists M'. exact H'.
  Qed.

  (** A node of a tree that its allocator did not make: destroying the tree is wrong. *)
  Lemma destroy_wrong (x : aworld Nd) M i c a m : consistent (aw_world x) M -> size (w_heap (aw_world x)) < F -> M !! i = Some c -> a ∈ caddrs c ->
    aw_maker x !! a = Some m -> m <> aw_alloc x i -> astep F im al x (ACall (CDestroy i)) = WrongAllocator.
  Proof using All.
    intros H HF Hi Ha Hm Hne. pose proof H as Hh. apply (to_holds F im al K HK HFW) in Hh.
    pose proof (holds_size _ _ _ _ _ _ _ _ Hh Hi) as L.
    destruct (destroy_ok F im al K KO (aw_world x) M i c Hh Hi ltac:(lia)) as (w' & E & H' & _).
    apply (to_holds F im al K HK HFW) in H'. unfold astep. cbn [aexec exec]. rewrite E. cbn [done]. unfold settle.
    rewrite bool_decide_eq_false_2; [reflexivity|]. intros Hall. apply Hne. apply (Hall a m Hm).
    destruct (w_heap w' !! a) eqn:En; [|reflexivity]. exfalso.
    destruct (proj1 (wo_owned _ _ _ _ _ H' a)) as (k & d & Hk & Had); [eauto|]. apply lookup_delete_Some in Hk as [Hki Hk].
    apply Hki. exact (wo_disjoint _ _ _ _ _ H i k c d a Hi Hk Ha Had).
  Qed.
End Steps.
