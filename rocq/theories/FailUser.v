(** FailUser.v: the calls of FailSpec.v create as many nodes as it says. *)
From Verif Require Import Base Spec StructNode BinaryNode NaryNode Nav Policy Tree User Rep EditSpec World Kinds TreeSpec History
  LitList BinRep NaryRep TreeOps TreeBin TreeNary TreeFacts Fail FailSpec FailFacts.

(** The creation of nodes in Tree.v. *)
Definition original {V Nd} {im : node_impl V Nd} (F : nat) (al : allocator Nd) (x : creation V) (h : gmap addr Nd) : res (addr * gmap addr Nd) :=
  match x with
  | NewValue v => ni_from_value im al h v
  | NewStruct s => ni_from_struct im al h s
  | NewCopy root => ni_copy im F al h root
  end.
Section Try.
  Context {V : Type} {EV : EqDecision V}.
  Lemma try_agrees {Nd} {im : node_impl V Nd} {K} {ti : try_impl V Nd} F al late (x : creation V) h a h' n : fail_kind V EV Nd im K ti -> original (im := im) F al x h = Ok (a, h') -> size h' = size h + n ->
    (forall k, n <= k -> create F ti al late x h k = Made a h' (k - n)) /\
    (forall k, k < n -> exists h2, create F ti al late x h k = Lost h2 /\ (forall y o, h !! y = Some o -> h2 !! y = Some o) /\ size h2 = size h + k + (if late then 1 else 0)).
  Proof.
    intros HK E Hs.
    assert (Hag : exists links, agrees late links h (create F ti al late x) (original (im := im) F al x) (fun a => h !! a = None)).
    { clear E Hs. destruct HK; destruct x as [v|s|root]; cbn.
      - exists blinks. apply b_value_agrees.
      - exists blinks. apply b_struct_agrees.
      - exists blinks. apply b_copy_agrees.
      - exists nlinks. apply n_value_agrees.
      - exists nlinks. apply n_struct_agrees; apply newp_none.
      - exists nlinks. apply n_copy_agrees; apply newp_none. }
    destruct Hag as [links Hag]. specialize (Hag h (inv_self links h)). rewrite E in Hag. destruct Hag as (_ & _ & m & Hm & H1 & H2).
    assert (m = n) as -> by lia. split; [exact H1|]. intros k Hk. destruct (H2 k Hk) as (h2 & E2 & Hi & Hsz). exists h2. split; [exact E2|]. split; [apply Hi|exact Hsz].
  Qed.
End Try.

Lemma fail_is_kind {V} {EV : EqDecision V} {Nd} {im : node_impl V Nd} {K ti} : fail_kind V EV Nd im K ti -> tree_kind V EV Nd im K.
Proof. intros H. destruct H; constructor. Qed.

Section Facts.
  Context {V Nd : Type} {EV : EqDecision V} {im : node_impl V Nd} {K : kind_data V Nd} {ti : try_impl V Nd}.
  Variable HK : fail_kind V EV Nd im K ti.
  Variable F : nat.
  Variable al : allocator Nd.
  Let KO : kind_ok F im al K := kind_is_ok F al (fail_is_kind HK).

  Lemma built_size h h' c : built (caddrs K) (crep K) h h' c -> size h' = size h + length (caddrs K c).
  Proof.
    intros (Hc & Hnew & Hold). pose proof (k_nd _ _ _ _ KO _ _ Hc) as Hnd. pose proof (fun a => k_dom _ _ _ _ KO _ _ a Hc) as Hdom. clear Hc.
    rewrite <- !(size_dom (D := gset addr)), <- (size_list_to_set (C := gset addr)) by exact Hnd.
    rewrite <- size_union.
    - f_equal. apply set_eq. intros x. rewrite elem_of_union, elem_of_list_to_set, !elem_of_dom. split.
      + intros Hx. destruct (decide (x ∈ caddrs K c)) as [Hi|Hi]; [right; exact Hi|]. left. rewrite <- Hold; assumption.
      + intros [Hx|Hx]; [|apply Hdom, Hx]. rewrite Hold; [exact Hx|]. intros Hi. rewrite (Hnew x Hi) in Hx. destruct Hx; discriminate.
    - intros x Hx Hi. apply elem_of_list_to_set in Hi. apply elem_of_dom in Hx. rewrite (Hnew x Hi) in Hx. destruct Hx; discriminate.
  Qed.
  Lemma src_length h s : csrc K h s -> length (caddrs K s) <= size h.
  Proof.
    intros Hs. rewrite <- (size_dom (D := gset addr)), <- (size_list_to_set (C := gset addr)) by exact (k_src_nd _ _ _ _ KO _ _ Hs).
    apply subseteq_size. intros x Hx. apply elem_of_list_to_set in Hx. apply elem_of_dom. exact (k_src_dom _ _ _ _ KO _ _ _ Hs Hx).
  Qed.
  Lemma copy_makes h s p : csrc K h s -> p = croot K s -> size h <= F -> length (caddrs K s) <> 0 ->
    p <> None /\ exists a h', original (im := im) F al (NewCopy p) h = Ok (a, h') /\ size h' = size h + length (caddrs K s).
  Proof.
    intros Hs -> HF Hn. destruct (croot K s) as [a|] eqn:Ea.
    - split; [discriminate|]. pose proof (src_length h s Hs) as Hl.
      destruct (k_copy _ _ _ _ KO h s a Hs Ea ltac:(lia)) as (a' & h' & c' & E & _ & _ & Hlen & _ & Hb). exists a', h'. split; [exact E|].
      rewrite (built_size _ _ _ Hb), Hlen. reflexivity.
    - apply (k_null _ _ _ _ KO) in Ea. subst s. rewrite (proj1 (k_nil _ _ _ _ KO)) in Hn. destruct (Hn eq_refl).
  Qed.
  Lemma struct_makes h l : good_lit K l -> exists a h', original (im := im) F al (NewStruct (eval_lit l)) h = Ok (a, h') /\ size h' = size h + lit_nodes l.
  Proof.
    intros (v & cs & -> & Hl). destruct (k_struct _ _ _ _ KO h v cs Hl) as (a & h' & c' & E & _ & _ & Hlen & _ & Hb). exists a, h'. split; [exact E|].
    rewrite (built_size _ _ _ Hb). rewrite (proj1 (proj2 (p_literals (LNode v cs)))) in Hlen. apply Nat2N.inj in Hlen. rewrite Hlen. reflexivity.
  Qed.
  Lemma tree_makes w M j c : consistent K w M -> M !! j = Some c -> size (w_heap w) <= F -> length (caddrs K c) <> 0 ->
    exists x a h', new_tree (V := V) w j = Some x /\ original (im := im) F al x (w_heap w) = Ok (a, h') /\ size h' = size (w_heap w) + length (caddrs K c).
  Proof.
    intros Hw Hj HF Hn. assert (Ht : is_Some (w_trees w !! j)) by (apply (wo_live _ _ _ _ _ Hw); eauto). destruct Ht as [t Ht].
    destruct (wo_tree _ _ _ _ _ Hw j t c Ht Hj) as (Hr & _ & Hc).
    destruct (copy_makes (w_heap w) c (t_root t) (k_src _ _ _ _ KO _ _ Hc) Hr HF Hn) as (Hnn & a & h' & E & Hs).
    unfold new_tree. rewrite Ht. destruct (t_root t); [|destruct (Hnn eq_refl)]. eauto 6.
  Qed.
  Lemma takes_creates w M c n : consistent K w M -> takes K w M c n -> size (w_heap w) <= F -> n <> 0 ->
    exists x a h', creates w c = Some x /\ original (im := im) F al x (w_heap w) = Ok (a, h') /\ size h' = size (w_heap w) + n.
  Proof.
    intros Hw Ht HF Hn.
    assert (Hsrc : forall src, source_takes K w M src n -> exists x a h', new_source w src = Some x /\ original (im := im) F al x (w_heap w) = Ok (a, h') /\ size h' = size (w_heap w) + n).
    { intros src Hs. destruct Hs as [v|l Hl|j|j c' Hj|t s Hs Hr]; cbn [new_source].
      - destruct (k_value _ _ _ _ KO (w_heap w) v) as (a & h' & c' & E & _ & _ & Hlen & _ & Hb). exists (NewValue v), a, h'. split; [reflexivity|]. split; [exact E|].
        rewrite (built_size _ _ _ Hb), Hlen. reflexivity.
      - destruct (struct_makes (w_heap w) l Hl) as (a & h' & E & Hs). eauto 6.
      - destruct (Hn eq_refl).
      - eapply tree_makes; eassumption.
      - destruct (copy_makes (w_heap w) s (t_root t) Hs Hr HF Hn) as (Hnn & a & h' & E & Hsz). destruct (t_root t); [|destruct (Hnn eq_refl)]. eauto 6. }
    destruct Ht as [i l Hl|i l Hl|i j c' Hj|i j c' Hj|i t s Hs Hr|i pos src n Hs|first emplace i pos src n Hs|c Hc]; cbn [creates].
    - destruct (struct_makes (w_heap w) l Hl) as (a & h' & E & Hs). eauto 6.
    - destruct (struct_makes (w_heap w) l Hl) as (a & h' & E & Hs). eauto 6.
    - eapply tree_makes; eassumption.
    - eapply tree_makes; eassumption.
    - destruct (copy_makes (w_heap w) s (t_root t) Hs Hr HF Hn) as (Hnn & a & h' & E & Hsz). destruct (t_root t); [|destruct (Hnn eq_refl)]. eauto 6.
    - apply Hsrc, Hs.
    - apply Hsrc, Hs.
    - destruct (Hn eq_refl).
  Qed.
  Lemma takes_none w M c n : consistent K w M -> takes K w M c n -> n = 0 -> creates w c = None.
  Proof.
    intros Hw Ht Hn.
    assert (Hlit : forall l, good_lit K l -> lit_nodes l <> 0) by (intros l (v & cs & -> & _); cbn; lia).
    assert (Hnil : forall s p, p = croot K s -> length (caddrs K s) = 0 -> p = None).
    { intros s p -> Hl. destruct (croot K s) as [a|] eqn:Ea; [|reflexivity]. apply (k_root _ _ _ _ KO) in Ea. destruct (caddrs K s); [apply elem_of_nil in Ea as []|discriminate]. }
    assert (Htree : forall j c', M !! j = Some c' -> length (caddrs K c') = 0 -> new_tree (V := V) w j = None).
    { intros j c' Hj Hl. assert (Hti : is_Some (w_trees w !! j)) by (apply (wo_live _ _ _ _ _ Hw); eauto). destruct Hti as [t Hti].
      destruct (wo_tree _ _ _ _ _ Hw j t c' Hti Hj) as (Hr & _). unfold new_tree. rewrite Hti, (Hnil _ _ Hr Hl). reflexivity. }
    assert (Hsrc : forall src, source_takes K w M src n -> new_source w src = None).
    { intros src Hs. destruct Hs as [v|l Hl|j|j c' Hj|t s Hs Hr]; cbn [new_source].
      - discriminate.
      - destruct (Hlit l Hl Hn).
      - reflexivity.
      - eapply Htree; eassumption.
      - rewrite (Hnil _ _ Hr Hn). reflexivity. }
    destruct Ht as [i l Hl|i l Hl|i j c' Hj|i j c' Hj|i t s Hs Hr|i pos src n Hs|first emplace i pos src n Hs|c Hc]; cbn [creates].
    - destruct (Hlit l Hl Hn).
    - destruct (Hlit l Hl Hn).
    - eapply Htree; eassumption.
    - eapply Htree; eassumption.
    - rewrite (Hnil _ _ Hr Hn). reflexivity.
    - apply Hsrc, Hs.
    - apply Hsrc, Hs.
    - destruct c; try discriminate; reflexivity.
  Qed.
End Facts.
