(** ThreadFacts.v: proofs about Threads.v. *)
From Verif Require Import Base Spec StructNode LitFacts BinaryNode NaryNode Nav Policy Tree User Rep NavFacts EditSpec World NaryOps NaryOps2 Kinds TreeSpec TreeOps TreeOps2 TreeOps3 TreeOps4 TreeFacts RoseFacts Threads.

(** *** Fields *)
Lemma get_put_same T f n : is_Some (get_field T f) -> get_field (put_field T f n) f = Some n.
Proof. intros [m Hm]. destruct f; cbn in *; rewrite lookup_alter; destruct (T !! i); cbn in *; congruence. Qed.
Lemma get_put_ne T f g n : g <> f -> get_field (put_field T f n) g = get_field T g.
Proof.
  intros Hne. destruct f as [i|i], g as [j|j]; cbn; destruct (decide (i = j)) as [->|Hij];
    try (rewrite lookup_alter_ne by congruence; reflexivity); try congruence; rewrite lookup_alter; destruct (T !! j); reflexivity.
Qed.
Lemma field_dec (f g : field) : f = g \/ f <> g.
Proof. destruct f as [i|i], g as [j|j]; try (right; discriminate); destruct (decide (i = j)) as [->|H]; auto; right; congruence. Qed.

(** *** A program that gives the answers [Q] whatever the others do *)
Section Good.
  Context {V : Type}.
  Variable v : field -> option N.         (* the right values *)
  Variable wr : bool.                     (* may it write? *)

  Fixpoint good (kn : field -> Prop) (p : prog V) (Q : list (answer V) -> Prop) : Prop :=
    match p with
    | Done l => Q l
    | Fail _ => False
    | Read f k => exists n, v f = Some n /\ (~ kn f -> good kn (k 0%N) Q) /\ good (fun g => g = f \/ kn g) (k n) Q
    | Write f n p => wr = true /\ v f = Some n /\ good (fun g => g = f \/ kn g) p Q
    end.
  Lemma good_mono p : forall (kn kn' : field -> Prop) Q, (forall f, kn f -> kn' f) -> good kn p Q -> good kn' p Q.
  Proof.
    induction p as [l|e|f k IH|f n p IH]; intros kn kn' Q Hk H; cbn in *; auto.
    - destruct H as (n & Hn & H1 & H2). exists n. split; [exact Hn|]. split.
      + intros Hf. eapply IH; [exact Hk|]. apply H1. auto.
      + eapply IH; [|exact H2]. cbn. intros g [->|Hg]; auto.
    - destruct H as (Hw & Hn & H). split; [exact Hw|]. split; [exact Hn|]. eapply IH; [|exact H]. intros g [->|Hg]; auto.
  Qed.
  (** The memory holds 0 or the right value everywhere. *)
  Definition sound (T : gmap tid tree_rec) : Prop :=
    forall f n, v f = Some n -> get_field T f = Some 0%N \/ get_field T f = Some n.
  Definition fine (T : gmap tid tree_rec) (p : prog V) (Q : list (answer V) -> Prop) : Prop :=
    exists kn : field -> Prop, (forall f, kn f -> is_Some (v f) /\ get_field T f = v f) /\ good kn p Q.

  Lemma fine_read T f k Q n : sound T -> fine T (Read f k) Q -> get_field T f = Some n -> fine T (k n) Q.
  Proof.
    intros HT (kn & Hkn & (m & Hm & H1 & H2)) Hn. destruct (HT f m Hm) as [E|E].
    - assert (n = 0%N) by congruence. subst n. destruct (decide (m = 0%N)) as [->|Hne].
      + exists (fun g => g = f \/ kn g). split; [|exact H2]. intros g [->|Hg]; [|auto]. rewrite Hm. split; [eauto|congruence].
      + exists kn. split; [exact Hkn|]. apply H1. intros Hf. destruct (Hkn f Hf) as [_ E']. congruence.
    - assert (n = m) by congruence. subst n. exists (fun g => g = f \/ kn g). split; [|exact H2]. intros g [->|Hg]; [|auto]. rewrite Hm. split; [eauto|congruence].
  Qed.
  Lemma fine_write T f n p Q : sound T -> fine T (Write f n p) Q ->
    wr = true /\ v f = Some n /\ sound (put_field T f n) /\ fine (put_field T f n) p Q.
  Proof.
    intros HT (kn & Hkn & (Hw & Hn & H)). split; [exact Hw|]. split; [exact Hn|].
    assert (Hs : is_Some (get_field T f)) by (destruct (HT f n Hn) as [->| ->]; eauto). split.
    - intros g m Hm. destruct (field_dec g f) as [->|Hne]; [right; rewrite get_put_same by exact Hs; congruence|].
      rewrite get_put_ne by exact Hne. apply HT, Hm.
    - exists (fun g => g = f \/ kn g). split; [|exact H]. intros g Hg. destruct (field_dec g f) as [->|Hne].
      + rewrite get_put_same by exact Hs. split; [eauto|congruence].
      + destruct Hg as [->|Hg]; [congruence|]. rewrite get_put_ne by exact Hne. auto.
  Qed.
  Lemma fine_other T f n p Q : sound T -> v f = Some n -> fine T p Q -> fine (put_field T f n) p Q.
  Proof.
    intros HT Hn (kn & Hkn & H). exists kn. split; [|exact H]. intros g Hg. destruct (Hkn g Hg) as [Hs E]. split; [exact Hs|].
    destruct (field_dec g f) as [->|Hne]; [|rewrite get_put_ne by exact Hne; exact E].
    rewrite get_put_same; [congruence|]. destruct (HT f n Hn) as [->| ->]; eauto.
  Qed.
End Good.

(** *** Bounded programs *)
Fixpoint short {V} (p : prog V) (n : nat) : Prop :=
  match p with
  | Done _ | Fail _ => True
  | Read f k => match n with 0 => False | S n => forall x, short (k x) n end
  | Write f m p => match n with 0 => False | S n => short p n end
  end.
Lemma short_mono {V} (p : prog V) : forall n m, n <= m -> short p n -> short p m.
Proof.
  induction p as [l|e|f k IH|f x p IH]; intros n m Hle H; cbn in *; auto.
  - destruct n as [|n]; [contradiction|]. destruct m as [|m]; [lia|]. intros y. apply (IH y n m); [lia|apply H].
  - destruct n as [|n]; [contradiction|]. destruct m as [|m]; [lia|]. apply (IH n m); [lia|exact H].
Qed.
Lemma short_ok {V A} (r : res A) (k : A -> prog V) n : (forall a, short (k a) n) -> short (ok r k) n.
Proof. destruct r; cbn; auto. Qed.

Section Short.
  Context {V Nd : Type}.
  Variable F : nat.
  Variable im : node_impl V Nd.

  Lemma p_size_short w i r (k : N -> prog V) n : (forall x, short (k x) n) -> short (p_size F im w i r k) (3 + n).
  Proof.
    intros H. unfold p_size. destruct (is_null r); cbn; intros x.
    - apply (short_mono _ n); [lia|apply H].
    - destruct (x =? 0)%N; cbn; [|intros y; apply (short_mono _ n); [lia|apply H]].
      apply short_ok. intros m. cbn. exact H.
  Qed.
  Lemma p_arity_short w i r (k : N -> prog V) n : (forall x, short (k x) n) -> short (p_arity F im w i r k) (3 + n).
  Proof.
    intros H. unfold p_arity. destruct (is_null r); cbn; intros x.
    - apply (short_mono _ n); [lia|apply H].
    - destruct (x =? 0)%N; cbn; [|intros y; apply (short_mono _ n); [lia|apply H]].
      apply short_ok. intros [b|]; [|cbn; intros y; apply (short_mono _ n); [lia|apply H]]. apply short_ok. intros m. cbn. exact H.
  Qed.
  Lemma p_eq_short w i j a b (k : bool -> prog V) n : (forall x, short (k x) n) -> short (p_eq F im w i j a b k) (12 + n).
  Proof.
    intros H. assert (Hm : forall x m, n <= m -> short (k x) m) by (intros; apply (short_mono _ n); auto). unfold p_eq. destruct (negb _); [apply Hm; lia|].
    apply (p_size_short w i a _ (9 + n)). intros s1. apply (p_size_short w j b _ (6 + n)). intros s2. destruct (negb _); [apply Hm; lia|].
    apply (p_arity_short w i a _ (3 + n)). intros r1. apply (p_arity_short w j b _ n). intros r2. destruct (negb _); [apply Hm; lia|].
    destruct (is_null a && is_null b); [apply Hm; lia|]. apply short_ok. exact H.
  Qed.
  Lemma p_eq_lit_short w i a s (k : bool -> prog V) n : (forall x, short (k x) n) -> short (p_eq_lit F im w i a s k) (6 + n).
  Proof.
    intros H. assert (Hm : forall x m, n <= m -> short (k x) m) by (intros; apply (short_mono _ n); auto). unfold p_eq_lit. destruct (is_empty_node s); [apply Hm; lia|].
    apply (p_size_short w i a _ (3 + n)). intros s1. destruct (negb _); [apply Hm; lia|].
    apply (p_arity_short w i a _ n). intros r1. destruct (negb _); [apply Hm; lia|]. destruct a; [|apply Hm; lia]. apply short_ok. exact H.
  Qed.
  Lemma p_call_short w c (k : answer V -> prog V) n : (forall x, short (k x) n) -> short (p_call F im w c k) (12 + n).
  Proof.
    intros H. assert (Hm : forall x m, n <= m -> short (k x) m) by (intros; apply (short_mono _ n); auto).
    destruct c; cbn [p_call]; apply short_ok; intros t.
    - apply Hm. lia.
    - apply (p_size_short w i _ _ (9 + n)). intros x. apply Hm. lia.
    - apply (p_arity_short w i _ _ (9 + n)). intros x. apply Hm. lia.
    - apply short_ok. intros u. apply p_eq_short. intros b. apply H.
    - apply (p_eq_lit_short w i _ _ _ (6 + n)). intros x. apply Hm. lia.
    - apply short_ok. intros l. apply Hm. lia.
  Qed.
  Lemma p_calls_short w cs : forall done, short (p_calls F im w cs done) (12 * length cs).
  Proof.
    induction cs as [|c cs IH]; intros done; cbn [p_calls length]; [exact I|].
    replace (12 * S (length cs)) with (12 + 12 * length cs) by lia. apply p_call_short. intros x. apply IH.
  Qed.

End Short.

Section Calls.
  Context {V : Type} {EV : EqDecision V} {Nd : Type}.
  Variable F : nat.
  Variable im : node_impl V Nd.
  Variable al : allocator Nd.
  Variable K : kind_data V Nd.
  Hypothesis HK : tree_kind V EV Nd im K.
  Hypothesis HFW : (N.of_nat F <= W64)%N.
  Let KO := kind_is_ok F al HK.
  Notation C := (C K).
  Notation croot := (croot K).
  Notation caddrs := (caddrs K).
  Notation holds := (World.holds (croot) (caddrs) (crep K)).
  Notation len c := (length (caddrs c)).

  (** A node that has a first child has children. *)
  Lemma first_arity h c a b : csrc K h c -> croot c = Some a -> op_first (ni_ops im h) (Some a) = Ok (Some b) -> carity K c <> 0.
  Proof.
    clear KO al HFW. intros Hc Ha Hb. destruct HK; cbn in *.
    - destruct c as [|[a' x] l r]; cbn in *; [discriminate|]. injection Ha as ->. destruct Hc as (par & (Hlook & Hl & Hr) & Hn).
      unfold b_first, deref in Hb. rewrite Hlook in Hb. cbn in Hb.
      destruct l as [|y l1 l2], r as [|z r1 r2]; cbn in *; try discriminate; lia.
    - destruct c as [[[a' x] cs]|]; cbn in *; [|discriminate]. injection Ha as ->. destruct Hc as ((par & prev & (Hlook & _)) & Hn).
      unfold n_first, deref in Hb. rewrite Hlook in Hb. cbn in Hb.
      destruct cs; cbn in *; [discriminate|lia].
  Qed.

  (** *** The programs of the calls are good *)
  Variable w : world Nd.
  Variable M : gmap tid C.
  Hypothesis H : holds w M [].
  Hypothesis HF : size (w_heap w) < F.
  (** The right value of a member. *)
  Definition value_of (f : field) : option N :=
    match f with
    | SizeOf i => (fun c => N.of_nat (len c)) <$> M !! i
    | ArityOf i => (fun c => N.of_nat (carity K c)) <$> M !! i
    end.
  Notation good := (good value_of).
  Variable wr : bool.

  Lemma p_size_good kn i c k Q : M !! i = Some c -> wr = true \/ kn (SizeOf i) ->
    good wr kn (k (N.of_nat (len c))) Q -> good wr kn (p_size F im w i (croot c) k) Q.
  Proof using All.
    intros Hi Hwr Hk. assert (Hv : value_of (SizeOf i) = Some (N.of_nat (len c))) by (cbn; rewrite Hi; reflexivity).
    pose proof (holds_size _ _ _ _ _ _ _ _ H Hi) as Lc.
    assert (Hend : forall kn' : field -> Prop, (forall f, kn f -> kn' f) -> kn' (SizeOf i) -> good wr kn' (Read (SizeOf i) k) Q).
    { intros kn' Hm Hkn. cbn. exists (N.of_nat (len c)). split; [exact Hv|]. split; [tauto|]. eapply good_mono; [|exact Hk]. auto. }
    unfold p_size. destruct (croot c) as [a|] eqn:Ec; cbn [is_null].
    - cbn -[N.eqb]. exists (N.of_nat (len c)). split; [exact Hv|]. split.
      + intros Hn. destruct Hwr as [Hwr|Hwr]; [|contradiction]. cbn [N.eqb].
        rewrite (k_size _ _ _ _ KO (w_heap w) c a); [|eapply rep_src, holds_rep; eassumption|exact Ec|lia]. cbn [ok].
        rewrite (lt_szt F HFW) by lia. split; [exact Hwr|]. split; [exact Hv|]. apply Hend; auto.
      + destruct (N.eqb_spec (N.of_nat (len c)) 0) as [Hz|Hz]; [|apply Hend; auto].
        exfalso. assert (Hin : a ∈ caddrs c) by (eapply (k_root _ _ _ _ KO); eassumption). destruct (caddrs c); [apply elem_of_nil in Hin as []|cbn in Hz; lia].
    - cbn. exists (N.of_nat (len c)). split; [exact Hv|]. apply (k_null _ _ _ _ KO) in Ec. subst c. rewrite (nil_addrs F im al K KO) in *. cbn in *.
      split; [intros _; exact Hk|]. eapply good_mono; [|exact Hk]. auto.
  Qed.
  Lemma p_arity_good kn i c k Q : M !! i = Some c -> wr = true \/ kn (ArityOf i) ->
    good wr kn (k (N.of_nat (carity K c))) Q -> good wr kn (p_arity F im w i (croot c) k) Q.
  Proof using All.
    intros Hi Hwr Hk. assert (Hv : value_of (ArityOf i) = Some (N.of_nat (carity K c))) by (cbn; rewrite Hi; reflexivity).
    pose proof (holds_size _ _ _ _ _ _ _ _ H Hi) as Lc.
    assert (Hend : forall kn' : field -> Prop, (forall f, kn f -> kn' f) -> kn' (ArityOf i) \/ carity K c = 0 -> good wr kn' (Read (ArityOf i) k) Q).
    { intros kn' Hm Hkn. cbn. exists (N.of_nat (carity K c)). split; [exact Hv|]. split.
      - intros Hnk. destruct Hkn as [Hkn|Hkn]; [contradiction|]. rewrite Hkn in Hk. eapply good_mono; [|exact Hk]. auto.
      - eapply good_mono; [|exact Hk]. auto. }
    unfold p_arity. destruct (croot c) as [a|] eqn:Ec; cbn [is_null].
    - assert (Hc : csrc K (w_heap w) c) by (eapply rep_src, holds_rep; eassumption).
      destruct (k_arity _ _ _ _ KO (w_heap w) c a Hc Ec ltac:(lia) ltac:(lia)) as (fc & Hf & Hn & Ha).
      cbn -[N.eqb]. exists (N.of_nat (carity K c)). split; [exact Hv|]. split.
      + intros Hnk. destruct Hwr as [Hwr|Hwr]; [|contradiction]. cbn [N.eqb]. rewrite Hf. cbn [ok]. destruct fc as [b|]; [|apply Hend; auto].
        rewrite Ha. cbn [ok]. split; [exact Hwr|]. split; [exact Hv|]. apply Hend; auto.
      + destruct (N.eqb_spec (N.of_nat (carity K c)) 0) as [Hz|Hz]; [|apply Hend; auto].
        rewrite Hf. cbn [ok]. destruct fc as [b|]; [|apply Hend; auto]. destruct (first_arity _ _ _ _ Hc Ec Hf). lia.
    - cbn. exists (N.of_nat (carity K c)). split; [exact Hv|]. apply (k_null _ _ _ _ KO) in Ec. subst c. rewrite (nil_arity F im al K KO) in *. cbn in *.
      split; [intros _; exact Hk|]. eapply good_mono; [|exact Hk]. auto.
  Qed.

  Definition may (kn : field -> Prop) (c : call V) : Prop :=
    wr = true \/ forall i, i ∈ mentions c -> kn (SizeOf i) /\ kn (ArityOf i).

  Lemma p_call_good kn c k Q : callable K F im w M c -> may kn c ->
    (forall a, right K F im w M c a -> good wr kn (k a) Q) -> good wr kn (p_call F im w c k) Q.
  Proof using All.
    intros Hc Hm Hk.
    assert (Hs : forall i, i ∈ mentions c -> wr = true \/ kn (SizeOf i)) by (intros i Hi; destruct Hm as [|Hm]; [auto|right; apply (Hm i Hi)]).
    assert (Har : forall i, i ∈ mentions c -> wr = true \/ kn (ArityOf i)) by (intros i Hi; destruct Hm as [|Hm]; [auto|right; apply (Hm i Hi)]).
    destruct c as [i|i|i|i j|i l|i kd]; cbn [p_call mentions callable right] in *.
    - destruct Hc as [c Hi]. destruct (holds_get _ _ _ _ _ _ _ _ H Hi) as (t & _ & Hg & Hr & _). rewrite Hg. cbn [ok]. rewrite Hr. apply Hk. eauto.
    - destruct Hc as [c Hi]. destruct (holds_get _ _ _ _ _ _ _ _ H Hi) as (t & _ & Hg & Hr & _). rewrite Hg. cbn [ok]. rewrite Hr.
      apply p_size_good; [exact Hi|apply Hs; set_solver|]. apply Hk. eauto.
    - destruct Hc as [c Hi]. destruct (holds_get _ _ _ _ _ _ _ _ H Hi) as (t & _ & Hg & Hr & _). rewrite Hg. cbn [ok]. rewrite Hr.
      apply p_arity_good; [exact Hi|apply Har; set_solver|]. apply Hk. eauto.
    - destruct Hc as [[c Hi] [d Hj]]. destruct (holds_get _ _ _ _ _ _ _ _ H Hi) as (a & _ & Hga & Hra & _). destruct (holds_get _ _ _ _ _ _ _ _ H Hj) as (b & _ & Hgb & Hrb & _).
      rewrite Hga. cbn [ok]. rewrite Hgb. cbn [ok]. rewrite Hra, Hrb.
      pose proof (holds_size _ _ _ _ _ _ _ _ H Hi) as Lc. pose proof (holds_size _ _ _ _ _ _ _ _ H Hj) as Ld.
      assert (Hans : forall r, (r = true <-> cvals K c = cvals K d) -> good wr kn (k (ABool r)) Q).
      { intros r Hr. apply Hk. exists c, d, r. auto. }
      unfold p_eq. destruct (Bool.eqb (is_null (croot c)) (is_null (croot d))) eqn:Ee; cbn [negb].
      2:{ apply Hans. split; [discriminate|]. intros Hv. exfalso.
          destruct (k_vals _ _ _ _ KO c d Hv) as (_ & _ & Hn). apply Bool.eqb_false_iff in Ee.
          destruct (croot c), (croot d); cbn in *; try congruence; destruct Hn as [Hn1 Hn2]; try (specialize (Hn1 eq_refl); discriminate); specialize (Hn2 eq_refl); discriminate. }
      apply p_size_good; [exact Hi|apply Hs; left|]. apply p_size_good; [exact Hj|apply Hs; right; left|].
      destruct (N.eqb_spec (N.of_nat (len c)) (N.of_nat (len d))) as [Es|Es]; cbn [negb].
      2:{ apply Hans. split; [discriminate|]. intros Hv. destruct (k_vals _ _ _ _ KO c d Hv) as (Hl & _). rewrite Hl in Es. congruence. }
      apply p_arity_good; [exact Hi|apply Har; left|]. apply p_arity_good; [exact Hj|apply Har; right; left|].
      destruct (N.eqb_spec (N.of_nat (carity K c)) (N.of_nat (carity K d))) as [Ea|Ea]; cbn [negb].
      2:{ apply Hans. split; [discriminate|]. intros Hv. destruct (k_vals _ _ _ _ KO c d Hv) as (_ & Hl & _). rewrite Hl in Ea. congruence. }
      destruct (croot c) as [ra|] eqn:Erc, (croot d) as [rb|] eqn:Erd; cbn in Ee |- *; try discriminate.
      + destruct (k_eq _ _ _ _ KO (w_heap w) (w_heap w) c d ra rb) as (r & Hr & Hiff).
        { eapply rep_src, holds_rep; eassumption. } { eapply rep_src, holds_rep; eassumption. }
        { exact Erc. } { exact Erd. } { lia. } { lia. } { lia. }
        rewrite Hr. cbn [ok]. apply Hans, Hiff.
      + apply Hans. apply (k_null _ _ _ _ KO) in Erc, Erd. subst. tauto.
    - destruct Hc as [[c Hi] Hl]. destruct (holds_get _ _ _ _ _ _ _ _ H Hi) as (a & _ & Hga & Hra & _). rewrite Hga. cbn [ok]. rewrite Hra.
      pose proof (holds_size _ _ _ _ _ _ _ _ H Hi) as Lc. unfold p_eq_lit. destruct l as [|v cs].
      { cbn. apply Hk. exists c, (is_null (croot c)). split; [exact Hi|]. split; [reflexivity|]. split.
          - destruct (croot c) eqn:E0; cbn; [discriminate|]. intros _. apply (k_null _ _ _ _ KO), E0.
          - intros ->. rewrite (nil_root F im al K KO). reflexivity. }
      assert (is_empty_node (eval_lit (LNode v cs)) = false) as -> by (destruct cs; reflexivity).
      assert (Hans : forall r, (r = true <-> cvals K c = lit_vals K (LNode v cs)) -> good wr kn (k (ABool r)) Q).
      { intros r Hr. apply Hk. exists c, r. auto. }
      apply p_size_good; [exact Hi|apply Hs; left|].
      destruct (N.eqb_spec (N.of_nat (len c)) (subtree_size (eval_lit (LNode v cs)))) as [Es|Es]; cbn [negb].
      2:{ apply Hans. split; [discriminate|]. intros Hv. destruct (k_lit _ _ _ _ KO c v cs Hl Hv) as [Hx _]. congruence. }
      apply p_arity_good; [exact Hi|apply Har; left|].
      destruct (N.eqb_spec (N.of_nat (carity K c)) (subtree_arity (eval_lit (LNode v cs)))) as [Ea|Ea]; cbn [negb].
      2:{ apply Hans. split; [discriminate|]. intros Hv. destruct (k_lit _ _ _ _ KO c v cs Hl Hv) as [_ Hx]. congruence. }
      destruct (croot c) as [ra|] eqn:Erc.
      + destruct (k_eq_struct _ _ _ _ KO (w_heap w) c ra v cs Hl) as (r & Hr & Hiff).
        { eapply rep_src, holds_rep; eassumption. } { exact Erc. } { lia. }
        rewrite Hr. cbn [ok]. apply Hans, Hiff.
      + apply Hans. split; [discriminate|]. intros Hv. destruct (k_lit_root _ _ _ _ KO c v cs Hl Hv Erc).
    - destruct Hc as (c & l & Hi & Hl). destruct (holds_get _ _ _ _ _ _ _ _ H Hi) as (t & _ & Hg & Hr & _). rewrite Hg. cbn [ok]. rewrite Hr, Hl. cbn [ok].
      apply Hk. eauto.
  Qed.
  Lemma p_calls_good kn cs : forall done before, Forall (callable K F im w M) cs -> Forall (may kn) cs -> Forall2 (right K F im w M) before done ->
    good wr kn (p_calls F im w cs done) (Forall2 (right K F im w M) (before ++ cs)).
  Proof using All.
    induction cs as [|c cs IH]; intros done before Hc Hm Hd; cbn [p_calls].
    - rewrite app_nil_r. exact Hd.
    - apply Forall_cons in Hc as [Hc Hcs], Hm as [Hm Hms]. apply p_call_good; [exact Hc|exact Hm|]. intros a Ha.
      change (c :: cs) with ([c] ++ cs). rewrite app_assoc. apply IH; [exact Hcs|exact Hms|]. apply Forall2_app; [exact Hd|]. constructor; [exact Ha|constructor].
  Qed.
End Calls.

(** *** Executions *)
Section Runs.
  Context {V : Type} {EV : EqDecision V} {Nd : Type}.
  Variable F : nat.
  Variable im : node_impl V Nd.
  Variable al : allocator Nd.
  Variable K : kind_data V Nd.
  Hypothesis HK : tree_kind V EV Nd im K.
  Hypothesis HFW : (N.of_nat F <= W64)%N.
  Variable w : world Nd.
  Variable M : gmap tid (C K).
  Notation holds := (World.holds (croot K) (caddrs K) (crep K)).
  Hypothesis H : holds w M [].
  Hypothesis HF : size (w_heap w) < F.
  Variable cs : list (list (call V)).
  Hypothesis Hcs : Forall (Forall (callable K F im w M)) cs.
  Variable wr : bool.
  Notation vo := (value_of K M).

  Definition inv (s : state V Nd) : Prop :=
    w_heap (s_world s) = w_heap w /\ sound vo (w_trees (s_world s)) /\ holds (s_world s) M [] /\
    length (s_threads s) = length cs /\
    (forall n l p, cs !! n = Some l -> s_threads s !! n = Some p -> fine vo wr (w_trees (s_world s)) p (Forall2 (right K F im w M) l)) /\
    (wr = false -> s_world s = w).

  Lemma holds_put h T f n : holds (World h T) M [] -> vo f = Some n -> holds (World h (put_field T f n)) M [].
  Proof.
    clear -HK. intros HT Hf. assert (exists i t c, T !! i = Some t /\ M !! i = Some c /\ exists t', t_root t' = t_root t /\ t_nav t' = t_nav t /\ put_field T f n = <[i := t']> T) as (i & t & c & Ht & Hc & t' & Hr & Hn & E).
    { destruct f as [i|i]; cbn in Hf; destruct (M !! i) as [c|] eqn:Hc; try discriminate;
        destruct (holds_get _ _ _ _ _ _ _ _ HT Hc) as (t & Ht & _ & _ & _); cbn in Ht; exists i, t, c; (split; [exact Ht|]); (split; [exact Hc|]);
        eexists; (split; [|split; [|cbn; apply map_eq; intros j; destruct (decide (i = j)) as [<-|Hne];
          [rewrite lookup_alter, lookup_insert, Ht; reflexivity|rewrite lookup_alter_ne, lookup_insert_ne by exact Hne; reflexivity]]]); reflexivity. }
    rewrite E. destruct (holds_get _ _ _ _ _ _ _ _ HT Hc) as (t0 & Ht0 & _ & Hr0 & Hn0). cbn in Ht0. rewrite Ht in Ht0. injection Ht0 as <-.
    apply (holds_cache _ _ _ (World h T) M [] i t' c HT Hc); congruence.
  Qed.

  Lemma access_inv n s s' : inv s -> access n s s' -> inv s'.
  Proof.
    clear -HK H HF Hcs. intros (Hh & Hs & Ho & Hl & Hp & Hw) Ha. destruct Ha as [T0 H0 ps f k v Hn Hv|T0 H0 ps f v p Hn Hv]; unfold inv; cbn [s_world s_threads w_heap w_trees] in *.
    - split; [exact Hh|]. split; [exact Hs|]. split; [exact Ho|]. split; [rewrite insert_length; exact Hl|]. split; [|exact Hw].
      intros m l q Hm Hq. destruct (decide (n = m)) as [<-|Hne]; [|rewrite list_lookup_insert_ne in Hq by exact Hne; eauto].
      rewrite list_lookup_insert in Hq by (apply lookup_lt_Some in Hn; exact Hn). injection Hq as <-. eapply fine_read; eauto.
    - assert (Hnl : is_Some (cs !! n)) by (apply lookup_lt_is_Some; rewrite <- Hl; apply lookup_lt_Some in Hn; exact Hn). destruct Hnl as [ln Hln].
      destruct (fine_write _ _ _ _ _ _ _ Hs (Hp n ln _ Hln Hn)) as (Hwr & Hvf & Hs' & Hf').
      split; [exact Hh|]. split; [exact Hs'|]. split; [apply holds_put; assumption|]. split; [rewrite insert_length; exact Hl|]. split; [|congruence].
      intros m l q Hm Hq. destruct (decide (n = m)) as [<-|Hne].
      + rewrite list_lookup_insert in Hq by (apply lookup_lt_Some in Hn; exact Hn). injection Hq as <-. assert (l = ln) by congruence. subst l. exact Hf'.
      + rewrite list_lookup_insert_ne in Hq by exact Hne. apply fine_other; eauto.
  Qed.
  Lemma start_inv : caches K w M -> (wr = true \/ forall l c i, l ∈ cs -> c ∈ l -> i ∈ mentions c -> known K w M i) -> inv (start F im w cs).
  Proof using All.
    intros Hca Hkn. unfold inv, start. cbn [s_world s_threads]. split; [reflexivity|]. split; [|split; [exact H|]].
    - intros f n Hf. destruct f as [i|i]; cbn in Hf |- *; destruct (M !! i) as [c|] eqn:Hc; try discriminate; injection Hf as <-;
        destruct (holds_get _ _ _ _ _ _ _ _ H Hc) as (t & Ht & _); rewrite Ht; cbn; destruct (Hca i t c Ht Hc) as [[H1|H1] [H2|H2]]; rewrite ?H1, ?H2; auto.
    - split; [rewrite map_length; reflexivity|]. split; [|auto]. intros n l p Hl Hp. rewrite list_lookup_fmap, Hl in Hp. cbn in Hp. injection Hp as <-.
      assert (Hin : l ∈ cs) by (eapply elem_of_list_lookup_2; exact Hl).
      exists (fun f => is_Some (vo f) /\ get_field (w_trees w) f = vo f). split; [auto|].
      apply (p_calls_good F im al K HK HFW w M H HF wr _ l [] []); [|apply Forall_forall|constructor].
      + apply (proj1 (Forall_forall _ _) Hcs), Hin.
      + intros c Hc. unfold may. destruct Hkn as [->|Hkn]; [auto|]. right. intros i Hi.
        assert (Hm : is_Some (M !! i)).
        { pose proof (proj1 (Forall_forall _ _) (proj1 (Forall_forall _ _) Hcs l Hin) c Hc) as Hcal. clear -Hcal Hi.
          destruct c; cbn in *; try (apply elem_of_list_singleton in Hi; subst i); try tauto.
          - apply elem_of_cons in Hi as [->|Hi]; [tauto|]. apply elem_of_list_singleton in Hi. subst. tauto.
          - destruct Hcal as (x & l & Hx & _). eauto. }
        destruct Hm as [x Hx]. destruct (holds_get _ _ _ _ _ _ _ _ H Hx) as (t & Ht & _). destruct (Hkn l c i Hin Hc Hi t x Ht Hx) as [K1 K2].
        cbn. rewrite Hx, Ht. cbn. rewrite K1, K2. eauto.
  Qed.
  Lemma nsteps_inv m s s' : nsteps step m s s' -> inv s -> inv s'.
  Proof.
    clear -HK H HF Hcs. induction 1 as [|m s s1 s2 [n Hn] _ IH]; [auto|]. intros Hi. apply IH. eapply access_inv; eassumption.
  Qed.
  Lemma fine_go s n l p : inv s -> cs !! n = Some l -> s_threads s !! n = Some p ->
    (exists s', access n s s') \/ exists r, p = Done r /\ Forall2 (right K F im w M) l r.
  Proof.
    clear -HK H HF Hcs. intros (Hh & Hs & Ho & Hl & Hp & Hw) Hc Hn. pose proof (Hp n l p Hc Hn) as (kn & Hkn & Hg). destruct s as [[h T] ps]. cbn in *.
    destruct p as [r|e|f k|f v p]; cbn in Hg.
    - right. eauto.
    - contradiction.
    - destruct Hg as (v & Hv & _). left. destruct (Hs f v Hv) as [E|E]; eexists; econstructor; eassumption.
    - destruct Hg as (_ & Hv & _). left. destruct (Hs f v Hv) as [E|E]; eexists; eapply do_write; eauto.
  Qed.

  (** Every execution is short. *)
  Lemma sum_insert (bs : list nat) : forall n b, bs !! n = Some (S b) -> S (list_sum (<[n := b]> bs)) = list_sum bs.
  Proof.
    clear. induction bs as [|x bs IH]; intros n b Hbn; [discriminate|]. destruct n as [|n].
    - injection Hbn as ->. reflexivity.
    - change (S (x + list_sum (<[n := b]> bs)) = x + list_sum bs). rewrite <- (IH n b Hbn). lia.
  Qed.
  Lemma access_short n (s s' : state V Nd) bs : Forall2 short (s_threads s) bs -> access n s s' ->
    exists bs', Forall2 short (s_threads s') bs' /\ S (list_sum bs') = list_sum bs.
  Proof.
    clear. intros Hb Ha.
    assert (exists p p', s_threads s !! n = Some p /\ s_threads s' = <[n := p']> (s_threads s) /\ forall b, short p b -> exists b', b = S b' /\ short p' b') as (p & p' & Hp & Hp' & Hsh).
    { destruct Ha as [T0 H0 ps f k v Hn Hv|T0 H0 ps f v p Hn Hv]; cbn in *.
      - exists (Read f k), (k v). split; [exact Hn|]. split; [reflexivity|]. intros [|b] Hb'; cbn in Hb'; [contradiction|eauto].
      - exists (Write f v p), p. split; [exact Hn|]. split; [reflexivity|]. intros [|b] Hb'; cbn in Hb'; [contradiction|eauto]. }
    destruct (Forall2_lookup_l _ _ _ _ _ Hb Hp) as (b & Hbn & Hsb). destruct (Hsh b Hsb) as (b' & -> & Hs').
    exists (<[n := b']> bs). rewrite Hp'. split; [apply Forall2_insert; assumption|].
    apply sum_insert, Hbn.
  Qed.
  Lemma nsteps_short m (s s' : state V Nd) : nsteps step m s s' -> forall bs, Forall2 short (s_threads s) bs -> m <= list_sum bs.
  Proof.
    clear. intros Hst. induction Hst as [|m s s1 s2 [n Hn] Hst IH]; intros bs Hb; [lia|].
    destruct (access_short n s s1 bs Hb Hn) as (bs' & Hb' & E). specialize (IH bs' Hb'). lia.
  Qed.
  Lemma start_short : Forall2 short (s_threads (start F im w cs)) (map (fun l => 12 * length l) cs).
  Proof.
    clear. cbn [start s_threads]. induction cs as [|l ls IH]; cbn [map]; [constructor|]. apply List.Forall2_cons; [apply p_calls_short|exact IH].
  Qed.
  Lemma total_length : list_sum (map (fun l => 12 * length l) cs) = 12 * length (concat cs).
  Proof. clear. induction cs as [|l ls IH]; [reflexivity|]. cbn [map concat]. rewrite app_length. cbn -[Nat.mul]. unfold list_sum in *. cbn -[Nat.mul] in *. lia. Qed.
  Lemma inv_caches s : inv s -> caches K (s_world s) M.
  Proof.
    clear -H. intros (Hh & Hs & Ho & _) k t c Ht Hc. split.
    - specialize (Hs (SizeOf k)). cbn in Hs. rewrite Ht, Hc in Hs. cbn in Hs. destruct (Hs _ eq_refl) as [E|E]; injection E as E; auto.
    - specialize (Hs (ArityOf k)). cbn in Hs. rewrite Ht, Hc in Hs. cbn in Hs. destruct (Hs _ eq_refl) as [E|E]; injection E as E; auto.
  Qed.
End Runs.

(** *** One thread alone: the functions of Tree.v *)
Section Solo.
  Context {V Nd : Type}.
  Variable F : nat.
  Variable im : node_impl V Nd.
  Variable w : world Nd.
  Notation h := (w_heap w).

  Lemma solo_ok {A} T (r : res A) (k : A -> prog V) : solo T (ok r k) = (a ← r; solo T (k a)).
  Proof. destruct r; reflexivity. Qed.
  Lemma put_size T i t n : T !! i = Some t -> put_field T (SizeOf i) n = <[i := TreeRec (t_root t) n (t_arity t) (t_nav t)]> T.
  Proof.
    intros Ht. apply map_eq. intros j. cbn. destruct (decide (i = j)) as [<-|Hne]; [rewrite lookup_alter, lookup_insert, Ht; reflexivity|].
    rewrite lookup_alter_ne, lookup_insert_ne by exact Hne. reflexivity.
  Qed.
  Lemma put_arity T i t n : T !! i = Some t -> put_field T (ArityOf i) n = <[i := TreeRec (t_root t) (t_size t) n (t_nav t)]> T.
  Proof.
    intros Ht. apply map_eq. intros j. cbn. destruct (decide (i = j)) as [<-|Hne]; [rewrite lookup_alter, lookup_insert, Ht; reflexivity|].
    rewrite lookup_alter_ne, lookup_insert_ne by exact Hne. reflexivity.
  Qed.
  Lemma solo_size T i t k : T !! i = Some t ->
    solo T (p_size F im w i (t_root t) k) = ('(s, t') ← size_of F im h t; solo (<[i := t']> T) (k s)).
  Proof.
    intros Ht. unfold p_size, size_of, tree_empty. destruct (is_null (t_root t)); cbn [negb andb].
    - cbn. rewrite Ht. cbn. rewrite (insert_id _ _ _ Ht). reflexivity.
    - cbn -[N.eqb]. rewrite Ht. cbn -[N.eqb]. destruct (t_size t =? 0)%N.
      + rewrite solo_ok. destruct (ni_size im F h (t_root t)) as [n|e]; [|reflexivity]. cbn [mbind res_bind solo].
        rewrite get_put_same by (cbn; rewrite Ht; eauto). rewrite (put_size T i t n Ht). reflexivity.
      + cbn. rewrite Ht. cbn. rewrite (insert_id _ _ _ Ht). reflexivity.
  Qed.
  Lemma solo_arity T i t k : T !! i = Some t ->
    solo T (p_arity F im w i (t_root t) k) = ('(s, t') ← arity_of F im h t; solo (<[i := t']> T) (k s)).
  Proof.
    intros Ht. unfold p_arity, arity_of, tree_empty. destruct (is_null (t_root t)); cbn [negb andb].
    - cbn. rewrite Ht. cbn. rewrite (insert_id _ _ _ Ht). reflexivity.
    - cbn -[N.eqb]. rewrite Ht. cbn -[N.eqb]. destruct (t_arity t =? 0)%N.
      + rewrite solo_ok. destruct (op_first (ni_ops im h) (t_root t)) as [[b|]|e]; [| |reflexivity]; cbn [mbind res_bind].
        * rewrite solo_ok. destruct (calculate_arity F im h (t_root t) (max_expected im)) as [n|e]; [|reflexivity]. cbn [mbind res_bind solo].
          rewrite get_put_same by (cbn; rewrite Ht; eauto). rewrite (put_arity T i t n Ht). reflexivity.
        * cbn. rewrite Ht. cbn. rewrite (insert_id _ _ _ Ht). reflexivity.
      + cbn. rewrite Ht. cbn. rewrite (insert_id _ _ _ Ht). reflexivity.
  Qed.
  (** [T] is the table of [w] but for the stored sizes and arities. *)
  Definition like (T : gmap tid tree_rec) : Prop := forall i, t_root <$> T !! i = t_root <$> w_trees w !! i.
  Lemma size_root t s t' : size_of F im h t = Ok (s, t') -> t_root t' = t_root t.
  Proof. unfold size_of. destruct (negb _ && _); [|congruence]. destruct (ni_size im F h (t_root t)); cbn; [|discriminate]. intros [= <- <-]. reflexivity. Qed.
  Lemma arity_root t s t' : arity_of F im h t = Ok (s, t') -> t_root t' = t_root t.
  Proof.
    unfold arity_of. destruct (negb _ && _); [|congruence]. destruct (op_first _ _) as [[b|]|e]; cbn; [|congruence|discriminate].
    destruct (calculate_arity _ _ _ _ _); cbn; [|discriminate]. intros [= <- <-]. reflexivity.
  Qed.
  Lemma like_set T i t t' : like T -> T !! i = Some t -> t_root t' = t_root t -> like (<[i := t']> T).
  Proof.
    intros HT Ht Hr j. destruct (decide (i = j)) as [<-|Hne]; [|rewrite lookup_insert_ne by exact Hne; apply HT].
    rewrite lookup_insert, <- (HT i), Ht. cbn. congruence.
  Qed.
  Lemma like_get T i : like T -> match get_tree w i with
    | Ok t0 => exists t, T !! i = Some t /\ t_root t = t_root t0
    | Err e => T !! i = None /\ e = Dangling
    end.
  Proof.
    intros HT. specialize (HT i). unfold get_tree. destruct (w_trees w !! i) as [t0|]; cbn in HT; destruct (T !! i) as [t|]; cbn in HT; try discriminate; [|auto].
    exists t. split; [reflexivity|]. congruence.
  Qed.

  Lemma solo_call T c (k : answer V -> prog V) : like T ->
    exists r, plain_call F im (World h T) c = r /\
      match r with
      | Ok (a, w') => w_heap w' = h /\ like (w_trees w') /\ solo T (p_call F im w c k) = solo (w_trees w') (k a)
      | Err e => solo T (p_call F im w c k) = Err e
      end.
  Proof.
    intros HT. eexists. split; [reflexivity|].
    assert (Hg : forall i T', match T' !! i with Some t => get_tree (World h T') i = Ok t | None => get_tree (World h T') i = Err Dangling end).
    { intros i T'. unfold get_tree. cbn. destruct (T' !! i); reflexivity. }
    assert (Hsz : forall T' i t, like T' -> T' !! i = Some t ->
      (exists s T1 t1, tree_size F im (World h T') i = Ok (s, World h T1) /\ like T1 /\ T1 !! i = Some t1 /\ t_root t1 = t_root t /\
         (forall k0 : N -> prog V, solo T' (p_size F im w i (t_root t) k0) = solo T1 (k0 s))) \/
      (exists e, tree_size F im (World h T') i = Err e /\ forall k0 : N -> prog V, solo T' (p_size F im w i (t_root t) k0) = Err e)).
    { intros T' i t HT' Ht. unfold tree_size. specialize (Hg i T'). rewrite Ht in Hg. rewrite Hg. cbn [mbind res_bind w_heap].
      destruct (size_of F im h t) as [[s t']|e] eqn:Es.
      - left. exists s, (<[i := t']> T'), t'. split; [reflexivity|]. pose proof (size_root _ _ _ Es) as Hr. split; [eapply like_set; eauto|]. split; [apply lookup_insert|]. split; [exact Hr|].
        intros k0. rewrite (solo_size T' i t k0 Ht), Es. reflexivity.
      - right. exists e. split; [reflexivity|]. intros k0. rewrite (solo_size T' i t k0 Ht), Es. reflexivity. }
    assert (Haz : forall T' i t, like T' -> T' !! i = Some t ->
      (exists s T1 t1, tree_arity F im (World h T') i = Ok (s, World h T1) /\ like T1 /\ T1 !! i = Some t1 /\ t_root t1 = t_root t /\
         (forall k0 : N -> prog V, solo T' (p_arity F im w i (t_root t) k0) = solo T1 (k0 s))) \/
      (exists e, tree_arity F im (World h T') i = Err e /\ forall k0 : N -> prog V, solo T' (p_arity F im w i (t_root t) k0) = Err e)).
    { intros T' i t HT' Ht. unfold tree_arity. specialize (Hg i T'). rewrite Ht in Hg. rewrite Hg. cbn [mbind res_bind w_heap].
      destruct (arity_of F im h t) as [[s t']|e] eqn:Es.
      - left. exists s, (<[i := t']> T'), t'. split; [reflexivity|]. pose proof (arity_root _ _ _ Es) as Hr. split; [eapply like_set; eauto|]. split; [apply lookup_insert|]. split; [exact Hr|].
        intros k0. rewrite (solo_arity T' i t k0 Ht), Es. reflexivity.
      - right. exists e. split; [reflexivity|]. intros k0. rewrite (solo_arity T' i t k0 Ht), Es. reflexivity. }
    assert (Hroot : forall T1 i t0, like T1 -> T !! i = Some t0 -> exists t1, T1 !! i = Some t1 /\ t_root t1 = t_root t0).
    { intros T1 i t0 H1 Ht0. pose proof (eq_trans (H1 i) (eq_sym (HT i))) as E. rewrite Ht0 in E. destruct (T1 !! i) as [t1|]; cbn in E; [|discriminate]. exists t1. split; [reflexivity|congruence]. }
    destruct c as [i|i|i|i j|i l|i kd]; cbn [plain_call p_call]; pose proof (like_get T i HT) as Hi; specialize (Hg i T) as Hgi; rewrite solo_ok;
      (destruct (get_tree w i) as [t0|e]; [destruct Hi as (t & Ht & Hr); rewrite Ht in Hgi|destruct Hi as (Ht & ->); rewrite Ht in Hgi]); cbn [mbind res_bind].
    - rewrite Hgi. cbn [mbind res_bind]. unfold tree_empty. rewrite Hr. cbn [w_heap w_trees]. auto.
    - rewrite Hgi. reflexivity.
    - rewrite <- Hr. destruct (Hsz T i t HT Ht) as [(s & T1 & t1 & -> & HL & _ & _ & E)|(e & -> & E)]; cbn [mbind res_bind w_heap w_trees]; [|apply E]. split; [reflexivity|]. split; [exact HL|apply E].
    - unfold tree_size. rewrite Hgi. reflexivity.
    - rewrite <- Hr. destruct (Haz T i t HT Ht) as [(s & T1 & t1 & -> & HL & _ & _ & E)|(e & -> & E)]; cbn [mbind res_bind w_heap w_trees]; [|apply E]. split; [reflexivity|]. split; [exact HL|apply E].
    - unfold tree_arity. rewrite Hgi. reflexivity.
    - pose proof (like_get T j HT) as Hj. specialize (Hg j T) as Hgj. unfold tree_eq. rewrite Hgi. rewrite solo_ok. cbn [mbind res_bind].
      destruct (get_tree w j) as [u0|e]; [destruct Hj as (u & Hu & Hru); rewrite Hu in Hgj|destruct Hj as (Hu & ->); rewrite Hu in Hgj; cbn [mbind res_bind]; rewrite Hgj; reflexivity].
      cbn [mbind res_bind]. rewrite Hgj. cbn [mbind res_bind]. unfold p_eq, tree_empty. rewrite <- Hr, <- Hru. destruct (negb (Bool.eqb (is_null (t_root t)) (is_null (t_root u)))); [cbn; auto|].
      destruct (Hsz T i t HT Ht) as [(s1 & T1 & t1 & -> & HL1 & Ht1 & Hr1 & E)|(e & -> & E)]; cbn [mbind res_bind]; rewrite E; [|reflexivity]. clear E.
      destruct (Hroot T1 j u HL1 Hu) as (u1 & Hu1 & Hru1). rewrite <- Hru1.
      destruct (Hsz T1 j u1 HL1 Hu1) as [(s2 & T2 & u2 & -> & HL2 & Hu2 & Hru2 & E)|(e & -> & E)]; cbn [mbind res_bind]; rewrite E; [|reflexivity]. clear E.
      destruct (negb (s1 =? s2)%N); [cbn; auto|].
      destruct (Hroot T2 i t HL2 Ht) as (t2 & Ht2 & Hr2). rewrite <- Hr2.
      destruct (Haz T2 i t2 HL2 Ht2) as [(r1 & T3 & t3 & -> & HL3 & _ & _ & E)|(e & -> & E)]; cbn [mbind res_bind]; rewrite E; [|reflexivity]. clear E.
      destruct (Hroot T3 j u HL3 Hu) as (u3 & Hu3 & Hru3). rewrite Hru1, <- Hru3.
      destruct (Haz T3 j u3 HL3 Hu3) as [(r2 & T4 & u4 & -> & HL4 & _ & _ & E)|(e & -> & E)]; cbn [mbind res_bind]; rewrite E; [|reflexivity]. clear E.
      destruct (negb (r1 =? r2)%N); [cbn; auto|]. destruct (is_null (t_root t2) && is_null (t_root u3)); [cbn; auto|].
      cbn [w_heap]. rewrite solo_ok. destruct (ni_eq im F h h (t_root t2) (t_root u3)) as [b|e]; cbn; auto.
    - unfold tree_eq. rewrite Hgi. reflexivity.
    - unfold tree_eq_struct. rewrite Hgi. cbn [mbind res_bind]. unfold p_eq_lit. rewrite <- Hr. destruct (is_empty_node (eval_lit l)); [cbn; auto|].
      destruct (Hsz T i t HT Ht) as [(s1 & T1 & t1 & -> & HL1 & Ht1 & Hr1 & E)|(e & -> & E)]; cbn [mbind res_bind]; rewrite E; [|reflexivity]. clear E.
      destruct (negb (s1 =? subtree_size (eval_lit l))%N); [cbn; auto|]. rewrite <- Hr1.
      destruct (Haz T1 i t1 HL1 Ht1) as [(r1 & T2 & t2 & -> & HL2 & _ & _ & E)|(e & -> & E)]; cbn [mbind res_bind]; rewrite E; [|reflexivity]. clear E.
      destruct (negb (r1 =? subtree_arity (eval_lit l))%N); [cbn; auto|]. rewrite Hr1. destruct (t_root t) as [ra|]; [|cbn; auto].
      cbn [w_heap]. rewrite solo_ok. destruct (ni_eq_struct im h (Some ra) (eval_lit l)) as [b|e]; cbn; auto.
    - unfold tree_eq_struct. rewrite Hgi. reflexivity.
    - rewrite Hgi. cbn [mbind res_bind w_heap]. rewrite Hr, solo_ok. destruct (iterate F im h kd (t_root t0)) as [l|e]; cbn; auto.
    - rewrite Hgi. reflexivity.
  Qed.
  Lemma solo_calls cs : forall T done, like T ->
    solo T (p_calls F im w cs done) = ('(l, w') ← plain_calls F im (World h T) cs done; Ok (l, w_trees w')).
  Proof.
    induction cs as [|c cs IH]; intros T done HT; cbn [p_calls plain_calls]; [reflexivity|].
    destruct (solo_call T c (fun a => p_calls F im w cs (done ++ [a])) HT) as (r & -> & Hr). destruct r as [[a [h' T']]|e]; cbn [mbind res_bind]; [|exact Hr].
    cbn in Hr. destruct Hr as (-> & HL & ->). apply IH, HL.
  Qed.
End Solo.
