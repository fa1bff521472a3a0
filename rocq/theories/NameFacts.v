(** NameFacts.v: lemmas for PropName.v. *)
From Verif Require Import Base Spec Matcher Star StarSpec StarResultSpec StarLemmas Names NameSpec.
From Coq Require Import String.

Section WInd.
  Context {V : Type}.
  Variable P : wpat V -> Prop.
  Hypothesis H1 : forall vm cs, Forall P cs -> P (WOne vm cs).
  Hypothesis H2 : forall q vm cs, Forall P cs -> P (WOpt q vm cs).
  Hypothesis H3 : forall q vm cs, Forall P cs -> P (WStar q vm cs).
  Hypothesis H4 : forall n p, P p -> P (WCpt n p).
  Fixpoint wpat_ind' (u : wpat V) : P u :=
    let all := fix all cs : Forall P cs := match cs with [] => List.Forall_nil P | c :: cs => @List.Forall_cons _ P c cs (wpat_ind' c) (all cs) end in
    match u with
    | WOne vm cs => H1 vm cs (all cs)
    | WOpt q vm cs => H2 q vm cs (all cs)
    | WStar q vm cs => H3 q vm cs (all cs)
    | WCpt n p => H4 n p (wpat_ind' p)
    end.
End WInd.

(** ** The tuple of the captures *)
Fixpoint flat_names (p : ntype) : list string :=
  match p with
  | NTNil => []
  | NT o fc ns => (match o with Some n => [n] | None => [] end) ++ flat_names fc ++ flat_names ns
  end.
Lemma captures_flat p : captures_t p = flat_names p.
Proof.
  induction p as [|o fc IH1 ns IH2]; [reflexivity|]. cbn [captures_t flat_names]. rewrite <- IH1, <- IH2.
  destruct fc, ns; cbn [captures_t]; rewrite ?app_nil_r; reflexivity.
Qed.
Lemma flat_wtype {V} (u : wpat V) : forall ns, flat_names (wtype u ns) = names u ++ flat_names ns.
Proof.
  assert (Hall : forall cs, Forall (fun u : wpat V => forall ns, flat_names (wtype u ns) = names u ++ flat_names ns) cs ->
    flat_names (foldr wtype NTNil cs) = flat_map names cs).
  { intros cs H. induction H as [|c cs Hc _ IH]; [reflexivity|]. cbn. rewrite Hc, IH. reflexivity. }
  induction u as [vm cs IH|q vm cs IH|q vm cs IH|n p IH] using wpat_ind'; intros ns; cbn [wtype flat_names names];
    try (rewrite (Hall cs IH); reflexivity).
  rewrite IH. cbn [flat_names]. rewrite app_nil_r. reflexivity.
Qed.
Lemma captures_wtype {V} (u : wpat V) : captures_t (wtype u NTNil) = names u.
Proof. rewrite captures_flat, flat_wtype. cbn. apply app_nil_r. Qed.

Lemma index_nth n l k : nth_error l k = Some n -> (forall j, nth_error l j = Some n -> k <= j) -> index_of_capture n l = k.
Proof.
  revert k. induction l as [|m l IH]; intros k Hk Hmin; [destruct k; discriminate|]. cbn. destruct (decide (n = m)) as [->|Hne].
  - specialize (Hmin 0 eq_refl). lia.
  - destruct k as [|k]; [cbn in Hk; congruence|]. f_equal. apply IH; [exact Hk|]. intros j Hj. specialize (Hmin (S j) Hj). lia.
Qed.
Lemma index_valid n l : is_valid_name n l = true <-> n ∈ l.
Proof.
  unfold is_valid_name. rewrite Nat.ltb_lt. induction l as [|m l IH]; cbn.
  - split; [lia|intros H; apply elem_of_nil in H as []].
  - rewrite elem_of_cons. destruct (decide (n = m)) as [->|Hne]; [split; [auto|lia]|]. rewrite <- IH. split; [intros H; right; lia|intros [H|H]; [congruence|lia]].
Qed.
Lemma once_nth (n : string) l k : List.length (List.filter (fun m => bool_decide (m = n)) l) = 1 -> nth_error l k = Some n -> index_of_capture n l = k.
Proof.
  intros Hl Hk. apply index_nth; [exact Hk|]. revert l k Hl Hk.
  assert (Hno : forall l : list string, List.length (List.filter (fun m => bool_decide (m = n)) l) = 0 -> forall j, nth_error l j = Some n -> False).
  { intros l Hl j Hj. apply nth_error_In in Hj. assert (In n (List.filter (fun m => bool_decide (m = n)) l)) as Hin.
    { apply filter_In. split; [exact Hj|]. apply bool_decide_eq_true_2. reflexivity. }
    destruct (List.filter (fun m => bool_decide (m = n)) l); [destruct Hin|discriminate]. }
  induction l as [|m l IH]; intros k Hl Hk j Hj; [destruct k; discriminate|]. cbn in Hl.
  destruct (bool_decide (m = n)) eqn:E.
  - cbn in Hl. injection Hl as Hl. destruct k as [|k]; [lia|]. cbn in Hk. destruct (Hno l Hl k Hk).
  - destruct k as [|k]; [cbn in Hk; injection Hk as ->; rewrite bool_decide_eq_true_2 in E by reflexivity; discriminate|].
    destruct j as [|j]; [cbn in Hj; injection Hj as ->; rewrite bool_decide_eq_true_2 in E by reflexivity; discriminate|].
    cbn in Hk, Hj. specialize (IH k Hl Hk j Hj). lia.
Qed.

(** ** The names and the marks *)
Section Marks.
  Context {V A : Type}.
  Fixpoint all_marks (us : list (spat V)) (l : list (asg A)) : list (spat V * asg A) :=
    match us, l with c :: us, b :: l => marks c b ++ all_marks us l | _, _ => [] end.
  (** [a] has the shape of the pattern. *)
  Fixpoint fits (u : wpat V) (a : asg A) : Prop :=
    let all := fix all us l := match us, l with [], [] => True | c :: us, b :: l => fits c b /\ all us l | _, _ => False end in
    match u, a with
    | WOne _ cs, Asg _ l | WOpt _ _ cs, Asg _ l | WStar _ _ cs, Asg _ l => all cs l
    | WCpt _ p, Asg _ [b] => fits p b
    | WCpt _ _, _ => False
    end.
  Fixpoint all_fit (us : list (wpat V)) (l : list (asg A)) : Prop :=
    match us, l with [], [] => True | c :: us, b :: l => fits c b /\ all_fit us l | _, _ => False end.

  Lemma fits_length (u : wpat V) : forall a, fits u a -> List.length (marks (unname u) a) = List.length (names u).
  Proof.
    assert (Hall : forall cs, Forall (fun u : wpat V => forall a, fits u a -> List.length (marks (unname u) a) = List.length (names u)) cs ->
      forall l, all_fit cs l -> List.length (all_marks (map unname cs) l) = List.length (flat_map names cs)).
    { intros cs H. induction H as [|c cs Hc _ IH]; intros [|b l] Hf; cbn in *; try tauto. destruct Hf as [Hf1 Hf2].
      rewrite !app_length, (Hc b Hf1), (IH l Hf2). reflexivity. }
    induction u as [vm cs IH|q vm cs IH|q vm cs IH|n p IH] using wpat_ind'; intros [t l] Hf; try exact (Hall cs IH l Hf).
    cbn in Hf. destruct l as [|b [|? ?]]; try contradiction. cbn. f_equal. apply IH, Hf.
  Qed.
  Lemma mark_nth (u : wpat V) (a : asg A) n s b : mark_of u a n s b -> fits u a ->
    exists k, nth_error (names u) k = Some n /\ nth_error (marks (unname u) a) k = Some (s, b).
  Proof.
    assert (Hlist : forall cs l k (c : wpat V) (b d : asg A) n s, nth_error cs k = Some c -> nth_error l k = Some b -> all_fit cs l ->
      (fits c b -> exists k, nth_error (names c) k = Some n /\ nth_error (marks (unname c) b) k = Some (s, d)) ->
      exists k, nth_error (flat_map names cs) k = Some n /\ nth_error (all_marks (map unname cs) l) k = Some (s, d)).
    { clear. induction cs as [|c0 cs IH]; intros l k c b d n s Hk Hl Hf Hc; [destruct k; discriminate|]. destruct l as [|b0 l]; [destruct k; discriminate|].
      cbn in Hf. destruct Hf as [Hf1 Hf2]. pose proof (fits_length _ _ Hf1) as Hlen. destruct k as [|k]; cbn in Hk, Hl.
      - injection Hk as ->. injection Hl as ->. destruct (Hc Hf1) as (k & E1 & E2). exists k. cbn. split.
        + rewrite nth_error_app1; [exact E1|]. apply nth_error_Some. congruence.
        + rewrite nth_error_app1; [exact E2|]. apply nth_error_Some. congruence.
      - destruct (IH l k c b d n s Hk Hl Hf2 Hc) as (k' & E1 & E2). exists (List.length (names c0) + k'). cbn. split.
        + rewrite nth_error_app2 by lia. rewrite <- E1. f_equal. lia.
        + rewrite nth_error_app2 by lia. rewrite Hlen, <- E2. f_equal. lia. }
    intros H. induction H as [n p t b|n m p t b s c H IH|n vm cs t l k c b s d Hk Hl H IH|n q vm cs t l k c b s d Hk Hl H IH|n q vm cs t l k c b s d Hk Hl H IH]; intros Hf;
      try exact (Hlist cs l k c b d n s Hk Hl Hf IH).
    - exists 0. split; reflexivity.
    - cbn in Hf. destruct (IH Hf) as (k & E1 & E2). exists (S k). split; [exact E1|exact E2].
  Qed.
  Lemma name_marked (u : wpat V) : forall (a : asg A) n, fits u a -> n ∈ names u -> exists s b, mark_of u a n s b.
  Proof.
    assert (Hall : forall cs, Forall (fun u : wpat V => forall (a : asg A) n, fits u a -> n ∈ names u -> exists s b, mark_of u a n s b) cs ->
      forall l n, all_fit cs l -> n ∈ flat_map names cs -> exists k c b s d, nth_error cs k = Some c /\ nth_error l k = Some b /\ mark_of c b n s d).
    { intros cs H. induction H as [|c cs Hc _ IH]; intros [|b l] n Hf Hn; cbn in Hf, Hn; try tauto; [apply elem_of_nil in Hn as []|].
      destruct Hf as [Hf1 Hf2]. apply elem_of_app in Hn as [Hn|Hn].
      - destruct (Hc b n Hf1 Hn) as (s & d & Hm). exists 0, c, b, s, d. auto.
      - destruct (IH l n Hf2 Hn) as (k & c' & b' & s & d & E1 & E2 & Hm). exists (S k), c', b', s, d. auto. }
    induction u as [vm cs IH|q vm cs IH|q vm cs IH|n0 p IH] using wpat_ind'; intros [t l] n Hf Hn;
      try (destruct (Hall cs IH l n Hf Hn) as (k & c & b & s & d & E1 & E2 & Hm); exists s, d; econstructor; eassumption).
    cbn in Hf. destruct l as [|b [|? ?]]; try contradiction. cbn in Hn. apply elem_of_cons in Hn as [->|Hn].
    - eexists _, _. constructor.
    - destruct (IH b n Hf Hn) as (s & d & Hm). exists s, d. constructor. exact Hm.
  Qed.
End Marks.

(** What a match tells has the shape of the pattern. *)
Lemma smatch_fits {V A} (val : A -> V) (u : wpat V) : forall t a, smatch val (unname u) t a -> fits u a.
Proof.
  assert (Hlen : (forall s t a, smatch val s t a -> True) /\ True) by auto. clear Hlen.
  assert (Hlev : forall cs, Forall (fun u : wpat V => forall t a, smatch val (unname u) t a -> fits u a) cs ->
    forall us ts l, level val us ts l -> us = map unname cs -> all_fit cs l).
  { intros cs Hcs us ts l H. revert cs Hcs. induction H as [ts|u0 us t ts a l Hu Hl IH|us t ts l Hl IH]; intros cs Hcs E.
    - destruct cs; [exact I|discriminate].
    - destruct cs as [|c cs]; [discriminate|]. injection E as -> ->. apply Forall_cons in Hcs as [Hc Hcs]. split; [exact (Hc _ _ Hu)|apply IH; auto].
    - apply IH; assumption. }
  assert (Hbel : forall cs, Forall (fun u : wpat V => forall t a, smatch val (unname u) t a -> fits u a) cs ->
    forall p us ts l, below val p us ts l -> us = map unname cs -> all_fit cs l).
  { intros cs Hcs p us ts l H. revert cs Hcs. induction H as [p ts|p u0 us t ts a l Hu Hl IH|p us x ks ts l Hl IH]; intros cs Hcs E.
    - destruct cs; [exact I|discriminate].
    - destruct cs as [|c cs]; [discriminate|]. injection E as -> ->. apply Forall_cons in Hcs as [Hc Hcs]. split; [exact (Hc _ _ Hu)|apply IH; auto].
    - apply IH; assumption. }
  induction u as [vm cs IH|q vm cs IH|q vm cs IH|n p IH] using wpat_ind'; intros t a Hm.
  - cbn [unname] in Hm. remember (SOne vm (map unname cs)) as s0 eqn:E. destruct Hm; try discriminate E. injection E as -> ->. exact (Hlev cs IH _ _ _ H0 eq_refl).
  - cbn [unname] in Hm. remember (SOpt q vm (map unname cs)) as s0 eqn:E. destruct Hm; try discriminate E.
    + injection E as -> -> ->. exact (Hlev cs IH _ _ _ H0 eq_refl).
    + injection E as -> -> E. destruct cs as [|c' [|? ?]]; try discriminate E. injection E as ->. apply Forall_cons in IH as [Hc _].
      cbn. split; [exact (Hc _ _ Hm)|exact I].
  - cbn [unname] in Hm. remember (SStar q vm (map unname cs)) as s0 eqn:E. destruct Hm; try discriminate E.
    + injection E as -> -> ->. exact (Hbel cs IH _ _ _ _ H1 eq_refl).
    + injection E as <- -> ->. exact (Hlev cs IH _ _ _ H0 eq_refl).
    + injection E as -> -> E. destruct cs as [|c' [|? ?]]; try discriminate E. injection E as ->. apply Forall_cons in IH as [Hc _].
      cbn. split; [exact (Hc _ _ Hm)|exact I].
  - cbn [unname] in Hm. remember (SCpt (unname p)) as s0 eqn:E. destruct Hm; try discriminate E. injection E as ->. cbn. exact (IH _ _ Hm).
Qed.
