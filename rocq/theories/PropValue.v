(** PropValue.v: C66, what [one()], [one(v)], [one(having(a, f))] accept. *)
From Verif Require Import Base Spec StructNode BinaryNode NaryNode Nav Policy Tree User Matcher OptSpec Values Rep PropOpt Examples.

Section Facts.
  Context {V A : Type} {EV : EqDecision V} (val : A -> V).

  Lemma match_value_ok (m : value_matcher V) (v : V) : match_value m v = true <-> accepts m v.
  Proof. destruct m as [|x|B EB a f]; cbn; rewrite ?bool_decide_eq_true; split; auto. Qed.

  Fixpoint vpat_ind' (P : vpat V -> Prop) (H1 : forall m cs, List.Forall P cs -> P (VOne m cs))
      (H2 : forall q m cs, List.Forall P cs -> P (VOpt q m cs)) (H3 : forall p, P p -> P (VCpt p)) (u : vpat V) : P u :=
    let all := fix all l : List.Forall P l :=
      match l with [] => @List.Forall_nil _ P | c :: l => @List.Forall_cons _ P c l (vpat_ind' P H1 H2 H3 c) (all l) end in
    match u with
    | VOne m cs => H1 m cs (all cs)
    | VOpt q m cs => H2 q m cs (all cs)
    | VCpt p => H3 p (vpat_ind' P H1 H2 H3 p)
    end.

  Lemma all_ok (cs : list (vpat V)) :
    List.Forall (fun u => forall t, (exists m, matches val (written u) t m) <-> fits_tree val u t) cs ->
    forall ts, (exists ms, matches_all val (map written cs) ts ms) <-> fits_all val cs ts.
  Proof.
    intros Hcs ts. revert cs Hcs. induction ts as [|t ts IH]; intros cs Hcs.
    - destruct cs as [|c cs]; cbn.
      + split; intros _; [constructor|eexists; constructor].
      + split; [intros [ms H]; inversion H|intros H; inversion H].
    - destruct cs as [|c cs]; cbn [map].
      + split; intros _; [constructor|eexists; constructor].
      + inversion Hcs as [|? ? Hc Hr]; subst. split.
        * intros [ms H]. inversion H; subst.
          -- apply F_take; [apply Hc; eauto|apply (IH cs Hr); eauto].
          -- apply F_skip. apply (IH (c :: cs) Hcs). eauto.
        * intros H. inversion H; subst.
          -- match goal with H : fits_tree _ c _ |- _ => apply Hc in H as [m Hm] end.
             match goal with H : fits_all _ cs _ |- _ => apply (IH cs Hr) in H as [ms Hms] end. eexists. apply All_take; eassumption.
          -- match goal with H : fits_all _ (c :: cs) ts |- _ => apply (IH (c :: cs) Hcs) in H as [ms Hms] end. eexists. apply All_skip. exact Hms.
  Qed.
  Lemma written_ok (u : vpat V) : forall t, (exists m, matches val (written u) t m) <-> fits_tree val u t.
  Proof.
    induction u as [m cs IH|q m cs IH|p IH] using vpat_ind'; intros t; cbn [written].
    - destruct t as [x ts]. split.
      + intros [r H]. inversion H; subst. constructor; [apply match_value_ok; assumption|]. apply (all_ok cs IH). eauto.
      + intros H. inversion H; subst. match goal with H : fits_all _ _ _ |- _ => apply (all_ok cs IH) in H as [ms Hms] end. eexists. constructor; [apply match_value_ok; assumption|exact Hms].
    - destruct t as [x ts]. split.
      + intros [r H]. remember (map written cs) as us eqn:Eus. remember (Rose x ts) as t eqn:Et.
        remember (UOpt q (match_value m) us) as w eqn:Ew. destruct H as [|q0 p0 cs0 x0 ts0 ms0 Hp Hc|q0 p0 c x0 ts0 m0 Hq Hc|]; try discriminate Ew;
          injection Ew as -> -> Ecs; injection Et as -> ->; subst us.
        * subst cs0. apply F_opt; [apply match_value_ok; assumption|]. apply (all_ok cs IH). eauto.
        * destruct cs as [|c0 [|? ?]]; try discriminate. injection Ecs as Ecs. subst c. inversion IH as [|? ? Hc0 _]; subst.
          apply F_absent; [intros Ha; apply Hq, match_value_ok, Ha|]. apply Hc0. eauto.
      + intros H. inversion H; subst.
        * match goal with H : fits_all _ _ _ |- _ => apply (all_ok cs IH) in H as [ms Hms] end.
          eexists. apply M_opt; [apply match_value_ok; assumption|exact Hms].
        * inversion IH as [|? ? Hc0 _]; subst. match goal with H : fits_tree _ c _ |- _ => apply Hc0 in H as [r Hr] end.
          eexists. apply M_absent; [intros Ha; match goal with H : _ -> q <> _ |- _ => apply H, match_value_ok, Ha end|exact Hr].
    - split.
      + intros [r H]. inversion H; subst. constructor. apply IH. eauto.
      + intros H. inversion H; subst. match goal with H : fits_tree _ p _ |- _ => apply IH in H as [r Hr] end. eexists. constructor. exact Hr.
  Qed.
  Lemma vsolid_all (cs : list (vpat V)) :
    List.Forall (fun u => vsolid u -> solid (written u)) cs ->
    (fix all l := match l with [] => True | c :: l => vsolid c /\ all l end) cs ->
    (fix all l := match l with [] => True | c :: l => solid c /\ all l end) (map written cs).
  Proof.
    induction cs as [|c cs IH]; intros HF H; [exact I|]. inversion HF; subst. destruct H as [H1' H2']. split; [auto|]. apply IH; assumption.
  Qed.
  Lemma vsolid_ok (u : vpat V) : vsolid u -> solid (written u).
  Proof.
    induction u as [m cs IH|q m cs IH|p IH] using vpat_ind'; cbn [written].
    - apply (vsolid_all cs IH).
    - intros [Hn H]. split; [destruct cs; [congruence|discriminate]|]. apply (vsolid_all cs IH H).
    - exact IH.
  Qed.
End Facts.

(** A search with such a pattern succeeds exactly if the pattern fits the tree. *)
Theorem C66_search_nary :
  forall (V : Type) (EV : EqDecision V) (F : nat) (h : gmap addr (nnode V)) (t : rose (addr * V)) (u : vpat V),
  nary_in h t -> rsize t < F -> vsolid u ->
  exists b x', search F (nary_impl V) (make_pattern (build (written u) PNil)) h (Some (raddr t)) = Ok (b, x') /\
    (b = true <-> fits_tree snd u t).
Proof.
  intros V EV F h t u Ht HF Hu.
  destruct (C44_search_nary V EV F h t (written u) (make_pattern (build (written u) PNil)) Ht HF (vsolid_ok u Hu) eq_refl) as (b & x' & E & Hb).
  exists b, x'. split; [exact E|]. rewrite Hb. apply written_ok.
Qed.
Print Assumptions C66_search_nary.
Theorem C66_search_binary :
  forall (V : Type) (EV : EqDecision V) (F : nat) (h : gmap addr (bnode V)) (t : bin (addr * V)) (s : rose (addr * V)) (u : vpat V),
  bin_in h t -> bin_forest t = [s] -> rsize s < F -> vsolid u ->
  exists b x', search F (binary_impl V) (make_pattern (build (written u) PNil)) h (baddr t) = Ok (b, x') /\
    (b = true <-> fits_tree snd u s).
Proof.
  intros V EV F h t s u Ht Hs HF Hu.
  destruct (C44_search_binary V EV F h t s (written u) (make_pattern (build (written u) PNil)) Ht Hs HF (vsolid_ok u Hu) eq_refl) as (b & x' & E & Hb).
  exists b, x'. split; [exact E|]. rewrite Hb. apply written_ok.
Qed.
Print Assumptions C66_search_binary.

(** *** A case met: 10 with, among its children, an odd half, in either kind. *)
Definition ex_vpat : vpat nat :=
  VOne (Value 10) [VOne Anything []; VOne (Having bool _ true (fun v => Nat.odd (v / 10))) []].
Example C66_used :
  vsolid ex_vpat /\ fits_tree snd ex_vpat ex_nary /\
  ~ fits_tree snd (VOne (Value 10) [VOne (Having bool _ true Nat.odd) []]) ex_nary.
Proof.
  split; [cbn; tauto|]. split.
  - apply F_one; [reflexivity|]. apply F_take; [constructor; [exact I|constructor]|]. apply F_take; [|constructor].
    apply F_one; [reflexivity|constructor].
  - intros H. repeat match goal with
    | H : fits_tree _ _ _ |- _ => inversion H; clear H; subst
    | H : fits_all _ _ _ |- _ => inversion H; clear H; subst
    end; cbn in *; discriminate.
Qed.
