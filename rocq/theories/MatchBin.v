(** MatchBin.v: occurrences in binary trees. *)
From Verif Require Import Base Spec MatchSpec StructNode BinaryNode NaryNode Nav Policy Tree Rep RoseFacts NavFacts
  BinRep User World Kinds EditSpec Matcher MatchUser MatchFacts MatchResult MatchKinds.

Section Bin.
  Context {V : Type}.
  Variable h : gmap addr (bnode V).
  Definition left_in (a : addr) : bool := match b_is_left h (Some a) with Ok b => b | Err _ => false end.
  Notation place := (place left_in).
  Notation bsrc := (bsrc left_in h).

  Lemma forest_root (t : bin (addr * V)) u : bin_forest t = [u] -> exists x l r, t = BNode x l r /\ u = Rose x (bin_forest l ++ bin_forest r).
  Proof. destruct t as [|x l r]; [discriminate|]. cbn. intros [= <-]. eauto. Qed.

  Lemma bin_occurs t : forall par p u m, brep h par t -> NoDup (baddrs t) -> bin_forest t = [u] -> occurs snd p u m ->
    bsrc m /\ cut_of (place m) t /\ bin_forest (place m) = [m].
  Proof.
    induction t as [|[a v] l IHl r IHr]; intros par p u m Hr Hnd Hu Ho; [discriminate|].
    cbn in Hu. injection Hu as <-. cbn in Hr. destruct Hr as (Ha & Hl & Hr).
    assert (Haddr : baddrs (BNode (a, v) l r) = a :: baddrs l ++ baddrs r) by (unfold baddrs; cbn; rewrite map_app; reflexivity).
    rewrite Haddr in Hnd. apply NoDup_cons in Hnd as [_ Hnd]. apply NoDup_app in Hnd as (Hndl & Hdis & Hndr).
    inversion Ho as [? ps ? ? ms Hp Hc]; subst.
    assert (Hv : b_value h (Some a) = Ok v) by (unfold b_value; rewrite (deref_Some _ _ _ Ha); reflexivity).
    assert (Hone : forall s (b : bool) p u m, bin_forest s = [u] -> s = (if b then l else r) -> occurs snd p u m ->
      b_is_left h (Some (raddr m)) = Ok b /\ left_in (raddr m) = b).
    { intros s b q u m' Hs Es Hom. assert (Hb : b_is_left h (Some (raddr m')) = Ok b); [|split; [exact Hb|unfold left_in; rewrite Hb; reflexivity]].
      unfold raddr. rewrite (occurs_label _ _ _ _ Hom). apply forest_root in Hs as ([b0 v0] & sl & sr & -> & ->). cbn [label fst].
      assert (Hsr : brep h (Some a) (BNode (b0, v0) sl sr)) by (rewrite Es; destruct b; assumption).
      destruct Hsr as (Hb0 & _). unfold b_is_left, b_left. rewrite (deref_Some _ _ _ Hb0). cbn. rewrite (deref_Some _ _ _ Ha). cbn.
      destruct b.
      - rewrite <- Es. cbn. rewrite ptr_eqb_true. reflexivity.
      - rewrite ptr_eqb_false; [reflexivity|]. intros E. symmetry in E. apply baddr_in in E. apply (Hdis _ E). rewrite <- Es. left. }
    assert (Hml : forall p u m, bin_forest l = [u] -> occurs snd p u m ->
      left_in (raddr m) = true /\ b_is_left h (Some (raddr m)) = Ok true /\ bsrc m /\ cut_of (place m) l /\ bin_forest (place m) = [m]).
    { intros q u m' Hu Hom. destruct (Hone l true q u m' Hu eq_refl Hom) as [H1 H2]. split; [exact H2|]. split; [exact H1|].
      eapply IHl; eassumption. }
    assert (Hmr : forall p u m, bin_forest r = [u] -> occurs snd p u m ->
      left_in (raddr m) = false /\ b_is_left h (Some (raddr m)) = Ok false /\ bsrc m /\ cut_of (place m) r /\ bin_forest (place m) = [m]).
    { intros q u m' Hu Hom. destruct (Hone r false q u m' Hu eq_refl Hom) as [H1 H2]. split; [exact H2|]. split; [exact H1|].
      eapply IHr; eassumption. }
    clear Hone IHl IHr.
    (* which children are taken *)
    assert (Hcase : ms = [] \/ (exists m1, ms = [m1] /\ exists q u, bin_forest l = [u] /\ occurs snd q u m1) \/
      (exists m2, ms = [m2] /\ exists q u, bin_forest r = [u] /\ occurs snd q u m2) \/
      (exists m1 m2, ms = [m1; m2] /\ (exists q u, bin_forest l = [u] /\ occurs snd q u m1) /\ (exists q u, bin_forest r = [u] /\ occurs snd q u m2))).
    { destruct l as [|xl ll lr], r as [|xr rl rr]; cbn [bin_forest app] in Hc |- *;
        repeat match goal with H : chosen _ _ (_ :: _) _ |- _ => inversion H; clear H; subst
                             | H : chosen _ _ [] _ |- _ => inversion H; clear H; subst end;
        first [left; reflexivity|right; left; eexists; split; [reflexivity|]; eexists _, _; split; [reflexivity|eassumption]
              |right; right; left; eexists; split; [reflexivity|]; eexists _, _; split; [reflexivity|eassumption]
              |right; right; right; eexists _, _; split; [reflexivity|]; split; eexists _, _; (split; [reflexivity|eassumption])]. }
    destruct Hcase as [->|[(m1 & -> & q & u & Hu & H1)|[(m2 & -> & q & u & Hu & H2)|(m1 & m2 & -> & (q & u & Hu & H1) & (q' & u' & Hu' & H2))]]].
    - split; [constructor; auto; [constructor|intros ? H; apply elem_of_nil in H as []..]|].
      split; [cbn; repeat constructor|reflexivity].
    - destruct (Hml _ _ _ Hu H1) as (Eb & Hb & Hs & Hcut & Hf). split; [|split].
      + constructor; [exact Hv|repeat constructor; set_solver +| |]; intros x Hx; apply elem_of_list_singleton in Hx as ->; [rewrite Eb|]; assumption.
      + cbn. rewrite Eb. cbn. repeat constructor. exact Hcut.
      + cbn. rewrite Eb. cbn. rewrite Hf. reflexivity.
    - destruct (Hmr _ _ _ Hu H2) as (Eb & Hb & Hs & Hcut & Hf). split; [|split].
      + constructor; [exact Hv|repeat constructor; set_solver +| |]; intros x Hx; apply elem_of_list_singleton in Hx as ->; [rewrite Eb|]; assumption.
      + cbn. rewrite Eb. cbn. repeat constructor. exact Hcut.
      + cbn. rewrite Eb. cbn. rewrite Hf. reflexivity.
    - destruct (Hml _ _ _ Hu H1) as (Eb & Hb & Hs & Hcut & Hf). destruct (Hmr _ _ _ Hu' H2) as (Eb' & Hb' & Hs' & Hcut' & Hf'). split; [|split].
      + constructor; [exact Hv|cbn; rewrite Eb, Eb'; repeat constructor; set_solver +| |]; intros x Hx; apply elem_of_cons in Hx as [->|Hx];
          try (apply elem_of_list_singleton in Hx as ->); try rewrite Eb; try rewrite Eb'; assumption.
      + cbn. rewrite Eb, Eb'. cbn. constructor; assumption.
      + cbn. rewrite Eb, Eb'. cbn. rewrite Hf, Hf'. reflexivity.
  Qed.
End Bin.

Lemma rsub_bsub {A} (u s : rose A) : rsubtree u s -> forall t, bin_forest t = [s] -> exists b, bsubtree b t /\ bin_forest b = [u].
Proof.
  induction 1 as [|x cs c Hc Hs IH]; intros t Ht; [exists t; split; [apply bsub_here|exact Ht]|].
  destruct t as [|y l r]; [discriminate|]. cbn in Ht. injection Ht as -> <-. apply elem_of_app in Hc as [Hc|Hc].
  - destruct (IH l) as (b & Hb & Hf); [|exists b; split; [apply bsub_left, Hb|exact Hf]].
    destruct l; [apply elem_of_nil in Hc as []|]. cbn in Hc |- *. apply elem_of_list_singleton in Hc as ->. reflexivity.
  - destruct (IH r) as (b & Hb & Hf); [|exists b; split; [apply bsub_right, Hb|exact Hf]].
    destruct r; [apply elem_of_nil in Hc as []|]. cbn in Hc |- *. apply elem_of_list_singleton in Hc as ->. reflexivity.
Qed.
