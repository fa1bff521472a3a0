(** GenSim.v: a run of a generative navigator with one predicate, followed with
    another one.  The states of the second are those of the first with more
    knowledge; [view s = None]: something happened that was not expected. *)
From Verif Require Import Base StructNode BinaryNode NaryNode Nav Policy Tree Gen.

Section Sim.
  Context {V Nd : Type}.
  Variable F : nat.
  Variable im : node_impl V Nd.
  Variable al : allocator Nd.
  Variable like : gmap addr Nd -> ptr -> ptr -> ptr -> res (gmap addr Nd).
  Notation heap := (gmap addr Nd).
  Context {St St' : Type}.
  Variable pred : St -> heap -> mptr -> res (St * mptr * bool).
  Variable pred' : St' -> heap -> mptr -> res (St' * mptr * bool).
  Variable view : St' -> option St.
  Variable root : mptr.
  (** [r] with state [s'] reached from [s]: the same without the additional knowledge. *)
  Definition follows {A} (s s' : St') (f : St -> res (St * A)) (x : A) : Prop :=
    forall st', view s' = Some st' -> exists st, view s = Some st /\ f st = Ok (st', x).
  Hypothesis pred_sim : forall s h p s' r b, pred' s h p = Ok (s', r, b) ->
    forall st', view s' = Some st' -> exists st, view s = Some st /\ pred st h p = Ok (st', r, b).

  Lemma sim_next_loop h k : forall s p s' r, m_next_loop im pred' root h k s p = Ok (s', r) -> follows s s' (fun st => m_next_loop im pred root h k st p) r.
  Proof.
    induction k as [|k IH]; intros s p s' r E; [discriminate|]. cbn [m_next_loop] in *. destruct (mp_bool p) eqn:Eb.
    - destruct (pred' s h p) as [[[s1 r1] b]|] eqn:Ep; cbn [mbind res_bind] in E; [|discriminate]. destruct b.
      + injection E as <- <-. intros st' Hv. destruct (pred_sim _ _ _ _ _ _ Ep _ Hv) as (st & Hs & E'). exists st. rewrite E'. split; [exact Hs|reflexivity].
      + destruct (m_unless_root root (mp_next (ni_ops im h)) r1) as [r2|] eqn:Er; cbn [mbind res_bind] in E; [|discriminate].
        intros st' Hv. destruct (IH _ _ _ _ E _ Hv) as (st1 & Hs1 & E1). destruct (pred_sim _ _ _ _ _ _ Ep _ Hs1) as (st & Hs & E').
        exists st. rewrite E'. cbn [mbind res_bind]. rewrite Er. cbn [mbind res_bind]. auto.
    - injection E as <- <-. intros st' Hv. exists st'. auto.
  Qed.
  Lemma sim_next h s p s' r : m_next F im pred' root h s p = Ok (s', r) -> follows s s' (fun st => m_next F im pred root h st p) r.
  Proof.
    unfold m_next. destruct (m_unless_root root (mp_next (ni_ops im h)) p) as [r2|] eqn:Er; cbn [mbind res_bind]; [|discriminate]. apply sim_next_loop.
  Qed.
  Lemma sim_first h s p s' r : m_first F im pred' root h s p = Ok (s', r) -> follows s s' (fun st => m_first F im pred root h st p) r.
  Proof.
    unfold m_first. destruct (mp_first (ni_ops im h) p) as [r0|] eqn:Er; cbn [mbind res_bind]; [|discriminate]. destruct (mp_bool r0) eqn:Eb.
    - destruct (pred' s h r0) as [[[s1 r1] b]|] eqn:Ep; cbn [mbind res_bind]; [|discriminate]. destruct b.
      + intros [= <- <-] st' Hv. destruct (pred_sim _ _ _ _ _ _ Ep _ Hv) as (st & Hs & E'). exists st. rewrite E'. split; [exact Hs|reflexivity].
      + intros E st' Hv. destruct (sim_next _ _ _ _ _ E _ Hv) as (st1 & Hs1 & E1). destruct (pred_sim _ _ _ _ _ _ Ep _ Hs1) as (st & Hs & E').
        exists st. rewrite E'. auto.
    - intros [= <- <-] st' Hv. exists st'. auto.
  Qed.
  Definition follows2 {A} (s s' : St') (f : St -> res (St * heap * A)) (h' : heap) (x : A) : Prop :=
    forall st', view s' = Some st' -> exists st, view s = Some st /\ f st = Ok (st', h', x).
  Lemma sim_navigate nav nav' attach s h p s' h' r :
    (forall h s p s' r, nav' h s p = Ok (s', r) -> follows s s' (fun st => nav h st p) r) ->
    gen_navigate im al nav' attach s h p = Ok (s', h', r) -> follows2 s s' (fun st => gen_navigate im al nav attach st h p) h' r.
  Proof.
    intros Hn. unfold gen_navigate, guard_res. destruct (mp_all_valid p) eqn:Ev; cbn [mbind res_bind]; [|discriminate].
    destruct (nav' h s p) as [[s1 r1]|] eqn:En; cbn [mbind res_bind]; [|discriminate].
    destruct (mp_bool r1) eqn:Eb.
    - set (mk := match mp_get 1 r1 with None => _ | Some _ => _ end). intros E st' Hv.
      assert (Hs1 : s1 = s').
      { destruct mk as [[r2 h2]|]; cbn [mbind res_bind] in E; [|discriminate]. destruct (mp_is_assigned 1 r2).
        - destruct (attach h2 (mp_get 1 p) (mp_get 1 r2) (mp_main r2)); cbn [mbind res_bind] in E; [congruence|discriminate].
        - congruence. }
      subst s1. destruct (Hn _ _ _ _ _ En _ Hv) as (st & Hs & E1). exists st. split; [exact Hs|]. rewrite E1. cbn [mbind res_bind]. rewrite Eb. fold mk.
      destruct mk as [[r2 h2]|]; cbn [mbind res_bind] in *; [|discriminate]. destruct (mp_is_assigned 1 r2).
      + destruct (attach h2 (mp_get 1 p) (mp_get 1 r2) (mp_main r2)); cbn [mbind res_bind] in *; [congruence|discriminate].
      + congruence.
    - intros [= <- <- <-] st' Hv. destruct (Hn _ _ _ _ _ En _ Hv) as (st & Hs & E1). exists st. split; [exact Hs|]. rewrite E1. cbn [mbind res_bind]. rewrite Eb. reflexivity.
  Qed.
  Lemma sim_gen_next s h p s' h' r : gen_next F im al like pred' root s h p = Ok (s', h', r) -> follows2 s s' (fun st => gen_next F im al like pred root st h p) h' r.
  Proof. apply sim_navigate. intros. apply sim_next. assumption. Qed.
  Lemma sim_gen_first s h p s' h' r : gen_first F im al like pred' root s h p = Ok (s', h', r) -> follows2 s s' (fun st => gen_first F im al like pred root st h p) h' r.
  Proof. apply sim_navigate. intros. apply sim_first. assumption. Qed.
  Lemma sim_process s h p open s' h' o : gen_process F im al like pred' root s h p open = Ok (s', h', o) -> follows2 s s' (fun st => gen_process F im al like pred root st h p open) h' o.
  Proof.
    unfold gen_process. destruct (gen_first F im al like pred' root s h p) as [[[s1 h1] fc]|] eqn:E; cbn [mbind res_bind]; [|discriminate].
    intros [= <- <- <-] st' Hv. destruct (sim_gen_first _ _ _ _ _ _ E _ Hv) as (st & Hs & E'). exists st. rewrite E'. auto.
  Qed.
  Lemma sim_increment s h open s' h' x : gen_increment F im al like pred' root s h open = Ok (s', h', fst x, snd x) ->
    forall st', view s' = Some st' -> exists st, view s = Some st /\ gen_increment F im al like pred root st h open = Ok (st', h', fst x, snd x).
  Proof.
    unfold gen_increment. destruct open as [|p open]; [intros [= <- <- <- <-] st' Hv; exists st'; auto|].
    destruct (gen_next F im al like pred' root s h p) as [[[s1 h1] sib]|] eqn:E1; cbn [mbind res_bind]; [|discriminate].
    destruct (gen_process F im al like pred' root s1 h1 p _) as [[[s2 h2] o2]|] eqn:E2; cbn [mbind res_bind]; [|discriminate].
    intros [= <- <- <- <-] st' Hv. destruct (sim_process _ _ _ _ _ _ _ E2 _ Hv) as (st1 & Hs1 & E2').
    destruct (sim_gen_next _ _ _ _ _ _ E1 _ Hs1) as (st & Hs & E1'). exists st. split; [exact Hs|]. rewrite E1'. cbn [mbind res_bind]. rewrite E2'. reflexivity.
  Qed.
  Lemma sim_loop k : forall s h cur open s' h', gen_loop F im al like pred' root k s h cur open = Ok (s', h') ->
    forall st', view s' = Some st' -> exists st, view s = Some st /\ gen_loop F im al like pred root k st h cur open = Ok (st', h').
  Proof.
    induction k as [|k IH]; intros s h cur open s' h' E st' Hv; [discriminate|]. cbn [gen_loop] in *. destruct (mp_bool cur).
    - destruct (gen_increment F im al like pred' root s h open) as [[[[s1 h1] c1] o1]|] eqn:E1; cbn [mbind res_bind] in E; [|discriminate].
      destruct (IH _ _ _ _ _ _ E _ Hv) as (st1 & Hs1 & E'). destruct (sim_increment s h open s1 h1 (c1, o1) E1 _ Hs1) as (st & Hs & E1').
      exists st. split; [exact Hs|]. rewrite E1'. exact E'.
    - injection E as <- <-. exists st'. auto.
  Qed.
  Lemma sim_generate s h s' h' st' : generate F im al like pred' root s h = Ok (s', h') -> view s' = Some st' ->
    exists st, view s = Some st /\ generate F im al like pred root st h = Ok (st', h').
  Proof.
    unfold generate, gen_start. destruct (gen_next F im al like pred' root s h root) as [[[s1 h1] ns]|] eqn:E1; cbn [mbind res_bind]; [|discriminate].
    destruct (gen_process F im al like pred' root s1 h1 root _) as [[[s2 h2] o2]|] eqn:E2; cbn [mbind res_bind]; [|discriminate].
    intros E Hv. destruct (sim_loop _ _ _ _ _ _ _ E _ Hv) as (st2 & Hs2 & E').
    destruct (sim_process _ _ _ _ _ _ _ E2 _ Hs2) as (st1 & Hs1 & E2'). destruct (sim_gen_next _ _ _ _ _ _ E1 _ Hs1) as (st & Hs & E1').
    exists st. split; [exact Hs|]. rewrite E1'. cbn [mbind res_bind]. rewrite E2'. exact E'.
  Qed.
End Sim.
