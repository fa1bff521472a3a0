(** Tried.v: attempts at something that takes a number of new nodes. *)
From Verif Require Import Base StructNode BinaryNode NaryNode Nav Policy Tree Fail Matcher ResultFail Gen Star StarFail.

Section Tried.
  Context {Nd : Type}.
  Notation heap := (gmap addr Nd).
  (** [m] gives [x] if it can create nodes enough, and otherwise leaves a heap in [S]. *)
  Definition tried {A} (S : heap -> Prop) (m : attempt heap A) (h : heap) (x : A) (h' : heap) : Prop :=
    exists n, (forall k, m h (n + k) = Made x h' k) /\ (forall k, k < n -> exists hl, m h k = Lost hl /\ S hl).
  Lemma tried_give {A} S (x : A) h : tried S (give x) h x h.
  Proof. exists 0. split; [reflexivity|]. intros k Hk. lia. Qed.
  Lemma tried_then {A B} S (m : attempt heap A) (g : A -> attempt heap B) h x h1 y h2 :
    tried S m h x h1 -> tried S (g x) h1 y h2 -> tried S (then_ m g) h y h2.
  Proof.
    intros (n & H1 & H2) (n' & G1 & G2). exists (n + n'). split.
    - intros k. unfold then_. rewrite <- Nat.add_assoc, H1. apply G1.
    - intros k Hk. unfold then_. destruct (decide (k < n)) as [Hlt|Hge].
      + destruct (H2 k Hlt) as (hl & E & Hs). exists hl. rewrite E. auto.
      + replace k with (n + (k - n)) by lia. rewrite H1. apply G2. lia.
  Qed.
  Lemma tried_read {A B} S (r : heap -> res A) (g : A -> attempt heap B) h x y h2 : r h = Ok x -> tried S (g x) h y h2 -> tried S (then_ (reading r) g) h y h2.
  Proof. intros E H. eapply tried_then; [|exact H]. exists 0. unfold reading. rewrite E. split; [reflexivity|]. intros k Hk. lia. Qed.
  Lemma tried_writing S (f : heap -> res heap) h h1 : f h = Ok h1 -> tried S (writing f) h () h1.
  Proof. intros E. exists 0. unfold writing. rewrite E. split; [reflexivity|]. intros k Hk. lia. Qed.
  Lemma tried_write {B} S (f : heap -> res heap) (g : unit -> attempt heap B) h h1 y h2 : f h = Ok h1 -> tried S (g ()) h1 y h2 -> tried S (then_ (writing f) g) h y h2.
  Proof. intros E H. eapply tried_then; [|exact H]. apply tried_writing, E. Qed.
  Lemma tried_mono {A} (S S' : heap -> Prop) (m : attempt heap A) h x h' : (forall hl, S hl -> S' hl) -> tried S m h x h' -> tried S' m h x h'.
  Proof. intros Hs (n & H1 & H2). exists n. split; [exact H1|]. intros k Hk. destruct (H2 k Hk) as (hl & E & H). eauto. Qed.
  Lemma tried_unwinding {A} (S S' : heap -> Prop) f (m : attempt heap A) h x h' : (forall hl, S hl -> exists h2, f hl = Ok h2 /\ S' h2) ->
    tried S m h x h' -> tried S' (unwinding f m) h x h'.
  Proof.
    intros Hs (n & H1 & H2). exists n. unfold unwinding. split; [intros k; rewrite H1; reflexivity|]. intros k Hk. destruct (H2 k Hk) as (hl & E & H).
    destruct (Hs hl H) as (h2 & E2 & H3). exists h2. rewrite E, E2. auto.
  Qed.
  Lemma tried_holding {V A} F (im : node_impl V Nd) p (S S' : heap -> Prop) (m : attempt heap A) h x h' :
    (forall hl, S hl -> exists h2, deallocate im F hl p = Ok h2 /\ S' h2) -> tried S m h x h' -> tried S' (holding F im p m) h x h'.
  Proof. exact (tried_unwinding S S' (fun h => deallocate im F h p) m h x h'). Qed.
  Lemma tried_each {A} S (m : attempt heap A) h x h' k : tried S m h x h' -> (exists k', m h k = Made x h' k') \/ exists hl, m h k = Lost hl /\ S hl.
  Proof.
    intros (n & H1 & H2). destruct (decide (k < n)) as [Hlt|Hge]; [right; apply H2, Hlt|]. left. exists (k - n).
    replace k with (n + (k - n)) at 1 by lia. apply H1.
  Qed.
End Tried.
