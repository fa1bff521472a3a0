(** Orders.v: from single steps to whole iterations, for any policy. *)
From Verif Require Import Base Spec RoseFacts RowFacts Nav Policy NavFacts.

(** [L] is the sequence of nodes, [St p o] says that [o] is the auxiliary state
    (queue or stack) an iterator standing at [p] has; [None] is the end. *)
Record order_steps (F : nat) (nav : navigator) (k : kind) (L : list addr)
    (St : ptr -> list ptr -> Prop) : Prop := OrderSteps {
  os_nd : NoDup L;
  os_fun : forall p o o', St p o -> St p o' -> o = o';
  os_inc : forall l1 x l2 o, L = l1 ++ x :: l2 -> St (Some x) o ->
    exists o', increment_impl F nav k (Some x) o = Ok (head l2, o') /\ St (head l2) o'
}.
Record order_first (F : nat) (nav : navigator) (k : kind) (L : list addr)
    (St : ptr -> list ptr -> Prop) : Prop := OrderFirst {
  of_first : forall i o, St None o ->
    exists o', go_first_impl F nav k i o = Ok (head L, o') /\ St (head L) o'
}.
Record order_back (F : nat) (nav : navigator) (k : kind) (L : list addr)
    (St : ptr -> list ptr -> Prop) : Prop := OrderBack {
  ob_dec : forall l1 x l2 o, L = l1 ++ x :: l2 -> l1 <> [] -> St (Some x) o ->
    exists o', decrement_impl F nav k (Some x) o = Ok (last l1, o') /\ St (last l1) o'
}.
Record order_last (F : nat) (nav : navigator) (k : kind) (L : list addr)
    (St : ptr -> list ptr -> Prop) : Prop := OrderLast {
  ol_last : forall i o, St None o ->
    exists o', go_last_impl F nav k i o = Ok (last L, o') /\ St (last L) o'
}.
(** Policy objects created at a given node. *)
Definition initial_open (F : nat) (nav : navigator) (k : kind) (p : ptr) : res (list ptr) :=
  match k with BreadthFirst => manage_initial_status F nav p | _ => Ok [] end.
Definition order_init (F : nat) (nav : navigator) (k : kind) (L : list addr)
    (St : ptr -> list ptr -> Prop) : Prop :=
  forall p, (p = None \/ exists x, p = Some x /\ x ∈ L) ->
    exists o, initial_open F nav k p = Ok o /\ St p o.

Section Walks.
  Variable F : nat.
  Variable mknav : ptr -> navigator.
  Variable r : addr.
  Variable k : kind.
  Variable L : list addr.
  Variable St : ptr -> list ptr -> Prop.
  Let nav := mknav (Some r).
  Hypothesis Hs : order_steps F nav k L St.

  (** The iterator [it] stands at [p]. *)
  Record at_pos (p : ptr) (it : iter) : Prop := AtPos {
    ap_kind : it_kind it = k;
    ap_cur : it_cur it = p;
    ap_root : it_root it = Some r;
    ap_open : St p (it_open it)
  }.

  Lemma at_pos_fun p it it' : at_pos p it -> at_pos p it' -> it_initial it = it_initial it' -> it = it'.
  Proof.
    intros [H1 H2 H3 H4] [H1' H2' H3' H4'] Hi. destruct it, it'; cbn in *. subst.
    f_equal. eapply (os_fun _ _ _ _ _ Hs); eassumption.
  Qed.
  Lemma at_pos_eqb p q it it' : at_pos p it -> at_pos q it' -> it_eqb it it' = ptr_eqb p q.
  Proof.
    intros [H1 H2 H3 H4] [H1' H2' H3' H4']. unfold it_eqb. rewrite H2, H2', H3, H3', ptr_eqb_true.
    apply andb_true_r.
  Qed.

  Lemma incr_at l1 x l2 it : L = l1 ++ x :: l2 -> at_pos (Some x) it ->
    exists it', it_incr F mknav it = Ok it' /\ at_pos (head l2) it' /\ it_initial it' = it_initial it.
  Proof.
    intros HL [H1 H2 H3 H4]. unfold it_incr. rewrite H1, H2, H3.
    destruct (os_inc _ _ _ _ _ Hs l1 x l2 _ HL H4) as (o' & Ho & Ho2).
    fold nav. rewrite Ho. cbn [mbind res_bind]. eexists. split; [reflexivity|].
    split; [|reflexivity]. split; cbn; auto.
  Qed.
  Hypothesis Hf : order_first F nav k L St.
  Lemma incr_end it : at_pos None it ->
    exists it', it_incr F mknav it = Ok it' /\ at_pos (head L) it' /\ it_initial it' = it_initial it.
  Proof.
    intros [H1 H2 H3 H4]. unfold it_incr. rewrite H1, H2, H3.
    destruct (of_first _ _ _ _ _ Hf (it_initial it) _ H4) as (o' & Ho & Ho2).
    fold nav. rewrite Ho. cbn [mbind res_bind]. eexists. split; [reflexivity|].
    split; [|reflexivity]. split; cbn; auto.
  Qed.

  Lemma instance_at p : order_init F nav k L St -> (p = None \/ exists x, p = Some x /\ x ∈ L) ->
    exists it, get_instance F mknav k p (Some r) = Ok it /\ at_pos p it /\ it_initial it = p.
  Proof.
    intros Hi Hp. destruct (Hi p Hp) as (o & Ho & Ho2).
    unfold get_instance, fix_navigator_root. cbn [mbind res_bind]. fold nav.
    unfold initial_open in Ho. rewrite Ho. cbn [mbind res_bind].
    eexists. split; [reflexivity|]. split; [|reflexivity]. split; cbn; auto.
  Qed.
  Lemma end_at : order_init F nav k L St ->
    exists it, tree_end F mknav k (Some r) = Ok it /\ at_pos None it /\ it_initial it = None.
  Proof. intros Hi. apply instance_at; auto. Qed.
  Lemma begin_at : order_init F nav k L St ->
    exists it, tree_begin F mknav k (Some r) = Ok it /\ at_pos (head L) it /\ it_initial it = None.
  Proof.
    intros Hi. destruct (end_at Hi) as (it & H1 & H2 & H3). unfold tree_begin. unfold tree_end in H1.
    rewrite H1. cbn [mbind res_bind]. destruct (incr_end it H2) as (it' & H4 & H5 & H6).
    exists it'. rewrite H6. auto.
  Qed.

  Context {A : Type}.
  Variable vis : ptr -> res A.
  Variable val : addr -> A.
  Hypothesis Hvis : forall x, x ∈ L -> vis (Some x) = Ok (val x).

  Lemma head_in l1 l2 x : L = l1 ++ l2 -> head l2 = Some x -> x ∈ L /\ exists l2', l2 = x :: l2'.
  Proof.
    intros -> Hh. destruct l2; [discriminate|]. injection Hh as ->. split; [|eauto].
    apply elem_of_app; right; apply elem_of_cons; left; reflexivity.
  Qed.

  (** The forward loop visits the rest of the sequence. *)
  Lemma walk_at l2 : forall l1 it e fuel, L = l1 ++ l2 -> at_pos (head l2) it -> at_pos None e ->
    length l2 < fuel -> walk vis (it_incr F mknav) fuel it e = Ok (map val l2).
  Proof.
    induction l2 as [|x l2 IH]; intros l1 it e fuel HL Hit He Hfuel;
      (destruct fuel as [|fuel]; [cbn in Hfuel; lia|]); cbn [walk head] in *;
      rewrite (at_pos_eqb _ _ _ _ Hit He).
    - rewrite ptr_eqb_true. reflexivity.
    - rewrite ptr_eqb_false by discriminate. rewrite (ap_cur _ _ Hit).
      rewrite Hvis by (rewrite HL; apply elem_of_app; right; apply elem_of_cons; left; reflexivity).
      cbn [mbind res_bind].
      destruct (incr_at l1 x l2 it HL Hit) as (it' & H1 & H2 & _). rewrite H1. cbn [mbind res_bind].
      rewrite (IH (l1 ++ [x]) it' e fuel).
      + reflexivity.
      + rewrite HL, <- app_assoc. reflexivity.
      + exact H2.
      + exact He.
      + cbn in Hfuel. lia.
  Qed.

  Hypothesis Hb : order_back F nav k L St.
  Lemma decr_at l1 x l2 it : L = l1 ++ x :: l2 -> l1 <> [] -> at_pos (Some x) it ->
    exists it', it_decr F mknav it = Ok it' /\ at_pos (last l1) it' /\ it_initial it' = it_initial it.
  Proof.
    intros HL Hne [H1 H2 H3 H4]. unfold it_decr. rewrite H1, H2, H3.
    destruct (ob_dec _ _ _ _ _ Hb l1 x l2 _ HL Hne H4) as (o' & Ho & Ho2).
    fold nav. rewrite Ho. cbn [mbind res_bind]. eexists. split; [reflexivity|].
    split; [|reflexivity]. split; cbn; auto.
  Qed.
  Hypothesis Hl : order_last F nav k L St.
  Lemma decr_end it : at_pos None it ->
    exists it', it_decr F mknav it = Ok it' /\ at_pos (last L) it' /\ it_initial it' = it_initial it.
  Proof.
    intros [H1 H2 H3 H4]. unfold it_decr. rewrite H1, H2, H3.
    destruct (ol_last _ _ _ _ _ Hl (it_initial it) _ H4) as (o' & Ho & Ho2).
    fold nav. rewrite Ho. cbn [mbind res_bind]. eexists. split; [reflexivity|].
    split; [|reflexivity]. split; cbn; auto.
  Qed.
  (** One step back from the position between [l1] and [l2]. *)
  Lemma decr_split l1 l2 it : L = l1 ++ l2 -> l1 <> [] -> at_pos (head l2) it ->
    exists it', it_decr F mknav it = Ok it' /\ at_pos (last l1) it' /\ it_initial it' = it_initial it.
  Proof.
    intros HL Hne Hit. destruct l2 as [|x l2].
    - rewrite app_nil_r in HL. subst l1. apply decr_end, Hit.
    - apply (decr_at l1 x l2 it HL Hne Hit).
  Qed.
  Lemma incr_split l1 l2 it : L = l1 ++ l2 -> l2 <> [] -> at_pos (head l2) it ->
    exists it', it_incr F mknav it = Ok it' /\ at_pos (head (tail l2)) it' /\ it_initial it' = it_initial it.
  Proof.
    intros HL Hne Hit. destruct l2 as [|x l2]; [congruence|]. apply (incr_at l1 x l2 it HL Hit).
  Qed.

  (** The backward loop visits the sequence before the position, reversed. *)
  Lemma rwalk_at l1 : forall l2 it e fuel, L = l1 ++ l2 -> at_pos (head l2) it -> at_pos (head L) e ->
    length l1 < fuel -> rwalk vis (it_decr F mknav) fuel it e = Ok (map val (rev l1)).
  Proof.
    induction l1 as [|x l1 IH] using rev_ind; intros l2 it e fuel HL Hit He Hfuel;
      (destruct fuel as [|fuel]; [lia|]); cbn [rwalk];
      rewrite (at_pos_eqb _ _ _ _ Hit He).
    - cbn in HL. subst l2. rewrite ptr_eqb_true. reflexivity.
    - rewrite ptr_eqb_false.
      2:{ intros Heq. pose proof (os_nd _ _ _ _ _ Hs) as Hnd. rewrite HL in Hnd, Heq.
          destruct l2 as [|y l2]; [destruct l1; discriminate|].
          destruct l1 as [|z l1]; cbn in *; injection Heq as ->;
            apply NoDup_cons in Hnd as [Hn _]; apply Hn; set_solver. }
      destruct (decr_split (l1 ++ [x]) l2 it HL) as (it' & H1 & H2 & _).
      { destruct l1; discriminate. }
      { exact Hit. }
      rewrite last_snoc in H2. rewrite H1. cbn [mbind res_bind]. rewrite (ap_cur _ _ H2).
      rewrite Hvis by (rewrite HL; set_solver). cbn [mbind res_bind].
      rewrite app_length in Hfuel. cbn in Hfuel.
      rewrite (IH (x :: l2) it' e fuel).
      + cbn [mbind res_bind]. rewrite rev_app_distr. reflexivity.
      + rewrite HL, <- app_assoc. reflexivity.
      + exact H2.
      + exact He.
      + lia.
  Qed.

  (** [++] then [--], and [--] then [++], give back the same iterator. *)
  Lemma incr_decr l1 l2 it : L = l1 ++ l2 -> l2 <> [] -> at_pos (head l2) it ->
    exists it', it_incr F mknav it = Ok it' /\ it_decr F mknav it' = Ok it.
  Proof.
    intros HL Hne Hit. destruct l2 as [|x l2]; [congruence|].
    destruct (incr_at l1 x l2 it HL Hit) as (it' & H1 & H2 & H3). exists it'. split; [exact H1|].
    destruct (decr_split (l1 ++ [x]) l2 it') as (it'' & H4 & H5 & H6).
    { rewrite HL, <- app_assoc. reflexivity. }
    { destruct l1; discriminate. }
    { exact H2. }
    rewrite last_snoc in H5. rewrite H4. f_equal. eapply at_pos_fun; [exact H5|exact Hit|congruence].
  Qed.
  Lemma decr_incr l1 l2 it : L = l1 ++ l2 -> l1 <> [] -> at_pos (head l2) it ->
    exists it', it_decr F mknav it = Ok it' /\ it_incr F mknav it' = Ok it.
  Proof.
    intros HL Hne Hit. destruct l1 as [|x l1 _] using rev_ind; [congruence|].
    destruct (decr_split (l1 ++ [x]) l2 it HL Hne Hit) as (it' & H1 & H2 & H3). exists it'. split; [exact H1|].
    rewrite last_snoc in H2.
    destruct (incr_at l1 x l2 it') as (it'' & H4 & H5 & H6).
    { rewrite HL, <- app_assoc. reflexivity. }
    { exact H2. }
    rewrite H4. f_equal. eapply at_pos_fun; [exact H5|exact Hit|congruence].
  Qed.

  (** Any mixture of moves: [true] is [++], [false] is [--]; the position is
      counted from 0 (first element) to [length L] (end). *)
  Fixpoint moves (n : nat) (ms : list bool) (i : nat) : option nat :=
    match ms with
    | [] => Some i
    | true :: ms => if i =? n then moves n ms 0 else moves n ms (S i)
    | false :: ms => match i with 0 => None | S i => moves n ms i end
    end.
  Fixpoint run_moves (ms : list bool) (it : iter) : res iter :=
    match ms with
    | [] => Ok it
    | true :: ms => it' ← it_incr F mknav it; run_moves ms it'
    | false :: ms => it' ← it_decr F mknav it; run_moves ms it'
    end.
  Lemma at_index i : i <= length L -> exists l1 l2, L = l1 ++ l2 /\ length l1 = i /\ head l2 = nth_error L i.
  Proof.
    intros Hi. exists (take i L), (drop i L). rewrite take_drop, take_length. split; [reflexivity|].
    split; [lia|]. clear. revert i; induction L as [|x L' IH]; intros [|i]; cbn; auto.
  Qed.
  Lemma run_moves_ok ms : forall i it j, i <= length L -> at_pos (nth_error L i) it ->
    moves (length L) ms i = Some j ->
    j <= length L /\ exists it', run_moves ms it = Ok it' /\ at_pos (nth_error L j) it' /\ it_initial it' = it_initial it.
  Proof.
    induction ms as [|[] ms IH]; intros i it j Hi Hit Hm; cbn [moves run_moves] in *.
    - injection Hm as <-. eauto.
    - destruct (Nat.eqb_spec i (length L)) as [->|Hne].
      + rewrite (proj2 (nth_error_None L (length L))) in Hit by lia.
        destruct (incr_end it Hit) as (it' & H1 & H2 & H3). rewrite H1. cbn [mbind res_bind].
        rewrite <- H3. apply (IH 0); [lia| |exact Hm]. destruct L; exact H2.
      + destruct (at_index i Hi) as (l1 & l2 & HL & Hlen & Hh). rewrite <- Hh in Hit.
        destruct l2 as [|x l2]. { rewrite app_nil_r in HL. subst l1. congruence. }
        destruct (incr_at l1 x l2 it HL Hit) as (it' & H1 & H2 & H3). rewrite H1. cbn [mbind res_bind].
        rewrite <- H3. apply (IH (S i)); [lia| |exact Hm].
        replace (nth_error L (S i)) with (head l2); [exact H2|].
        rewrite HL, nth_error_app2 by lia. rewrite Hlen. replace (S i - i) with 1 by lia.
        destruct l2; reflexivity.
    - destruct i as [|i]; [discriminate|].
      destruct (at_index (S i) Hi) as (l1 & l2 & HL & Hlen & Hh). rewrite <- Hh in Hit.
      destruct l1 as [|x l1 _] using rev_ind; [discriminate|].
      destruct (decr_split (l1 ++ [x]) l2 it HL) as (it' & H1 & H2 & H3); [destruct l1; discriminate|exact Hit|].
      rewrite H1. cbn [mbind res_bind]. rewrite <- H3. apply (IH i); [lia| |exact Hm].
      rewrite last_snoc in H2. rewrite app_length in Hlen. cbn in Hlen.
      replace (nth_error L i) with (Some x); [exact H2|].
      rewrite HL, <- app_assoc, nth_error_app2 by lia. replace (i - length l1) with 0 by lia. reflexivity.
  Qed.
End Walks.

(** Filtering iterators over any policy. *)
Section FilterWalk.
  Variable F : nat.
  Variable mknav : ptr -> navigator.
  Variable r : addr.
  Variable k : kind.
  Variable L : list addr.
  Variable St : ptr -> list ptr -> Prop.
  Hypothesis Hs : order_steps F (mknav (Some r)) k L St.
  Variable pred : ptr -> res bool.
  Variable P : addr -> bool.
  Hypothesis Hpred : forall x, x ∈ L -> pred (Some x) = Ok (P x).
  Context {A : Type}.
  Variable vis : ptr -> res A.
  Variable val : addr -> A.
  Hypothesis Hvis : forall x, x ∈ L -> vis (Some x) = Ok (val x).

  (** The first part of a list up to the first element satisfying [P]. *)
  Fixpoint skip_to (l : list addr) : list addr :=
    match l with [] => [] | x :: l' => if P x then l else skip_to l' end.
  Lemma skip_to_suffix l : exists m, l = m ++ skip_to l.
  Proof.
    induction l as [|x l [m Hm]]; cbn; [exists []; reflexivity|].
    destruct (P x); [exists []; reflexivity|]. exists (x :: m). cbn. rewrite <- Hm. reflexivity.
  Qed.
  Lemma skip_to_head l x l' : skip_to l = x :: l' -> P x = true.
  Proof.
    induction l as [|y l IH]; cbn; [discriminate|]. destruct (P y) eqn:E; [|exact IH].
    intros [=-> _]. exact E.
  Qed.
  Lemma skip_to_filter l : List.filter P (skip_to l) = List.filter P l.
  Proof. induction l as [|x l IH]; cbn; [reflexivity|]. destruct (P x) eqn:E; [cbn; rewrite E; reflexivity|exact IH]. Qed.

  Lemma filter_incr_at l2 : forall l1 x it fuel, L = l1 ++ x :: l2 -> at_pos r k St (Some x) it ->
    length l2 < fuel ->
    exists it', filter_move pred fuel (it_incr F mknav) it = Ok it' /\ at_pos r k St (head (skip_to l2)) it'.
  Proof.
    induction l2 as [|y l2 IH]; intros l1 x it fuel HL Hit Hfuel; (destruct fuel as [|fuel]; [cbn in Hfuel; lia|]);
      cbn [filter_move skip_to]; destruct (incr_at F mknav r k L St Hs _ _ _ _ HL Hit) as (it1 & H1 & H2 & _);
      rewrite H1; cbn [mbind res_bind]; rewrite (ap_cur _ _ _ _ _ H2); cbn [head].
    - exists it1. split; [reflexivity|exact H2].
    - rewrite Hpred by (rewrite HL; set_solver). cbn [mbind res_bind].
      destruct (P y) eqn:E.
      + exists it1. split; [reflexivity|exact H2].
      + apply (IH (l1 ++ [x]) y it1 fuel); [rewrite HL, <- app_assoc; reflexivity|exact H2|cbn in Hfuel; lia].
  Qed.
  Hypothesis HF : length L <= F.

  Lemma filter_walk_at l2 : forall n l1 it e fuel, length l2 <= n -> L = l1 ++ l2 -> skip_to l2 = l2 ->
    at_pos r k St (head l2) it -> at_pos r k St None e -> length l2 < fuel ->
    walk vis (filter_incr F mknav pred) fuel it e = Ok (map val (List.filter P l2)).
  Proof.
    intros n. revert l2. induction n as [|n IH]; intros l2 l1 it e fuel Hn HL Hsk Hit He Hfuel;
      (destruct fuel as [|fuel]; [lia|]); cbn [walk]; rewrite (at_pos_eqb _ _ _ _ _ _ _ Hit He).
    - destruct l2 as [|x l2]; [|cbn in Hn; lia]. cbn. rewrite ptr_eqb_true. reflexivity.
    - destruct l2 as [|x l2]; [cbn; rewrite ptr_eqb_true; reflexivity|]. cbn [head] in *.
      rewrite ptr_eqb_false by discriminate.
      rewrite (ap_cur _ _ _ _ _ Hit), Hvis by (rewrite HL; set_solver). cbn [mbind res_bind].
      destruct (filter_incr_at l2 l1 x it F HL Hit) as (it' & H1 & H2).
      { rewrite HL, app_length in HF. cbn in HF. lia. }
      change (filter_incr F mknav pred it = Ok it') in H1. rewrite H1. cbn [mbind res_bind].
      pose proof (skip_to_head _ _ _ Hsk) as HPx. cbn [List.filter]. rewrite HPx. cbn [map].
      destruct (skip_to_suffix l2) as [m Hm].
      assert (Hlen : length (skip_to l2) <= length l2) by (rewrite Hm at 2; rewrite app_length; lia).
      rewrite (IH (skip_to l2) (l1 ++ x :: m) it' e fuel).
      + rewrite skip_to_filter. reflexivity.
      + cbn in Hn. lia.
      + rewrite HL, <- app_assoc. cbn. rewrite <- Hm. reflexivity.
      + clear. induction l2 as [|y l2 IHl]; cbn; [reflexivity|]. destruct (P y) eqn:E; [|exact IHl]. cbn. rewrite E. reflexivity.
      + exact H2.
      + exact He.
      + cbn in Hfuel. lia.
  Qed.

  Lemma filter_make_at l1 l2 it : L = l1 ++ l2 -> at_pos r k St (head l2) it ->
    exists it', filter_make F mknav pred it = Ok it' /\ at_pos r k St (head (skip_to l2)) it'.
  Proof.
    intros HL Hit. unfold filter_make. rewrite (ap_cur _ _ _ _ _ Hit).
    destruct l2 as [|x l2]; cbn [head skip_to]; [eauto|].
    rewrite Hpred by (rewrite HL; set_solver). cbn [mbind res_bind].
    destruct (P x) eqn:E; [eauto|]. unfold filter_incr.
    apply (filter_incr_at l2 l1 x it F HL Hit). rewrite HL, app_length in HF. cbn in HF. lia.
  Qed.

  (** The whole filtered loop from any position. *)
  Lemma filter_loop l1 l2 it e fuel : L = l1 ++ l2 -> at_pos r k St (head l2) it -> at_pos r k St None e ->
    length L < fuel ->
    (it' ← filter_make F mknav pred it; e' ← filter_make F mknav pred e;
     walk vis (filter_incr F mknav pred) fuel it' e') = Ok (map val (List.filter P l2)).
  Proof.
    intros HL Hit He Hfuel. destruct (filter_make_at l1 l2 it HL Hit) as (it' & H1 & H2).
    rewrite H1. cbn [mbind res_bind]. unfold filter_make at 1. rewrite (ap_cur _ _ _ _ _ He). cbn [mbind res_bind].
    destruct (skip_to_suffix l2) as [m Hm].
    assert (Hlen : length (skip_to l2) <= length L).
    { rewrite HL, Hm, !app_length. rewrite <- Hm. lia. }
    rewrite (filter_walk_at (skip_to l2) (length (skip_to l2)) (l1 ++ m) it' e fuel).
    - rewrite skip_to_filter. reflexivity.
    - lia.
    - rewrite HL, <- app_assoc, <- Hm. reflexivity.
    - clear. induction l2 as [|y l2 IHl]; cbn; [reflexivity|]. destruct (P y) eqn:E; [|exact IHl]. cbn. rewrite E. reflexivity.
    - exact H2.
    - exact He.
    - lia.
  Qed.
End FilterWalk.
