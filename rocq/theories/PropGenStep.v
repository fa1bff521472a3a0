(** PropGenStep.v: single steps of a generative navigator (C82), and what two of
    them in a row can go wrong about (C47).

    The navigator walks over a stored tree [t] with the test [keep] on values; it
    stands at a node of [t] and at the node [g] of a separate tree, the copy made
    so far.  [kept] (PruneSpec.v) are the trees whose root passes the test. *)
From Verif Require Import Base Spec StructNode BinaryNode NaryNode Nav Policy Tree Rep RoseFacts NavFacts BinOrder BinRep NaryRep NaryEdit EditSpec
  World Kinds TreeSpec NodeFacts IterTrees Matcher MatchWalk MatchBin Gen GenFacts GenRun GenNary GenUser GenStep PruneSpec Examples Examples2 PropGen.

(** [a] was free; the copy is [r'] now; [t] and all the rest are as before. *)
Definition generated_nary {V} (h h' : gmap addr (nnode V)) (t r : rose (addr * V)) (a : addr) (r' : rose (addr * V)) : Prop :=
  h !! a = None /\ nary_at h' r' /\ nary_in h' t /\ (forall z, z ∉ raddrs r -> z <> a -> h' !! z = h !! z).
Definition generated_binary {V} (h h' : gmap addr (bnode V)) (b r : bin (addr * V)) (a : addr) (r' : bin (addr * V)) : Prop :=
  h !! a = None /\ bin_at h' r' /\ bin_in h' b /\ (forall z, z ∉ baddrs r -> z <> a -> h' !! z = h !! z).

Lemma sub_size {A} (s t : rose A) : rsubtree s t -> rsize s <= rsize t.
Proof.
  induction 1 as [|x cs c Hc _ IH]; [lia|]. cbn. change (fold_right Nat.add 0) with list_sum. apply elem_of_list_split in Hc as (l1 & l2 & ->).
  rewrite map_app, list_sum_app'. cbn. change (fold_right Nat.add 0) with list_sum. lia.
Qed.
Lemma kids_fuel {A} x (cs : list (rose A)) t : rsubtree (Rose x cs) t -> S (length cs) <= rsize t.
Proof. intros H. apply sub_size in H. cbn in H. change (fold_right Nat.add 0) with list_sum in H. pose proof (length_children cs). lia. Qed.
Lemma kept_in {A} (keep : A -> bool) cs s l : kept keep cs = s :: l -> s ∈ cs /\ keep (label s) = true.
Proof. intros E. assert (H : In s (kept keep cs)) by (rewrite E; left; reflexivity). apply filter_In in H as [H1 H2]. split; [apply elem_of_list_In, H1|exact H2]. Qed.

(** *** N-ary trees *)
(** To the first child: the first child that passes the test, with a new node for
    it under [g]; nowhere if none passes. *)
Theorem C82_first_nary :
  forall (V : Type) (EV : EqDecision V) (F : nat) (al : allocator (nnode V)) (h : gmap addr (nnode V)) (t : rose (addr * V)) (keep : V -> bool)
    (gr : ptr) (flr fl : list bool) (x : addr * V) (cs : list (rose (addr * V))) (c : ctx (addr * V)) (g : addr) (v : V),
  let r := plug c (Rose (g, v) []) in
  nary_in h t -> rsubtree (Rose x cs) t -> rsize t < F -> nary_at h r -> (forall z, z ∈ raddrs t -> z ∉ raddrs r) ->
  let step := gen_first F (nary_impl V) al (n_assign_child_like F) (by_value (nary_impl V) keep) (MPtr [Some (raddr t); gr] flr) tt h (MPtr [Some (fst x); Some g] fl) in
  match kept (fun y => keep (snd y)) cs with
  | [] => step = Ok (tt, h, mp_make [None; None])
  | s :: _ => exists h' a, step = Ok (tt, h', MPtr [Some (raddr s); Some a] [false; true]) /\
      generated_nary h h' t r a (plug c (Rose (g, v) [Rose (a, snd (label s)) []]))
  end.
Proof.
  intros V EV F al h t keep gr flr fl x cs c g v r Hin Hsub HF Hr Hd step. pose proof (nary_row h t x cs Hin Hsub) as Hrow.
  destruct (ops_row h _ _ (in_ops h t x cs Hin Hsub)) as (Hfirst & _ & _). destruct (ops_row h g [] (nary_sub_ops h c g v [] Hr)) as (Hg & _ & _).
  pose proof (first_step F (nary_impl V) keep (MPtr [Some (raddr t); gr] flr) (raddr t) eq_refl h cs (fst x) g fl Hrow ltac:(pose proof (kids_fuel _ _ _ Hsub); lia) Hfirst Hg) as E.
  destruct (kept (fun y => keep (snd y)) cs) as [|s l] eqn:Ek.
  - apply gen_nothing. exact E.
  - apply kept_in in Ek as [Hs _]. destruct (nary_child_made F al h c g v [] (snd (label s)) (Some (raddr s)) Hr ltac:(cbn; lia)) as (a & h1 & h2 & Ea & Hn & _ & E2 & H2 & Hf).
    exists h2, a. split; [|split; [exact Hn|split; [exact H2|split; [exact (nary_kept_in h h2 t _ a Hin Hn Hd Hf)|exact Hf]]]].
    eapply gen_some; [exact E|exact (rw_value _ _ _ _ Hrow s Hs)|exact Ea|exact E2].
Qed.
Print Assumptions C82_first_nary.
(** To the next sibling, from a node whose generated node is the last child of
    [g]: the next sibling that passes, with a new node for it after that one. *)
Theorem C82_next_nary :
  forall (V : Type) (EV : EqDecision V) (F : nat) (al : allocator (nnode V)) (h : gmap addr (nnode V)) (t : rose (addr * V)) (keep : V -> bool)
    (gr : ptr) (flr fl : list bool) (x : addr * V) (ls rs : list (rose (addr * V))) (s : rose (addr * V)) (c : ctx (addr * V)) (g : addr) (v : V)
    (gs : list (rose (addr * V))) (e : rose (addr * V)),
  let r := plug c (Rose (g, v) (gs ++ [e])) in
  nary_in h t -> rsubtree (Rose x (ls ++ s :: rs)) t -> rsize t < F -> rsize r <= F -> nary_at h r -> (forall z, z ∈ raddrs t -> z ∉ raddrs r) ->
  let step := gen_next F (nary_impl V) al (n_assign_child_like F) (by_value (nary_impl V) keep) (MPtr [Some (raddr t); gr] flr) tt h (MPtr [Some (raddr s); Some (raddr e)] fl) in
  match kept (fun y => keep (snd y)) rs with
  | [] => step = Ok (tt, h, mp_make [None; None])
  | s' :: _ => exists h' a, step = Ok (tt, h', MPtr [Some (raddr s'); Some a] [false; true]) /\
      generated_nary h h' t r a (plug c (Rose (g, v) (gs ++ [e] ++ [Rose (a, snd (label s')) []])))
  end.
Proof.
  intros V EV F al h t keep gr flr fl x ls rs s c g v gs e r Hin Hsub HF HFr Hr Hd step. pose proof (nary_row h t x _ Hin Hsub) as Hrow.
  destruct (ops_row h g (gs ++ [e]) (nary_sub_ops h c g v _ Hr)) as (_ & _ & Hg). destruct (Hg gs e [] eq_refl) as (_ & _ & Hgn).
  assert (HFg : length (gs ++ [e]) <= F). { pose proof (kids_fuel _ _ _ (proj2 (rsubtree_plug _ _) (ex_intro _ c eq_refl : exists c', plug c' (Rose (g, v) (gs ++ [e])) = r))). fold r in H. lia. }
  pose proof (next_step F (nary_impl V) keep (MPtr [Some (raddr t); gr] flr) (raddr t) eq_refl h _ ls s rs (raddr e) fl Hrow eq_refl ltac:(pose proof (kids_fuel _ _ _ Hsub); lia) Hgn) as E.
  destruct (kept (fun y => keep (snd y)) rs) as [|s' l] eqn:Ek.
  - apply gen_nothing. exact E.
  - apply kept_in in Ek as [Hs _]. destruct (nary_child_made F al h c g v (gs ++ [e]) (snd (label s')) (Some (raddr s')) Hr HFg) as (a & h1 & h2 & Ea & Hn & H1 & E2 & H2 & Hf).
    rewrite <- app_assoc in H2. exists h2, a. split; [|split; [exact Hn|split; [exact H2|split; [exact (nary_kept_in h h2 t _ a Hin Hn Hd Hf)|exact Hf]]]].
    eapply gen_some; [exact E|apply (rw_value _ _ _ _ Hrow s'); set_solver +Hs|exact Ea|]. unfold attach_sibling. cbn [ni_ops nary_impl].
    destruct (ops_row h1 g (gs ++ [e]) (nary_sub_ops h1 c g v _ H1)) as (_ & _ & Hg1). destruct (Hg1 gs e [] eq_refl) as (Hp & _ & _). rewrite Hp. exact E2.
Qed.
Print Assumptions C82_next_nary.
(** To the last child, when one of the two last children passes the test or there
    are fewer than two: the last child that passes. *)
Theorem C82_last_partial :
  forall (V : Type) (EV : EqDecision V) (F : nat) (al : allocator (nnode V)) (h : gmap addr (nnode V)) (t : rose (addr * V)) (keep : V -> bool)
    (gr : ptr) (flr fl : list bool) (x : addr * V) (cs : list (rose (addr * V))) (c : ctx (addr * V)) (g : addr) (v : V),
  let r := plug c (Rose (g, v) []) in
  nary_in h t -> rsubtree (Rose x cs) t -> rsize t < F -> nary_at h r -> (forall z, z ∈ raddrs t -> z ∉ raddrs r) ->
  (forall ls p s, cs = ls ++ [p; s] -> keep (snd (label p)) = true \/ keep (snd (label s)) = true) ->
  let step := gen_last F (nary_impl V) al (n_assign_child_like F) (by_value (nary_impl V) keep) (MPtr [Some (raddr t); gr] flr) tt h (MPtr [Some (fst x); Some g] fl) in
  match rev (kept (fun y => keep (snd y)) cs) with
  | [] => step = Ok (tt, h, mp_make [None; None])
  | s :: _ => exists h' a, step = Ok (tt, h', MPtr [Some (raddr s); Some a] [false; true]) /\
      generated_nary h h' t r a (plug c (Rose (g, v) [Rose (a, snd (label s)) []]))
  end.
Proof.
  intros V EV F al h t keep gr flr fl x cs c g v r Hin Hsub HF Hr Hd Htwo step. pose proof (nary_row h t x cs Hin Hsub) as Hrow.
  destruct (ops_row h _ _ (in_ops h t x cs Hin Hsub)) as (_ & Hlast & _). destruct (ops_row h g [] (nary_sub_ops h c g v [] Hr)) as (_ & Hg & _).
  pose proof (last_step F (nary_impl V) keep (MPtr [Some (raddr t); gr] flr) (raddr t) eq_refl h cs (fst x) g fl Hrow ltac:(lia) Hlast Hg) as E.
  assert (E' : m_last F (nary_impl V) (by_value (nary_impl V) keep) (MPtr [Some (raddr t); gr] flr) h tt (MPtr [Some (fst x); Some g] fl) =
    Ok (tt, mp_make [match rev (kept (fun y => keep (snd y)) cs) with [] => None | s :: _ => Some (raddr s) end; None])).
  { rewrite E. clear E. destruct (rev cs) as [|s rest] eqn:Er.
    { assert (cs = []) as -> by (rewrite <- (rev_involutive cs), Er; reflexivity). reflexivity. }
    assert (Ec : cs = rev rest ++ [s]) by (rewrite <- (rev_involutive cs), Er; reflexivity). rewrite Ec. unfold kept. rewrite List.filter_app. cbn [List.filter].
    destruct (keep (snd (label s))) eqn:Es; [rewrite rev_app_distr; reflexivity|]. rewrite app_nil_r. unfold look_back. rewrite rev_involutive.
    destruct rest as [|p rest]; [reflexivity|]. assert (Ep : keep (snd (label p)) = true).
    { destruct (Htwo (rev rest) p s) as [H|H]; [rewrite Ec; cbn; rewrite <- app_assoc; reflexivity|exact H|congruence]. }
    rewrite Ep. cbn [rev]. rewrite List.filter_app. cbn [List.filter]. rewrite Ep, rev_app_distr. reflexivity. }
  destruct (rev (kept (fun y => keep (snd y)) cs)) as [|s l] eqn:Ek.
  - apply gen_nothing. exact E'.
  - assert (Hs : s ∈ cs). { assert (H : In s (rev (kept (fun y => keep (snd y)) cs))) by (rewrite Ek; left; reflexivity). apply in_rev in H. apply filter_In in H as [H _]. apply elem_of_list_In, H. }
    destruct (nary_child_made F al h c g v [] (snd (label s)) (Some (raddr s)) Hr ltac:(cbn; lia)) as (a & h1 & h2 & Ea & Hn & _ & E2 & H2 & Hf).
    exists h2, a. split; [|split; [exact Hn|split; [exact H2|split; [exact (nary_kept_in h h2 t _ a Hin Hn Hd Hf)|exact Hf]]]].
    eapply gen_some; [exact E'|exact (rw_value _ _ _ _ Hrow s Hs)|exact Ea|exact E2].
Qed.
Print Assumptions C82_last_partial.
(** *** What does not hold *)
(** If the last two children fail the test, the step to the last child never
    ends: whatever the number of steps it is allowed, it needs more.  (The loop
    asks for the previous sibling of the same node over and over.) *)
Theorem C82_last_hang_refuted :
  forall (V : Type) (EV : EqDecision V) (F : nat) (al : allocator (nnode V)) (h : gmap addr (nnode V)) (t : rose (addr * V)) (keep : V -> bool)
    (gr : ptr) (flr fl : list bool) (x : addr * V) (ls : list (rose (addr * V))) (p s : rose (addr * V)) (c : ctx (addr * V)) (g : addr) (v : V),
  nary_in h t -> rsubtree (Rose x (ls ++ [p; s])) t -> nary_at h (plug c (Rose (g, v) [])) ->
  keep (snd (label p)) = false -> keep (snd (label s)) = false ->
  gen_last F (nary_impl V) al (n_assign_child_like F) (by_value (nary_impl V) keep) (MPtr [Some (raddr t); gr] flr) tt h (MPtr [Some (fst x); Some g] fl) = Err OutOfFuel.
Proof.
  intros V EV F al h t keep gr flr fl x ls p s c g v Hin Hsub Hr Hp Hs. pose proof (nary_row h t x _ Hin Hsub) as Hrow.
  destruct (ops_row h _ _ (in_ops h t x _ Hin Hsub)) as (_ & Hlast & Hmid). destruct (ops_row h g [] (nary_sub_ops h c g v [] Hr)) as (_ & Hg & _).
  apply gen_wrong. destruct F as [|F].
  - unfold m_last, mp_last. rewrite (do_both _ _ _ _ _ _ Hlast Hg). cbn [mbind res_bind]. change (ls ++ [p; s]) with (ls ++ [p] ++ [s]). rewrite app_assoc, lasta_snoc. change (lasta (V := V) []) with (None : ptr).
    change (mp_bool (mp_make [Some (raddr s); None])) with true. cbv iota. change (mp_make [Some (raddr s); None]) with (MPtr [Some (raddr s); None] [false; false]) at 1.
    rewrite (pred_at _ _ _ h _ s None _ Hrow) by set_solver +. cbn [mbind res_bind]. rewrite Hs. unfold m_prev, m_unless_root.
    rewrite (not_root (MPtr [Some (raddr t); gr] flr) (raddr t) eq_refl) by (apply (rw_root _ _ _ _ Hrow); set_solver +).
    rewrite (prev_stuck (nary_impl V) (raddr t) h _ (ls ++ [p]) s [] None _ Hrow); [reflexivity|rewrite <- app_assoc; reflexivity|reflexivity].
  - rewrite (last_step (S F) (nary_impl V) keep (MPtr [Some (raddr t); gr] flr) (raddr t) eq_refl h _ (fst x) g fl Hrow ltac:(lia) Hlast Hg).
    rewrite rev_app_distr. cbn [rev app]. rewrite Hs. unfold look_back. rewrite rev_app_distr, rev_involutive. cbn [rev app]. rewrite Hp. reflexivity.
Qed.
Print Assumptions C82_last_hang_refuted.
(** So does the step to the previous sibling if that one fails the test. *)
Theorem C82_prev_hang_refuted :
  forall (V : Type) (EV : EqDecision V) (F : nat) (al : allocator (nnode V)) (h : gmap addr (nnode V)) (t : rose (addr * V)) (keep : V -> bool)
    (gr : ptr) (flr fl : list bool) (x : addr * V) (ls rs : list (rose (addr * V))) (p s : rose (addr * V)) (c : ctx (addr * V)) (g : addr) (v : V)
    (e : rose (addr * V)) (gs : list (rose (addr * V))),
  nary_in h t -> rsubtree (Rose x (ls ++ [p; s] ++ rs)) t -> nary_at h (plug c (Rose (g, v) (e :: gs))) -> keep (snd (label p)) = false ->
  gen_prev F (nary_impl V) al (n_assign_child_like F) (by_value (nary_impl V) keep) (MPtr [Some (raddr t); gr] flr) tt h (MPtr [Some (raddr s); Some (raddr e)] fl) = Err OutOfFuel.
Proof.
  intros V EV F al h t keep gr flr fl x ls rs p s c g v e gs Hin Hsub Hr Hp. pose proof (nary_row h t x _ Hin Hsub) as Hrow.
  destruct (ops_row h g (e :: gs) (nary_sub_ops h c g v _ Hr)) as (_ & _ & Hg). destruct (Hg [] e gs eq_refl) as (_ & Hgp & _).
  assert (El : ls ++ [p; s] ++ rs = (ls ++ [p]) ++ s :: rs) by (rewrite <- app_assoc; reflexivity).
  apply gen_wrong. destruct F as [|F].
  - unfold m_prev, m_unless_root. rewrite (not_root (MPtr [Some (raddr t); gr] flr) (raddr t) eq_refl) by (apply (rw_root _ _ _ _ Hrow); set_solver +).
    rewrite (prev_stuck (nary_impl V) (raddr t) h _ (ls ++ [p]) s rs (Some (raddr e)) _ Hrow El Hgp). reflexivity.
  - rewrite (prev_step (S F) (nary_impl V) keep (MPtr [Some (raddr t); gr] flr) (raddr t) eq_refl h _ (ls ++ [p]) s rs (Some (raddr e)) fl Hrow El ltac:(lia) Hgp).
    unfold look_back. rewrite rev_app_distr. cbn [rev app]. rewrite Hp. reflexivity.
Qed.
Print Assumptions C82_prev_hang_refuted.
(** And if the previous sibling passes the test, its copy is put at the end of the
    children of [g]: behind the copy of the node it precedes. *)
Theorem C82_prev_order_refuted :
  forall (V : Type) (EV : EqDecision V) (F : nat) (al : allocator (nnode V)) (h : gmap addr (nnode V)) (t : rose (addr * V)) (keep : V -> bool)
    (gr : ptr) (flr fl : list bool) (x : addr * V) (ls rs : list (rose (addr * V))) (p s : rose (addr * V)) (c : ctx (addr * V)) (g : addr) (v : V)
    (e : rose (addr * V)) (gs : list (rose (addr * V))),
  let r := plug c (Rose (g, v) (e :: gs)) in
  nary_in h t -> rsubtree (Rose x (ls ++ [p; s] ++ rs)) t -> rsize t < F -> rsize r <= F -> nary_at h r -> (forall z, z ∈ raddrs t -> z ∉ raddrs r) ->
  keep (snd (label p)) = true ->
  exists h' a, gen_prev F (nary_impl V) al (n_assign_child_like F) (by_value (nary_impl V) keep) (MPtr [Some (raddr t); gr] flr) tt h (MPtr [Some (raddr s); Some (raddr e)] fl)
      = Ok (tt, h', MPtr [Some (raddr p); Some a] [false; true]) /\
    generated_nary h h' t r a (plug c (Rose (g, v) ((e :: gs) ++ [Rose (a, snd (label p)) []]))).
Proof.
  intros V EV F al h t keep gr flr fl x ls rs p s c g v e gs r Hin Hsub HF HFr Hr Hd Hp. pose proof (nary_row h t x _ Hin Hsub) as Hrow.
  destruct (ops_row h g (e :: gs) (nary_sub_ops h c g v _ Hr)) as (_ & _ & Hg). destruct (Hg [] e gs eq_refl) as (_ & Hgp & _).
  assert (El : ls ++ [p; s] ++ rs = (ls ++ [p]) ++ s :: rs) by (rewrite <- app_assoc; reflexivity).
  pose proof (prev_step F (nary_impl V) keep (MPtr [Some (raddr t); gr] flr) (raddr t) eq_refl h _ (ls ++ [p]) s rs (Some (raddr e)) fl Hrow El ltac:(lia) Hgp) as E.
  unfold look_back in E. rewrite rev_app_distr in E. cbn [rev app] in E. rewrite Hp in E.
  assert (HFg : length (e :: gs) <= F). { pose proof (kids_fuel _ _ _ (proj2 (rsubtree_plug _ _) (ex_intro _ c eq_refl : exists c', plug c' (Rose (g, v) (e :: gs)) = r))). fold r in H. lia. }
  destruct (nary_child_made F al h c g v (e :: gs) (snd (label p)) (Some (raddr p)) Hr HFg) as (a & h1 & h2 & Ea & Hn & H1 & E2 & H2 & Hf).
  exists h2, a. split; [|split; [exact Hn|split; [exact H2|split; [exact (nary_kept_in h h2 t _ a Hin Hn Hd Hf)|exact Hf]]]].
  eapply gen_some; [exact E|apply (rw_value _ _ _ _ Hrow p); set_solver +|exact Ea|]. unfold attach_sibling. cbn [ni_ops nary_impl].
  destruct (ops_row h1 g (e :: gs) (nary_sub_ops h1 c g v _ H1)) as (_ & _ & Hg1). destruct (Hg1 [] e gs eq_refl) as (Hpar & _ & _). rewrite Hpar. exact E2.
Qed.
Print Assumptions C82_prev_order_refuted.
(** Where nothing precedes, nothing is generated. *)
Theorem C82_prev_none_nary :
  forall (V : Type) (EV : EqDecision V) (F : nat) (al : allocator (nnode V)) (h : gmap addr (nnode V)) (t : rose (addr * V)) (keep : V -> bool)
    (gr : ptr) (flr fl : list bool) (x : addr * V) (rs : list (rose (addr * V))) (s : rose (addr * V)) (c : ctx (addr * V)) (g : addr) (v : V)
    (e : rose (addr * V)) (gs : list (rose (addr * V))),
  nary_in h t -> rsubtree (Rose x (s :: rs)) t -> 0 < F -> nary_at h (plug c (Rose (g, v) (e :: gs))) ->
  gen_prev F (nary_impl V) al (n_assign_child_like F) (by_value (nary_impl V) keep) (MPtr [Some (raddr t); gr] flr) tt h (MPtr [Some (raddr s); Some (raddr e)] fl)
  = Ok (tt, h, mp_make [None; None]).
Proof.
  intros V EV F al h t keep gr flr fl x rs s c g v e gs Hin Hsub HF Hr. pose proof (nary_row h t x _ Hin Hsub) as Hrow.
  destruct (ops_row h g (e :: gs) (nary_sub_ops h c g v _ Hr)) as (_ & _ & Hg). destruct (Hg [] e gs eq_refl) as (_ & Hgp & _).
  apply gen_nothing. exact (prev_step F (nary_impl V) keep (MPtr [Some (raddr t); gr] flr) (raddr t) eq_refl h _ [] s rs (Some (raddr e)) fl Hrow eq_refl HF Hgp).
Qed.
Print Assumptions C82_prev_none_nary.
(** From the root of the navigator no sibling is reached or generated. *)
Theorem C82_root :
  forall (V Nd : Type) (F : nat) (im : node_impl V Nd) (al : allocator Nd) (like : gmap addr Nd -> ptr -> ptr -> ptr -> res (gmap addr Nd)) (h : gmap addr Nd)
    (keep : V -> bool) (a g g' : addr) (fl fl' : list bool),
  0 < F ->
  gen_next F im al like (by_value im keep) (MPtr [Some a; Some g] fl) tt h (MPtr [Some a; Some g'] fl') = Ok (tt, h, mp_make [None; None]) /\
  gen_prev F im al like (by_value im keep) (MPtr [Some a; Some g] fl) tt h (MPtr [Some a; Some g'] fl') = Ok (tt, h, mp_make [None; None]).
Proof.
  intros V Nd F im al like h keep a g g' fl fl' HF. destruct F as [|F]; [lia|].
  split; apply gen_nothing; unfold m_next, m_prev, m_unless_root; cbn [mp_eqb mp_main mp_get mp_ptrs nth]; unfold mp_eqb, mp_main, mp_get; cbn [mp_ptrs nth]; rewrite ptr_eqb_true; reflexivity.
Qed.
Print Assumptions C82_root.
(** A generative navigator does not keep the pairs together.  From a node with at
    least two children, to the last child first: a node [a] is generated for it.
    Then to the first child: the answer is the first child together with [a], and
    nothing is generated. *)
Theorem C47_pairing_refuted :
  forall (V : Type) (EV : EqDecision V) (F : nat) (al : allocator (nnode V)) (h : gmap addr (nnode V)) (t : rose (addr * V)) (keep : V -> bool)
    (gr : ptr) (flr fl : list bool) (x : addr * V) (cs : list (rose (addr * V))) (s s' : rose (addr * V)) (c : ctx (addr * V)) (g : addr) (v : V),
  let r := plug c (Rose (g, v) []) in
  nary_in h t -> rsubtree (Rose x (s :: cs ++ [s'])) t -> rsize t < F -> nary_at h r -> (forall z, z ∈ raddrs t -> z ∉ raddrs r) ->
  keep (snd (label s)) = true -> keep (snd (label s')) = true ->
  let root := MPtr [Some (raddr t); gr] flr in
  let node := MPtr [Some (fst x); Some g] fl in
  exists h' a,
    gen_last F (nary_impl V) al (n_assign_child_like F) (by_value (nary_impl V) keep) root tt h node = Ok (tt, h', MPtr [Some (raddr s'); Some a] [false; true]) /\
    generated_nary h h' t r a (plug c (Rose (g, v) [Rose (a, snd (label s')) []])) /\
    gen_first F (nary_impl V) al (n_assign_child_like F) (by_value (nary_impl V) keep) root tt h' node = Ok (tt, h', MPtr [Some (raddr s); Some a] [false; false]) /\
    raddr s <> raddr s'.
Proof.
  intros V EV F al h t keep gr flr fl x cs s s' c g v r Hin Hsub HF Hr Hd Hs Hs' root node.
  pose proof (C82_last_partial V EV F al h t keep gr flr fl x (s :: cs ++ [s']) c g v Hin Hsub HF Hr Hd) as HL.
  assert (Hk : rev (kept (fun y => keep (snd y)) (s :: cs ++ [s'])) = s' :: rev (kept (fun y => keep (snd y)) (s :: cs))).
  { change (s :: cs ++ [s']) with ((s :: cs) ++ [s']). unfold kept. rewrite List.filter_app, rev_app_distr. cbn [List.filter]. rewrite Hs'. reflexivity. }
  cbv zeta in HL. rewrite Hk in HL. destruct HL as (h' & a & E & Hg).
  { intros ls p s0 E. right. assert (El : (s :: cs) ++ [s'] = (ls ++ [p]) ++ [s0]) by (rewrite <- app_assoc; exact E). apply app_inj_tail in El as [_ <-]. exact Hs'. }
  exists h', a. split; [exact E|]. split; [exact Hg|]. destruct Hg as (_ & Hr' & Hin' & _). split.
  - apply gen_known. pose proof (nary_row h' t x _ Hin' Hsub) as Hrow. destruct (ops_row h' _ _ (in_ops h' t x _ Hin' Hsub)) as (Hfirst & _ & _).
    destruct (ops_row h' g _ (nary_sub_ops h' c g v _ Hr')) as (Hgf & _ & _). unfold m_first, mp_first. unfold node. rewrite (do_both _ _ _ _ _ _ Hfirst Hgf). cbn [mbind res_bind].
    change (mp_make [heada (s :: cs ++ [s']); heada [Rose (a, snd (label s')) []]]) with (MPtr [Some (raddr s); Some a] [false; false]).
    change (mp_bool (MPtr [Some (raddr s); Some a] [false; false])) with true. cbv iota. rewrite (pred_at _ _ _ h' _ s (Some a) _ Hrow) by left. cbn [mbind res_bind]. rewrite Hs. reflexivity.
  - destruct (nary_in_sub h _ t Hin Hsub) as (? & ? & ? & ? & _ & Hnd). destruct x as [xa xv]. rewrite raddrs_rose in Hnd.
    intros Ee. rewrite faddrs_cons, faddrs_app, faddrs_cons in Hnd. apply NoDup_cons in Hnd as [_ Hnd]. apply NoDup_app in Hnd as (_ & Hnd & _).
    apply (Hnd (raddr s)); [apply raddr_in|]. rewrite Ee. apply elem_of_app. right. apply elem_of_app. left. apply raddr_in.
Qed.
Print Assumptions C47_pairing_refuted.

(** *** Binary trees *)
(** The root of a tree, if there is one and it passes the test. *)
Definition passing {V} (keep : V -> bool) (b : bin (addr * V)) : option (addr * V) :=
  match b with BNode x _ _ => if keep (snd x) then Some x else None | BLeaf => None end.
(** A new node on one side ([s] = true: left) of a node. *)
Definition with_child {V} (s : bool) (y : addr * V) (gl gr : bin (addr * V)) (a : addr) (w : V) : bin (addr * V) :=
  if s then BNode y (BNode (a, w) BLeaf BLeaf) gr else BNode y gl (BNode (a, w) BLeaf BLeaf).
Definition gen_side (s : bool) {V Nd} := if s then @gen_left V Nd else @gen_right V Nd.
Arguments gen_side s {V Nd} _ _ _ {St} _.
Lemma bsub_trans {A} (s t u : bin A) : bsubtree s t -> bsubtree t u -> bsubtree s u.
Proof. intros H1 H2. induction H2; [exact H1|apply bsub_left; auto|apply bsub_right; auto]. Qed.

(** To the left ([s] = true) or to the right child, while the generated node has
    no child there: the child if it passes the test, with a new node for it on
    that side of [g]. *)
Theorem C82_sides_binary :
  forall (V : Type) (EV : EqDecision V) (al : allocator (bnode V)) (h : gmap addr (bnode V)) (b : bin (addr * V)) (keep : V -> bool) (s : bool)
    (fl : list bool) (x : addr * V) (l r : bin (addr * V)) (c : list (bframe (addr * V))) (g : addr) (v : V) (gl gr : bin (addr * V)),
  let copy := bplug c (BNode (g, v) gl gr) in
  bin_in h b -> bsubtree (BNode x l r) b -> bin_at h copy -> (forall z, z ∈ baddrs b -> z ∉ baddrs copy) -> (if s then gl else gr) = BLeaf ->
  let step := gen_side s (binary_impl V) al b_assign_child_like (by_value (binary_impl V) keep) tt h (MPtr [Some (fst x); Some g] fl) in
  match passing keep (if s then l else r) with
  | Some (p, w) => exists h' a, step = Ok (tt, h', MPtr [Some p; Some a] [false; true]) /\
      generated_binary h h' b copy a (bplug c (with_child s (g, v) gl gr a w))
  | None => step = Ok (tt, h, mp_make [None; None])
  end.
Proof.
  intros V EV al h b keep s fl x l r c g v gl gr copy Hin Hsub Hr Hd Hfree step.
  assert (Hx : exists n, h !! fst x = Some n /\ bleft n = baddr l /\ bright n = baddr r).
  { destruct (bin_in_sub h _ b Hin Hsub) as (par & Hb & _). destruct x as [p w]. destruct Hb as (Hb & _). eexists. split; [exact Hb|]. split; reflexivity. }
  assert (Hg : exists n, h !! g = Some n /\ bleft n = baddr gl /\ bright n = baddr gr).
  { destruct Hr as [Hr _]. apply brep_bplug in Hr as [_ Hr]. destruct Hr as (Hr & _). eexists. split; [exact Hr|]. split; reflexivity. }
  destruct Hx as (n & Hx & Hxl & Hxr). destruct Hg as (n' & Hg & Hgl & Hgr).
  assert (Hdo : (if s then mp_left else mp_right) (bin_ops h) (MPtr [Some (fst x); Some g] fl) = Ok (mp_make [baddr (if s then l else r); None])).
  { destruct s; (apply do_both; [cbn; unfold b_left, b_right; rewrite (deref_Some _ _ _ Hx); cbn; congruence|]);
      cbn; unfold b_left, b_right; rewrite (deref_Some _ _ _ Hg); cbn; rewrite ?Hgl, ?Hgr, Hfree; reflexivity. }
  assert (Hval : forall p w l' r', (if s then l else r) = BNode (p, w) l' r' -> ni_value (binary_impl V) h (Some p) = Ok w).
  { intros p w l' r' E. apply (bin_value h b Hin (p, w)). assert (Hs2 : bsubtree (BNode (p, w) l' r') b).
    { eapply bsub_trans; [|exact Hsub]. destruct s; subst; [apply bsub_left|apply bsub_right]; apply bsub_here. }
    clear -Hs2. remember (BNode (p, w) l' r') as u eqn:Eu. induction Hs2; subst; cbn; [left|right; apply elem_of_app; left; auto|right; apply elem_of_app; right; auto]. }
  assert (E : m_side (by_value (binary_impl V) keep) h ((if s then mp_left else mp_right) (bin_ops h)) tt (MPtr [Some (fst x); Some g] fl) =
    Ok (tt, mp_make [option_map fst (passing keep (if s then l else r)); None])).
  { unfold m_side. rewrite Hdo. cbn [mbind res_bind]. destruct (if s then l else r) as [|[p w] l' r'] eqn:El; [reflexivity|]. cbn [baddr].
    change (mp_bool (mp_make [Some p; None])) with true. cbv iota. unfold by_value. change (mp_main (mp_make [Some p; None])) with (Some p).
    rewrite (Hval p w l' r' eq_refl). cbn [mbind res_bind passing snd]. destruct (keep w); reflexivity. }
  assert (Estep : step = gen_navigate (binary_impl V) al (fun h => m_side (by_value (binary_impl V) keep) h ((if s then mp_left else mp_right) (bin_ops h))) b_assign_child_like tt h (MPtr [Some (fst x); Some g] fl)).
  { unfold step, gen_side. destruct s; reflexivity. }
  rewrite Estep. clear Estep step. destruct (passing keep (if s then l else r)) as [[p w]|] eqn:Ep.
  - destruct (if s then l else r) as [|[p' w'] l' r'] eqn:El; [discriminate|]. cbn in Ep. destruct (keep w'); [|discriminate]. injection Ep as -> ->.
    destruct (bin_child_made 0 al h c g v gl gr b x l r s p w Hin Hsub ltac:(rewrite El; reflexivity) Hr Hfree) as (a & h1 & h2 & Ea & Hn & _ & E2 & H2 & Hf).
    exists h2, a. split; [|split; [exact Hn|split; [exact H2|split; [exact (bin_kept_in h h2 b _ a Hin Hn Hd Hf)|exact Hf]]]].
    eapply gen_some; [exact E|exact (Hval p w l' r' eq_refl)|exact Ea|exact E2].
  - apply gen_nothing. exact E.
Qed.
Print Assumptions C82_sides_binary.

Lemma kept_two {V} (keep : V -> bool) (l r : bin (addr * V)) :
  heada (kept (fun y => keep (snd y)) (bin_forest l ++ bin_forest r)) =
  match passing keep l, passing keep r with Some y, _ => Some (fst y) | None, Some y => Some (fst y) | None, None => None end.
Proof. unfold kept. rewrite List.filter_app. destruct l as [|y l1 l2], r as [|z r1 r2]; cbn; repeat destruct (keep _); reflexivity. Qed.
Lemma passing_inv {V} (keep : V -> bool) (b : bin (addr * V)) p w : passing keep b = Some (p, w) -> exists l r, b = BNode (p, w) l r.
Proof. destruct b as [|[p' w'] l r]; [discriminate|]. cbn. destruct (keep w'); [|discriminate]. intros [= -> ->]. eauto. Qed.
Lemma bkids_fuel {A} x (l r : bin A) b : bsubtree (BNode x l r) b -> length (bin_forest l ++ bin_forest r) <= 2.
Proof. intros _. destruct l, r; cbn; lia. Qed.
(** What all three steps below do once the node to go to is known. *)
Lemma bin_made {V} {EV : EqDecision V} al (h : gmap addr (bnode V)) b x l r (s : bool) c g v gl gr p w navigate attach m fl gn ra :
  let copy := bplug c (BNode (g, v) gl gr) in
  bin_in h b -> bsubtree (BNode x l r) b -> baddr b = Some ra -> bin_at h copy -> (forall z, z ∈ baddrs b -> z ∉ baddrs copy) -> (if s then gl else gr) = BLeaf ->
  baddr (if s then l else r) = Some p -> (exists l' r', (if s then l else r) = BNode (p, w) l' r') ->
  navigate h tt (MPtr [Some m; Some gn] fl) = Ok (tt, mp_make [Some p; None]) ->
  (forall h1 a ref, bin_at h1 copy -> attach h1 (Some gn) (Some a) ref = b_assign_child_like h1 (Some g) (Some a) ref) ->
  exists h' a, gen_navigate (binary_impl V) al navigate attach tt h (MPtr [Some m; Some gn] fl) = Ok (tt, h', MPtr [Some p; Some a] [false; true]) /\
    generated_binary h h' b copy a (bplug c (with_child s (g, v) gl gr a w)).
Proof.
  intros copy Hin Hsub Hra Hr Hd Hfree Hp (l' & r' & El) E Hat.
  destruct (bin_child_made 0 al h c g v gl gr b x l r s p w Hin Hsub Hp Hr Hfree) as (a & h1 & h2 & Ea & Hn & H1 & E2 & H2 & Hf).
  exists h2, a. split; [|split; [exact Hn|split; [exact H2|split; [exact (bin_kept_in h h2 b _ a Hin Hn Hd Hf)|exact Hf]]]].
  eapply gen_some; [exact E| |exact Ea|rewrite (Hat h1 a _ H1); exact E2].
  refine (rw_value _ _ _ _ (bin_row h b ra x l r Hin Hsub Hra) (Rose (p, w) (bin_forest l' ++ bin_forest r')) _). apply elem_of_app. destruct s; subst; cbn; [left|right]; left.
Qed.
(** To the first child, from a generated node without children: the left child if
    it passes, else the right one; the new node is on the same side. *)
Theorem C82_first_binary :
  forall (V : Type) (EV : EqDecision V) (F : nat) (al : allocator (bnode V)) (h : gmap addr (bnode V)) (b : bin (addr * V)) (keep : V -> bool)
    (ra : addr) (rg : ptr) (flr fl : list bool) (x : addr * V) (l r : bin (addr * V)) (c : list (bframe (addr * V))) (g : addr) (v : V),
  let copy := bplug c (BNode (g, v) BLeaf BLeaf) in
  bin_in h b -> baddr b = Some ra -> bsubtree (BNode x l r) b -> 2 <= F -> bin_at h copy -> (forall z, z ∈ baddrs b -> z ∉ baddrs copy) ->
  let step := gen_first F (binary_impl V) al b_assign_child_like (by_value (binary_impl V) keep) (MPtr [Some ra; rg] flr) tt h (MPtr [Some (fst x); Some g] fl) in
  match passing keep l, passing keep r with
  | Some (p, w), _ => exists h' a, step = Ok (tt, h', MPtr [Some p; Some a] [false; true]) /\
      generated_binary h h' b copy a (bplug c (BNode (g, v) (BNode (a, w) BLeaf BLeaf) BLeaf))
  | None, Some (p, w) => exists h' a, step = Ok (tt, h', MPtr [Some p; Some a] [false; true]) /\
      generated_binary h h' b copy a (bplug c (BNode (g, v) BLeaf (BNode (a, w) BLeaf BLeaf)))
  | None, None => step = Ok (tt, h, mp_make [None; None])
  end.
Proof.
  intros V EV F al h b keep ra rg flr fl x l r c g v copy Hin Hra Hsub HF Hr Hd step. pose proof (bin_row h b ra x l r Hin Hsub Hra) as Hrow.
  destruct (bops_row h _ _ (bin_ops_row h b x l r Hin Hsub)) as (Hfirst & _ & _).
  assert (Hg : op_first (bin_ops h) (Some g) = Ok None).
  { pose proof (GenBin.bin_sub_ops h c _ Hr) as Ho. cbn in Ho. apply Forall_inv in Ho. apply ops_ok_unfold in Ho as (Ho & _). exact Ho. }
  pose proof (first_step F (binary_impl V) keep (MPtr [Some ra; rg] flr) ra eq_refl h _ (fst x) g fl Hrow ltac:(pose proof (bkids_fuel _ _ _ _ Hsub); lia) Hfirst Hg) as E.
  rewrite kept_two in E. destruct (passing keep l) as [[p w]|] eqn:El; [|destruct (passing keep r) as [[p w]|] eqn:Er].
  - apply passing_inv in El as (l' & r' & ->). apply (bin_made al h b x (BNode (p, w) l' r') r true c g v BLeaf BLeaf p w _ _ (fst x) fl g ra); auto; eauto.
  - apply passing_inv in Er as (l' & r' & ->). apply (bin_made al h b x l (BNode (p, w) l' r') false c g v BLeaf BLeaf p w _ _ (fst x) fl g ra); auto; eauto.
  - apply gen_nothing. exact E.
Qed.
Print Assumptions C82_first_binary.
(** To the next sibling, from a left child whose generated node is the only child
    of [g]. *)
Theorem C82_next_binary :
  forall (V : Type) (EV : EqDecision V) (F : nat) (al : allocator (bnode V)) (h : gmap addr (bnode V)) (b : bin (addr * V)) (keep : V -> bool)
    (ra : addr) (rg : ptr) (flr fl : list bool) (x y : addr * V) (ll lr r : bin (addr * V)) (c : list (bframe (addr * V))) (g : addr) (v : V)
    (e : addr * V) (el er : bin (addr * V)),
  let copy := bplug c (BNode (g, v) (BNode e el er) BLeaf) in
  bin_in h b -> baddr b = Some ra -> bsubtree (BNode x (BNode y ll lr) r) b -> 2 <= F -> bin_at h copy -> (forall z, z ∈ baddrs b -> z ∉ baddrs copy) ->
  let step := gen_next F (binary_impl V) al b_assign_child_like (by_value (binary_impl V) keep) (MPtr [Some ra; rg] flr) tt h (MPtr [Some (fst y); Some (fst e)] fl) in
  match passing keep r with
  | Some (p, w) => exists h' a, step = Ok (tt, h', MPtr [Some p; Some a] [false; true]) /\
      generated_binary h h' b copy a (bplug c (BNode (g, v) (BNode e el er) (BNode (a, w) BLeaf BLeaf)))
  | None => step = Ok (tt, h, mp_make [None; None])
  end.
Proof.
  intros V EV F al h b keep ra rg flr fl x y ll lr r c g v e el er copy Hin Hra Hsub HF Hr Hd step. pose proof (bin_row h b ra x _ r Hin Hsub Hra) as Hrow.
  assert (Hops : forall h1, bin_at h1 copy -> op_next (bin_ops h1) (Some (fst e)) = Ok None /\ op_parent (bin_ops h1) (Some (fst e)) = Ok (Some g)).
  { intros h1 H1. pose proof (GenBin.bin_sub_ops h1 c _ H1) as Ho. cbn in Ho. apply Forall_inv in Ho. apply ops_ok_unfold in Ho as (_ & _ & Ho & _).
    destruct (Ho [] _ [] eq_refl) as (H2 & _ & H3). split; [exact H3|exact H2]. }
  pose proof (next_step F (binary_impl V) keep (MPtr [Some ra; rg] flr) ra eq_refl h _ [] (Rose y (bin_forest ll ++ bin_forest lr)) (bin_forest r) (fst e) fl Hrow eq_refl
    ltac:(pose proof (bkids_fuel _ _ _ _ Hsub); lia) (proj1 (Hops h Hr))) as E.
  change (bin_forest r) with (bin_forest (@BLeaf (addr * V)) ++ bin_forest r) in E. rewrite kept_two in E. cbn [passing] in E.
  destruct (passing keep r) as [[p w]|] eqn:Er.
  - apply passing_inv in Er as (l' & r' & ->). apply (bin_made al h b x (BNode y ll lr) (BNode (p, w) l' r') false c g v (BNode e el er) BLeaf p w _ _ (fst y) fl (fst e) ra); auto; eauto.
    intros h1 a ref H1. unfold attach_sibling. cbn [ni_ops binary_impl]. rewrite (proj2 (Hops h1 H1)). reflexivity.
  - apply gen_nothing. exact E.
Qed.
Print Assumptions C82_next_binary.
(** To the previous sibling, from a right child whose generated node is the only
    child of [g]: here the new node gets its own side; but again the step never
    ends if the left child fails the test. *)
Theorem C82_prev_binary_partial :
  forall (V : Type) (EV : EqDecision V) (F : nat) (al : allocator (bnode V)) (h : gmap addr (bnode V)) (b : bin (addr * V)) (keep : V -> bool)
    (ra : addr) (rg : ptr) (flr fl : list bool) (x y : addr * V) (rl rr l : bin (addr * V)) (c : list (bframe (addr * V))) (g : addr) (v : V)
    (e : addr * V) (el er : bin (addr * V)),
  let copy := bplug c (BNode (g, v) BLeaf (BNode e el er)) in
  bin_in h b -> baddr b = Some ra -> bsubtree (BNode x l (BNode y rl rr)) b -> 2 <= F -> bin_at h copy -> (forall z, z ∈ baddrs b -> z ∉ baddrs copy) ->
  let step := gen_prev F (binary_impl V) al b_assign_child_like (by_value (binary_impl V) keep) (MPtr [Some ra; rg] flr) tt h (MPtr [Some (fst y); Some (fst e)] fl) in
  match l with
  | BLeaf => step = Ok (tt, h, mp_make [None; None])
  | BNode (p, w) _ _ =>
      if keep w
      then exists h' a, step = Ok (tt, h', MPtr [Some p; Some a] [false; true]) /\
        generated_binary h h' b copy a (bplug c (BNode (g, v) (BNode (a, w) BLeaf BLeaf) (BNode e el er)))
      else step = Err OutOfFuel
  end.
Proof.
  intros V EV F al h b keep ra rg flr fl x y rl rr l c g v e el er copy Hin Hra Hsub HF Hr Hd step. pose proof (bin_row h b ra x l _ Hin Hsub Hra) as Hrow.
  assert (Hops : forall h1, bin_at h1 copy -> op_prev (bin_ops h1) (Some (fst e)) = Ok None /\ op_parent (bin_ops h1) (Some (fst e)) = Ok (Some g)).
  { intros h1 H1. pose proof (GenBin.bin_sub_ops h1 c _ H1) as Ho. cbn in Ho. apply Forall_inv in Ho. apply ops_ok_unfold in Ho as (_ & _ & Ho & _).
    destruct (Ho [] _ [] eq_refl) as (H2 & H3 & _). split; [exact H3|exact H2]. }
  pose proof (prev_step F (binary_impl V) keep (MPtr [Some ra; rg] flr) ra eq_refl h _ (bin_forest l) (Rose y (bin_forest rl ++ bin_forest rr)) [] (Some (fst e)) fl Hrow eq_refl
    ltac:(lia) (proj1 (Hops h Hr))) as E.
  unfold look_back in E. destruct l as [|[p w] l1 l2]; cbn [bin_forest rev app label snd] in E.
  - apply gen_nothing. exact E.
  - destruct (keep w).
    + apply (bin_made al h b x (BNode (p, w) l1 l2) (BNode y rl rr) true c g v BLeaf (BNode e el er) p w _ _ (fst y) fl (fst e) ra); auto; eauto.
      intros h1 a ref H1. unfold attach_sibling. cbn [ni_ops binary_impl]. rewrite (proj2 (Hops h1 H1)). reflexivity.
    + apply gen_wrong. exact E.
Qed.
Print Assumptions C82_prev_binary_partial.

(** *** Cases that meet the hypotheses *)
(** The trees of C47_ex_nary / C47_ex_binary with single new nodes, and their
    second step. *)
Example C82_ex_nary : nary_in ex_g ex_nary /\ nary_at ex_g (plug [] (Rose (9%positive, 10) [])) /\
  (forall z, z ∈ raddrs ex_nary -> z ∉ raddrs (plug [] (Rose (9%positive, 10) []))) /\ rsubtree ex_nary ex_nary /\
  map label (kept (fun y => ex_not30 (snd y)) (children ex_nary)) = [(2%positive, 20); (4%positive, 40)] /\
  (let keep v := Nat.eqb v 20 in exists ls p s, children ex_nary = ls ++ [p; s] /\ keep (snd (label p)) = false /\ keep (snd (label s)) = false).
Proof.
  destruct C47_ex_nary as (H1 & _ & H2 & H3 & _). split; [exact H1|]. split; [exact H2|]. split; [|split; [apply rsub_here|split; [reflexivity|]]].
  - intros z Hz Hi. apply elem_of_list_singleton in Hi. cbn in Hi. subst z. exact (H3 Hz).
  - eexists [_], _, _. split; [reflexivity|]. split; reflexivity.
Qed.
(** After the step to the first child: 9 has the child 10. *)
Definition ex_g1 : gmap addr (nnode nat) :=
  <[10%positive := NNodeR 20 (Some 9%positive) 0 None None None None]>
    (<[9%positive := NNodeR 10 None 0 None None (Some 10%positive) (Some 10%positive)]> ex_nheap).
Definition ex_r1 : rose (addr * nat) := Rose (9%positive, 10) [Rose (10%positive, 20) []].
Example C82_ex_next : nary_in ex_g1 ex_nary /\ nary_at ex_g1 (plug [] ex_r1) /\ (forall z, z ∈ raddrs ex_nary -> z ∉ raddrs (plug [] ex_r1)) /\ rsize ex_r1 <= 100 /\
  exists x l s1 s2, ex_nary = Rose x ([] ++ [s1; s2] ++ l) /\ ex_nary = Rose x ([s1] ++ s2 :: l) /\ ex_nary = Rose x ([] ++ s1 :: s2 :: l).
Proof.
  split; [|split; [|split; [|split]]].
  - exists None, None, None, (szt 0). split; [vm_compute; tauto|]. apply (bool_decide_unpack _). vm_compute. exact I.
  - split; [vm_compute; tauto|]. apply (bool_decide_unpack _). vm_compute. exact I.
  - apply (proj1 (Forall_forall (fun z => z ∉ raddrs (plug [] ex_r1)) (raddrs ex_nary))). apply (bool_decide_unpack _). vm_compute. exact I.
  - vm_compute. lia.
  - eexists _, _, _, _. split; [reflexivity|]. split; reflexivity.
Qed.
Example C82_ex_binary : bin_in ex_gb ex_bin /\ bin_at ex_gb (bplug [] (BNode (9%positive, 10) BLeaf BLeaf)) /\
  (forall z, z ∈ baddrs ex_bin -> z ∉ baddrs (bplug [] (BNode (9%positive, 10) BLeaf BLeaf))) /\ baddr ex_bin = Some 1%positive /\
  exists x l r, ex_bin = BNode x l r /\ passing ex_not30 l = Some (2%positive, 20) /\ passing ex_not30 r = None.
Proof.
  destruct C47_ex_binary as (H1 & _ & H2 & H3 & _). split; [exact H1|]. split; [exact H2|]. split; [|split; [reflexivity|]].
  - intros z Hz Hi. cbn in Hi. apply elem_of_list_singleton in Hi. subst z. exact (H3 Hz).
  - eexists _, _, _. split; [reflexivity|]. split; reflexivity.
Qed.
Definition ex_gb1 : gmap addr (bnode nat) :=
  <[10%positive := BNodeR 20 (Some 9%positive) None None]> (<[9%positive := BNodeR 10 None (Some 10%positive) None]> ex_bheap).
Definition ex_gb2 : gmap addr (bnode nat) :=
  <[10%positive := BNodeR 30 (Some 9%positive) None None]> (<[9%positive := BNodeR 10 None None (Some 10%positive)]> ex_bheap).
Example C82_ex_binary_sibling :
  bin_in ex_gb1 ex_bin /\ bin_at ex_gb1 (bplug [] (BNode (9%positive, 10) (BNode (10%positive, 20) BLeaf BLeaf) BLeaf)) /\
  bin_in ex_gb2 ex_bin /\ bin_at ex_gb2 (bplug [] (BNode (9%positive, 10) BLeaf (BNode (10%positive, 30) BLeaf BLeaf))) /\
  exists x y z l1 l2 r1 r2, ex_bin = BNode x (BNode y l1 l2) (BNode z r1 r2).
Proof.
  split; [|split; [|split; [|split]]].
  - exists None. split; [vm_compute; tauto|]. apply (bool_decide_unpack _). vm_compute. exact I.
  - split; [vm_compute; tauto|]. apply (bool_decide_unpack _). vm_compute. exact I.
  - exists None. split; [vm_compute; tauto|]. apply (bool_decide_unpack _). vm_compute. exact I.
  - split; [vm_compute; tauto|]. apply (bool_decide_unpack _). vm_compute. exact I.
  - eexists _, _, _, _, _, _, _. reflexivity.
Qed.
