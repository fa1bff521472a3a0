(** PropStar.v: searching patterns with [star] (C48, C49).

    [smatch snd u t a] (StarSpec.v) says that the pattern [u] matches the tree [t]
    at the root, [a] telling which node each matcher took.  [ssolid u]: every
    [opt] and [star] is given children; [tame u]: every [star] that is not
    possessive has one child only, or children that do not match nodes it accepts
    itself. *)
From Verif Require Import Base Spec StructNode BinaryNode NaryNode Nav Policy Tree Rep RoseFacts NavFacts BinRep NaryRep
  Iter IterTrees IterMain NodeFacts User Matcher MatchWalk Star StarSpec StarLemmas StarWalk StarFacts StarMain Examples.

(** The search ends, and if it reports a match there is one, whatever was searched
    before with the same pattern object [x]. *)
Theorem C48_search_sound_nary :
  forall (V : Type) (EV : EqDecision V) (F : nat) (h : gmap addr (nnode V)) (t : rose (addr * V)) (u : spat V) (x : xpattern),
  nary_in h t -> rsize t < F -> ssolid u -> xp_pat x = xbuild u XNil ->
  exists b x', xsearch F (nary_impl V) x h (Some (raddr t)) = Ok (b, x') /\
    (b = true -> exists a, smatch snd u t a).
Proof.
  intros V EV F h t u x Ht HF Hu Hx. destruct (nary_facts h t Ht) as (H1 & H2 & H3).
  destruct (xsearch_core F (nary_impl V) h t u x H1 H2 H3 HF Hu Hx) as (b & x' & E & _ & _ & Hb & _).
  exists b, x'. split; [exact E|]. intros Eb. destruct (Hb Eb) as (a & Ha & _). eauto.
Qed.
Print Assumptions C48_search_sound_nary.
Theorem C48_search_sound_binary :
  forall (V : Type) (EV : EqDecision V) (F : nat) (h : gmap addr (bnode V)) (t : bin (addr * V)) (s : rose (addr * V)) (u : spat V) (x : xpattern),
  bin_in h t -> bin_forest t = [s] -> rsize s < F -> ssolid u -> xp_pat x = xbuild u XNil ->
  exists b x', xsearch F (binary_impl V) x h (baddr t) = Ok (b, x') /\
    (b = true -> exists a, smatch snd u s a).
Proof.
  intros V EV F h t s u x Ht Hs HF Hu Hx. destruct (binary_facts h t s Ht Hs) as (H1 & H2 & H3).
  destruct (xsearch_core F (binary_impl V) h s u x H1 H2 H3 HF Hu Hx) as (b & x' & E & _ & _ & Hb & _).
  rewrite (bin_root t s Hs). exists b, x'. split; [exact E|]. intros Eb. destruct (Hb Eb) as (a & Ha & _). eauto.
Qed.
Print Assumptions C48_search_sound_binary.

(** For a tame pattern a match is reported exactly if there is one; in the first
    search of a pattern object and in every later search of the same tree. *)
Theorem C48_search_nary :
  forall (V : Type) (EV : EqDecision V) (F : nat) (h : gmap addr (nnode V)) (t : rose (addr * V)) (u : spat V) (x : xpattern),
  nary_in h t -> rsize t < F -> ssolid u -> tame u -> searched F (nary_impl V) h (Some (raddr t)) (xbuild u XNil) x ->
  exists b x', xsearch F (nary_impl V) x h (Some (raddr t)) = Ok (b, x') /\
    (b = true <-> exists a, smatch snd u t a).
Proof.
  intros V EV F h t u x Ht HF Hu Htm Hx. destruct (nary_facts h t Ht) as (H1 & H2 & H3).
  destruct (searched_fines F (nary_impl V) h t u x H1 H2 H3 HF Hu Htm Hx) as [Hp Hfi].
  destruct (xsearch_core F (nary_impl V) h t u x H1 H2 H3 HF Hu Hp) as (b & x' & E & _ & _ & Hb & Hc).
  destruct (Hc Htm Hfi) as [_ Hno]. exists b, x'. split; [exact E|]. split.
  - intros Eb. destruct (Hb Eb) as (a & Ha & _). eauto.
  - intros [a Ha]. destruct b; [reflexivity|]. destruct (Hno eq_refl a Ha).
Qed.
Print Assumptions C48_search_nary.
Theorem C48_search_binary :
  forall (V : Type) (EV : EqDecision V) (F : nat) (h : gmap addr (bnode V)) (t : bin (addr * V)) (s : rose (addr * V)) (u : spat V) (x : xpattern),
  bin_in h t -> bin_forest t = [s] -> rsize s < F -> ssolid u -> tame u -> searched F (binary_impl V) h (baddr t) (xbuild u XNil) x ->
  exists b x', xsearch F (binary_impl V) x h (baddr t) = Ok (b, x') /\
    (b = true <-> exists a, smatch snd u s a).
Proof.
  intros V EV F h t s u x Ht Hs HF Hu Htm Hx. destruct (binary_facts h t s Ht Hs) as (H1 & H2 & H3).
  rewrite (bin_root t s Hs) in *.
  destruct (searched_fines F (binary_impl V) h s u x H1 H2 H3 HF Hu Htm Hx) as [Hp Hfi].
  destruct (xsearch_core F (binary_impl V) h s u x H1 H2 H3 HF Hu Hp) as (b & x' & E & _ & _ & Hb & Hc).
  destruct (Hc Htm Hfi) as [_ Hno]. exists b, x'. split; [exact E|]. split.
  - intros Eb. destruct (Hb Eb) as (a & Ha & _). eauto.
  - intros [a Ha]. destruct b; [reflexivity|]. destruct (Hno eq_refl a Ha).
Qed.
Print Assumptions C48_search_binary.

(** The case of one child, in plain words: [star(p)(u)] is found exactly if [u]
    matches the root, or the root is accepted by [p] and [u] matches a node below
    it with only nodes accepted by [p] between. *)
Theorem C48_path_nary :
  forall (V : Type) (EV : EqDecision V) (F : nat) (h : gmap addr (nnode V)) (t : rose (addr * V)) (q : quantifier) (p : V -> bool) (u : spat V),
  nary_in h t -> rsize t < F -> ssolid u -> tame u -> q <> QPossessive ->
  exists b x', xsearch F (nary_impl V) (make_xpattern (xbuild (SStar q p [u]) XNil)) h (Some (raddr t)) = Ok (b, x') /\
    (b = true <-> (exists a, smatch snd u t a) \/
                  (p (snd (label t)) = true /\ exists s a, reached snd p t s /\ smatch snd u s a)).
Proof.
  intros V EV F h t q p u Ht HF Hu Htm Hq.
  destruct (C48_search_nary V EV F h t (SStar q p [u]) (make_xpattern (xbuild (SStar q p [u]) XNil)) Ht HF) as (b & x' & E & Hb); [split; [discriminate|split; [exact Hu|exact I]]| |apply Searched_never|].
  { cbn. split; [right; left; lia|split; [exact Htm|exact I]]. }
  exists b, x'. split; [exact E|]. rewrite Hb. destruct t as [x ts]. cbn [label]. split.
  - intros [a Ha]. inversion Ha; subst.
    + right. split; [assumption|]. apply (below_reached snd p u x ts). eauto.
    + congruence.
    + left. eauto.
  - intros [[a Ha]|(Hp & s & a & Hr & Ha)].
    + eexists. apply S_star_absent; [intros _; exact Hq|exact Ha].
    + destruct (proj2 (below_reached snd p u x ts) (ex_intro _ s (ex_intro _ a (conj Hr Ha)))) as [l Hl]. eexists. apply S_star; eassumption.
Qed.
Print Assumptions C48_path_nary.

(** In an empty tree nothing is found. *)
Theorem C48_search_empty :
  forall (V Nd : Type) (im : node_impl V Nd) (F : nat) (h : gmap addr Nd) (u : spat V) (x : xpattern),
  0 < F -> ssolid u -> xp_pat x = xbuild u XNil -> exists x', xsearch F im x h None = Ok (false, x').
Proof.
  intros V Nd im F h u x HF Hu Hx. unfold xsearch.
  change (get_instance F (tree_nav im h) Fixed None None) with (Ok (Iter Fixed None None [] None)). cbn [mbind res_bind]. rewrite Hx.
  assert (H : forall s it cb cut ns, si_cur it = None -> exists s' i' cut', xsearch_node F im h (xbuild u ns) s it cb cut = Ok (false, s', i', cut')).
  { clear x Hx. induction u as [vm cs _|q vm cs _|q vm cs _|p IH] using spat_ind'; intros s it cb cut ns Hi.
    4: { rewrite xbuild_eq, xsearch_node_eq. unfold xnode, xthis. cbn [kind_of subs foldr xchain].
         destruct (IH Hu (xs_first s) it (match cb with NoCb => NoCb | _ => AckCb end) cut XNil Hi) as (s' & i' & cut' & E).
         change (foldr xbuild XNil [p]) with (xbuild p XNil). rewrite E. cbn [mbind res_bind negb]. eauto. }
    all: pose proof (xprefers_solid _ ns Hu) as Hp; pose proof (xnull_solid _ Hu false ns) as Hn; rewrite xbuild_eq in Hp, Hn;
      rewrite xbuild_eq, xsearch_node_eq; unfold xnode, xthis; cbn [kind_of] in *; rewrite Hp; destruct F as [|n]; [lia|]; cbn [xloop]; rewrite Hi, Hn;
      cbn [mbind res_bind negb]; eauto. }
  destruct (H (xreset (xp_state x)) (SIt (Iter Fixed None None [] None) Plain) NoCb None XNil eq_refl) as (s' & i' & cut' & E).
  rewrite E. cbn [mbind res_bind]. eauto.
Qed.
Print Assumptions C48_search_empty.

(** *** What does not hold *)
(** The tree [r (a (a, b))], and the same with two values exchanged. *)
Definition ex_shp (v2 v3 : nat) : rose (addr * nat) :=
  Rose (1%positive, 0) [Rose (2%positive, v2) [Rose (3%positive, v3) []; Rose (4%positive, 2) []]].
Definition ex_shp_heap (v2 v3 : nat) : gmap addr (nnode nat) :=
  list_to_map
    [(1%positive, NNodeR 0 None 0 None None (Some 2%positive) (Some 2%positive));
     (2%positive, NNodeR v2 (Some 1%positive) 0 None None (Some 3%positive) (Some 4%positive));
     (3%positive, NNodeR v3 (Some 2%positive) 1 None (Some 4%positive) None None);
     (4%positive, NNodeR 2 (Some 2%positive) 0 (Some 3%positive) None None None)].
Lemma ex_shp_in v2 v3 : nary_in (ex_shp_heap v2 v3) (ex_shp v2 v3).
Proof. exists None, None, None, (szt 0). split; [vm_compute; tauto|]. apply (bool_decide_unpack _). vm_compute. exact I. Qed.

(** Without [tame] a match may be missed: the first child takes a node that the
    star accepts, and the siblings of the nodes below it are never tried
    (go_depth_first_ramification starts below the first child). *)
Theorem C49_missed_refuted :
  exists (h : gmap addr (nnode nat)) (t : rose (addr * nat)) (u : spat nat) (a : asg (addr * nat)),
  nary_in h t /\ ssolid u /\ smatch snd u t a /\
  forall F, 20 <= F -> exists x', xsearch F (nary_impl nat) (make_xpattern (xbuild u XNil)) h (Some (raddr t)) = Ok (false, x').
Proof.
  exists (ex_shp_heap 1 1), (ex_shp 1 1), (SStar QDefault (fun _ => true) [SOne (fun v => v =? 1) []; SOne (fun v => v =? 2) []]),
    (Asg (ex_shp 1 1) [Asg (Rose (3%positive, 1) []) []; Asg (Rose (4%positive, 2) []) []]).
  split; [apply ex_shp_in|]. split; [vm_compute; repeat split; congruence|]. split.
  - apply S_star; [reflexivity|discriminate|]. apply W_skip. cbn. apply W_take; [constructor; [reflexivity|constructor]|].
    apply W_take; [constructor; [reflexivity|constructor]|constructor].
  - intros F HF. destruct (Nat.le_exists_sub 20 F HF) as (n & -> & _). rewrite Nat.add_comm. eexists. vm_compute. reflexivity.
Qed.
Print Assumptions C49_missed_refuted.

(** A pattern object keeps, from one search to the next, the node below which it
    stopped looking; after values in the tree have changed a match is missed that
    a new pattern object finds. *)
Theorem C49_stale_refuted :
  exists (h h' : gmap addr (nnode nat)) (t t' : rose (addr * nat)) (u : spat nat) (a : asg (addr * nat)),
  nary_in h t /\ nary_in h' t' /\ rose_map fst t' = rose_map fst t /\ ssolid u /\ tame u /\ smatch snd u t' a /\
  forall F, 20 <= F -> exists x x', xsearch F (nary_impl nat) (make_xpattern (xbuild u XNil)) h (Some (raddr t)) = Ok (true, x) /\
    xsearch F (nary_impl nat) x h' (Some (raddr t')) = Ok (false, x').
Proof.
  exists (ex_shp_heap 1 3), (ex_shp_heap 3 1), (ex_shp 1 3), (ex_shp 3 1), (SStar QDefault (fun _ => true) [SOne (fun v => v =? 1) []]),
    (Asg (ex_shp 3 1) [Asg (Rose (3%positive, 1) []) []]).
  split; [apply ex_shp_in|]. split; [apply ex_shp_in|]. split; [reflexivity|]. split; [vm_compute; repeat split; congruence|].
  split; [cbn; repeat split; right; left; lia|]. split.
  - apply S_star; [reflexivity|discriminate|]. apply W_skip. cbn. apply W_take; [constructor; [reflexivity|constructor]|constructor].
  - intros F HF. destruct (Nat.le_exists_sub 20 F HF) as (n & -> & _). rewrite Nat.add_comm. eexists _, _. split; [vm_compute; reflexivity|]. vm_compute. reflexivity.
Qed.
Print Assumptions C49_stale_refuted.

(** *** Cases met *)
(** [star(10, 30)(one 60)] and [star<POSSESSIVE>(10, 30)(one 20, cpt(one 60))] in
    10 (20, 30 (50, 60), 40). *)
Definition ex_star : spat nat := SStar QDefault (fun v => (v =? 10) || (v =? 30)) [SOne (fun v => v =? 60) []].
Definition ex_poss : spat nat :=
  SStar QPossessive (fun v => (v =? 10) || (v =? 30)) [SOne (fun v => v =? 20) []; SCpt (SOne (fun v => v =? 60) [])].
Example C48_used_nary : forall u, u = ex_star \/ u = ex_poss ->
  ssolid u /\ tame u /\ (exists a, smatch snd u ex_nary a) /\
  exists x x2, xsearch 100 (nary_impl nat) (make_xpattern (xbuild u XNil)) ex_nheap (Some 1%positive) = Ok (true, x) /\
    xsearch 100 (nary_impl nat) x ex_nheap (Some 1%positive) = Ok (true, x2).
Proof.
  assert (Hf : 6 < 100) by lia.
  intros u Hu.
  assert (Hsm : ssolid u /\ tame u /\ exists a, smatch snd u ex_nary a).
  { destruct Hu as [->| ->]; (split; [vm_compute; repeat split; congruence|split]).
    - cbn. repeat split. right. left. lia.
    - eexists. apply S_star; [reflexivity|discriminate|]. apply W_skip. cbn. apply W_skip. cbn. apply W_skip. cbn.
      apply W_take; [constructor; [reflexivity|constructor]|constructor].
    - cbn. repeat split. left. reflexivity.
    - eexists. apply S_possessive; [reflexivity|]. cbn. apply L_take; [constructor; [reflexivity|constructor]|]. apply L_skip.
      apply L_take; [apply S_cpt; constructor; [reflexivity|constructor]|constructor]. }
  destruct Hsm as (Hs & Ht & a & Ha). split; [exact Hs|]. split; [exact Ht|]. split; [eauto|].
  destruct (C48_search_nary nat _ 100 ex_nheap ex_nary u (make_xpattern (xbuild u XNil)) ex_nary_in Hf Hs Ht (Searched_never _ _ _ _ _)) as (b & x & E & Hb).
  rewrite (proj2 Hb (ex_intro _ a Ha)) in E.
  destruct (C48_search_nary nat _ 100 ex_nheap ex_nary u x ex_nary_in Hf Hs Ht) as (b2 & x2 & E2 & Hb2).
  { eapply Searched_again; [apply Searched_never|exact E]. }
  rewrite (proj2 Hb2 (ex_intro _ a Ha)) in E2. eauto.
Qed.
Example C48_used_binary : exists x, xsearch 100 (binary_impl nat) (make_xpattern (xbuild (SStar QReluctant (fun v => v <? 50) [SOne (fun v => v =? 50) []]) XNil)) ex_bheap (Some 1%positive) = Ok (true, x).
Proof.
  destruct (C48_search_binary nat _ 100 ex_bheap ex_bin _ (SStar QReluctant (fun v => v <? 50) [SOne (fun v => v =? 50) []]) (make_xpattern (xbuild (SStar QReluctant (fun v => v <? 50) [SOne (fun v => v =? 50) []]) XNil)) ex_bin_in eq_refl) as (b & x & E & Hb);
    [vm_compute; lia|vm_compute; repeat split; congruence|cbn; repeat split; right; left; lia|apply Searched_never|].
  exists x. cbn [baddr ex_bin] in E. rewrite E. replace b with true; [reflexivity|]. symmetry. apply Hb.
  eexists. apply S_star; [reflexivity|discriminate|]. cbn. apply W_skip. cbn. apply W_skip. cbn. apply W_take; [constructor; [reflexivity|constructor]|constructor].
Qed.
