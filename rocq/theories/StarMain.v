(** StarMain.v: the search of a pattern with [star], on a pattern object. *)
From Verif Require Import Base Spec StructNode BinaryNode NaryNode Nav Policy Tree Rep RoseFacts NavFacts BinRep NaryRep
  Iter IterTrees IterMain NodeFacts User Matcher MatchWalk Star StarSpec StarLemmas StarWalk StarFacts.

(** [x] is the pattern object made for [p], after any number of searches in the
    tree at [root]. *)
Inductive searched {V Nd : Type} (F : nat) (im : node_impl V Nd) (h : gmap addr Nd) (root : ptr) (p : xpat V) : xpattern -> Prop :=
| Searched_never : searched F im h root p (make_xpattern p)
| Searched_again x b x' : searched F im h root p x -> xsearch F im x h root = Ok (b, x') -> searched F im h root p x'.

Section Core.
  Context {V Nd : Type}.
  Variable F : nat.
  Variable im : node_impl V Nd.
  Variable h : gmap addr Nd.
  Lemma xsearch_core (t : rose (addr * V)) u x : ops_ok (ni_ops im h) (rose_map fst t) -> NoDup (map fst (preorder t)) ->
    (forall y, y ∈ preorder t -> ni_value im h (Some (fst y)) = Ok (snd y)) -> rsize t < F -> ssolid u -> xp_pat x = xbuild u XNil ->
    exists b x', xsearch F im x h (Some (raddr t)) = Ok (b, x') /\ xp_pat x' = xp_pat x /\ xp_found x' = (xp_found x || b) /\
      (b = true -> exists a, smatch snd u t a /\ records [u] (xp_state x') [a]) /\
      (tame u -> fines t [u] (xp_state x) -> fines t [u] (xp_state x') /\ (b = false -> forall a, ~ smatch snd u t a)).
  Proof.
    intros Hops Hnd Hval HF Hs Hx. unfold xsearch.
    destruct (search_all F im h t Hops Hnd Hval HF u (xreset (xp_state x)) Hs) as (b & s' & i' & cut' & E & Ht & Hf).
    change (get_instance F (tree_nav im h) Fixed (Some (raddr t)) (Some (raddr t))) with (Ok (Iter Fixed (Some (raddr t)) (Some (raddr t)) [] (Some (raddr t)))).
    cbn [mbind res_bind]. rewrite Hx, E. cbn [mbind res_bind]. exists b, (XPattern (xp_pat x) s' (xp_found x || b)).
    rewrite <- Hx. split; [reflexivity|]. split; [reflexivity|]. split; [reflexivity|]. split; [exact Ht|].
    intros Htm Hfi. apply (Hf Htm). apply fines_reset, Hfi.
  Qed.
  Lemma searched_fines (t : rose (addr * V)) u x : ops_ok (ni_ops im h) (rose_map fst t) -> NoDup (map fst (preorder t)) ->
    (forall y, y ∈ preorder t -> ni_value im h (Some (fst y)) = Ok (snd y)) -> rsize t < F -> ssolid u -> tame u ->
    searched F im h (Some (raddr t)) (xbuild u XNil) x -> xp_pat x = xbuild u XNil /\ fines t [u] (xp_state x).
  Proof.
    intros Hops Hnd Hval HF Hs Htm Hx. induction Hx as [|x b x' Hx [Hp Hfi] E]; [split; [reflexivity|apply fines_fresh]|].
    destruct (xsearch_core t u x Hops Hnd Hval HF Hs Hp) as (b' & x2 & E' & Hp' & _ & _ & Hf).
    rewrite E in E'. injection E' as <- <-. split; [congruence|]. apply (Hf Htm Hfi).
  Qed.
End Core.

Section Kinds.
  Context {V : Type} `{EV : EqDecision V}.
  Lemma nary_facts (h : gmap addr (nnode V)) t : nary_in h t ->
    ops_ok (ni_ops (nary_impl V) h) (rose_map fst t) /\ NoDup (map fst (preorder t)) /\
    (forall y, y ∈ preorder t -> ni_value (nary_impl V) h (Some (fst y)) = Ok (snd y)).
  Proof.
    intros (par & prev & next & fs & Hr & Hnd). split; [exact (nrep_ops_ok h t _ _ _ _ Hr)|]. split; [exact Hnd|].
    intros x Hx. eapply nrep_value; eassumption.
  Qed.
  Lemma binary_facts (h : gmap addr (bnode V)) t s : bin_in h t -> bin_forest t = [s] ->
    ops_ok (ni_ops (binary_impl V) h) (rose_map fst s) /\ NoDup (map fst (preorder s)) /\
    (forall y, y ∈ preorder s -> ni_value (binary_impl V) h (Some (fst y)) = Ok (snd y)).
  Proof.
    intros Ht Hs. destruct Ht as (par & Hr & Hnd). pose proof (brep_ops_ok h t par Hr Hnd) as Hops.
    unfold brose in Hops. rewrite bin_forest_map', Hs in Hops. apply Forall_inv in Hops.
    assert (Hlab : bin_labels t = preorder s) by (rewrite <- forest_labels, Hs; cbn; rewrite app_nil_r; reflexivity).
    split; [exact Hops|]. split; [rewrite <- Hlab; exact Hnd|].
    intros x Hx. apply (bin_value h t); [exists par; auto|]. rewrite Hlab. exact Hx.
  Qed.
  Lemma bin_root (t : bin (addr * V)) s : bin_forest t = [s] -> baddr t = Some (raddr s).
  Proof. intros Hs. destruct t as [|[a v] l r]; [discriminate|]. cbn in Hs. injection Hs as <-. reflexivity. Qed.
End Kinds.
