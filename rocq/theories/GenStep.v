(** GenStep.v: single steps of a generative navigator. *)
From Verif Require Import Base Spec StructNode BinaryNode NaryNode Nav Policy Tree Rep RoseFacts NavFacts BinOrder BinRep BinOps BinEdit NaryRep NaryOps NaryEdit EditSpec
  World Kinds TreeSpec TreeOps TreeBin TreeNary NodeFacts SibFacts EditFacts Iter IterTrees Matcher MatchBin GenFacts GenInv Gen GenRun GenNary GenBin GenUser PruneSpec.

Definition lasta {V} (l : list (rose (addr * V))) : ptr := last_or None l.
Definition heada {V} (l : list (rose (addr * V))) : ptr := first_or l None.

(** What a list of siblings of the target looks like to the navigator. *)
Record row {V Nd} (im : node_impl V Nd) (h : gmap addr Nd) (root : addr) (l : list (rose (addr * V))) : Prop := {
  rw_next : forall ls s rs, l = ls ++ s :: rs -> op_next (ni_ops im h) (Some (raddr s)) = Ok (heada rs);
  rw_prev : forall ls s rs, l = ls ++ s :: rs -> op_prev (ni_ops im h) (Some (raddr s)) = Ok (lasta ls);
  rw_value : forall s, s ∈ l -> ni_value im h (Some (raddr s)) = Ok (snd (label s));
  rw_root : forall s, s ∈ l -> raddr s <> root
}.

Section Steps.
  Context {V Nd : Type}.
  Variable F : nat.
  Variable im : node_impl V Nd.
  Variable al : allocator Nd.
  Variable like : gmap addr Nd -> ptr -> ptr -> ptr -> res (gmap addr Nd).
  Notation heap := (gmap addr Nd).
  Notation tree := (rose (addr * V)).
  Variable keep : V -> bool.
  Notation pred := (by_value im keep).
  Notation keepx := (fun x : addr * V => keep (snd x)).
  Variable root : mptr.
  Variable ra : addr.
  Hypothesis Hra : mp_main root = Some ra.

  Lemma not_root a q fl : a <> ra -> mp_eqb (MPtr [Some a; q] fl) root = false.
  Proof. intros H. unfold mp_eqb. rewrite Hra. apply ptr_eqb_false. cbn. congruence. Qed.
  Lemma do_alone call m fl p' : call (Some m) = Ok p' -> mp_do call (MPtr [Some m; None] fl) = Ok (mp_make [p'; None]).
  Proof. intros E. unfold mp_do. cbn [mp_ptrs mapM]. rewrite E. reflexivity. Qed.
  Lemma do_both call m q fl p' q' : call (Some m) = Ok p' -> call (Some q) = Ok q' -> mp_do call (MPtr [Some m; Some q] fl) = Ok (mp_make [p'; q']).
  Proof. intros E E'. unfold mp_do. cbn [mp_ptrs mapM]. rewrite E, E'. reflexivity. Qed.
  Lemma pred_at h l s q fl : row im h ra l -> s ∈ l -> pred tt h (MPtr [Some (raddr s); q] fl) = Ok (tt, MPtr [Some (raddr s); q] fl, keep (snd (label s))).
  Proof. intros Hr Hs. unfold by_value. change (mp_main (MPtr [Some (raddr s); q] fl)) with (Some (raddr s)). rewrite (rw_value _ _ _ _ Hr s Hs). reflexivity. Qed.

  Lemma row_loop h l : row im h ra l -> forall done rest k, l = done ++ rest -> length rest < k ->
    m_next_loop im pred root h k tt (mp_make [heada rest; None]) = Ok (tt, mp_make [heada (kept keepx rest); None]).
  Proof.
    intros Hr done rest. revert done. induction rest as [|s rest IH]; intros done k E Hk; (destruct k as [|k]; [cbn in Hk; lia|]).
    { reflexivity. }
    cbn [m_next_loop]. change (mp_bool (mp_make [heada (s :: rest); None])) with true. cbv iota.
    change (mp_make [heada (s :: rest); None]) with (MPtr [Some (raddr s); None] [false; false]).
    assert (Hs : s ∈ l) by (rewrite E; apply elem_of_app; right; left).
    rewrite (pred_at h l s None _ Hr Hs). cbn [mbind res_bind]. unfold kept. cbn [List.filter]. destruct (keep (snd (label s))); [reflexivity|].
    unfold m_unless_root. rewrite (not_root _ _ _ (rw_root _ _ _ _ Hr s Hs)). unfold mp_next.
    rewrite (do_alone _ _ _ _ (rw_next _ _ _ _ Hr done s rest E)). cbn [mbind res_bind]. apply (IH (done ++ [s])); [rewrite <- app_assoc; exact E|cbn in Hk; lia].
  Qed.
  (** To the next sibling, from a node whose generated node is the last one. *)
  Lemma next_step h l ls s rs g fl : row im h ra l -> l = ls ++ s :: rs -> length l <= F -> op_next (ni_ops im h) (Some g) = Ok None ->
    m_next F im pred root h tt (MPtr [Some (raddr s); Some g] fl) = Ok (tt, mp_make [heada (kept keepx rs); None]).
  Proof.
    intros Hr E HF Hg. unfold m_next, m_unless_root. assert (Hs : s ∈ l) by (rewrite E; apply elem_of_app; right; left).
    rewrite (not_root _ _ _ (rw_root _ _ _ _ Hr s Hs)). unfold mp_next. rewrite (do_both _ _ _ _ _ _ (rw_next _ _ _ _ Hr ls s rs E) Hg). cbn [mbind res_bind].
    apply (row_loop h l Hr (ls ++ [s]) rs); [rewrite <- app_assoc; exact E|]. rewrite E, app_length in HF. cbn in HF. lia.
  Qed.
  Lemma first_step h cs m g fl : row im h ra cs -> length cs <= F -> op_first (ni_ops im h) (Some m) = Ok (heada cs) -> op_first (ni_ops im h) (Some g) = Ok None ->
    m_first F im pred root h tt (MPtr [Some m; Some g] fl) = Ok (tt, mp_make [heada (kept keepx cs); None]).
  Proof.
    intros Hr HF Hm Hg. unfold m_first, mp_first. rewrite (do_both _ _ _ _ _ _ Hm Hg). cbn [mbind res_bind]. destruct cs as [|s cs]; [reflexivity|].
    change (mp_bool (mp_make [heada (s :: cs); None])) with true. cbv iota. change (mp_make [heada (s :: cs); None]) with (MPtr [Some (raddr s); None] [false; false]).
    assert (Hs : s ∈ s :: cs) by left. rewrite (pred_at h _ s None _ Hr Hs). cbn [mbind res_bind]. unfold kept. cbn [List.filter].
    destruct (keep (snd (label s))); [reflexivity|]. unfold m_next, m_unless_root. rewrite (not_root _ _ _ (rw_root _ _ _ _ Hr s Hs)). unfold mp_next.
    rewrite (do_alone _ _ _ _ (rw_next _ _ _ _ Hr [] s cs eq_refl)). cbn [mbind res_bind]. apply (row_loop h (s :: cs) Hr [s] cs F eq_refl). cbn in HF. lia.
  Qed.
  (** Backwards: only the nearest sibling is ever looked at. *)
  Definition look_back (l : list tree) : res (unit * mptr) :=
    match rev l with
    | [] => Ok (tt, mp_make [None; None])
    | s :: _ => if keep (snd (label s)) then Ok (tt, mp_make [Some (raddr s); None]) else Err OutOfFuel
    end.
  Lemma lasta_snoc (l : list tree) s : lasta (l ++ [s]) = Some (raddr s).
  Proof. unfold lasta. rewrite last_or_addr. unfold last_addr. rewrite rev_app_distr. reflexivity. Qed.
  Lemma prev_stuck h l ls s rs q fl : row im h ra l -> l = ls ++ s :: rs ->
    (match q with None => Ok None | Some _ => op_prev (ni_ops im h) q end) = Ok None ->
    mp_prev (ni_ops im h) (MPtr [Some (raddr s); q] fl) = Ok (mp_make [lasta ls; None]).
  Proof.
    intros Hr E Hq. unfold mp_prev. destruct q as [q|]; [apply do_both; [exact (rw_prev _ _ _ _ Hr ls s rs E)|exact Hq]|apply do_alone, (rw_prev _ _ _ _ Hr ls s rs E)].
  Qed.
  Lemma prev_loop h l ls s rs q fl : row im h ra l -> l = ls ++ s :: rs ->
    (match q with None => Ok None | Some _ => op_prev (ni_ops im h) q end) = Ok None ->
    forall k, 0 < k -> m_prev_loop im pred root h k tt (MPtr [Some (raddr s); q] fl) (mp_make [lasta ls; None]) = look_back ls.
  Proof.
    intros Hr E Hq. assert (Hs : s ∈ l) by (rewrite E; apply elem_of_app; right; left). unfold look_back.
    destruct (rev ls) as [|p rls] eqn:Er.
    { assert (ls = []) as -> by (rewrite <- (rev_involutive ls), Er; reflexivity). intros [|k] Hk; [lia|]. reflexivity. }
    assert (Els : ls = rev rls ++ [p]) by (rewrite <- (rev_involutive ls), Er; reflexivity).
    assert (Hp : p ∈ l) by (rewrite E, Els; set_solver +). rewrite Els, lasta_snoc.
    assert (Hloop : forall k, m_prev_loop im pred root h (S k) tt (MPtr [Some (raddr s); q] fl) (mp_make [Some (raddr p); None]) =
      if keep (snd (label p)) then Ok (tt, mp_make [Some (raddr p); None]) else m_prev_loop im pred root h k tt (MPtr [Some (raddr s); q] fl) (mp_make [Some (raddr p); None])).
    { intros k. cbn [m_prev_loop]. change (mp_bool (mp_make [Some (raddr p); None])) with true. cbv iota.
      change (mp_make [Some (raddr p); None]) with (MPtr [Some (raddr p); None] [false; false]). rewrite (pred_at h l p None _ Hr Hp). cbn [mbind res_bind].
      destruct (keep (snd (label p))); [reflexivity|]. unfold m_unless_root. rewrite (not_root _ _ _ (rw_root _ _ _ _ Hr s Hs)).
      rewrite (prev_stuck h l ls s rs q fl Hr E Hq). cbn [mbind res_bind]. rewrite Els, lasta_snoc. reflexivity. }
    intros [|k] Hk; [lia|]. clear Hk. revert Hloop. generalize (keep (snd (label p))). intros b Hloop. rewrite Hloop. destruct b; [reflexivity|].
    induction k as [|k IH]; [reflexivity|]. rewrite Hloop. exact IH.
  Qed.
  Lemma prev_step h l ls s rs q fl : row im h ra l -> l = ls ++ s :: rs -> 0 < F ->
    (match q with None => Ok None | Some _ => op_prev (ni_ops im h) q end) = Ok None ->
    m_prev F im pred root h tt (MPtr [Some (raddr s); q] fl) = look_back ls.
  Proof.
    intros Hr E HF Hq. unfold m_prev, m_unless_root. assert (Hs : s ∈ l) by (rewrite E; apply elem_of_app; right; left).
    rewrite (not_root _ _ _ (rw_root _ _ _ _ Hr s Hs)), (prev_stuck h l ls s rs q fl Hr E Hq). cbn [mbind res_bind].
    exact (prev_loop h l ls s rs q fl Hr E Hq F HF).
  Qed.
  Lemma last_step h cs m g fl : row im h ra cs -> 0 < F -> op_last (ni_ops im h) (Some m) = Ok (lasta cs) -> op_last (ni_ops im h) (Some g) = Ok None ->
    m_last F im pred root h tt (MPtr [Some m; Some g] fl) =
    match rev cs with
    | [] => Ok (tt, mp_make [None; None])
    | s :: rest => if keep (snd (label s)) then Ok (tt, mp_make [Some (raddr s); None]) else look_back (rev rest)
    end.
  Proof.
    intros Hr HF Hm Hg. unfold m_last, mp_last. rewrite (do_both _ _ _ _ _ _ Hm Hg). cbn [mbind res_bind].
    destruct (rev cs) as [|s rest] eqn:Er.
    { assert (cs = []) as -> by (rewrite <- (rev_involutive cs), Er; reflexivity). reflexivity. }
    assert (E : cs = rev rest ++ [s]) by (rewrite <- (rev_involutive cs), Er; reflexivity).
    assert (Hs : s ∈ cs) by (rewrite E; set_solver +). replace (lasta cs) with (Some (raddr s)) by (rewrite E, lasta_snoc; reflexivity).
    change (mp_bool (mp_make [Some (raddr s); None])) with true. cbv iota. change (mp_make [Some (raddr s); None]) with (MPtr [Some (raddr s); None] [false; false]) at 1.
    rewrite (pred_at h cs s None _ Hr Hs). cbn [mbind res_bind]. destruct (keep (snd (label s))); [reflexivity|].
    exact (prev_step h cs (rev rest) s [] None _ Hr E HF eq_refl).
  Qed.

  (** *** Generating *)
  Lemma gen_nothing navigate attach h m g fl : navigate h tt (MPtr [Some m; Some g] fl) = Ok (tt, mp_make [None; None]) ->
    gen_navigate im al navigate attach tt h (MPtr [Some m; Some g] fl) = Ok (tt, h, mp_make [None; None]).
  Proof. intros E. unfold gen_navigate. cbn [mp_all_valid mp_ptrs forallb is_null negb andb guard_res mbind res_bind]. rewrite E. reflexivity. Qed.
  Lemma gen_wrong navigate attach h m g fl e : navigate h tt (MPtr [Some m; Some g] fl) = Err e ->
    gen_navigate im al navigate attach (tt : unit) h (MPtr [Some m; Some g] fl) = Err e.
  Proof. intros E. unfold gen_navigate. cbn [mp_all_valid mp_ptrs forallb is_null negb andb guard_res mbind res_bind]. rewrite E. reflexivity. Qed.
  Lemma gen_some navigate attach h m g fl s w a h1 h2 : navigate h tt (MPtr [Some m; Some g] fl) = Ok (tt, mp_make [Some s; None]) ->
    ni_value im h (Some s) = Ok w -> ni_from_value im al h w = Ok (a, h1) -> attach h1 (Some g) (Some a) (Some s) = Ok h2 ->
    gen_navigate im al navigate attach tt h (MPtr [Some m; Some g] fl) = Ok (tt, h2, MPtr [Some s; Some a] [false; true]).
  Proof.
    intros E Ew Ea E2. unfold gen_navigate. cbn [mp_all_valid mp_ptrs forallb is_null negb andb guard_res mbind res_bind]. rewrite E. cbn [mbind res_bind].
    change (mp_bool (mp_make [Some s; None])) with true. cbv iota. change (mp_get 1 (mp_make [Some s; None])) with (None : ptr). cbv iota.
    change (mp_main (mp_make [Some s; None])) with (Some s). rewrite Ew. cbn [mbind res_bind]. rewrite Ea. cbn [mbind res_bind].
    change (mp_is_assigned 1 (mp_assign 1 (Some a) (mp_make [Some s; None]))) with true. cbv iota.
    change (mp_get 1 (MPtr [Some m; Some g] fl)) with (Some g). change (mp_get 1 (mp_assign 1 (Some a) (mp_make [Some s; None]))) with (Some a).
    change (mp_main (mp_assign 1 (Some a) (mp_make [Some s; None]))) with (Some s). rewrite E2. reflexivity.
  Qed.
  Lemma gen_known navigate attach h m g fl s q : navigate h tt (MPtr [Some m; Some g] fl) = Ok (tt, mp_make [Some s; Some q]) ->
    gen_navigate im al navigate attach tt h (MPtr [Some m; Some g] fl) = Ok (tt, h, mp_make [Some s; Some q]).
  Proof. intros E. unfold gen_navigate. cbn [mp_all_valid mp_ptrs forallb is_null negb andb guard_res mbind res_bind]. rewrite E. reflexivity. Qed.
End Steps.

Section Nary.
  Context {V : Type} {EV : EqDecision V}.
  Variable F : nat.
  Variable al : allocator (nnode V).
  Notation heap := (gmap addr (nnode V)).
  Notation tree := (rose (addr * V)).
  Notation im := (nary_impl V).
  Lemma heada_map (l : list tree) : head_label (map nrose l) = heada l.
  Proof. apply head_label_nrose. Qed.
  Lemma lasta_map (l : list tree) : last_label (map nrose l) = lasta l.
  Proof. apply last_label_nrose. Qed.
  Lemma in_ops (h : heap) (t : tree) x cs : nary_in h t -> rsubtree (Rose x cs) t -> ops_ok (nary_ops h) (Rose (fst x) (map nrose cs)).
  Proof. intros Hin Hsub. destruct (nary_in_sub h _ _ Hin Hsub) as (par & prev & next & fs & Hr & _). apply nrep_ops_ok in Hr. exact Hr. Qed.
  Lemma ops_row (h : heap) a (cs : list tree) : ops_ok (nary_ops h) (Rose a (map nrose cs)) ->
    op_first (nary_ops h) (Some a) = Ok (heada cs) /\ op_last (nary_ops h) (Some a) = Ok (lasta cs) /\
    (forall ls s rs, cs = ls ++ s :: rs -> op_parent (nary_ops h) (Some (raddr s)) = Ok (Some a) /\
       op_prev (nary_ops h) (Some (raddr s)) = Ok (lasta ls) /\ op_next (nary_ops h) (Some (raddr s)) = Ok (heada rs)).
  Proof.
    intros Ho. apply ops_ok_unfold in Ho as (H1 & H2 & H3 & _). rewrite heada_map in H1. rewrite lasta_map in H2. split; [exact H1|]. split; [exact H2|].
    intros ls s rs ->. rewrite map_app in H3. destruct (H3 (map nrose ls) (nrose s) (map nrose rs) eq_refl) as (E1 & E2 & E3).
    rewrite label_nrose, heada_map in E3. rewrite label_nrose, lasta_map in E2. rewrite label_nrose in E1. auto.
  Qed.
  Lemma nary_row (h : heap) (t : tree) x cs : nary_in h t -> rsubtree (Rose x cs) t -> row im h (raddr t) cs.
  Proof.
    intros Hin Hsub. destruct (ops_row h _ _ (in_ops h t x cs Hin Hsub)) as (_ & _ & H). split.
    - intros ls s rs E. apply (H ls s rs E).
    - intros ls s rs E. apply (H ls s rs E).
    - intros s Hs. apply (nary_value h t Hin (label s)). apply (sub_children_in _ _ _ Hsub). cbn. apply elem_of_list_fmap. eauto.
    - intros s Hs. destruct Hin as (? & ? & ? & ? & _ & Hnd). eapply child_ne_root; eassumption.
  Qed.
  (** A new node appended to the generated node. *)
  Lemma nary_child_made (h : heap) c g v gs w ref : nary_at h (plug c (Rose (g, v) gs)) -> length gs <= F ->
    exists a h1 h2, ni_from_value im al h w = Ok (a, h1) /\ h !! a = None /\ nary_at h1 (plug c (Rose (g, v) gs)) /\
      n_assign_child_like F h1 (Some g) (Some a) ref = Ok h2 /\ nary_at h2 (plug c (Rose (g, v) (gs ++ [Rose (a, w) []]))) /\
      (forall z, z ∉ raddrs (plug c (Rose (g, v) gs)) -> z <> a -> h2 !! z = h !! z).
  Proof.
    intros [Hr Hnd] HF. destruct (n_from_value_ok al h w) as (a & h1 & E & Hb & Hbn & Hfree & Hold).
    assert (Ha : h !! a = None) by (apply Hfree; left). set (r := plug c (Rose (g, v) gs)) in *.
    assert (Har : a ∉ raddrs r). { intros Hi. destruct (nrep_dom _ _ _ _ _ _ _ Hr Hi) as [n En]. congruence. }
    assert (Hr1 : nrep h1 None None None (szt 0) r).
    { eapply nrep_ext; [|exact Hr]. intros z Hz. apply Hold. intros Hi. apply elem_of_list_singleton in Hi. cbn in Hi. subst z. exact (Har Hz). }
    destruct (n_append_ok F h1 c g v gs (Rose (a, w) []) Hr1 Hnd Hb Hbn) as (h2 & E2 & Hr2 & Hf2); [|exact HF|].
    { intros z Hz. apply elem_of_list_singleton in Hz. cbn in Hz. subst z. exact Har. }
    exists a, h1, h2. split; [exact E|]. split; [exact Ha|]. split; [split; assumption|]. split.
    - unfold n_assign_child_like. cbn [is_null negb guard_res mbind res_bind]. change (Some a) with (Some (raddr (Rose (a, w) []))). rewrite E2. reflexivity.
    - split; [split; [exact Hr2|]|].
      + assert (Hp : Permutation (raddrs (plug c (Rose (g, v) (gs ++ [Rose (a, w) []])))) (a :: raddrs r)).
        { unfold r. rewrite !raddrs_plug, !raddrs_rose, faddrs_app, faddrs_cons. change (faddrs []) with (@nil addr). rewrite app_nil_r. change (raddrs (Rose (a, w) [])) with [a]. solve_Permutation. }
        rewrite Hp. apply NoDup_cons. auto.
      + intros z Hz Hza. rewrite Hf2; [apply Hold|exact Hz|]; intros Hi; apply elem_of_list_singleton in Hi; cbn in Hi; congruence.
  Qed.
  (** The traversed tree is not touched. *)
  Lemma nary_kept_in (h h' : heap) (t : tree) (A : list addr) a : nary_in h t -> h !! a = None -> (forall z, z ∈ raddrs t -> z ∉ A) ->
    (forall z, z ∉ A -> z <> a -> h' !! z = h !! z) -> nary_in h' t.
  Proof.
    intros (par & prev & next & fs & Hr & Hnd) Ha Hd Hf. exists par, prev, next, fs. split; [|exact Hnd]. eapply nrep_ext; [|exact Hr].
    intros z Hz. apply Hf; [apply Hd, Hz|]. intros ->. destruct (nrep_dom _ _ _ _ _ _ _ Hr Hz) as [n En]. congruence.
  Qed.
End Nary.

Section Binary.
  Context {V : Type} {EV : EqDecision V}.
  Variable F : nat.
  Variable al : allocator (bnode V).
  Notation heap := (gmap addr (bnode V)).
  Notation C := (bin (addr * V)).
  Notation im := (binary_impl V).
  Lemma brose_forest (b : C) : brose b = map nrose (bin_forest b).
  Proof. unfold brose. rewrite bin_forest_map'. reflexivity. Qed.
  Lemma bin_ops_row (h : heap) (b : C) x l r : bin_in h b -> bsubtree (BNode x l r) b ->
    ops_ok (bin_ops h) (Rose (fst x) (map nrose (bin_forest l ++ bin_forest r))).
  Proof.
    intros Hin Hsub. destruct (bin_in_sub h _ _ Hin Hsub) as (par & Hr & Hnd). pose proof (brep_ops_ok _ _ _ Hr Hnd) as Ho. rewrite brose_forest in Ho.
    cbn [bin_forest map] in Ho. apply Forall_inv in Ho. exact Ho.
  Qed.
  Lemma bops_row (h : heap) a (cs : list (rose (addr * V))) : ops_ok (bin_ops h) (Rose a (map nrose cs)) ->
    op_first (bin_ops h) (Some a) = Ok (heada cs) /\ op_last (bin_ops h) (Some a) = Ok (lasta cs) /\
    (forall ls s rs, cs = ls ++ s :: rs -> op_parent (bin_ops h) (Some (raddr s)) = Ok (Some a) /\
       op_prev (bin_ops h) (Some (raddr s)) = Ok (lasta ls) /\ op_next (bin_ops h) (Some (raddr s)) = Ok (heada rs)).
  Proof.
    intros Ho. apply ops_ok_unfold in Ho as (H1 & H2 & H3 & _). rewrite heada_map in H1. rewrite lasta_map in H2. split; [exact H1|]. split; [exact H2|].
    intros ls s rs ->. rewrite map_app in H3. destruct (H3 (map nrose ls) (nrose s) (map nrose rs) eq_refl) as (E1 & E2 & E3).
    rewrite label_nrose, heada_map in E3. rewrite label_nrose, lasta_map in E2. rewrite label_nrose in E1. auto.
  Qed.
  Lemma bin_row (h : heap) (b : C) ra x l r : bin_in h b -> bsubtree (BNode x l r) b -> baddr b = Some ra -> row im h ra (bin_forest l ++ bin_forest r).
  Proof.
    intros Hin Hsub Hra. destruct (bops_row h _ _ (bin_ops_row h b x l r Hin Hsub)) as (_ & _ & H). 
    assert (Hlab : forall s, s ∈ bin_forest l ++ bin_forest r -> label s ∈ tail (bin_labels b)).
    { clear -Hsub. intros s Hs.
      assert (H1 : label s ∈ bin_labels l ++ bin_labels r).
      { apply elem_of_app in Hs as [Hs|Hs]; apply elem_of_app; [left; destruct l as [|y l1 l2]|right; destruct r as [|y l1 l2]];
          (try (apply elem_of_nil in Hs as [])); cbn in Hs; apply elem_of_list_singleton in Hs; subst s; cbn; left. }
      remember (BNode x l r) as n eqn:En. induction Hsub as [|y l' r' Hsub IH|y l' r' Hsub IH]; subst.
      - exact H1.
      - cbn. apply elem_of_app. left. destruct (bin_labels l'); [apply elem_of_nil in IH as []|right; exact IH].
      - cbn. apply elem_of_app. right. destruct (bin_labels r'); [apply elem_of_nil in IH as []|right; exact IH]. }
    split.
    - intros ls s rs E. apply (H ls s rs E).
    - intros ls s rs E. apply (H ls s rs E).
    - intros s Hs. apply (bin_value h b Hin (label s)). specialize (Hlab s Hs). destruct (bin_labels b); [apply elem_of_nil in Hlab as []|right; exact Hlab].
    - intros s Hs E. specialize (Hlab s Hs). destruct Hin as (? & _ & Hnd). destruct b as [|[p w] l' r']; [discriminate|]. cbn in Hra, Hlab. injection Hra as ->.
      unfold baddrs in Hnd. cbn in Hnd. apply NoDup_cons in Hnd as [Hn _]. apply Hn. rewrite <- E. apply elem_of_list_fmap. eauto.
  Qed.
  Lemma bin_kept_in (h h' : heap) (b : C) (A : list addr) a : bin_in h b -> h !! a = None -> (forall z, z ∈ baddrs b -> z ∉ A) ->
    (forall z, z ∉ A -> z <> a -> h' !! z = h !! z) -> bin_in h' b.
  Proof.
    intros (par & Hr & Hnd) Ha Hd Hf. exists par. split; [|exact Hnd]. eapply brep_ext; [|exact Hr].
    intros z Hz. apply Hf; [apply Hd, Hz|]. intros ->. destruct (brep_dom _ _ _ _ Hr Hz) as [n En]. congruence.
  Qed.
  Lemma bin_child_made (h : heap) c g v gl gr (b : C) x l r (s : bool) ref w :
    bin_in h b -> bsubtree (BNode x l r) b -> baddr (if s then l else r) = Some ref ->
    bin_at h (bplug c (BNode (g, v) gl gr)) -> (if s then gl else gr) = BLeaf ->
    exists a h1 h2, ni_from_value im al h w = Ok (a, h1) /\ h !! a = None /\ bin_at h1 (bplug c (BNode (g, v) gl gr)) /\
      b_assign_child_like h1 (Some g) (Some a) (Some ref) = Ok h2 /\
      bin_at h2 (bplug c (if s then BNode (g, v) (BNode (a, w) BLeaf BLeaf) gr else BNode (g, v) gl (BNode (a, w) BLeaf BLeaf))) /\
      (forall z, z ∉ baddrs (bplug c (BNode (g, v) gl gr)) -> z <> a -> h2 !! z = h !! z).
  Proof.
    intros Hin Hsub Href [Hr Hnd] Hfree. destruct (k_value _ _ _ _ (binary_ok F al) h w) as (a & h1 & u & E & Hru & Hv & _ & _ & Hu & Hn & Hf).
    assert (Eu : u = BNode (a, w) BLeaf BLeaf).
    { cbn in Hru, Hv. destruct u as [|[p w'] ul ur]; [discriminate|]. cbn in *. injection Hru as ->. injection Hv as -> Hl' Hr'.
      destruct ul; [|discriminate]. destruct ur; [|discriminate]. reflexivity. }
    subst u. assert (Hn' : h !! a = None) by (apply Hn; cbn; left). set (t := bplug c (BNode (g, v) gl gr)) in *.
    assert (Hat : a ∉ baddrs t). { intros Hi. destruct (brep_dom _ _ _ _ Hr Hi) as [n En]. congruence. }
    assert (Hold : forall z, z <> a -> h1 !! z = h !! z). { intros z Hz. apply Hf. cbn. intros Hi. apply elem_of_list_singleton in Hi. congruence. }
    assert (Hr1 : bin_at h1 t). { split; [|exact Hnd]. eapply brep_ext; [|exact Hr]. intros z Hz. apply Hold. intros ->. exact (Hat Hz). }
    assert (Hin1 : bin_in h1 b). { eapply (bin_kept_in h h1 b [] a); [exact Hin|exact Hn'|intros ? _; apply not_elem_of_nil|]. intros z _. apply Hold. }
    pose proof (side_in b h1 x l r s ref Hin1 Hsub Href) as Hs.
    destruct (b_like_ok h1 c g v gl gr (BNode (a, w) BLeaf BLeaf) a s (Some ref) Hr1 Hu eq_refl) as (h2 & E2 & H2 & _ & Hf2).
    - intros z Hz. cbn in Hz. apply elem_of_list_singleton in Hz. subst z. exact Hat.
    - exact Hs.
    - exact Hfree.
    - exists a, h1, h2. repeat (split; [assumption|]). intros z Hz Hza. rewrite Hf2; [apply Hold, Hza|exact Hz|]. cbn. intros Hi. apply elem_of_list_singleton in Hi. congruence.
  Qed.
End Binary.
