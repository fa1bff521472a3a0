(** PropStarEmpty.v: searching an empty tree (C88). *)
From Verif Require Import Base Spec StructNode BinaryNode NaryNode Nav Policy Tree Rep BinRep NaryRep EditSpec User World Kinds TreeSpec TreeOps TreeBin TreeNary TreeFacts
  Matcher OptSpec MatchUser MatchFacts MatchMain Star StarFacts StarLemmas StarSpec Examples Examples2 PropStar PropStarResult.

(** May be absent altogether: an [opt] or a [star] all of whose children may. *)
Fixpoint may_be_absent {V} (u : spat V) : bool :=
  match u with
  | SOne _ _ => false
  | SOpt _ _ cs => forallb may_be_absent cs
  | SStar _ _ cs => forallb may_be_absent cs
  | SCpt p => may_be_absent p
  end.
(** The number of [cpt] in a pattern. *)
Fixpoint cpts {V} (u : spat V) : nat :=
  match u with
  | SOne _ cs => list_sum (map cpts cs)
  | SOpt _ _ cs => list_sum (map cpts cs)
  | SStar _ _ cs => list_sum (map cpts cs)
  | SCpt p => S (cpts p)
  end.

Section Empty.
  Context {V : Type}.
  (** No matcher has a node. *)
  Fixpoint blank (s : xstate) : Prop := match s with XSNil => True | XS m _ f n => m = None /\ blank f /\ blank n end.
  Lemma blank_reset s : blank (xreset s).
  Proof. induction s as [|m c f IHf n IHn]; cbn; auto. Qed.
  Lemma blank_matched s : blank s -> xs_matched s = None.
  Proof. destruct s; [reflexivity|]. intros (-> & _). reflexivity. Qed.
  Lemma blank_first s : blank s -> blank (xs_first s).
  Proof. destruct s; [exact id|]. intros (_ & H & _). exact H. Qed.
  Lemma blank_next s : blank s -> blank (xs_next s).
  Proof. destruct s; [exact id|]. intros (_ & _ & H). exact H. Qed.

  Lemma null_absent (u : spat V) : forall w ns, xmatches_null w (xbuild u ns) = may_be_absent u && (if w then xmatches_null true ns else true).
  Proof.
    assert (Hcs : forall cs, Forall (fun u : spat V => forall w ns, xmatches_null w (xbuild u ns) = may_be_absent u && (if w then xmatches_null true ns else true)) cs ->
      xmatches_null true (foldr xbuild XNil cs) = forallb may_be_absent cs).
    { induction 1 as [|c cs Hc _ IH]; [reflexivity|]. cbn [foldr forallb]. rewrite Hc, IH. reflexivity. }
    induction u as [vm cs IH|q vm cs IH|q vm cs IH|p IH] using spat_ind'; intros w ns; cbn [xbuild xmatches_null may_be_absent]; [reflexivity| | |].
    - rewrite (Hcs cs IH). reflexivity.
    - rewrite (Hcs cs IH). reflexivity.
    - rewrite IH, andb_true_r. reflexivity.
  Qed.
  Lemma empty_node {Nd} (im : node_impl V Nd) F (h : gmap addr Nd) : 0 < F -> forall (u : spat V) s it cb cut, si_cur it = None -> blank s ->
    exists s' i' cut', xsearch_node F im h (xbuild u XNil) s it cb cut = Ok (may_be_absent u, s', i', cut') /\ blank s'.
  Proof.
    intros HF u. induction u as [vm cs _|q vm cs _|q vm cs _|p IH] using spat_ind'; intros s it cb cut Hi Hs.
    4: { rewrite xbuild_eq, xsearch_node_eq. unfold xnode, xthis. cbn [kind_of subs foldr].
         destruct (IH (xs_first s) it (match cb with NoCb => NoCb | _ => AckCb end) cut Hi (blank_first s Hs)) as (s' & i' & cut' & E & Hb).
         change (foldr xbuild XNil [p]) with (xbuild p XNil). rewrite E. cbn [mbind res_bind may_be_absent]. rewrite (blank_matched s Hs), (blank_matched s' Hb).
         destruct (may_be_absent p); cbn [negb]; eexists _, _, _; (split; [reflexivity|]); cbn; auto using blank_next. }
    all: match goal with |- context [xbuild ?u0 XNil] => pose proof (null_absent u0 false XNil) as Hn; pose proof (xbuild_eq u0 XNil) as Hu; set (b := may_be_absent u0) in * end;
      rewrite andb_true_r in Hn; rewrite Hu in Hn |- *; rewrite xsearch_node_eq; unfold xnode, xthis; cbn [kind_of] in *;
      destruct F as [|n]; [lia|]; cbn [xloop]; rewrite Hi, Hn; rewrite (blank_matched s Hs).
    - destruct b; cbn [xprefers_null mbind res_bind negb]; eexists _, _, _; (split; [reflexivity|]); cbn; auto using blank_first, blank_next.
    - destruct (xprefers_null _) eqn:Ep.
      + assert (b = true) as ->. { destruct q; try discriminate. rewrite <- Hn. exact Ep. } cbn [mbind res_bind negb]. eexists _, _, _. split; [reflexivity|]. cbn. auto using blank_first, blank_next.
      + destruct b; cbn [mbind res_bind negb]; eexists _, _, _; (split; [reflexivity|]); cbn; auto using blank_first, blank_next.
    - destruct (xprefers_null _) eqn:Ep.
      + assert (b = true) as ->. { destruct q; try discriminate. rewrite <- Hn. exact Ep. } cbn [mbind res_bind negb]. eexists _, _, _. split; [reflexivity|]. cbn. auto using blank_first, blank_next.
      + destruct b; cbn [mbind res_bind negb]; eexists _, _, _; (split; [reflexivity|]); cbn; auto using blank_first, blank_next.
  Qed.
  Lemma empty_search {Nd} (im : node_impl V Nd) F (h : gmap addr Nd) (u : spat V) x : 0 < F -> xp_pat x = xbuild u XNil ->
    exists x', xsearch F im x h None = Ok (may_be_absent u, x') /\ xp_pat x' = xp_pat x /\ xp_found x' = xp_found x || may_be_absent u /\ blank (xp_state x').
  Proof.
    intros HF Hx. unfold xsearch. change (get_instance F (tree_nav im h) Fixed None None) with (Ok (Iter Fixed None None [] None)). cbn [mbind res_bind]. rewrite Hx.
    destruct (empty_node im F h HF u (xreset (xp_state x)) (SIt (Iter Fixed None None [] None) Plain) NoCb None eq_refl (blank_reset _)) as (s' & i' & cut' & E & Hb).
    rewrite E. cbn [mbind res_bind]. eexists. split; [reflexivity|]. auto.
  Qed.
  Lemma blank_result {Nd} (im : node_impl V Nd) F al like p s (h : gmap addr Nd) : xs_matched s = None -> xresult F im al like p s h = Ok (None, h).
  Proof. intros H. destruct p as [|k vm fc ns]; [reflexivity|]. cbn [xresult]. rewrite H. reflexivity. Qed.
  Lemma blank_captures (p : xpat V) : forall s, blank s -> Forall (fun ps => xs_matched (snd ps) = None) (xcaptures p s).
  Proof.
    induction p as [|k vm fc IHf ns IHn]; intros s Hs; [constructor|]. cbn [xcaptures]. apply Forall_app_2; [|apply Forall_app_2; auto using blank_first, blank_next].
    destruct k; constructor; [exact (blank_matched s Hs)|constructor].
  Qed.
  Lemma captures_count (u : spat V) : forall ns s, length (xcaptures (xbuild u ns) s) = cpts u + length (xcaptures ns (xs_next s)).
  Proof.
    assert (Hcs : forall cs, Forall (fun u : spat V => forall ns s, length (xcaptures (xbuild u ns) s) = cpts u + length (xcaptures ns (xs_next s))) cs ->
      forall s, length (xcaptures (foldr xbuild XNil cs) s) = list_sum (map cpts cs)).
    { induction 1 as [|c cs Hc _ IH]; intros s; [reflexivity|]. cbn [foldr map]. rewrite Hc, IH. reflexivity. }
    induction u as [vm cs IH|q vm cs IH|q vm cs IH|p IH] using spat_ind'; intros ns s; cbn [xbuild xcaptures cpts app length]; rewrite ?app_length; try (rewrite (Hcs cs IH); reflexivity).
    rewrite IH. cbn [xcaptures length]. lia.
  Qed.
End Empty.

(** The search ends, and succeeds exactly if nothing in the pattern is required,
    whatever the pattern object was used for before. *)
Theorem C88_search :
  forall (V Nd : Type) (im : node_impl V Nd) (F : nat) (h : gmap addr Nd) (u : spat V) (x : xpattern),
  0 < F -> xp_pat x = xbuild u XNil -> exists x', xsearch F im x h None = Ok (may_be_absent u, x').
Proof. intros V Nd im F h u x HF Hx. destruct (empty_search im F h u x HF Hx) as (x' & E & _). eauto. Qed.
Print Assumptions C88_search.
Section Assign.
  Context {V Nd : Type} {EV : EqDecision V}.
  Variable F : nat.
  Variable im : node_impl V Nd.
  Variable al : allocator Nd.
  Variable like : gmap addr Nd -> ptr -> ptr -> ptr -> res (gmap addr Nd).
  Variable K : kind_data V Nd.
  Hypothesis HK : tree_kind V EV Nd im K.
  Hypothesis HFW : (N.of_nat F <= W64)%N.
  Lemma empty_result w M i c h u (x x' : xpattern) b :
    consistent K w M -> size (w_heap w) < F -> M !! i = Some c -> xp_pat x = xbuild u XNil -> xsearch F im x h None = Ok (b, x') ->
    if xp_found x || b
    then exists w', consistent K w' (<[i := cnil K]> M) /\ (caches K w M -> caches K w' (<[i := cnil K]> M)) /\
      xassign_result F im al like x' w i = Ret () w' /\ forall k, k < cpts u -> xassign_mark F im al like x' (S k) w i = Ret () w'
    else xassign_result F im al like x' w i = Throw w /\ forall k, xassign_mark F im al like x' (S k) w i = Throw w.
  Proof using All.
    intros Hw HF Hi Hx Hsearch.
    destruct (empty_search im F h u x ltac:(lia) Hx) as (x2 & E & Hp & Hf & Hb). rewrite E in Hsearch. injection Hsearch as <- <-.
    unfold xassign_result, xassign_mark. rewrite Hf. destruct (xp_found x || may_be_absent u) eqn:Ef; [|split; reflexivity].
    destruct (assign_none F im al K HK HFW w M i c Hw HF Hi) as (w' & Ea & Hw' & Hc').
    exists w'. split; [exact Hw'|]. split; [exact Hc'|]. cbn [negb]. split.
    - rewrite blank_result by (apply blank_matched, Hb). cbn [mbind res_bind]. rewrite Ea. reflexivity.
    - intros k Hk. replace (S k - 1) with k by lia. pose proof (captures_count u XNil (xp_state x2)) as Hl. rewrite <- Hx, <- Hp in Hl. cbn [xcaptures length] in Hl.
      destruct (nth_error (xcaptures (xp_pat x2) (xp_state x2)) k) as [[p s]|] eqn:En; [|apply nth_error_None in En; lia].
      pose proof (blank_captures (xp_pat x2) _ Hb) as Hall. rewrite Forall_forall in Hall. pose proof (Hall _ (proj2 (elem_of_list_In _ _) (nth_error_In _ _ En))) as Hm. cbn in Hm.
      rewrite blank_result by exact Hm. cbn [mbind res_bind]. rewrite Ea. reflexivity.
  Qed.
End Assign.

(** Afterwards the result and every mark are empty, if any search succeeded so
    far; otherwise both throw. *)
Theorem C88_result_nary :
  forall (V : Type) (EV : EqDecision V) (F : nat) (al : allocator (nnode V)), (N.of_nat F <= W64)%N ->
  forall (w : world (nnode V)) (M : gmap tid (option (rose (addr * V)))) (i : tid) (c : (option (rose (addr * V))))
    (h : gmap addr (nnode V)) (u : spat V) (x x' : xpattern) (b : bool),
  consistent (nary_kind V) w M -> size (w_heap w) < F -> M !! i = Some c ->
  xp_pat x = xbuild u XNil -> xsearch F (nary_impl V) x h None = Ok (b, x') ->
  let result := xassign_result F (nary_impl V) al (n_assign_child_like F) x' w i in
  let mark k := xassign_mark F (nary_impl V) al (n_assign_child_like F) x' (S k) w i in
  if xp_found x || b
  then exists w', consistent (nary_kind V) w' (<[i := None]> M) /\ (caches (nary_kind V) w M -> caches (nary_kind V) w' (<[i := None]> M)) /\
    result = Ret () w' /\ forall k, k < cpts u -> mark k = Ret () w'
  else result = Throw w /\ forall k, mark k = Throw w.
Proof.
  intros V EV F al HFW w M i c h u x x' b Hw HF Hi Hx Hs.
  exact (empty_result F (nary_impl V) al (n_assign_child_like F) (nary_kind V) (nary_tree_kind V EV) HFW w M i c h u x x' b Hw HF Hi Hx Hs).
Qed.
Print Assumptions C88_result_nary.
Theorem C88_result_binary :
  forall (V : Type) (EV : EqDecision V) (F : nat) (al : allocator (bnode V)), (N.of_nat F <= W64)%N ->
  forall (w : world (bnode V)) (M : gmap tid (bin (addr * V))) (i : tid) (c : (bin (addr * V)))
    (h : gmap addr (bnode V)) (u : spat V) (x x' : xpattern) (b : bool),
  consistent (binary_kind V) w M -> size (w_heap w) < F -> M !! i = Some c ->
  xp_pat x = xbuild u XNil -> xsearch F (binary_impl V) x h None = Ok (b, x') ->
  let result := xassign_result F (binary_impl V) al b_assign_child_like x' w i in
  let mark k := xassign_mark F (binary_impl V) al b_assign_child_like x' (S k) w i in
  if xp_found x || b
  then exists w', consistent (binary_kind V) w' (<[i := BLeaf]> M) /\ (caches (binary_kind V) w M -> caches (binary_kind V) w' (<[i := BLeaf]> M)) /\
    result = Ret () w' /\ forall k, k < cpts u -> mark k = Ret () w'
  else result = Throw w /\ forall k, mark k = Throw w.
Proof.
  intros V EV F al HFW w M i c h u x x' b Hw HF Hi Hx Hs.
  exact (empty_result F (binary_impl V) al b_assign_child_like (binary_kind V) (binary_tree_kind V EV) HFW w M i c h u x x' b Hw HF Hi Hx Hs).
Qed.
Print Assumptions C88_result_binary.

(** *** Patterns without star (Matcher.v) *)
Fixpoint opt_absent {V} (u : upat V) : bool :=
  match u with UOne _ _ => false | UOpt _ _ cs => forallb opt_absent cs | UCpt p => opt_absent p end.
Section Plain.
  Context {V : Type}.
  Lemma null_opt (u : upat V) : forall w ns, matches_null w (build u ns) = opt_absent u && (if w then matches_null true ns else true).
  Proof.
    assert (Hcs : forall cs, Forall (fun u : upat V => forall w ns, matches_null w (build u ns) = opt_absent u && (if w then matches_null true ns else true)) cs ->
      matches_null true (foldr build PNil cs) = forallb opt_absent cs).
    { induction 1 as [|c cs Hc _ IH]; [reflexivity|]. cbn [foldr forallb]. rewrite Hc, IH. reflexivity. }
    induction u as [vm cs IH|q vm cs IH|p IH] using upat_ind'; intros w ns; cbn [build matches_null opt_absent]; [reflexivity| |].
    - rewrite (Hcs cs IH). reflexivity.
    - rewrite IH, andb_true_r. reflexivity.
  Qed.
  Lemma empty_plain {Nd} (im : node_impl V Nd) F (h : gmap addr Nd) : 0 < F -> forall (u : upat V) it, it_cur it = None ->
    exists s' i', search_node F im h (build u PNil) MSNil it = Ok (opt_absent u, s', i') /\ ms_matched s' = None.
  Proof.
    intros HF u. induction u as [vm cs _|q vm cs _|p IH] using upat_ind'; intros it Hi.
    3: { cbn [build]. rewrite search_unfold. cbn [ms_first ms_matched]. destruct (IH it Hi) as (s' & i' & E & Hm). rewrite E. cbn [mbind res_bind opt_absent].
         destruct (opt_absent p); cbn [negb search_node mbind res_bind]; eexists _, _; (split; [reflexivity|]); [exact Hm|reflexivity]. }
    all: match goal with |- context [build ?u0 PNil] => pose proof (null_opt u0 false PNil) as Hn; set (b := opt_absent u0) in * end;
      rewrite andb_true_r in Hn; cbn [build] in Hn |- *; rewrite search_unfold; destruct F as [|n]; [lia|]; cbn [loop]; rewrite Hi, Hn; cbn [ms_matched ms_first ms_next].
    - destruct b; cbn [prefers_null mbind res_bind negb search_node]; eexists _, _; (split; [reflexivity|reflexivity]).
    - destruct (prefers_null _) eqn:Ep.
      + assert (b = true) as ->. { destruct q; try discriminate. rewrite <- Hn. exact Ep. } cbn [mbind res_bind negb search_node]. eexists _, _. split; reflexivity.
      + destruct b; cbn [mbind res_bind negb search_node]; eexists _, _; (split; [reflexivity|reflexivity]).
  Qed.
End Plain.
Theorem C88_plain :
  forall (V : Type) (EV : EqDecision V) (F : nat) (al : allocator (nnode V)), (N.of_nat F <= W64)%N ->
  forall (w : world (nnode V)) (M : gmap tid (option (rose (addr * V)))) (i : tid) (c : option (rose (addr * V)))
    (h : gmap addr (nnode V)) (u : upat V) (x : pattern),
  consistent (nary_kind V) w M -> size (w_heap w) < F -> M !! i = Some c -> p_pat x = build u PNil ->
  exists x', search F (nary_impl V) x h None = Ok (opt_absent u, x') /\
    if p_found x || opt_absent u
    then exists w', consistent (nary_kind V) w' (<[i := None]> M) /\ (caches (nary_kind V) w M -> caches (nary_kind V) w' (<[i := None]> M)) /\
      assign_result F (nary_impl V) al (n_assign_child_like F) x' w i = Ret () w'
    else assign_result F (nary_impl V) al (n_assign_child_like F) x' w i = Throw w.
Proof.
  intros V EV F al HFW w M i c h u x Hw HF Hi Hx. unfold search.
  change (get_instance F (tree_nav (nary_impl V) h) Fixed None None) with (Ok (Iter Fixed None None [] None)). cbn [mbind res_bind]. rewrite Hx. unfold reset.
  destruct (empty_plain (nary_impl V) F h ltac:(lia) u (Iter Fixed None None [] None) eq_refl) as (s' & i' & E & Hm). rewrite E. cbn [mbind res_bind].
  eexists. split; [reflexivity|]. unfold assign_result. cbn [p_found p_pat p_state]. destruct (p_found x || opt_absent u); [|reflexivity].
  destruct (assign_none F (nary_impl V) al (nary_kind V) (nary_tree_kind V EV) HFW w M i c Hw HF Hi) as (w' & Ea & Hw' & Hc').
  exists w'. split; [exact Hw'|]. split; [exact Hc'|]. cbn [negb].
  replace (result F (nary_impl V) al (n_assign_child_like F) (build u PNil) s' (w_heap w)) with (Ok (None : ptr, w_heap w)).
  - cbn [mbind res_bind]. rewrite Ea. reflexivity.
  - destruct u; cbn [build result]; rewrite Hm; reflexivity.
Qed.
Print Assumptions C88_plain.

(** *** Cases met *)
(** [star(any)(opt(any), cpt(opt(any)))] is found in the empty tree, and so is
    [opt(5)]; [opt(any)(opt(any), one(2))] is not. *)
Definition ex_maybe : spat nat := SStar QDefault (fun _ => true) [SOpt QReluctant (fun _ => true) []; SCpt (SOpt QGreedy (fun _ => true) [])].
Example C88_used : consistent (nary_kind nat) ex_two ex_twoM /\ ex_twoM !! 1%positive = Some (Some (ex_shp 1 3)) /\
  may_be_absent ex_maybe = true /\ cpts ex_maybe = 1 /\ (exists x', xsearch 100 (nary_impl nat) (make_xpattern (xbuild ex_maybe XNil)) ∅ None = Ok (true, x')) /\
  may_be_absent (SOpt QDefault (fun _ => true) [SOpt QDefault (fun _ => true) []; SOne (fun v => v =? 2) []]) = false /\
  opt_absent (UOpt QDefault (fun v : nat => v =? 5) []) = true.
Proof.
  split; [apply ex_two_ok|]. split; [reflexivity|]. split; [reflexivity|]. split; [reflexivity|]. split; [|split; reflexivity].
  apply (C88_search nat _ (nary_impl nat) 100 ∅ ex_maybe); [lia|reflexivity].
Qed.
(** A pattern object that matched before finds nothing left over: its result is
    empty now. *)
Example C88_again : exists x x' w', xsearch 100 (nary_impl nat) (make_xpattern (xbuild ex_maybe XNil)) (w_heap ex_two) (Some 1%positive) = Ok (true, x) /\
  xsearch 100 (nary_impl nat) x (w_heap ex_two) None = Ok (true, x') /\
  xassign_result 100 (nary_impl nat) (first_fit _) (n_assign_child_like 100) x' ex_two 1%positive = Ret () w' /\
  t_root <$> w_trees w' !! 1%positive = Some None.
Proof.
  destruct (xsearch 100 (nary_impl nat) (make_xpattern (xbuild ex_maybe XNil)) (w_heap ex_two) (Some 1%positive)) as [[b x]|e] eqn:E; [|vm_compute in E; discriminate].
  assert (b = true) as -> by (vm_compute in E; congruence). assert (Hx : xp_pat x = xbuild ex_maybe XNil) by (vm_compute in E; injection E as <-; reflexivity).
  destruct (C88_search nat _ (nary_impl nat) 100 (w_heap ex_two) ex_maybe x ltac:(lia) Hx) as [x' E'].
  pose proof (C88_result_nary nat _ 100 (first_fit _) ltac:(vm_compute; discriminate) ex_two ex_twoM 1%positive (Some (ex_shp 1 3)) (w_heap ex_two) ex_maybe x x' true
    ex_two_ok ltac:(vm_compute; lia) eq_refl Hx E') as Hr. cbv zeta in Hr. rewrite orb_true_r in Hr. destruct Hr as (w' & Hw' & _ & Er & _).
  exists x, x', w'. split; [reflexivity|]. split; [exact E'|]. split; [exact Er|]. clear -Hw'.
  destruct (w_trees w' !! 1%positive) as [t|] eqn:Et.
  - destruct (wo_tree _ _ _ _ _ Hw' 1%positive t None Et (lookup_insert _ _ _)) as (H & _). cbn. f_equal. exact H.
  - exfalso. assert (is_Some (w_trees w' !! 1%positive)) as [? Hs] by (apply (wo_live _ _ _ _ _ Hw'); rewrite lookup_insert; eexists; reflexivity). congruence.
Qed.
