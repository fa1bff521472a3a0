(** TreeOps2.v: insertion and erasure keep worlds consistent (generic in the
    node type, see TreeOps.v). *)
From Verif Require Import Base Spec StructNode BinaryNode NaryNode Nav Policy Tree User Rep NavFacts World NaryOps2 Kinds TreeSpec TreeOps.

(** Operations on tree [i] do not look at tree [j]. *)
Definition out_set {Nd A} (j : tid) (t : tree_rec) (o : out (world Nd) A) : out (world Nd) A :=
  match o with Ret a w => Ret a (set_tree w j t) | Throw w => Throw (set_tree w j t) | Bad e => Bad e end.
Definition res_set {Nd A} (j : tid) (t : tree_rec) (m : res (A * world Nd)) : res (A * world Nd) :=
  match m with Ok (a, w) => Ok (a, set_tree w j t) | Err e => Err e end.
Definition resw_set {Nd} (j : tid) (t : tree_rec) (m : res (world Nd)) : res (world Nd) :=
  match m with Ok w => Ok (set_tree w j t) | Err e => Err e end.

Section Frame.
  Context {V Nd : Type}.
  Variable F : nat.
  Variable im : node_impl V Nd.
  Variables i j : tid.
  Variable t : tree_rec.
  Hypothesis Hne : i <> j.

  Lemma get_set (w : world Nd) : get_tree (set_tree w j t) i = get_tree w i.
  Proof. unfold get_tree, set_tree. cbn. rewrite lookup_insert_ne by congruence. reflexivity. Qed.
  Lemma set_comm (w : world Nd) h t' :
    set_tree (set_heap (set_tree w j t) h) i t' = set_tree (set_tree (set_heap w h) i t') j t.
  Proof. unfold set_tree, set_heap. cbn. rewrite insert_commute by exact Hne. reflexivity. Qed.
  Lemma assign_set w p s r : assign F im (set_tree w j t) i p s r = resw_set j t (assign F im w i p s r).
  Proof.
    unfold assign. rewrite get_set. destruct (get_tree w i) as [ti|e]; [|reflexivity]. cbn [mbind res_bind].
    change (w_heap (set_tree w j t)) with (w_heap w).
    destruct (match t_root ti with None => Ok (w_heap w) | Some _ => deallocate im F (w_heap w) (t_root ti) end); [|reflexivity].
    cbn [mbind res_bind resw_set]. rewrite set_comm. reflexivity.
  Qed.
  Lemma drop_set w p : drop F im (set_tree w j t) p = resw_set j t (drop F im w p).
  Proof.
    unfold drop. change (w_heap (set_tree w j t)) with (w_heap w).
    destruct (deallocate im F (w_heap w) p); reflexivity.
  Qed.
  Lemma replace_node_set w p q s r : replace_node F im (set_tree w j t) i p q s r = res_set j t (replace_node F im w i p q s r).
  Proof.
    unfold replace_node. destruct p as [a|]; [|reflexivity]. rewrite get_set. destruct (get_tree w i) as [ti|e]; [|reflexivity].
    cbn [mbind res_bind]. destruct (guard_res _) as [[]|]; [|reflexivity]. cbn [mbind res_bind].
    change (w_heap (set_tree w j t)) with (w_heap w).
    destruct (ni_replace_with im F (w_heap w) (Some a) q) as [h|]; [|reflexivity]. cbn [mbind res_bind].
    destruct (ptr_eqb _ _); [cbn; rewrite set_comm; reflexivity|].
    destruct (op_first (ni_ops im h) (Some a)) as [[?|]|]; cbn; rewrite ?set_comm; reflexivity.
  Qed.
  Lemma modify_set w pos p s r : modify_subtree F im (set_tree w j t) i pos p s r = out_set j t (modify_subtree F im w i pos p s r).
  Proof.
    unfold modify_subtree. rewrite get_set. destruct (get_tree w i) as [ti|e]; [|reflexivity]. cbn [res_out].
    change (w_heap (set_tree w j t)) with (w_heap w).
    destruct (it_cur pos) as [a|].
    - destruct (_ ← guard_res _; it_update im (w_heap w) pos (Some a) p) as [pos'|]; [|reflexivity]. cbn [res_out].
      destruct (ptr_eqb _ _).
      + rewrite assign_set. destruct (assign F im w i p s r); reflexivity.
      + rewrite replace_node_set. destruct (replace_node F im w i (Some a) p s r) as [[old w1]|]; [|reflexivity].
        cbn [res_set mbind res_bind]. rewrite drop_set. destruct (drop F im w1 old); reflexivity.
    - destruct (t_root ti); [reflexivity|]. rewrite assign_set. destruct (assign F im w i p s r); reflexivity.
  Qed.
  Lemma add_child_set first w pos p s r :
    add_child F im first (set_tree w j t) i pos p s r = out_set j t (add_child F im first w i pos p s r).
  Proof.
    unfold add_child. destruct (it_cur pos) as [a|].
    - change (w_heap (set_tree w j t)) with (w_heap w). destruct (ni_children im (w_heap w) (Some a)) as [k|]; [|reflexivity].
      cbn [res_out]. destruct (_ && _).
      + rewrite drop_set. destruct (drop F im w p); reflexivity.
      + destruct (if first then _ else _) as [[? h]|]; [|reflexivity]. cbn [mbind res_bind]. rewrite get_set.
        destruct (get_tree w i) as [ti|]; [|reflexivity]. cbn [mbind res_bind].
        destruct (op_first (ni_ops im h) (Some a)) as [fc|]; [|reflexivity]. cbn [mbind res_bind].
        destruct (match fc with Some _ => _ | None => _ end) as [n|]; [|reflexivity]. cbn [mbind res_bind].
        destruct (get_instance _ _ _ _ _); [|reflexivity]. cbn. rewrite set_comm. reflexivity.
    - rewrite drop_set. destruct (drop F im w p); reflexivity.
  Qed.
End Frame.

Section Ops2.
  Context {V Nd : Type}.
  Variable F : nat.
  Variable im : node_impl V Nd.
  Variable al : allocator Nd.
  Variable K : kind_data V Nd.
  Hypothesis KO : kind_ok F im al K.
  Notation heap := (gmap addr Nd).
  Notation C := (C K).
  Notation croot := (croot K).
  Notation caddrs := (caddrs K).
  Notation crep := (crep K).
  Notation cnil := (cnil K).
  Notation cvals := (cvals K).
  Notation holds := (holds croot caddrs crep).
  Notation heap_ok := (heap_ok caddrs crep).
  Notation built := (built caddrs crep).
  Notation len c := (length (caddrs c)).
  Notation csubst := (csubst K).
  Notation csub := (csub K).

  Let nd := k_nd _ _ _ _ KO.
  Let dm := k_dom _ _ _ _ KO.
  Let ext := k_ext _ _ _ _ KO.

  (** The attributes of the tree object after node [a] of [c] was replaced by a
      tree announced with size [s] and arity [r]. *)
  Definition replaced_rec (t : tree_rec) (c : C) (a : addr) (u : C) (s r : N) : tree_rec :=
    if decide (croot c = Some a) then TreeRec (croot u) s r (croot u)
    else if decide (cdeg K a c = 0) then TreeRec (croot c) (wadd (t_size t) (wsub s 1)) 0 (croot c)
    else TreeRec (croot c) 0 0 (croot c).

  Lemma drop_ok w M E c : holds w M (c :: E) -> len c < F ->
    exists w', drop F im w (croot c) = Ok w' /\ holds w' M E /\ w_trees w' = w_trees w.
  Proof.
    intros [H1 H2] HF. destruct (dealloc_ok F im al K KO (w_heap w) c (E ++ elems M)) as (h' & Hd & Hok); [exact H2|exact HF|].
    unfold drop. rewrite Hd. cbn. eexists. split; [reflexivity|]. split; [|reflexivity]. split; [exact H1|exact Hok].
  Qed.

  (** The common part of modify_subtree and erase_subtree at a node that is not
      the root. *)
  Lemma replace_drop_ok w M E i c t u a s r : holds w M (u :: E) -> M !! i = Some c -> w_trees w !! i = Some t ->
    a ∈ caddrs c -> croot c <> Some a -> crepl K a u c -> len c < F ->
    exists w', ('(old, w1) ← replace_node F im w i (Some a) (croot u) s r; drop F im w1 old) = Ok w' /\
      holds w' (<[i := csubst a u c]> M) E /\
      w_trees w' = <[i := replaced_rec t c a u s r]> (w_trees w).
  Proof.
    intros H Hi Ht Ha Hr Hok HF.
    pose proof (holds_unfold _ _ _ _ _ _ _ _ H Hi) as Hu. cbn [app] in Hu.
    destruct (holds_get _ _ _ _ _ _ _ _ H Hi) as (t' & Ht' & Hg & Hrt & Hnt). rewrite Ht in Ht'. injection Ht' as <-.
    assert (Hc : crep (w_heap w) c) by (eapply heap_ok_head, Hu).
    assert (Hcu : crep (w_heap w) u) by (eapply heap_ok_second, Hu).
    assert (Hdis : forall x, x ∈ caddrs u -> x ∉ caddrs c).
    { intros x Hx Hxc. eapply heap_ok_disj; [exact Hu|exact Hxc|exact Hx]. }
    destruct (k_replace _ _ _ _ KO (w_heap w) c u a Hc Hcu Hdis Ha Hr Hok HF) as (h' & Hrep & H1 & H2 & Hfr).
    destruct (k_subst _ _ _ _ KO (w_heap w) c u a Hc Ha) as (Hsr & _ & Hs). destruct (Hs Hr) as [Hs1 Hs2].
    assert (Hnew : heap_ok h' (csubst a u c :: csub a c :: E ++ elems (delete i M))).
    { eapply (heap_ok_change croot caddrs crep dm ext); [exact Hu|exact H1|exact H2|exact Hs2|exact Hfr]. }
    destruct (k_deg_sub _ _ _ _ KO (w_heap w) c a Hc Ha) as [Hdeg _].
    assert (Hain : a ∈ caddrs (csub a c)) by (eapply (k_root _ _ _ _ KO), Hsr).
    destruct (k_deg _ _ _ _ KO h' (csub a c) a H2 Hain) as (fc & Hfc & Hfc0 & _). rewrite Hdeg in Hfc0.
    assert (Hlen : len (csub a c) < F).
    { eapply Nat.le_lt_trans; [|exact HF]. pose proof (Permutation_length Hs2) as Hp. rewrite !app_length in Hp.
      apply NoDup_submseteq_length || idtac.
      assert (Hincl : forall x, x ∈ caddrs (csub a c) -> x ∈ caddrs c ++ caddrs u).
      { intros x Hx. rewrite <- Hs2. apply elem_of_app. auto. }
      assert (Hsub : caddrs (csub a c) ⊆+ caddrs c); [|apply submseteq_length, Hsub].
      apply NoDup_submseteq; [eapply nd, H2|]. intros x Hx. destruct (k_post_sub _ _ _ _ KO (w_heap w) c a Hc Ha) as (l1 & l2 & l & Hp1 & _).
      rewrite <- (k_post_perm _ _ _ _ KO c), Hp1, (k_post_perm _ _ _ _ KO (csub a c)). set_solver +Hx. }
    unfold replace_node. rewrite Hg. cbn [mbind res_bind]. rewrite Hrt.
    destruct (croot c) as [rt|] eqn:Ert.
    2:{ apply (k_null _ _ _ _ KO) in Ert. subst c. rewrite (nil_addrs F im al K KO) in Ha. apply elem_of_nil in Ha as []. }
    cbn [is_null negb guard_res mbind res_bind]. rewrite Hrep. cbn [mbind res_bind].
    rewrite ptr_eqb_false by congruence. rewrite Hfc. cbn [mbind res_bind].
    set (t'' := match fc with
                | Some _ => TreeRec (Some rt) 0 0 (t_nav t)
                | None => TreeRec (Some rt) (wadd (t_size t) (wsub s 1)) 0 (t_nav t)
                end).
    assert (Ht'' : t'' = replaced_rec t c a u s r).
    { unfold t'', replaced_rec. rewrite decide_False by congruence. rewrite Hnt, Ert. destruct fc as [b|].
      - rewrite decide_False; [reflexivity|]. intros H0. apply Hfc0 in H0. discriminate.
      - rewrite decide_True; [reflexivity|]. apply Hfc0. reflexivity. }
    assert (Hholds : holds (set_tree (set_heap w h') i t'') (<[i := csubst a u c]> M) (csub a c :: E)).
    { pose proof (holds_edit _ _ _ _ _ _ i c (csubst a u c) h' H Hi) as Hed. rewrite Ert in Hed. specialize (Hed Hs1 (csub a c :: E)).
      eapply holds_cache with (c := csubst a u c).
      - apply Hed. intros _. exact Hnew.
      - apply lookup_insert.
      - rewrite Hs1. unfold t''. destruct fc; reflexivity.
      - rewrite Hs1. unfold t''. destruct fc; exact Hnt. }
    destruct (drop_ok _ _ _ _ Hholds Hlen) as (w' & Hd & Hh & Htr). rewrite Hsr in Hd.
    exists w'. split; [|split; [exact Hh|rewrite Htr, Ht''; reflexivity]].
    unfold t'' in Hd. destruct fc; exact Hd.
  Qed.

  Lemma modify_ok w M E i c t u a s r pos : holds w M (u :: E) -> M !! i = Some c -> w_trees w !! i = Some t ->
    a ∈ caddrs c -> stands F im (w_heap w) (croot c) a pos ->
    (croot c <> Some a -> crepl K a u c) -> len c < F ->
    exists pos' w', modify_subtree F im w i pos (croot u) s r = Ret pos' w' /\
      holds w' (<[i := csubst a u c]> M) E /\
      w_trees w' = <[i := replaced_rec t c a u s r]> (w_trees w) /\
      it_kind pos' = it_kind pos /\ it_root pos' = it_root pos /\ it_cur pos' = croot u /\
      (croot c <> Some a -> forall b, croot u = Some b -> len (csubst a u c) < F ->
         stands F im (w_heap w') (croot c) b pos').
  Proof.
    intros H Hi Ht Ha Hpos Hok HF.
    pose proof (holds_unfold _ _ _ _ _ _ _ _ H Hi) as Hu. cbn [app] in Hu.
    destruct (holds_get _ _ _ _ _ _ _ _ H Hi) as (t' & Ht' & Hg & Hrt & Hnt). rewrite Ht in Ht'. injection Ht' as <-.
    assert (Hc : crep (w_heap w) c) by (eapply heap_ok_head, Hu).
    assert (Hcu : crep (w_heap w) u) by (eapply heap_ok_second, Hu).
    destruct (k_update _ _ _ _ KO (w_heap w) c u a pos Hc Hcu Ha HF Hpos) as (pos' & Hup & Hk & Hr & Hcur & Hst).
    destruct (k_subst _ _ _ _ KO (w_heap w) c u a Hc Ha) as (_ & Hsr & _).
    destruct Hpos as (Hpc & _). unfold modify_subtree. rewrite Hg. cbn [res_out]. rewrite Hpc, Hrt.
    destruct (croot c) as [rt|] eqn:Ert.
    2:{ apply (k_null _ _ _ _ KO) in Ert. subst c. rewrite (nil_addrs F im al K KO) in Ha. apply elem_of_nil in Ha as []. }
    cbn [is_null negb guard_res mbind res_bind]. rewrite Hup. cbn [res_out].
    destruct (decide (Some a = Some rt)) as [Heq|Hne].
    - rewrite Heq, ptr_eqb_true. injection Heq as ->.
      destruct (assign_ok F im al K KO w M E i c u s r H Hi HF) as (w' & Hw & Hh & Htr). rewrite Hw. cbn.
      exists pos', w'. split; [reflexivity|]. destruct (Hsr eq_refl) as [_ ->]. split; [exact Hh|].
      split; [rewrite Htr; unfold replaced_rec; rewrite decide_True by exact Ert; reflexivity|].
      split; [exact Hk|]. split; [exact Hr|]. split; [exact Hcur|]. congruence.
    - rewrite ptr_eqb_false by exact Hne. assert (Hne' : croot c <> Some a) by congruence. assert (Hne'' : Some rt <> Some a) by congruence.
      destruct (replace_drop_ok w M E i c t u a s r H Hi Ht Ha Hne' (Hok Hne'') HF) as (w' & Hw & Hh & Htr).
      exists pos', w'.
      destruct (replace_node F im w i (Some a) (croot u) s r) as [[old w1]|]; [|discriminate]. cbn [mbind res_bind] in Hw |- *.
      destruct (drop F im w1 old) as [w2|]; [|discriminate]. cbn in Hw. injection Hw as <-. cbn.
      split; [reflexivity|]. split; [exact Hh|]. split; [exact Htr|]. split; [exact Hk|]. split; [exact Hr|]. split; [exact Hcur|].
      intros _ b Hb Hl. apply Hst; [exact Hne''|exact Hb| |exact Hl].
      eapply holds_rep; [exact Hh|apply lookup_insert].
  Qed.

  Lemma modify_empty_ok w M E i u s r pos : holds w M (u :: E) -> M !! i = Some cnil -> it_cur pos = None -> 0 < F ->
    exists w', modify_subtree F im w i pos (croot u) s r = Ret pos w' /\ holds w' (<[i := u]> M) E /\
      w_trees w' = <[i := TreeRec (croot u) s r (croot u)]> (w_trees w).
  Proof.
    intros H Hi Hpos HF. destruct (holds_get _ _ _ _ _ _ _ _ H Hi) as (t & Ht & Hg & Hrt & Hnt).
    destruct (assign_ok F im al K KO w M E i cnil u s r H Hi) as (w' & Hw & Hh & Htr).
    { rewrite (nil_addrs F im al K KO). exact HF. }
    exists w'. unfold modify_subtree. rewrite Hg. cbn [res_out]. rewrite Hpos, Hrt, (nil_root F im al K KO), Hw. auto.
  Qed.

  Lemma modify_throw w i t pos p s r : w_trees w !! i = Some t -> t_root t <> None -> it_cur pos = None ->
    modify_subtree F im w i pos p s r = Throw w.
  Proof.
    intros Ht Hr Hpos. unfold modify_subtree, get_tree. rewrite Ht. cbn [res_out]. rewrite Hpos.
    destruct (t_root t); [reflexivity|contradiction].
  Qed.

  (** *** Adding a child *)
  Notation cput := (cput K).
  Definition added_rec (first : bool) (t : tree_rec) (c : C) (a : addr) (u : C) (s r : N) : tree_rec :=
    let d := cdeg K a (cput first a u c) in
    TreeRec (croot c) (wadd (t_size t) s)
      (N.max r (N.max (t_arity t) (if decide (d = 0) then 1%N else szt d))) (croot c).

  Lemma add_child_ok first w M E i c t u a s r pos : holds w M (u :: E) -> M !! i = Some c -> w_trees w !! i = Some t ->
    a ∈ caddrs c -> it_cur pos = Some a -> ~ cfull K a c -> len c + len u < F ->
    exists pos' w', add_child F im first w i pos (croot u) s r = Ret pos' w' /\
      holds w' (<[i := cput first a u c]> M) E /\
      w_trees w' = <[i := added_rec first t c a u s r]> (w_trees w) /\
      it_kind pos' = it_kind pos /\ stands F im (w_heap w') (croot c) a pos'.
  Proof.
    intros H Hi Ht Ha Hpos Hfull HF.
    pose proof (holds_unfold _ _ _ _ _ _ _ _ H Hi) as Hu. cbn [app] in Hu.
    destruct (holds_get _ _ _ _ _ _ _ _ H Hi) as (t' & Ht' & Hg & Hrt & Hnt). rewrite Ht in Ht'. injection Ht' as <-.
    assert (Hc : crep (w_heap w) c) by (eapply heap_ok_head, Hu).
    assert (Hcu : crep (w_heap w) u) by (eapply heap_ok_second, Hu).
    assert (Hdis : forall x, x ∈ caddrs u -> x ∉ caddrs c).
    { intros x Hx Hxc. eapply heap_ok_disj; [exact Hu|exact Hxc|exact Hx]. }
    destruct (k_children _ _ _ _ KO (w_heap w) c a Hc Ha) as (k & Hk & Hk2).
    destruct (croot c) as [rt|] eqn:Ert.
    2:{ apply (k_null _ _ _ _ KO) in Ert. subst c. rewrite (nil_addrs F im al K KO) in Ha. apply elem_of_nil in Ha as []. }
    (* the heap after linking *)
    assert (Hlink : exists h', (if first then ni_prepend im F (w_heap w) (Some a) (croot u) else ni_append im F (w_heap w) (Some a) (croot u)) = Ok (croot u, h') /\
      crep h' (cput first a u c) /\ croot (cput first a u c) = Some rt /\ a ∈ caddrs (cput first a u c) /\ len (cput first a u c) < F /\
      holds (set_heap w h') (<[i := cput first a u c]> M) E).
    { unfold cput. destruct (croot u) as [b|] eqn:Eu.
      - destruct (k_add _ _ _ _ KO first (w_heap w) c u a b Hc Hcu Hdis Ha Hfull Eu) as (h' & Hl & H1 & Hfr & Hr & Hp & _); [lia|].
        exists h'. split; [exact Hl|]. split; [exact H1|]. rewrite Ert in Hr. split; [exact Hr|].
        split; [rewrite Hp; apply elem_of_app; auto|]. split; [rewrite Hp, app_length; exact HF|].
        pose proof (holds_edit _ _ _ _ _ _ i c (cadd K first a u c) h' H Hi) as Hed. rewrite Ert in Hed. apply (Hed Hr E).
        intros _.
        assert (Hn : heap_ok h' (cadd K first a u c :: cnil :: E ++ elems (delete i M))).
        { eapply (heap_ok_change croot caddrs crep dm ext); [exact Hu|exact H1|apply (nil_rep F im al K KO)| |exact Hfr].
          rewrite (nil_addrs F im al K KO), app_nil_r. exact Hp. }
        eapply heap_ok_perm in Hn; [|apply perm_swap]. apply heap_ok_empty in Hn;
          [exact Hn|apply (nil_addrs F im al K KO)|apply (nil_rep F im al K KO)].
      - exists (w_heap w). split; [apply (k_add_null _ _ _ _ KO)|]. split; [exact Hc|]. split; [exact Ert|]. split; [exact Ha|]. split; [lia|].
        rewrite insert_id by exact Hi. apply (k_null _ _ _ _ KO) in Eu. subst u.
        apply (holds_drop_nil F im al K KO) in H. destruct w; exact H. }
    destruct Hlink as (h' & Hl & Hrep & Hroot & Hain & Hlen & Hh).
    destruct (k_deg _ _ _ _ KO h' _ a Hrep Hain) as (fc & Hfc & Hfc0 & Hfc1).
    destruct (k_instance _ _ _ _ KO h' _ (it_kind pos) a rt Hrep Hain Hroot Hlen) as (it & Hit & Hik & Hic & Hir).
    unfold add_child. rewrite Hpos, Hk. cbn [res_out].
    destruct (ni_binary im && (k =? 2)%N) eqn:E2; [destruct Hfull; apply Hk2; reflexivity|].
    rewrite Hl. cbn [mbind res_bind]. rewrite Hg. cbn [mbind res_bind]. rewrite Hfc. cbn [mbind res_bind].
    assert (Hloc : (match fc with Some _ => k ← ni_following im h' fc; Ok (wadd k 1) | None => Ok 1%N end)
      = Ok (if decide (cdeg K a (cput first a u c) = 0) then 1%N else szt (cdeg K a (cput first a u c)))).
    { destruct fc as [b|].
      - destruct (Hfc1 b eq_refl) as (n & Hn & Hw). rewrite Hn. cbn. rewrite Hw, decide_False; [reflexivity|].
        intros H0. apply Hfc0 in H0. discriminate.
      - rewrite decide_True by (apply Hfc0; reflexivity). reflexivity. }
    rewrite Hloc. cbn [mbind res_bind]. rewrite Hnt, Hit. cbn.
    eexists it, _. split; [reflexivity|]. split; [|split; [|split; [exact Hik|]]].
    - eapply holds_cache; [exact Hh|apply lookup_insert|rewrite Hroot; exact Hrt|rewrite Hroot; reflexivity].
    - cbn. unfold added_rec. rewrite Hrt, Ert. reflexivity.
    - split; [exact Hic|]. split; [exact Hir|]. intros Hb. exists it. split; [|reflexivity].
      unfold iterator_at. rewrite Hik in Hb. rewrite Hb in Hit. exact Hit.
  Qed.

  Lemma add_child_throw first w M E i c u s r pos : holds w M (u :: E) -> M !! i = Some c -> len u < F ->
    it_cur pos = None \/ (exists a, it_cur pos = Some a /\ a ∈ caddrs c /\ cfull K a c) ->
    exists w', add_child F im first w i pos (croot u) s r = Throw w' /\ holds w' M E /\ w_trees w' = w_trees w.
  Proof.
    intros H Hi HF Hpos. destruct (drop_ok w M E u H HF) as (w' & Hd & Hh & Htr). exists w'.
    split; [|auto]. unfold add_child. destruct Hpos as [->|(a & -> & Ha & Hfull)].
    - rewrite Hd. reflexivity.
    - pose proof (holds_unfold _ _ _ _ _ _ _ _ H Hi) as Hu. cbn [app] in Hu.
      assert (Hc : crep (w_heap w) c) by (eapply heap_ok_head, Hu).
      destruct (k_children _ _ _ _ KO (w_heap w) c a Hc Ha) as (k & Hk & Hk2). rewrite Hk. cbn [res_out].
      rewrite (proj2 Hk2 Hfull), Hd. reflexivity.
  Qed.

  (** *** Erasing *)
  Lemma erase_subtree_ok w M E i c t a pos : holds w M E -> M !! i = Some c -> w_trees w !! i = Some t ->
    a ∈ caddrs c -> stands F im (w_heap w) (croot c) a pos ->
    (croot c <> Some a -> crepl K a cnil c) -> len c < F ->
    exists w', erase_subtree F im w i pos = Ret () w' /\
      holds w' (<[i := csubst a cnil c]> M) E /\
      w_trees w' = <[i := replaced_rec t c a cnil 0 0]> (w_trees w).
  Proof.
    intros H Hi Ht Ha Hpos Hok HF.
    pose proof (holds_unfold _ _ _ _ _ _ _ _ H Hi) as Hu.
    destruct (holds_get _ _ _ _ _ _ _ _ H Hi) as (t' & Ht' & Hg & Hrt & Hnt). rewrite Ht in Ht'. injection Ht' as <-.
    assert (Hc : crep (w_heap w) c) by (eapply heap_ok_head, Hu).
    destruct (k_update _ _ _ _ KO (w_heap w) c cnil a pos Hc (nil_rep F im al K KO _) Ha HF Hpos) as (pos' & Hup & _).
    destruct (k_subst _ _ _ _ KO (w_heap w) c cnil a Hc Ha) as (_ & Hsr & _).
    destruct Hpos as (Hpc & _). unfold erase_subtree. rewrite Hg. cbn [res_out]. rewrite Hpc, Hrt.
    rewrite (nil_root F im al K KO) in Hup.
    destruct (croot c) as [rt|] eqn:Ert.
    2:{ apply (k_null _ _ _ _ KO) in Ert. subst c. rewrite (nil_addrs F im al K KO) in Ha. apply elem_of_nil in Ha as []. }
    cbn [is_null negb guard_res mbind res_bind]. rewrite Hup. cbn [res_out].
    destruct (decide (Some a = Some rt)) as [Heq|Hne].
    - rewrite Heq, ptr_eqb_true. injection Heq as ->.
      destruct (clear_ok F im al K KO w M E i c H Hi HF) as (w' & Hw & Hh & Htr). rewrite Hw. cbn.
      exists w'. split; [reflexivity|]. destruct (Hsr eq_refl) as [_ ->]. split; [exact Hh|].
      rewrite Htr. unfold replaced_rec. rewrite decide_True by exact Ert. rewrite (nil_root F im al K KO). reflexivity.
    - rewrite ptr_eqb_false by exact Hne. assert (Hne' : croot c <> Some a) by congruence. assert (Hne'' : Some rt <> Some a) by congruence.
      destruct (replace_drop_ok w M E i c t cnil a 0 0 (holds_add_nil F im al K KO _ _ _ H) Hi Ht Ha Hne' (Hok Hne'') HF) as (w' & Hw & Hh & Htr).
      exists w'. rewrite (nil_root F im al K KO) in Hw.
      destruct (replace_node F im w i (Some a) None 0 0) as [[old w1]|]; [|discriminate]. cbn [mbind res_bind] in Hw |- *.
      destruct (drop F im w1 old) as [w2|]; [|discriminate]. cbn in Hw. injection Hw as <-. cbn.
      split; [reflexivity|]. split; [exact Hh|exact Htr].
  Qed.

  Lemma incr_post w h c a rt l1 l2 : crep h c -> len c < F -> croot c = Some rt -> cpost K c = l1 ++ a :: l2 ->
    it_incr F (tree_nav im h) (Iter PostOrder (Some a) (Some rt) w (Some a)) = Ok (Iter PostOrder (head l2) (Some rt) w (Some a)).
  Proof.
    intros Hc HF Hr Hp. unfold it_incr. cbn [it_cur it_root it_kind it_open increment_impl].
    pose proof (k_post _ _ _ _ KO h c l1 a l2 Hc HF Hp) as Hpost. rewrite Hr in Hpost. rewrite Hpost. reflexivity.
  Qed.

  Lemma erase_ok w M E i c t a pos : holds w M E -> M !! i = Some c -> w_trees w !! i = Some t ->
    a ∈ caddrs c -> it_cur pos = Some a -> it_root pos = croot c ->
    (croot c <> Some a -> crepl K a cnil c) -> len c < F ->
    exists it w', erase F im w i pos = Ret it w' /\
      holds w' (<[i := csubst a cnil c]> M) E /\
      w_trees w' = <[i := replaced_rec t c a cnil 0 0]> (w_trees w) /\
      it_kind it = PostOrder /\ it_root it = croot (csubst a cnil c) /\
      (croot c = Some a -> it_cur it = None) /\
      (croot c <> Some a -> forall l1 l2, cpost K c = l1 ++ a :: l2 -> it_cur it = head l2 /\
         exists b, head l2 = Some b /\ b ∈ caddrs (csubst a cnil c)).
  Proof.
    intros H Hi Ht Ha Hcur Hroot Hok HF.
    pose proof (holds_unfold _ _ _ _ _ _ _ _ H Hi) as Hu.
    assert (Hc : crep (w_heap w) c) by (eapply heap_ok_head, Hu).
    destruct (croot c) as [rt|] eqn:Ert.
    2:{ apply (k_null _ _ _ _ KO) in Ert. subst c. rewrite (nil_addrs F im al K KO) in Ha. apply elem_of_nil in Ha as []. }
    destruct (k_post_sub _ _ _ _ KO (w_heap w) c a Hc Ha) as (p1 & p2 & q & Hp & Hq & Hpn).
    assert (Hps : cpost K c = (p1 ++ q) ++ a :: p2) by (rewrite Hp, Hq, <- !app_assoc; reflexivity).
    assert (Hndp : NoDup (cpost K c)) by (rewrite (k_post_perm _ _ _ _ KO c); eapply nd, Hc).
    assert (Huniq : forall l1 l2, cpost K c = l1 ++ a :: l2 -> l2 = p2).
    { intros l1 l2 Hl. rewrite Hps in Hl. rewrite Hps in Hndp. clear -Hl Hndp.
      revert l1 Hl Hndp. generalize (p1 ++ q) as l0. induction l0 as [|x l0 IH]; intros [|y l1] Hl Hnd; cbn in *.
      - congruence.
      - injection Hl as -> ->. apply NoDup_cons in Hnd as [Hn _]. destruct Hn. apply elem_of_app. right. left.
      - injection Hl as -> <-. apply NoDup_cons in Hnd as [Hn _]. destruct Hn. apply elem_of_app. right. left.
      - injection Hl as -> Hl. apply NoDup_cons in Hnd as [_ Hnd]. eapply IH; eassumption. }
    destruct (erase_subtree_ok w M E i c t a (Iter PostOrder (Some a) (Some rt) [] (Some a)) H Hi Ht Ha) as (w' & He & Hh & Htr).
    { rewrite Ert. split; [reflexivity|]. split; [reflexivity|]. discriminate. }
    { rewrite Ert. exact Hok. } { exact HF. }
    unfold erase. rewrite Hcur, Hroot. change (get_instance F (tree_nav im (w_heap w)) PostOrder (Some a) (Some rt))
      with (Ok (Iter PostOrder (Some a) (Some rt) [] (Some a))). cbn [res_out].
    rewrite (incr_post [] (w_heap w) c a rt _ _ Hc HF Ert Hps). cbn [res_out]. rewrite He. cbn [out_bind].
    unfold get_tree. rewrite Htr, lookup_insert. cbn [mbind res_bind].
    destruct (k_subst _ _ _ _ KO (w_heap w) c cnil a Hc Ha) as (_ & Hsr & Hsn).
    unfold replaced_rec. rewrite Ert.
    destruct (decide (Some rt = Some a)) as [Heq|Hne].
    - (* the root was erased *)
      destruct (Hsr ltac:(congruence)) as [_ Hs]. cbn [tree_empty t_root]. rewrite (nil_root F im al K KO). cbn.
      eexists _, w'. split; [reflexivity|]. rewrite Htr in *. split; [exact Hh|].
      split; [unfold replaced_rec; rewrite decide_True by congruence; rewrite (nil_root F im al K KO); reflexivity|].
      split; [reflexivity|]. split; [rewrite Hs, (nil_root F im al K KO); reflexivity|]. split; [reflexivity|]. congruence.
    - destruct (Hsn ltac:(congruence)) as [Hs1 Hs2].
      assert (Hemp : tree_empty (if decide (cdeg K a c = 0) then TreeRec (Some rt) (wadd (t_size t) (wsub 0 1)) 0 (Some rt) else TreeRec (Some rt) 0 0 (Some rt)) = false).
      { destruct (decide (cdeg K a c = 0)); reflexivity. }
      rewrite Hemp. cbn. eexists _, w'. split; [reflexivity|]. rewrite Htr in *. split; [exact Hh|].
      split; [unfold replaced_rec; rewrite decide_False by congruence; rewrite Ert; reflexivity|].
      split; [reflexivity|]. split; [rewrite Hs1; cbn [it_root]; symmetry; exact Ert|]. split; [intros ?; congruence|].
      intros _ l1 l2 Hl. rewrite (Huniq l1 l2 Hl). split; [reflexivity|].
      (* the root follows a in post-order *)
      assert (Hin : rt ∈ cpost K (csubst a cnil c)).
      { rewrite (k_post_perm _ _ _ _ KO). apply (k_root _ _ _ _ KO). congruence. }
      rewrite Hpn in Hin by congruence.
      destruct p2 as [|b p2].
      { exfalso. (* the root is the last element of the post-order of c *)
        destruct (k_post_sub _ _ _ _ KO (w_heap w) c rt Hc (k_root _ _ _ _ KO c rt Ert)) as (r1 & r2 & r & Hr1 & Hr2 & _).
        destruct (k_subst _ _ _ _ KO (w_heap w) c cnil rt Hc (k_root _ _ _ _ KO c rt Ert)) as (_ & Hsr' & _).
        destruct (Hsr' Ert) as [Hcc _]. rewrite Hcc in Hr2. rewrite Hps in Hr2. apply app_inj_tail in Hr2 as [_ Hr2]. congruence. }
      exists b. split; [reflexivity|]. rewrite <- (k_post_perm _ _ _ _ KO), Hpn by congruence. apply elem_of_app. right. left.
  Qed.
End Ops2.
