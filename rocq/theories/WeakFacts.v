(** WeakFacts.v: the search of any pattern ends without touching an invalid node. *)
From Verif Require Import Base Spec MatchSpec StructNode BinaryNode NaryNode Nav Policy Tree Rep RoseFacts NavFacts
  BinRep NaryRep Iter IterTrees IterMain EditSpec Matcher OptSpec MatchUser MatchFacts MatchWalk.

Section Safe.
  Context {V Nd : Type}.
  Variable F : nat.
  Variable im : node_impl V Nd.
  Variable h : gmap addr Nd.
  Notation ops := (ni_ops im h).
  Notation mknav := (tree_nav im h).
  Notation search_node := (search_node F im h).
  (** The nodes of a tree. *)
  Variable ok : addr -> Prop.
  Definition okp (p : ptr) : Prop := match p with None => True | Some a => ok a end.
  Inductive rank : addr -> nat -> Prop :=
  | Rank_end a : op_next ops (Some a) = Ok None -> rank a 0
  | Rank_step a b n : op_next ops (Some a) = Ok (Some b) -> ok b -> rank b n -> rank a (S n).
  Hypothesis Hval : forall a, ok a -> exists v, ni_value im h (Some a) = Ok v.
  Hypothesis Hfirst : forall a, ok a -> exists p, op_first ops (Some a) = Ok p /\ okp p.
  Hypothesis Hparent : forall a, ok a -> exists p, op_parent ops (Some a) = Ok p /\ okp p.
  Hypothesis Hrank : forall a, ok a -> exists n, rank a n /\ S n < F.
  Hypothesis HF : 0 < F.

  Definition it_ok (it : iter) : Prop := (it_kind it = Fixed \/ it_kind it = Siblings) /\ okp (it_cur it).
  Fixpoint st_ok (s : mstate) : Prop := match s with MSNil => True | MS m c n => okp m /\ st_ok c /\ st_ok n end.
  Lemma st_matched s : st_ok s -> okp (ms_matched s).
  Proof. destruct s; [exact (fun _ => I)|]. intros (H & _). exact H. Qed.
  Lemma st_first s : st_ok s -> st_ok (ms_first s).
  Proof. destruct s; [exact (fun _ => I)|]. intros (_ & H & _). exact H. Qed.
  Lemma st_next s : st_ok s -> st_ok (ms_next s).
  Proof. destruct s; [exact (fun _ => I)|]. intros (_ & _ & H). exact H. Qed.

  Lemma make_ok k p r : k = Fixed \/ k = Siblings -> okp p -> exists it, get_instance F mknav k p r = Ok it /\ it_ok it /\ it_cur it = p.
  Proof.
    intros Hk Hp. unfold get_instance.
    assert (exists r', fix_navigator_root mknav k p r = Ok r') as [r' E].
    { unfold fix_navigator_root. destruct r; [eauto|]. destruct Hk as [-> | ->]; [eauto|]. destruct p as [a|]; [|eauto].
      destruct (Hparent a Hp) as (q & Eq & _). cbn [tree_nav node_navigator nav_parent]. unfold base_unless_root. cbn [base_is_root ptr_eqb].
      change (base_is_root None (Some a)) with false. cbn iota. rewrite Eq. cbn. eauto. }
    rewrite E. cbn [mbind res_bind]. destruct Hk as [-> | ->]; (eexists; split; [reflexivity|]); cbn; (split; [|reflexivity]); (split; [cbn; auto|exact Hp]).
  Qed.
  Lemma children_ok it a : it_ok it -> it_cur it = Some a -> exists it', children_iter F im h it = Ok it' /\ it_ok it'.
  Proof.
    intros [Hk Hc] E. rewrite E in Hc. unfold children_iter, do_move, it_other_policy. rewrite E.
    destruct (make_ok (it_kind it) (Some a) None Hk Hc) as (i1 & E1 & [Hk1 _] & Hc1). rewrite E1. cbn [mbind res_bind].
    destruct (Hfirst a Hc) as (p & Ep & Hp). rewrite Hc1. cbn [tree_nav node_navigator nav_first]. rewrite Ep. cbn [mbind res_bind].
    destruct (make_ok (it_kind i1) p (it_root i1) Hk1 Hp) as (i2 & E2 & [Hk2 _] & Hc2). rewrite E2. cbn [mbind res_bind].
    destruct (make_ok Siblings (it_cur i2) (it_root i2) (or_intror eq_refl)) as (i3 & E3 & H3 & _); [rewrite Hc2; exact Hp|].
    exists i3. auto.
  Qed.
  (** How often an iterator can be advanced. *)
  Definition left_over (it : iter) (n : nat) : Prop :=
    match it_cur it with None => True | Some a => match it_kind it with Fixed => 0 < n | _ => exists r, rank a r /\ r < n end end.
  Lemma incr_ok it n : it_ok it -> left_over it (S n) -> it_cur it <> None -> exists it', it_incr F mknav it = Ok it' /\ it_ok it' /\ left_over it' n.
  Proof.
    intros [Hk Hc] Hl Hne. unfold it_incr. unfold left_over in Hl. destruct (it_cur it) as [a|]; [|congruence].
    destruct Hk as [Hk|Hk]; rewrite Hk in Hl |- *; cbn [increment_impl].
    - eexists. split; [reflexivity|]. split; [split; [left; exact Hk|exact I]|exact I].
    - destruct Hl as (r & Hr & Hlt). cbn [tree_nav node_navigator nav_next]. unfold base_unless_root. destruct (base_is_root _ _).
      + eexists. split; [reflexivity|]. split; [split; [right; exact Hk|exact I]|exact I].
      + destruct Hr as [a E|a b r E Hb Hr]; rewrite E; cbn [mbind res_bind]; (eexists; split; [reflexivity|]).
        * split; [split; [right; exact Hk|exact I]|exact I].
        * split; [split; [right; exact Hk|exact Hb]|]. unfold left_over. cbn. rewrite Hk. exists r. split; [exact Hr|lia].
  Qed.
  Lemma left_ok it : it_ok it -> exists n, n < F /\ left_over it n.
  Proof.
    intros [Hk Hc]. unfold left_over. destruct (it_cur it) as [a|]; [|exists 0; auto].
    destruct (Hrank a Hc) as (r & Hr & Hlt). destruct Hk as [Hk|Hk]; rewrite Hk; exists (S r); split; try lia. exists r. auto.
  Qed.

  Definition safe (r : res (bool * mstate)) : Prop := exists b sc, r = Ok (b, sc) /\ st_ok sc.
  Lemma loop_safe try null : (forall sc i a, st_ok sc -> it_ok i -> it_cur i = Some a -> safe (try sc i)) ->
    forall n k m sc begin i, st_ok sc -> okp m -> it_ok begin -> it_ok i -> left_over i k -> k < n ->
    exists b m' sc' i', loop F im h try null n m sc begin i = Ok (b, m', sc', i') /\ okp m' /\ st_ok sc' /\ it_ok i'.
  Proof.
    intros Ht. induction n as [|n IH]; intros k m sc begin i Hsc Hm Hb Hi Hl Hk; [lia|]. cbn [loop].
    destruct (it_cur i) as [a|] eqn:E.
    - destruct (Ht sc i a Hsc Hi E) as (b & sc' & E1 & Hsc'). rewrite E1. cbn [mbind res_bind].
      destruct k as [|k]; [exfalso; unfold left_over in Hl; rewrite E in Hl; destruct (it_kind i); try destruct Hl as (? & _ & Hl); lia|].
      destruct (incr_ok i k Hi Hl ltac:(congruence)) as (i' & E2 & Hi' & Hl'). rewrite E2. cbn [mbind res_bind]. destruct b.
      + eexists _, _, _, _. split; [reflexivity|]. split; [rewrite <- E; apply Hi|]. auto.
      + apply (IH k); auto. lia.
    - destruct null; eexists _, _, _, _; (split; [reflexivity|]); auto.
  Qed.
  Theorem search_safe p : forall s it, st_ok s -> it_ok it -> exists b s' it', search_node p s it = Ok (b, s', it') /\ st_ok s' /\ it_ok it'.
  Proof.
    induction p as [|k vm fc IHf ns IHn]; intros s it Hs Hi.
    { eexists _, _, _. split; [reflexivity|]. auto. }
    assert (Hchild : forall sc i, st_ok sc -> it_ok i -> safe (child F im h fc sc i)).
    { intros sc i Hsc Hit. unfold child. destruct (IHf sc i Hsc Hit) as (b & s' & i' & E & Hs' & _). rewrite E. exists b, s'. auto. }
    assert (Hother : forall i a, it_ok i -> it_cur i = Some a -> exists i', it_other_policy F mknav i Fixed = Ok i' /\ it_ok i').
    { intros i a [_ Hc] E. unfold it_other_policy. destruct (make_ok Fixed (it_cur i) (it_root i) (or_introl eq_refl) Hc) as (i' & E' & H & _). eauto. }
    assert (Himpl : forall sc i a, st_ok sc -> it_ok i -> it_cur i = Some a -> safe (impl F im h k vm fc sc i)).
    { intros sc i a Hsc Hit E. unfold impl. rewrite E. destruct (Hval a) as (v & Ev). { destruct Hit as [_ Hc]. rewrite E in Hc. exact Hc. }
      rewrite Ev. cbn [mbind res_bind].
      destruct (children_ok i a Hit E) as (ic & Ec & Hic). destruct (Hother i a Hit E) as (io & Eo & Hio). rewrite Ec, Eo. cbn [mbind res_bind].
      destruct (Hchild sc ic Hsc Hic) as (b & sc' & E1 & Hsc').
      destruct k as [|q|].
      - destruct (negb (vm v)); [eexists _, _; split; [reflexivity|exact Hsc]|]. apply Hchild; assumption.
      - destruct (negb (vm v)).
        + destruct (child_may_steal fc); [apply Hchild; assumption|eexists _, _; split; [reflexivity|exact Hsc]].
        + rewrite E1. cbn [mbind res_bind]. destruct (_ && _); [apply Hchild; assumption|eexists _, _; split; [reflexivity|exact Hsc']].
      - destruct (negb (vm v)); [eexists _, _; split; [reflexivity|exact Hsc]|]. apply Hchild; assumption. }
    rewrite search_unfold.
    assert (Hthis : exists b m sc i,
      (match k with
       | MCapture => '(b, sc, i) ← search_node fc (ms_first s) it; Ok (b, if b : bool then ms_matched sc else ms_matched s, sc, i)
       | _ => if prefers_null (PN k vm fc ns) then Ok (true, ms_matched s, ms_first s, it)
              else loop F im h (impl F im h k vm fc) (matches_null false (PN k vm fc ns)) F (ms_matched s) (ms_first s) it it
       end) = Ok (b, m, sc, i) /\ okp m /\ st_ok sc /\ it_ok i).
    { pose proof (st_first _ Hs) as Hf. pose proof (st_matched _ Hs) as Hm. destruct (left_ok it Hi) as (n & Hn & Hl).
      pose proof (loop_safe (impl F im h k vm fc) (matches_null false (PN k vm fc ns)) Himpl F n (ms_matched s) (ms_first s) it it Hf Hm Hi Hi Hl Hn) as (b & m & sc & i & E & H1 & H2 & H3).
      destruct k as [|q|].
      1,2: destruct (prefers_null _); [eexists _, _, _, _; split; [reflexivity|]; auto|eexists _, _, _, _; split; [exact E|]; auto].
      destruct (IHf (ms_first s) it Hf Hi) as (b' & s' & i' & E' & Hs' & Hi'). rewrite E'. cbn [mbind res_bind].
      eexists _, _, _, _. split; [reflexivity|]. split; [destruct b'; [apply st_matched, Hs'|exact Hm]|]. auto. }
    destruct Hthis as (b & m & sc & i & E & Hm & Hsc & Hii). rewrite E. cbn [mbind res_bind].
    destruct b; cbn [negb]; [|eexists _, _, _; split; [reflexivity|]; split; [cbn; auto using st_next|exact Hii]].
    destruct (IHn (ms_next s) i (st_next _ Hs) Hii) as (b2 & sn & i2 & E2 & Hsn & Hi2). rewrite E2. cbn [mbind res_bind].
    destruct b2; [eexists _, _, _; split; [reflexivity|]; split; [cbn; auto|exact Hi2]|].
    destruct (_ && _); [|eexists _, _, _; split; [reflexivity|]; split; [cbn; auto|exact Hi2]].
    unfold it_other_node. destruct (make_ok (it_kind i2) m (it_root i2) (proj1 Hi2) Hm) as (i3 & E3 & Hi3 & _). rewrite E3. cbn [mbind res_bind].
    destruct (IHn MSNil i3 I Hi3) as (b3 & sn' & i4 & E4 & Hsn' & Hi4). rewrite E4. cbn [mbind res_bind].
    eexists _, _, _. split; [reflexivity|]. split; [cbn; auto|exact Hi4].
  Qed.
End Safe.

(** The hypotheses, of a whole tree. *)
Section Tree.
  Context {V Nd : Type}.
  Variable F : nat.
  Variable im : node_impl V Nd.
  Variable h : gmap addr Nd.
  Notation ops := (ni_ops im h).
  Variable t : rose (addr * V).
  Hypothesis Hops : ops_ok ops (rose_map fst t).
  Hypothesis Hv : forall x, x ∈ preorder t -> ni_value im h (Some (fst x)) = Ok (snd x).
  Hypothesis HF : rsize t < F.
  Hypothesis Hrp : op_parent ops (Some (raddr t)) = Ok None.
  Hypothesis Hrn : op_next ops (Some (raddr t)) = Ok None.
  Definition node_of (a : addr) : Prop := a ∈ preorder (rose_map fst t).

  Lemma pre_fst : preorder (rose_map fst t) = map fst (preorder t).
  Proof. clear. induction t as [a cs IH] using rose_ind'. cbn. f_equal. induction IH as [|c cs Hc _ IH]; cbn; [reflexivity|]. rewrite map_app, Hc, IH. reflexivity. Qed.
  Lemma label_fst : label (rose_map fst t) = raddr t.
  Proof. destruct t. reflexivity. Qed.
  Lemma size_fst : rsize (rose_map fst t) = rsize t.
  Proof. rewrite <- !length_preorder, pre_fst, map_length. reflexivity. Qed.
  Lemma head_in (cs : list (rose addr)) a : head_label cs = Some a -> a ∈ flat_map preorder cs.
  Proof. destruct cs as [|[x l] cs]; [discriminate|]. cbn. intros [= ->]. left. Qed.

  Lemma tree_safe (p : pat V) (root : ptr) : okp node_of root ->
    exists b s it, search_node F im h p MSNil (Iter Fixed root root [] root) = Ok (b, s, it) /\ st_ok node_of s.
  Proof.
    intros Hr. destruct (search_safe F im h node_of) with (p := p) (s := @MSNil) (it := Iter Fixed root root [] root) as (b & s & it & E & Hs & _).
    - intros a Ha. unfold node_of in Ha. rewrite pre_fst in Ha. apply elem_of_list_fmap in Ha as (x & -> & Hx). exists (snd x). apply Hv, Hx.
    - intros a Ha. apply elem_position in Ha as (c & [b ds] & Ep & <-). unfold node_of. rewrite <- Ep in *. apply ops_ok_plug in Hops as [Hs _].
      apply ops_ok_unfold in Hs as (H & _). cbn [label]. exists (head_label ds). split; [exact H|]. destruct (head_label ds) as [x|] eqn:Eh; [|exact I].
      cbn. rewrite preorder_plug. apply head_in in Eh. set_solver +Eh.
    - intros a Ha. apply elem_position in Ha as (c & s & Ep & <-). unfold node_of. destruct c as [|[[ls b] rs] c].
      + cbn in Ep. subst s. rewrite label_fst. exists None. split; [exact Hrp|exact I].
      + rewrite <- Ep in *. apply ops_ok_plug in Hops as (_ & H & _). exists (Some b). split; [exact H|]. cbn. rewrite preorder_plug. cbn. set_solver +.
    - intros a Ha. apply elem_position in Ha as (c & s & Ep & <-). destruct c as [|[[ls b] rs] c].
      + cbn in Ep. subst s. rewrite label_fst. exists 0. split; [constructor; exact Hrn|]. pose proof (rsize_pos t). lia.
      + assert (Hlen : S (length rs) < F).
        { pose proof size_fst as Hsz. rewrite <- Ep in Hsz. cbn [plug] in Hsz. pose proof (ctx_length_size c (Rose b (ls ++ s :: rs))) as Hc.
          change (rsize (Rose b (ls ++ s :: rs))) with (S (list_sum (map rsize (ls ++ s :: rs)))) in Hc.
          pose proof (length_children (ls ++ s :: rs)) as Hl. rewrite app_length in Hl. cbn in Hl. lia. }
        exists (length rs). split; [|lia]. clear Hlen. revert ls s Ep. induction rs as [|r rs IH]; intros ls s Ep.
        * rewrite <- Ep in Hops. apply ops_ok_plug in Hops as (_ & _ & _ & H & _). constructor. exact H.
        * pose proof Hops as Hops'. rewrite <- Ep in Hops'. apply ops_ok_plug in Hops' as (_ & _ & _ & H & _).
          apply Rank_step with (b := label r); [exact H| |].
          { unfold node_of. rewrite <- Ep. cbn [plug]. rewrite preorder_plug. destruct r as [x l]. cbn [label].
            apply elem_of_app. right. apply elem_of_app. left. cbn. right. apply elem_of_flat_map. exists (Rose x l). split; [set_solver +|left]. }
          apply (IH (ls ++ [s]) r). rewrite <- Ep. cbn [plug]. rewrite <- app_assoc. reflexivity.
    - lia.
    - exact I.
    - split; [left; reflexivity|exact Hr].
    - exists b, s, it. auto.
  Qed.
End Tree.
