(** Stand.v: iterators standing at a node: creation, and [update] when the node is
    replaced, for any navigator that describes an ordered tree. *)
From Verif Require Import Base Spec StructNode BinaryNode NaryNode Nav Policy Tree RoseFacts RowFacts
  NavFacts BranchFacts Orders PolicyFacts User World.

Section Stand.
  Context {V Nd : Type}.
  Variable F : nat.
  Variable im : node_impl V Nd.
  Implicit Types (h : gmap addr Nd) (R : rose addr) (c : ctx addr).

  Lemma rose_instance h R k c s : nav_ok (tree_nav im h (Some (label R))) R -> rsize R < F -> plug c s = R ->
    exists it, get_instance F (tree_nav im h) k (Some (label s)) (Some (label R)) = Ok it /\
      it_kind it = k /\ it_cur it = Some (label s) /\ it_root it = Some (label R) /\
      (k = BreadthFirst -> it_open it = bfs_queue c s).
  Proof.
    intros Hok HF Hp. unfold get_instance, fix_navigator_root. cbn [is_null andb mbind res_bind].
    destruct k; cbn [mbind res_bind];
      try (eexists; split; [reflexivity|]; repeat (split; [reflexivity|]); discriminate).
    rewrite (manage_ok _ R Hok F ltac:(lia) c s Hp). cbn [mbind res_bind].
    eexists; split; [reflexivity|]; repeat (split; [reflexivity|]). reflexivity.
  Qed.
  Lemma stands_queue h R c s pos : nav_ok (tree_nav im h (Some (label R))) R -> rsize R < F -> plug c s = R ->
    stands F im h (Some (label R)) (label s) pos <->
    it_cur pos = Some (label s) /\ it_root pos = Some (label R) /\
    (it_kind pos = BreadthFirst -> it_open pos = bfs_queue c s).
  Proof.
    intros Hok HF Hp. destruct (rose_instance h R BreadthFirst c s Hok HF Hp) as (it & Hit & _ & _ & _ & Ho).
    unfold stands, iterator_at. split.
    - intros (H1 & H2 & H3). split; [exact H1|]. split; [exact H2|]. intros Hk. destruct (H3 Hk) as (it' & Hit' & ->).
      rewrite Hit in Hit'. injection Hit' as <-. apply Ho. reflexivity.
    - intros (H1 & H2 & H3). split; [exact H1|]. split; [exact H2|]. intros Hk. exists it. split; [exact Hit|].
      rewrite (Ho eq_refl). apply H3, Hk.
  Qed.
  Lemma rose_stands h h' R c s pos : nav_ok (tree_nav im h (Some (label R))) R -> nav_ok (tree_nav im h' (Some (label R))) R ->
    rsize R < F -> plug c s = R -> stands F im h (Some (label R)) (label s) pos -> stands F im h' (Some (label R)) (label s) pos.
  Proof.
    intros H1 H2 HF Hp Hs. apply (stands_queue h' R c s pos H2 HF Hp). apply (stands_queue h R c s pos H1 HF Hp). exact Hs.
  Qed.

  (** [update] pops the entry of the old node's children. *)
  Lemma rose_pop h R c s pos (rep fcr : ptr) :
    nav_ok (tree_nav im h (Some (label R))) R -> rsize R < F -> plug c s = R ->
    stands F im h (Some (label R)) (label s) pos ->
    (forall b, rep = Some b -> op_first (ni_ops im h) (Some b) = Ok fcr) ->
    exists pos', it_update im h pos (Some (label s)) rep = Ok pos' /\
      it_kind pos' = it_kind pos /\ it_root pos' = it_root pos /\ it_cur pos' = rep /\
      (rep <> None -> it_kind pos = BreadthFirst -> it_open pos' = opt_ptr (ctx_next c) ++ bfs_rest c ++ opt_ptr fcr).
  Proof.
    intros Hok HF Hp Hs Hrep. apply (stands_queue h R c s pos Hok HF Hp) in Hs as (Hc & Hr & Ho).
    unfold it_update. rewrite Hr, Hc, ptr_eqb_true.
    destruct (it_kind pos) eqn:Ek;
      try (eexists; split; [reflexivity|]; repeat (split; [reflexivity|]); discriminate).
    rewrite (no_first _ _ Hok c s Hp). cbn [mbind res_bind]. rewrite (Ho eq_refl). unfold bfs_queue, fcs. cbn [flat_map].
    assert (Hopen : exists open1, (match head_label (children s) with
        | Some _ => b ← back (opt_ptr (ctx_next c) ++ bfs_rest c ++ (match children s with [] => [] | f :: _ => [Some (label f)] end) ++ []);
                    p ← nav_parent (tree_nav im h (Some (label R))) b;
                    _ ← guard_res (ptr_eqb p (Some (label s)));
                    pop_back (opt_ptr (ctx_next c) ++ bfs_rest c ++ (match children s with [] => [] | f :: _ => [Some (label f)] end) ++ [])
        | None => Ok (opt_ptr (ctx_next c) ++ bfs_rest c ++ (match children s with [] => [] | f :: _ => [Some (label f)] end) ++ [])
        end) = Ok open1 /\ open1 = opt_ptr (ctx_next c) ++ bfs_rest c).
    { destruct s as [x cs]. cbn [children]. destruct cs as [|f fs]; cbn [head_label app].
      - rewrite app_nil_r. eauto.
      - rewrite !app_assoc, back_app_last. cbn [mbind res_bind].
        rewrite (no_parent _ _ Hok (([], x, fs) :: c) f Hp). cbn [mbind res_bind ctx_parent label].
        rewrite ptr_eqb_true. cbn [guard_res mbind res_bind]. rewrite pop_back_app_last. eauto. }
    destruct Hopen as (open1 & Hop & ->). rewrite Hop. cbn [mbind res_bind].
    destruct rep as [b|].
    - cbn [tree_nav node_navigator nav_first]. rewrite (Hrep b eq_refl). cbn [mbind res_bind].
      eexists; split; [reflexivity|]. repeat (split; [reflexivity|]). intros _ _. cbn [it_open].
      destruct fcr; cbn [opt_ptr]; rewrite ?app_assoc, ?app_nil_r; reflexivity.
    - cbn [mbind res_bind]. eexists; split; [reflexivity|]. repeat (split; [reflexivity|]). congruence.
  Qed.

  Lemma rose_update h R c s u pos :
    nav_ok (tree_nav im h (Some (label R))) R -> rsize R < F -> plug c s = R ->
    stands F im h (Some (label R)) (label s) pos ->
    op_first (ni_ops im h) (Some (label u)) = Ok (head_label (children u)) ->
    exists pos', it_update im h pos (Some (label s)) (Some (label u)) = Ok pos' /\
      it_kind pos' = it_kind pos /\ it_root pos' = it_root pos /\ it_cur pos' = Some (label u) /\
      (c <> [] -> forall h', nav_ok (tree_nav im h' (Some (label R))) (plug c u) -> rsize (plug c u) < F ->
        stands F im h' (Some (label R)) (label u) pos').
  Proof.
    intros Hok HF Hp Hs Hu.
    destruct (rose_pop h R c s pos (Some (label u)) (head_label (children u)) Hok HF Hp Hs) as (pos' & Hup & Hk & Hr & Hc & Ho).
    { intros b [=<-]. exact Hu. }
    exists pos'. split; [exact Hup|]. split; [exact Hk|]. split; [exact Hr|]. split; [exact Hc|]. intros Hne h' Hok' HF'.
    assert (Hl : label (plug c u) = label R).
    { rewrite <- Hp. destruct c as [|f c _] using rev_ind; [congruence|]. rewrite !plug_app. destruct f as [[ls a] rs]. reflexivity. }
    rewrite <- Hl in Hok' |- *. apply (stands_queue h' _ c u pos' Hok' HF' eq_refl).
    destruct Hs as (_ & Hrt & _). split; [exact Hc|]. split; [congruence|]. intros Hb. rewrite (Ho ltac:(discriminate)) by congruence.
    unfold bfs_queue, fcs. cbn [flat_map]. destruct (children u); reflexivity.
  Qed.
End Stand.
