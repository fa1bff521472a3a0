(** World.v: what it means that a world of tree objects is consistent: every
    live tree object refers to the root of a properly linked tree, no two trees
    share a node, and the allocated nodes are exactly the nodes of the live
    trees (nothing is leaked, nothing used is released).

    Generic in the node type: [C] is the type of the contents of a tree (labelled
    with addresses), [croot] its root pointer, [caddrs] its addresses and
    [crep h c] says that [c] is properly linked in heap [h]. *)
From Verif Require Import Base Spec StructNode BinaryNode NaryNode Nav Policy Tree User.

Section World.
  Context {Nd C : Type}.
  Variable croot : C -> ptr.
  Variable caddrs : C -> list addr.
  Variable crep : gmap addr Nd -> C -> Prop.

  (** [M] gives the contents of each live tree. *)
  Record world_ok (w : world Nd) (M : gmap tid C) : Prop := WorldOk {
    wo_live : forall i, is_Some (w_trees w !! i) <-> is_Some (M !! i);
    wo_tree : forall i t c, w_trees w !! i = Some t -> M !! i = Some c ->
      t_root t = croot c /\ t_nav t = croot c /\ crep (w_heap w) c;
    wo_disjoint : forall i j c d a, M !! i = Some c -> M !! j = Some d ->
      a ∈ caddrs c -> a ∈ caddrs d -> i = j;
    wo_owned : forall a, is_Some (w_heap w !! a) <-> exists i c, M !! i = Some c /\ a ∈ caddrs c
  }.
End World.

(** An iterator standing at node [a] of the tree or view with root node [root]:
    what every iterator obtained from begin, end, [++], [--] and conversions
    satisfies; a breadth-first iterator also carries its queue. *)
Definition stands {V Nd} (F : nat) (im : node_impl V Nd) (h : gmap addr Nd) (root : ptr) (a : addr) (pos : iter) : Prop :=
  it_cur pos = Some a /\ it_root pos = root /\
  (it_kind pos = BreadthFirst -> exists it, iterator_at F im h BreadthFirst (Some a) root = Ok it /\ it_open pos = it_open it).

(** Lists of contents that partition a heap; used in the proofs. *)
Section Heap.
  Context {Nd C : Type}.
  Variable croot : C -> ptr.
  Variable caddrs : C -> list addr.
  Variable crep : gmap addr Nd -> C -> Prop.
  Notation heap := (gmap addr Nd).

  Hypothesis k_nd : forall h c, crep h c -> NoDup (caddrs c).
  Hypothesis k_dom : forall h c a, crep h c -> a ∈ caddrs c -> is_Some (h !! a).
  Hypothesis k_ext : forall h h' c, (forall a, a ∈ caddrs c -> h' !! a = h !! a) -> crep h c -> crep h' c.

  Definition heap_ok (h : heap) (l : list C) : Prop :=
    Forall (crep h) l /\ NoDup (flat_map caddrs l) /\ forall a, is_Some (h !! a) <-> a ∈ flat_map caddrs l.
  (** [c] was built in [h], giving [h']. *)
  Definition built (h h' : heap) (c : C) : Prop :=
    crep h' c /\ (forall x, x ∈ caddrs c -> h !! x = None) /\ (forall x, x ∉ caddrs c -> h' !! x = h !! x).

  Lemma heap_ok_perm h l l' : Permutation l l' -> heap_ok h l -> heap_ok h l'.
  Proof.
    intros Hp (H1 & H2 & H3). assert (Hq : Permutation (flat_map caddrs l) (flat_map caddrs l')) by (apply Permutation_flat_map, Hp).
    split; [rewrite <- Hp; exact H1|]. split; [rewrite <- Hq; exact H2|].
    intros a. rewrite H3, Hq. reflexivity.
  Qed.
  Lemma heap_ok_in h l c : heap_ok h l -> c ∈ l -> crep h c.
  Proof. intros (H & _) Hc. rewrite Forall_forall in H. apply H, Hc. Qed.
  Lemma heap_ok_head h c l : heap_ok h (c :: l) -> crep h c.
  Proof. intros H. eapply heap_ok_in; [exact H|left]. Qed.
  Lemma heap_ok_second h c d l : heap_ok h (c :: d :: l) -> crep h d.
  Proof. intros H. eapply heap_ok_in; [exact H|right; left]. Qed.
  Lemma heap_ok_disj h c d l x : heap_ok h (c :: d :: l) -> x ∈ caddrs c -> x ∉ caddrs d.
  Proof.
    intros (_ & H & _) Hx Hd. cbn in H. apply NoDup_app in H as (_ & H & _). apply (H x Hx). apply elem_of_app. auto.
  Qed.
  Lemma heap_ok_rest h c l x d : heap_ok h (c :: l) -> x ∈ caddrs c -> d ∈ l -> x ∉ caddrs d.
  Proof.
    intros (_ & H & _) Hx Hd Hxd. cbn in H. apply NoDup_app in H as (_ & H & _). apply (H x Hx).
    apply elem_of_list_In, in_flat_map. exists d. rewrite <- !elem_of_list_In. auto.
  Qed.

  Lemma in_flat (l : list C) x : x ∈ flat_map caddrs l <-> exists d, d ∈ l /\ x ∈ caddrs d.
  Proof.
    rewrite elem_of_list_In, in_flat_map. split; intros (d & H1 & H2); exists d; rewrite !elem_of_list_In in *; auto.
  Qed.
  Lemma flat_in d (l : list C) x : d ∈ l -> x ∈ caddrs d -> x ∈ flat_map caddrs l.
  Proof. intros Hd Hx. apply elem_of_list_In, in_flat_map. exists d. rewrite <- !elem_of_list_In. auto. Qed.

  Lemma heap_ok_alloc h h' c l : heap_ok h l -> built h h' c -> heap_ok h' (c :: l).
  Proof.
    intros (H1 & H2 & H3) (Hc & Hnew & Hold). assert (Hout : forall x, x ∈ flat_map caddrs l -> x ∉ caddrs c).
    { intros x Hx Hxc. apply H3 in Hx. rewrite (Hnew x Hxc) in Hx. destruct Hx; discriminate. }
    split; [|split].
    - constructor; [exact Hc|]. rewrite Forall_forall in *. intros d Hd. eapply k_ext; [|apply H1, Hd].
      intros a Ha. apply Hold, Hout. eapply flat_in; eassumption.
    - cbn. apply NoDup_app. split; [eapply k_nd, Hc|]. split; [|exact H2]. intros x Hx Hx'. exact (Hout x Hx' Hx).
    - intros a. cbn. rewrite elem_of_app. split.
      + intros Ha. destruct (decide (a ∈ caddrs c)) as [Hi|Hi]; [left; exact Hi|]. right. apply H3. rewrite <- Hold; assumption.
      + intros [Ha|Ha]; [eapply k_dom; eassumption|]. rewrite Hold by (apply Hout, Ha). apply H3, Ha.
  Qed.

  Lemma heap_ok_free h h' c l : heap_ok h (c :: l) ->
    (forall x, h' !! x = if bool_decide (x ∈ caddrs c) then None else h !! x) -> heap_ok h' l.
  Proof.
    intros (H1 & H2 & H3) Hf. cbn in H2, H3. apply NoDup_app in H2 as (_ & Hd & H2). inversion H1 as [|? ? _ H1']; subst.
    assert (Hsame : forall x, x ∉ caddrs c -> h' !! x = h !! x).
    { intros x Hx. rewrite Hf, bool_decide_eq_false_2 by exact Hx. reflexivity. }
    split; [|split; [exact H2|]].
    - rewrite Forall_forall in *. intros d Hdl. eapply k_ext; [|apply H1', Hdl]. intros a Ha. apply Hsame. intros Hac.
      apply (Hd a Hac). eapply flat_in; eassumption.
    - intros a. destruct (decide (a ∈ caddrs c)) as [Hi|Hi].
      + rewrite Hf, bool_decide_eq_true_2 by exact Hi. split; [intros []; discriminate|]. intros Ha. destruct (Hd a Hi Ha).
      + rewrite Hsame, H3, elem_of_app by exact Hi. tauto.
  Qed.

  Lemma heap_ok_change h h' c u c' u' l : heap_ok h (c :: u :: l) -> crep h' c' -> crep h' u' ->
    Permutation (caddrs c' ++ caddrs u') (caddrs c ++ caddrs u) ->
    (forall x, x ∉ caddrs c -> x ∉ caddrs u -> h' !! x = h !! x) -> heap_ok h' (c' :: u' :: l).
  Proof.
    intros (H1 & H2 & H3) Hc Hu Hp Hsame. inversion H1 as [|? ? _ H1']; subst. inversion H1' as [|? ? _ H1'']; subst.
    assert (Hpp : Permutation (flat_map caddrs (c' :: u' :: l)) (flat_map caddrs (c :: u :: l))).
    { cbn. rewrite !app_assoc. apply Permutation_app_tail, Hp. }
    cbn in H2. rewrite app_assoc in H2. apply NoDup_app in H2 as (H2a & H2b & H2c).
    assert (Hout : forall d a, d ∈ l -> a ∈ caddrs d -> a ∉ caddrs c /\ a ∉ caddrs u).
    { intros d a Hd Ha. assert (a ∉ caddrs c ++ caddrs u) as Hn; [|rewrite elem_of_app in Hn; tauto].
      intros Hx. apply (H2b a Hx). eapply flat_in; eassumption. }
    split; [|split].
    - constructor; [exact Hc|constructor; [exact Hu|]]. rewrite Forall_forall in *. intros d Hd.
      eapply k_ext; [|apply H1'', Hd]. intros a Ha. apply Hsame; eapply Hout; eassumption.
    - rewrite Hpp. cbn. rewrite app_assoc. apply NoDup_app. auto.
    - intros a. rewrite Hpp. rewrite <- H3.
      destruct (decide (a ∈ caddrs c ++ caddrs u)) as [Hi|Hi].
      + assert (Hi' : a ∈ caddrs c' ++ caddrs u') by (rewrite Hp; exact Hi).
        split; intros _.
        * apply H3. cbn. rewrite app_assoc. apply elem_of_app. auto.
        * apply elem_of_app in Hi' as [Hi'|Hi']; eapply k_dom; [|exact Hi'| |exact Hi']; assumption.
      + rewrite elem_of_app in Hi. rewrite Hsame by tauto. reflexivity.
  Qed.

  Lemma heap_ok_empty h c l : caddrs c = [] -> crep h c -> heap_ok h (c :: l) <-> heap_ok h l.
  Proof.
    intros Hc Hr. unfold heap_ok. cbn [flat_map]. rewrite Hc. cbn [app]. split.
    - intros (H1 & H2). inversion H1; subst. auto.
    - intros (H1 & H2). auto.
  Qed.
  Lemma heap_ok_size h c l : heap_ok h l -> c ∈ l -> length (caddrs c) <= size h.
  Proof.
    intros (_ & Hnd & Hdom) Hc. rewrite <- (size_dom (D := gset addr)).
    transitivity (length (flat_map caddrs l)).
    - clear -Hc. induction l as [|d l IH]; [apply elem_of_nil in Hc as []|]. cbn. rewrite app_length.
      apply elem_of_cons in Hc as [->|Hc]; [lia|]. specialize (IH Hc). lia.
    - rewrite <- (size_list_to_set (C := gset addr)) by exact Hnd. apply subseteq_size.
      intros a Ha. apply elem_of_list_to_set in Ha. apply elem_of_dom, Hdom, Ha.
  Qed.
  Lemma heap_ok_size2 h c d l : heap_ok h (c :: d :: l) -> length (caddrs c) + length (caddrs d) <= size h.
  Proof.
    intros (_ & Hnd & Hdom). rewrite <- (size_dom (D := gset addr)), <- app_length.
    cbn in Hnd. rewrite app_assoc in Hnd. apply NoDup_app in Hnd as (Hnd & _ & _).
    rewrite <- (size_list_to_set (C := gset addr)) by exact Hnd. apply subseteq_size.
    intros a Ha. apply elem_of_list_to_set in Ha. apply elem_of_dom, Hdom. cbn. rewrite app_assoc. apply elem_of_app. auto.
  Qed.

  (** *** Worlds *)
  Definition elems (M : gmap tid C) : list C := map snd (map_to_list M).
  Definition links (w : world Nd) (M : gmap tid C) : Prop :=
    forall i, match w_trees w !! i, M !! i with
              | Some t, Some c => t_root t = croot c /\ t_nav t = croot c
              | None, None => True
              | _, _ => False
              end.
  (** The contents [M] of the trees, and loose trees [E] no tree object refers to. *)
  Definition holds (w : world Nd) (M : gmap tid C) (E : list C) : Prop :=
    links w M /\ heap_ok (w_heap w) (E ++ elems M).

  Lemma elems_lookup M i c : M !! i = Some c -> Permutation (elems M) (c :: elems (delete i M)).
  Proof.
    intros Hi. unfold elems. rewrite <- (insert_id M i c Hi) at 1. rewrite <- insert_delete_insert.
    rewrite map_to_list_insert by apply lookup_delete. reflexivity.
  Qed.
  Lemma elems_insert M i c : Permutation (elems (<[i := c]> M)) (c :: elems (delete i M)).
  Proof.
    unfold elems. rewrite <- insert_delete_insert.
    rewrite map_to_list_insert by apply lookup_delete. reflexivity.
  Qed.
  Lemma elems_new M i c : M !! i = None -> Permutation (elems (<[i := c]> M)) (c :: elems M).
  Proof. intros Hi. unfold elems. rewrite map_to_list_insert by exact Hi. reflexivity. Qed.
  Lemma elem_of_elems M c : c ∈ elems M <-> exists i, M !! i = Some c.
  Proof.
    unfold elems. rewrite elem_of_list_In, in_map_iff. split.
    - intros ([i d] & <- & Hin). exists i. apply elem_of_map_to_list, elem_of_list_In, Hin.
    - intros (i & Hi). exists (i, c). split; [reflexivity|]. apply elem_of_list_In, elem_of_map_to_list, Hi.
  Qed.

  Lemma NoDup_flat_map_inv (l : list (tid * C)) : NoDup (map fst l) -> NoDup (flat_map caddrs (map snd l)) ->
    forall i j c d a, (i, c) ∈ l -> (j, d) ∈ l -> a ∈ caddrs c -> a ∈ caddrs d -> i = j.
  Proof.
    induction l as [|[k e] l IH]; intros Hk Hnd i j c d a Hi Hj Hc Hd; [apply elem_of_nil in Hi as []|].
    cbn in Hk, Hnd. apply NoDup_cons in Hk as [_ Hk]. apply NoDup_app in Hnd as (_ & Hx & Hnd).
    assert (Hmem : forall m f, (m, f) ∈ l -> a ∈ caddrs f -> a ∈ flat_map caddrs (map snd l)).
    { intros m f Hm Hf. eapply flat_in; [|exact Hf]. apply elem_of_list_In. apply (in_map snd l (m, f)).
      apply elem_of_list_In, Hm. }
    apply elem_of_cons in Hi as [Hi|Hi]; apply elem_of_cons in Hj as [Hj|Hj].
    - congruence.
    - injection Hi as -> ->. destruct (Hx a Hc). eapply Hmem; eassumption.
    - injection Hj as -> ->. destruct (Hx a Hd). eapply Hmem; eassumption.
    - eapply IH; eassumption.
  Qed.

  Lemma NoDup_flat_map_intro (l : list (tid * C)) h : NoDup (map fst l) -> Forall (crep h) (map snd l) ->
    (forall i j c d a, (i, c) ∈ l -> (j, d) ∈ l -> a ∈ caddrs c -> a ∈ caddrs d -> i = j) ->
    NoDup (flat_map caddrs (map snd l)).
  Proof.
    induction l as [|[k e] l IH]; intros Hk Hr Hd; [constructor|]. cbn in *. apply NoDup_cons in Hk as [Hkn Hk].
    inversion Hr as [|? ? Hr1 Hr2]; subst. apply NoDup_app. split; [eapply k_nd, Hr1|]. split.
    - intros a Ha Hin. apply in_flat in Hin as (d & Hdl & Hda).
      apply elem_of_list_In, in_map_iff in Hdl as ([j d'] & Hjd & Hjl). cbn in Hjd. subst d'. apply elem_of_list_In in Hjl.
      assert (Hkj : k = j) by (eapply (Hd k j e d a); [left|right; exact Hjl|exact Ha|exact Hda]).
      apply Hkn. subst j. apply elem_of_list_In, (in_map fst l (k, d)), elem_of_list_In, Hjl.
    - apply IH; [exact Hk|exact Hr2|]. intros i j c d a Hi Hj. apply Hd; right; assumption.
  Qed.

  Lemma world_ok_holds w M : world_ok croot caddrs crep w M <-> holds w M [].
  Proof.
    split.
    - intros [Hl Ht Hd Ho]. split.
      + intros i. specialize (Hl i). specialize (Ht i).
        destruct (w_trees w !! i) as [t|], (M !! i) as [c|]; [|destruct Hl as [Hl _]|destruct Hl as [_ Hl]|exact I].
        * destruct (Ht t c eq_refl eq_refl) as (? & ? & _). auto.
        * destruct Hl; [eauto|discriminate].
        * destruct Hl; [eauto|discriminate].
      + assert (Hall : Forall (crep (w_heap w)) (elems M)).
        { rewrite Forall_forall. intros c Hc. apply elem_of_elems in Hc as (i & Hi).
          destruct (proj2 (Hl i)) as [t Hti]; [eauto|]. eapply Ht; eassumption. }
        cbn [app]. split; [exact Hall|]. split.
        * unfold elems in *. eapply NoDup_flat_map_intro; [apply NoDup_fst_map_to_list|exact Hall|].
          intros i j c d a Hi Hj. apply elem_of_map_to_list in Hi, Hj. eapply Hd; eassumption.
        * intros a. rewrite Ho. split.
          -- intros (i & c & Hi & Ha). eapply flat_in; [apply elem_of_elems; eauto|exact Ha].
          -- intros Ha. apply in_flat in Ha as (c & Hc & Ha).
             apply elem_of_elems in Hc as (i & Hi). eauto.
    - intros (Hl & Hr & Hnd & Ho). cbn [app] in *. split.
      + intros i. specialize (Hl i). destruct (w_trees w !! i), (M !! i); try destruct Hl; split; try (intros [? ?]; discriminate); intros _; eauto.
      + intros i t c Hi Hc. specialize (Hl i). rewrite Hi, Hc in Hl. destruct Hl as [H1 H2]. split; [exact H1|]. split; [exact H2|].
        rewrite Forall_forall in Hr. apply Hr. apply elem_of_elems. eauto.
      + intros i j c d a Hi Hj. apply elem_of_map_to_list in Hi, Hj.
        eapply NoDup_flat_map_inv; [apply NoDup_fst_map_to_list|exact Hnd|exact Hi|exact Hj].
      + intros a. rewrite Ho. split.
        * intros Ha. apply in_flat in Ha as (c & Hc & Ha).
          apply elem_of_elems in Hc as (i & Hi). eauto.
        * intros (i & c & Hi & Ha). eapply flat_in; [apply elem_of_elems; eauto|exact Ha].
  Qed.

  Lemma holds_get w M E i c : holds w M E -> M !! i = Some c ->
    exists t, w_trees w !! i = Some t /\ get_tree w i = Ok t /\ t_root t = croot c /\ t_nav t = croot c.
  Proof.
    intros [Hl _] Hi. specialize (Hl i). rewrite Hi in Hl. destruct (w_trees w !! i) as [t|] eqn:Ht; [|destruct Hl].
    exists t. unfold get_tree. rewrite Ht. tauto.
  Qed.
  Lemma holds_perm w M E E' : Permutation E E' -> holds w M E -> holds w M E'.
  Proof. intros Hp [H1 H2]. split; [exact H1|]. eapply heap_ok_perm; [apply Permutation_app_tail, Hp|exact H2]. Qed.
  (** The heap is replaced. *)
  Lemma holds_heap w M E E' h' : holds w M E ->
    (heap_ok (w_heap w) (E ++ elems M) -> heap_ok h' (E' ++ elems M)) -> holds (set_heap w h') M E'.
  Proof. intros [H1 H2] H. split; [exact H1|apply H, H2]. Qed.
  (** Tree object [i] takes the loose tree [u]; its old contents become loose. *)
  Lemma holds_set w M E i c u s r : holds w M (u :: E) -> M !! i = Some c ->
    holds (set_tree w i (TreeRec (croot u) s r (croot u))) (<[i := u]> M) (c :: E).
  Proof.
    intros [H1 H2] Hi. split.
    - intros j. cbn. destruct (decide (i = j)) as [->|Hne].
      + rewrite !lookup_insert. auto.
      + rewrite !lookup_insert_ne by exact Hne. apply H1.
    - eapply heap_ok_perm; [|exact H2]. rewrite elems_insert, (elems_lookup M i c Hi). cbn.
      rewrite <- !Permutation_middle. apply perm_swap.
  Qed.
  (** A new tree object takes the loose tree [u]. *)
  Lemma holds_new w M E i u s r : holds w M (u :: E) -> M !! i = None ->
    holds (set_tree w i (TreeRec (croot u) s r (croot u))) (<[i := u]> M) E.
  Proof.
    intros [H1 H2] Hi. split.
    - intros j. cbn. destruct (decide (i = j)) as [->|Hne].
      + rewrite !lookup_insert. auto.
      + rewrite !lookup_insert_ne by exact Hne. apply H1.
    - eapply heap_ok_perm; [|exact H2]. rewrite (elems_new M i u Hi). cbn. rewrite <- Permutation_middle. reflexivity.
  Qed.
  (** Only the cached attributes of a tree object change. *)
  Lemma holds_cache w M E i t c : holds w M E -> M !! i = Some c -> t_root t = croot c -> t_nav t = croot c ->
    holds (set_tree w i t) M E.
  Proof.
    intros [H1 H2] Hi Hr Hn. split; [|exact H2]. intros j. cbn. destruct (decide (i = j)) as [->|Hne].
    - rewrite lookup_insert, Hi. auto.
    - rewrite lookup_insert_ne by exact Hne. apply H1.
  Qed.
  (** A tree object disappears; its contents become loose. *)
  Lemma holds_delete w M E i c : holds w M E -> M !! i = Some c ->
    holds (World (w_heap w) (delete i (w_trees w))) (delete i M) (c :: E).
  Proof.
    intros [H1 H2] Hi. split.
    - intros j. cbn. destruct (decide (i = j)) as [->|Hne].
      + rewrite !lookup_delete. exact I.
      + rewrite !lookup_delete_ne by exact Hne. apply H1.
    - eapply heap_ok_perm; [|exact H2]. cbn. rewrite (elems_lookup M i c Hi), <- Permutation_middle. reflexivity.
  Qed.
  (** The contents of tree object [i] change together with loose trees. *)
  Lemma holds_edit w M E i c c' h' : holds w M E -> M !! i = Some c -> croot c' = croot c ->
    forall E', (heap_ok (w_heap w) (c :: E ++ elems (delete i M)) -> heap_ok h' (c' :: E' ++ elems (delete i M))) ->
    holds (set_heap w h') (<[i := c']> M) E'.
  Proof.
    intros [H1 H2] Hi Hr E' H. split.
    - intros j. cbn. destruct (decide (i = j)) as [->|Hne].
      + rewrite lookup_insert. specialize (H1 j). rewrite Hi in H1. destruct (w_trees w !! j); [|exact H1]. rewrite Hr. exact H1.
      + rewrite lookup_insert_ne by exact Hne. apply H1.
    - cbn. eapply heap_ok_perm; [|apply H].
      + rewrite elems_insert, <- Permutation_middle. reflexivity.
      + eapply heap_ok_perm; [|exact H2]. rewrite (elems_lookup M i c Hi), <- Permutation_middle. reflexivity.
  Qed.
  Lemma holds_rep w M E i c : holds w M E -> M !! i = Some c -> crep (w_heap w) c.
  Proof.
    intros [_ H] Hi. eapply heap_ok_in; [exact H|]. apply elem_of_app. right. apply elem_of_elems. eauto.
  Qed.
  Lemma holds_size w M E i c : holds w M E -> M !! i = Some c -> length (caddrs c) <= size (w_heap w).
  Proof.
    intros [_ H] Hi. eapply heap_ok_size; [exact H|]. apply elem_of_app. right. apply elem_of_elems. eauto.
  Qed.
  Lemma holds_unfold w M E i c : holds w M E -> M !! i = Some c -> heap_ok (w_heap w) (c :: E ++ elems (delete i M)).
  Proof.
    intros [_ H] Hi. eapply heap_ok_perm; [|exact H]. rewrite (elems_lookup M i c Hi), <- Permutation_middle. reflexivity.
  Qed.
End Heap.
