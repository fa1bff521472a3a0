(** RowFacts.v: the rows of a tree seen from a position. *)
From Verif Require Import Base Spec RoseFacts.

Section RowFacts.
  Context {A : Type}.
  Implicit Types (t s : rose A) (c : ctx A).

  (** The subtrees [j] levels below the level of the position, to its left and
      to its right. *)
  Fixpoint lsub (c : ctx A) (j : nat) : list (rose A) :=
    match c with
    | [] => []
    | (ls, _, _) :: c => lsub c (S j) ++ flat_map (row j) ls
    end.
  Fixpoint rsub (c : ctx A) (j : nat) : list (rose A) :=
    match c with
    | [] => []
    | (_, _, rs) :: c => flat_map (row j) rs ++ rsub c (S j)
    end.

  Lemma flat_map_flat_map {B C D} (f : B -> list C) (g : C -> list D) l :
    flat_map g (flat_map f l) = flat_map (fun x => flat_map g (f x)) l.
  Proof.
    induction l as [|x l IH]; cbn; [reflexivity|]. rewrite flat_map_app', IH. reflexivity.
  Qed.
  Lemma flat_map_ext' {B C} (f g : B -> list C) l :
    Forall (fun x => f x = g x) l -> flat_map f l = flat_map g l.
  Proof. induction 1 as [|x l Hx _ IH]; cbn; [reflexivity|]. rewrite Hx, IH. reflexivity. Qed.

  Lemma row_S d t : row (S d) t = flat_map (row d) (children t).
  Proof. destruct t; reflexivity. Qed.
  Lemma row_add n m t : row (n + m) t = flat_map (row m) (row n t).
  Proof.
    revert t. induction n as [|n IH]; intros t; cbn [Nat.add].
    - cbn. rewrite app_nil_r. reflexivity.
    - rewrite !row_S, flat_map_flat_map. apply flat_map_ext'. apply Forall_forall. auto.
  Qed.
  Lemma row_0_flat (l : list (rose A)) : flat_map (row 0) l = l.
  Proof. induction l as [|x l IH]; cbn in *; [reflexivity|]. rewrite IH. reflexivity. Qed.

  Lemma row_plug c s j : row (length c + j) (plug c s) = lsub c j ++ row j s ++ rsub c j.
  Proof.
    revert s j. induction c as [|[[ls a] rs] c IH]; intros s j; cbn [length plug lsub rsub Nat.add].
    - cbn. rewrite app_nil_r. reflexivity.
    - replace (S (length c + j)) with (length c + S j) by lia. rewrite IH.
      cbn [row]. rewrite flat_map_app'. cbn [flat_map]. norm_app. reflexivity.
  Qed.
  Lemma rsub_add c i j : rsub c (i + j) = flat_map (row j) (rsub c i).
  Proof.
    revert i. induction c as [|[[ls a] rs] c IH]; intros i; cbn [rsub]; [reflexivity|].
    rewrite flat_map_app'. change (S (i + j)) with (S i + j). rewrite IH. f_equal.
    rewrite flat_map_flat_map. apply flat_map_ext', Forall_forall. intros x _. apply row_add.
  Qed.
  Lemma lsub_add c i j : lsub c (i + j) = flat_map (row j) (lsub c i).
  Proof.
    revert i. induction c as [|[[ls a] rs] c IH]; intros i; cbn [lsub]; [reflexivity|].
    rewrite flat_map_app'. change (S (i + j)) with (S i + j). rewrite IH. f_equal.
    rewrite flat_map_flat_map. apply flat_map_ext', Forall_forall. intros x _. apply row_add.
  Qed.
  Lemma rsub_0 c j : rsub c j = flat_map (row j) (rsub c 0).
  Proof. exact (rsub_add c 0 j). Qed.
  Lemma lsub_0 c j : lsub c j = flat_map (row j) (lsub c 0).
  Proof. exact (lsub_add c 0 j). Qed.
  Lemma row_1 t : row 1 t = children t.
  Proof. rewrite row_S. apply row_0_flat. Qed.
  Lemma flat_map_row1 (l : list (rose A)) : flat_map (row 1) l = flat_map children l.
  Proof. apply flat_map_ext', Forall_forall. intros x _. apply row_1. Qed.
  Lemma rsub_app c1 c2 j : rsub (c1 ++ c2) j = rsub c1 j ++ rsub c2 (length c1 + j).
  Proof.
    revert j. induction c1 as [|[[ls a] rs] c1 IH]; intros j; cbn [app rsub length]; [reflexivity|].
    rewrite IH. replace (length c1 + S j) with (S (length c1) + j) by lia. norm_app. reflexivity.
  Qed.

  (** Mirror images. *)
  Lemma row_mirror d t : row d (mirror t) = rev (map mirror (row d t)).
  Proof.
    revert t. induction d as [|d IH]; intros t; [reflexivity|].
    rewrite !row_S, children_mirror.
    induction (children t) as [|x l IHl]; [reflexivity|]. cbn [map rev flat_map].
    rewrite flat_map_app', IHl. cbn [flat_map]. rewrite app_nil_r, IH.
    rewrite map_app, rev_app_distr. reflexivity.
  Qed.
  Lemma flat_map_row_mirror j (l : list (rose A)) :
    flat_map (row j) (rev (map mirror l)) = rev (map mirror (flat_map (row j) l)).
  Proof.
    induction l as [|x l IHl]; [reflexivity|]. cbn [map rev flat_map].
    rewrite flat_map_app', IHl. cbn [flat_map]. rewrite app_nil_r, row_mirror.
    rewrite map_app, rev_app_distr. reflexivity.
  Qed.
  Lemma rsub_mctx c j : rsub (mctx c) j = rev (map mirror (lsub c j)).
  Proof.
    revert j. induction c as [|[[ls a] rs] c IH]; intros j; cbn [mctx map rsub lsub]; [reflexivity|].
    fold (mctx c). rewrite IH, flat_map_row_mirror, map_app, rev_app_distr. reflexivity.
  Qed.
  Lemma lsub_mctx c j : lsub (mctx c) j = rev (map mirror (rsub c j)).
  Proof.
    rewrite <- (mctx_mctx c) at 2. rewrite rsub_mctx, map_rev, rev_involutive, map_mirror_mirror.
    reflexivity.
  Qed.

  (** Heights and empty rows. *)
  Lemma list_max_cons x l : list_max (x :: l) = Nat.max x (list_max l).
  Proof. reflexivity. Qed.
  Lemma row_nil_iff d t : row d t = [] <-> height t <= d.
  Proof.
    revert d. induction t as [a cs IH] using rose_ind'. intros [|d].
    - cbn. split; [discriminate|lia].
    - cbn [row height].
      assert (H : flat_map (row d) cs = [] <-> list_max (map height cs) <= d).
      { induction IH as [|c cs Hc _ IHcs]; cbn [flat_map map].
        - cbn. split; [lia|reflexivity].
        - rewrite list_max_cons. split.
          + intros [H1 H2]%app_eq_nil. apply Hc in H1. apply IHcs in H2. lia.
          + intros H. apply app_nil. rewrite Hc, IHcs. lia. }
      rewrite H. lia.
  Qed.

  Lemma row_labels_preorder d t x : x ∈ map label (row d t) -> x ∈ preorder t.
  Proof.
    revert d. induction t as [a cs IH] using rose_ind'. intros [|d].
    - cbn. rewrite elem_of_list_singleton. intros ->. apply elem_of_cons; left; reflexivity.
    - cbn [row preorder]. rewrite elem_of_list_In, in_map_iff. intros (s & <- & Hs).
      apply in_flat_map in Hs as (c & Hc & Hs). apply elem_of_cons; right.
      apply elem_of_flat_map. exists c. split; [apply elem_of_list_In, Hc|].
      rewrite Forall_forall in IH. apply (IH c (proj2 (elem_of_list_In _ _) Hc) d).
      apply elem_of_list_In, in_map, Hs.
  Qed.
  Lemma map_flat_map {B C D} (g : C -> D) (f : B -> list C) l :
    map g (flat_map f l) = flat_map (fun x => map g (f x)) l.
  Proof. induction l as [|x l IH]; cbn; [reflexivity|]. rewrite map_app, IH. reflexivity. Qed.

  Lemma NoDup_row d t : NoDup (preorder t) -> NoDup (map label (row d t)).
  Proof.
    revert d. induction t as [a cs IH] using rose_ind'. intros [|d] Hnd.
    - cbn. apply NoDup_singleton.
    - cbn [row preorder] in *. apply NoDup_cons in Hnd as [_ Hnd]. rewrite map_flat_map.
      induction IH as [|c cs Hc _ IHcs]; cbn [flat_map] in *; [apply NoDup_nil; exact I|].
      apply NoDup_app in Hnd as (H1 & H2 & H3).
      apply NoDup_app. split; [apply Hc, H1|]. split; [|apply IHcs, H3].
      intros x Hx Hx2. apply row_labels_preorder in Hx. apply (H2 x Hx).
      apply elem_of_flat_map in Hx2 as (c' & Hc' & Hx2). apply row_labels_preorder in Hx2.
      apply elem_of_flat_map. eauto.
  Qed.
  Lemma NoDup_map_inv {B C} (f : B -> C) l : NoDup (map f l) -> NoDup l.
  Proof.
    induction l as [|x l IH]; cbn; [intros _; apply NoDup_nil; exact I|].
    rewrite !NoDup_cons. intros [H1 H2]. split; [|auto]. intros Hx. apply H1.
    apply elem_of_list_In, in_map, elem_of_list_In, Hx.
  Qed.

  Lemma elem_row_position d t s : s ∈ row d t -> exists c, length c = d /\ plug c s = t.
  Proof.
    revert d s. induction t as [a cs IH] using rose_ind'. intros [|d] s.
    - cbn. rewrite elem_of_list_singleton. intros ->. exists []. auto.
    - cbn [row]. rewrite elem_of_flat_map. intros (c & Hc & Hs).
      rewrite Forall_forall in IH. destruct (IH c Hc d s Hs) as (cx & Hl & Hp).
      apply elem_of_list_split in Hc as (ls & rs & ->).
      exists (cx ++ [(ls, a, rs)]). rewrite app_length, plug_app, Hp, Hl. cbn. split; [lia|reflexivity].
  Qed.

  Lemma row_split_position d t P s Q :
    NoDup (preorder t) -> row d t = P ++ s :: Q ->
    exists c, length c = d /\ plug c s = t /\ lsub c 0 = P /\ rsub c 0 = Q.
  Proof.
    intros Hnd Hr. destruct (elem_row_position d t s) as (c & Hl & Hp).
    { rewrite Hr. apply elem_of_app; right; apply elem_of_cons; left; reflexivity. }
    exists c. split; [exact Hl|]. split; [exact Hp|].
    pose proof (row_plug c s 0) as H. rewrite Nat.add_0_r, Hp, Hl, Hr in H. cbn [row app] in H.
    assert (HN : NoDup (P ++ s :: Q)).
    { rewrite <- Hr. eapply NoDup_map_inv, NoDup_row, Hnd. }
    destruct (NoDup_split_unique _ _ _ _ _ HN H) as [-> ->]. auto.
  Qed.
  Lemma position_row c s : row (length c) (plug c s) = lsub c 0 ++ s :: rsub c 0.
  Proof. pose proof (row_plug c s 0) as H. rewrite Nat.add_0_r in H. exact H. Qed.

  (** Level order. *)
  Definition rows (t : rose A) (a n : nat) : list A :=
    flat_map (fun d => map label (row d t)) (seq a n).
  Lemma rows_app t a n m : rows t a (n + m) = rows t a n ++ rows t (a + n) m.
  Proof. unfold rows. rewrite seq_app, flat_map_app'. reflexivity. Qed.
  Lemma rows_nil t a n : height t <= a -> rows t a n = [].
  Proof.
    unfold rows. revert a. induction n as [|n IH]; intros a Ha; cbn; [reflexivity|].
    rewrite (proj2 (row_nil_iff a t) Ha). cbn. apply IH. lia.
  Qed.
  Lemma levelorder_rows t n : height t <= n -> levelorder t = rows t 0 n.
  Proof.
    intros H. replace n with (height t + (n - height t)) by lia.
    rewrite rows_app, (rows_nil t (0 + height t)) by lia. rewrite app_nil_r. reflexivity.
  Qed.

  Lemma flat_map_swap {B C D} (f : B -> C -> list D) (l : list B) (m : list C) :
    Permutation (flat_map (fun x => flat_map (f x) m) l) (flat_map (fun y => flat_map (fun x => f x y) l) m).
  Proof.
    induction l as [|x l IH]; cbn.
    - induction m; cbn; [reflexivity|assumption].
    - rewrite IH. clear IH. induction m as [|y m IHm]; cbn; [reflexivity|].
      rewrite <- IHm. rewrite <- !app_assoc. apply Permutation_app_head.
      rewrite !app_assoc. apply Permutation_app_tail. apply Permutation_app_comm.
  Qed.
  Lemma Permutation_flat_map_ext {B C} (f g : B -> list C) l :
    Forall (fun x => Permutation (f x) (g x)) l -> Permutation (flat_map f l) (flat_map g l).
  Proof. induction 1 as [|x l H _ IH]; cbn; [reflexivity|]. rewrite H, IH. reflexivity. Qed.

  Lemma levelorder_perm t : Permutation (levelorder t) (preorder t).
  Proof.
    induction t as [a cs IH] using rose_ind'.
    unfold levelorder. cbn [height seq flat_map row map label preorder app].
    apply Permutation_cons; [reflexivity|].
    rewrite <- seq_shift, flat_map_concat_map, map_map, <- flat_map_concat_map.
    etransitivity; [|apply Permutation_flat_map_ext, IH].
    set (M := list_max (map height cs)).
    assert (HM : Forall (fun x : rose A => height x <= M) cs).
    { subst M. clear IH. induction cs as [|x cs IHcs]; constructor; cbn [map]; rewrite list_max_cons; [lia|].
      eapply Forall_impl; [apply IHcs|]. cbn. intros; lia. }
    clearbody M. etransitivity; [|apply Permutation_flat_map_ext with (f := fun x : rose A => rows x 0 M)].
    - unfold rows. cbn [row]. rewrite flat_map_swap.
      apply Permutation_flat_map_ext, Forall_forall. intros d _. rewrite map_flat_map. reflexivity.
    - eapply Forall_impl; [apply HM|]. cbn. intros x Hx. rewrite (levelorder_rows x M Hx). reflexivity.
  Qed.

  Lemma levelorder_at c s :
    levelorder (plug c s) =
    (rows (plug c s) 0 (length c) ++ map label (lsub c 0)) ++
    label s :: (map label (rsub c 0) ++ rows (plug c s) (S (length c)) (height (plug c s))).
  Proof.
    set (t := plug c s). set (d := length c).
    rewrite (levelorder_rows t (d + (1 + height t))) by lia.
    rewrite !rows_app. cbn [Nat.add]. replace (d + 1) with (S d) by lia.
    change (rows t d 1) with (map label (row d t) ++ []). rewrite app_nil_r.
    unfold d at 2. unfold t at 2. rewrite position_row, map_app. cbn [map]. norm_app. reflexivity.
  Qed.
  Lemma head_map_label (l : list (rose A)) : head (map label l) = head_label l.
  Proof. destruct l; reflexivity. Qed.
  Lemma last_map_label (l : list (rose A)) : last (map label l) = last_label l.
  Proof.
    induction l as [|x l _] using rev_ind; [reflexivity|].
    rewrite map_app, last_label_snoc. cbn [map]. apply last_snoc.
  Qed.
  Lemma head_rows t a n : (height t <= a + n) -> head (rows t a n) = head_label (row a t).
  Proof.
    intros H. destruct n as [|n].
    - cbn. rewrite (proj2 (row_nil_iff a t)) by lia. reflexivity.
    - unfold rows. cbn [seq flat_map]. destruct (row a t) as [|x l] eqn:E; [|reflexivity].
      fold (rows t (S a) n). apply row_nil_iff in E. rewrite rows_nil by lia. reflexivity.
  Qed.

  (** The successor and predecessor in level order. *)
  Lemma levelorder_next c s l1 l2 : NoDup (preorder (plug c s)) ->
    levelorder (plug c s) = l1 ++ label s :: l2 ->
    head l2 = head_label (rsub c 0 ++ row (S (length c)) (plug c s)).
  Proof.
    intros Hnd H. rewrite levelorder_at in H.
    apply NoDup_split_unique in H as [_ <-].
    2:{ rewrite <- levelorder_at, levelorder_perm. exact Hnd. }
    destruct (rsub c 0) as [|x l]; [|reflexivity]. cbn [map app]. rewrite head_rows; [reflexivity|lia].
  Qed.
  Lemma levelorder_prev c s l1 l2 : NoDup (preorder (plug c s)) ->
    levelorder (plug c s) = l1 ++ label s :: l2 ->
    last l1 = match last_label (lsub c 0) with
              | Some x => Some x
              | None => match length c with 0 => None | S d => last_label (row d (plug c s)) end
              end.
  Proof.
    intros Hnd H. rewrite levelorder_at in H.
    apply NoDup_split_unique in H as [<- _].
    2:{ rewrite <- levelorder_at, levelorder_perm. exact Hnd. }
    destruct (lsub c 0) as [|x l _] using rev_ind.
    - cbn [map]. rewrite app_nil_r. cbn. destruct (length c) as [|d] eqn:E; [reflexivity|].
      replace (S d) with (d + 1) by lia. rewrite rows_app.
      change (rows (plug c s) (0 + d) 1) with (map label (row d (plug c s)) ++ []). rewrite app_nil_r.
      assert (Hne : row d (plug c s) <> []).
      { intros Hr. apply row_nil_iff in Hr. assert (Hr2 : row (length c) (plug c s) = []).
        { apply row_nil_iff. lia. }
        rewrite position_row in Hr2. destruct (lsub c 0); discriminate. }
      destruct (row d (plug c s)) as [|y l' _] using rev_ind.
      + congruence.
      + rewrite last_label_snoc, map_app, app_assoc. cbn [map]. apply last_snoc.
    - rewrite last_label_snoc, map_app, app_assoc. cbn [map]. apply last_snoc.
  Qed.
End RowFacts.
