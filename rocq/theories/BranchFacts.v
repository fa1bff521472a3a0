(** BranchFacts.v: the row-navigation algorithms of navigator_base.hpp answer
    with respect to the rows of the tree. *)
From Verif Require Import Base Spec RoseFacts RowFacts Nav Policy NavFacts.

(** The algorithms with [Left = true] are those with [Left = false] on the
    mirrored navigator. *)
Lemma climb_mirror nav F p rl : climb nav F true p rl = climb (mirror_nav nav) F false p rl.
Proof. reflexivity. Qed.
Lemma descend_mirror nav F b p rl : descend nav F b p rl = descend (mirror_nav nav) F (negb b) p rl.
Proof. destruct b; reflexivity. Qed.
Lemma other_branch_loop_mirror nav F k p rl :
  other_branch_loop nav F k true p rl = other_branch_loop (mirror_nav nav) F k false p rl.
Proof.
  revert p rl. induction k as [|k IH]; intros p rl; [reflexivity|]. cbn [other_branch_loop].
  rewrite climb_mirror. destruct (climb _ _ _ _ _) as [[crossed rl1]|e]; cbn [mbind res_bind]; [|reflexivity].
  cbn [nav_root mirror_nav]. destruct (ptr_eqb _ _); [reflexivity|]. destruct (rl1 =? 0)%Z; [reflexivity|].
  rewrite descend_mirror. cbn [negb].
  destruct (descend _ _ _ _ _) as [[d rl2]|e]; cbn [mbind res_bind]; [|reflexivity].
  destruct (rl2 <? 0)%Z; [apply IH|reflexivity].
Qed.
Lemma get_other_branch_mirror nav F b p :
  get_other_branch nav F b p = get_other_branch (mirror_nav nav) F (negb b) p.
Proof.
  destruct b; [apply other_branch_loop_mirror|]. cbn [negb]. unfold get_other_branch.
  rewrite other_branch_loop_mirror. destruct nav; reflexivity.
Qed.
Lemma row_extremum_loop_mirror nav F k b p rl :
  row_extremum_loop nav F k b p rl = row_extremum_loop (mirror_nav nav) F k (negb b) p rl.
Proof.
  revert p rl. induction k as [|k IH]; intros p rl; [reflexivity|]. cbn [row_extremum_loop].
  rewrite descend_mirror. destruct (descend _ _ _ _ _) as [[d rl1]|e]; cbn [mbind res_bind]; [|reflexivity].
  destruct (rl1 =? 0)%Z; [reflexivity|].
  rewrite get_other_branch_mirror. destruct (get_other_branch _ _ _ _) as [q|e]; cbn [mbind res_bind]; [|reflexivity].
  destruct (rl1 <? 0)%Z; [apply IH|reflexivity].
Qed.
Lemma get_row_extremum_mirror nav F b p :
  get_row_extremum nav F b p = get_row_extremum (mirror_nav nav) F (negb b) p.
Proof.
  unfold get_row_extremum. cbn [nav_root nav_parent mirror_nav].
  destruct (ptr_eqb _ _); [reflexivity|].
  destruct (keep_calling _ _ _ _ _ _) as [[q rl]|e]; cbn [mbind res_bind]; [|reflexivity].
  apply row_extremum_loop_mirror.
Qed.
Lemma deepest_loop_mirror nav F k b p d cl dl :
  deepest_loop nav F k b p d cl dl = deepest_loop (mirror_nav nav) F k (negb b) p d cl dl.
Proof.
  revert p d cl dl. induction k as [|k IH]; intros p d cl dl; [reflexivity|]. cbn [deepest_loop].
  assert (Hs : side_child nav b = side_child (mirror_nav nav) (negb b)) by (destruct b; reflexivity).
  rewrite Hs. destruct (keep_calling _ _ _ _ _ _) as [[c1 l1]|e]; cbn [mbind res_bind]; [|reflexivity].
  destruct (dl <? l1)%Z; rewrite get_other_branch_mirror;
    (destruct (get_other_branch _ _ _ _) as [[q|]|e]; cbn [mbind res_bind]; [apply IH|reflexivity|reflexivity]).
Qed.
Lemma get_deepest_mirror nav F b :
  get_deepest_extremum_child nav F b = get_deepest_extremum_child (mirror_nav nav) F (negb b).
Proof. apply deepest_loop_mirror. Qed.

(** A path of first children. *)
Definition spine (c : ctx addr) : Prop := Forall (fun f => fst (fst f) = []) c.
Lemma spine_row c s j : spine c -> row (length c + j) (plug c s) = row j s ++ rsub c j.
Proof.
  intros Hs. rewrite row_plug.
  assert (Hl : forall i, lsub c i = []).
  { induction Hs as [|[[ls a] rs] c Hf _ IH]; intros i; cbn in *; [reflexivity|].
    subst ls. rewrite IH. reflexivity. }
  rewrite Hl. reflexivity.
Qed.
Lemma spine_pre_after c s : spine c -> forall cx,
  length (pre_after (c ++ cx)) + rsize s <= length (preorder (plug c s) ++ pre_after cx).
Proof.
  intros Hs cx. revert s. induction Hs as [|[[ls a] rs] c Hf _ IH]; intros s; cbn [app plug].
  - rewrite app_length, length_preorder. lia.
  - cbn in Hf. subst ls. specialize (IH (Rose a ([] ++ s :: rs))). cbn [pre_after app] in *.
    rewrite app_length. rewrite app_length in IH. cbn [rsize map] in IH.
    assert (H : length (flat_map preorder rs) = list_sum (map rsize rs)).
    { clear. induction rs as [|r rs IH]; cbn [flat_map map]; [reflexivity|].
      rewrite app_length, length_preorder, IH. reflexivity. }
    change (list_sum (rsize s :: map rsize rs)) with (rsize s + list_sum (map rsize rs)) in IH.
    rewrite H. rewrite app_length. lia.
Qed.

Section Branch.
  Variable nav : navigator.
  Variable t : rose addr.
  Hypothesis Hok : nav_ok nav t.
  Variable F : nat.
  Hypothesis HF : rsize t <= F.

  Lemma pos_fuelB c s : plug c s = t -> length c < F /\ height s <= F.
  Proof.
    intros <-. pose proof (ctx_length_size c s). pose proof (rsize_pos s).
    pose proof (height_rsize s). lia.
  Qed.

  (** Climbing to the innermost frame with right siblings. *)
  Fixpoint up_right (c : ctx addr) (j : nat) : option (list (rose addr) * addr * rose addr * list (rose addr) * ctx addr * nat) :=
    match c with
    | [] => None
    | (ls, a, []) :: c => up_right c (S j)
    | (ls, a, r :: rs) :: c => Some (ls, a, r, rs, c, j)
    end.

  Lemma climb_ok c : forall s fuel rl, plug c s = t -> length c < fuel ->
    match up_right c 0 with
    | None => exists rl', keep_calling_loop (pure_call (nav_parent nav))
        (fun rl child _ => b ← nav_is_last nav child; Ok (negb b, (rl - 1)%Z))
        (fun rl child _ => q ← nav_next nav child; Ok (q, (rl + 1)%Z))
        fuel (Some (label s)) (ctx_parent c) rl = Ok (Some (label t), rl')
    | Some (ls, a, r, rs, c1, i) => keep_calling_loop (pure_call (nav_parent nav))
        (fun rl child _ => b ← nav_is_last nav child; Ok (negb b, (rl - 1)%Z))
        (fun rl child _ => q ← nav_next nav child; Ok (q, (rl + 1)%Z))
        fuel (Some (label s)) (ctx_parent c) rl = Ok (Some (label r), (rl - Z.of_nat i)%Z)
    end.
  Proof.
    assert (Hshift : forall c j, up_right c (S j) =
      match up_right c j with None => None | Some (ls, a, r, rs, c1, i) => Some (ls, a, r, rs, c1, S i) end).
    { clear. induction c as [|[[ls a] [|r rs]] c IH]; intros j; cbn; [reflexivity|apply IH|reflexivity]. }
    induction c as [|[[ls a] rs] c IH]; intros s fuel rl Hp Hf;
      (destruct fuel as [|fuel]; [cbn in Hf; lia|]).
    - cbn. cbn in Hp. subst s. exists rl. reflexivity.
    - cbn [keep_calling_loop ctx_parent].
      rewrite (no_is_last _ _ Hok _ _ Hp). cbn [mbind res_bind].
      destruct rs as [|r rs]; cbn [is_nil negb up_right].
      + pose proof Hp as Hp2. cbn [plug] in Hp2.
        pose proof (no_parent _ _ Hok _ _ Hp2) as Hpar. cbn [label] in Hpar.
        rewrite (pure_call_ok _ _ _ _ Hpar). cbn [mbind res_bind].
        specialize (IH (Rose a (ls ++ [s])) fuel (rl - 1)%Z). cbn [label] in IH.
        rewrite Hshift. cbn [length] in Hf.
        destruct (up_right c 0) as [[[[[[ls' a'] r'] rs'] c1] i]|].
        * rewrite IH; [|exact Hp2|lia]. f_equal. f_equal. lia.
        * apply IH; [exact Hp2|lia].
      + rewrite (no_next _ _ Hok _ _ Hp). cbn. f_equal. f_equal. lia.
  Qed.

  Lemma up_right_spec c : forall s, plug c s = t ->
    match up_right c 0 with
    | None => (forall j, rsub c j = []) /\ pre_after c = []
    | Some (ls, a, r, rs, c1, i) =>
        exists ls', plug ((ls', a, rs) :: c1) r = t /\
          (forall j, rsub c j = flat_map (row (i + j)) (r :: rs) ++ rsub c1 (S (i + j))) /\
          pre_after c = preorder r ++ pre_after ((ls', a, rs) :: c1) /\
          r :: rs <> [] 
    end.
  Proof.
    assert (Hshift : forall c j, up_right c (S j) =
      match up_right c j with None => None | Some (ls, a, r, rs, c1, i) => Some (ls, a, r, rs, c1, S i) end).
    { clear. induction c as [|[[ls a] [|r rs]] c IH]; intros j; cbn; [reflexivity|apply IH|reflexivity]. }
    induction c as [|[[ls a] rs] c IH]; intros s Hp; cbn [up_right]; [split; reflexivity|].
    destruct rs as [|r rs].
    - rewrite Hshift. cbn [plug] in Hp. specialize (IH _ Hp).
      destruct (up_right c 0) as [[[[[[ls' a'] r'] rs'] c1] i]|].
      + destruct IH as (ls2 & H1 & H2 & H3 & H4). exists ls2. split; [exact H1|]. split; [|split; [exact H3|exact H4]].
        intros j. cbn [rsub app flat_map]. rewrite H2.
        replace (i + S j) with (S i + j) by lia. reflexivity.
      + destruct IH as [H1 H2]. split; [|exact H2]. intros j. cbn [rsub app flat_map]. apply H1.
    - exists (ls ++ [s]). split; [|split; [|split]].
      + rewrite <- Hp. cbn. rewrite <- app_assoc. reflexivity.
      + intros j. reflexivity.
      + cbn. rewrite <- app_assoc. reflexivity.
      + discriminate.
  Qed.

  (** Descending along first children at most [j] levels. *)
  Lemma descend_ok s : forall c fuel j, plug c s = t -> height s <= fuel ->
    exists c0 d i, spine c0 /\ plug c0 d = s /\ length c0 + i = S j /\
      (i <> 0 -> children d = []) /\
      (i = 0 -> exists f c0', c0 = f :: c0') /\
      keep_calling_loop (pure_call (nav_first nav))
        (fun rl _ _ => Ok ((0 <=? rl + 1)%Z, (rl + 1)%Z))
        (fun rl _ child => Ok (child, rl))
        fuel (Some (label s)) (head_label (children s)) (- Z.of_nat (S j))%Z
      = Ok (Some (label d), (- Z.of_nat i)%Z).
  Proof.
    induction s as [a cs IH] using rose_ind'. intros c fuel j Hp Hf.
    destruct fuel as [|fuel]; [cbn in Hf; lia|].
    cbn [keep_calling_loop label children].
    destruct cs as [|s cs].
    - exists [], (Rose a []), (S j). repeat split; [constructor|discriminate].
    - cbn [head_label mbind res_bind].
      destruct (Z.leb_spec 0 (- Z.of_nat (S j) + 1)) as [Hle|Hlt].
      + assert (j = 0) by lia. subst j.
        exists [([], a, cs)], s, 0. repeat split.
        * constructor; [reflexivity|constructor].
        * congruence.
        * eauto.
      + destruct j as [|j]; [lia|].
        assert (Hp2 : plug (([], a, cs) :: c) s = t) by exact Hp.
        rewrite (pure_call_ok _ _ _ _ (no_first _ _ Hok _ _ Hp2)). cbn [mbind res_bind].
        apply Forall_cons in IH as [IH _].
        destruct (IH _ fuel j Hp2) as (c0 & d & i & H1 & H2 & H3 & H4 & H5 & H6).
        { cbn [height map] in Hf. rewrite list_max_cons in Hf. lia. }
        replace (- Z.of_nat (S (S j)) + 1)%Z with (- Z.of_nat (S j))%Z by lia.
        exists (c0 ++ [([], a, cs)]), d, i. repeat split; try assumption.
        * apply Forall_app; split; [exact H1|]. constructor; [reflexivity|constructor].
        * rewrite plug_app, H2. reflexivity.
        * rewrite app_length. cbn. lia.
        * intros Hi. destruct c0; cbn; eauto.
  Qed.

  Lemma descend_full s c j : plug c s = t -> 
    exists c0 d i, spine c0 /\ plug c0 d = s /\ length c0 + i = S j /\
      (i <> 0 -> children d = []) /\
      descend nav F true (Some (label s)) (- Z.of_nat (S j))%Z = Ok (Some (label d), (- Z.of_nat i)%Z).
  Proof.
    intros Hp. destruct (descend_ok s c F j Hp) as (c0 & d & i & H1 & H2 & H3 & H4 & _ & H6).
    { apply (pos_fuelB _ _ Hp). }
    exists c0, d, i. repeat split; try assumption.
    unfold descend, keep_calling. cbn [side_child].
    rewrite (pure_call_ok _ _ _ _ (no_first _ _ Hok _ _ Hp)). cbn [mbind res_bind]. exact H6.
  Qed.

  Lemma not_root_after c s x : plug c s = t -> x ∈ pre_after c -> Some x <> Some (label t).
  Proof.
    intros Hp Hx [=Heq]. subst x.
    pose proof (no_nd _ _ Hok) as Hnd. pose proof (preorder_plug c s) as Hpp. rewrite Hp in Hpp.
    destruct t as [a cs]. cbn in *.
    destruct (pre_before c ++ preorder s) as [|z zs] eqn:Ez.
    - destruct s; destruct (pre_before c); discriminate.
    - rewrite app_assoc, Ez in Hpp. cbn in Hpp. injection Hpp as -> Hpp.
      apply NoDup_cons in Hnd as [Hn _]. apply Hn. rewrite Hpp. apply elem_of_app; right; exact Hx.
  Qed.

  Lemma other_branch_loop_ok k : forall c s j, plug c s = t -> length (pre_after c) < k ->
    other_branch_loop nav F k false (Some (label s)) (- Z.of_nat j)%Z = Ok (head_label (rsub c j)).
  Proof.
    induction k as [|k IH]; intros c s j Hp Hk; [lia|]. cbn [other_branch_loop].
    pose proof (climb_ok c s F (- Z.of_nat j)%Z Hp (proj1 (pos_fuelB _ _ Hp))) as Hc.
    pose proof (up_right_spec c s Hp) as Hu.
    unfold climb, keep_calling. cbn [side_is_end side_sibling].
    rewrite (pure_call_ok _ _ _ _ (no_parent _ _ Hok _ _ Hp)). cbn [mbind res_bind].
    destruct (up_right c 0) as [[[[[[ls a] r] rs] c1] i]|].
    - rewrite Hc. clear Hc. cbn [mbind res_bind]. destruct Hu as (ls' & Hp2 & Hr & Hpa & _).
      rewrite (no_root _ _ Hok).
      rewrite ptr_eqb_false.
      2:{ apply (not_root_after c s _ Hp). rewrite Hpa. apply elem_of_app; left. apply (position_elem [] r). }
      rewrite Hr. cbn [flat_map].
      destruct (Z.eqb_spec (- Z.of_nat j - Z.of_nat i) 0) as [Hz|Hz].
      + replace (i + j) with 0 by lia. reflexivity.
      + destruct (i + j) as [|m] eqn:Em; [lia|].
        replace (- Z.of_nat j - Z.of_nat i)%Z with (- Z.of_nat (S m))%Z by lia.
        destruct (descend_full r _ m Hp2) as (c0 & d & i' & H1 & H2 & H3 & H4 & H5).
        cbn [negb]. rewrite H5. cbn [mbind res_bind].
        assert (Hp3 : plug (c0 ++ (ls', a, rs) :: c1) d = t) by (rewrite plug_app, H2; exact Hp2).
        assert (Hrow : row (S m) r = row i' d ++ rsub c0 i').
        { rewrite <- H3, <- H2. apply spine_row, H1. }
        destruct (Z.ltb_spec (- Z.of_nat i') 0) as [Hlt|Hge].
        * rewrite (IH _ _ _ Hp3).
          -- f_equal. rewrite Hrow. rewrite rsub_app. cbn [rsub].
             destruct i' as [|i']; [lia|]. cbn [row].
             assert (Hd : children d = []) by (apply H4; lia).
             destruct d as [ad csd]. cbn in Hd. subst csd. cbn [flat_map app].
             replace (length c0 + S i') with (S m) by lia. norm_app. reflexivity.
          -- pose proof (spine_pre_after c0 d H1 ((ls', a, rs) :: c1)) as Hm.
             rewrite H2, <- Hpa in Hm. pose proof (rsize_pos d). lia.
        * assert (i' = 0) by lia. subst i'. rewrite Hrow. destruct d; reflexivity.
    - destruct Hc as [rl' Hc]. rewrite Hc. cbn [mbind res_bind]. rewrite (no_root _ _ Hok), ptr_eqb_true.
      destruct Hu as [Hu _]. rewrite Hu. reflexivity.
  Qed.

  Lemma pre_after_size c s : plug c s = t -> length (pre_after c) < rsize t.
  Proof.
    intros Hp. pose proof (preorder_plug c s) as H. rewrite Hp in H.
    apply (f_equal (@length _)) in H. rewrite length_preorder, !app_length, length_preorder in H.
    pose proof (rsize_pos s). lia.
  Qed.

  Lemma get_other_branch_right c s : plug c s = t ->
    get_other_branch nav F false (Some (label s)) = Ok (head_label (rsub c 0)).
  Proof.
    intros Hp. unfold get_other_branch. apply (other_branch_loop_ok F c s 0 Hp).
    pose proof (pre_after_size c s Hp). lia.
  Qed.

  (** The leftmost node of a row. *)
  Lemma right_neighbour c s y Q : plug c s = t -> rsub c 0 = y :: Q ->
    exists cy, plug cy y = t /\ length cy = length c /\ rsub cy 0 = Q /\
      lsub cy 0 = lsub c 0 ++ [s].
  Proof.
    intros Hp Hr. pose proof (position_row c s) as H. rewrite Hp, Hr in H.
    rewrite (app_assoc _ [s] (y :: Q)) in H || idtac.
    replace (lsub c 0 ++ s :: y :: Q) with ((lsub c 0 ++ [s]) ++ y :: Q) in H by (rewrite <- app_assoc; reflexivity).
    apply (row_split_position _ _ _ _ _ (no_nd _ _ Hok)) in H as (cy & H1 & H2 & H3 & H4).
    exists cy. auto.
  Qed.
  Lemma pre_after_neighbour c s y cy : plug c s = t -> plug cy y = t -> head_label (rsub c 0) = Some (label y) ->
    rsize y + length (pre_after cy) <= length (pre_after c).
  Proof.
    intros Hp Hpy Hh.
    (* y is in pre_after c *)
    assert (Hin : forall j x, x ∈ map label (rsub c j) -> x ∈ pre_after c).
    { clear. induction c as [|[[ls a] rs] c IH]; intros j x; cbn [rsub pre_after]; [cbn; auto|].
      rewrite map_app, !elem_of_app. intros [H|H]; [left|right; eapply IH, H].
      rewrite map_flat_map in H. apply elem_of_flat_map in H as (r & Hr & H).
      apply elem_of_flat_map. exists r. split; [exact Hr|]. eapply row_labels_preorder, H. }
    assert (Hy : label y ∈ pre_after c).
    { apply (Hin 0). destruct (rsub c 0); [discriminate|]. cbn in *. injection Hh as ->.
      apply elem_of_cons; left; reflexivity. }
    apply elem_of_list_split in Hy as (l1 & l2 & Hl).
    pose proof (preorder_plug c s) as H1. pose proof (preorder_plug cy y) as H2.
    rewrite Hp in H1. rewrite Hpy in H2.
    pose proof (no_nd _ _ Hok) as Hnd.
    assert (H3 : preorder t = (pre_before c ++ preorder s ++ l1) ++ label y :: l2).
    { rewrite H1, Hl. rewrite <- !app_assoc. reflexivity. }
    assert (H4 : preorder t = pre_before cy ++ label y :: (flat_map preorder (children y) ++ pre_after cy)).
    { rewrite H2. destruct y; reflexivity. }
    rewrite H3 in H4, Hnd. apply NoDup_split_unique in H4 as [_ ->]; [|exact Hnd].
    rewrite Hl, app_length. cbn [length]. rewrite app_length.
    rewrite <- (length_preorder y). destruct y; cbn [preorder length children]. lia.
  Qed.

  Lemma row_extremum_loop_ok k : forall c s j, plug c s = t -> rsize s + length (pre_after c) <= k ->
    row (S j) s ++ rsub c (S j) <> [] ->
    row_extremum_loop nav F k true (Some (label s)) (- Z.of_nat (S j))%Z
    = Ok (head_label (row (S j) s ++ rsub c (S j))).
  Proof.
    induction k as [|k IH]; intros c s j Hp Hk Hne; [pose proof (rsize_pos s); lia|]. cbn [row_extremum_loop].
    destruct (descend_full s c j Hp) as (c0 & d & i & H1 & H2 & H3 & H4 & H5).
    rewrite H5. cbn [mbind res_bind].
    assert (Hp3 : plug (c0 ++ c) d = t) by (rewrite plug_app, H2; exact Hp).
    assert (Hrow : row (S j) s = row i d ++ rsub c0 i).
    { rewrite <- H3, <- H2. apply spine_row, H1. }
    destruct (Z.eqb_spec (- Z.of_nat i) 0) as [Hz|Hz].
    - assert (i = 0) by lia. subst i. rewrite Hrow. reflexivity.
    - destruct i as [|i]; [lia|].
      assert (Hd : children d = []) by (apply H4; lia).
      assert (Heq : row (S j) s ++ rsub c (S j) = rsub (c0 ++ c) (S i)).
      { rewrite Hrow, rsub_app, row_S, Hd. cbn [flat_map app]. rewrite H3. reflexivity. }
      rewrite Heq in *. cbn [negb]. rewrite (get_other_branch_right _ _ Hp3). cbn [mbind res_bind].
      destruct (Z.ltb_spec (- Z.of_nat (S i)) 0) as [_|Hge]; [|lia].
      rewrite (rsub_0 (c0 ++ c) (S i)) in Hne |- *.
      destruct (rsub (c0 ++ c) 0) as [|y Q] eqn:Er; [contradiction Hne; reflexivity|].
      destruct (right_neighbour _ _ _ _ Hp3 Er) as (cy & Hpy & _ & HQ & _).
      cbn [head_label].
      assert (Heq2 : flat_map (row (S i)) (y :: Q) = row (S i) y ++ rsub cy (S i)).
      { cbn [flat_map]. rewrite (rsub_0 cy (S i)), HQ. reflexivity. }
      rewrite Heq2 in *. apply IH; [exact Hpy| |exact Hne].
      pose proof (pre_after_neighbour _ _ _ _ Hp3 Hpy) as Hlt. rewrite Er in Hlt. specialize (Hlt eq_refl).
      pose proof (spine_pre_after c0 d H1 c) as Hm. rewrite H2, app_length in Hm.
      pose proof (rsize_pos d).
      rewrite length_preorder in Hm. lia.
  Qed.

  (** Climbing to the root counts the depth. *)
  Lemma climb_root_ok c : forall s fuel rl, plug c s = t -> length c < fuel -> c <> [] ->
    keep_calling_loop (pure_call (nav_parent nav))
      (fun rl _ parent => Ok (ptr_eqb parent (nav_root nav), (rl - 1)%Z))
      (fun rl _ root => Ok (root, rl))
      fuel (Some (label s)) (ctx_parent c) rl = Ok (Some (label t), (rl - Z.of_nat (length c))%Z).
  Proof.
    induction c as [|[[ls a] rs] c IH]; intros s fuel rl Hp Hf Hne; [congruence|].
    destruct fuel as [|fuel]; [cbn in Hf; lia|]. cbn [keep_calling_loop ctx_parent mbind res_bind].
    rewrite (no_root _ _ Hok). pose proof Hp as Hp2. cbn [plug] in Hp2.
    destruct c as [|f c].
    - cbn in Hp2. assert (a = label t) by (rewrite <- Hp2; reflexivity). subst a.
      rewrite ptr_eqb_true. cbn. reflexivity.
    - rewrite ptr_eqb_false.
      2:{ intros [=Heq]. pose proof (no_nd _ _ Hok) as Hnd. rewrite <- Hp2 in Hnd, Heq.
          apply (proj1 (label_root_iff _ _ Hnd)) in Heq. discriminate. }
      pose proof (no_parent _ _ Hok _ _ Hp2) as Hpar. cbn [label] in Hpar.
      rewrite (pure_call_ok _ _ _ _ Hpar). cbn [mbind res_bind].
      specialize (IH _ fuel (rl - 1)%Z Hp2). cbn [label] in IH. rewrite (no_root _ _ Hok) in IH.
      rewrite IH; [|cbn in *; lia|discriminate]. f_equal. f_equal. cbn [length]. lia.
  Qed.

  Lemma get_row_extremum_left c s : plug c s = t ->
    get_row_extremum nav F true (Some (label s)) = Ok (head_label (row (length c) t)).
  Proof.
    intros Hp. unfold get_row_extremum. rewrite (no_root _ _ Hok).
    pose proof (no_nd _ _ Hok) as Hnd. rewrite <- Hp in Hnd. apply label_root_iff in Hnd as Hroot.
    destruct c as [|f c].
    - cbn in Hp. subst s. rewrite ptr_eqb_true. reflexivity.
    - rewrite ptr_eqb_false.
      2:{ intros [=Heq]. rewrite <- Hp in Heq. apply Hroot in Heq. discriminate. }
      unfold keep_calling. rewrite (pure_call_ok _ _ _ _ (no_parent _ _ Hok _ _ Hp)). cbn [mbind res_bind].
      pose proof (climb_root_ok (f :: c) s F 0%Z Hp (proj1 (pos_fuelB _ _ Hp))) as Hc.
      rewrite (no_root _ _ Hok) in Hc. rewrite Hc by discriminate.
      cbn [mbind res_bind length Z.sub Z.add].
      pose proof (row_extremum_loop_ok F [] t (length c) eq_refl) as Hl.
      cbn [rsub pre_after length] in Hl. rewrite app_nil_r in Hl. change (0 - Z.of_nat (S (length c)))%Z with (- Z.of_nat (S (length c)))%Z.
      apply Hl; [lia|]. intros Hn. apply row_nil_iff in Hn.
      assert (Hr : row (length (f :: c)) (plug (f :: c) s) = []) by (apply row_nil_iff; rewrite Hp; exact Hn).
      rewrite position_row in Hr. destruct (lsub (f :: c) 0); discriminate Hr.
  Qed.

  (** The leftmost node of the deepest row. *)
  Lemma descend_all s : forall c fuel cl, plug c s = t -> height s <= fuel ->
    exists c0 d, spine c0 /\ plug c0 d = s /\ children d = [] /\
      keep_calling_loop (pure_call (nav_first nav))
        (fun cl _ _ => Ok (false, (cl + 1)%Z))
        (fun cl _ _ => Err NullDeref)
        fuel (Some (label s)) (head_label (children s)) cl
      = Ok (Some (label d), (cl + Z.of_nat (length c0))%Z).
  Proof.
    induction s as [a cs IH] using rose_ind'. intros c fuel cl Hp Hf.
    destruct fuel as [|fuel]; [cbn in Hf; lia|].
    cbn [keep_calling_loop label children].
    destruct cs as [|s cs].
    - exists [], (Rose a []). repeat split; [constructor|]. cbn. f_equal. f_equal. lia.
    - cbn [head_label mbind res_bind].
      assert (Hp2 : plug (([], a, cs) :: c) s = t) by exact Hp.
      rewrite (pure_call_ok _ _ _ _ (no_first _ _ Hok _ _ Hp2)). cbn [mbind res_bind].
      apply Forall_cons in IH as [IH _].
      destruct (IH _ fuel (cl + 1)%Z Hp2) as (c0 & d & H1 & H2 & H3 & H4).
      { cbn [height map] in Hf. rewrite list_max_cons in Hf. lia. }
      exists (c0 ++ [([], a, cs)]), d. repeat split; try assumption.
      + apply Forall_app; split; [exact H1|]. constructor; [reflexivity|constructor].
      + rewrite plug_app, H2. reflexivity.
      + rewrite H4, app_length. cbn. f_equal. f_equal. lia.
  Qed.

  Lemma deepest_loop_ok k : forall c s, plug c s = t -> rsize s + length (pre_after c) <= k ->
    lsub c 1 = [] ->
    deepest_loop nav F k true (Some (label s)) (head_label (row (length c) t))
      (Z.of_nat (length c)) (Z.of_nat (length c)) = Ok (head_label (row (pred (height t)) t)).
  Proof.
    induction k as [|k IH]; intros c s Hp Hk Hl; [pose proof (rsize_pos s); lia|]. cbn [deepest_loop side_child].
    destruct (descend_all s c F (Z.of_nat (length c)) Hp) as (c0 & d & H1 & H2 & H3 & H4).
    { apply (pos_fuelB _ _ Hp). }
    unfold keep_calling at 1. rewrite (pure_call_ok _ _ _ _ (no_first _ _ Hok _ _ Hp)). cbn [mbind res_bind].
    rewrite H4. cbn [mbind res_bind].
    assert (Hp3 : plug (c0 ++ c) d = t) by (rewrite plug_app, H2; exact Hp).
    (* the label recorded is the extremum of the row reached *)
    assert (Hext : (if (Z.of_nat (length c) <? Z.of_nat (length c) + Z.of_nat (length c0))%Z
                    then (Some (label d), (Z.of_nat (length c) + Z.of_nat (length c0))%Z)
                    else (head_label (row (length c) t), Z.of_nat (length c)))
            = (head_label (row (length (c0 ++ c)) t), Z.of_nat (length (c0 ++ c)))).
    { rewrite app_length. destruct (Z.ltb_spec (Z.of_nat (length c)) (Z.of_nat (length c) + Z.of_nat (length c0))) as [Hlt|Hge].
      - f_equal; [|lia]. rewrite <- (app_length c0 c).
        assert (Hr : row (length (c0 ++ c)) t = lsub (c0 ++ c) 0 ++ d :: rsub (c0 ++ c) 0) by (rewrite <- Hp3 at 1; apply position_row).
        rewrite Hr.
        assert (Hls : lsub (c0 ++ c) 0 = []).
        { assert (Hgen : forall cc j, spine cc -> lsub (cc ++ c) j = lsub c (length cc + j)).
          { clear. induction cc as [|[[ls a] rs] cc IHc]; intros j Hs; [reflexivity|].
            apply Forall_cons in Hs as [Hf Hs]. cbn in Hf. subst ls. cbn [app lsub flat_map length Nat.add].
            rewrite IHc by exact Hs. rewrite app_nil_r. f_equal. lia. }
          rewrite Hgen by exact H1. destruct (length c0 + 0) as [|m] eqn:Em; [lia|].
          change (S m) with (1 + m). rewrite lsub_add, Hl. reflexivity. }
        rewrite Hls. reflexivity.
      - assert (length c0 = 0) by lia. f_equal; [|lia]. f_equal. f_equal. lia. }
    rewrite Hext. clear Hext. cbn [negb].
    rewrite (get_other_branch_right _ _ Hp3). cbn [mbind res_bind].
    assert (Hlsub : lsub (c0 ++ c) 1 = []).
    { assert (Hgen : forall cc j, spine cc -> lsub (cc ++ c) j = lsub c (length cc + j)).
      { clear. induction cc as [|[[ls a] rs] cc IHc]; intros j Hs; [reflexivity|].
        apply Forall_cons in Hs as [Hf Hs]. cbn in Hf. subst ls. cbn [app lsub flat_map length Nat.add].
        rewrite IHc by exact Hs. rewrite app_nil_r. f_equal. lia. }
      rewrite Hgen by exact H1. replace (length c0 + 1) with (1 + length c0) by lia.
      rewrite lsub_add, Hl. reflexivity. }
    destruct (rsub (c0 ++ c) 0) as [|y Q] eqn:Er; cbn [head_label].
    - (* no more nodes in this row: it is the deepest *)
      assert (Hnil : row (S (length (c0 ++ c))) t = []).
      { replace (S (length (c0 ++ c))) with (length (c0 ++ c) + 1) by lia.
        rewrite <- Hp3 at 1. rewrite row_plug, Hlsub, (rsub_0 _ 1), Er, row_1, H3. reflexivity. }
      apply row_nil_iff in Hnil.
      assert (Hne : ~ height t <= length (c0 ++ c)).
      { intros Hh. apply row_nil_iff in Hh. rewrite <- Hp3 in Hh at 1. rewrite position_row in Hh.
        destruct (lsub (c0 ++ c) 0); discriminate Hh. }
      replace (pred (height t)) with (length (c0 ++ c)) by lia. reflexivity.
    - destruct (right_neighbour _ _ _ _ Hp3 Er) as (cy & Hpy & Hlen & HQ & Hly).
      replace (Z.of_nat (length c) + Z.of_nat (length c0))%Z with (Z.of_nat (length cy)) by (rewrite Hlen, app_length; lia).
      rewrite <- Hlen. apply IH; [exact Hpy| |].
      + pose proof (pre_after_neighbour _ _ _ _ Hp3 Hpy) as Hlt. rewrite Er in Hlt. specialize (Hlt eq_refl).
        pose proof (spine_pre_after c0 d H1 c) as Hm. rewrite H2, app_length in Hm.
        pose proof (rsize_pos d). rewrite length_preorder in Hm. lia.
      + rewrite (lsub_0 cy 1), Hly, flat_map_app', <- (lsub_0 _ 1). rewrite Hlsub.
        cbn [flat_map app]. rewrite row_1, H3. reflexivity.
  Qed.
  Lemma get_deepest_left : get_deepest_extremum_child nav F true = Ok (head_label (row (pred (height t)) t)).
  Proof.
    unfold get_deepest_extremum_child. rewrite (no_root _ _ Hok).
    change (Some (label t)) with (head_label (row (length (@nil (frame addr))) t)) at 2.
    apply (deepest_loop_ok F [] t eq_refl); [cbn; lia|reflexivity].
  Qed.
End Branch.

(** The left-hand versions, by mirror image. *)
Section BranchMirror.
  Variable nav : navigator.
  Variable t : rose addr.
  Hypothesis Hok : nav_ok nav t.
  Variable F : nat.
  Hypothesis HF : rsize t <= F.

  Lemma head_label_rev_mirror (l : list (rose addr)) : head_label (rev (map mirror l)) = last_label l.
  Proof. apply head_label_mirror. Qed.

  Lemma plug_mirror c s : plug c s = t -> plug (mctx c) (mirror s) = mirror t.
  Proof. intros <-. symmetry. apply mirror_plug. Qed.

  Lemma get_other_branch_left c s : plug c s = t ->
    get_other_branch nav F true (Some (label s)) = Ok (last_label (lsub c 0)).
  Proof.
    intros Hp. rewrite get_other_branch_mirror, <- (label_mirror s). cbn [negb].
    rewrite (get_other_branch_right _ _ (nav_ok_mirror _ _ Hok) F (HFm t F HF) (mctx c) (mirror s) (plug_mirror _ _ Hp)).
    rewrite rsub_mctx, head_label_mirror. reflexivity.
  Qed.
  Lemma get_row_extremum_right c s : plug c s = t ->
    get_row_extremum nav F false (Some (label s)) = Ok (last_label (row (length c) t)).
  Proof.
    intros Hp. rewrite get_row_extremum_mirror, <- (label_mirror s). cbn [negb].
    rewrite (get_row_extremum_left _ _ (nav_ok_mirror _ _ Hok) F (HFm t F HF) (mctx c) (mirror s) (plug_mirror _ _ Hp)).
    unfold mctx. rewrite map_length, row_mirror, head_label_mirror. reflexivity.
  Qed.
  Lemma get_deepest_right : get_deepest_extremum_child nav F false = Ok (last_label (row (pred (height t)) t)).
  Proof.
    rewrite get_deepest_mirror. cbn [negb].
    rewrite (get_deepest_left _ _ (nav_ok_mirror _ _ Hok) F (HFm t F HF)).
    rewrite row_mirror, head_label_mirror, height_mirror. reflexivity.
  Qed.
End BranchMirror.
