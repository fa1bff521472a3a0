(** RoseFacts.v: positions (zippers) in ordered trees, mirror images, and how
    the traversal orders decompose at a position. *)
From Verif Require Import Base Spec.

Ltac norm_app := repeat (rewrite <- app_assoc; cbn [app]).

(** A position: the path to the root, innermost frame first.  A frame holds
    the left siblings, the parent's label, and the right siblings. *)
Notation frame A := (list (rose A) * A * list (rose A))%type.
Notation ctx A := (list (frame A)).

Section RoseFacts.
  Context {A : Type}.
  Implicit Types (t s : rose A) (cs ls rs : list (rose A)).


  Fixpoint plug (c : ctx A) (s : rose A) : rose A :=
    match c with
    | [] => s
    | (ls, a, rs) :: c => plug c (Rose a (ls ++ s :: rs))
    end.

  Lemma plug_app c1 c2 s : plug (c1 ++ c2) s = plug c2 (plug c1 s).
  Proof.
    revert s; induction c1 as [|[[ls a] rs] c1 IH]; intros s; cbn; [reflexivity|apply IH].
  Qed.

  Lemma rose_eta t : Rose (label t) (children t) = t.
  Proof. destruct t; reflexivity. Qed.

  Fixpoint mirror (t : rose A) : rose A :=
    match t with Rose a cs => Rose a (rev (map mirror cs)) end.
  Definition mctx (c : ctx A) : ctx A :=
    map (fun f => match f with (ls, a, rs) => (rev (map mirror rs), a, rev (map mirror ls)) end) c.

  Lemma mirror_mirror t : mirror (mirror t) = t.
  Proof.
    induction t as [a cs IH] using rose_ind'; cbn. f_equal.
    rewrite map_rev, rev_involutive, map_map.
    induction IH as [|c cs Hc _ IHcs]; cbn; [reflexivity|]. rewrite Hc, IHcs; reflexivity.
  Qed.
  Lemma map_mirror_mirror cs : map mirror (map mirror cs) = cs.
  Proof. rewrite map_map. rewrite <- (map_id cs) at 2. apply map_ext. apply mirror_mirror. Qed.

  Lemma mirror_plug c s : mirror (plug c s) = plug (mctx c) (mirror s).
  Proof.
    revert s; induction c as [|[[ls a] rs] c IH]; intros s; cbn; [reflexivity|].
    rewrite IH. cbn. rewrite map_app, rev_app_distr. cbn. rewrite <- app_assoc. reflexivity.
  Qed.
  Lemma mctx_mctx c : mctx (mctx c) = c.
  Proof.
    unfold mctx. rewrite map_map. rewrite <- (map_id c) at 2. apply map_ext. intros [[ls a] rs].
    rewrite !map_rev, !rev_involutive, !map_mirror_mirror. reflexivity.
  Qed.
  Lemma label_mirror t : label (mirror t) = label t.
  Proof. destruct t; reflexivity. Qed.
  Lemma children_mirror t : children (mirror t) = rev (map mirror (children t)).
  Proof. destruct t; reflexivity. Qed.

  Lemma flat_map_app' {B C} (f : B -> list C) l1 l2 :
    flat_map f (l1 ++ l2) = flat_map f l1 ++ flat_map f l2.
  Proof. apply flat_map_app. Qed.

  Lemma flat_map_rev_mirror {B} (f g : rose A -> list B) cs :
    Forall (fun c => f (mirror c) = rev (g c)) cs ->
    flat_map f (rev (map mirror cs)) = rev (flat_map g cs).
  Proof.
    induction 1 as [|c cs Hc _ IH]; cbn; [reflexivity|].
    rewrite flat_map_app', IH, rev_app_distr. cbn. rewrite app_nil_r, Hc. reflexivity.
  Qed.

  Lemma preorder_mirror t : preorder (mirror t) = rev (postorder t).
  Proof.
    induction t as [a cs IH] using rose_ind'; cbn.
    rewrite rev_app_distr. cbn. f_equal. apply flat_map_rev_mirror, IH.
  Qed.
  Lemma postorder_mirror t : postorder (mirror t) = rev (preorder t).
  Proof.
    rewrite <- (mirror_mirror t) at 2. rewrite preorder_mirror, rev_involutive. reflexivity.
  Qed.

  (** Pre-order at a position: before, the subtree, after. *)
  Fixpoint pre_before (c : ctx A) : list A :=
    match c with
    | [] => []
    | (ls, a, rs) :: c => pre_before c ++ a :: flat_map preorder ls
    end.
  Fixpoint pre_after (c : ctx A) : list A :=
    match c with
    | [] => []
    | (ls, a, rs) :: c => flat_map preorder rs ++ pre_after c
    end.
  Lemma preorder_plug c s : preorder (plug c s) = pre_before c ++ preorder s ++ pre_after c.
  Proof.
    revert s; induction c as [|[[ls a] rs] c IH]; intros s; cbn.
    - rewrite app_nil_r. reflexivity.
    - rewrite IH. cbn. rewrite flat_map_app'. cbn. norm_app. reflexivity.
  Qed.
  Fixpoint post_before (c : ctx A) : list A :=
    match c with
    | [] => []
    | (ls, a, rs) :: c => post_before c ++ flat_map postorder ls
    end.
  Fixpoint post_after (c : ctx A) : list A :=
    match c with
    | [] => []
    | (ls, a, rs) :: c => flat_map postorder rs ++ a :: post_after c
    end.
  Lemma postorder_plug c s : postorder (plug c s) = post_before c ++ postorder s ++ post_after c.
  Proof.
    revert s; induction c as [|[[ls a] rs] c IH]; intros s; cbn.
    - rewrite app_nil_r. reflexivity.
    - rewrite IH. cbn. rewrite flat_map_app'. cbn. norm_app. reflexivity.
  Qed.

  Lemma elem_of_flat_map {B C} (f : B -> list C) (l : list B) x :
    x ∈ flat_map f l <-> exists y, y ∈ l /\ x ∈ f y.
  Proof.
    rewrite elem_of_list_In, in_flat_map. setoid_rewrite elem_of_list_In. reflexivity.
  Qed.
  Lemma Forall_elem {B} (P : B -> Prop) l : (forall x, x ∈ l -> P x) -> Forall P l.
  Proof. intros H; apply Forall_forall; exact H. Qed.

  (** Every node has a position. *)
  Lemma elem_position t x : x ∈ preorder t -> exists c s, plug c s = t /\ label s = x.
  Proof.
    induction t as [a cs IH] using rose_ind'; cbn.
    rewrite elem_of_cons. intros [->|Hx].
    - exists [], (Rose a cs). auto.
    - apply elem_of_flat_map in Hx as (s0 & Hs0 & Hx).
      apply elem_of_list_split in Hs0 as (ls & rs & ->).
      rewrite Forall_app, Forall_cons in IH. destruct IH as (_ & IH & _).
      destruct (IH Hx) as (c & s & Hp & Hl).
      exists (c ++ [(ls, a, rs)]), s. split; [|exact Hl].
      rewrite plug_app, Hp. reflexivity.
  Qed.
  Lemma position_elem c s : label s ∈ preorder (plug c s).
  Proof.
    rewrite preorder_plug. apply elem_of_app; right; apply elem_of_app; left.
    destruct s; cbn. apply elem_of_cons; left; reflexivity.
  Qed.

  (** The three orders are permutations of each other. *)
  Lemma pre_post_perm t : Permutation (preorder t) (postorder t).
  Proof.
    induction t as [a cs IH] using rose_ind'; cbn.
    rewrite <- Permutation_cons_append. apply Permutation_cons; [reflexivity|].
    induction IH as [|c cs Hc _ IHcs]; cbn; [reflexivity|]. rewrite Hc, IHcs. reflexivity.
  Qed.
  Lemma length_preorder t : length (preorder t) = rsize t.
  Proof.
    induction t as [a cs IH] using rose_ind'; cbn. f_equal.
    induction IH as [|c cs Hc _ IHcs]; cbn; [reflexivity|]. rewrite app_length, Hc, IHcs. reflexivity.
  Qed.

  Lemma rsize_pos t : 1 <= rsize t.
  Proof. destruct t; cbn; lia. Qed.
  Lemma list_sum_app' l1 l2 : list_sum (l1 ++ l2) = list_sum l1 + list_sum l2.
  Proof. apply list_sum_app. Qed.
  Lemma ctx_length_size c s : length c + rsize s <= rsize (plug c s).
  Proof.
    revert s; induction c as [|[[ls a] rs] c IH]; intros s; cbn; [lia|].
    specialize (IH (Rose a (ls ++ s :: rs))). cbn in IH.
    rewrite map_app, list_sum_app' in IH. cbn in IH. lia.
  Qed.
  Lemma height_rsize t : height t <= rsize t.
  Proof.
    induction t as [a cs IH] using rose_ind'; cbn [height rsize]. apply le_n_S.
    induction IH as [|c cs Hc _ IHcs]; cbn [map list_max list_sum foldr]; [reflexivity|].
    unfold list_max, list_sum in *. cbn [foldr]. lia.
  Qed.

  (** Uniqueness of positions when labels are distinct. *)
  Lemma NoDup_split_unique {B} (l1 l1' l2 l2' : list B) x :
    NoDup (l1 ++ x :: l2) -> l1 ++ x :: l2 = l1' ++ x :: l2' -> l1 = l1' /\ l2 = l2'.
  Proof.
    revert l1'. induction l1 as [|y l1 IH]; intros l1' Hnd Heq.
    - destruct l1' as [|y' l1']; cbn in *.
      + injection Heq as ->. auto.
      + injection Heq as -> ->. apply NoDup_cons in Hnd as [Hn _].
        exfalso; apply Hn. apply elem_of_app; right; apply elem_of_cons; left; reflexivity.
    - destruct l1' as [|y' l1']; cbn in *.
      + injection Heq as -> <-. apply NoDup_cons in Hnd as [Hn _].
        exfalso; apply Hn. apply elem_of_app; right; apply elem_of_cons; left; reflexivity.
      + injection Heq as -> Heq. apply NoDup_cons in Hnd as [_ Hnd].
        destruct (IH _ Hnd Heq) as [-> ->]. auto.
  Qed.

  (** heads and lasts of lists of labels, as pointers *)
  Definition head_label cs : option A := match cs with [] => None | s :: _ => Some (label s) end.
  Definition last_label cs : option A := head_label (rev cs).
  Lemma last_label_snoc cs s : last_label (cs ++ [s]) = Some (label s).
  Proof. unfold last_label. rewrite rev_app_distr. reflexivity. Qed.
  Lemma head_label_mirror cs : head_label (rev (map mirror cs)) = last_label cs.
  Proof.
    unfold last_label. rewrite <- map_rev. destruct (rev cs); cbn; [reflexivity|].
    rewrite label_mirror. reflexivity.
  Qed.
  Lemma last_label_mirror cs : last_label (rev (map mirror cs)) = head_label cs.
  Proof.
    unfold last_label. rewrite rev_involutive. destruct cs; cbn; [reflexivity|].
    rewrite label_mirror. reflexivity.
  Qed.

  Definition ctx_parent (c : ctx A) : option A :=
    match c with [] => None | (_, a, _) :: _ => Some a end.
  Definition ctx_prev (c : ctx A) : option A :=
    match c with [] => None | (ls, _, _) :: _ => last_label ls end.
  Definition ctx_next (c : ctx A) : option A :=
    match c with [] => None | (_, _, rs) :: _ => head_label rs end.

  Lemma label_plug_root c s : label (plug c s) = match c with [] => label s | _ => label (plug c s) end.
  Proof. destruct c; reflexivity. Qed.

  (** With distinct labels, the root's label is not the label of a deeper node. *)
  Lemma label_root_iff c s :
    NoDup (preorder (plug c s)) -> label s = label (plug c s) <-> c = [].
  Proof.
    intros Hnd; split; [|intros ->; reflexivity]. intros Heq.
    destruct c as [|f c] using rev_ind; [reflexivity|]. exfalso.
    destruct f as [[ls a] rs]. rewrite plug_app in *. cbn in *.
    rewrite Heq in *. apply NoDup_cons in Hnd as [Hn _]. apply Hn.
    rewrite flat_map_app'. cbn. apply elem_of_app; right; apply elem_of_app; left.
    rewrite <- Heq. apply position_elem.
  Qed.

  Lemma NoDup_sub c s : NoDup (preorder (plug c s)) -> NoDup (preorder s).
  Proof.
    rewrite preorder_plug. intros H.
    apply NoDup_app in H as (_ & _ & H). apply NoDup_app in H as (H & _ & _). exact H.
  Qed.

  Lemma ctx_unique c s c' s' :
    NoDup (preorder (plug c s)) -> plug c s = plug c' s' -> label s = label s' -> c = c' /\ s = s'.
  Proof.
    revert c' s'. induction c as [|f c IH] using rev_ind; intros c' s' Hnd Heq Hl.
    - cbn in *. subst s. apply label_root_iff in Hnd as Hn.
      assert (Hc' : c' = []) by (apply Hn; symmetry; exact Hl). subst c'. auto.
    - destruct c' as [|f' c'] using rev_ind.
      + cbn in *. subst s'. exfalso. apply label_root_iff in Hnd.
        assert (H : c ++ [f] = []) by (apply Hnd; exact Hl). destruct c; discriminate.
      + clear IHc'. destruct f as [[ls a] rs], f' as [[ls' a'] rs'].
        rewrite !plug_app in *. cbn in Heq, Hnd. injection Heq as <- Hcs.
        apply NoDup_cons in Hnd as [_ Hnd].
        assert (Hsplit : ls = ls' /\ plug c s = plug c' s' /\ rs = rs').
        { clear IH. revert ls' Hcs Hnd. induction ls as [|l ls IHls]; intros ls' Hcs Hnd.
          - destruct ls' as [|l' ls']; cbn in *.
            + injection Hcs as -> ->. auto.
            + injection Hcs as <- ->. exfalso. rewrite flat_map_app' in Hnd. cbn in Hnd.
              apply NoDup_app in Hnd as (_ & Hnd & _). apply (Hnd (label s)).
              * apply position_elem.
              * apply elem_of_app; right; apply elem_of_app; left. rewrite Hl. apply position_elem.
          - destruct ls' as [|l' ls']; cbn in *.
            + injection Hcs as -> <-. exfalso. rewrite flat_map_app' in Hnd. cbn in Hnd.
              apply NoDup_app in Hnd as (_ & Hnd & _). apply (Hnd (label s)).
              * rewrite Hl. apply position_elem.
              * apply elem_of_app; right; apply elem_of_app; left. apply position_elem.
            + injection Hcs as -> Hcs. apply NoDup_app in Hnd as (_ & _ & Hnd).
              destruct (IHls _ Hcs Hnd) as (-> & ? & ->). auto. }
        destruct Hsplit as (-> & Hp & ->).
        rewrite flat_map_app' in Hnd. cbn in Hnd.
        apply NoDup_app in Hnd as (_ & _ & Hnd). apply NoDup_app in Hnd as (Hnd & _ & _).
        destruct (IH _ _ Hnd Hp Hl) as [-> ->]. auto.
  Qed.
End RoseFacts.
