(** NavFacts.v: what a correct navigator answers at each position of a tree, and
    the pre-order and post-order steps. *)
From Verif Require Import Base Spec RoseFacts Nav Policy.

Definition is_nil {A} (l : list A) : bool := match l with [] => true | _ => false end.

(** [nav] navigates the tree of addresses [t]. *)
Record nav_ok (nav : navigator) (t : rose addr) : Prop := NavOk {
  no_nd : NoDup (preorder t);
  no_root : nav_root nav = Some (label t);
  no_is_root : forall p, nav_is_root nav p = ptr_eqb p (Some (label t));
  no_first : forall c s, plug c s = t -> nav_first nav (Some (label s)) = Ok (head_label (children s));
  no_last : forall c s, plug c s = t -> nav_last nav (Some (label s)) = Ok (last_label (children s));
  no_parent : forall c s, plug c s = t -> nav_parent nav (Some (label s)) = Ok (ctx_parent c);
  no_prev : forall c s, plug c s = t -> nav_prev nav (Some (label s)) = Ok (ctx_prev c);
  no_next : forall c s, plug c s = t -> nav_next nav (Some (label s)) = Ok (ctx_next c);
  no_is_first : forall c s, plug c s = t ->
    nav_is_first nav (Some (label s)) = Ok (match c with [] => false | (ls, _, _) :: _ => is_nil ls end);
  no_is_last : forall c s, plug c s = t ->
    nav_is_last nav (Some (label s)) = Ok (match c with [] => false | (_, _, rs) :: _ => is_nil rs end)
}.

Definition mirror_nav (nav : navigator) : navigator :=
  Navigator (nav_root nav) (nav_is_root nav)
    (nav_is_last nav) (nav_is_first nav) (nav_is_right nav) (nav_is_left nav)
    (nav_parent nav) (nav_next nav) (nav_prev nav)
    (nav_last nav) (nav_first nav) (nav_right nav) (nav_left nav) (nav_child nav).

Lemma is_nil_mirror {A} (l : list (rose A)) : is_nil (rev (map mirror l)) = is_nil l.
Proof.
  destruct l as [|x l]; [reflexivity|]. cbn. destruct (rev (map mirror l)); reflexivity.
Qed.

Lemma nav_ok_mirror nav t : nav_ok nav t -> nav_ok (mirror_nav nav) (mirror t).
Proof.
  intros H.
  assert (Hpos : forall c s, plug c s = mirror t -> plug (mctx c) (mirror s) = t).
  { intros c s Hp. rewrite <- mirror_plug, Hp. apply mirror_mirror. }
  assert (Hc : forall (c : ctx addr), c = mctx (mctx c)) by (intros; symmetry; apply mctx_mctx).
  split; cbn.
  - rewrite preorder_mirror. rewrite <- Permutation_rev, <- pre_post_perm. apply (no_nd _ _ H).
  - rewrite label_mirror. apply (no_root _ _ H).
  - intros p. rewrite label_mirror. apply (no_is_root _ _ H).
  - intros c s Hp. apply Hpos in Hp. rewrite <- (label_mirror s).
    rewrite (no_last _ _ H _ _ Hp), children_mirror, last_label_mirror. reflexivity.
  - intros c s Hp. apply Hpos in Hp. rewrite <- (label_mirror s).
    rewrite (no_first _ _ H _ _ Hp), children_mirror, head_label_mirror. reflexivity.
  - intros c s Hp. apply Hpos in Hp. rewrite <- (label_mirror s).
    rewrite (no_parent _ _ H _ _ Hp). destruct c as [|[[ls a] rs] c]; reflexivity.
  - intros c s Hp. apply Hpos in Hp. rewrite <- (label_mirror s).
    rewrite (no_next _ _ H _ _ Hp). destruct c as [|[[ls a] rs] c]; cbn; [reflexivity|].
    rewrite head_label_mirror. reflexivity.
  - intros c s Hp. apply Hpos in Hp. rewrite <- (label_mirror s).
    rewrite (no_prev _ _ H _ _ Hp). destruct c as [|[[ls a] rs] c]; cbn; [reflexivity|].
    rewrite last_label_mirror. reflexivity.
  - intros c s Hp. apply Hpos in Hp. rewrite <- (label_mirror s).
    rewrite (no_is_last _ _ H _ _ Hp). destruct c as [|[[ls a] rs] c]; cbn; [reflexivity|].
    rewrite is_nil_mirror. reflexivity.
  - intros c s Hp. apply Hpos in Hp. rewrite <- (label_mirror s).
    rewrite (no_is_first _ _ H _ _ Hp). destruct c as [|[[ls a] rs] c]; cbn; [reflexivity|].
    rewrite is_nil_mirror. reflexivity.
Qed.

(** ** Deriving [nav_ok] from what the node operations answer. *)
Fixpoint ops_ok (ops : node_ops) (t : rose addr) : Prop :=
  match t with
  | Rose a cs =>
      op_first ops (Some a) = Ok (head_label cs) /\
      op_last ops (Some a) = Ok (last_label cs) /\
      (forall ls s rs, cs = ls ++ s :: rs ->
         op_parent ops (Some (label s)) = Ok (Some a) /\
         op_prev ops (Some (label s)) = Ok (last_label ls) /\
         op_next ops (Some (label s)) = Ok (head_label rs)) /\
      foldr (fun c P => ops_ok ops c /\ P) True cs
  end.

Lemma foldr_and_Forall {A} (P : A -> Prop) l :
  foldr (fun c Q => P c /\ Q) True l <-> Forall P l.
Proof.
  induction l as [|x l IH]; cbn.
  - split; auto.
  - rewrite IH, Forall_cons. reflexivity.
Qed.

Lemma ops_ok_unfold ops a cs :
  ops_ok ops (Rose a cs) <->
  op_first ops (Some a) = Ok (head_label cs) /\
  op_last ops (Some a) = Ok (last_label cs) /\
  (forall ls s rs, cs = ls ++ s :: rs ->
     op_parent ops (Some (label s)) = Ok (Some a) /\
     op_prev ops (Some (label s)) = Ok (last_label ls) /\
     op_next ops (Some (label s)) = Ok (head_label rs)) /\
  Forall (ops_ok ops) cs.
Proof. cbn [ops_ok]. rewrite foldr_and_Forall. reflexivity. Qed.

Lemma ops_ok_plug ops c s :
  ops_ok ops (plug c s) ->
  ops_ok ops s /\
  match c with
  | [] => True
  | (ls, a, rs) :: c' =>
      op_parent ops (Some (label s)) = Ok (Some a) /\
      op_prev ops (Some (label s)) = Ok (last_label ls) /\
      op_next ops (Some (label s)) = Ok (head_label rs) /\
      op_first ops (Some a) = Ok (head_label (ls ++ s :: rs)) /\
      op_last ops (Some a) = Ok (last_label (ls ++ s :: rs))
  end.
Proof.
  revert s. induction c as [|[[ls a] rs] c IH]; intros s; cbn [plug]; [auto|].
  intros H. apply IH in H as [H _]. apply ops_ok_unfold in H as (H1 & H2 & H3 & H4).
  split.
  - rewrite Forall_app, Forall_cons in H4. apply H4.
  - destruct (H3 _ _ _ eq_refl) as (? & ? & ?). auto 6.
Qed.

Lemma last_label_app_cons {A} (ls : list (rose A)) s rs :
  last_label (ls ++ s :: rs) = match rs with [] => Some (label s) | _ => last_label rs end.
Proof.
  unfold last_label. rewrite rev_app_distr. cbn. rewrite <- app_assoc.
  destruct rs as [|r rs]; [reflexivity|]. cbn.
  destruct (rev rs) as [|x l]; reflexivity.
Qed.
Lemma last_label_elem {A} (rs : list (rose A)) r :
  rs <> [] -> last_label rs = Some r -> exists s, s ∈ rs /\ label s = r.
Proof.
  unfold last_label. intros _ H. destruct (rev rs) as [|x l] eqn:E; [discriminate|].
  cbn in H. injection H as <-. exists x. split; [|reflexivity].
  apply elem_of_list_In, in_rev. rewrite E. left; reflexivity.
Qed.
Lemma last_label_cons_some {A} (r : rose A) rs : exists x, last_label (r :: rs) = Some x.
Proof.
  unfold last_label. cbn. destruct (rev rs); cbn; eauto.
Qed.

Lemma NoDup_children_labels (a : addr) ls s rs :
  NoDup (preorder (Rose a (ls ++ s :: rs))) ->
  forall s', s' ∈ ls \/ s' ∈ rs -> label s' <> label s.
Proof.
  cbn. intros Hnd. apply NoDup_cons in Hnd as [_ Hnd].
  rewrite flat_map_app' in Hnd. cbn in Hnd.
  intros s' [Hs'|Hs'] Heq.
  - apply NoDup_app in Hnd as (_ & Hnd & _). apply (Hnd (label s')).
    + apply elem_of_flat_map. exists s'. split; [exact Hs'|]. apply (position_elem [] s').
    + apply elem_of_app; left. rewrite Heq. apply (position_elem [] s).
  - apply NoDup_app in Hnd as (_ & _ & Hnd). apply NoDup_app in Hnd as (_ & Hnd & _).
    apply (Hnd (label s)).
    + apply (position_elem [] s).
    + apply elem_of_flat_map. exists s'. split; [exact Hs'|]. rewrite <- Heq. apply (position_elem [] s').
Qed.

Lemma ptr_eqb_true p : ptr_eqb p p = true.
Proof. apply bool_decide_eq_true. reflexivity. Qed.
Lemma ptr_eqb_false p q : p <> q -> ptr_eqb p q = false.
Proof. intros. apply bool_decide_eq_false. assumption. Qed.
Lemma ptr_eqb_spec p q : ptr_eqb p q = true <-> p = q.
Proof. apply bool_decide_eq_true. Qed.

Lemma node_navigator_ok ops t :
  ops_ok ops t -> NoDup (preorder t) -> nav_ok (node_navigator ops (Some (label t))) t.
Proof.
  intros Hops Hnd.
  assert (Hroot : forall c s, plug c s = t ->
            base_is_root (Some (label t)) (Some (label s)) = is_nil c).
  { intros c s <-. unfold base_is_root. destruct (label_root_iff c s Hnd) as [H1 H2].
    destruct c as [|f c]; cbn [is_nil].
    - apply ptr_eqb_true.
    - apply ptr_eqb_false. intros [=Heq]. specialize (H1 Heq). discriminate. }
  split; cbn; try assumption; try reflexivity.
  - intros c s <-. apply ops_ok_plug in Hops as [Hs _]. destruct s as [a cs].
    apply ops_ok_unfold in Hs as (H & _). exact H.
  - intros c s <-. apply ops_ok_plug in Hops as [Hs _]. destruct s as [a cs].
    apply ops_ok_unfold in Hs as (_ & H & _). exact H.
  - intros c s Hp. unfold base_unless_root. rewrite (Hroot _ _ Hp).
    destruct c as [|[[ls a] rs] c]; cbn [is_nil]; [reflexivity|].
    subst t. apply ops_ok_plug in Hops as (_ & H & _). exact H.
  - intros c s Hp. unfold base_unless_root. rewrite (Hroot _ _ Hp).
    destruct c as [|[[ls a] rs] c]; cbn [is_nil]; [reflexivity|].
    subst t. apply ops_ok_plug in Hops as (_ & _ & H & _). exact H.
  - intros c s Hp. unfold base_unless_root. rewrite (Hroot _ _ Hp).
    destruct c as [|[[ls a] rs] c]; cbn [is_nil]; [reflexivity|].
    subst t. apply ops_ok_plug in Hops as (_ & _ & _ & H & _). exact H.
  - intros c s Hp. unfold base_is_child. rewrite (Hroot _ _ Hp).
    destruct c as [|[[ls a] rs] c]; cbn [is_nil]; [reflexivity|].
    subst t. apply ops_ok_plug in Hops as (_ & H1 & _ & _ & H2 & _).
    rewrite H1. cbn [mbind res_bind]. rewrite H2. cbn [mbind res_bind]. f_equal.
    cbn [plug] in Hnd. apply NoDup_sub in Hnd.
    destruct ls as [|l ls]; cbn; [apply ptr_eqb_true|]. apply ptr_eqb_false. intros [=Heq].
    apply (NoDup_children_labels _ _ _ _ Hnd l); [left; apply elem_of_cons; left; reflexivity|auto].
  - intros c s Hp. unfold base_is_child. rewrite (Hroot _ _ Hp).
    destruct c as [|[[ls a] rs] c]; cbn [is_nil]; [reflexivity|].
    subst t. apply ops_ok_plug in Hops as (_ & H1 & _ & _ & _ & H2).
    rewrite H1. cbn [mbind res_bind]. rewrite H2. cbn [mbind res_bind]. f_equal.
    cbn [plug] in Hnd. apply NoDup_sub in Hnd.
    rewrite last_label_app_cons.
    destruct rs as [|r rs]; cbn [is_nil]; [apply ptr_eqb_true|]. apply ptr_eqb_false. intros Heq.
    symmetry in Heq. apply last_label_elem in Heq as (s' & Hs' & Heq); [|discriminate].
    apply (NoDup_children_labels _ _ _ _ Hnd s'); [right; exact Hs'|exact Heq].
Qed.

Lemma pure_call_ok {S} f (s : S) p q : f p = Ok q -> pure_call f s p = Ok (q, s).
Proof. intros H. unfold pure_call. rewrite H. reflexivity. Qed.

Lemma pure_call_eq {S} f (s : S) p : pure_call f s p = (q ← f p; Ok (q, s)).
Proof. reflexivity. Qed.

(** ** Climbing and descending. *)
Section Steps.
  Variable nav : navigator.
  Variable t : rose addr.
  Hypothesis Hok : nav_ok nav t.

  (** The label found by going up to the first ancestor-or-self that has a right
      sibling and taking that sibling. *)
  Fixpoint next_up (c : ctx addr) : option addr :=
    match c with
    | [] => None
    | (_, _, r :: _) :: _ => Some (label r)
    | (_, _, []) :: c => next_up c
    end.
  Lemma head_preorders (rs : list (rose addr)) l :
    head (flat_map preorder rs ++ l) = match rs with [] => head l | r :: _ => Some (label r) end.
  Proof. destruct rs as [|[a cs] rs]; reflexivity. Qed.
  Lemma next_up_after c : next_up c = head (pre_after c).
  Proof.
    induction c as [|[[ls a] rs] c IH]; cbn; [reflexivity|].
    rewrite head_preorders, <- IH. reflexivity.
  Qed.

  Lemma climb_last c : forall s fuel, plug c s = t -> length c < fuel ->
    keep_calling_loop (S := unit) (pure_call (nav_parent nav))
      (fun st child _ => b ← nav_is_last nav child; Ok (negb b, st))
      (fun st child _ => q ← nav_next nav child; Ok (q, st))
      fuel (Some (label s)) (ctx_parent c) ()
    = Ok (match next_up c with Some y => Some y | None => Some (label t) end, ()).
  Proof.
    induction c as [|[[ls a] rs] c IH]; intros s fuel Hp Hf;
      (destruct fuel as [|fuel]; [cbn in Hf; lia|]).
    - cbn in Hp. subst s. reflexivity.
    - cbn [keep_calling_loop ctx_parent].
      rewrite (no_is_last _ _ Hok _ _ Hp). cbn [mbind res_bind].
      destruct rs as [|r rs]; cbn [is_nil negb].
      + pose proof Hp as Hp2. cbn [plug] in Hp2.
        pose proof (no_parent _ _ Hok _ _ Hp2) as Hpar. cbn [label] in Hpar.
        rewrite (pure_call_ok _ _ _ _ Hpar). cbn [mbind res_bind next_up].
        specialize (IH (Rose a (ls ++ [s])) fuel). cbn [label] in IH.
        apply IH; [exact Hp2|]. cbn in Hf; lia.
      + rewrite (no_next _ _ Hok _ _ Hp). reflexivity.
  Qed.

  (** Descending along first children ends at the first node in post-order. *)
  Lemma head_postorder_cons (s : rose addr) cs l :
    head (flat_map postorder (s :: cs) ++ l) = head (postorder s).
  Proof.
    cbn. destruct s as [a cs']. cbn. destruct (flat_map postorder cs'); reflexivity.
  Qed.
  Lemma descend_first s : forall c fuel, plug c s = t -> height s <= fuel ->
    keep_calling0_loop (S := unit) (pure_call (nav_first nav)) fuel
      (Some (label s)) (head_label (children s)) () = Ok (head (postorder s), ()).
  Proof.
    induction s as [a cs IH] using rose_ind'. intros c fuel Hp Hf.
    destruct fuel as [|fuel]; [cbn in Hf; lia|].
    cbn [keep_calling0_loop label children].
    destruct cs as [|s cs]; [reflexivity|]. cbn [head_label].
    assert (Hp2 : plug (([], a, cs) :: c) s = t) by exact Hp.
    rewrite (pure_call_ok _ _ _ _ (no_first _ _ Hok _ _ Hp2)). cbn [mbind res_bind].
    apply Forall_cons in IH as [IH _].
    rewrite (IH _ fuel Hp2).
    - cbn [postorder]. f_equal. f_equal. symmetry. apply head_postorder_cons.
    - cbn [height map list_max foldr] in Hf. unfold list_max in Hf. cbn [foldr] in Hf. lia.
  Qed.
  Lemma keep_first s c fuel : plug c s = t -> height s <= fuel ->
    keep_calling1 fuel (Some (label s)) (nav_first nav) = Ok (head (postorder s)).
  Proof.
    intros Hp Hf. unfold keep_calling1, keep_calling0.
    rewrite (pure_call_ok _ _ _ _ (no_first _ _ Hok _ _ Hp)). cbn [mbind res_bind].
    rewrite (descend_first _ _ _ Hp Hf). reflexivity.
  Qed.

  Variable F : nat.
  Hypothesis HF : rsize t <= F.

  Lemma pos_fuel c s : plug c s = t -> length c < F /\ height s <= F.
  Proof.
    intros <-. pose proof (ctx_length_size c s). pose proof (rsize_pos s).
    pose proof (height_rsize s). lia.
  Qed.

  Lemma pre_increment_pos c s : plug c s = t ->
    pre_increment F nav (Some (label s)) = Ok (head (flat_map preorder (children s) ++ pre_after c)).
  Proof.
    intros Hp. unfold pre_increment. rewrite (no_first _ _ Hok _ _ Hp). cbn [mbind res_bind].
    rewrite head_preorders. destruct (children s) as [|s1 cs]; cbn [head_label]; [|reflexivity].
    unfold keep_calling. rewrite (pure_call_ok _ _ _ _ (no_parent _ _ Hok _ _ Hp)). cbn [mbind res_bind].
    rewrite (climb_last c s F Hp) by apply (pos_fuel _ _ Hp). cbn [mbind res_bind].
    rewrite (no_is_root _ _ Hok). f_equal. rewrite <- next_up_after.
    destruct (next_up c) as [y|] eqn:Hy; [|rewrite ptr_eqb_true; reflexivity].
    rewrite ptr_eqb_false; [reflexivity|]. intros [=Heq]. subst y.
    (* the found node comes after the root *)
    pose proof (no_nd _ _ Hok) as Hnd. rewrite <- Hp, preorder_plug in Hnd.
    assert (Hin : label t ∈ pre_after c).
    { rewrite next_up_after in Hy. destruct (pre_after c); [discriminate|]. injection Hy as ->.
      apply elem_of_cons; left; reflexivity. }
    destruct t as [a cs]. pose proof (preorder_plug c s) as Hpp. rewrite Hp in Hpp.
    rewrite <- Hpp in Hnd. cbn in Hnd, Hin, Hpp.
    destruct (pre_before c ++ preorder s) as [|z zs] eqn:Ez.
    - destruct s; destruct (pre_before c); discriminate.
    - rewrite app_assoc, Ez in Hpp. cbn in Hpp. injection Hpp as -> Hpp.
      apply NoDup_cons in Hnd as [Hn _]. apply Hn. rewrite Hpp. apply elem_of_app; right; exact Hin.
  Qed.

  Lemma post_increment_pos c s : plug c s = t ->
    post_increment F nav (Some (label s)) = Ok (head (post_after c)).
  Proof.
    intros Hp. unfold post_increment. rewrite (no_is_root _ _ Hok).
    destruct c as [|[[ls a] rs] c].
    - cbn in Hp. subst s. rewrite ptr_eqb_true. reflexivity.
    - rewrite ptr_eqb_false.
      2:{ intros [=Heq]. pose proof (no_nd _ _ Hok) as Hnd. rewrite <- Hp in Heq, Hnd.
          apply (label_root_iff _ _ Hnd) in Heq. discriminate. }
      rewrite (no_next _ _ Hok _ _ Hp). cbn [mbind res_bind ctx_next post_after].
      destruct rs as [|r rs]; cbn [head_label].
      + rewrite (no_parent _ _ Hok _ _ Hp). reflexivity.
      + assert (Hp2 : plug ((ls ++ [s], a, rs) :: c) r = t).
        { rewrite <- Hp. cbn. rewrite <- app_assoc. reflexivity. }
        rewrite (keep_first _ _ F Hp2) by apply (pos_fuel _ _ Hp2).
        rewrite head_postorder_cons. reflexivity.
  Qed.

  (** The two steps as statements about the orders. *)
  Lemma pre_increment_ok l1 x l2 : preorder t = l1 ++ x :: l2 ->
    pre_increment F nav (Some x) = Ok (head l2).
  Proof.
    intros Hl. destruct (elem_position t x) as (c & s & Hp & Hx).
    { rewrite Hl. apply elem_of_app; right; apply elem_of_cons; left; reflexivity. }
    pose proof (no_nd _ _ Hok) as Hnd.
    rewrite <- Hx, (pre_increment_pos c s Hp).
    pose proof (preorder_plug c s) as Hpp. rewrite Hp, Hl in Hpp.
    rewrite Hl in Hnd. destruct s as [a cs]. cbn in Hpp, Hx |- *. subst a.
    apply NoDup_split_unique in Hpp as [_ ->]; [reflexivity|exact Hnd].
  Qed.
  Lemma post_increment_ok l1 x l2 : postorder t = l1 ++ x :: l2 ->
    post_increment F nav (Some x) = Ok (head l2).
  Proof.
    intros Hl. destruct (elem_position t x) as (c & s & Hp & Hx).
    { rewrite pre_post_perm, Hl. apply elem_of_app; right; apply elem_of_cons; left; reflexivity. }
    pose proof (no_nd _ _ Hok) as Hnd. rewrite pre_post_perm in Hnd.
    rewrite <- Hx, (post_increment_pos c s Hp).
    pose proof (postorder_plug c s) as Hpp. rewrite Hp, Hl in Hpp.
    rewrite Hl in Hnd. destruct s as [a cs]. cbn in Hpp, Hx |- *. subst a.
    rewrite <- !app_assoc in Hpp. cbn in Hpp. rewrite app_assoc in Hpp.
    apply NoDup_split_unique in Hpp as [_ ->]; [reflexivity|exact Hnd].
  Qed.
End Steps.

Lemma height_mirror {A} (t : rose A) : height (mirror t) = height t.
Proof.
  induction t as [a cs IH] using rose_ind'; cbn [mirror height]. f_equal.
  induction IH as [|c cs Hc _ IHcs]; cbn [map rev]; [reflexivity|].
  rewrite map_app, list_max_app, IHcs. cbn [map]. rewrite Hc.
  change (list_max (height c :: map height cs)) with (Nat.max (height c) (list_max (map height cs))).
  change (list_max [height c]) with (Nat.max (height c) 0). lia.
Qed.
Lemma rsize_mirror {A} (t : rose A) : rsize (mirror t) = rsize t.
Proof.
  rewrite <- !length_preorder, preorder_mirror, rev_length.
  symmetry. apply Permutation_length, pre_post_perm.
Qed.

Lemma last_rev {A} (l : list A) : last l = head (rev l).
Proof.
  induction l as [|x l IH] using rev_ind; [reflexivity|].
  rewrite last_snoc, rev_app_distr. reflexivity.
Qed.

Section Decr.
  Variable nav : navigator.
  Variable t : rose addr.
  Hypothesis Hok : nav_ok nav t.
  Variable F : nat.
  Hypothesis HF : rsize t <= F.

  Lemma HFm : rsize (mirror t) <= F.
  Proof. rewrite rsize_mirror. exact HF. Qed.

  Lemma pre_decrement_ok l1 x l2 : preorder t = l1 ++ x :: l2 ->
    pre_decrement F nav (Some x) = Ok (last l1).
  Proof.
    intros Hl.
    change (pre_decrement F nav (Some x)) with (post_increment F (mirror_nav nav) (Some x)).
    rewrite last_rev. apply (post_increment_ok _ _ (nav_ok_mirror _ _ Hok) _ HFm (rev l2)).
    rewrite postorder_mirror, Hl, rev_app_distr. cbn. rewrite <- app_assoc. reflexivity.
  Qed.

  (** [post_decrement] differs from the mirrored [pre_increment] only in the
      missing test for the root: at the first element it yields the root. *)
  Lemma post_decrement_pre nav' p : nav' = mirror_nav nav ->
    pre_increment F nav' p =
    (q ← post_decrement F nav p;
     lc ← nav_last nav p;
     Ok (match lc with Some _ => q | None => if nav_is_root nav q then None else q end)).
  Proof.
    intros ->. unfold pre_increment, post_decrement, mirror_nav.
    cbn [nav_root nav_is_root nav_is_first nav_is_last nav_parent nav_prev nav_next nav_first nav_last].
    destruct (nav_last nav p) as [[l|]|e]; cbn [mbind res_bind]; [reflexivity| |reflexivity].
    match goal with |- context [keep_calling ?a ?b ?c ?d ?e ?f] => destruct (keep_calling a b c d e f) as [[q []]|?] end;
      reflexivity.
  Qed.

  Lemma post_decrement_ok l1 x l2 : postorder t = l1 ++ x :: l2 -> l1 <> [] ->
    post_decrement F nav (Some x) = Ok (last l1).
  Proof.
    intros Hl Hne.
    pose proof (pre_increment_ok _ _ (nav_ok_mirror _ _ Hok) _ HFm (rev l2) x (rev l1)) as H.
    rewrite preorder_mirror, Hl, rev_app_distr in H. cbn [rev] in H. rewrite <- app_assoc in H. cbn [app] in H.
    specialize (H eq_refl). rewrite (post_decrement_pre _ _ eq_refl), <- last_rev in H.
    destruct (post_decrement F nav (Some x)) as [q|e]; cbn in H; [|discriminate].
    destruct (nav_last nav (Some x)) as [lc|e]; cbn in H; [|discriminate].
    injection H as H.
    assert (Hl1 : exists y, last l1 = Some y).
    { destruct l1 as [|y l1 _] using rev_ind; [congruence|]. rewrite last_snoc. eauto. }
    destruct Hl1 as [y Hy]. rewrite Hy in *.
    destruct lc as [lc|]; [rewrite H; reflexivity|].
    destruct (nav_is_root nav q); [discriminate|]. rewrite H. reflexivity.
  Qed.

  Lemma pre_go_last_ok : get_highest_leaf nav F false = Ok (last (preorder t)).
  Proof.
    unfold get_highest_leaf. rewrite (no_root _ _ Hok). cbn [side_child].
    change (nav_last nav) with (nav_first (mirror_nav nav)).
    rewrite <- (label_mirror t).
    rewrite (keep_first _ _ (nav_ok_mirror _ _ Hok) (mirror t) [] F eq_refl).
    - rewrite postorder_mirror, last_rev. reflexivity.
    - rewrite height_mirror. pose proof (height_rsize t). lia.
  Qed.
  Lemma post_go_first_ok : get_highest_leaf nav F true = Ok (head (postorder t)).
  Proof.
    unfold get_highest_leaf. rewrite (no_root _ _ Hok). cbn [side_child].
    rewrite (keep_first _ _ Hok t [] F eq_refl); [reflexivity|].
    pose proof (height_rsize t). lia.
  Qed.
End Decr.
