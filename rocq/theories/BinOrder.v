(** BinOrder.v: the in-order policy on binary trees. *)
From Verif Require Import Base Spec RoseFacts RowFacts Nav Policy NavFacts Orders PolicyFacts.

Section BinZipper.
  Context {A : Type}.
  Implicit Types (t s : bin A).
  (** Positions in a binary tree, innermost frame first. *)
  Inductive bframe : Type :=
  | LeftOf (a : A) (r : bin A)
  | RightOf (a : A) (l : bin A).
  Fixpoint bplug (c : list bframe) (s : bin A) : bin A :=
    match c with
    | [] => s
    | LeftOf a r :: c => bplug c (BNode a s r)
    | RightOf a l :: c => bplug c (BNode a l s)
    end.
  Lemma bplug_app c1 c2 s : bplug (c1 ++ c2) s = bplug c2 (bplug c1 s).
  Proof. revert s; induction c1 as [|[a r|a l] c1 IH]; intros s; cbn; auto. Qed.

  Fixpoint in_before (c : list bframe) : list A :=
    match c with
    | [] => []
    | LeftOf a r :: c => in_before c
    | RightOf a l :: c => in_before c ++ inorder l ++ [a]
    end.
  Fixpoint in_after (c : list bframe) : list A :=
    match c with
    | [] => []
    | LeftOf a r :: c => a :: inorder r ++ in_after c
    | RightOf a l :: c => in_after c
    end.
  Lemma inorder_bplug c s : inorder (bplug c s) = in_before c ++ inorder s ++ in_after c.
  Proof.
    revert s; induction c as [|[a r|a l] c IH]; intros s; cbn.
    - rewrite app_nil_r; reflexivity.
    - rewrite IH. cbn. norm_app. reflexivity.
    - rewrite IH. cbn. norm_app. reflexivity.
  Qed.

  Definition broot (t : bin A) : option A := match t with BLeaf => None | BNode a _ _ => Some a end.

  Lemma inorder_labels t : Permutation (inorder t) (bin_labels t).
  Proof.
    induction t as [|a l IHl r IHr]; cbn; [reflexivity|]. rewrite IHl, IHr.
    rewrite <- Permutation_middle. reflexivity.
  Qed.
  Lemma length_inorder t : length (inorder t) = bin_size t.
  Proof. induction t as [|a l IHl r IHr]; cbn; [reflexivity|]. rewrite app_length. cbn. lia. Qed.
  Lemma bin_position t x : x ∈ bin_labels t -> exists c l r, bplug c (BNode x l r) = t.
  Proof.
    induction t as [|a l IHl r IHr]; cbn.
    - intros H; apply elem_of_nil in H as [].
    - rewrite elem_of_cons, elem_of_app. intros [->|[H|H]].
      + exists [], l, r. reflexivity.
      + destruct (IHl H) as (c & l' & r' & <-). exists (c ++ [LeftOf a r]), l', r'. rewrite bplug_app. reflexivity.
      + destruct (IHr H) as (c & l' & r' & <-). exists (c ++ [RightOf a l]), l', r'. rewrite bplug_app. reflexivity.
  Qed.
  Lemma bplug_size c s : length c + bin_size s <= bin_size (bplug c s).
  Proof.
    revert s; induction c as [|[a r|a l] c IH]; intros s; cbn; [lia| |].
    - specialize (IH (BNode a s r)). cbn in IH. lia.
    - specialize (IH (BNode a l s)). cbn in IH. lia.
  Qed.

  Fixpoint bmirror (t : bin A) : bin A :=
    match t with BLeaf => BLeaf | BNode a l r => BNode a (bmirror r) (bmirror l) end.
  Definition bmctx (c : list bframe) : list bframe :=
    map (fun f => match f with LeftOf a r => RightOf a (bmirror r) | RightOf a l => LeftOf a (bmirror l) end) c.
  Lemma bmirror_bmirror t : bmirror (bmirror t) = t.
  Proof. induction t as [|a l IHl r IHr]; cbn; [reflexivity|]. rewrite IHl, IHr. reflexivity. Qed.
  Lemma bmirror_bplug c s : bmirror (bplug c s) = bplug (bmctx c) (bmirror s).
  Proof. revert s; induction c as [|[a r|a l] c IH]; intros s; cbn; [reflexivity| |]; apply IH. Qed.
  Lemma inorder_bmirror t : inorder (bmirror t) = rev (inorder t).
  Proof.
    induction t as [|a l IHl r IHr]; cbn; [reflexivity|]. rewrite IHl, IHr, rev_app_distr. cbn. norm_app. reflexivity.
  Qed.
  Lemma bin_size_bmirror t : bin_size (bmirror t) = bin_size t.
  Proof. induction t as [|a l IHl r IHr]; cbn; [reflexivity|]. lia. Qed.
  Lemma broot_bmirror t : broot (bmirror t) = broot t.
  Proof. destruct t; reflexivity. Qed.
End BinZipper.
Arguments bframe A : clear implicits.

Definition bctx_parent (c : list (bframe addr)) : ptr :=
  match c with [] => None | LeftOf a _ :: _ => Some a | RightOf a _ :: _ => Some a end.

(** [nav] navigates the binary tree [t]. *)
Record bnav_ok (nav : navigator) (t : bin addr) : Prop := BNavOk {
  bn_nd : NoDup (bin_labels t);
  bn_root : nav_root nav = broot t;
  bn_left : forall c a l r, bplug c (BNode a l r) = t -> nav_left nav (Some a) = Ok (broot l);
  bn_right : forall c a l r, bplug c (BNode a l r) = t -> nav_right nav (Some a) = Ok (broot r);
  bn_parent : forall c a l r, bplug c (BNode a l r) = t -> nav_parent nav (Some a) = Ok (bctx_parent c);
  bn_is_left : forall c a l r, bplug c (BNode a l r) = t ->
    nav_is_left nav (Some a) = Ok (match c with LeftOf _ _ :: _ => true | _ => false end);
  bn_is_right : forall c a l r, bplug c (BNode a l r) = t ->
    nav_is_right nav (Some a) = Ok (match c with RightOf _ _ :: _ => true | _ => false end)
}.

Lemma bnav_ok_mirror nav t : bnav_ok nav t -> bnav_ok (mirror_nav nav) (bmirror t).
Proof.
  intros H.
  assert (Hpos : forall c a l r, bplug c (BNode a l r) = bmirror t ->
            bplug (bmctx c) (BNode a (bmirror r) (bmirror l)) = t).
  { intros c a l r Hp. change (BNode a (bmirror r) (bmirror l)) with (bmirror (BNode a l r)).
    rewrite <- bmirror_bplug, Hp. apply bmirror_bmirror. }
  split; cbn.
  - rewrite <- inorder_labels, inorder_bmirror, <- Permutation_rev, inorder_labels. apply (bn_nd _ _ H).
  - rewrite broot_bmirror. apply (bn_root _ _ H).
  - intros c a l r Hp. rewrite (bn_right _ _ H _ _ _ _ (Hpos _ _ _ _ Hp)), broot_bmirror. reflexivity.
  - intros c a l r Hp. rewrite (bn_left _ _ H _ _ _ _ (Hpos _ _ _ _ Hp)), broot_bmirror. reflexivity.
  - intros c a l r Hp. rewrite (bn_parent _ _ H _ _ _ _ (Hpos _ _ _ _ Hp)).
    destruct c as [|[b r'|b l'] c]; reflexivity.
  - intros c a l r Hp. rewrite (bn_is_right _ _ H _ _ _ _ (Hpos _ _ _ _ Hp)).
    destruct c as [|[b r'|b l'] c]; reflexivity.
  - intros c a l r Hp. rewrite (bn_is_left _ _ H _ _ _ _ (Hpos _ _ _ _ Hp)).
    destruct c as [|[b r'|b l'] c]; reflexivity.
Qed.

Section InSteps.
  Variable nav : navigator.
  Variable t : bin addr.
  Hypothesis Hok : bnav_ok nav t.
  Variable F : nat.
  Hypothesis HF : bin_size t <= F.

  Lemma left_spine l : forall c a r fuel, bplug c (BNode a l r) = t -> bin_size l < fuel ->
    keep_calling0_loop (S := unit) (pure_call (nav_left nav)) fuel (Some a) (broot l) ()
    = Ok (head (inorder (BNode a l r)), ()).
  Proof.
    induction l as [|b ll IHl lr _]; intros c a r fuel Hp Hf; (destruct fuel as [|fuel]; [lia|]);
      cbn [keep_calling0_loop broot].
    - reflexivity.
    - assert (Hp2 : bplug (LeftOf a r :: c) (BNode b ll lr) = t) by exact Hp.
      rewrite (pure_call_ok _ _ _ _ (bn_left _ _ Hok _ _ _ _ Hp2)). cbn [mbind res_bind].
      rewrite (IHl _ _ _ fuel Hp2) by (cbn in Hf; lia). cbn.
      destruct (inorder ll); reflexivity.
  Qed.
  Lemma keep_left c a l r fuel : bplug c (BNode a l r) = t -> bin_size l < fuel ->
    keep_calling1 fuel (Some a) (nav_left nav) = Ok (head (inorder (BNode a l r))).
  Proof.
    intros Hp Hf. unfold keep_calling1, keep_calling0.
    rewrite (pure_call_ok _ _ _ _ (bn_left _ _ Hok _ _ _ _ Hp)). cbn [mbind res_bind].
    rewrite (left_spine _ _ _ _ _ Hp Hf). reflexivity.
  Qed.

  Lemma in_climb c : forall a l r fuel, bplug c (BNode a l r) = t -> length c < fuel ->
    exists z, keep_calling_loop (S := bool) (pure_call (nav_parent nav))
      (fun s child _ => b ← nav_is_left nav child; Ok (b, s))
      (fun _ _ parent => Ok (parent, true))
      fuel (Some a) (bctx_parent c) false
    = Ok (match head (in_after c) with Some y => (Some y, true) | None => (z, false) end).
  Proof.
    induction c as [|f c IH]; intros a l r fuel Hp Hf; (destruct fuel as [|fuel]; [cbn in Hf; lia|]).
    - exists (Some a). reflexivity.
    - destruct f as [b r'|b l']; cbn [keep_calling_loop bctx_parent in_after head];
        rewrite (bn_is_left _ _ Hok _ _ _ _ Hp); cbn [mbind res_bind].
      + exists None. reflexivity.
      + pose proof Hp as Hp2. cbn [bplug] in Hp2.
        rewrite (pure_call_ok _ _ _ _ (bn_parent _ _ Hok _ _ _ _ Hp2)). cbn [mbind res_bind].
        destruct (IH _ _ _ fuel Hp2) as [z Hz]; [cbn in Hf; lia|]. exists z. exact Hz.
  Qed.

  Lemma in_increment_pos c a l r : bplug c (BNode a l r) = t ->
    in_increment F nav (Some a) = Ok (head (inorder r ++ in_after c)).
  Proof.
    intros Hp. unfold in_increment. rewrite (bn_right _ _ Hok _ _ _ _ Hp). cbn [mbind res_bind].
    pose proof (bplug_size c (BNode a l r)) as Hsz. rewrite Hp in Hsz. cbn in Hsz.
    destruct r as [|b rl rr]; cbn [broot].
    - unfold keep_calling. rewrite (pure_call_ok _ _ _ _ (bn_parent _ _ Hok _ _ _ _ Hp)). cbn [mbind res_bind].
      destruct (in_climb c a l BLeaf F Hp) as [z Hz]; [lia|]. rewrite Hz. cbn [inorder app].
      destruct (head (in_after c)); reflexivity.
    - rewrite (keep_left (RightOf a l :: c) b rl rr F Hp) by (cbn in Hsz; lia).
      cbn. destruct (inorder rl); reflexivity.
  Qed.

  Lemma nd_in : NoDup (inorder t).
  Proof. rewrite inorder_labels. apply (bn_nd _ _ Hok). Qed.

  Lemma in_increment_ok l1 x l2 : inorder t = l1 ++ x :: l2 -> in_increment F nav (Some x) = Ok (head l2).
  Proof.
    intros Hl. destruct (bin_position t x) as (c & l & r & Hp).
    { rewrite <- inorder_labels, Hl. set_solver. }
    rewrite (in_increment_pos _ _ _ _ Hp).
    pose proof (inorder_bplug c (BNode x l r)) as H. rewrite Hp, Hl in H. cbn in H.
    rewrite <- app_assoc in H. cbn in H. rewrite app_assoc in H.
    apply NoDup_split_unique in H as [_ ->]; [reflexivity|]. rewrite <- Hl. apply nd_in.
  Qed.
  Lemma in_go_first_ok : t <> BLeaf -> keep_calling1 F (nav_root nav) (nav_left nav) = Ok (head (inorder t)).
  Proof.
    intros Hne. rewrite (bn_root _ _ Hok).
    assert (Ht : exists a l r, BNode a l r = t) by (destruct t; [congruence|eauto]).
    destruct Ht as (a & l & r & Ht). rewrite <- Ht. cbn [broot].
    apply (keep_left [] a l r F Ht). rewrite <- Ht in HF. cbn in HF. lia.
  Qed.
End InSteps.

Section InOrderFacts.
  Variable nav : navigator.
  Variable t : bin addr.
  Hypothesis Hok : bnav_ok nav t.
  Variable F : nat.
  Hypothesis HF : bin_size t <= F.

  Lemma HFbm : bin_size (bmirror t) <= F.
  Proof. rewrite bin_size_bmirror. exact HF. Qed.

  (** [in_decrement] is the mirrored [in_increment] without the "found" test. *)
  Lemma in_decrement_mirror p q : in_increment F (mirror_nav nav) p = Ok (Some q) ->
    in_decrement F nav p = Ok (Some q).
  Proof.
    unfold in_increment, in_decrement.
    cbn [nav_left nav_right nav_parent nav_is_left nav_is_right mirror_nav].
    destruct (nav_left nav p) as [[l|]|e]; cbn [mbind res_bind]; [auto| |discriminate].
    unfold keep_calling.
    assert (Hgen : forall fuel prev next,
      (forall z, keep_calling_loop (S := bool) (pure_call (nav_parent nav))
        (fun s child _ => b ← nav_is_right nav child; Ok (b, s)) (fun _ _ parent => Ok (parent, true))
        fuel prev next false = Ok (z, true) ->
       keep_calling_loop (S := unit) (pure_call (nav_parent nav))
        (fun s child _ => b ← nav_is_right nav child; Ok (b, s)) (fun s _ parent => Ok (parent, s))
        fuel prev next () = Ok (z, ()))).
    { induction fuel as [|fuel IH]; intros prev next z; cbn [keep_calling_loop]; [discriminate|].
      destruct next as [x|]; [|discriminate].
      destruct (nav_is_right nav prev) as [[]|e]; cbn [mbind res_bind]; [intros [=<-]; reflexivity| |discriminate].
      rewrite !pure_call_eq. destruct (nav_parent nav (Some x)) as [y|e]; cbn [mbind res_bind]; [|discriminate].
      apply IH. }
    rewrite !pure_call_eq. destruct (nav_parent nav p) as [y|e]; cbn [mbind res_bind]; [|discriminate].
    destruct (keep_calling_loop (S := bool) _ _ _ _ _ _ _) as [[z []]|e] eqn:E; cbn [mbind res_bind]; try discriminate.
    intros [=->]. rewrite (Hgen _ _ _ _ E). reflexivity.
  Qed.
  Lemma in_decrement_ok l1 x l2 : inorder t = l1 ++ x :: l2 -> l1 <> [] ->
    in_decrement F nav (Some x) = Ok (last l1).
  Proof.
    intros Hl Hne. destruct l1 as [|y l1 _] using rev_ind; [congruence|]. rewrite last_snoc.
    apply in_decrement_mirror.
    rewrite (in_increment_ok _ _ (bnav_ok_mirror _ _ Hok) F HFbm (rev l2) x (y :: rev l1)); [reflexivity|].
    rewrite inorder_bmirror, Hl, !rev_app_distr. cbn. norm_app. reflexivity.
  Qed.
  Lemma in_go_last_ok : t <> BLeaf -> keep_calling1 F (nav_root nav) (nav_right nav) = Ok (last (inorder t)).
  Proof.
    intros Hne. change (nav_right nav) with (nav_left (mirror_nav nav)).
    change (nav_root nav) with (nav_root (mirror_nav nav)).
    rewrite (in_go_first_ok _ _ (bnav_ok_mirror _ _ Hok) F HFbm).
    - rewrite inorder_bmirror, last_rev. reflexivity.
    - destruct t; [congruence|discriminate].
  Qed.

  Hypothesis Hne : t <> BLeaf.
  Lemma in_steps : order_steps F nav InOrder (inorder t) st_nil.
  Proof.
    split; [apply (nd_in _ _ Hok)|apply st_nil_fun|]. intros l1 x l2 o HL ->. exists [].
    cbn [increment_impl]. rewrite (in_increment_ok _ _ Hok F HF _ _ _ HL). split; reflexivity.
  Qed.
  Lemma in_first : order_first F nav InOrder (inorder t) st_nil.
  Proof.
    split. intros i o ->. exists []. cbn [go_first_impl]. rewrite (in_go_first_ok _ _ Hok F HF Hne). split; reflexivity.
  Qed.
  Lemma in_back : order_back F nav InOrder (inorder t) st_nil.
  Proof.
    split. intros l1 x l2 o HL Hl1 ->. exists [].
    cbn [decrement_impl]. rewrite (in_decrement_ok _ _ _ HL Hl1). split; reflexivity.
  Qed.
  Lemma in_last : order_last F nav InOrder (inorder t) st_nil.
  Proof.
    split. intros i o ->. exists []. cbn [go_last_impl]. rewrite (in_go_last_ok Hne). split; reflexivity.
  Qed.
End InOrderFacts.
