(** LeafBack.v: moving a leaves iterator backwards.  The element it denotes is
    right whatever the stack it carries; the stack is not. *)
From Verif Require Import Base Spec RoseFacts RowFacts Nav Policy NavFacts BranchFacts Orders PolicyFacts NodeFacts.

(** Any auxiliary state. *)
Definition st_any (_ : ptr) (_ : list ptr) : Prop := True.

Section LeafBack.
  Variable nav : navigator.
  Variable t : rose addr.
  Hypothesis Hok : nav_ok nav t.
  Variable F : nat.
  Hypothesis HF : rsize t <= F.

  (** Climbing to the nearest ancestor with a previous sibling. *)
  Lemma climb_back c : forall s fuel, plug c s = t -> length c < fuel -> leaves_before c <> [] ->
    exists ls X rs' a Y c', plug ((ls, a, Y :: rs') :: c') X = t /\
      keep_calling_loop (S := unit) (pure_call (nav_parent nav))
        (fun st child _ => b ← nav_is_first nav child; Ok (negb b, st))
        (fun st child _ => q ← nav_prev nav child; Ok (q, st))
        fuel (Some (label s)) (ctx_parent c) () = Ok (Some (label X), ()) /\
      last (leaves X) = last (leaves_before c) /\ head (leaves Y) = head (leaves s).
  Proof using All.
    induction c as [|[[ls a] rs] c IH]; intros s fuel Hp Hf Hne; [cbn in Hne; congruence|].
    destruct fuel as [|fuel]; [cbn in Hf; lia|]. cbn [keep_calling_loop ctx_parent].
    rewrite (no_is_first _ _ Hok _ _ Hp). cbn [mbind res_bind].
    destruct ls as [|X ls _] using rev_ind.
    - cbn [is_nil negb]. pose proof Hp as Hp2. cbn [plug] in Hp2.
      pose proof (no_parent _ _ Hok _ _ Hp2) as Hpar. cbn [label] in Hpar.
      rewrite (pure_call_ok _ _ _ _ Hpar). cbn [mbind res_bind].
      destruct (IH (Rose a ([] ++ s :: rs)) fuel Hp2) as (ls' & X & rs' & a' & Y & c' & H1 & H2 & H3 & H4).
      { cbn in Hf. lia. }
      { cbn in Hne. rewrite app_nil_r in Hne. exact Hne. }
      exists ls', X, rs', a', Y, c'. split; [exact H1|]. split; [exact H2|]. split.
      + rewrite H3. cbn. rewrite app_nil_r. reflexivity.
      + rewrite H4. cbn. pose proof (leaves_ne s) as Hls. destruct (leaves s); [congruence|reflexivity].
    - replace (is_nil (ls ++ [X])) with false by (destruct ls; reflexivity). cbn [negb].
      rewrite (no_prev _ _ Hok _ _ Hp). cbn [mbind res_bind ctx_prev].
      exists ls, X, rs, a, s, c. split; [|split; [|split]].
      + rewrite <- Hp. cbn. rewrite <- app_assoc. reflexivity.
      + rewrite last_label_snoc. reflexivity.
      + cbn [leaves_before]. rewrite flat_map_app'. cbn [flat_map]. rewrite app_nil_r, app_assoc.
        pose proof (leaves_ne X) as HX. destruct (leaves X) as [|y l _] using rev_ind; [congruence|].
        rewrite app_assoc, !last_snoc. reflexivity.
      + reflexivity.
  Qed.

  Lemma last_descend s c : plug c s = t -> keep_calling1 F (Some (label s)) (nav_last nav) = Ok (last (leaves s)).
  Proof using All.
    intros Hp. change (nav_last nav) with (nav_first (mirror_nav nav)). rewrite <- (label_mirror s).
    rewrite (keep_first _ _ (nav_ok_mirror _ _ Hok) (mirror s) (mctx c) F).
    - rewrite postorder_mirror, <- last_rev, last_pre_leaves. reflexivity.
    - rewrite <- mirror_plug, Hp. reflexivity.
    - rewrite height_mirror. apply (pos_fuelB _ _ Hok F HF _ _ Hp).
  Qed.

  (** Descending along first children ends at the first leaf, whatever the stack. *)
  Lemma leaves_down_any s : forall c fuel st, plug c s = t -> height s <= fuel ->
    exists o', keep_calling0 (leaves_call nav) fuel (Some (label s)) st = Ok (head (leaves s), o').
  Proof using All.
    induction s as [a cs IH] using rose_ind'. intros c fuel st Hp Hf.
    unfold keep_calling0. rewrite (leaves_call_ok _ _ Hok _ _ _ Hp). cbn [mbind res_bind children label].
    set (st1 := match ctx_next c with Some _ => _ | None => _ end).
    destruct fuel as [|fuel]; [cbn in Hf; lia|].
    destruct cs as [|s cs]; cbn [head_label keep_calling0_loop]; [eexists; reflexivity|].
    assert (Hp2 : plug (([], a, cs) :: c) s = t) by exact Hp.
    apply Forall_cons in IH as [IH _].
    assert (Hf2 : height s <= fuel) by (cbn [height map] in Hf; rewrite list_max_cons in Hf; lia).
    destruct (IH _ fuel st1 Hp2 Hf2) as (o' & Ho). exists o'. unfold keep_calling0 in Ho. rewrite Ho.
    cbn [leaves flat_map]. pose proof (leaves_ne s) as Hls. destruct (leaves s); [congruence|reflexivity].
  Qed.

  (** One step back from a leaf, and one step forward again. *)
  Lemma leaves_dec l1 x l2 o : leaves t = l1 ++ x :: l2 -> l1 <> [] ->
    exists o', leaves_decrement F nav (Some x) o = Ok (last l1, o') /\
      exists o2, leaves_increment F nav o' = Ok (Some x, o2).
  Proof using All.
    intros HL Hne. destruct (leaf_position t x) as (c & Hp). { rewrite HL. set_solver +. }
    pose proof (leaves_plug c (Rose x [])) as Hlp. rewrite Hp, HL in Hlp. cbn [leaves app] in Hlp.
    apply NoDup_split_unique in Hlp as [Hb _]; [|rewrite <- HL; apply (nd_leaves _ _ Hok)].
    destruct (climb_back c (Rose x []) F Hp) as (ls & X & rs & a & Y & c' & H1 & H2 & H3 & H4).
    { apply (pos_fuelB _ _ Hok F HF _ _ Hp). }
    { rewrite <- Hb. exact Hne. }
    unfold leaves_decrement, keep_calling. rewrite (pure_call_ok _ _ _ _ (no_parent _ _ Hok _ _ Hp)).
    cbn [mbind res_bind label] in *. rewrite H2. cbn [mbind res_bind].
    rewrite (last_descend _ _ H1), H3, <- Hb. cbn [mbind res_bind]. eexists. split; [reflexivity|].
    cbn [leaves_increment]. rewrite (no_next _ _ Hok _ _ H1). cbn [mbind res_bind ctx_next head_label].
    assert (Hp2 : plug ((ls ++ [X], a, rs) :: c') Y = t).
    { rewrite <- H1. cbn. rewrite <- app_assoc. reflexivity. }
    destruct (leaves_down_any Y _ F o Hp2) as (o2 & Ho2). { apply (pos_fuelB _ _ Hok F HF _ _ Hp2). }
    rewrite Ho2, H4. exists o2. reflexivity.
  Qed.

  Lemma leaves_back : order_back F nav Leaves (leaves t) st_any.
  Proof using All.
    split. intros l1 x l2 o HL Hne _. destruct (leaves_dec l1 x l2 o HL Hne) as (o' & Ho & _).
    exists o'. split; [exact Ho|exact I].
  Qed.
  Lemma leaves_last : order_last F nav Leaves (leaves t) st_any.
  Proof using All.
    split. intros i o _. exists []. cbn [go_last_impl]. rewrite (no_root _ _ Hok), (last_descend t []) by reflexivity.
    split; [reflexivity|exact I].
  Qed.
  (** [++] at the end goes to the first leaf, whatever the stack. *)
  Lemma leaves_first_any : order_first F nav Leaves (leaves t) st_any.
  Proof using All.
    split. intros i o _. cbn [go_first_impl]. rewrite (no_root _ _ Hok).
    destruct (leaves_down_any t [] F o eq_refl) as (o' & Ho). { pose proof (height_rsize t). lia. }
    exists o'. split; [exact Ho|exact I].
  Qed.
End LeafBack.
