(** PrintUser.v: the printing of n-ary and binary trees (C54), proofs. *)
From Verif Require Import Base Spec StructNode BinaryNode NaryNode Nav Policy Tree Rep RoseFacts NavFacts
  BinRep NaryRep Iter IterTrees IterMain User StarMain Print PrintSpec PrintFacts.
Local Open Scope string_scope.

Section Lits.
  Context {V : Type}.
  Lemma hlit_none (t : rose (addr * V)) : hlit (fun _ => false) t = rose_lit (rose_map snd t).
  Proof.
    induction t as [x cs IH] using rose_ind'. cbn. f_equal. destruct cs as [|c cs]; [reflexivity|].
    rewrite map_map. cbn [app]. apply map_ext_Forall in IH. exact IH.
  Qed.
  Lemma lit_rose_lit (t : rose V) : lit_rose (rose_lit t) = [t].
  Proof.
    induction t as [x cs IH] using rose_ind'. cbn. f_equal. f_equal.
    induction IH as [|c cs Hc _ IHc]; [reflexivity|]. cbn. rewrite Hc, IHc. reflexivity.
  Qed.
  Lemma rose_lit_full (t : rose V) : no_empty (rose_lit t).
  Proof.
    induction t as [x cs IH] using rose_ind'. cbn. induction IH as [|c cs Hc _ IHc]; cbn; auto.
  Qed.
  Lemma lit_bin_lit (t : bin V) : lit_bin (bin_lit t) = t.
  Proof.
    induction t as [|v l IHl r IHr]; [reflexivity|].
    destruct l as [|v1 l1 r1], r as [|v2 l2 r2]; cbn in *; rewrite ?IHl, ?IHr; reflexivity.
  Qed.
  Lemma bin_lit_two (t : bin V) : two_slots (bin_lit t).
  Proof.
    induction t as [|v l IHl r IHr]; [exact I|].
    destruct l as [|v1 l1 r1], r as [|v2 l2 r2]; cbn in *; repeat split; auto; lia.
  Qed.

  Definition hole_of (h : gmap addr (bnode V)) (x : addr * V) : bool :=
    match h !! fst x with Some n => match bleft n with None => true | Some _ => false end | None => false end.

  Lemma bin_hlit (h : gmap addr (bnode V)) (t : bin (addr * V)) : forall par, brep h par t ->
    forall s, bin_forest t = [s] -> hlit (hole_of h) s = bin_lit (bin_map snd t).
  Proof.
    induction t as [|[a v] l IHl r IHr]; intros par Hr s Hs; [discriminate|].
    destruct Hr as (Ha & Hl & Hr). cbn in Hs. injection Hs as <-.
    assert (Hh : hole_of h (a, v) = match l with BLeaf => true | _ => false end).
    { unfold hole_of. cbn [fst]. rewrite Ha. destruct l as [|[b w] ? ?]; reflexivity. }
    assert (Hleft : l = BLeaf \/ (exists s, bin_forest l = [s]) /\ exists y s1 s2, l = BNode y s1 s2) by (destruct l; cbn; eauto 10).
    assert (Hright : r = BLeaf \/ (exists s, bin_forest r = [s]) /\ exists y s1 s2, r = BNode y s1 s2) by (destruct r; cbn; eauto 10).
    assert (Hnode : forall l' r' : bin V, bin_lit (BNode v l' r') =
      match l', r' with
      | BLeaf, BLeaf => LNode v [] | BNode _ _ _, BLeaf => LNode v [bin_lit l'] | _, _ => LNode v [bin_lit l'; bin_lit r'] end) by (intros [] []; reflexivity).
    change (bin_map snd (BNode (a, v) l r)) with (BNode v (bin_map snd l) (bin_map snd r)). rewrite Hnode.
    destruct Hleft as [-> |((s1 & E1) & (y & l1 & l2 & El))], Hright as [-> |((s2 & E2) & (z & r1 & r2 & Er))].
    - reflexivity.
    - rewrite E2. cbn [app bin_forest]. cbn [hlit]. rewrite Hh. cbn [map app snd]. rewrite (IHr _ Hr _ E2). subst r. reflexivity.
    - rewrite E1. cbn [app bin_forest]. cbn [hlit]. rewrite Hh. subst l. cbn [map app snd]. rewrite (IHl _ Hl _ E1). reflexivity.
    - rewrite E1, E2. cbn [app]. cbn [hlit]. rewrite Hh. cbn [map app snd]. rewrite (IHl _ Hl _ E1), (IHr _ Hr _ E2). subst l r. reflexivity.
  Qed.

  Lemma bin_right (h : gmap addr (bnode V)) (t : bin (addr * V)) : forall par, brep h par t -> NoDup (baddrs t) ->
    forall s, bin_forest t = [s] ->
    forall x c cs, rsubtree (Rose x (c :: cs)) s -> b_is_right h (Some (raddr c)) = Ok (hole_of h x).
  Proof.
    induction t as [|[a v] l IHl r IHr]; intros par Hrep Hnd s Hs x c cs Hsub; [discriminate|].
    pose proof Hrep as (Ha & Hl & Hr). cbn in Hs. injection Hs as <-.
    pose proof (NoDup_baddrs_inv _ _ _ _ Hnd) as (Hal & Har & Hndl & Hndr & Hd).
    remember (Rose (a, v) (app (bin_forest l) (bin_forest r))) as t0 eqn:E. destruct Hsub as [|y0 ds d Hd1 Hd2].
    - assert (Hh : hole_of h (a, v) = match l with BLeaf => true | _ => false end).
      { unfold hole_of. cbn [fst]. rewrite Ha. destruct l as [|[b w] ? ?]; reflexivity. }
      injection E as -> E. rewrite Hh.
      destruct l as [|[b w] l1 l2]; cbn in E.
      + destruct r as [|[b w] r1 r2]; [discriminate|]. cbn in E. injection E as -> ->. cbn [raddr label fst].
        destruct Hr as (Hb & _). unfold b_is_right. rewrite (deref_Some _ _ _ Hb). cbn [mbind res_bind bparent].
        unfold b_right. rewrite (deref_Some _ _ _ Ha). cbn [mbind res_bind bright baddr fst]. rewrite ptr_eqb_true. reflexivity.
      + injection E as -> _. change (raddr (Rose (b, w) (app (bin_forest l1) (bin_forest l2)))) with b.
        destruct Hl as (Hb & _). unfold b_is_right. rewrite (deref_Some _ _ _ Hb). cbn [mbind res_bind bparent].
        unfold b_right. rewrite (deref_Some _ _ _ Ha). cbn [mbind res_bind bright].
        rewrite ptr_eqb_false; [reflexivity|]. intros Eb. apply (Hd b); [left|apply baddr_in; symmetry; exact Eb].
    - injection E as -> ->. apply elem_of_app in Hd1 as [Hd1|Hd1].
      + destruct l as [|y l1 l2]; [apply elem_of_nil in Hd1 as []|]. cbn in Hd1. apply elem_of_list_singleton in Hd1 as ->.
        eapply IHl; [exact Hl|exact Hndl|reflexivity|exact Hd2].
      + destruct r as [|y r1 r2]; [apply elem_of_nil in Hd1 as []|]. cbn in Hd1. apply elem_of_list_singleton in Hd1 as ->.
        eapply IHr; [exact Hr|exact Hndr|reflexivity|exact Hd2].
  Qed.
End Lits.

Section User.
  Context {V : Type} {EV : EqDecision V}.
  Variable F : nat.
  Variable show : V -> string.
  Variable inc : nat.

  Lemma nary_good (h : gmap addr (nnode V)) t : nary_in h t -> good (nary_impl V) n_right_child h (fun _ => false) t.
  Proof.
    intros Ht. destruct (nary_facts h t Ht) as (F1 & _ & F3). split; [exact F1|]. split; [exact F3|]. reflexivity.
  Qed.
  Lemma bin_good (h : gmap addr (bnode V)) t s : bin_in h t -> bin_forest t = [s] -> good (binary_impl V) b_right_child h (hole_of h) s.
  Proof.
    intros Ht Hs. destruct (binary_facts h t s Ht Hs) as (F1 & _ & F3). split; [exact F1|]. split; [exact F3|].
    destruct Ht as (par & Hr & Hnd). exact (bin_right h t par Hr Hnd s Hs).
  Qed.

  Lemma hlit_values hole (t : rose (addr * V)) : lit_values (hlit hole t) = map snd (preorder t).
  Proof.
    rewrite <- (whole_values hole t). generalize (hlit hole t). intros l. induction l as [|v cs IH] using lit_ind'; [reflexivity|].
    cbn. f_equal. induction IH as [|c cs Hc _ IHc]; [reflexivity|]. cbn. rewrite Hc, IHc. reflexivity.
  Qed.

  Lemma print_core {Nd} (im : node_impl V Nd) rc (h : gmap addr Nd) hole t lim : good im rc h hole t -> rsize t <= F ->
    exists s, print_tree F im rc show inc h (Some (raddr t)) lim = Ok s /\ printed show inc (hlit hole t) lim s.
  Proof.
    intros Hg HF. unfold print_tree, printed. rewrite hlit_values, map_length, length_preorder. destruct (Z.ltb_spec 0 lim) as [Hl|Hl].
    - destruct (proj1 (print_ok im rc show inc h hole F) t 0 lim Hg HF Hl) as (it & l' & E & Hs & Hv & Hc). rewrite E. cbn [mbind res_bind].
      eexists. split; [reflexivity|]. split; [intros; lia|]. split; [intros _; exists it; auto|].
      intros _ Hsz. destruct Hc as [(_ & -> & _)|(Hc & _)]; [reflexivity|lia].
    - assert (0 < F) by (pose proof (rsize_pos t); lia). destruct F as [|n]; [lia|]. cbn [print_node].
      destruct (Z.leb_spec lim 0) as [_|Hx]; [|lia]. cbn [mbind res_bind]. exists "". split; [reflexivity|]. split; [reflexivity|]. split; intros; lia.
  Qed.

  Lemma print_nary (h : gmap addr (nnode V)) t lim : nary_in h t -> rsize t <= F ->
    exists s, print_tree F (nary_impl V) n_right_child show inc h (Some (raddr t)) lim = Ok s /\ printed show inc (rose_lit (rose_map snd t)) lim s.
  Proof.
    intros Ht HF. destruct (print_core (nary_impl V) n_right_child h _ t lim (nary_good h t Ht) HF) as (s & E & Hp).
    rewrite hlit_none in Hp. eauto.
  Qed.
  Lemma print_binary (h : gmap addr (bnode V)) t lim : bin_in h t -> bin_size t <= F -> t <> BLeaf ->
    exists s, print_tree F (binary_impl V) b_right_child show inc h (baddr t) lim = Ok s /\ printed show inc (bin_lit (bin_map snd t)) lim s.
  Proof.
    intros Ht HF Hne. assert (exists u, bin_forest t = [u]) as [u Hu] by (destruct t; cbn; eauto; congruence).
    assert (Hsz : rsize u = bin_size t) by (rewrite <- length_baddrs; unfold baddrs; rewrite <- forest_labels, Hu; cbn; rewrite app_nil_r, map_length, length_preorder; reflexivity).
    destruct (print_core (binary_impl V) b_right_child h _ u lim (bin_good h t u Ht Hu) ltac:(lia)) as (s & E & Hp).
    destruct Ht as (par & Hr & _). rewrite (bin_hlit h t par Hr u Hu) in Hp. rewrite (bin_root t u Hu). eauto.
  Qed.
End User.

(** ** The text determines the tree if the texts of the values can be told apart. *)
Section Inj.
  Context {V : Type}.
  Variable show : V -> string.
  Variable inc : nat.
  Hypothesis clear : clear_text show.
  Notation text := (item_text show inc).

  Lemma sapp_inj (p a b : string) : p ++ a = p ++ b -> a = b.
  Proof. induction p as [|c p IH]; [auto|]. intros H. apply IH. injection H. auto. Qed.

  Definition ends (r : string) : Prop := forall r', r <> "(" ++ r'.
  Lemma lit_text_inj (l1 : lit V) : forall l2 o1 o2 ind r1 r2, ends r1 -> ends r2 ->
    text o1 ind (whole l1) ++ r1 = text o2 ind (whole l2) ++ r2 -> l1 = l2 /\ r1 = r2.
  Proof.
    induction l1 as [|v1 c1 IH] using lit_ind'; intros [|v2 c2] o1 o2 ind r1 r2 Hr1 Hr2; cbn [whole item_text]; rewrite !sapp_assoc; intros E;
      apply sapp_inj in E; apply (sapp_inj "n(") in E.
    - apply (clear None None) in E as [_ E]. auto.
    - apply (clear None (Some v2)) in E as [E _]. discriminate.
    - apply (clear (Some v1) None) in E as [E _]. discriminate.
    - apply (clear (Some v1) (Some v2)) in E as [E E2]. injection E as ->.
      destruct c1 as [|a1 c1], c2 as [|a2 c2]; cbn [map] in E2.
      + auto.
      + exfalso. rewrite !sapp_assoc in E2. eapply Hr1. exact E2.
      + exfalso. rewrite !sapp_assoc in E2. eapply Hr2. symmetry. exact E2.
      + rewrite !sapp_assoc in E2. apply (sapp_inj "(") in E2. apply (sapp_inj line) in E2.
        rewrite !concat_cons, !sapp_assoc in E2. apply Forall_cons in IH as [IHa IHc].
        assert (Htail : forall ls r, ends (foldr (fun x r0 => ("," ++ line) ++ x ++ r0) "" (map (text ind (ind + inc)) (map whole ls)) ++ ")" ++ r)).
        { intros [|l ls] r r' Hx; discriminate Hx. }
        destruct (IHa _ _ _ _ _ _ (Htail c1 r1) (Htail c2 r2) E2) as [-> E3]. clear E2 IHa.
        assert (Hls : c1 = c2 /\ r1 = r2); [|destruct Hls as [-> ->]; auto].
        clear Hr1 Hr2. revert c2 E3. induction IHc as [|b1 c1 Hb _ IHc]; intros [|b2 c2] E3; cbn [map foldr] in E3.
        * apply (sapp_inj ")") in E3. auto.
        * discriminate E3.
        * discriminate E3.
        * rewrite !sapp_assoc in E3. apply (sapp_inj ",") in E3. apply (sapp_inj line) in E3.
          destruct (Hb _ _ _ _ _ _ (Htail c1 r1) (Htail c2 r2) E3) as [-> E4]. destruct (IHc _ E4) as [-> ->]. auto.
  Qed.
  Lemma lit_text_eq (l1 l2 : lit V) : text 0 0 (whole l1) = text 0 0 (whole l2) -> l1 = l2.
  Proof.
    intros E. destruct (lit_text_inj l1 l2 0 0 0 "" "") as [H _]; [intros r H; discriminate|intros r H; discriminate| |exact H].
    rewrite E. reflexivity.
  Qed.
  Lemma rose_lit_inj (t1 t2 : rose V) : rose_lit t1 = rose_lit t2 -> t1 = t2.
  Proof. intros E. pose proof (lit_rose_lit t1) as H. rewrite E, lit_rose_lit in H. injection H. auto. Qed.
  Lemma bin_lit_inj (t1 t2 : bin V) : bin_lit t1 = bin_lit t2 -> t1 = t2.
  Proof. intros E. rewrite <- (lit_bin_lit t1), E. apply lit_bin_lit. Qed.
End Inj.
