(** NaryRep.v: n-ary nodes in the heap: segments of siblings, positions,
    navigation. *)
From Verif Require Import Base Spec StructNode BinaryNode NaryNode Nav Policy Tree RoseFacts RowFacts
  NavFacts Rep.

Section NaryRep.
  Context {V : Type} `{EqDecision V}.
  Notation heap := (gmap addr (nnode V)).
  Notation tree := (rose (addr * V)).
  Implicit Types (t s u : tree) (cs ls rs : list tree).

  Definition faddrs (l : list tree) : list addr := flat_map raddrs l.
  Lemma raddrs_rose a v cs : raddrs (Rose (a, v) cs) = a :: faddrs cs.
  Proof.
    unfold raddrs, faddrs. cbn. f_equal. induction cs as [|c cs IH]; cbn; [reflexivity|].
    rewrite map_app, IH. reflexivity.
  Qed.
  Lemma faddrs_app l1 l2 : faddrs (l1 ++ l2) = faddrs l1 ++ faddrs l2.
  Proof. apply flat_map_app. Qed.
  Lemma faddrs_cons c l : faddrs (c :: l) = raddrs c ++ faddrs l.
  Proof. reflexivity. Qed.
  Lemma raddr_in t : raddr t ∈ raddrs t.
  Proof. destruct t as [[a v] cs]. rewrite raddrs_rose. cbn. set_solver +. Qed.
  Lemma length_raddrs t : length (raddrs t) = rsize t.
  Proof. unfold raddrs. rewrite map_length. apply length_preorder. Qed.

  (** Neighbours at the ends of a list of siblings. *)
  Definition first_or (l : list tree) (q : ptr) : ptr :=
    match l with [] => q | c :: _ => Some (raddr c) end.
  Fixpoint last_or (q : ptr) (l : list tree) : ptr :=
    match l with [] => q | c :: l => last_or (Some (raddr c)) l end.
  Lemma first_or_app l1 l2 q : first_or (l1 ++ l2) q = first_or l1 (first_or l2 q).
  Proof. destruct l1; reflexivity. Qed.
  Lemma last_or_app l1 l2 q : last_or q (l1 ++ l2) = last_or (last_or q l1) l2.
  Proof. revert q. induction l1 as [|c l1 IH]; intros q; cbn; auto. Qed.
  Lemma first_or_addr l : first_or l None = first_addr l.
  Proof. destruct l; reflexivity. Qed.
  Lemma last_or_addr l : last_or None l = last_addr l.
  Proof.
    unfold last_addr. destruct l as [|c l _] using rev_ind; [reflexivity|].
    rewrite last_or_app, rev_app_distr. reflexivity.
  Qed.
  Lemma last_or_nonempty q q' l : l <> [] -> last_or q l = last_or q' l.
  Proof. destruct l; [congruence|reflexivity]. Qed.
  Lemma first_or_cases l q : (l = [] /\ first_or l q = q) \/ (exists c l', l = c :: l' /\ first_or l q = Some (raddr c)).
  Proof. destruct l as [|c l']; [left; auto|right; eauto]. Qed.
  Lemma last_or_cases l q : (l = [] /\ last_or q l = q) \/ (exists c l', l = l' ++ [c] /\ last_or q l = Some (raddr c)).
  Proof.
    destruct l as [|c l' _] using rev_ind; [left; auto|right]. exists c, l'. rewrite last_or_app. auto.
  Qed.

  (** A segment of siblings: [prev] and [next] are its neighbours, [k] is the
      number of siblings after it. *)
  Fixpoint nseg (h : heap) (par prev : ptr) (l : list tree) (next : ptr) (k : nat) : Prop :=
    match l with
    | [] => True
    | c :: l' => nrep h par prev (first_or l' next) (szt (length l' + k)) c /\
                 nseg h par (Some (raddr c)) l' next k
    end.
  Lemma nrep_unfold h par prev next fs a v cs :
    nrep h par prev next fs (Rose (a, v) cs) <->
    h !! a = Some (NNodeR v par fs prev next (first_or cs None) (last_or None cs)) /\
    nseg h (Some a) None cs None 0.
  Proof.
    cbn [nrep]. rewrite first_or_addr, last_or_addr. apply and_iff_compat_l.
    enough (Hgen : forall p, (fix forest (prev0 : ptr) (l : list tree) {struct l} : Prop :=
       match l with
       | [] => True
       | c :: l' => nrep h (Some a) prev0 (first_addr l') (szt (length l')) c /\ forest (Some (raddr c)) l'
       end) p cs <-> nseg h (Some a) p cs None 0) by apply Hgen.
    induction cs as [|c cs IH]; intros p; cbn [nseg]; [tauto|].
    rewrite first_or_addr, Nat.add_0_r, IH. tauto.
  Qed.
  Lemma nseg_app h par prev l1 l2 next k :
    nseg h par prev (l1 ++ l2) next k <->
    nseg h par prev l1 (first_or l2 next) (length l2 + k) /\ nseg h par (last_or prev l1) l2 next k.
  Proof.
    revert prev. induction l1 as [|c l1 IH]; intros prev; cbn [app nseg last_or]; [tauto|].
    rewrite IH, first_or_app, app_length, Nat.add_assoc. tauto.
  Qed.

  Lemma nrep_ext_all (h h' : heap) t : (forall par prev next fs,
    (forall x, x ∈ raddrs t -> h' !! x = h !! x) -> nrep h par prev next fs t -> nrep h' par prev next fs t).
  Proof.
    induction t as [[a v] cs IH] using rose_ind'. intros par prev next fs Hh. rewrite raddrs_rose in Hh.
    rewrite !nrep_unfold. intros [Ha Hs]. split; [rewrite Hh by set_solver +; exact Ha|].
    assert (Hcs : forall x, x ∈ faddrs cs -> h' !! x = h !! x) by (intros x Hx; apply Hh; set_solver +Hx).
    clear Hh Ha. revert Hs. enough (Hgen : forall p, nseg h (Some a) p cs None 0 -> nseg h' (Some a) p cs None 0) by apply Hgen.
    induction IH as [|c cs Hc _ IHcs]; intros p; cbn [nseg]; [auto|]. intros [H1 H2]. split.
    - apply Hc; [|exact H1]. intros x Hx. apply Hcs. rewrite faddrs_cons. set_solver +Hx.
    - apply IHcs; [|exact H2]. intros x Hx. apply Hcs. rewrite faddrs_cons. set_solver +Hx.
  Qed.
  Lemma nrep_ext (h h' : heap) par prev next fs t :
    (forall x, x ∈ raddrs t -> h' !! x = h !! x) -> nrep h par prev next fs t -> nrep h' par prev next fs t.
  Proof. intros; eapply nrep_ext_all; eassumption. Qed.
  Lemma nseg_ext (h h' : heap) par prev l next k :
    (forall x, x ∈ faddrs l -> h' !! x = h !! x) -> nseg h par prev l next k -> nseg h' par prev l next k.
  Proof.
    revert prev. induction l as [|c l IH]; intros prev Hh; cbn [nseg]; [auto|]. rewrite faddrs_cons in Hh.
    intros [H1 H2]. split; [eapply nrep_ext; [|exact H1]; intros x Hx; apply Hh; set_solver +Hx|].
    apply IH; [|exact H2]. intros x Hx. apply Hh. set_solver +Hx.
  Qed.
  Lemma nrep_insert h par prev next fs t a n : a ∉ raddrs t ->
    nrep h par prev next fs t -> nrep (<[a := n]> h) par prev next fs t.
  Proof. intros Ha. apply nrep_ext. intros x Hx. apply lookup_insert_ne. intros ->. auto. Qed.
  Lemma nseg_insert h par prev l next k a n : a ∉ faddrs l ->
    nseg h par prev l next k -> nseg (<[a := n]> h) par prev l next k.
  Proof. intros Ha. apply nseg_ext. intros x Hx. apply lookup_insert_ne. intros ->. auto. Qed.

  Lemma nrep_root h par prev next fs t : nrep h par prev next fs t ->
    h !! raddr t = Some (NNodeR (snd (label t)) par fs prev next (first_or (children t) None) (last_or None (children t))).
  Proof. destruct t as [[a v] cs]. rewrite nrep_unfold. intros [Ha _]. exact Ha. Qed.
  Lemma nseg_in h par prev l next k c : nseg h par prev l next k -> c ∈ l ->
    exists p n f, nrep h par p n f c.
  Proof.
    revert prev. induction l as [|d l IH]; intros prev; cbn [nseg]; [intros _ Hc; apply elem_of_nil in Hc as []|].
    intros [H1 H2]. rewrite elem_of_cons. intros [->|Hc]; [eauto|]. eapply IH; eassumption.
  Qed.
  Lemma nrep_dom h t x : forall par prev next fs, nrep h par prev next fs t -> x ∈ raddrs t -> is_Some (h !! x).
  Proof.
    induction t as [[a v] cs IH] using rose_ind'; intros par prev next fs. rewrite nrep_unfold, raddrs_rose.
    intros [Ha Hs]. rewrite elem_of_cons. intros [->|Hx]; [eauto|].
    apply elem_of_flat_map in Hx as (c & Hc & Hx). destruct (nseg_in _ _ _ _ _ _ _ Hs Hc) as (p & n & f & Hn).
    rewrite Forall_forall in IH. eapply (IH c Hc); eassumption.
  Qed.
  Lemma nseg_dom h par prev l next k x : nseg h par prev l next k -> x ∈ faddrs l -> is_Some (h !! x).
  Proof.
    intros Hs Hx. apply elem_of_flat_map in Hx as (c & Hc & Hx).
    destruct (nseg_in _ _ _ _ _ _ _ Hs Hc) as (p & n & f & Hn). eapply nrep_dom; eassumption.
  Qed.

  (** Changing the root's links. *)
  Lemma nrep_relink h par prev next fs par' prev' next' fs' t :
    nrep h par prev next fs t -> NoDup (raddrs t) ->
    nrep (<[raddr t := NNodeR (snd (label t)) par' fs' prev' next' (first_or (children t) None) (last_or None (children t))]> h)
      par' prev' next' fs' t.
  Proof.
    destruct t as [[a v] cs]. rewrite raddrs_rose, NoDup_cons, !nrep_unfold. cbn [raddr label fst snd children].
    intros [Ha Hs] [Hn _]. rewrite lookup_insert. split; [reflexivity|]. apply nseg_insert; assumption.
  Qed.

  (** Positions. *)
  Notation nctx := (ctx (addr * V)).
  Fixpoint nctx_addrs (c : nctx) : list addr :=
    match c with
    | [] => []
    | (ls, a, rs) :: c => fst a :: faddrs ls ++ faddrs rs ++ nctx_addrs c
    end.
  Lemma raddrs_plug c s : Permutation (raddrs (plug c s)) (raddrs s ++ nctx_addrs c).
  Proof.
    revert s. induction c as [|[[ls [a v]] rs] c IH]; intros s; cbn [plug nctx_addrs].
    - rewrite app_nil_r. reflexivity.
    - rewrite IH, raddrs_rose, faddrs_app, faddrs_cons. cbn [fst app]. rewrite <- Permutation_middle.
      constructor. rewrite !app_assoc. apply Permutation_app_tail, Permutation_app_tail, Permutation_app_comm.
  Qed.
  Lemma nctx_addrs_app c c' : nctx_addrs (c ++ c') = nctx_addrs c ++ nctx_addrs c'.
  Proof. induction c as [|[[ls a] rs] c IH]; cbn; [reflexivity|]. rewrite IH, !app_assoc. reflexivity. Qed.
  Lemma NoDup_plug c s : NoDup (raddrs (plug c s)) ->
    NoDup (raddrs s) /\ NoDup (nctx_addrs c) /\ (forall x, x ∈ raddrs s -> x ∉ nctx_addrs c).
  Proof. rewrite raddrs_plug. intros Hn. apply NoDup_app in Hn as (H1 & H2 & H3). auto. Qed.

  (** The links of the tree in the hole of a context. *)
  Definition hpar (c : nctx) : ptr := match c with [] => None | (_, a, _) :: _ => Some (fst a) end.
  Definition hprev (c : nctx) : ptr := match c with [] => None | (ls, _, _) :: _ => last_or None ls end.
  Definition hnext (c : nctx) : ptr := match c with [] => None | (_, _, rs) :: _ => first_or rs None end.
  Definition hfs (c : nctx) : N := szt (match c with [] => 0 | (_, _, rs) :: _ => length rs end).
  Fixpoint nctx_rep (h : heap) (c : nctx) (hole : addr) : Prop :=
    match c with
    | [] => True
    | (ls, (a, v), rs) :: c =>
        h !! a = Some (NNodeR v (hpar c) (hfs c) (hprev c) (hnext c)
                         (first_or ls (Some hole)) (last_or (Some hole) rs)) /\
        nseg h (Some a) None ls (Some hole) (S (length rs)) /\
        nseg h (Some a) (Some hole) rs None 0 /\
        nctx_rep h c a
    end.
  Definition nrep_at (h : heap) (c : nctx) (s : tree) : Prop := nrep h (hpar c) (hprev c) (hnext c) (hfs c) s.
  Lemma nrep_plug h c s :
    nrep h None None None (szt 0) (plug c s) <-> nctx_rep h c (raddr s) /\ nrep_at h c s.
  Proof.
    revert s. induction c as [|[[ls [a v]] rs] c IH]; intros s; cbn [plug nctx_rep].
    - unfold nrep_at. cbn. tauto.
    - rewrite IH. unfold nrep_at. rewrite nrep_unfold. cbn [raddr label fst hpar hprev hnext hfs].
      rewrite first_or_app, last_or_app. cbn [first_or last_or].
      rewrite nseg_app. cbn [nseg first_or length]. rewrite !Nat.add_0_r.
      tauto.
  Qed.
  Lemma nctx_rep_ext h h' c hole : (forall x, x ∈ nctx_addrs c -> h' !! x = h !! x) ->
    nctx_rep h c hole -> nctx_rep h' c hole.
  Proof.
    revert hole. induction c as [|[[ls [a v]] rs] c IH]; intros hole Hh; cbn [nctx_rep]; [auto|].
    cbn [nctx_addrs fst] in Hh. intros (H1 & H2 & H3 & H4).
    split; [rewrite Hh by set_solver +; exact H1|].
    split; [eapply nseg_ext; [|exact H2]; intros x Hx; apply Hh; set_solver +Hx|].
    split; [eapply nseg_ext; [|exact H3]; intros x Hx; apply Hh; set_solver +Hx|].
    apply IH; [|exact H4]. intros x Hx. apply Hh. set_solver +Hx.
  Qed.
  Lemma nctx_rep_dom h c hole x : nctx_rep h c hole -> x ∈ nctx_addrs c -> is_Some (h !! x).
  Proof.
    revert hole. induction c as [|[[ls [a v]] rs] c IH]; intros hole; cbn [nctx_rep nctx_addrs fst].
    - intros _ Hx. apply elem_of_nil in Hx as [].
    - intros (H1 & H2 & H3 & H4). rewrite elem_of_cons, !elem_of_app. intros [->|[Hx|[Hx|Hx]]].
      + eauto.
      + eapply nseg_dom; [exact H2|exact Hx].
      + eapply nseg_dom; [exact H3|exact Hx].
      + eapply IH; eassumption.
  Qed.

  (** Navigation. *)
  Definition nrose (t : tree) : rose addr := rose_map fst t.
  Lemma label_nrose t : label (nrose t) = raddr t.
  Proof. destruct t as [[a v] cs]. reflexivity. Qed.
  Lemma preorder_map {A B} (f : A -> B) (t : rose A) : preorder (rose_map f t) = map f (preorder t).
  Proof.
    induction t as [a cs IH] using rose_ind'. cbn. f_equal.
    induction IH as [|c cs Hc _ IH]; cbn; [reflexivity|]. rewrite map_app, Hc, IH. reflexivity.
  Qed.
  Lemma preorder_nrose t : preorder (nrose t) = raddrs t.
  Proof. apply preorder_map. Qed.
  Lemma head_label_nrose l : head_label (map nrose l) = first_or l None.
  Proof. destruct l as [|c l]; [reflexivity|]. cbn. rewrite label_nrose. reflexivity. Qed.
  Lemma last_label_nrose l : last_label (map nrose l) = last_or None l.
  Proof.
    rewrite last_or_addr. unfold last_label, last_addr. rewrite <- map_rev, head_label_nrose. apply first_or_addr.
  Qed.
  Lemma nrep_ops_ok (h : heap) t : forall par prev next fs,
    nrep h par prev next fs t -> ops_ok (nary_ops h) (nrose t).
  Proof.
    induction t as [[a v] cs IH] using rose_ind'. intros par prev next fs. rewrite nrep_unfold. intros [Ha Hs].
    unfold nrose. cbn [rose_map fst]. fold (nrose). apply ops_ok_unfold. change (map (rose_map fst) cs) with (map nrose cs).
    split; [|split; [|split]].
    - cbn [op_first nary_ops]. unfold n_first. rewrite (deref_Some _ _ _ Ha). cbn. rewrite head_label_nrose. reflexivity.
    - cbn [op_last nary_ops]. unfold n_last. rewrite (deref_Some _ _ _ Ha). cbn. rewrite last_label_nrose. reflexivity.
    - intros ls s rs Hsplit. apply map_eq_app in Hsplit as (ls' & sr & -> & <- & Hsr).
      destruct sr as [|s' rs']; [discriminate|]. cbn in Hsr. injection Hsr as <- <-.
      rewrite nseg_app in Hs. destruct Hs as [_ Hs]. cbn [nseg] in Hs. destruct Hs as [Hn _].
      apply nrep_root in Hn. rewrite label_nrose. cbn [op_parent op_prev op_next nary_ops].
      unfold n_parent, n_prev, n_next. rewrite (deref_Some _ _ _ Hn). cbn.
      rewrite last_label_nrose, head_label_nrose. auto.
    - apply Forall_elem. intros x Hx. apply elem_of_list_fmap in Hx as (c & -> & Hc).
      destruct (nseg_in _ _ _ _ _ _ _ Hs Hc) as (p & n & f & Hn). rewrite Forall_forall in IH. eapply IH; eassumption.
  Qed.
  Lemma nrep_nav_ok (h : heap) t par prev next fs :
    nrep h par prev next fs t -> NoDup (raddrs t) ->
    nav_ok (node_navigator (nary_ops h) (Some (raddr t))) (nrose t).
  Proof.
    intros Hr Hnd. rewrite <- label_nrose. apply node_navigator_ok.
    - eapply nrep_ops_ok, Hr.
    - rewrite preorder_nrose. exact Hnd.
  Qed.
End NaryRep.
