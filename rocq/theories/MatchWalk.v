(** MatchWalk.v: the iterators with which a pattern goes through a tree. *)
From Verif Require Import Base Spec MatchSpec StructNode BinaryNode NaryNode Nav Policy Tree Rep RoseFacts NavFacts
  Matcher OptSpec MatchUser MatchFacts.

Lemma head_label_map {A B} (f : A -> B) (cs : list (rose A)) : head_label (map (rose_map f) cs) = option_map f (head_label cs).
Proof. destruct cs as [|[x l] cs]; reflexivity. Qed.
Lemma length_children {A} (cs : list (rose A)) : length cs <= list_sum (map rsize cs).
Proof. induction cs as [|c cs IH]; [cbn; lia|]. change (list_sum (map rsize (c :: cs))) with (rsize c + list_sum (map rsize cs)). cbn [length]. pose proof (rsize_pos c). lia. Qed.

Section Walk.
  Context {V Nd : Type}.
  Variable F : nat.
  Variable im : node_impl V Nd.
  Variable h : gmap addr Nd.
  Notation tree := (rose (addr * V)).
  Notation ops := (ni_ops im h).
  Notation walks := (walks F im h).
  Definition at_first (cs : list tree) : ptr := option_map fst (head_label cs).

  Lemma children_fixed it a fc : it_kind it = Fixed -> it_cur it = Some a -> op_first ops (Some a) = Ok fc ->
    children_iter F im h it = Ok (Iter Siblings fc (Some a) [] fc).
  Proof. intros Hk Hc Hf. unfold children_iter, do_move, it_other_policy, get_instance. rewrite Hk, Hc. cbn. rewrite Hf. reflexivity. Qed.
  Lemma children_siblings it a b fc : it_kind it = Siblings -> it_cur it = Some a -> op_parent ops (Some a) = Ok (Some b) ->
    op_first ops (Some a) = Ok fc -> children_iter F im h it = Ok (Iter Siblings fc (Some b) [] fc).
  Proof.
    intros Hk Hc Hp Hf. unfold children_iter, do_move, it_other_policy, get_instance. rewrite Hk, Hc. cbn.
    unfold base_unless_root, base_is_root. rewrite ptr_eqb_false by congruence. rewrite Hp. cbn. rewrite Hf. reflexivity.
  Qed.

  Lemma roots_differ x (ds : list tree) : NoDup (map fst (preorder (Rose x ds))) -> Forall (fun c => raddr c <> fst x) ds.
  Proof.
    cbn [preorder map]. intros H. apply NoDup_cons in H as [Hx _]. apply Forall_forall. intros c Hc E. apply Hx.
    rewrite <- E. apply elem_of_list_fmap. exists (label c). split; [reflexivity|]. apply elem_of_flat_map. exists c. split; [exact Hc|].
    destruct c. cbn. left.
  Qed.
  Lemma walks_children s : ops_ok ops (rose_map fst s) -> NoDup (map fst (preorder s)) ->
    (forall x, x ∈ preorder s -> ni_value im h (Some (fst x)) = Ok (snd x)) -> rsize s < F ->
    forall q i, q ∉ map fst (flat_map preorder (children s)) ->
    walks (Iter Siblings (at_first (children s)) (Some q) [] i) (children s).
  Proof.
    induction s as [[a v] cs IH] using rose_ind'. intros Hops Hnd Hv HF q i Hq. cbn [children] in *.
    cbn [rose_map fst] in Hops. apply ops_ok_unfold in Hops as (_ & _ & Hlink & Hsub).
    cbn [preorder map fst] in Hnd. apply NoDup_cons in Hnd as [Ha Hnd].
    change (rsize (Rose (a, v) cs)) with (S (list_sum (map rsize cs))) in HF. pose proof (length_children cs) as Hlen.
    enough (Hgo : forall rs ls i, cs = ls ++ rs -> walks (Iter Siblings (at_first rs) (Some q) [] i) rs)
      by (apply (Hgo cs []); reflexivity).
    induction rs as [|[[b w] ds] rs IHrs]; intros ls i0 E.
    { apply Walks_end; [reflexivity|lia]. }
    pose proof (Hlink (map (rose_map fst) ls) (rose_map fst (Rose (b, w) ds)) (map (rose_map fst) rs)) as Hl.
    destruct Hl as (Hpar & _ & Hnext); [subst cs; rewrite map_app; reflexivity|]. cbn [rose_map label fst] in Hpar, Hnext.
    assert (Hin : Rose (b, w) ds ∈ cs) by (subst cs; set_solver +).
    assert (Hsb : ops_ok ops (rose_map fst (Rose (b, w) ds))).
    { rewrite Forall_forall in Hsub. apply Hsub. apply elem_of_list_fmap. eauto. }
    assert (Hsz : rsize (Rose (b, w) ds) + length rs <= list_sum (map rsize cs)).
    { subst cs. rewrite map_app, list_sum_app'. cbn [map list_sum foldr]. pose proof (length_children rs). unfold list_sum in *. cbn. lia. }
    assert (Hsubset : forall x, x ∈ preorder (Rose (b, w) ds) -> x ∈ flat_map preorder cs).
    { intros x Hx. apply elem_of_flat_map. eauto. }
    assert (Hnb : NoDup (map fst (preorder (Rose (b, w) ds)))).
    { subst cs. rewrite flat_map_app, map_app in Hnd. apply NoDup_app in Hnd as (_ & _ & Hnd).
      cbn [flat_map] in Hnd. rewrite map_app in Hnd. apply NoDup_app in Hnd as (Hnd & _). exact Hnd. }
    assert (Hf : op_first ops (Some b) = Ok (at_first ds)).
    { cbn [rose_map] in Hsb. apply ops_ok_unfold in Hsb as (Hf & _). cbn in Hf. rewrite head_label_map in Hf. exact Hf. }
    assert (Hn : nav_next (tree_nav im h (Some q)) (Some b) = Ok (head_label (map (rose_map fst) rs))).
    { cbn. unfold base_unless_root, base_is_root. rewrite (ptr_eqb_false (Some b) (Some q)); [exact Hnext|].
      intros [= ->]. apply Hq. apply elem_of_list_fmap. exists (q, w). split; [reflexivity|]. apply Hsubset. cbn. left. }
    assert (Hds : forall q i, q ∉ map fst (flat_map preorder ds) -> walks (Iter Siblings (at_first ds) (Some q) [] i) ds).
    { rewrite Forall_forall in IH. specialize (IH _ Hin Hsb Hnb). cbn [children] in IH. apply IH.
      + intros x Hx. apply Hv. cbn [preorder]. right. apply Hsubset, Hx.
      + lia. }
    eapply Walks_at with (x := (b, w)).
    - reflexivity.
    - apply Hv. cbn [preorder]. right. apply Hsubset. cbn. left.
    - unfold it_incr. cbn [it_cur at_first head_label label option_map fst it_root it_kind it_open increment_impl].
      rewrite Hn. reflexivity.
    - cbn. rewrite head_label_map. change (option_map fst (head_label rs)) with (at_first rs). unfold it_set. cbn.
      apply (IHrs (ls ++ [Rose (b, w) ds])). rewrite <- app_assoc. exact E.
    - eapply children_siblings; [reflexivity|reflexivity|exact Hpar|exact Hf].
    - apply Hds. intros Hx. apply Ha. apply elem_of_list_fmap in Hx as (y & -> & Hy). apply elem_of_list_fmap. exists y. split; [reflexivity|].
      apply Hsubset. cbn. right. exact Hy.
    - eexists. split; [apply Hds|].
      + cbn [preorder map fst] in Hnb. apply NoDup_cons in Hnb as [Hb _]. exact Hb.
      + intros fi Hk Hcur. eapply children_fixed; [exact Hk|exact Hcur|exact Hf].
    - apply roots_differ. exact Hnb.
    - pose proof (rsize_pos (Rose (b, w) ds)). lia.
    - cbn [length]. pose proof (rsize_pos (Rose (b, w) ds)). lia.
  Qed.

  (** The search starts at the root with the fixed policy. *)
  Lemma walks_root t : ops_ok ops (rose_map fst t) -> NoDup (map fst (preorder t)) ->
    (forall x, x ∈ preorder t -> ni_value im h (Some (fst x)) = Ok (snd x)) -> rsize t < F ->
    walks (Iter Fixed (Some (raddr t)) (Some (raddr t)) [] (Some (raddr t))) [t].
  Proof.
    intros Hops Hnd Hv HF. destruct t as [[a v] cs]. unfold raddr. cbn [label fst].
    assert (Hf : op_first ops (Some a) = Ok (at_first cs)).
    { cbn [rose_map] in Hops. apply ops_ok_unfold in Hops as (Hf & _). cbn in Hf. rewrite head_label_map in Hf. exact Hf. }
    assert (Hcs : walks (Iter Siblings (at_first cs) (Some a) [] (at_first cs)) cs).
    { apply (walks_children (Rose (a, v) cs)); try assumption. cbn in Hnd. apply NoDup_cons in Hnd as [Ha _]. exact Ha. }
    eapply Walks_at with (x := (a, v)).
    - reflexivity.
    - apply Hv. cbn. left.
    - reflexivity.
    - apply Walks_end; [reflexivity|lia].
    - eapply children_fixed; [reflexivity|reflexivity|exact Hf].
    - exact Hcs.
    - eexists. split; [exact Hcs|]. intros fi Hk Hcur. eapply children_fixed; [exact Hk|exact Hcur|exact Hf].
    - apply roots_differ. exact Hnd.
    - change (rsize (Rose (a, v) cs)) with (S (list_sum (map rsize cs))) in HF. lia.
    - cbn [length]. pose proof (length_children cs). change (rsize (Rose (a, v) cs)) with (S (list_sum (map rsize cs))) in HF. lia.
  Qed.
End Walk.
