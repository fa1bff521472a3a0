(** PropGen.v: pointers to several trees at once (C46) and the generation of a
    copy while a tree is traversed (C47).

    [node_at t p] and [node_after m t p] (PathSpec.v) are the node of [t] at the
    path [p] and the node that the step [m] leads to from there; [prune]/[bkeep]
    (PruneSpec.v) the tree left when the nodes failing a test are cut off. *)
From Verif Require Import Base Spec StructNode BinaryNode NaryNode Nav Policy Tree Rep RoseFacts NavFacts BinOrder BinRep NaryRep EditSpec
  World Kinds TreeSpec NodeFacts Iter Matcher Gen GenFacts GenUser PathSpec PathFacts PruneSpec Examples Examples2.

Definition mp_step (ops : node_ops) (m : step) : mptr -> res mptr :=
  match m with ToParent => mp_parent ops | ToPrev => mp_prev ops | ToNext => mp_next ops | ToFirst => mp_first ops | ToLast => mp_last ops end.
Definition addr_tree {V} (t : rose (addr * V)) : rose addr := rose_map fst t.

Lemma mapM_map {A B C} (f : B -> res C) (g : A -> B) (k : A -> C) l : (forall x, x ∈ l -> f (g x) = Ok (k x)) -> mapM f (map g l) = Ok (map k l).
Proof.
  induction l as [|x l IH]; intros H; [reflexivity|]. cbn. rewrite (H x) by left. cbn [mbind res_bind]. fold (mapM f (map g l)).
  rewrite IH by (intros y Hy; apply H; right; exact Hy). reflexivity.
Qed.

(** A multiple pointer to the nodes at one path of several trees of the same
    shape: after a step all its pointers are null, or each points to the node of
    its own tree at one and the same path, where the step leads. *)
Lemma together ops m (ts : list (rose addr)) fl p :
  ts <> [] -> Forall (whole ops) ts -> (forall t u, t ∈ ts -> u ∈ ts -> same_shape t u) -> (forall t, t ∈ ts -> node_at t p <> None) ->
  exists q, mp_step ops m (MPtr (map (fun t => node_at t p) ts) fl) = Ok q /\
    (mp_ptrs q = map (fun _ => None) ts /\ (forall t, t ∈ ts -> node_after m t p = None) \/
     exists p', mp_ptrs q = map (fun t => node_at t p') ts /\ forall t, t ∈ ts -> go m t p = Some p' /\ node_at t p' <> None).
Proof.
  intros Hne Hw Hs Hp. destruct (mp_do_ok ops m ts fl p Hw) as (q & E & Hq & _).
  { apply Forall_forall. intros t Ht E. apply (Hp t Ht). unfold node_at. rewrite E. reflexivity. }
  exists q. split; [destruct m; exact E|]. rewrite Hq. destruct ts as [|t0 ts]; [congruence|].
  assert (H0 : t0 ∈ t0 :: ts) by left. destruct (node_after m t0 p) as [a|] eqn:Ea.
  - right. unfold node_after in Ea. destruct (go m t0 p) as [p'|] eqn:Eg; [|discriminate]. exists p'.
    assert (Hall : forall t, t ∈ t0 :: ts -> go m t p = Some p' /\ node_at t p' <> None).
    { intros t Ht. rewrite (shape_go m p t t0 (Hs t t0 Ht H0)). split; [exact Eg|]. intros En.
      assert (H : node_after m t p = None) by (unfold node_after; rewrite (shape_go m p t t0 (Hs t t0 Ht H0)), Eg; exact En).
      apply (arrive m p t t0 (Hs t t0 Ht H0)) in H. unfold node_after in H. rewrite Eg in H. congruence. }
    split; [|exact Hall]. apply map_ext_in. intros t Ht. apply elem_of_list_In in Ht. destruct (Hall t Ht) as [Hg _]. unfold node_after. rewrite Hg. reflexivity.
  - left. assert (Hall : forall t, t ∈ t0 :: ts -> node_after m t p = None) by (intros t Ht; apply (arrive m p t t0 (Hs t t0 Ht H0)); exact Ea).
    split; [|exact Hall]. apply map_ext_in. intros t Ht. apply elem_of_list_In in Ht. auto.
Qed.
Theorem C46_together_nary :
  forall (V : Type) (h : gmap addr (nnode V)) (m : step) (ts : list (rose (addr * V))) (p : list nat) (fl : list bool),
  ts <> [] -> (forall t, t ∈ ts -> nary_at h t) ->
  (forall t u, t ∈ ts -> u ∈ ts -> same_shape (addr_tree t) (addr_tree u)) ->
  (forall t, t ∈ ts -> node_at (addr_tree t) p <> None) ->
  exists q, mp_step (nary_ops h) m (MPtr (map (fun t => node_at (addr_tree t) p) ts) fl) = Ok q /\
    (mp_ptrs q = map (fun _ => None) ts /\ (forall t, t ∈ ts -> node_after m (addr_tree t) p = None) \/
     exists p', mp_ptrs q = map (fun t => node_at (addr_tree t) p') ts /\
       forall t, t ∈ ts -> go m (addr_tree t) p = Some p' /\ node_at (addr_tree t) p' <> None).
Proof.
  intros V h m ts p fl Hne Hh Hs Hp. destruct (together (nary_ops h) m (map addr_tree ts) fl p) as (q & E & Hq).
  - destruct ts; [congruence|discriminate].
  - apply Forall_forall. intros t Ht. apply elem_of_list_fmap in Ht as (u & -> & Hu). apply nary_whole, Hh, Hu.
  - intros t u Ht Hu. apply elem_of_list_fmap in Ht as (t' & -> & Ht). apply elem_of_list_fmap in Hu as (u' & -> & Hu). auto.
  - intros t Ht. apply elem_of_list_fmap in Ht as (t' & -> & Ht). auto.
  - rewrite map_map in E. exists q. split; [exact E|]. rewrite !map_map in Hq. destruct Hq as [[H1 H2]|(p' & H1 & H2)]; [left|right; exists p'; rewrite map_map in H1]; (split; [exact H1|]); intros t Ht;
      apply H2; apply elem_of_list_fmap; eauto.
Qed.
Print Assumptions C46_together_nary.
Theorem C46_together_binary :
  forall (V : Type) (h : gmap addr (bnode V)) (m : step) (bts : list (bin (addr * V) * rose (addr * V))) (p : list nat) (fl : list bool),
  let ts := map snd bts in
  ts <> [] -> (forall b t, (b, t) ∈ bts -> bin_at h b /\ bin_forest b = [t]) ->
  (forall t u, t ∈ ts -> u ∈ ts -> same_shape (addr_tree t) (addr_tree u)) ->
  (forall t, t ∈ ts -> node_at (addr_tree t) p <> None) ->
  exists q, mp_step (bin_ops h) m (MPtr (map (fun t => node_at (addr_tree t) p) ts) fl) = Ok q /\
    (mp_ptrs q = map (fun _ => None) ts /\ (forall t, t ∈ ts -> node_after m (addr_tree t) p = None) \/
     exists p', mp_ptrs q = map (fun t => node_at (addr_tree t) p') ts /\
       forall t, t ∈ ts -> go m (addr_tree t) p = Some p' /\ node_at (addr_tree t) p' <> None).
Proof.
  intros V h m bts p fl ts Hne Hh Hs Hp. destruct (together (bin_ops h) m (map addr_tree ts) fl p) as (q & E & Hq).
  - destruct ts; [congruence|discriminate].
  - apply Forall_forall. intros t Ht. apply elem_of_list_fmap in Ht as (u & -> & Hu). apply elem_of_list_fmap in Hu as ([b u'] & -> & Hu).
    destruct (Hh b u' Hu) as [H1 H2]. exact (binary_whole h b u' H1 H2).
  - intros t u Ht Hu. apply elem_of_list_fmap in Ht as (t' & -> & Ht). apply elem_of_list_fmap in Hu as (u' & -> & Hu). auto.
  - intros t Ht. apply elem_of_list_fmap in Ht as (t' & -> & Ht). auto.
  - rewrite map_map in E. exists q. split; [exact E|]. rewrite !map_map in Hq. destruct Hq as [[H1 H2]|(p' & H1 & H2)]; [left|right; exists p'; rewrite map_map in H1]; (split; [exact H1|]); intros t Ht;
      apply H2; apply elem_of_list_fmap; eauto.
Qed.
Print Assumptions C46_together_binary.
(** To the left and to the right child, in binary trees; here the trees need not
    have the same shape, and a pointer whose tree lacks the child becomes null
    (and stays so). *)
Theorem C46_sides_binary :
  forall (V : Type) (h : gmap addr (bnode V)) (bs : list (bin (addr * V))) (p : list bool) (fl : list bool),
  (forall b, b ∈ bs -> bin_in h b) ->
  exists q q', mp_left (bin_ops h) (MPtr (map (fun b => option_map fst (bnode_at b p)) bs) fl) = Ok q /\
    mp_right (bin_ops h) (MPtr (map (fun b => option_map fst (bnode_at b p)) bs) fl) = Ok q' /\
    mp_ptrs q = map (fun b => option_map fst (bnode_at b (true :: p))) bs /\
    mp_ptrs q' = map (fun b => option_map fst (bnode_at b (false :: p))) bs.
Proof.
  intros V h bs p fl Hb.
  assert (E : forall (s : bool) f, (forall n, f n = if s then bleft n else bright n) ->
    mapM (fun q : ptr => match q with None => Ok None | Some _ => n ← deref h q; Ok (f n) end) (map (fun b => option_map fst (bnode_at b p)) bs)
    = Ok (map (fun b => option_map fst (bnode_at b (s :: p))) bs)).
  { intros s f Hf. apply mapM_map. intros b Hin. destruct (Hb b Hin) as (par & Hr & _). destruct (bnode_at b p) as [a|] eqn:Ea.
    - destruct (side_at h par b p a Hr Ea) as (n & Hn & H1 & H2). cbn [option_map]. rewrite (deref_Some _ _ _ Hn). cbn [mbind res_bind]. rewrite Hf. destruct s; congruence.
    - cbn [option_map]. unfold bnode_at in *. cbn [at_bpath]. destruct (at_bpath p b) as [[|x l r]|]; [reflexivity|discriminate|reflexivity]. }
  unfold mp_left, mp_right, mp_do. cbn [mp_ptrs op_left op_right bin_ops]. unfold b_left, b_right.
  eexists _, _. split; [rewrite (E true bleft) by reflexivity; reflexivity|]. split; [rewrite (E false bright) by reflexivity; reflexivity|]. split; reflexivity.
Qed.
Print Assumptions C46_sides_binary.
(** Two multiple pointers to the same trees compare equal exactly if they are at
    the same path, and are true. *)
Theorem C46_equal :
  forall (V : Type) (t : rose (addr * V)) (ts : list (rose (addr * V))) (p p' : list nat) (fl fl' : list bool),
  NoDup (raddrs t) -> node_at (addr_tree t) p <> None -> node_at (addr_tree t) p' <> None ->
  mp_bool (MPtr (map (fun t => node_at (addr_tree t) p) (t :: ts)) fl) = true /\
  (mp_eqb (MPtr (map (fun t => node_at (addr_tree t) p) (t :: ts)) fl) (MPtr (map (fun t => node_at (addr_tree t) p') (t :: ts)) fl') = true <-> p = p').
Proof.
  intros V t ts p p' fl fl' Hnd Hp Hp'. unfold mp_bool, mp_eqb, mp_main, mp_get. cbn [mp_ptrs nth map].
  destruct (node_at (addr_tree t) p) as [a|] eqn:Ea; [|congruence]. split; [reflexivity|]. split.
  - intros E. destruct (node_at (addr_tree t) p') as [b|] eqn:Eb; [|congruence]. destruct (decide (a = b)) as [->|Hn].
    + eapply path_unique; [|exact Ea|exact Eb]. unfold addr_tree. rewrite preorder_map. exact Hnd.
    + rewrite ptr_eqb_false in E by congruence. discriminate.
  - intros <-. rewrite Ea. apply ptr_eqb_true.
Qed.
Print Assumptions C46_equal.

(** The nodes of a stored tree [t] are traversed breadth-first together with a
    new node holding the root's value; every node reached is generated.  What
    stands under the new node at the end is a copy of [t] without the nodes whose
    value fails the test and all below them.  Nothing else changed, in particular
    not [t]; all other nodes of the copy are new. *)
Theorem C47_generates_nary :
  forall (V : Type) (EV : EqDecision V) (F : nat) (al : allocator (nnode V)) (h : gmap addr (nnode V)) (t : rose (addr * V)) (keep : V -> bool) (g : addr),
  nary_in h t -> rsize t < F -> nary_at h (Rose (g, snd (label t)) []) -> g ∉ raddrs t ->
  exists h' r, generate F (nary_impl V) al (n_assign_child_like F) (by_value (nary_impl V) keep) (mp_make [Some (raddr t); Some g]) tt h = Ok (tt, h') /\
    nary_at h' r /\ raddr r = g /\ rose_map snd r = rose_map snd (prune (fun x => keep (snd x)) t) /\
    (forall a, a ∈ raddrs r -> a = g \/ h !! a = None) /\ (forall a, a ∉ raddrs r -> h' !! a = h !! a) /\ nary_in h' t.
Proof.
  intros V EV F al h t keep g Hin HF Hg Hn. destruct (nary_generates F al h t keep g HF Hin Hg Hn) as (h' & r & E & H1 & H2 & H3 & H4 & H5).
  exists h', r. repeat (split; [assumption|]). destruct Hin as (par & prev & next & fs & Hr & Hnd). exists par, prev, next, fs. split; [|exact Hnd].
  eapply nrep_ext; [|exact Hr]. intros a Ha. apply H5. intros Har. destruct (H4 a Har) as [->|Hnone]; [exact (Hn Ha)|].
  destruct (nrep_dom _ _ _ _ _ _ _ Hr Ha) as [n En]. congruence.
Qed.
Print Assumptions C47_generates_nary.
Theorem C47_generates_binary :
  forall (V : Type) (EV : EqDecision V) (F : nat) (al : allocator (bnode V)) (h : gmap addr (bnode V)) (a : addr) (v : V) (l r : bin (addr * V)) (keep : V -> bool) (g : addr),
  let b := BNode (a, v) l r in
  bin_in h b -> bin_size b < F -> bin_at h (BNode (g, v) BLeaf BLeaf) -> g ∉ baddrs b ->
  exists h' u, generate F (binary_impl V) al b_assign_child_like (by_value (binary_impl V) keep) (mp_make [Some a; Some g]) tt h = Ok (tt, h') /\
    bin_at h' u /\ baddr u = Some g /\ bin_map snd u = bin_map snd (bkeep (fun x => keep (snd x)) b) /\
    (forall z, z ∈ baddrs u -> z = g \/ h !! z = None) /\ (forall z, z ∉ baddrs u -> h' !! z = h !! z) /\ bin_in h' b.
Proof.
  intros V EV F al h a v l r keep g b Hin HF Hg Hn. destruct (binary_generates F al h b a v l r keep g eq_refl HF Hin Hg Hn) as (h' & u & E & H1 & H2 & H3 & H4 & H5).
  exists h', u. repeat (split; [assumption|]). destruct Hin as (par & Hr & Hnd). exists par. split; [|exact Hnd].
  eapply brep_ext; [|exact Hr]. intros z Hz. apply H5. intros Hzu. destruct (H4 z Hzu) as [->|Hnone]; [exact (Hn Hz)|].
  destruct (brep_dom _ _ _ _ Hr Hz) as [n En]. congruence.
Qed.
Print Assumptions C47_generates_binary.

(** *** Cases that meet the hypotheses *)
Definition ex_g : gmap addr (nnode nat) := <[9%positive := NNodeR 10 None 0 None None None None]> ex_nheap.
Definition ex_not30 (v : nat) : bool := negb (Nat.eqb v 30).
Example C47_ex_nary : nary_in ex_g ex_nary /\ rsize ex_nary < 100 /\ nary_at ex_g (Rose (9%positive, 10) []) /\ 9%positive ∉ raddrs ex_nary /\
  rose_map snd (prune (fun x => ex_not30 (snd x)) ex_nary) = Rose 10 [Rose 20 []; Rose 40 []].
Proof.
  split; [|split; [|split; [|split]]].
  - exists None, None, None, (szt 0). split; [vm_compute; tauto|]. apply (bool_decide_unpack _). vm_compute. exact I.
  - vm_compute. lia.
  - split; [vm_compute; tauto|]. apply (bool_decide_unpack _). vm_compute. exact I.
  - apply (bool_decide_unpack _). vm_compute. exact I.
  - reflexivity.
Qed.
Definition ex_gb : gmap addr (bnode nat) := <[9%positive := BNodeR 10 None None None]> ex_bheap.
Example C47_ex_binary : bin_in ex_gb ex_bin /\ bin_size ex_bin < 100 /\ bin_at ex_gb (BNode (9%positive, 10) BLeaf BLeaf) /\ 9%positive ∉ baddrs ex_bin /\
  bin_map snd (bkeep (fun x => ex_not30 (snd x)) ex_bin) = BNode 10 (BNode 20 BLeaf (BNode 40 (BNode 50 BLeaf BLeaf) BLeaf)) BLeaf.
Proof.
  split; [|split; [|split; [|split]]].
  - exists None. split; [vm_compute; tauto|]. apply (bool_decide_unpack _). vm_compute. exact I.
  - vm_compute. lia.
  - split; [vm_compute; tauto|]. apply (bool_decide_unpack _). vm_compute. exact I.
  - apply (bool_decide_unpack _). vm_compute. exact I.
  - reflexivity.
Qed.
(** Two trees of the shape of [ex_nsub]. *)
Definition ex_two1 : rose (addr * nat) := Rose (1%positive, 1) [Rose (2%positive, 2) []; Rose (3%positive, 3) []].
Definition ex_two2 : rose (addr * nat) := Rose (4%positive, 4) [Rose (5%positive, 5) []; Rose (6%positive, 6) []].
Definition ex_two : gmap addr (nnode nat) :=
  list_to_map
    [(1%positive, NNodeR 1 None 0 None None (Some 2%positive) (Some 3%positive));
     (2%positive, NNodeR 2 (Some 1%positive) 1 None (Some 3%positive) None None);
     (3%positive, NNodeR 3 (Some 1%positive) 0 (Some 2%positive) None None None);
     (4%positive, NNodeR 4 None 0 None None (Some 5%positive) (Some 6%positive));
     (5%positive, NNodeR 5 (Some 4%positive) 1 None (Some 6%positive) None None);
     (6%positive, NNodeR 6 (Some 4%positive) 0 (Some 5%positive) None None None)].
Example C46_ex : (forall t, t ∈ [ex_two1; ex_two2] -> nary_at ex_two t) /\
  (forall t u, t ∈ [ex_two1; ex_two2] -> u ∈ [ex_two1; ex_two2] -> same_shape (addr_tree t) (addr_tree u)) /\
  (forall t, t ∈ [ex_two1; ex_two2] -> node_at (addr_tree t) [0] <> None) /\
  mp_step (nary_ops ex_two) ToNext (MPtr [Some 2; Some 5]%positive []) = Ok (MPtr [Some 3; Some 6]%positive [false; false]).
Proof.
  split; [|split; [|split]].
  - intros t Ht. rewrite !elem_of_cons, elem_of_nil in Ht. destruct Ht as [->|[->|[]]]; (split; [vm_compute; tauto|]); apply (bool_decide_unpack _); vm_compute; exact I.
  - intros t u Ht Hu. rewrite !elem_of_cons, elem_of_nil in Ht, Hu. destruct Ht as [->|[->|[]]], Hu as [->|[->|[]]]; reflexivity.
  - intros t Ht. rewrite !elem_of_cons, elem_of_nil in Ht. destruct Ht as [->|[->|[]]]; discriminate.
  - vm_compute. reflexivity.
Qed.
