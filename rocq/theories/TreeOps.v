(** TreeOps.v: the operations of tree.hpp / tree_base.hpp keep worlds
    consistent.  Proved once for any node type whose operations are correct
    ([kind_ok]); TreeBin.v and TreeNary.v show that both node types are. *)
From Verif Require Import Base Spec StructNode BinaryNode NaryNode Nav Policy Tree User Rep NavFacts World NaryOps2 Kinds TreeSpec.

Record kind_ok {V Nd} (F : nat) (im : node_impl V Nd) (al : allocator Nd) (K : kind_data V Nd) : Prop := KindOk {
  k_nd : forall h c, crep K h c -> NoDup (caddrs K c);
  k_dom : forall h c a, crep K h c -> a ∈ caddrs K c -> is_Some (h !! a);
  k_ext : forall h h' c, (forall a, a ∈ caddrs K c -> h' !! a = h !! a) -> crep K h c -> crep K h' c;
  k_nil : caddrs K (cnil K) = [] /\ croot K (cnil K) = None /\ (forall h, crep K h (cnil K)) /\ carity K (cnil K) = 0;
  k_null : forall c, croot K c = None -> c = cnil K;
  k_root : forall c a, croot K c = Some a -> a ∈ caddrs K c;
  k_src : forall h c, crep K h c -> csrc K h c;
  k_src_dom : forall h c a, csrc K h c -> a ∈ caddrs K c -> is_Some (h !! a);
  k_src_ext : forall h h' c, (forall a, a ∈ caddrs K c -> h' !! a = h !! a) -> csrc K h c -> csrc K h' c;
  k_src_nd : forall h c, csrc K h c -> NoDup (caddrs K c);
  k_dealloc : forall h c, crep K h c -> length (caddrs K c) < F ->
    exists h', deallocate im F h (croot K c) = Ok h' /\
      forall x, h' !! x = if bool_decide (x ∈ caddrs K c) then None else h !! x;
  k_copy : forall h c a, csrc K h c -> croot K c = Some a -> length (caddrs K c) <= F ->
    exists a' h' c', ni_copy im F al h (Some a) = Ok (a', h') /\ croot K c' = Some a' /\
      cvals K c' = cvals K c /\ length (caddrs K c') = length (caddrs K c) /\ carity K c' = carity K c /\
      built (caddrs K) (crep K) h h' c';
  k_value : forall h v, exists a h' c', ni_from_value im al h v = Ok (a, h') /\ croot K c' = Some a /\
      cvals K c' = lit_vals K (LNode v []) /\ length (caddrs K c') = 1 /\ carity K c' = 0 /\
      built (caddrs K) (crep K) h h' c';
  k_struct : forall h v cs, lit_ok K (LNode v cs) ->
    exists a h' c', ni_from_struct im al h (eval_lit (LNode v cs)) = Ok (a, h') /\ croot K c' = Some a /\
      cvals K c' = lit_vals K (LNode v cs) /\
      N.of_nat (length (caddrs K c')) = subtree_size (eval_lit (LNode v cs)) /\
      N.of_nat (carity K c') = subtree_arity (eval_lit (LNode v cs)) /\
      built (caddrs K) (crep K) h h' c';
  k_size : forall h c a, csrc K h c -> croot K c = Some a -> length (caddrs K c) <= F ->
    ni_size im F h (Some a) = Ok (szt (length (caddrs K c)));
  k_arity : forall h c a, csrc K h c -> croot K c = Some a -> length (caddrs K c) <= F ->
    (N.of_nat (length (caddrs K c)) < W64)%N ->
    exists fc, op_first (ni_ops im h) (Some a) = Ok fc /\ (fc = None -> carity K c = 0) /\
      calculate_arity F im h (Some a) (max_expected im) = Ok (N.of_nat (carity K c));
  k_arity_lt : forall c, carity K c <= length (caddrs K c);
  k_replace_root : forall h c a, crep K h c -> croot K c = Some a ->
    ni_replace_with im F h (Some a) None = Ok h;
  k_replace : forall h c u a, crep K h c -> crep K h u -> (forall x, x ∈ caddrs K u -> x ∉ caddrs K c) ->
    a ∈ caddrs K c -> croot K c <> Some a -> crepl K a u c -> length (caddrs K c) < F ->
    exists h', ni_replace_with im F h (Some a) (croot K u) = Ok h' /\
      crep K h' (csubst K a u c) /\ crep K h' (csub K a c) /\
      (forall x, x ∉ caddrs K c -> x ∉ caddrs K u -> h' !! x = h !! x);
  k_subst : forall h c u a, crep K h c -> a ∈ caddrs K c ->
    croot K (csub K a c) = Some a /\ (croot K c = Some a -> csub K a c = c /\ csubst K a u c = u) /\
    (croot K c <> Some a -> croot K (csubst K a u c) = croot K c /\
       Permutation (caddrs K (csubst K a u c) ++ caddrs K (csub K a c)) (caddrs K c ++ caddrs K u));
  k_deg : forall h c a, crep K h c -> a ∈ caddrs K c ->
    exists fc, op_first (ni_ops im h) (Some a) = Ok fc /\
      (fc = None <-> cdeg K a c = 0) /\
      (forall b, fc = Some b -> exists n, ni_following im h (Some b) = Ok n /\ wadd n 1 = szt (cdeg K a c));
  k_deg_sub : forall h c a, crep K h c -> a ∈ caddrs K c ->
    cdeg K a (csub K a c) = cdeg K a c /\ (cdeg K a c = 0 -> length (caddrs K (csub K a c)) = 1);
  k_children : forall h c a, crep K h c -> a ∈ caddrs K c ->
    exists k, ni_children im h (Some a) = Ok k /\ (ni_binary im && (k =? 2)%N = true <-> cfull K a c);
  k_add_null : forall first h a, (if first : bool then ni_prepend im F h a None else ni_append im F h a None) = Ok (None, h);
  k_add : forall first h c u a b, crep K h c -> crep K h u -> (forall x, x ∈ caddrs K u -> x ∉ caddrs K c) ->
    a ∈ caddrs K c -> ~ cfull K a c -> croot K u = Some b -> length (caddrs K c) <= F ->
    exists h', (if first : bool then ni_prepend im F h (Some a) (Some b) else ni_append im F h (Some a) (Some b)) = Ok (Some b, h') /\
      crep K h' (cadd K first a u c) /\
      (forall x, x ∉ caddrs K c -> x ∉ caddrs K u -> h' !! x = h !! x) /\
      croot K (cadd K first a u c) = croot K c /\
      Permutation (caddrs K (cadd K first a u c)) (caddrs K c ++ caddrs K u) /\
      cdeg K a (cadd K first a u c) = S (cdeg K a c) /\
      carity K (cadd K first a u c) = max (max (carity K c) (carity K u)) (S (cdeg K a c));
  k_instance : forall h c k a r, crep K h c -> a ∈ caddrs K c -> croot K c = Some r -> length (caddrs K c) < F ->
    exists it, get_instance F (tree_nav im h) k (Some a) (Some r) = Ok it /\
      it_kind it = k /\ it_cur it = Some a /\ it_root it = Some r;
  k_update : forall h c u a pos, crep K h c -> crep K h u -> a ∈ caddrs K c ->
    length (caddrs K c) < F -> stands F im h (croot K c) a pos ->
    exists pos', it_update im h pos (Some a) (croot K u) = Ok pos' /\
      it_kind pos' = it_kind pos /\ it_root pos' = it_root pos /\ it_cur pos' = croot K u /\
      (croot K c <> Some a -> forall b h', croot K u = Some b -> crep K h' (csubst K a u c) ->
         length (caddrs K (csubst K a u c)) < F -> stands F im h' (croot K c) b pos');
  k_post : forall h c l1 x l2, crep K h c -> length (caddrs K c) < F -> cpost K c = l1 ++ x :: l2 ->
    post_increment F (tree_nav im h (croot K c)) (Some x) = Ok (head l2);
  k_post_perm : forall c, Permutation (cpost K c) (caddrs K c);
  k_post_sub : forall h c a, crep K h c -> a ∈ caddrs K c ->
    exists l1 l2 l, cpost K c = l1 ++ cpost K (csub K a c) ++ l2 /\ cpost K (csub K a c) = l ++ [a] /\
      (croot K c <> Some a -> cpost K (csubst K a (cnil K) c) = l1 ++ l2);
  k_stands : forall h h' c a pos, crep K h c -> crep K h' c -> a ∈ caddrs K c -> length (caddrs K c) < F ->
    stands F im h (croot K c) a pos -> stands F im h' (croot K c) a pos;
  k_vals : forall c d, cvals K c = cvals K d ->
    length (caddrs K c) = length (caddrs K d) /\ carity K c = carity K d /\ (croot K c = None <-> croot K d = None);
  k_eq : forall h h' c d a b, csrc K h c -> csrc K h' d -> croot K c = Some a -> croot K d = Some b ->
    length (caddrs K c) <= F -> (N.of_nat (length (caddrs K c)) < W64)%N -> (N.of_nat (length (caddrs K d)) < W64)%N ->
    exists r, ni_eq im F h h' (Some a) (Some b) = Ok r /\ (r = true <-> cvals K c = cvals K d);
  k_lit : forall c v cs, lit_ok K (LNode v cs) -> cvals K c = lit_vals K (LNode v cs) ->
    N.of_nat (length (caddrs K c)) = subtree_size (eval_lit (LNode v cs)) /\
    N.of_nat (carity K c) = subtree_arity (eval_lit (LNode v cs));
  k_lit_root : forall c v cs, lit_ok K (LNode v cs) -> cvals K c = lit_vals K (LNode v cs) -> croot K c <> None;
  k_eq_struct : forall h c a v cs, lit_ok K (LNode v cs) -> csrc K h c -> croot K c = Some a ->
    (N.of_nat (length (caddrs K c)) < W64)%N ->
    exists r, ni_eq_struct im h (Some a) (eval_lit (LNode v cs)) = Ok r /\ (r = true <-> cvals K c = lit_vals K (LNode v cs))
}.

Section Ops.
  Context {V Nd : Type}.
  Variable F : nat.
  Variable im : node_impl V Nd.
  Variable al : allocator Nd.
  Variable K : kind_data V Nd.
  Hypothesis KO : kind_ok F im al K.
  Notation heap := (gmap addr Nd).
  Notation C := (C K).
  Notation croot := (croot K).
  Notation caddrs := (caddrs K).
  Notation crep := (crep K).
  Notation cnil := (cnil K).
  Notation cvals := (cvals K).
  Notation holds := (holds croot caddrs crep).
  Notation heap_ok := (heap_ok caddrs crep).
  Notation built := (built caddrs crep).
  Notation len c := (length (caddrs c)).

  Let nd := k_nd _ _ _ _ KO.
  Let dm := k_dom _ _ _ _ KO.
  Let ext := k_ext _ _ _ _ KO.

  Lemma nil_addrs : caddrs cnil = []. Proof. apply (k_nil _ _ _ _ KO). Qed.
  Lemma nil_root : croot cnil = None. Proof. apply (k_nil _ _ _ _ KO). Qed.
  Lemma nil_rep h : crep h cnil. Proof. apply (k_nil _ _ _ _ KO). Qed.
  Lemma nil_arity : carity K cnil = 0. Proof. apply (k_nil _ _ _ _ KO). Qed.
  Lemma root_some c : c <> cnil -> exists a, croot c = Some a.
  Proof. intros H. destruct (croot c) as [a|] eqn:E; [eauto|]. destruct H. apply (k_null _ _ _ _ KO), E. Qed.
  Lemma rep_src h c : crep h c -> csrc K h c. Proof. apply (k_src _ _ _ _ KO). Qed.

  Lemma dealloc_ok h c l : heap_ok h (c :: l) -> len c < F ->
    exists h', deallocate im F h (croot c) = Ok h' /\ heap_ok h' l.
  Proof.
    intros H HF. destruct (k_dealloc _ _ _ _ KO h c) as (h' & Hd & Hf); [eapply heap_ok_head, H|exact HF|].
    exists h'. split; [exact Hd|]. eapply (heap_ok_free croot caddrs crep ext); [exact H|exact Hf].
  Qed.

  Lemma assign_ok w M E i c u s r : holds w M (u :: E) -> M !! i = Some c -> len c < F ->
    exists w', assign F im w i (croot u) s r = Ok w' /\ holds w' (<[i := u]> M) E /\
      w_trees w' = <[i := TreeRec (croot u) s r (croot u)]> (w_trees w).
  Proof.
    intros H Hi HF. destruct (holds_get _ _ _ _ _ _ _ _ H Hi) as (t & Ht & Hg & Hr & _).
    pose proof (holds_set _ _ _ _ _ _ i c u s r H Hi) as Hs.
    destruct (dealloc_ok (w_heap w) c (E ++ elems (<[i := u]> M))) as (h' & Hd & Hok); [exact (proj2 Hs)|exact HF|].
    unfold assign. rewrite Hg. cbn [mbind res_bind]. rewrite Hr.
    exists (set_tree (set_heap w h') i (TreeRec (croot u) s r (croot u))). split; [|split; [|reflexivity]].
    - destruct (croot c) as [a|] eqn:Ec.
      + rewrite Hd. reflexivity.
      + cbn [mbind res_bind]. assert (h' = w_heap w) as ->.
        { apply (k_null _ _ _ _ KO) in Ec. subst c. destruct F; [lia|]. cbn in Hd. congruence. }
        reflexivity.
    - split; [exact (proj1 Hs)|exact Hok].
  Qed.

  Lemma nullify_eq (w : world Nd) i : nullify w i = set_tree w i (TreeRec (croot cnil) 0 0 (croot cnil)).
  Proof. rewrite nil_root. reflexivity. Qed.
  Lemma holds_add_nil w M E : holds w M E -> holds w M (cnil :: E).
  Proof.
    intros [H1 H2]. split; [exact H1|]. cbn. apply heap_ok_empty; [apply nil_addrs|apply nil_rep|exact H2].
  Qed.
  Lemma holds_drop_nil w M E : holds w M (cnil :: E) -> holds w M E.
  Proof.
    intros [H1 H2]. split; [exact H1|]. cbn in H2. apply heap_ok_empty in H2; [exact H2|apply nil_addrs|apply nil_rep].
  Qed.
  Lemma holds_alloc w M E h' c : holds w M E -> built (w_heap w) h' c -> holds (set_heap w h') M (c :: E).
  Proof.
    intros [H1 H2] Hb. split; [exact H1|]. cbn. eapply (heap_ok_alloc caddrs crep nd dm ext); eassumption.
  Qed.
  Lemma built_old h h' c x n : built h h' c -> h !! x = Some n -> h' !! x = Some n.
  Proof.
    intros (_ & Hn & Ho) Hx. rewrite Ho; [exact Hx|]. intros Hi. rewrite (Hn x Hi) in Hx. discriminate.
  Qed.
  Lemma built_old_rep h h' c d : built h h' c -> crep h d -> crep h' d.
  Proof.
    intros Hb Hd. eapply ext; [|exact Hd]. intros a Ha. destruct (dm h d a Hd Ha) as [n Hn].
    rewrite (built_old _ _ _ _ _ Hb Hn), Hn. reflexivity.
  Qed.
  Lemma built_old_src h h' c d : built h h' c -> csrc K h d -> csrc K h' d.
  Proof.
    intros Hb Hd. eapply (k_src_ext _ _ _ _ KO); [|exact Hd]. intros a Ha.
    destruct (k_src_dom _ _ _ _ KO h d a Hd Ha) as [n Hn].
    rewrite (built_old _ _ _ _ _ Hb Hn), Hn. reflexivity.
  Qed.
  Lemma built_size h h' c l : heap_ok h l -> built h h' c -> size h' = size h + len c.
  Proof.
    intros Hok Hb. destruct (heap_ok_alloc caddrs crep nd dm ext _ _ _ _ Hok Hb) as (_ & Hnd & Hdom).
    destruct Hok as (_ & Hnd0 & Hdom0).
    assert (Hsz : forall (g : heap) l, NoDup l -> (forall a, is_Some (g !! a) <-> a ∈ l) -> size g = length l).
    { intros g l' Hl Hg. rewrite <- (size_dom (D := gset addr)), <- (size_list_to_set (C := gset addr)) by exact Hl.
      f_equal. apply set_eq. intros a. rewrite elem_of_dom, elem_of_list_to_set. apply Hg. }
    rewrite (Hsz _ _ Hnd Hdom), (Hsz _ _ Hnd0 Hdom0). cbn. rewrite app_length. lia.
  Qed.

  (** The record of a tree or view object whose root is the root of [c]. *)
  Lemma copy_root_ok h t c : csrc K h c -> t_root t = croot c -> len c <= F ->
    exists c' h', copy_root F im al h t = Ok (croot c', h') /\ cvals c' = cvals c /\ len c' = len c /\
      carity K c' = carity K c /\ built h h' c'.
  Proof.
    intros Hc Ht HF. unfold copy_root. rewrite Ht. destruct (croot c) as [a|] eqn:Ec.
    - destruct (k_copy _ _ _ _ KO h c a Hc Ec HF) as (a' & h' & c' & Hcp & Hr & Hv & Hl & Har & Hb).
      exists c', h'. rewrite Hcp, Hr. auto.
    - apply (k_null _ _ _ _ KO) in Ec. subst c. exists cnil, h. rewrite nil_root. repeat split; auto using nil_rep.
      rewrite nil_addrs. intros x Hx. apply elem_of_nil in Hx as [].
  Qed.

  (** *** size() and arity() *)
  Lemma size_of_ok h t c : csrc K h c -> t_root t = croot c -> len c <= F ->
    exists s, size_of F im h t = Ok (s, TreeRec (t_root t) s (t_arity t) (t_nav t)) /\
      (s = t_size t \/ s = szt (len c)) /\ (t_size t = 0%N -> s = szt (len c)).
  Proof.
    intros Hc Ht HF. unfold size_of, tree_empty. rewrite Ht. destruct (croot c) as [a|] eqn:Ec.
    - cbn [is_null negb andb]. destruct (N.eqb_spec (t_size t) 0) as [Hz|Hz].
      + rewrite (k_size _ _ _ _ KO h c a Hc Ec HF). cbn. eexists. split; [reflexivity|]. auto.
      + exists (t_size t). destruct t; cbn in *. subst. split; [reflexivity|]. split; [auto|]. contradiction.
    - cbn. exists (t_size t). split; [destruct t; cbn in *; subst; reflexivity|]. split; [auto|]. intros Hz.
      apply (k_null _ _ _ _ KO) in Ec. subst c. rewrite nil_addrs, Hz. reflexivity.
  Qed.
  Lemma arity_of_ok h t c : csrc K h c -> t_root t = croot c -> len c <= F -> (N.of_nat (len c) < W64)%N ->
    exists r, arity_of F im h t = Ok (r, TreeRec (t_root t) (t_size t) r (t_nav t)) /\
      (r = t_arity t \/ r = N.of_nat (carity K c)) /\ (t_arity t = 0%N -> r = N.of_nat (carity K c)).
  Proof.
    intros Hc Ht HF HW. unfold arity_of, tree_empty. rewrite Ht. destruct (croot c) as [a|] eqn:Ec.
    - cbn [is_null negb andb]. destruct (N.eqb_spec (t_arity t) 0) as [Hz|Hz].
      + destruct (k_arity _ _ _ _ KO h c a Hc Ec HF HW) as (fc & Hf & Hn & Ha). rewrite Hf. cbn [mbind res_bind].
        destruct fc as [b|].
        * rewrite Ha. cbn. eexists. split; [reflexivity|]. auto.
        * exists (t_arity t). split; [destruct t; cbn in *; subst; reflexivity|]. split; [auto|]. intros _. rewrite (Hn eq_refl). exact Hz.
      + exists (t_arity t). destruct t; cbn in *. subst. split; [reflexivity|]. split; [auto|]. contradiction.
    - cbn. exists (t_arity t). split; [destruct t; cbn in *; subst; reflexivity|]. split; [auto|]. intros Hz.
      apply (k_null _ _ _ _ KO) in Ec. subst c. rewrite nil_arity, Hz. reflexivity.
  Qed.

  Lemma tree_size_ok w M E i c t : holds w M E -> M !! i = Some c -> w_trees w !! i = Some t -> len c <= F ->
    exists s, tree_size F im w i = Ok (s, set_tree w i (TreeRec (t_root t) s (t_arity t) (t_nav t))) /\
      holds (set_tree w i (TreeRec (t_root t) s (t_arity t) (t_nav t))) M E /\
      (t_size t = 0%N -> s = szt (len c)) /\ (s = t_size t \/ s = szt (len c)).
  Proof.
    intros H Hi Ht HF. destruct (holds_get _ _ _ _ _ _ _ _ H Hi) as (t' & Ht' & Hg & Hr & Hn).
    rewrite Ht in Ht'. injection Ht' as <-.
    destruct (size_of_ok (w_heap w) t c) as (s & Hs & H1 & H2); [eapply rep_src, holds_rep; eassumption|exact Hr|exact HF|].
    exists s. unfold tree_size. rewrite Hg. cbn [mbind res_bind]. rewrite Hs. cbn. split; [reflexivity|].
    split; [|auto]. eapply holds_cache; eassumption.
  Qed.
  Lemma tree_arity_ok w M E i c t : holds w M E -> M !! i = Some c -> w_trees w !! i = Some t -> len c <= F ->
    (N.of_nat (len c) < W64)%N ->
    exists r, tree_arity F im w i = Ok (r, set_tree w i (TreeRec (t_root t) (t_size t) r (t_nav t))) /\
      holds (set_tree w i (TreeRec (t_root t) (t_size t) r (t_nav t))) M E /\
      (t_arity t = 0%N -> r = N.of_nat (carity K c)) /\ (r = t_arity t \/ r = N.of_nat (carity K c)).
  Proof.
    intros H Hi Ht HF HW. destruct (holds_get _ _ _ _ _ _ _ _ H Hi) as (t' & Ht' & Hg & Hr & Hn).
    rewrite Ht in Ht'. injection Ht' as <-.
    destruct (arity_of_ok (w_heap w) t c) as (s & Hs & H1 & H2); [eapply rep_src, holds_rep; eassumption|exact Hr|exact HF|exact HW|].
    exists s. unfold tree_arity. rewrite Hg. cbn [mbind res_bind]. rewrite Hs. cbn. split; [reflexivity|].
    split; [|auto]. eapply holds_cache; eassumption.
  Qed.

  (** *** Construction, assignment, destruction *)
  Lemma construct_empty_ok w M i : holds w M [] -> M !! i = None ->
    exists w', construct_empty w i = Ok w' /\ holds w' (<[i := cnil]> M) [] /\
      w_trees w' = <[i := TreeRec None 0 0 None]> (w_trees w).
  Proof.
    intros H Hi. eexists. split; [reflexivity|]. split; [|reflexivity].
    rewrite <- nil_root. apply holds_new; [|exact Hi]. apply holds_add_nil, H.
  Qed.
  Lemma construct_struct_ok w M i v cs : holds w M [] -> M !! i = None -> lit_ok K (LNode v cs) ->
    exists w' c, construct_struct im al w i (eval_lit (LNode v cs)) = Ok w' /\ holds w' (<[i := c]> M) [] /\
      cvals c = lit_vals K (LNode v cs) /\ (forall x, x ∈ caddrs c -> w_heap w !! x = None) /\
      w_trees w' = <[i := TreeRec (croot c) (N.of_nat (len c)) (N.of_nat (carity K c)) (croot c)]> (w_trees w).
  Proof.
    intros H Hi Hl. destruct (k_struct _ _ _ _ KO (w_heap w) v cs Hl) as (a & h' & c & Hc & Hr & Hv & Hs & Ha & Hb).
    unfold construct_struct. rewrite Hc. cbn [mbind res_bind]. eexists _, c. split; [reflexivity|].
    rewrite <- Hr, <- Hs, <- Ha. split; [|split; [exact Hv|split; [apply Hb|reflexivity]]].
    apply holds_new; [|exact Hi]. apply holds_alloc; assumption.
  Qed.
  Lemma construct_copy_ok w M i j c t : holds w M [] -> M !! i = None -> M !! j = Some c -> w_trees w !! j = Some t ->
    len c <= F ->
    exists w' c', construct_copy F im al w i j = Ok w' /\ holds w' (<[i := c']> M) [] /\
      cvals c' = cvals c /\ len c' = len c /\ carity K c' = carity K c /\ (forall x, x ∈ caddrs c' -> w_heap w !! x = None) /\
      w_trees w' = <[i := TreeRec (croot c') (t_size t) (t_arity t) (croot c')]> (w_trees w).
  Proof.
    intros H Hi Hj Ht HF. destruct (holds_get _ _ _ _ _ _ _ _ H Hj) as (t' & Ht' & Hg & Hr & _).
    rewrite Ht in Ht'. injection Ht' as <-.
    destruct (copy_root_ok (w_heap w) t c) as (c' & h' & Hc & Hv & Hl & Ha & Hb); [eapply rep_src, holds_rep; eassumption|exact Hr|exact HF|].
    unfold construct_copy. rewrite Hg. cbn [mbind res_bind]. rewrite Hc. cbn [mbind res_bind]. eexists _, c'. split; [reflexivity|].
    split; [|split; [exact Hv|split; [exact Hl|split; [exact Ha|split; [apply Hb|reflexivity]]]]].
    apply holds_new; [|exact Hi]. apply holds_alloc; assumption.
  Qed.
  Lemma construct_move_ok w M i j c t : holds w M [] -> M !! i = None -> M !! j = Some c -> w_trees w !! j = Some t ->
    exists w', construct_move w i j = Ok w' /\ holds w' (<[j := cnil]> (<[i := c]> M)) [] /\ w_heap w' = w_heap w /\
      w_trees w' = <[j := TreeRec None 0 0 None]> (<[i := TreeRec (croot c) (t_size t) (t_arity t) (croot c)]> (w_trees w)).
  Proof.
    intros H Hi Hj Ht. destruct (holds_get _ _ _ _ _ _ _ _ H Hj) as (t' & Ht' & Hg & Hr & _).
    rewrite Ht in Ht'. injection Ht' as <-. assert (i <> j) by congruence.
    unfold construct_move. rewrite Hg. cbn [mbind res_bind]. rewrite Hr. eexists. split; [reflexivity|]. split; [|split; reflexivity].
    (* j takes the empty tree, i takes c *)
    pose proof (holds_set _ _ _ _ _ _ j c cnil 0%N 0%N (holds_add_nil _ _ _ H) Hj) as H1.
    assert (Hi' : (<[j := cnil]> M) !! i = None) by (rewrite lookup_insert_ne; congruence).
    pose proof (holds_new _ _ _ _ _ _ i c (t_size t) (t_arity t) H1 Hi') as H2.
    rewrite nullify_eq. unfold set_tree in *. cbn [w_heap w_trees] in *.
    rewrite (insert_commute M j i) by congruence. rewrite (insert_commute (w_trees w) j i) by congruence. exact H2.
  Qed.
  Lemma clear_ok w M E i c : holds w M E -> M !! i = Some c -> len c < F ->
    exists w', clear F im w i = Ok w' /\ holds w' (<[i := cnil]> M) E /\
      w_trees w' = <[i := TreeRec None 0 0 None]> (w_trees w).
  Proof.
    intros H Hi HF. unfold clear. rewrite <- nil_root. apply assign_ok with (c := c); [apply holds_add_nil, H|exact Hi|exact HF].
  Qed.
  Lemma destroy_ok w M i c : holds w M [] -> M !! i = Some c -> len c < F ->
    exists w', destroy F im w i = Ok w' /\ holds w' (delete i M) [] /\ w_trees w' = delete i (w_trees w).
  Proof.
    intros H Hi HF. destruct (clear_ok w M [] i c H Hi HF) as (w1 & Hc & H1 & Ht). unfold destroy. rewrite Hc.
    cbn [mbind res_bind]. eexists. split; [reflexivity|]. split.
    - assert (Hl : (<[i := cnil]> M) !! i = Some cnil) by apply lookup_insert.
      apply holds_delete with (i := i) (c := cnil) in H1; [|exact Hl]. rewrite delete_insert_delete in H1.
      apply holds_drop_nil, H1.
    - cbn. rewrite Ht, delete_insert_delete. reflexivity.
  Qed.
  Lemma assign_view_ok w M i c t s : holds w M [] -> M !! i = Some c -> csrc K (w_heap w) s -> t_root t = croot s ->
    len s <= F -> len c < F ->
    exists w' c', assign_view F im al w i t = Ok w' /\ holds w' (<[i := c']> M) [] /\
      cvals c' = cvals s /\ len c' = len s /\ carity K c' = carity K s /\ (forall x, x ∈ caddrs c' -> w_heap w !! x = None) /\
      w_trees w' = <[i := TreeRec (croot c') (t_size t) (t_arity t) (croot c')]> (w_trees w).
  Proof.
    intros H Hi Hs Hr HFs HF.
    destruct (copy_root_ok (w_heap w) t s Hs Hr HFs) as (c' & h' & Hc & Hv & Hl & Ha & Hb).
    destruct (assign_ok (set_heap w h') M [] i c c' (t_size t) (t_arity t)) as (w' & Hw & H1 & Ht).
    { apply holds_alloc; assumption. } { exact Hi. } { exact HF. }
    unfold assign_view. rewrite Hc. cbn [mbind res_bind]. exists w', c'.
    split; [exact Hw|]. split; [exact H1|]. split; [exact Hv|]. split; [exact Hl|]. split; [exact Ha|]. split; [apply Hb|exact Ht].
  Qed.
  Lemma assign_copy_ok w M i j c d t : holds w M [] -> M !! i = Some c -> M !! j = Some d -> w_trees w !! j = Some t ->
    len d <= F -> len c < F ->
    exists w' c', assign_copy F im al w i j = Ok w' /\ holds w' (<[i := c']> M) [] /\
      cvals c' = cvals d /\ len c' = len d /\ carity K c' = carity K d /\ (forall x, x ∈ caddrs c' -> w_heap w !! x = None) /\
      w_trees w' = <[i := TreeRec (croot c') (t_size t) (t_arity t) (croot c')]> (w_trees w).
  Proof.
    intros H Hi Hj Ht HFd HF. destruct (holds_get _ _ _ _ _ _ _ _ H Hj) as (t' & Ht' & Hg & Hr & _).
    rewrite Ht in Ht'. injection Ht' as <-.
    destruct (assign_view_ok w M i c t d H Hi) as (w' & c' & Hw & Hrest); [eapply rep_src, holds_rep; eassumption|exact Hr|exact HFd|exact HF|].
    exists w', c'. split; [|exact Hrest]. unfold assign_copy. rewrite Hg. exact Hw.
  Qed.
  Lemma assign_struct_ok w M i c v cs : holds w M [] -> M !! i = Some c -> lit_ok K (LNode v cs) -> len c < F ->
    exists w' c', assign_struct F im al w i (eval_lit (LNode v cs)) = Ok w' /\ holds w' (<[i := c']> M) [] /\
      cvals c' = lit_vals K (LNode v cs) /\ (forall x, x ∈ caddrs c' -> w_heap w !! x = None) /\
      w_trees w' = <[i := TreeRec (croot c') (N.of_nat (len c')) (N.of_nat (carity K c')) (croot c')]> (w_trees w).
  Proof.
    intros H Hi Hl HF. destruct (k_struct _ _ _ _ KO (w_heap w) v cs Hl) as (a & h' & c' & Hc & Hr & Hv & Hs & Ha & Hb).
    unfold assign_struct. rewrite Hc. cbn [mbind res_bind]. rewrite <- Hr, <- Hs, <- Ha.
    destruct (assign_ok (set_heap w h') M [] i c c' (N.of_nat (len c')) (N.of_nat (carity K c'))) as (w' & Hw & H1 & Ht).
    { apply holds_alloc; assumption. } { exact Hi. } { exact HF. }
    exists w', c'. split; [exact Hw|]. split; [exact H1|]. split; [exact Hv|]. split; [apply Hb|exact Ht].
  Qed.
  Lemma assign_move_ok w M i j c d t : holds w M [] -> i <> j -> M !! i = Some c -> M !! j = Some d -> w_trees w !! j = Some t ->
    len c < F ->
    exists w', assign_move F im w i j = Ok w' /\ holds w' (<[j := cnil]> (<[i := d]> M)) [] /\
      (forall x n, x ∈ caddrs d -> w_heap w !! x = Some n -> w_heap w' !! x = Some n) /\
      w_trees w' = <[j := TreeRec None 0 0 None]> (<[i := TreeRec (croot d) (t_size t) (t_arity t) (croot d)]> (w_trees w)).
  Proof.
    intros H Hne Hi Hj Ht HF. destruct (holds_get _ _ _ _ _ _ _ _ H Hj) as (t' & Ht' & Hg & Hr & _).
    rewrite Ht in Ht'. injection Ht' as <-.
    (* the moved tree, seen as loose *)
    pose proof (holds_set _ _ _ _ _ _ j d cnil 0%N 0%N (holds_add_nil _ _ _ H) Hj) as H1.
    set (w1 := set_tree w j (TreeRec (croot cnil) 0 0 (croot cnil))) in *.
    assert (Hi' : (<[j := cnil]> M) !! i = Some c) by (rewrite lookup_insert_ne by congruence; exact Hi).
    destruct (assign_ok w1 _ [] i c d (t_size t) (t_arity t) H1 Hi' HF) as (w2 & Hw & H2 & Ht2).
    destruct (holds_get _ _ _ _ _ _ _ _ H Hi) as (ti & Hti & Hgi & Hri & _).
    unfold assign_move. rewrite Hg. cbn [mbind res_bind]. rewrite Hr.
    unfold assign in *. rewrite Hgi. cbn [mbind res_bind].
    assert (Hgi1 : get_tree w1 i = Ok ti) by (unfold get_tree, w1; cbn; rewrite lookup_insert_ne by congruence; rewrite Hti; reflexivity).
    rewrite Hgi1 in Hw. cbn [mbind res_bind] in Hw.
    change (w_heap w1) with (w_heap w) in Hw.
    destruct (match t_root ti with None => Ok (w_heap w) | Some _ => deallocate im F (w_heap w) (t_root ti) end) as [h'|e] eqn:Ed; [|discriminate].
    cbn [mbind res_bind] in Hw |- *. injection Hw as <-. eexists. split; [reflexivity|].
    rewrite nullify_eq. unfold set_tree, set_heap in *. cbn [w_heap w_trees w1] in *.
    split; [|split].
    - rewrite (insert_commute M i j), (insert_commute (w_trees w) i j) in H2 by congruence. exact H2.
    - intros x n Hx Hn. destruct (k_dealloc _ _ _ _ KO (w_heap w) c) as (h'' & Hd' & Hf); [eapply holds_rep; eassumption|exact HF|].
      assert (Hxc : x ∉ caddrs c).
      { pose proof (holds_unfold _ _ _ _ _ _ _ _ H Hi) as Hu. cbn in Hu. intros Hxc.
        eapply heap_ok_rest; [exact Hu|exact Hxc| |exact Hx]. apply elem_of_elems. exists j. rewrite lookup_delete_ne by congruence. exact Hj. }
      cbn. rewrite Hri in Ed. destruct (croot c) as [a|] eqn:Ea.
      + rewrite Hd' in Ed. injection Ed as <-. rewrite Hf, bool_decide_eq_false_2 by exact Hxc. exact Hn.
      + injection Ed as <-. exact Hn.
    - rewrite nil_root. reflexivity.
  Qed.
  Lemma assign_move_self_ok w M i c : holds w M [] -> M !! i = Some c -> len c < F ->
    exists w', assign_move F im w i i = Ok w' /\ holds w' (<[i := cnil]> M) [] /\
      w_trees w' = <[i := TreeRec None 0 0 None]> (w_trees w).
  Proof.
    intros H Hi HF. destruct (holds_get _ _ _ _ _ _ _ _ H Hi) as (t & Ht & Hg & Hr & _).
    destruct (clear_ok w M [] i c H Hi HF) as (w1 & Hc & H1 & Ht1).
    unfold assign_move. rewrite Hg. cbn [mbind res_bind]. unfold clear, assign in *. rewrite Hg in *. cbn [mbind res_bind] in *.
    destruct (match t_root t with None => Ok (w_heap w) | Some _ => deallocate im F (w_heap w) (t_root t) end) as [h'|e]; [|discriminate].
    cbn [mbind res_bind] in *. injection Hc as <-. eexists. split; [reflexivity|].
    unfold nullify, set_tree, set_heap in *. cbn [w_heap w_trees] in *. rewrite insert_insert. split; [exact H1|reflexivity].
  Qed.
  Lemma swap_ok w M i j c d ti tj : holds w M [] -> M !! i = Some c -> M !! j = Some d ->
    w_trees w !! i = Some ti -> w_trees w !! j = Some tj ->
    exists w', swap w i j = Ok w' /\ holds w' (<[j := c]> (<[i := d]> M)) [] /\ w_heap w' = w_heap w /\
      w_trees w' = <[j := ti]> (<[i := tj]> (w_trees w)).
  Proof.
    intros H Hi Hj Hti Htj. unfold swap, get_tree. rewrite Hti, Htj. cbn [mbind res_bind].
    eexists. split; [reflexivity|]. split; [|split; reflexivity].
    destruct (holds_get _ _ _ _ _ _ _ _ H Hi) as (? & Hti' & _ & Hri & Hni). rewrite Hti in Hti'. injection Hti' as <-.
    destruct (holds_get _ _ _ _ _ _ _ _ H Hj) as (? & Htj' & _ & Hrj & Hnj). rewrite Htj in Htj'. injection Htj' as <-.
    destruct H as [H1 H2]. split.
    - intros k. cbn. destruct (decide (j = k)) as [->|Hne].
      + rewrite !lookup_insert. auto.
      + rewrite !(lookup_insert_ne _ j) by exact Hne. destruct (decide (i = k)) as [->|Hne'].
        * rewrite !lookup_insert. auto.
        * rewrite !lookup_insert_ne by exact Hne'. apply H1.
    - cbn. eapply heap_ok_perm; [|exact H2]. cbn [app].
      destruct (decide (i = j)) as [->|Hne].
      + assert (c = d) as -> by congruence. rewrite insert_insert, insert_id by exact Hj. reflexivity.
      + rewrite (elems_insert _ j c), delete_insert_ne by congruence. rewrite elems_insert.
        rewrite (elems_lookup M i c Hi), (elems_lookup (delete i M) j d) by (rewrite lookup_delete_ne; congruence).
        rewrite delete_commute. reflexivity.
  Qed.
End Ops.
