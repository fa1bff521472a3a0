(** IterProofs.v: the iteration lemmas in the form of the property statements. *)
From Verif Require Import Base Spec EditSpec StructNode LitFacts BinaryNode NaryNode Nav Policy Tree RoseFacts RowFacts
  NavFacts BranchFacts Orders PolicyFacts BinOrder Rep BinRep NaryRep NaryOps NaryOps2 User Iter IterTrees IterMain NodeFacts SibFacts.

Lemma bin_any (V : Type) (EV : EqDecision V) F (h : gmap addr (bnode V)) t k : bin_in h t -> bin_size t < F ->
  two_way_bin k \/ k = Leaves -> fwd_ok F (binary_impl V) h k (baddr t) (bin_order k t).
Proof. intros Ht HF [Hk| ->]; [apply two_fwd, bin_two; assumption|apply bin_leaves; assumption]. Qed.
Lemma nary_any (V : Type) (EV : EqDecision V) F (h : gmap addr (nnode V)) t k : onary_in h t -> nsize t < F ->
  two_way_nary k \/ k = Leaves -> fwd_ok F (nary_impl V) h k (nroot t) (nary_order k t).
Proof. intros Ht HF [Hk| ->]; [apply two_fwd, nary_two; assumption|apply nary_leaves; assumption]. Qed.
Ltac ways := unfold two_way_bin, two_way_nary; tauto.

Section P.
  Context (V : Type) (EV : EqDecision V) (F : nat).
  Section B.
    Context (h : gmap addr (bnode V)) (t : bin (addr * V)).
    Lemma p_preorder_binary : bin_in h t -> bin_size t < F -> iterate F (binary_impl V) h PreOrder (baddr t) = Ok (flat_map preorder (bin_forest t)).
    Proof. intros Ht HF. apply iterate_ok, bin_any; [exact Ht|exact HF|ways]. Qed.
    Lemma p_postorder_binary : bin_in h t -> bin_size t < F -> iterate F (binary_impl V) h PostOrder (baddr t) = Ok (flat_map postorder (bin_forest t)).
    Proof. intros Ht HF. apply iterate_ok, bin_any; [exact Ht|exact HF|ways]. Qed.
    Lemma p_breadth_first_binary : bin_in h t -> bin_size t < F -> iterate F (binary_impl V) h BreadthFirst (baddr t) = Ok (flat_map levelorder (bin_forest t)).
    Proof. intros Ht HF. apply iterate_ok, bin_any; [exact Ht|exact HF|ways]. Qed.
    Lemma p_leaves_binary : bin_in h t -> bin_size t < F -> iterate F (binary_impl V) h Leaves (baddr t) = Ok (flat_map leaves (bin_forest t)).
    Proof. intros Ht HF. apply iterate_ok, bin_any; [exact Ht|exact HF|ways]. Qed.
    Lemma p_inorder_binary : bin_in h t -> bin_size t < F -> iterate F (binary_impl V) h InOrder (baddr t) = Ok (inorder t).
    Proof. intros Ht HF. apply iterate_ok, bin_any; [exact Ht|exact HF|ways]. Qed.
    Lemma p_reverse_binary k : bin_in h t -> bin_size t < F -> two_way_bin k ->
      iterate F (binary_impl V) h k (baddr t) = Ok (bin_order k t) /\
      iterate_back F (binary_impl V) h k (baddr t) = Ok (rev (bin_order k t)).
    Proof. intros Ht HF Hk. split; [apply iterate_ok, two_fwd|apply iterate_back_ok]; apply bin_two; assumption. Qed.
  End B.
  Section N.
    Context (h : gmap addr (nnode V)) (t : option (rose (addr * V))).
    Lemma p_preorder_nary : onary_in h t -> nsize t < F -> iterate F (nary_impl V) h PreOrder (nroot t) = Ok (opt_list preorder t).
    Proof. intros Ht HF. apply iterate_ok, nary_any; [exact Ht|exact HF|ways]. Qed.
    Lemma p_postorder_nary : onary_in h t -> nsize t < F -> iterate F (nary_impl V) h PostOrder (nroot t) = Ok (opt_list postorder t).
    Proof. intros Ht HF. apply iterate_ok, nary_any; [exact Ht|exact HF|ways]. Qed.
    Lemma p_breadth_first_nary : onary_in h t -> nsize t < F -> iterate F (nary_impl V) h BreadthFirst (nroot t) = Ok (opt_list levelorder t).
    Proof. intros Ht HF. apply iterate_ok, nary_any; [exact Ht|exact HF|ways]. Qed.
    Lemma p_leaves_nary : onary_in h t -> nsize t < F -> iterate F (nary_impl V) h Leaves (nroot t) = Ok (opt_list leaves t).
    Proof. intros Ht HF. apply iterate_ok, nary_any; [exact Ht|exact HF|ways]. Qed.
    Lemma p_reverse_nary k : onary_in h t -> nsize t < F -> two_way_nary k ->
      iterate F (nary_impl V) h k (nroot t) = Ok (nary_order k t) /\
      iterate_back F (nary_impl V) h k (nroot t) = Ok (rev (nary_order k t)).
    Proof. intros Ht HF Hk. split; [apply iterate_ok, two_fwd|apply iterate_back_ok]; apply nary_two; assumption. Qed.
  End N.
End P.

Lemma in_leaves {A} (t : rose A) x : x ∈ leaves t <-> exists s, rsubtree s t /\ children s = [] /\ label s = x.
Proof.
  induction t as [a cs IH] using rose_ind'. destruct cs as [|c cs].
  - cbn. rewrite elem_of_list_singleton. split.
    + intros ->. exists (Rose a []). repeat split. constructor.
    + intros (s & Hs & _ & <-). inversion Hs as [|? ? c Hc Hs']; subst; [reflexivity|]. apply elem_of_nil in Hc as [].
  - change (x ∈ flat_map leaves (c :: cs) <-> exists s, rsubtree s (Rose a (c :: cs)) /\ children s = [] /\ label s = x).
    rewrite elem_of_flat_map. rewrite Forall_forall in IH. split.
    + intros (u & Hu & Hx). apply IH in Hx as (s & Hs & H1 & H2); [|exact Hu]. exists s. split; [|auto].
      eapply rsub_child; eassumption.
    + intros (s & Hs & H1 & H2). inversion Hs as [|? ? u Hu Hs']; subst; [discriminate|]. exists u.
      split; [exact Hu|]. apply IH; [exact Hu|]. eauto.
Qed.
Lemma p_orders_complete (A : Type) (t : rose A) (b : bin A) :
  Permutation (postorder t) (preorder t) /\ Permutation (levelorder t) (preorder t) /\
  Permutation (inorder b) (bin_labels b) /\ Permutation (flat_map preorder (bin_forest b)) (bin_labels b) /\
  (forall x, x ∈ leaves t <-> exists s, rsubtree s t /\ children s = [] /\ label s = x).
Proof.
  split; [symmetry; apply pre_post_perm|]. split; [apply levelorder_perm|]. split; [apply inorder_labels|].
  split; [rewrite forest_labels; reflexivity|]. intros x. apply in_leaves.
Qed.

(** The generic forms, for any sequence the policy is right about. *)
Section G.
  Context {V Nd : Type} (F : nat) (im : node_impl V Nd) (h : gmap addr Nd) (k : kind) (root : ptr) (l : list (addr * V)).
  Lemma g_moves ms i j : two_ok F im h k root l -> i <= length l -> position (length l) ms i = Some j ->
    exists it it' it2,
      iterator_at F im h k (nth_addr l i) root = Ok it /\ run F im h ms it = Ok it' /\ it_cur it' = nth_addr l j /\
      iterator_at F im h k (nth_addr l j) root = Ok it2 /\ same_iter it' it2 /\
      (j < length l -> exists x, incr F im h it' = Ok x /\ decr F im h x = Ok it') /\
      (0 < j -> exists x, decr F im h it' = Ok x /\ incr F im h x = Ok it').
  Proof.
    intros Hok Hi Hp. destruct (moves_ok F im h k root l ms i j Hok Hi Hp) as (_ & it & it' & it2 & H1 & H2 & H3 & H4 & H5).
    exists it, it', it2. do 5 (split; [assumption|]). exact (inverse_ok F im h k root l ms i j it it' Hok Hi Hp H1 H2).
  Qed.
  Lemma iterator_at_cur p it : iterator_at F im h k p root = Ok it -> it_cur it = p.
  Proof.
    unfold iterator_at, get_instance. destruct (fix_navigator_root _ _ _ _); [|discriminate]. cbn [mbind res_bind].
    destruct (match k with BreadthFirst => _ | _ => _ end); [|discriminate]. cbn [mbind res_bind]. intros [=<-]. reflexivity.
  Qed.
  Lemma g_reach i : two_ok F im h k root l -> k <> Fixed -> i <= length l ->
    exists b it it2, tree_begin F (tree_nav im h) k root = Ok b /\ run F im h (repeat true i) b = Ok it /\
      iterator_at F im h k (nth_addr l i) root = Ok it2 /\ it_cur it = nth_addr l i /\ it_cur it2 = it_cur it /\
      forall ms, same_res (run F im h ms it) (run F im h ms it2).
  Proof.
    intros Hok Hk Hi. destruct (reach_ok F im h k root l i Hok Hk Hi) as (b & it & it2 & H1 & H2 & H3 & H4 & H5).
    exists b, it, it2. do 3 (split; [assumption|]). pose proof (iterator_at_cur _ _ H3) as Hc.
    destruct H4 as (_ & Hcc & _). split; [congruence|]. split; [congruence|exact H5].
  Qed.
  Lemma g_ends : two_ok F im h k root l ->
    exists b e, tree_begin F (tree_nav im h) k root = Ok b /\ tree_end F (tree_nav im h) k root = Ok e /\
      it_eqb b e = is_null root /\ it_cur e = None /\
      (exists b', incr F im h e = Ok b' /\ same_iter b' b) /\
      (exists x, decr F im h e = Ok x /\ it_cur x = last (map fst l)).
  Proof.
    intros Hok. destruct (ends_ok F im h k root l Hok) as (b & e & H1 & H2 & H3 & H4 & H5).
    exists b, e. split; [exact H1|]. split; [exact H2|]. split; [|split; [|split; [exact H4|]]].
    - rewrite H3. destruct Hok as [(-> & -> & _)|(r & -> & Hne & _)]; [reflexivity|]. rewrite bool_decide_eq_false_2; [reflexivity|exact Hne].
    - apply (iterator_at_cur None e). exact H2.
    - destruct H5 as (x & Hx & Hc). exists x. split; [exact Hx|]. rewrite Hc. unfold nth_addr.
      destruct l as [|y m _] using rev_ind; [reflexivity|]. rewrite map_app, app_length. cbn [map length].
      rewrite last_snoc, nth_error_app2; rewrite map_length; [|lia]. replace (length m + 1 - 1 - length m) with 0 by lia. reflexivity.
  Qed.
End G.

Section Q.
  Context (V : Type) (EV : EqDecision V) (F : nat).
  Section B.
    Context (h : gmap addr (bnode V)) (t : bin (addr * V)) (k : kind).
    Lemma nofix_b : two_way_bin k -> k <> Fixed.
    Proof. intros [->|[->|[->| ->]]]; discriminate. Qed.
    Lemma p_moves_binary ms i j : bin_in h t -> bin_size t < F -> two_way_bin k ->
      i <= length (bin_order k t) -> position (length (bin_order k t)) ms i = Some j ->
      exists it it' it2,
        iterator_at F (binary_impl V) h k (nth_addr (bin_order k t) i) (baddr t) = Ok it /\
        run F (binary_impl V) h ms it = Ok it' /\ it_cur it' = nth_addr (bin_order k t) j /\
        iterator_at F (binary_impl V) h k (nth_addr (bin_order k t) j) (baddr t) = Ok it2 /\ same_iter it' it2 /\
        (j < length (bin_order k t) -> exists x, incr F (binary_impl V) h it' = Ok x /\ decr F (binary_impl V) h x = Ok it') /\
        (0 < j -> exists x, decr F (binary_impl V) h it' = Ok x /\ incr F (binary_impl V) h x = Ok it').
    Proof. intros Ht HF Hk. apply g_moves, bin_two; assumption. Qed.
    Lemma p_reach_binary i : bin_in h t -> bin_size t < F -> two_way_bin k -> i <= length (bin_order k t) ->
      exists b it it2,
        tree_begin F (tree_nav (binary_impl V) h) k (baddr t) = Ok b /\ run F (binary_impl V) h (repeat true i) b = Ok it /\
        iterator_at F (binary_impl V) h k (nth_addr (bin_order k t) i) (baddr t) = Ok it2 /\
        it_cur it = nth_addr (bin_order k t) i /\ it_cur it2 = it_cur it /\
        (forall ms, same_res (run F (binary_impl V) h ms it) (run F (binary_impl V) h ms it2)).
    Proof. intros Ht HF Hk. apply g_reach; [apply bin_two; assumption|apply nofix_b, Hk]. Qed.
    Lemma p_change_policy_binary it0 l1 l2 x : bin_in h t -> bin_size t < F -> two_way_bin k ->
      bin_order k t = l1 ++ x :: l2 -> it_cur it0 = Some (fst x) -> it_root it0 = baddr t ->
      exists it, it_other_policy F (tree_nav (binary_impl V) h) it0 k = Ok it /\ it_kind it = k /\ it_cur it = it_cur it0 /\
        iterate_from F (binary_impl V) h it k (baddr t) = Ok (x :: l2).
    Proof. intros Ht HF Hk. apply convert_ok, bin_two; assumption. Qed.
    Lemma p_ends_binary : bin_in h t -> bin_size t < F -> two_way_bin k ->
      exists b e, tree_begin F (tree_nav (binary_impl V) h) k (baddr t) = Ok b /\ tree_end F (tree_nav (binary_impl V) h) k (baddr t) = Ok e /\
        it_eqb b e = is_null (baddr t) /\ it_cur e = None /\
        (exists b', incr F (binary_impl V) h e = Ok b' /\ same_iter b' b) /\
        (exists x, decr F (binary_impl V) h e = Ok x /\ it_cur x = last (map fst (bin_order k t))).
    Proof. intros Ht HF Hk. apply g_ends, bin_two; assumption. Qed.
    Lemma p_filtered_binary p : bin_in h t -> bin_size t < F -> two_way_bin k \/ k = Leaves ->
      iterate_filtered F (binary_impl V) h p k (baddr t) = Ok (List.filter (fun x => p (snd x)) (bin_order k t)).
    Proof. intros Ht HF Hk. apply iterate_filtered_ok, bin_any; assumption. Qed.
  End B.
  Section N.
    Context (h : gmap addr (nnode V)) (t : option (rose (addr * V))) (k : kind).
    Lemma nofix_n : two_way_nary k -> k <> Fixed.
    Proof. intros [->|[->| ->]]; discriminate. Qed.
    Lemma p_moves_nary ms i j : onary_in h t -> nsize t < F -> two_way_nary k ->
      i <= length (nary_order k t) -> position (length (nary_order k t)) ms i = Some j ->
      exists it it' it2,
        iterator_at F (nary_impl V) h k (nth_addr (nary_order k t) i) (nroot t) = Ok it /\
        run F (nary_impl V) h ms it = Ok it' /\ it_cur it' = nth_addr (nary_order k t) j /\
        iterator_at F (nary_impl V) h k (nth_addr (nary_order k t) j) (nroot t) = Ok it2 /\ same_iter it' it2 /\
        (j < length (nary_order k t) -> exists x, incr F (nary_impl V) h it' = Ok x /\ decr F (nary_impl V) h x = Ok it') /\
        (0 < j -> exists x, decr F (nary_impl V) h it' = Ok x /\ incr F (nary_impl V) h x = Ok it').
    Proof. intros Ht HF Hk. apply g_moves, nary_two; assumption. Qed.
    Lemma p_reach_nary i : onary_in h t -> nsize t < F -> two_way_nary k -> i <= length (nary_order k t) ->
      exists b it it2,
        tree_begin F (tree_nav (nary_impl V) h) k (nroot t) = Ok b /\ run F (nary_impl V) h (repeat true i) b = Ok it /\
        iterator_at F (nary_impl V) h k (nth_addr (nary_order k t) i) (nroot t) = Ok it2 /\
        it_cur it = nth_addr (nary_order k t) i /\ it_cur it2 = it_cur it /\
        (forall ms, same_res (run F (nary_impl V) h ms it) (run F (nary_impl V) h ms it2)).
    Proof. intros Ht HF Hk. apply g_reach; [apply nary_two; assumption|apply nofix_n, Hk]. Qed.
    Lemma p_change_policy_nary it0 l1 l2 x : onary_in h t -> nsize t < F -> two_way_nary k ->
      nary_order k t = l1 ++ x :: l2 -> it_cur it0 = Some (fst x) -> it_root it0 = nroot t ->
      exists it, it_other_policy F (tree_nav (nary_impl V) h) it0 k = Ok it /\ it_kind it = k /\ it_cur it = it_cur it0 /\
        iterate_from F (nary_impl V) h it k (nroot t) = Ok (x :: l2).
    Proof. intros Ht HF Hk. apply convert_ok, nary_two; assumption. Qed.
    Lemma p_ends_nary : onary_in h t -> nsize t < F -> two_way_nary k ->
      exists b e, tree_begin F (tree_nav (nary_impl V) h) k (nroot t) = Ok b /\ tree_end F (tree_nav (nary_impl V) h) k (nroot t) = Ok e /\
        it_eqb b e = is_null (nroot t) /\ it_cur e = None /\
        (exists b', incr F (nary_impl V) h e = Ok b' /\ same_iter b' b) /\
        (exists x, decr F (nary_impl V) h e = Ok x /\ it_cur x = last (map fst (nary_order k t))).
    Proof. intros Ht HF Hk. apply g_ends, nary_two; assumption. Qed.
    Lemma p_filtered_nary p : onary_in h t -> nsize t < F -> two_way_nary k \/ k = Leaves ->
      iterate_filtered F (nary_impl V) h p k (nroot t) = Ok (List.filter (fun x => p (snd x)) (nary_order k t)).
    Proof. intros Ht HF Hk. apply iterate_filtered_ok, nary_any; assumption. Qed.
  End N.
End Q.

Section R.
  Context (V : Type) (EV : EqDecision V) (F : nat).
  Lemma bin_stored (h : gmap addr (bnode V)) t u : bin_in h t -> bin_forest t = [u] ->
    baddr t = Some (raddr u) /\ rsize u = bin_size t /\ nav_ok (tree_nav (binary_impl V) h (Some (raddr u))) (rose_map fst u) /\
    (forall x, x ∈ preorder u -> ni_value (binary_impl V) h (Some (fst x)) = Ok (snd x)).
  Proof.
    intros Ht Hu. destruct (bin_roots h t Ht) as (a & u' & Ha & Hu' & Hsz & Hra & Hok & _ & Hlab); [intros ->; discriminate|].
    rewrite Hu in Hu'. injection Hu' as <-. subst a. split; [exact Ha|]. split; [exact Hsz|]. split; [exact Hok|].
    intros x Hx. eapply bin_value; [exact Ht|]. rewrite Hlab. exact Hx.
  Qed.
  Lemma p_siblings_binary (h : gmap addr (bnode V)) t u s i :
    bin_in h t -> bin_size t < F -> bin_forest t = [u] -> rsubtree s u -> i < length (children s) ->
    exists it, iterator_at F (binary_impl V) h Siblings (nth_addr (map label (children s)) i) (baddr t) = Ok it /\
      iterate_from F (binary_impl V) h it Siblings (baddr t) = Ok (skipn i (map label (children s))) /\
      (forall j, j <= i -> exists it', run F (binary_impl V) h (repeat false j) it = Ok it' /\
                                       it_cur it' = nth_addr (map label (children s)) (i - j)) /\
      (exists e, run F (binary_impl V) h (repeat false (S i)) it = Ok e /\ it_cur e = None).
  Proof.
    intros Ht HF Hu Hs Hi. destruct (bin_stored h t u Ht Hu) as (Ha & Hsz & Hok & Hv). rewrite Ha.
    apply sib_from; [exact Hok|exact Hv|lia|exact Hs|exact Hi].
  Qed.
  Lemma p_siblings_nary (h : gmap addr (nnode V)) t s i :
    nary_in h t -> rsize t < F -> rsubtree s t -> i < length (children s) ->
    exists it, iterator_at F (nary_impl V) h Siblings (nth_addr (map label (children s)) i) (Some (raddr t)) = Ok it /\
      iterate_from F (nary_impl V) h it Siblings (Some (raddr t)) = Ok (skipn i (map label (children s))) /\
      (forall j, j <= i -> exists it', run F (nary_impl V) h (repeat false j) it = Ok it' /\
                                       it_cur it' = nth_addr (map label (children s)) (i - j)) /\
      (exists e, run F (nary_impl V) h (repeat false (S i)) it = Ok e /\ it_cur e = None).
  Proof.
    intros Ht HF Hs Hi. apply sib_from; [apply nary_nav, Ht|intros x Hx; eapply nary_value; eassumption|exact HF|exact Hs|exact Hi].
  Qed.
  Lemma p_siblings_range_binary (h : gmap addr (bnode V)) t u :
    bin_in h t -> bin_size t < F -> bin_forest t = [u] ->
    iterate F (binary_impl V) h Siblings (baddr t) = Ok (map label (children u)) /\
    iterate_back F (binary_impl V) h Siblings (baddr t) = Ok (rev (map label (children u))).
  Proof.
    intros Ht HF Hu. destruct (bin_stored h t u Ht Hu) as (Ha & Hsz & Hok & Hv). rewrite Ha.
    apply sib_iterate; [exact Hok|exact Hv|lia].
  Qed.
  Lemma p_siblings_range_nary (h : gmap addr (nnode V)) t :
    nary_in h t -> rsize t < F ->
    iterate F (nary_impl V) h Siblings (Some (raddr t)) = Ok (map label (children t)) /\
    iterate_back F (nary_impl V) h Siblings (Some (raddr t)) = Ok (rev (map label (children t))).
  Proof.
    intros Ht HF. apply sib_iterate; [apply nary_nav, Ht|intros x Hx; eapply nary_value; eassumption|exact HF].
  Qed.
  Lemma p_siblings_alone_binary (h : gmap addr (bnode V)) t s u i ms j :
    bin_in h t -> bsubtree s t -> bin_forest s = [u] -> bin_size s < F -> i < length (children u) ->
    position (length (children u)) ms i = Some j ->
    exists it it', iterator_at F (binary_impl V) h Siblings (nth_addr (map label (children u)) i) None = Ok it /\
      run F (binary_impl V) h ms it = Ok it' /\ it_cur it' = nth_addr (map label (children u)) j.
  Proof.
    intros Ht Hs Hu HF Hi Hpos. pose proof (bin_in_sub _ _ _ Ht Hs) as Hin.
    destruct (bin_stored h s u Hin Hu) as (Ha & Hsz & Hok & Hv).
    apply sib_alone; [exact Hok|exact Hv|lia| |exact Hi|exact Hpos].
    destruct Hin as (par & Hr & Hnd). pose proof (brep_ops_ok h s par Hr Hnd) as Hops.
    unfold brose in Hops. rewrite bin_forest_map', Hu in Hops. apply Forall_inv in Hops. exact Hops.
  Qed.
  Lemma p_siblings_alone_nary (h : gmap addr (nnode V)) t s i ms j :
    nary_in h t -> rsubtree s t -> rsize s < F -> i < length (children s) ->
    position (length (children s)) ms i = Some j ->
    exists it it', iterator_at F (nary_impl V) h Siblings (nth_addr (map label (children s)) i) None = Ok it /\
      run F (nary_impl V) h ms it = Ok it' /\ it_cur it' = nth_addr (map label (children s)) j.
  Proof.
    intros Ht Hs HF Hi Hpos. pose proof (nary_in_sub _ _ _ Ht Hs) as Hin.
    apply sib_alone; [apply nary_nav, Hin|intros x Hx; eapply nary_value; eassumption|exact HF| |exact Hi|exact Hpos].
    destruct Hin as (par & prev & next & fs & Hr & _). exact (nrep_ops_ok h s _ _ _ _ Hr).
  Qed.
  Lemma p_siblings_root :
    (forall (h : gmap addr (bnode V)) (t : bin (addr * V)) a, bin_in h t -> baddr t = Some a ->
       exists it e e', iterator_at F (binary_impl V) h Siblings (Some a) (Some a) = Ok it /\
         incr F (binary_impl V) h it = Ok e /\ it_cur e = None /\ decr F (binary_impl V) h it = Ok e' /\ it_cur e' = None) /\
    (forall (h : gmap addr (nnode V)) (t : rose (addr * V)), nary_in h t ->
       exists it e e', iterator_at F (nary_impl V) h Siblings (Some (raddr t)) (Some (raddr t)) = Ok it /\
         incr F (nary_impl V) h it = Ok e /\ it_cur e = None /\ decr F (nary_impl V) h it = Ok e' /\ it_cur e' = None).
  Proof.
    split.
    - intros h t a Ht Ha. destruct t as [|x l r]; [discriminate|].
      destruct (bin_stored h (BNode x l r) (Rose x (bin_forest l ++ bin_forest r)) Ht eq_refl) as (Ha' & _ & Hok & _).
      rewrite Ha in Ha'. injection Ha' as ->. apply sib_root, Hok.
    - intros h t Ht. apply sib_root, nary_nav, Ht.
  Qed.
End R.
Lemma p_fixed (V Nd : Type) (F : nat) (im : node_impl V Nd) (h : gmap addr Nd) (a r : addr) :
  exists it e e', iterator_at F im h Fixed (Some a) (Some r) = Ok it /\ it_cur it = Some a /\
    incr F im h it = Ok e /\ it_cur e = None /\ decr F im h it = Ok e' /\ it_cur e' = None.
Proof. unfold iterator_at, get_instance. cbn. do 3 eexists. split; [reflexivity|]. split; [reflexivity|]. split; [reflexivity|]. split; [reflexivity|]. split; reflexivity. Qed.

Lemma view_root rec pos : t_nav (view_of rec pos) = it_cur pos.
Proof. unfold view_of. destruct (it_cur pos) eqn:E; [|reflexivity]. destruct (ptr_eqb _ _); reflexivity. Qed.
Section W.
  Context (V : Type) (EV : EqDecision V) (F : nat).
  Lemma bin_at_in (h : gmap addr (bnode V)) t : bin_at h t -> bin_in h t.
  Proof. intros H. exists None. exact H. Qed.
  Lemma nary_at_in (h : gmap addr (nnode V)) t : nary_at h t -> nary_in h t.
  Proof. intros H. exists None, None, None, (szt 0). exact H. Qed.
  Lemma p_views_binary (h : gmap addr (bnode V)) (t s : bin (addr * V)) rec pos k :
    bin_at h t -> bsubtree s t -> bin_size s < F -> it_cur pos = baddr s -> two_way_bin k \/ k = Leaves ->
    iterate F (binary_impl V) h k (t_nav (view_of rec pos)) = Ok (bin_order k s).
  Proof.
    intros Ht Hs HF Hp Hk. rewrite view_root, Hp. apply iterate_ok, bin_any; [|exact HF|exact Hk].
    eapply bin_in_sub; [apply bin_at_in, Ht|exact Hs].
  Qed.
  Lemma p_views_back_binary (h : gmap addr (bnode V)) (t s : bin (addr * V)) rec pos k :
    bin_at h t -> bsubtree s t -> bin_size s < F -> it_cur pos = baddr s -> two_way_bin k ->
    iterate_back F (binary_impl V) h k (t_nav (view_of rec pos)) = Ok (rev (bin_order k s)).
  Proof.
    intros Ht Hs HF Hp Hk. rewrite view_root, Hp. apply iterate_back_ok, bin_two; [|exact HF|exact Hk].
    eapply bin_in_sub; [apply bin_at_in, Ht|exact Hs].
  Qed.
  Lemma p_views_nary (h : gmap addr (nnode V)) (t s : rose (addr * V)) rec pos k :
    nary_at h t -> rsubtree s t -> rsize s < F -> it_cur pos = Some (raddr s) -> two_way_nary k \/ k = Leaves ->
    iterate F (nary_impl V) h k (t_nav (view_of rec pos)) = Ok (rose_order k s).
  Proof.
    intros Ht Hs HF Hp Hk. rewrite view_root, Hp. change (Some (raddr s)) with (nroot (Some s)).
    change (rose_order k s) with (nary_order k (Some s)). apply iterate_ok, nary_any; [|exact HF|exact Hk].
    cbn. eapply nary_in_sub; [apply nary_at_in, Ht|exact Hs].
  Qed.
  Lemma p_views_back_nary (h : gmap addr (nnode V)) (t s : rose (addr * V)) rec pos k :
    nary_at h t -> rsubtree s t -> rsize s < F -> it_cur pos = Some (raddr s) -> two_way_nary k ->
    iterate_back F (nary_impl V) h k (t_nav (view_of rec pos)) = Ok (rev (rose_order k s)).
  Proof.
    intros Ht Hs HF Hp Hk. rewrite view_root, Hp. change (Some (raddr s)) with (nroot (Some s)).
    change (rose_order k s) with (nary_order k (Some s)). apply iterate_back_ok, nary_two; [|exact HF|exact Hk].
    cbn. eapply nary_in_sub; [apply nary_at_in, Ht|exact Hs].
  Qed.
End W.
Lemma ptr_eqb_iff p q : ptr_eqb p q = true <-> p = q.
Proof. unfold ptr_eqb. rewrite bool_decide_eq_true. reflexivity. Qed.
Lemma p_iterator_equality (a b : iter) : it_eqb a b = true <-> it_cur a = it_cur b /\ it_root a = it_root b.
Proof. unfold it_eqb. rewrite andb_true_iff, !ptr_eqb_iff. reflexivity. Qed.
