(** IterMain.v: the iteration theorems for binary and n-ary trees in place. *)
From Verif Require Import Base Spec EditSpec StructNode LitFacts BinaryNode NaryNode Nav Policy Tree RoseFacts RowFacts
  NavFacts BranchFacts Orders PolicyFacts BinOrder Rep BinRep NaryRep User Iter IterTrees.

(** Iterators that agree on what they read behave alike. *)
Definition same_res (a b : res iter) : Prop :=
  match a, b with Ok x, Ok y => same_iter x y | Err e, Err e' => e = e' | _, _ => False end.
Section Same.
  Context {V Nd : Type}.
  Variable F : nat.
  Variable im : node_impl V Nd.
  Variable h : gmap addr Nd.
  Lemma same_refl a : same_iter a a.
  Proof. repeat split. Qed.
  Ltac same := first [reflexivity | split; [reflexivity|split; [reflexivity|split; reflexivity]]].
  Lemma same_incr a b : same_iter a b -> it_kind a <> Fixed -> same_res (incr F im h a) (incr F im h b).
  Proof.
    destruct a as [k c r o i], b as [k' c' r' o' i']. unfold same_iter. cbn. intros (-> & -> & -> & ->) Hk.
    unfold incr, it_incr. cbn [it_cur it_root it_kind it_open it_initial].
    destruct c'; [destruct (increment_impl _ _ _ _ _); cbn [mbind res_bind same_res]; same|].
    destruct r'; [|same].
    assert (He : go_first_impl F (tree_nav im h (Some p)) k' i o' = go_first_impl F (tree_nav im h (Some p)) k' i' o')
      by (destruct k'; try reflexivity; congruence).
    rewrite He. destruct (go_first_impl F (tree_nav im h (Some p)) k' i' o'); cbn [mbind res_bind same_res]; same.
  Qed.
  Lemma same_decr a b : same_iter a b -> it_kind a <> Fixed -> same_res (decr F im h a) (decr F im h b).
  Proof.
    destruct a as [k c r o i], b as [k' c' r' o' i']. unfold same_iter. cbn. intros (-> & -> & -> & ->) Hk.
    unfold decr, it_decr. cbn [it_cur it_root it_kind it_open it_initial].
    destruct c'; [destruct (decrement_impl _ _ _ _ _); cbn [mbind res_bind same_res]; same|].
    destruct r'; [|same].
    assert (He : go_last_impl F (tree_nav im h (Some p)) k' i o' = go_last_impl F (tree_nav im h (Some p)) k' i' o')
      by (destruct k'; try reflexivity; congruence).
    rewrite He. destruct (go_last_impl F (tree_nav im h (Some p)) k' i' o'); cbn [mbind res_bind same_res]; same.
  Qed.
  Lemma incr_kind a b : incr F im h a = Ok b -> it_kind b = it_kind a.
  Proof.
    unfold incr, it_incr. destruct (it_cur a).
    - destruct (increment_impl _ _ _ _ _); cbn; intros [=<-]. reflexivity.
    - destruct (it_root a); [|intros [=<-]; reflexivity].
      destruct (go_first_impl _ _ _ _ _); cbn; intros [=<-]. reflexivity.
  Qed.
  Lemma decr_kind a b : decr F im h a = Ok b -> it_kind b = it_kind a.
  Proof.
    unfold decr, it_decr. destruct (it_cur a).
    - destruct (decrement_impl _ _ _ _ _); cbn; intros [=<-]. reflexivity.
    - destruct (it_root a); [|intros [=<-]; reflexivity].
      destruct (go_last_impl _ _ _ _ _); cbn; intros [=<-]. reflexivity.
  Qed.
  Lemma same_run ms : forall a b, same_iter a b -> it_kind a <> Fixed -> same_res (run F im h ms a) (run F im h ms b).
  Proof.
    induction ms as [|[] ms IH]; intros a b Hab Hk; cbn [run].
    - exact Hab.
    - pose proof (same_incr a b Hab Hk) as Hs. unfold same_res in Hs.
      destruct (incr F im h a) as [a'|] eqn:Ea, (incr F im h b) as [b'|] eqn:Eb; try destruct Hs; cbn; try reflexivity.
      apply IH; [unfold same_iter; auto|]. rewrite (incr_kind _ _ Ea). exact Hk.
    - pose proof (same_decr a b Hab Hk) as Hs. unfold same_res in Hs.
      destruct (decr F im h a) as [a'|] eqn:Ea, (decr F im h b) as [b'|] eqn:Eb; try destruct Hs; cbn; try reflexivity.
      apply IH; [unfold same_iter; auto|]. rewrite (decr_kind _ _ Ea). exact Hk.
  Qed.
End Same.

(** [++] and [--] undo each other wherever a mixture of moves leads. *)
Section Inverse.
  Context {V Nd : Type}.
  Variable F : nat.
  Variable im : node_impl V Nd.
  Variable h : gmap addr Nd.
  Variable r : addr.
  Variable k : kind.
  Variable l : list (addr * V).
  Lemma inverse_full ms i j it it' :
    full_order F (tree_nav im h (Some r)) k (map fst l) -> i <= length l ->
    position (length l) ms i = Some j ->
    iterator_at F im h k (nth_addr l i) (Some r) = Ok it -> run F im h ms it = Ok it' ->
    (j < length l -> exists it2, incr F im h it' = Ok it2 /\ decr F im h it2 = Ok it') /\
    (0 < j -> exists it2, decr F im h it' = Ok it2 /\ incr F im h it2 = Ok it').
  Proof.
    intros [(St & Hs & Hf & Hb & Hl & Hi)] Hlen Hpos Hit Hrun.
    unfold iterator_at, nth_addr in Hit.
    destruct (instance_at F (tree_nav im h) r k (map fst l) St _ Hi (nth_ptr l i)) as (it1 & Hit1 & Hat & _).
    rewrite Hit in Hit1. injection Hit1 as <-.
    rewrite position_moves in Hpos. rewrite <- (map_length fst l) in Hpos, Hlen |- *.
    destruct (run_moves_ok F (tree_nav im h) r k (map fst l) St Hs Hf (fun _ => Ok ()) (fun _ => ()) (fun _ _ => eq_refl)
      Hb Hl ms i it j Hlen Hat Hpos) as (Hj & it1' & Hrun1 & Hat' & _).
    rewrite run_run_moves in Hrun. rewrite Hrun in Hrun1. injection Hrun1 as <-.
    destruct (at_index (map fst l) j Hj) as (l1 & l2 & HL & Hl1 & Hh).
    rewrite <- Hh in Hat'. split; intros Hjj.
    - apply (incr_decr F (tree_nav im h) r k (map fst l) St Hs Hb Hl l1 l2 it' HL).
      + intros ->. rewrite app_nil_r in HL. subst l1. lia.
      + exact Hat'.
    - apply (decr_incr F (tree_nav im h) r k (map fst l) St Hs Hb Hl l1 l2 it' HL).
      + intros ->. cbn in Hl1. lia.
      + exact Hat'.
  Qed.
End Inverse.


(** A tree or view with root node [root] whose [k]-sequence is [l]. *)
Definition seq_ok {V Nd} (P : nat -> navigator -> kind -> list addr -> Prop)
    (F : nat) (im : node_impl V Nd) (h : gmap addr Nd) (k : kind) (root : ptr) (l : list (addr * V)) : Prop :=
  (root = None /\ l = [] /\ 0 < F) \/
  (exists r, root = Some r /\ l <> [] /\ (forall x, x ∈ l -> ni_value im h (Some (fst x)) = Ok (snd x)) /\
     NoDup (map fst l) /\ length l < F /\ P F (tree_nav im h (Some r)) k (map fst l)).
Notation two_ok := (seq_ok full_order).
Notation fwd_ok := (seq_ok fwd_order).

Section Ordered.
  Context {V Nd : Type}.
  Variable F : nat.
  Variable im : node_impl V Nd.
  Variable h : gmap addr Nd.
  Variable k : kind.
  Variable root : ptr.
  Variable l : list (addr * V).

  Lemma two_fwd : two_ok F im h k root l -> fwd_ok F im h k root l.
  Proof.
    intros [H|(r & H1 & H2 & H3 & H4 & H5 & H6)]; [left; exact H|right].
    exists r. repeat (split; [assumption|]). apply full_fwd, H6.
  Qed.
  Lemma iterate_ok : fwd_ok F im h k root l -> iterate F im h k root = Ok l.
  Proof.
    intros [(-> & -> & HF)|(r & -> & _ & H3 & H4 & H5 & H6)]; [apply iterate_empty, HF|].
    apply iterate_fwd; assumption.
  Qed.
  Lemma iterate_back_ok : two_ok F im h k root l -> iterate_back F im h k root = Ok (rev l).
  Proof.
    intros [(-> & -> & HF)|(r & -> & _ & H3 & H4 & H5 & H6)]; [apply iterate_back_empty, HF|].
    apply iterate_back_full; assumption.
  Qed.
  Lemma iterate_filtered_ok p : fwd_ok F im h k root l ->
    iterate_filtered F im h p k root = Ok (List.filter (fun x => p (snd x)) l).
  Proof.
    intros [(-> & -> & HF)|(r & -> & _ & H3 & H4 & H5 & H6)]; [apply iterate_filtered_empty, HF|].
    apply iterate_filtered_fwd; assumption.
  Qed.
  (** Created at an element, moved at will. *)
  Lemma moves_ok ms i j : two_ok F im h k root l -> i <= length l -> position (length l) ms i = Some j ->
    j <= length l /\
    exists it it' it2, iterator_at F im h k (nth_addr l i) root = Ok it /\ run F im h ms it = Ok it' /\
      it_cur it' = nth_addr l j /\
      iterator_at F im h k (nth_addr l j) root = Ok it2 /\ same_iter it' it2.
  Proof.
    intros [(-> & -> & HF)|(r & -> & _ & H3 & H4 & H5 & H6)] Hi Hp.
    - cbn [length] in *. assert (i = 0) as -> by lia.
      assert (Hrun : position 0 ms 0 = Some j -> j = 0 /\ run F im h ms (Iter k None None [] None) = Ok (Iter k None None [] None)).
      { clear. induction ms as [|[] ms IH]; cbn; [intros [=<-]; auto|exact IH|discriminate]. }
      destruct (Hrun Hp) as [-> Hr]. split; [lia|]. unfold iterator_at, nth_addr. cbn [map nth_error].
      rewrite get_instance_empty. do 3 eexists. split; [reflexivity|]. split; [exact Hr|]. split; [reflexivity|].
      split; [reflexivity|]. apply same_refl.
    - apply run_full; assumption.
  Qed.
  Lemma inverse_ok ms i j it it' : two_ok F im h k root l -> i <= length l ->
    position (length l) ms i = Some j ->
    iterator_at F im h k (nth_addr l i) root = Ok it -> run F im h ms it = Ok it' ->
    (j < length l -> exists it2, incr F im h it' = Ok it2 /\ decr F im h it2 = Ok it') /\
    (0 < j -> exists it2, decr F im h it' = Ok it2 /\ incr F im h it2 = Ok it').
  Proof.
    intros [(-> & -> & HF)|(r & -> & _ & H3 & H4 & H5 & H6)] Hi Hp Hit Hrun.
    - cbn [length] in *. assert (i = 0) as -> by lia.
      assert (Hj : position 0 ms 0 = Some j -> j = 0).
      { clear. induction ms as [|[] ms IH]; cbn; [intros [=<-]; auto|exact IH|discriminate]. }
      rewrite (Hj Hp). split; lia.
    - eapply inverse_full; eassumption.
  Qed.
  Lemma iterate_from_ok i : two_ok F im h k root l -> i <= length l ->
    exists it, iterator_at F im h k (nth_addr l i) root = Ok it /\ iterate_from F im h it k root = Ok (skipn i l).
  Proof.
    intros [(-> & -> & HF)|(r & -> & _ & H3 & H4 & H5 & H6)] Hi.
    - unfold iterator_at, nth_addr. rewrite skipn_nil. replace (nth_error (map fst []) i) with (@None addr) by (destruct i; reflexivity).
      rewrite get_instance_empty. eexists. split; [reflexivity|]. unfold iterate_from. rewrite end_empty.
      destruct F; [lia|]. reflexivity.
    - apply iterate_from_full; assumption.
  Qed.
  Lemma begin_ok : two_ok F im h k root l ->
    exists b it, tree_begin F (tree_nav im h) k root = Ok b /\ iterator_at F im h k (nth_addr l 0) root = Ok it /\ same_iter b it.
  Proof.
    intros [(-> & -> & HF)|(r & -> & _ & H3 & H4 & H5 & H6)].
    - rewrite begin_empty. unfold iterator_at, nth_addr. cbn [map nth_error]. rewrite get_instance_empty.
      do 2 eexists. split; [reflexivity|]. split; [reflexivity|apply same_refl].
    - eapply begin_is_first; eassumption.
  Qed.
  Lemma nth_addr_end i : length l <= i -> nth_addr l i = None.
  Proof. intros Hi. unfold nth_addr. apply nth_error_None. rewrite map_length. exact Hi. Qed.
  (** begin, end, and stepping around the ends. *)
  Lemma ends_ok : two_ok F im h k root l ->
    exists b e, tree_begin F (tree_nav im h) k root = Ok b /\ tree_end F (tree_nav im h) k root = Ok e /\
      it_eqb b e = bool_decide (l = []) /\
      (exists b', incr F im h e = Ok b' /\ same_iter b' b) /\
      (exists x, decr F im h e = Ok x /\ it_cur x = nth_addr l (length l - 1)).
  Proof.
    intros Hok. destruct (begin_ok Hok) as (b & it & Hb & Hit & Hs).
    destruct Hok as [(-> & -> & HF)|(r & -> & Hne & H3 & H4 & H5 & H6)].
    - rewrite begin_empty in Hb |- *. injection Hb as <-. do 2 eexists. split; [reflexivity|]. rewrite end_empty. split; [reflexivity|].
      split; [reflexivity|]. split; [eexists; split; [reflexivity|apply same_refl]|]. eexists. split; reflexivity.
    - assert (Hpos : 0 < length l) by (destruct l; [congruence|cbn; lia]).
      destruct (run_full F im h r k l [true] (length l) 0 H6) as (_ & e & b' & it2 & He & Hr & _ & Hit2 & Hs2); [lia| |].
      { cbn. rewrite Nat.eqb_refl. reflexivity. }
      destruct (run_full F im h r k l [false] (length l) (length l - 1) H6) as (_ & e' & x & _ & He' & Hx & Hcx & _); [lia| |].
      { cbn. destruct (length l) as [|n]; [lia|]. f_equal. lia. }
      rewrite nth_addr_end in He, He' by lia. rewrite He in He'. injection He' as <-.
      rewrite Hit in Hit2. injection Hit2 as <-.
      exists b, e. split; [exact Hb|]. split; [exact He|]. split; [|split].
      + destruct Hs as (_ & Hc & Hr0 & _). unfold it_eqb. rewrite Hc, Hr0.
        assert (Hic : it_cur it = nth_addr l 0).
        { unfold iterator_at, get_instance in Hit. destruct (fix_navigator_root _ _ _ _); [|discriminate].
          cbn [mbind res_bind] in Hit. destruct (match k with BreadthFirst => _ | _ => _ end); [|discriminate].
          cbn [mbind res_bind] in Hit. injection Hit as <-. reflexivity. }
        assert (Hec : it_cur e = None).
        { unfold iterator_at, get_instance in He. destruct (fix_navigator_root _ _ _ _); [|discriminate].
          cbn [mbind res_bind] in He. destruct (match k with BreadthFirst => _ | _ => _ end); [|discriminate].
          cbn [mbind res_bind] in He. injection He as <-. reflexivity. }
        rewrite Hic, Hec. rewrite bool_decide_eq_false_2 by exact Hne. destruct l as [|[x0 v0] l0]; [congruence|].
        unfold nth_addr. cbn [map nth_error fst]. rewrite ptr_eqb_false by discriminate. reflexivity.
      + exists b'. cbn [run] in Hr. destruct (incr F im h e) as [z|]; [|discriminate]. cbn in Hr. injection Hr as ->.
        split; [reflexivity|]. destruct Hs as (A & B & C & D), Hs2 as (A' & B' & C' & D'). repeat split; congruence.
      + exists x. cbn [run] in Hx. destruct (decr F im h e) as [z|]; [|discriminate]. cbn in Hx. injection Hx as ->.
        split; [reflexivity|exact Hcx].
  Qed.
  (** Conversion from an iterator with any policy standing on an element. *)
  Lemma convert_ok it0 l1 x l2 : two_ok F im h k root l -> l = l1 ++ x :: l2 ->
    it_cur it0 = Some (fst x) -> it_root it0 = root ->
    exists it, it_other_policy F (tree_nav im h) it0 k = Ok it /\ it_kind it = k /\ it_cur it = it_cur it0 /\
      iterate_from F im h it k root = Ok (x :: l2).
  Proof.
    intros Hok Hl Hc Hr. destruct (iterate_from_ok (length l1) Hok) as (it & Hit & Hw).
    { rewrite Hl, app_length. lia. }
    assert (Hn : nth_addr l (length l1) = Some (fst x)).
    { unfold nth_addr. rewrite Hl, map_app, nth_error_app2; rewrite map_length; [|lia]. rewrite Nat.sub_diag. reflexivity. }
    exists it. unfold it_other_policy. rewrite Hc, Hr. unfold iterator_at in Hit. rewrite Hn in Hit. split; [exact Hit|].
    unfold get_instance in Hit. destruct (fix_navigator_root _ _ _ _); [|discriminate].
    cbn [mbind res_bind] in Hit. destruct (match k with BreadthFirst => _ | _ => _ end); [|discriminate].
    cbn [mbind res_bind] in Hit. injection Hit as <-. split; [reflexivity|]. split; [reflexivity|].
    rewrite Hw, Hl. f_equal. rewrite skipn_app, skipn_all, Nat.sub_diag. reflexivity.
  Qed.
End Ordered.

Section Bin.
  Context {V : Type} `{EqDecision V}.
  Notation im := (binary_impl V).
  Lemma bin_seq (P : nat -> navigator -> kind -> list addr -> Prop) F (h : gmap addr (bnode V)) (t : bin (addr * V)) k :
    bin_in h t -> bin_size t < F -> (t <> BLeaf -> bin_order k t <> []) ->
    (forall a, baddr t = Some a -> P F (tree_nav im h (Some a)) k (map fst (bin_order k t))) ->
    seq_ok P F im h k (baddr t) (bin_order k t).
  Proof.
    intros Ht HF Hne HP. destruct (baddr t) as [a|] eqn:Ea.
    - right. exists a. split; [reflexivity|]. split; [apply Hne; intros ->; discriminate|].
      split; [intros x Hx; eapply bin_value; [exact Ht|]; eapply bin_order_in; eassumption|].
      split; [apply (bin_nd h t Ht)|]. split; [|apply HP; reflexivity]. pose proof (bin_order_length h t Ht k). lia.
    - left. destruct t as [|[? ?] ? ?]; [|discriminate]. split; [reflexivity|]. split; [destruct k; reflexivity|lia].
  Qed.
  Lemma bin_two F (h : gmap addr (bnode V)) t k : bin_in h t -> bin_size t < F -> two_way_bin k ->
    two_ok F im h k (baddr t) (bin_order k t).
  Proof.
    intros Ht HF Hk. apply bin_seq; [exact Ht|exact HF| |].
    - intros Hne E. pose proof (two_way_length t k Hk) as Hl. rewrite E in Hl. destruct t; [congruence|discriminate].
    - intros a Ha. apply bin_full; assumption.
  Qed.
  Lemma bin_leaves F (h : gmap addr (bnode V)) t : bin_in h t -> bin_size t < F ->
    fwd_ok F im h Leaves (baddr t) (bin_order Leaves t).
  Proof.
    intros Ht HF. apply bin_seq; [exact Ht|exact HF| |].
    - intros Hne E. destruct t as [|a l r]; [congruence|]. cbn in E. apply app_eq_nil in E as [E _].
      change (leaves (Rose a (bin_forest l ++ bin_forest r)) = []) in E.
      clear -E. revert E. generalize (Rose a (bin_forest l ++ bin_forest r)). intros u.
      induction u as [b cs IH] using rose_ind'. destruct cs as [|c cs]; [discriminate|].
      change (flat_map leaves (c :: cs) = [] -> False). cbn [flat_map]. intros E. apply app_eq_nil in E as [E _].
      inversion IH; subst; auto.
    - intros a Ha. apply bin_fwd; auto.
  Qed.
End Bin.

Section Nary.
  Context {V : Type} `{EqDecision V}.
  Notation im := (nary_impl V).
  (** A possibly empty n-ary tree. *)
  Definition nary_order (k : kind) (t : option (rose (addr * V))) : list (addr * V) := opt_list (rose_order k) t.
  Definition onary_in (h : gmap addr (nnode V)) (t : option (rose (addr * V))) : Prop :=
    match t with None => True | Some t => nary_in h t end.
  Lemma nary_seq (P : nat -> navigator -> kind -> list addr -> Prop) F (h : gmap addr (nnode V)) t k :
    onary_in h t -> nsize t < F -> (forall u, t = Some u -> rose_order k u <> []) ->
    (forall u, t = Some u -> P F (tree_nav im h (Some (raddr u))) k (map fst (rose_order k u))) ->
    seq_ok P F im h k (nroot t) (nary_order k t).
  Proof.
    intros Ht HF Hne HP. destruct t as [u|]; cbn in *.
    - right. exists (raddr u). split; [reflexivity|]. split; [apply Hne; reflexivity|].
      split; [intros x Hx; eapply nary_value; [exact Ht|]; eapply rose_order_in; eassumption|].
      split; [eapply nd_rose, nary_nav, Ht|]. split; [|apply HP; reflexivity].
      pose proof (rose_order_length _ u (nary_nav h u Ht) k). lia.
    - left. split; [reflexivity|]. split; [reflexivity|lia].
  Qed.
  Lemma nary_two F (h : gmap addr (nnode V)) t k : onary_in h t -> nsize t < F -> two_way_nary k ->
    two_ok F im h k (nroot t) (nary_order k t).
  Proof.
    intros Ht HF Hk. apply nary_seq; [exact Ht|exact HF| |].
    - intros u -> E. assert (Hl : length (rose_order k u) = rsize u).
      { rewrite <- length_preorder. destruct Hk as [->|[->| ->]]; cbn [rose_order]; [reflexivity| |].
        - rewrite pre_post_perm. reflexivity.
        - rewrite levelorder_perm. reflexivity. }
      rewrite E in Hl. pose proof (rsize_pos u). cbn in Hl. lia.
    - intros u ->. apply nary_full; assumption.
  Qed.
  Lemma nary_leaves F (h : gmap addr (nnode V)) t : onary_in h t -> nsize t < F ->
    fwd_ok F im h Leaves (nroot t) (nary_order Leaves t).
  Proof.
    intros Ht HF. apply nary_seq; [exact Ht|exact HF| |].
    - intros u -> E. cbn in E. clear -E. induction u as [b cs IH] using rose_ind'. destruct cs as [|c cs]; [discriminate|].
      change (flat_map leaves (c :: cs) = []) in E. cbn [flat_map] in E. apply app_eq_nil in E as [E _].
      inversion IH; subst; auto.
    - intros u ->. apply nary_fwd; auto.
  Qed.
End Nary.
