(** SibFacts.v: the siblings and the fixed policies. *)
From Verif Require Import Base Spec EditSpec StructNode LitFacts BinaryNode NaryNode Nav Policy Tree RoseFacts RowFacts
  NavFacts BranchFacts Orders PolicyFacts BinOrder Rep BinRep NaryRep NaryOps NaryOps2 User Iter IterTrees IterMain NodeFacts.

Lemma sub_children_in {A} (s t : rose A) x : rsubtree s t -> x ∈ map label (children s) -> x ∈ preorder t.
Proof.
  intros Hs Hx. induction Hs as [|a cs c Hc Hs IH].
  - destruct s as [a cs]. cbn in *. apply elem_of_cons. right. apply elem_of_list_fmap in Hx as (c & -> & Hc).
    apply elem_of_flat_map. exists c. split; [exact Hc|]. destruct c. cbn. set_solver +.
  - cbn. apply elem_of_cons. right. apply elem_of_flat_map. exists c. auto.
Qed.

Lemma last_nth_error {A} (m : list A) i : length m = S i -> last m = nth_error m i.
Proof.
  destruct m as [|y m _] using rev_ind; [discriminate|]. rewrite app_length. cbn. intros Hl.
  rewrite last_snoc, nth_error_app2 by lia. replace (i - length m) with 0 by lia. reflexivity.
Qed.

Section Sib.
  Context {V Nd : Type}.
  Variable F : nat.
  Variable im : node_impl V Nd.
  Variable h : gmap addr Nd.
  Variable t : rose (addr * V).
  Notation r := (raddr t).
  Notation nav := (tree_nav im h (Some r)).
  Hypothesis Hok : nav_ok nav (rose_map fst t).
  Hypothesis Hval : forall x, x ∈ preorder t -> ni_value im h (Some (fst x)) = Ok (snd x).
  Hypothesis HF : rsize t < F.

  Lemma sib_full : full_order F nav Siblings (map fst (rose_order Siblings t)).
  Proof.
    rewrite rose_order_map. split. exists st_nil. split; [|split; [|split; [|split]]].
    - eapply sib_steps with (c := []); [exact Hok|]. apply rose_eta.
    - apply sib_first, Hok.
    - eapply sib_back with (c := []); [exact Hok|]. apply rose_eta.
    - apply sib_last, Hok.
    - apply plain_init. discriminate.
  Qed.
  Lemma sib_from s i : rsubtree s t -> i < length (children s) ->
    exists it, iterator_at F im h Siblings (nth_addr (map label (children s)) i) (Some r) = Ok it /\
      iterate_from F im h it Siblings (Some r) = Ok (skipn i (map label (children s))) /\
      (forall j, j <= i -> exists it', run F im h (repeat false j) it = Ok it' /\
                                       it_cur it' = nth_addr (map label (children s)) (i - j)) /\
      (exists e, run F im h (repeat false (S i)) it = Ok e /\ it_cur e = None).
  Proof.
    intros Hs Hi. set (l := map label (children s)).
    assert (Hv : forall x, x ∈ l -> ni_value im h (Some (fst x)) = Ok (snd x)).
    { intros x Hx. apply Hval. eapply sub_children_in; eassumption. }
    apply rsubtree_plug in Hs as [c Hp].
    assert (Hp' : exists c', plug c' (rose_map fst s) = rose_map fst t).
    { rewrite <- Hp. clear. revert s. induction c as [|[[ls a] rs] c IH] using rev_ind; intros s.
      - exists []. reflexivity.
      - rewrite plug_app. cbn. destruct (IH s) as [c' Hc'].
        exists (c' ++ [(map (rose_map fst) ls, fst a, map (rose_map fst) rs)]).
        rewrite plug_app, Hc'. cbn. rewrite map_app. reflexivity. }
    destruct Hp' as [c' Hp'].
    assert (HL : map fst l = map label (children (rose_map fst s))).
    { unfold l. rewrite children_map, !map_map. apply map_ext. intros u. symmetry. apply label_map. }
    assert (Hp2 : plug c' (Rose (label (rose_map fst s)) (children (rose_map fst s))) = rose_map fst t).
    { rewrite <- Hp'. f_equal. apply rose_eta. }
    pose proof (sib_steps nav _ Hok F _ _ _ Hp2) as Hst. rewrite <- HL in Hst.
    pose proof (sib_back nav _ Hok F _ _ _ Hp2) as Hbk. rewrite <- HL in Hbk.
    assert (Hnd : NoDup (map fst l)) by apply (os_nd _ _ _ _ _ Hst).
    assert (Hlen : length l <= rsize t).
    { pose proof (nd_children nav _ Hok _ _ _ Hp2) as _. rewrite <- length_preorder.
      assert (Hsub : length l <= length (preorder t)); [|exact Hsub].
      rewrite <- (map_length fst l), <- (map_length fst (preorder t)). apply submseteq_length, NoDup_submseteq; [exact Hnd|].
      intros a Ha. apply elem_of_list_fmap in Ha as (x & -> & Hx). apply elem_of_list_fmap. exists x. split; [reflexivity|].
      eapply sub_children_in; [|exact Hx]. apply rsubtree_plug. eauto. }
    unfold l in Hi. rewrite <- (map_length label) in Hi. fold l in Hi.
    exists (Iter Siblings (nth_addr l i) (Some r) [] (nth_addr l i)). split; [reflexivity|]. split; [|split].
    - unfold iterate_from, tree_end, it_end, get_instance. cbn [fix_navigator_root mbind res_bind].
      assert (HLs : map fst l = map fst (take i l) ++ map fst (skipn i l)) by (rewrite <- map_app, take_drop; reflexivity).
      assert (Hh : nth_error (map fst l) i = head (map fst (skipn i l))).
      { rewrite HLs, nth_error_app2; rewrite map_length, take_length; [|lia]. replace (i - min i (length l)) with 0 by lia.
        destruct (map fst (skipn i l)); reflexivity. }
      destruct l as [|d l'] eqn:El; [cbn in Hi; lia|]. rewrite <- El in *.
      unfold incr. rewrite (walk_at F (tree_nav im h) r Siblings (map fst l) st_nil Hst (visit im h)
         (fun a => default d (find a l)) (visit_find im h l Hv Hnd d) (map fst (skipn i l)) (map fst (take i l)) _ _ F HLs).
      + f_equal. apply map_find; [exact Hnd|]. intros x Hx. rewrite <- (take_drop i l). apply elem_of_app. right. exact Hx.
      + split; cbn; auto. reflexivity.
      + split; cbn; auto. reflexivity.
      + rewrite map_length, drop_length. lia.
    - intros j Hj. enough (Hg : forall j i p, j <= i -> i < length l ->
          exists it', run F im h (repeat false j) (Iter Siblings (nth_addr l i) (Some r) [] p) = Ok it' /\ it_cur it' = nth_addr l (i - j))
        by (apply Hg; assumption).
      clear -Hbk. induction j as [|j IH]; intros i p Hj Hi; cbn [repeat run].
      + eexists. split; [reflexivity|]. cbn. f_equal. lia.
      + destruct i as [|i]; [lia|]. unfold decr.
        destruct (nth_error l (S i)) as [x|] eqn:Ex; [|apply nth_error_None in Ex; lia].
        apply nth_error_split in Ex as (l1 & l2 & Hl & Hl1).
        destruct (decr_at F (tree_nav im h) r Siblings (map fst l) st_nil Hbk (map fst l1) (fst x) (map fst l2)
          (Iter Siblings (nth_addr l (S i)) (Some r) [] p)) as (it' & Hd & [Hk Hc Hr Ho] & Hini).
        * rewrite Hl, map_app. reflexivity.
        * intros E. apply map_eq_nil in E. subst l1. discriminate.
        * split; cbn [it_kind it_cur it_root it_open]; [reflexivity| |reflexivity|reflexivity]. unfold nth_addr. rewrite Hl, map_app, nth_error_app2; rewrite map_length; [|lia].
          replace (S i - length l1) with 0 by lia. reflexivity.
        * rewrite Hd. cbn [mbind res_bind]. destruct it' as [k c0 r0 o0 i0]. cbn in Hk, Hc, Hr, Ho, Hini. subst k r0 i0. unfold st_nil in Ho. subst o0.
          assert (Hci : c0 = nth_addr l i).
          { rewrite Hc. unfold nth_addr. rewrite Hl, map_app, nth_error_app1 by (rewrite map_length; lia).
            apply last_nth_error. rewrite map_length. exact Hl1. }
          rewrite Hci. apply IH; lia.
    - enough (Hg : forall i p, i < length l ->
          exists e, run F im h (repeat false (S i)) (Iter Siblings (nth_addr l i) (Some r) [] p) = Ok e /\ it_cur e = None)
        by (apply Hg; assumption).
      clear Hi i. induction i as [|i IH]; intros p Hi.
      + destruct (children s) as [|x xs] eqn:Ecs; [cbn in Hi; lia|]. cbn [repeat run].
        assert (Hpx : plug (([], label (rose_map fst s), map (rose_map fst) xs) :: c') (rose_map fst x) = rose_map fst t).
        { cbn [plug app]. rewrite <- Hp2, children_map, Ecs. reflexivity. }
        unfold decr, it_decr, nth_addr, l. cbn [map nth_error it_cur it_root it_kind it_open decrement_impl].
        replace (fst (label x)) with (label (rose_map fst x)) by apply label_map.
        rewrite (no_prev _ _ Hok _ _ Hpx). cbn. eexists. split; reflexivity.
      + change (repeat false (S (S i))) with (false :: repeat false (S i)). cbn [run].
        unfold decr.
        destruct (nth_error l (S i)) as [x|] eqn:Ex; [|apply nth_error_None in Ex; lia].
        apply nth_error_split in Ex as (l1 & l2 & Hl & Hl1).
        destruct (decr_at F (tree_nav im h) r Siblings (map fst l) st_nil Hbk (map fst l1) (fst x) (map fst l2)
          (Iter Siblings (nth_addr l (S i)) (Some r) [] p)) as (it' & Hd & [Hk Hc Hr Ho] & Hini).
        * rewrite Hl, map_app. reflexivity.
        * intros E. apply map_eq_nil in E. subst l1. discriminate.
        * split; cbn [it_kind it_cur it_root it_open]; [reflexivity| |reflexivity|reflexivity]. unfold nth_addr. rewrite Hl, map_app, nth_error_app2; rewrite map_length; [|lia].
          replace (S i - length l1) with 0 by lia. reflexivity.
        * rewrite Hd. cbn [mbind res_bind]. destruct it' as [k c0 r0 o0 i0]. cbn in Hk, Hc, Hr, Ho, Hini. subst k r0 i0. unfold st_nil in Ho. subst o0.
          assert (Hci : c0 = nth_addr l i).
          { rewrite Hc. unfold nth_addr. rewrite Hl, map_app, nth_error_app1 by (rewrite map_length; lia).
            apply last_nth_error. rewrite map_length. exact Hl1. }
          rewrite Hci. apply IH. lia.
  Qed.
  (** The root is alone. *)
  Lemma sib_root : exists it e e', iterator_at F im h Siblings (Some r) (Some r) = Ok it /\
    incr F im h it = Ok e /\ it_cur e = None /\ decr F im h it = Ok e' /\ it_cur e' = None.
  Proof.
    assert (Hr : r = label (rose_map fst t)) by (symmetry; apply label_map).
    pose proof (no_next _ _ Hok [] _ eq_refl) as Hn. rewrite <- Hr in Hn.
    pose proof (no_prev _ _ Hok [] _ eq_refl) as Hp. rewrite <- Hr in Hp.
    unfold iterator_at, get_instance. cbn [fix_navigator_root mbind res_bind].
    do 3 eexists. split; [reflexivity|]. unfold incr, decr, it_incr, it_decr.
    cbn [it_cur it_root it_kind it_open increment_impl decrement_impl].
    rewrite Hn, Hp. cbn [mbind res_bind]. split; [reflexivity|]. split; [reflexivity|]. split; reflexivity.
  Qed.
  (** The fixed policy does not move to another element. *)
  Lemma fixed_stays a : exists it e e', iterator_at F im h Fixed (Some a) (Some r) = Ok it /\
    incr F im h it = Ok e /\ it_cur e = None /\ decr F im h it = Ok e' /\ it_cur e' = None /\
    (exists b, incr F im h e = Ok b /\ it_cur b = Some a) /\ (exists b, decr F im h e' = Ok b /\ it_cur b = Some a).
  Proof.
    unfold iterator_at, get_instance. cbn. do 3 eexists. split; [reflexivity|]. do 4 (split; [reflexivity|]).
    split; eexists; split; reflexivity.
  Qed.
  Lemma sib_iterate : iterate F im h Siblings (Some r) = Ok (map label (children t)) /\
    iterate_back F im h Siblings (Some r) = Ok (rev (map label (children t))).
  Proof.
    assert (Hv : forall x, x ∈ rose_order Siblings t -> ni_value im h (Some (fst x)) = Ok (snd x)).
    { intros x Hx. apply Hval. eapply sub_children_in; [constructor|exact Hx]. }
    assert (Hlen : length (rose_order Siblings t) < F) by (pose proof (rose_order_length _ t Hok Siblings); lia).
    pose proof (nd_rose _ t Hok Siblings) as Hnd.
    change (map label (children t)) with (rose_order Siblings t). split.
    - apply iterate_fwd; [exact Hv|exact Hnd|exact Hlen|apply full_fwd, sib_full].
    - apply iterate_back_full; [exact Hv|exact Hnd|exact Hlen|apply sib_full].
  Qed.
  (** An iterator made without a tree: the siblings policy takes the parent as
      the root of its navigator. *)
  Lemma sib_alone i ms j : ops_ok (ni_ops im h) (rose_map fst t) -> i < length (children t) ->
    position (length (children t)) ms i = Some j ->
    exists it it', iterator_at F im h Siblings (nth_addr (map label (children t)) i) None = Ok it /\
      run F im h ms it = Ok it' /\ it_cur it' = nth_addr (map label (children t)) j.
  Proof.
    intros Hops Hi Hpos.
    assert (Hv : forall x, x ∈ rose_order Siblings t -> ni_value im h (Some (fst x)) = Ok (snd x)).
    { intros x Hx. apply Hval. eapply sub_children_in; [constructor|exact Hx]. }
    assert (Hlen : length (rose_order Siblings t) < F) by (pose proof (rose_order_length _ t Hok Siblings); lia).
    destruct (moves_ok F im h Siblings (Some r) (rose_order Siblings t) ms i j) as (_ & it & it' & it2 & E & Hr & Hc & _).
    { right. exists r. split; [reflexivity|]. split.
      - intros E. apply map_eq_nil in E. rewrite E in Hi. cbn in Hi. lia.
      - split; [exact Hv|]. split; [apply (nd_rose _ t Hok Siblings)|]. split; [exact Hlen|apply sib_full]. }
    { cbn. rewrite map_length. lia. } { cbn. rewrite map_length. exact Hpos. }
    exists it, it'. split; [|split; [exact Hr|exact Hc]].
    cbn [rose_order] in E. unfold nth_addr in *.
    destruct (nth_error (map fst (map label (children t))) i) as [a|] eqn:Ea; [|apply nth_error_None in Ea; rewrite !map_length in Ea; lia].
    rewrite <- E. unfold iterator_at, get_instance. cbn [fix_navigator_root mbind res_bind].
    assert (Hp : nav_parent (tree_nav im h None) (Some a) = Ok (Some r)); [|rewrite Hp; reflexivity].
    rewrite !nth_error_map in Ea. destruct (nth_error (children t) i) as [c|] eqn:Ec; [|discriminate]. cbn in Ea. injection Ea as <-.
    apply nth_error_split in Ec as (l1 & l2 & Hl & _).
    unfold raddr. destruct t as [[b v] cs]. cbn [children label fst] in *. subst cs. cbn [rose_map fst] in Hops.
    apply ops_ok_unfold in Hops as (_ & _ & Hlink & _). destruct (Hlink (map (rose_map fst) l1) (rose_map fst c) (map (rose_map fst) l2)) as (Hq & _).
    { rewrite map_app. reflexivity. }
    rewrite label_map in Hq. cbn. unfold base_unless_root, base_is_root. rewrite ptr_eqb_false by discriminate. exact Hq.
  Qed.
End Sib.

(** Reaching an element by [++] from begin, or creating the iterator there. *)
Section Reach.
  Context {V Nd : Type}.
  Variable F : nat.
  Variable im : node_impl V Nd.
  Variable h : gmap addr Nd.
  Variable k : kind.
  Variable root : ptr.
  Variable l : list (addr * V).
  Lemma position_forward n i j : i + j <= n -> position n (repeat true j) i = Some (i + j).
  Proof.
    revert i. induction j as [|j IH]; intros i Hij; cbn [repeat position]; [f_equal; lia|].
    destruct (Nat.eqb_spec i n) as [->|_]; [lia|]. rewrite IH by lia. f_equal. lia.
  Qed.
  Lemma same_res_run ms a b : same_iter a b -> it_kind a <> Fixed -> same_res (run F im h ms a) (run F im h ms b).
  Proof. apply same_run. Qed.
  Lemma same_trans a b c : same_iter a b -> same_iter b c -> same_iter a c.
  Proof. intros (H1 & H2 & H3 & H4) (K1 & K2 & K3 & K4). repeat split; congruence. Qed.
  Lemma same_sym a b : same_iter a b -> same_iter b a.
  Proof. intros (H1 & H2 & H3 & H4). repeat split; congruence. Qed.
  Lemma iterator_at_kind p it : iterator_at F im h k p root = Ok it -> it_kind it = k.
  Proof.
    unfold iterator_at, get_instance. destruct (fix_navigator_root _ _ _ _); [|discriminate]. cbn [mbind res_bind].
    destruct (match k with BreadthFirst => _ | _ => _ end); [|discriminate]. cbn [mbind res_bind]. intros [=<-]. reflexivity.
  Qed.
  Lemma reach_ok i : two_ok F im h k root l -> k <> Fixed -> i <= length l ->
    exists b it it2, tree_begin F (tree_nav im h) k root = Ok b /\ run F im h (repeat true i) b = Ok it /\
      iterator_at F im h k (nth_addr l i) root = Ok it2 /\ same_iter it it2 /\
      forall ms, same_res (run F im h ms it) (run F im h ms it2).
  Proof.
    intros Hok Hk Hi. destruct (begin_ok F im h k root l Hok) as (b & it0 & Hb & Hit0 & Hs).
    destruct (moves_ok F im h k root l (repeat true i) 0 i Hok) as (_ & it0' & it' & it2 & H0 & H1 & H2 & H3 & H4); [lia| |].
    { rewrite position_forward by lia. reflexivity. }
    rewrite Hit0 in H0. injection H0 as <-. pose proof (iterator_at_kind _ _ Hit0) as Hk0.
    pose proof (same_run F im h (repeat true i) b it0 Hs) as Hrun. rewrite H1 in Hrun.
    destruct Hs as (Hkb & _). rewrite Hkb, Hk0 in Hrun. specialize (Hrun Hk).
    destruct (run F im h (repeat true i) b) as [it|] eqn:Er; [|destruct Hrun]. cbn in Hrun.
    exists b, it, it2. split; [exact Hb|]. split; [exact Er|]. split; [exact H3|].
    pose proof (same_trans _ _ _ Hrun H4) as Hs2. split; [exact Hs2|]. intros ms. apply same_run; [exact Hs2|].
    destruct Hs2 as (Hk2 & _). rewrite Hk2, (iterator_at_kind _ _ H3). exact Hk.
  Qed.
End Reach.
