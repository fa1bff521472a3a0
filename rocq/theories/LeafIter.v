(** LeafIter.v: leaves iterators moved in both directions. *)
From Verif Require Import Base Spec EditSpec StructNode LitFacts BinaryNode NaryNode Nav Policy Tree RoseFacts RowFacts
  NavFacts BranchFacts Orders PolicyFacts BinOrder Rep BinRep NaryRep User Iter IterTrees IterMain LeafBack.

Record leaf_order (F : nat) (nav : navigator) (k : kind) (L : list addr) : Prop := LeafOrder {
  lo_fwd : fwd_order F nav k L;
  lo_back : order_back F nav k L st_any;
  lo_last : order_last F nav k L st_any;
  lo_first : order_first F nav k L st_any;
  lo_again : forall l1 x l2 o o', L = l1 ++ x :: l2 -> l1 <> [] ->
    decrement_impl F nav k (Some x) o = Ok (last l1, o') ->
    exists o2, increment_impl F nav k (last l1) o' = Ok (Some x, o2);
  lo_again_end : forall i o o', go_last_impl F nav k i o = Ok (last L, o') ->
    exists o2, increment_impl F nav k (last L) o' = Ok (None, o2)
}.

Lemma leaf_order_rose {V} nav (t : rose (addr * V)) F : nav_ok nav (rose_map fst t) -> rsize t < F ->
  leaf_order F nav Leaves (map fst (leaves t)).
Proof.
  intros Hok HF. pose proof (fwd_leaves nav t F Hok HF) as Hf.
  change (leaves t) with (rose_order Leaves t) in *. rewrite (rose_order_map t Leaves) in *. cbn [rose_order] in *.
  assert (HF' : rsize (rose_map fst t) <= F) by (rewrite rsize_map; lia).
  split; [exact Hf|apply leaves_back; assumption|apply leaves_last; assumption|apply leaves_first_any; assumption| |].
  - intros l1 x l2 o o' HL Hne Hd. cbn [decrement_impl increment_impl] in *.
    destruct (leaves_dec nav _ Hok F HF' l1 x l2 o HL Hne) as (o1 & H1 & o2 & H2). rewrite H1 in Hd. injection Hd as <-. eauto.
  - intros i o o' Hd. cbn [go_last_impl] in Hd. rewrite (no_root _ _ Hok) in Hd.
    destruct (keep_calling1 _ _ _); [|discriminate]. cbn in Hd. injection Hd as _ <-. exists []. reflexivity.
Qed.

Section Generic.
  Context {V Nd : Type}.
  Variable F : nat.
  Variable im : node_impl V Nd.
  Variable h : gmap addr Nd.
  Notation mk := (tree_nav im h).
  Variable r : addr.
  Variable k : kind.
  Variable l : list (addr * V).
  Notation L := (map fst l).
  Hypothesis Hval : forall x, x ∈ l -> ni_value im h (Some (fst x)) = Ok (snd x).
  Hypothesis Hnd : NoDup L.
  Hypothesis HF : length l < F.
  Hypothesis Hlo : leaf_order F (mk (Some r)) k L.
  Notation at_any := (at_pos r k st_any).

  Lemma at_any_any p q it : at_pos r k q p it -> at_any p it.
  Proof using. clear. intros [H1 H2 H3 H4]. split; auto. exact I. Qed.

  (** One step back, then one forward. *)
  Lemma back_one j it : S j <= length l -> at_any (nth_addr l (S j)) it ->
    exists it', decr F im h it = Ok it' /\ at_any (nth_addr l j) it' /\
      exists it2, incr F im h it' = Ok it2 /\ at_any (nth_addr l (S j)) it2.
  Proof using All.
    intros Hj Hat. destruct Hlo as [_ Hb Hl _ Hag Hae].
    assert (Hsp : exists l1 x, L = (l1 ++ [x]) ++ skipn (S j) L /\ length l1 = j /\ nth_addr l j = Some x).
    { assert (Hlen : length (take (S j) L) = S j) by (rewrite take_length, map_length; lia).
      destruct (exists_last (l := take (S j) L)) as (l1 & x & E); [intros E; rewrite E in Hlen; discriminate|]. rewrite E in Hlen.
      exists l1, x. rewrite app_length in Hlen. cbn in Hlen. rewrite <- E, take_drop. split; [reflexivity|]. split; [lia|].
      unfold nth_addr. rewrite <- (take_drop (S j) L), E, <- app_assoc, nth_error_app2 by lia.
      replace (j - length l1) with 0 by lia. reflexivity. }
    destruct Hsp as (l1 & x & HL & Hl1 & Hx).
    assert (Hcur : nth_addr l (S j) = head (skipn (S j) L)).
    { unfold nth_addr. clear. generalize L (S j). clear. intros m i. revert i. induction m as [|y m IH]; intros [|i]; cbn; auto. }
    rewrite Hx. destruct Hat as [A1 A2 A3 _]. rewrite Hcur in *.
    destruct (skipn (S j) L) as [|y l2] eqn:Es.
    - rewrite app_nil_r in HL. unfold decr, it_decr. cbn [head] in A2. rewrite A2, A3, A1.
      destruct (ol_last _ _ _ _ _ Hl (it_initial it) (it_open it) I) as (o' & Ho & _). rewrite Ho. cbn [mbind res_bind].
      assert (HlL : last L = Some x) by (rewrite HL, last_snoc; reflexivity).
      eexists. split; [reflexivity|]. split; [split; cbn; auto; exact I|].
      destruct (Hae _ _ _ Ho) as (o2 & Ho2). rewrite HlL in *. unfold incr, it_incr.
      cbn [it_set it_cur fst snd it_root it_kind it_open]. rewrite A1, A3, Ho2. cbn [mbind res_bind].
      eexists. split; [reflexivity|]. split; cbn; auto. exact I.
    - unfold decr, it_decr. cbn [head] in A2. rewrite A2, A3, A1.
      destruct (ob_dec _ _ _ _ _ Hb (l1 ++ [x]) y l2 (it_open it) HL) as (o' & Ho & _); [destruct l1; discriminate|exact I|].
      rewrite Ho. cbn [mbind res_bind].
      assert (Hne : l1 ++ [x] <> []) by (destruct l1; discriminate).
      destruct (Hag _ _ _ _ _ HL Hne Ho) as (o2 & Ho2). rewrite last_snoc in *.
      eexists. split; [reflexivity|]. split; [split; cbn; auto; exact I|]. unfold incr, it_incr.
      cbn [it_set it_cur fst snd it_root it_kind it_open]. rewrite A1, A3, Ho2. cbn [mbind res_bind].
      eexists. split; [reflexivity|]. split; cbn; auto. exact I.
  Qed.
  Lemma run_app ms ms' it it' : run F im h ms it = Ok it' -> run F im h (ms ++ ms') it = run F im h ms' it'.
  Proof using.
    revert it. induction ms as [|[] ms IH]; intros it H; cbn [run app] in *.
    - injection H as ->. reflexivity.
    - destruct (incr F im h it) as [x|]; [|discriminate]. cbn in *. apply IH, H.
    - destruct (decr F im h it) as [x|]; [|discriminate]. cbn in *. apply IH, H.
  Qed.
  Lemma run_back n : forall i it, n <= i -> i <= length l -> at_any (nth_addr l i) it ->
    exists it', run F im h (repeat false n) it = Ok it' /\ at_any (nth_addr l (i - n)) it' /\
      (0 < n -> exists it2, incr F im h it' = Ok it2 /\ it_cur it2 = nth_addr l (S (i - n))).
  Proof using All.
    induction n as [|n IH]; intros i it Hn Hi Hat.
    - exists it. rewrite Nat.sub_0_r. split; [reflexivity|]. split; [exact Hat|lia].
    - destruct i as [|i]; [lia|]. destruct (back_one i it Hi Hat) as (it1 & H1 & H2 & it2 & H3 & H4).
      cbn [repeat run]. rewrite H1. cbn [mbind res_bind].
      destruct (IH i it1) as (it' & G1 & G2 & G3); [lia|lia|exact H2|]. exists it'. cbn [Nat.sub].
      split; [exact G1|]. split; [exact G2|]. intros _. destruct n as [|n].
      + cbn [repeat run] in G1. injection G1 as <-. exists it2. split; [exact H3|]. rewrite Nat.sub_0_r. apply (ap_cur _ _ _ _ _ H4).
      + apply G3. lia.
  Qed.
  Lemma run_forth m : m <= length l ->
    exists b it, tree_begin F mk k (Some r) = Ok b /\ run F im h (repeat true m) b = Ok it /\ at_any (nth_addr l m) it.
  Proof using All.
    intros Hm. destruct Hlo as [[(St & Hs & Hf & (o & Ho & Ho2))] _ _ _ _ _].
    unfold tree_begin, it_end, get_instance, fix_navigator_root. cbn [mbind res_bind].
    unfold initial_open in Ho. rewrite Ho. cbn [mbind res_bind].
    set (e := Iter k None (Some r) o None).
    assert (He : at_pos r k St None e) by (split; cbn; auto).
    destruct (incr_end F mk r k L St Hf e He) as (b & Hb & Hb2 & _). rewrite Hb. exists b.
    assert (Hgo : forall m i it, i + m <= length l -> at_pos r k St (nth_addr l i) it ->
      exists it', run F im h (repeat true m) it = Ok it' /\ at_pos r k St (nth_addr l (i + m)) it').
    { clear m Hm. induction m as [|m IH]; intros i it Hi Hat.
      - exists it. rewrite Nat.add_0_r. auto.
      - cbn [repeat run]. destruct (at_index L i) as (l1 & l2 & HL & Hlen & Hh). { rewrite map_length. lia. }
        unfold nth_addr in Hat. rewrite <- Hh in Hat. destruct l2 as [|x l2].
        { rewrite app_nil_r in HL. rewrite <- HL, map_length in Hlen. lia. }
        destruct (incr_at F mk r k L St Hs l1 x l2 it HL Hat) as (it1 & H1 & H2 & _). unfold incr. rewrite H1. cbn [mbind res_bind].
        destruct (IH (S i) it1) as (it' & G1 & G2); [lia| |].
        + replace (nth_addr l (S i)) with (head l2); [exact H2|]. unfold nth_addr.
          rewrite HL, nth_error_app2 by lia. rewrite Hlen. replace (S i - i) with 1 by lia. destruct l2; reflexivity.
        + exists it'. replace (i + S m) with (S i + m) by lia. auto. }
    destruct (Hgo m 0 b) as (it & G1 & G2); [lia| |].
    { unfold nth_addr. destruct l; exact Hb2. }
    exists it. split; [reflexivity|]. split; [exact G1|]. eapply at_any_any, G2.
  Qed.
  Lemma rwalk_back n : forall it e fuel, n <= length l -> at_any (nth_addr l n) it -> at_any (nth_addr l 0) e -> n < fuel ->
    rwalk (visit im h) (decr F im h) fuel it e = Ok (rev (take n l)).
  Proof using All.
    induction n as [|n IH]; intros it e fuel Hn Hit He Hf; (destruct fuel as [|fuel]; [lia|]); cbn [rwalk];
      rewrite (at_pos_eqb _ _ _ _ _ _ _ Hit He).
    - rewrite ptr_eqb_true. reflexivity.
    - assert (Hsl : exists x, nth_error l n = Some x).
      { destruct (nth_error l n) eqn:E; [eauto|]. apply nth_error_None in E. lia. }
      destruct Hsl as [x Hx]. rewrite ptr_eqb_false.
      2:{ unfold nth_addr. intros Heq. pose proof (proj1 (NoDup_nth_error L)) as Hinj.
          apply NoDup_ListNoDup in Hnd. specialize (Hinj Hnd 0 (S n)). rewrite map_length in Hinj.
          assert (0 = S n) by (apply Hinj; [lia|congruence]). lia. }
      destruct (back_one n it Hn Hit) as (it' & H1 & H2 & _). rewrite H1. cbn [mbind res_bind].
      assert (Hc : it_cur it' = Some (fst x)).
      { rewrite (ap_cur _ _ _ _ _ H2). unfold nth_addr. rewrite nth_error_map, Hx. reflexivity. }
      rewrite Hc. cbn [visit]. rewrite Hval by (apply elem_of_list_In; eapply nth_error_In, Hx). cbn [mbind res_bind].
      rewrite (IH it' e fuel) by (assumption || lia). cbn [mbind res_bind].
      rewrite (take_S_r l n x); [rewrite rev_app_distr; destruct x; reflexivity|]. 
      rewrite <- Hx. clear. generalize l. clear. intros m. revert n. induction m as [|y m IH]; intros [|n]; cbn; auto.
  Qed.
  Lemma iterate_back_leaf : iterate_back F im h k (Some r) = Ok (rev l).
  Proof using All.
    unfold iterate_back. destruct (run_forth 0) as (b & it & Hb & Hr & Hat); [lia|]. rewrite Hb.
    cbn [repeat run] in Hr. injection Hr as <-. cbn [mbind res_bind].
    destruct Hlo as [[(St & _ & _ & (o & Ho & _))] _ _ _ _ _].
    unfold tree_end, it_end, get_instance, fix_navigator_root. cbn [mbind res_bind].
    unfold initial_open in Ho. rewrite Ho. cbn [mbind res_bind].
    rewrite (rwalk_back (length l)); [rewrite firstn_all; reflexivity|lia| |exact Hat|exact HF].
    split; cbn; auto; [|exact I]. unfold nth_addr. symmetry. apply nth_error_None. rewrite map_length. lia.
  Qed.
End Generic.

Notation leaf_ok := (seq_ok leaf_order).
Section Ordered.
  Context {V Nd : Type}.
  Variable F : nat.
  Variable im : node_impl V Nd.
  Variable h : gmap addr Nd.
  Variable root : ptr.
  Variable l : list (addr * V).
  Notation k := Leaves.
  Lemma leaf_back_ok : leaf_ok F im h k root l -> iterate_back F im h k root = Ok (rev l).
  Proof.
    intros [(-> & -> & HF)|(r & -> & _ & H3 & H4 & H5 & H6)]; [apply iterate_back_empty, HF|].
    apply iterate_back_leaf; assumption.
  Qed.
  Lemma leaf_run_back_ok n i it : leaf_ok F im h k root l -> n <= i -> i <= length l ->
    it_kind it = k -> it_cur it = nth_addr l i -> it_root it = root ->
    exists it', run F im h (repeat false n) it = Ok it' /\ it_cur it' = nth_addr l (i - n) /\
      (0 < n -> exists it2, incr F im h it' = Ok it2 /\ it_cur it2 = nth_addr l (S (i - n))).
  Proof.
    intros [(-> & -> & HF)|(r & -> & _ & H3 & H4 & H5 & H6)] Hn Hi Hk Hc Hr.
    - cbn in Hi. assert (i = 0) by lia. assert (n = 0) by lia. subst. exists it. split; [reflexivity|].
      split; [exact Hc|lia].
    - destruct (run_back F im h r k l H3 H4 H5 H6 n i it Hn Hi) as (it' & G1 & G2 & G3). { split; auto. exact I. }
      exists it'. split; [exact G1|]. split; [apply (ap_cur _ _ _ _ _ G2)|exact G3].
  Qed.
  Lemma leaf_run_forth_ok m : leaf_ok F im h k root l -> m <= length l ->
    exists b it, tree_begin F (tree_nav im h) k root = Ok b /\ run F im h (repeat true m) b = Ok it /\
      it_kind it = k /\ it_cur it = nth_addr l m /\ it_root it = root.
  Proof.
    intros [(-> & -> & HF)|(r & -> & _ & H3 & H4 & H5 & H6)] Hm.
    - cbn in Hm. assert (m = 0) by lia. subst. rewrite begin_empty. eexists _, _. split; [reflexivity|]. repeat split.
    - destruct (run_forth F im h r k l H3 H4 H5 H6 m Hm) as (b & it & H1 & H2 & H7). exists b, it.
      split; [exact H1|]. split; [exact H2|]. destruct H7; auto.
  Qed.
  Lemma leaf_moves_ok m n : leaf_ok F im h k root l -> m <= length l -> n <= m ->
    exists b it, tree_begin F (tree_nav im h) k root = Ok b /\
      run F im h (repeat true m ++ repeat false n) b = Ok it /\ it_cur it = nth_addr l (m - n) /\
      (0 < n -> exists it2, incr F im h it = Ok it2 /\ it_cur it2 = nth_addr l (S (m - n))).
  Proof.
    intros Hok Hm Hn. destruct (leaf_run_forth_ok m Hok Hm) as (b & it & H1 & H2 & H3 & H4 & H5).
    destruct (leaf_run_back_ok n m it Hok Hn Hm H3 H4 H5) as (it' & G1 & G2 & G3).
    exists b, it'. split; [exact H1|]. split; [rewrite (run_app _ _ _ _ _ _ _ H2); exact G1|]. auto.
  Qed.
End Ordered.

Lemma bin_leaf_ok {V} `{EqDecision V} F (h : gmap addr (bnode V)) t : bin_in h t -> bin_size t < F ->
  leaf_ok F (binary_impl V) h Leaves (baddr t) (bin_order Leaves t).
Proof.
  intros Ht HF. destruct (bin_leaves F h t Ht HF) as [Hl|(r & H1 & H2 & H3 & H4 & H5 & H6)]; [left; exact Hl|right].
  exists r. repeat (split; [assumption|]).
  destruct (bin_roots h t Ht) as (a' & u & Ha' & Hu & Hsz & Hra & Hok & Hbok & Hlab).
  { intros E. rewrite E in H1. discriminate. }
  rewrite H1 in Ha'. injection Ha' as <-.
  rewrite (bin_order_forest t Leaves u Hu) by discriminate. apply leaf_order_rose; [exact Hok|lia].
Qed.
Lemma nary_leaf_ok {V} `{EqDecision V} F (h : gmap addr (nnode V)) t : onary_in h t -> nsize t < F ->
  leaf_ok F (nary_impl V) h Leaves (nroot t) (nary_order Leaves t).
Proof.
  intros Ht HF. destruct (nary_leaves F h t Ht HF) as [Hl|(r & H1 & H2 & H3 & H4 & H5 & H6)]; [left; exact Hl|right].
  exists r. repeat (split; [assumption|]). destruct t as [u|]; [|discriminate]. cbn in *. injection H1 as <-.
  apply leaf_order_rose; [apply nary_nav, Ht|exact HF].
Qed.
