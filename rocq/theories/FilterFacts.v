(** FilterFacts.v: filtered iterators, proofs (C69-C71). *)
From Verif Require Import Base Spec StructNode BinaryNode NaryNode Nav Policy Tree Rep RoseFacts RowFacts NavFacts Orders
  BinRep NaryRep User Iter IterTrees IterMain Moves Filter.

Section Walk.
  Variable F : nat.
  Variable mknav : ptr -> navigator.
  Variable r : addr.
  Variable k : kind.
  Variable L : list addr.
  Variable St : ptr -> list ptr -> Prop.
  Hypothesis Hs : order_steps F (mknav (Some r)) k L St.
  Hypothesis Hf : order_first F (mknav (Some r)) k L St.
  Hypothesis Hb : order_back F (mknav (Some r)) k L St.
  Hypothesis Hl : order_last F (mknav (Some r)) k L St.
  Variable pred : ptr -> res bool.
  Variable P : addr -> bool.
  Hypothesis Hpred : forall x, x ∈ L -> pred (Some x) = Ok (P x).
  Hypothesis HF : length L < F.
  Notation at_pos := (at_pos r k St).
  Notation skip := (skip_to P).

  Lemma skip_head l : head (skip l) = head (List.filter P l).
  Proof. induction l as [|x l IH]; [reflexivity|]. cbn. destruct (P x); [reflexivity|exact IH]. Qed.

  Lemma f_make l1 l2 it : L = l1 ++ l2 -> at_pos (head l2) it ->
    exists it', filter_make F mknav pred it = Ok it' /\ at_pos (head (List.filter P l2)) it'.
  Proof using All.
    intros HL Hit. rewrite <- skip_head.
    exact (filter_make_at F mknav r k L St Hs pred P Hpred (fun _ => Ok ()) (fun _ => ()) (fun _ _ => eq_refl) ltac:(lia) l1 l2 it HL Hit).
  Qed.
  Lemma f_incr l1 x l2 it : L = l1 ++ x :: l2 -> at_pos (Some x) it ->
    exists it', filter_incr F mknav pred it = Ok it' /\ at_pos (head (List.filter P l2)) it'.
  Proof using All.
    intros HL Hit. rewrite <- skip_head.
    apply (filter_incr_at F mknav r k L St Hs pred P Hpred (fun _ => Ok ()) (fun _ => ()) (fun _ _ => eq_refl) l2 l1 x it F HL Hit).
    rewrite HL, app_length in HF. cbn in HF. lia.
  Qed.
  Lemma f_incr_end it : at_pos None it ->
    exists it', filter_incr F mknav pred it = Ok it' /\ at_pos (head (List.filter P L)) it'.
  Proof using All.
    intros Hit. unfold filter_incr. destruct F as [|n] eqn:EF; [lia|]. cbn [filter_move]. rewrite <- EF.
    rewrite <- EF in *.
    destruct (incr_end F mknav r k L St Hf it Hit) as (it1 & H1 & H2 & _). rewrite H1. cbn [mbind res_bind].
    rewrite (ap_cur _ _ _ _ _ H2). destruct L as [|x L'] eqn:EL; cbn [head]; [exists it1; auto|].
    rewrite Hpred by left. cbn [mbind res_bind List.filter head]. destruct (P x) eqn:E; [exists it1; auto|].
    rewrite <- skip_head. eapply (filter_incr_at F mknav r k (x :: L') St Hs pred P Hpred (fun _ => Ok ()) (fun _ => ()) (fun _ _ => eq_refl) L' [] x it1 n eq_refl H2).
    cbn in HF. lia.
  Qed.
  Lemma f_decr l1 : forall l2 it fuel, L = l1 ++ l2 -> at_pos (head l2) it -> List.filter P l1 <> [] -> length l1 < fuel ->
    exists it', filter_move pred fuel (it_decr F mknav) it = Ok it' /\ at_pos (last (List.filter P l1)) it'.
  Proof using All.
    induction l1 as [|x l1 IH] using rev_ind; intros l2 it fuel HL Hit Hne Hfuel; [cbn in Hne; congruence|].
    destruct fuel as [|fuel]; [lia|]. cbn [filter_move].
    destruct (decr_split F mknav r k L St Hb Hl (l1 ++ [x]) l2 it HL ltac:(destruct l1; discriminate) Hit) as (it1 & H1 & H2 & _).
    rewrite H1. cbn [mbind res_bind]. rewrite last_snoc in H2. rewrite (ap_cur _ _ _ _ _ H2).
    rewrite Hpred by (rewrite HL; set_solver +). cbn [mbind res_bind].
    rewrite List.filter_app in Hne |- *. cbn [List.filter] in Hne |- *. destruct (P x) eqn:E.
    - exists it1. split; [reflexivity|]. rewrite last_snoc. exact H2.
    - rewrite app_nil_r in Hne |- *. apply (IH (x :: l2) it1 fuel); [rewrite HL, <- app_assoc; reflexivity|exact H2|exact Hne|].
      rewrite app_length in Hfuel. cbn in Hfuel. lia.
  Qed.

  (** Where the [i]-th accepted element is. *)
  Lemma place (l : list addr) : forall i x, nth_error (List.filter P l) i = Some x ->
    exists l1 l2, l = l1 ++ x :: l2 /\ length (List.filter P l1) = i /\ P x = true.
  Proof.
    induction l as [|y l IH]; intros i x Hx; [destruct i; discriminate|]. cbn in Hx. destruct (P y) eqn:E.
    - destruct i as [|i].
      + injection Hx as ->. exists [], l. auto.
      + destruct (IH i x Hx) as (l1 & l2 & -> & Hi & Hp). exists (y :: l1), l2. cbn. rewrite E. cbn. auto.
    - destruct (IH i x Hx) as (l1 & l2 & -> & Hi & Hp). exists (y :: l1), l2. cbn. rewrite E. auto.
  Qed.
  Notation A := (List.filter P L).

  Fixpoint frun (ms : list bool) (it : iter) : res iter :=
    match ms with
    | [] => Ok it
    | true :: ms => it' ← filter_incr F mknav pred it; frun ms it'
    | false :: ms => it' ← filter_decr F mknav pred it; frun ms it'
    end.
  Lemma frun_ok ms : forall i it j, i <= length A -> at_pos (nth_error A i) it -> position (length A) ms i = Some j ->
    j <= length A /\ exists it', frun ms it = Ok it' /\ at_pos (nth_error A j) it'.
  Proof using All.
    induction ms as [|[] ms IH]; intros i it j Hi Hit Hm; cbn [position frun] in *.
    - injection Hm as <-. eauto.
    - destruct (Nat.eqb_spec i (length A)) as [->|Hne].
      + rewrite (proj2 (nth_error_None A (length A))) in Hit by lia.
        destruct (f_incr_end it Hit) as (it' & H1 & H2). rewrite H1. cbn [mbind res_bind].
        apply (IH 0); [lia| |exact Hm]. destruct A; exact H2.
      + destruct (nth_error A i) as [x|] eqn:Ex; [|apply nth_error_None in Ex; lia].
        destruct (place L i x Ex) as (l1 & l2 & HL & Hlen & Hp).
        destruct (f_incr l1 x l2 it HL Hit) as (it' & H1 & H2). rewrite H1. cbn [mbind res_bind].
        apply (IH (S i)); [lia| |exact Hm].
        replace (nth_error A (S i)) with (head (List.filter P l2)); [exact H2|].
        rewrite HL, List.filter_app, nth_error_app2 by lia. rewrite Hlen. replace (S i - i) with 1 by lia. cbn [List.filter]. rewrite Hp.
        cbn. destruct (List.filter P l2); reflexivity.
    - destruct i as [|i]; [discriminate|].
      assert (Hsplit : exists l1 l2, L = l1 ++ l2 /\ length (List.filter P l1) = S i /\ nth_error A (S i) = head l2).
      { destruct (nth_error A (S i)) as [x|] eqn:Ex.
        - destruct (place L (S i) x Ex) as (l1 & l2 & HL & Hlen & _). exists l1, (x :: l2). auto.
        - exists L, []. rewrite app_nil_r. apply nth_error_None in Ex. split; [reflexivity|]. split; [lia|reflexivity]. }
      destruct Hsplit as (l1 & l2 & HL & Hlen & Hh). rewrite Hh in Hit.
      destruct (f_decr l1 l2 it F HL Hit) as (it' & H1 & H2).
      { intros E. rewrite E in Hlen. discriminate. }
      { rewrite HL, app_length in HF. lia. }
      change (filter_decr F mknav pred it = Ok it') in H1. rewrite H1. cbn [mbind res_bind]. apply (IH i); [lia| |exact Hm].
      replace (nth_error A i) with (last (List.filter P l1)); [exact H2|].
      rewrite HL, List.filter_app, nth_error_app1 by lia.
      destruct (List.filter P l1) as [|y l' _] using rev_ind; [discriminate|]. rewrite last_snoc. rewrite app_length in Hlen. cbn in Hlen.
      rewrite nth_error_app2 by lia. replace (i - length l') with 0 by lia. reflexivity.
  Qed.
End Walk.

Section Ordered.
  Context {V Nd : Type}.
  Variable F : nat.
  Variable im : node_impl V Nd.
  Variable h : gmap addr Nd.
  Variable k : kind.
  Variable root : ptr.
  Variable l : list (addr * V).
  Variable p : V -> bool.
  Notation nav := (tree_nav im h).
  Definition good_addr (a : addr) : bool := match ni_value im h (Some a) with Ok v => p v | Err _ => false end.
  Lemma accepted_addrs (l' : list (addr * V)) : (forall x, x ∈ l' -> ni_value im h (Some (fst x)) = Ok (snd x)) ->
    List.filter good_addr (map fst l') = map fst (accepted p l').
  Proof.
    induction l' as [|x l' IH]; intros Hv; [reflexivity|]. cbn. unfold good_addr at 1. rewrite (Hv x) by left.
    destruct (p (snd x)); cbn; rewrite IH; auto; intros y Hy; apply Hv; right; exact Hy.
  Qed.
  Lemma vpred_good a : (exists v, ni_value im h (Some a) = Ok v) -> vpred im h p (Some a) = Ok (good_addr a).
  Proof. intros [v Hv]. unfold vpred, good_addr. rewrite Hv. reflexivity. Qed.
  Lemma fi_run_frun ms : forall it, fi_run F im h ms (Fiter it (Some p)) = (it' ← frun F nav (vpred im h p) ms it; Ok (Fiter it' (Some p))).
  Proof.
    induction ms as [|[] ms IH]; intros it; cbn [fi_run frun]; [reflexivity| |].
    - unfold fi_incr. cbn [fi_it fi_pred]. change (fi_test im h (Fiter it (Some p))) with (vpred im h p).
      destruct (filter_incr F nav (vpred im h p) it) as [it'|e]; [|reflexivity]. cbn [mbind res_bind]. apply IH.
    - unfold fi_decr. cbn [fi_it fi_pred]. change (fi_test im h (Fiter it (Some p))) with (vpred im h p).
      destruct (filter_decr F nav (vpred im h p) it) as [it'|e]; [|reflexivity]. cbn [mbind res_bind]. apply IH.
  Qed.
  Lemma at_pos_same r St q it it' : order_steps F (nav (Some r)) k (map fst l) St ->
    at_pos r k St q it -> at_pos r k St q it' -> same_iter it it'.
  Proof.
    intros Hs [A1 A2 A3 A4] [B1 B2 B3 B4]. split; [congruence|]. split; [congruence|]. split; [congruence|].
    eapply (os_fun _ _ _ _ _ Hs); eassumption.
  Qed.
  Lemma in_ptr (q : ptr) : (q = None \/ exists x, x ∈ l /\ q = Some (fst x)) -> q = None \/ exists x, q = Some x /\ x ∈ map fst l.
  Proof. intros [->|(x & Hx & ->)]; [left; reflexivity|right]. exists (fst x). split; [reflexivity|]. apply elem_of_list_fmap. eauto. Qed.
  Lemma nth_accepted (i : nat) : nth_addr (accepted p l) i = None \/ exists x, x ∈ l /\ nth_addr (accepted p l) i = Some (fst x).
  Proof.
    unfold nth_addr. rewrite nth_error_map. destruct (nth_error (accepted p l) i) as [x|] eqn:E; [right|left; reflexivity].
    exists x. split; [|reflexivity]. apply nth_error_In, List.filter_In in E as [E _]. apply elem_of_list_In. exact E.
  Qed.
  Lemma head_accepted (l' : list (addr * V)) : head (map fst (accepted p l')) = nth_addr (accepted p l') 0.
  Proof. unfold nth_addr. destruct (accepted p l'); reflexivity. Qed.

  (** An iterator at the position between [l1] and [l2]. *)
  Definition stands_between (l1 l2 : list (addr * V)) (it : iter) : Prop :=
    iterator_at F im h k (nth_addr l2 0) root = Ok it \/ (l1 = [] /\ tree_begin F nav k root = Ok it).
  (** Made at an element and moved at will. *)
  Lemma fi_moves l1 l2 it ms j : two_ok F im h k root l -> l = l1 ++ l2 -> stands_between l1 l2 it ->
    position (length (accepted p l)) ms (length (accepted p l1)) = Some j ->
    exists f it' it2, fi_make F im h p it = Ok f /\ fi_run F im h ms f = Ok (Fiter it' (Some p)) /\ it_cur it' = nth_addr (accepted p l) j /\
      iterator_at F im h k (nth_addr (accepted p l) j) root = Ok it2 /\ same_iter it' it2.
  Proof.
    unfold stands_between. intros [(-> & -> & HF)|(r & -> & _ & Hval & Hnd & HF & [(St & Hs & Hf & Hb & Hl & Hi)])] El Hit Hpos.
    - symmetry in El. apply app_eq_nil in El as [-> ->]. assert (it = Iter k None None [] None) as ->.
      { destruct Hit as [Hit|[_ Hit]].
        - change (get_instance F nav k None None = Ok it) in Hit. rewrite get_instance_empty in Hit. congruence.
        - unfold tree_begin, it_end in Hit. rewrite get_instance_empty in Hit. cbn in Hit. congruence. }
      cbn [accepted List.filter length] in *. unfold iterator_at, nth_addr. cbn [map].
      assert (Hrun : position 0 ms 0 = Some j -> j = 0 /\ fi_run F im h ms (Fiter (Iter k None None [] None) (Some p)) = Ok (Fiter (Iter k None None [] None) (Some p))).
      { clear -HF. induction ms as [|[] ms IH]; cbn [position]; [intros [=<-]; auto| |discriminate]. cbn [Nat.eqb]. intros H. destruct (IH H) as [-> E]. split; [reflexivity|].
        cbn [fi_run]. unfold fi_incr. cbn [fi_it fi_pred]. unfold filter_incr. destruct F as [|n]; [lia|]. cbn [filter_move]. unfold it_incr. cbn [it_cur it_root mbind res_bind]. exact E. }
      destruct (Hrun Hpos) as [-> Hr]. cbn [nth_error]. rewrite get_instance_empty. do 3 eexists. split; [reflexivity|]. split; [exact Hr|].
      split; [reflexivity|]. split; [reflexivity|]. apply same_refl.
    - assert (Hat : at_pos r k St (head (map fst l2)) it).
      { destruct Hit as [Hit|[-> Hit]].
        - assert (Hq : nth_addr l2 0 = None \/ exists x, x ∈ l /\ nth_addr l2 0 = Some (fst x)).
          { destruct l2 as [|x l2]; [left; reflexivity|right]. exists x. split; [rewrite El; apply elem_of_app; right; left|reflexivity]. }
          destruct (instance_at F nav r k (map fst l) St _ Hi (in_ptr _ Hq)) as (it0 & Hit0 & Hat & _).
          unfold iterator_at in Hit. rewrite Hit in Hit0. injection Hit0 as <-.
          replace (head (map fst l2)) with (nth_addr l2 0) by (destruct l2; reflexivity). exact Hat.
        - destruct (begin_at F nav r k (map fst l) St Hf Hi) as (b & Hb1 & Hat & _). rewrite Hit in Hb1. injection Hb1 as <-.
          rewrite El in Hat. exact Hat. }
      assert (Hpr : forall a, a ∈ map fst l -> vpred im h p (Some a) = Ok (good_addr a)).
      { intros a Ha. apply elem_of_list_fmap in Ha as (x & -> & Hx). apply vpred_good. exists (snd x). apply Hval. exact Hx. }
      assert (HFl : length (map fst l) < F) by (rewrite map_length; exact HF).
      destruct (f_make F nav r k (map fst l) St Hs Hf Hb Hl (vpred im h p) good_addr Hpr HFl (map fst l1) (map fst l2) it) as (it1 & E & Hat1);
        [rewrite El, map_app; reflexivity|exact Hat|].
      rewrite accepted_addrs in Hat1 by (intros x Hx; apply Hval; rewrite El; apply elem_of_app; right; exact Hx).
      assert (HA : List.filter good_addr (map fst l) = map fst (accepted p l)) by (apply accepted_addrs; exact Hval).
      assert (Hal : accepted p l = accepted p l1 ++ accepted p l2) by (rewrite El; apply List.filter_app).
      assert (Hat2 : at_pos r k St (nth_error (List.filter good_addr (map fst l)) (length (accepted p l1))) it1).
      { rewrite HA, Hal, map_app, nth_error_app2; rewrite map_length; [|lia]. rewrite Nat.sub_diag.
        replace (nth_error (map fst (accepted p l2)) 0) with (head (map fst (accepted p l2))) by (destruct (accepted p l2); reflexivity). exact Hat1. }
      destruct (frun_ok F nav r k (map fst l) St Hs Hf Hb Hl (vpred im h p) good_addr Hpr HFl ms (length (accepted p l1)) it1 j) as (Hj & it' & Hrun & Hat').
      + rewrite HA, map_length, Hal, app_length. lia.
      + exact Hat2.
      + rewrite HA, map_length. exact Hpos.
      + rewrite HA in Hat'. destruct (instance_at F nav r k (map fst l) St _ Hi (in_ptr _ (nth_accepted j))) as (it2 & Hit2 & Hat3 & _).
        exists (Fiter it1 (Some p)), it', it2. split; [unfold fi_make; rewrite E; reflexivity|].
        split; [rewrite fi_run_frun, Hrun; reflexivity|]. split; [exact (ap_cur _ _ _ _ _ Hat')|]. split; [exact Hit2|].
        exact (at_pos_same r St _ _ _ Hs Hat' Hat3).
  Qed.

  (** One step from any element, accepted or not, with any predicate. *)
  Lemma fi_step l1 x l2 it : two_ok F im h k root l -> l = l1 ++ x :: l2 -> iterator_at F im h k (Some (fst x)) root = Ok it ->
    exists it' it2, fi_incr F im h (Fiter it (Some p)) = Ok (Fiter it' (Some p)) /\ it_cur it' = nth_addr (accepted p l2) 0 /\
      iterator_at F im h k (nth_addr (accepted p l2) 0) root = Ok it2 /\ same_iter it' it2.
  Proof.
    intros [(-> & -> & HF)|(r & -> & _ & Hval & Hnd & HF & [(St & Hs & Hf & Hb & Hl & Hi)])] El Hit; [destruct l1; discriminate|].
    destruct (instance_at F nav r k (map fst l) St (Some (fst x)) Hi) as (it0 & Hit0 & Hat & _).
    { right. exists (fst x). split; [reflexivity|]. rewrite El, map_app. apply elem_of_app. right. left. }
    unfold iterator_at in Hit |- *. rewrite Hit in Hit0. injection Hit0 as <-.
    destruct (f_incr F nav r k (map fst l) St Hs Hf Hb Hl (vpred im h p) good_addr) with (l1 := map fst l1) (x := fst x) (l2 := map fst l2) (it := it) as (it' & E & Hat').
    - intros a Ha. apply elem_of_list_fmap in Ha as (y & -> & Hy). apply vpred_good. exists (snd y). apply Hval. exact Hy.
    - rewrite map_length. exact HF.
    - rewrite El, map_app. reflexivity.
    - exact Hat.
    - rewrite accepted_addrs, head_accepted in Hat' by (intros y Hy; apply Hval; rewrite El; apply elem_of_app; right; right; exact Hy).
      assert (Hq2 : nth_addr (accepted p l2) 0 = None \/ exists y, y ∈ l /\ nth_addr (accepted p l2) 0 = Some (fst y)).
      { unfold nth_addr. rewrite nth_error_map. destruct (nth_error (accepted p l2) 0) as [y|] eqn:E0; [right|left; reflexivity].
        exists y. split; [|reflexivity]. apply nth_error_In, List.filter_In in E0 as [E0 _]. rewrite El. apply elem_of_app. right. right. apply elem_of_list_In. exact E0. }
      destruct (instance_at F nav r k (map fst l) St _ Hi (in_ptr _ Hq2)) as (it2 & Hit2 & Hat2 & _).
      exists it', it2. split; [unfold fi_incr; cbn [fi_it fi_pred]; change (fi_test im h (Fiter it (Some p))) with (vpred im h p); rewrite E; reflexivity|].
      split; [exact (ap_cur _ _ _ _ _ Hat')|]. split; [exact Hit2|]. exact (at_pos_same r St _ _ _ Hs Hat' Hat2).
  Qed.
  (** An iterator without predicate must not be moved to an element. *)
  Lemma fi_no_pred l1 x y l2 it : two_ok F im h k root l -> l = l1 ++ x :: y :: l2 -> iterator_at F im h k (Some (fst x)) root = Ok it ->
    fi_incr F im h (Fiter it None) = Err NullDeref.
  Proof.
    intros [(-> & -> & HF)|(r & -> & _ & Hval & Hnd & HF & [(St & Hs & Hf & Hb & Hl & Hi)])] El Hit; [destruct l1; discriminate|].
    destruct (instance_at F nav r k (map fst l) St (Some (fst x)) Hi) as (it0 & Hit0 & Hat & _).
    { right. exists (fst x). split; [reflexivity|]. rewrite El, map_app. apply elem_of_app. right. left. }
    unfold iterator_at in Hit. rewrite Hit in Hit0. injection Hit0 as <-.
    unfold fi_incr, filter_incr. destruct F as [|n] eqn:EF; [lia|]. cbn [filter_move fi_it]. rewrite <- EF in *.
    destruct (incr_at F nav r k (map fst l) St Hs (map fst l1) (fst x) (map fst (y :: l2)) it) as (it1 & H1 & H2 & _);
      [rewrite El, map_app; reflexivity|exact Hat|]. rewrite H1. cbn [mbind res_bind]. rewrite (ap_cur _ _ _ _ _ H2). reflexivity.
  Qed.
End Ordered.
