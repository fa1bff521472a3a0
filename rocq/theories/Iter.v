(** Iter.v: iteration over any tree stored in a heap, from the step lemmas. *)
From Verif Require Import Base Spec StructNode LitFacts BinaryNode NaryNode Nav Policy Tree RoseFacts RowFacts
  NavFacts BranchFacts Orders PolicyFacts BinOrder Rep BinRep NaryRep User.

(** ** The orders commute with relabelling. *)
Section Maps.
  Context {A B : Type} (f : A -> B).
  Lemma flat_map_map' {C D E} (g : D -> list E) (k : C -> D) l : flat_map g (map k l) = flat_map (fun x => g (k x)) l.
  Proof. induction l as [|x l IH]; cbn; [reflexivity|]. rewrite IH. reflexivity. Qed.
  Lemma label_map t : label (rose_map f t) = f (label t).
  Proof. destruct t; reflexivity. Qed.
  Lemma children_map t : children (rose_map f t) = map (rose_map f) (children t).
  Proof. destruct t; reflexivity. Qed.
  Lemma map_flat_map_Forall {C D E} (g : C -> list D) (k : D -> E) (g' : C -> list E) l :
    Forall (fun x => g' x = map k (g x)) l -> flat_map g' l = map k (flat_map g l).
  Proof. induction 1 as [|x l Hx _ IH]; cbn; [reflexivity|]. rewrite map_app, Hx, IH. reflexivity. Qed.
  Lemma postorder_map t : postorder (rose_map f t) = map f (postorder t).
  Proof.
    induction t as [a cs IH] using rose_ind'. cbn. rewrite map_app, flat_map_map'. f_equal.
    apply map_flat_map_Forall, IH.
  Qed.
  Lemma leaves_map t : leaves (rose_map f t) = map f (leaves t).
  Proof.
    induction t as [a cs IH] using rose_ind'. destruct cs as [|c cs]; [reflexivity|].
    change (flat_map leaves (map (rose_map f) (c :: cs)) = map f (flat_map leaves (c :: cs))).
    rewrite flat_map_map'. apply map_flat_map_Forall, IH.
  Qed.
  Lemma height_map t : height (rose_map f t) = height t.
  Proof.
    induction t as [a cs IH] using rose_ind'. cbn. rewrite map_map. f_equal. f_equal.
    induction IH as [|c cs Hc _ IH]; cbn; [reflexivity|]. rewrite Hc, IH. reflexivity.
  Qed.
  Lemma rsize_map t : rsize (rose_map f t) = rsize t.
  Proof. rewrite <- !length_preorder, preorder_map, map_length. reflexivity. Qed.
  Lemma row_map d : forall t, row d (rose_map f t) = map (rose_map f) (row d t).
  Proof.
    induction d as [|d IH]; intros t; [reflexivity|]. rewrite !row_S, children_map, flat_map_map'.
    apply map_flat_map_Forall. apply Forall_elem. intros c _. apply IH.
  Qed.
  Lemma levelorder_map t : levelorder (rose_map f t) = map f (levelorder t).
  Proof.
    unfold levelorder. rewrite height_map. apply map_flat_map_Forall, Forall_elem. intros d _.
    rewrite row_map, !map_map. apply map_ext. intros s. apply label_map.
  Qed.
  Lemma inorder_map t : inorder (bin_map f t) = map f (inorder t).
  Proof. induction t as [|a l IHl r IHr]; cbn; [reflexivity|]. rewrite map_app, IHl, IHr. reflexivity. Qed.
  Lemma bin_size_map t : bin_size (bin_map f t) = bin_size t.
  Proof. induction t as [|a l IHl r IHr]; cbn; [reflexivity|]. rewrite IHl, IHr. reflexivity. Qed.
  Lemma bin_forest_map' t : bin_forest (bin_map f t) = map (rose_map f) (bin_forest t).
  Proof. induction t as [|a l IHl r IHr]; [reflexivity|]. cbn. rewrite IHl, IHr, map_app. reflexivity. Qed.
End Maps.

(** Everything an order needs for the theorems. *)
Record full_order (F : nat) (nav : navigator) (k : kind) (L : list addr) : Prop := FullOrder {
  fo_state : exists St, order_steps F nav k L St /\ order_first F nav k L St /\ order_back F nav k L St /\
               order_last F nav k L St /\ order_init F nav k L St
}.
(** Forward only (leaves). *)
Record fwd_order (F : nat) (nav : navigator) (k : kind) (L : list addr) : Prop := FwdOrder {
  wo_state : exists St, order_steps F nav k L St /\ order_first F nav k L St /\
               (exists o, initial_open F nav k None = Ok o /\ St None o)
}.
Lemma full_fwd F nav k L : full_order F nav k L -> fwd_order F nav k L.
Proof.
  intros [(St & Hs & Hf & _ & _ & Hi)]. split. exists St. split; [exact Hs|]. split; [exact Hf|].
  apply Hi. left. reflexivity.
Qed.

Section Generic.
  Context {V Nd : Type}.
  Variable F : nat.
  Variable im : node_impl V Nd.
  Variable h : gmap addr Nd.
  Notation mk := (tree_nav im h).
  Variable r : addr.
  Variable k : kind.
  Variable l : list (addr * V).        (* the sequence, with values *)
  Notation L := (map fst l).
  Hypothesis Hval : forall x, x ∈ l -> ni_value im h (Some (fst x)) = Ok (snd x).
  Hypothesis Hnd : NoDup L.

  (** The value stored at an address of the sequence. *)
  Fixpoint find (a : addr) (m : list (addr * V)) : option (addr * V) :=
    match m with [] => None | x :: m => if decide (fst x = a) then Some x else find a m end.
  Lemma find_in (m : list (addr * V)) x : NoDup (map fst m) -> x ∈ m -> find (fst x) m = Some x.
  Proof.
    clear. induction m as [|y m IH]; intros Hnd Hx; [apply elem_of_nil in Hx; tauto|]. cbn in *.
    apply NoDup_cons in Hnd as [Hy Hnd]. apply elem_of_cons in Hx as [->|Hx].
    - rewrite decide_True by reflexivity. reflexivity.
    - rewrite decide_False; [apply IH; assumption|]. intros He. apply Hy. rewrite He.
      apply elem_of_list_fmap. eauto.
  Qed.
  Lemma map_find (d : addr * V) (m : list (addr * V)) : (forall x, x ∈ m -> x ∈ l) ->
    map (fun a => default d (find a l)) (map fst m) = m.
  Proof.
    induction m as [|x m IH]; intros Hm; cbn; [reflexivity|].
    rewrite find_in by (auto; apply Hm; set_solver +). cbn. f_equal. apply IH. intros y Hy. apply Hm. set_solver +Hy.
  Qed.
  Lemma visit_find (d : addr * V) x : x ∈ L -> visit im h (Some x) = Ok (default d (find x l)).
  Proof.
    intros Hx. apply elem_of_list_fmap in Hx as (y & -> & Hy). rewrite find_in by assumption. cbn [visit default].
    rewrite Hval by exact Hy. cbn. destruct y; reflexivity.
  Qed.

  Hypothesis HF : length l < F.

  Lemma iterate_fwd : fwd_order F (mk (Some r)) k L -> iterate F im h k (Some r) = Ok l.
  Proof.
    intros [(St & Hs & Hf & (o & Ho & Ho2))]. unfold iterate, tree_begin, tree_end, it_end, get_instance, fix_navigator_root.
    cbn [mbind res_bind].
    unfold initial_open in Ho. rewrite Ho. cbn [mbind res_bind].
    set (e := Iter k None (Some r) o None).
    assert (He : at_pos r k St None e) by (split; cbn; auto).
    destruct (incr_end F mk r k L St Hf e He) as (b & Hb & Hb2 & _).
    change (it_incr F mk e) with (it_incr F mk e) in Hb. rewrite Hb. cbn [mbind res_bind].
    destruct l as [|d l'] eqn:El.
    { cbn in Hb2. destruct F; [cbn in HF; lia|]. cbn [walk]. rewrite (at_pos_eqb _ _ _ _ _ _ _ Hb2 He), ptr_eqb_true. reflexivity. }
    rewrite <- El in *.
    unfold incr. rewrite (walk_at F mk r k L St Hs (visit im h) (fun a => default d (find a l)) (visit_find d) L [] b e F eq_refl Hb2 He)
      by (rewrite map_length; lia).
    f_equal. apply map_find. auto.
  Qed.
  Lemma iterate_back_full : full_order F (mk (Some r)) k L -> iterate_back F im h k (Some r) = Ok (rev l).
  Proof.
    intros [(St & Hs & Hf & Hb & Hl & Hi)]. unfold iterate_back.
    destruct (begin_at F mk r k L St Hf Hi) as (b & -> & Hbp & _).
    destruct (end_at F mk r k L St Hi) as (e & -> & He & _). cbn [mbind res_bind].
    destruct l as [|d l'] eqn:El.
    { cbn in Hbp. destruct F; [cbn in HF; lia|]. cbn [rwalk]. rewrite (at_pos_eqb _ _ _ _ _ _ _ He Hbp), ptr_eqb_true. reflexivity. }
    rewrite <- El in *.
    unfold decr. rewrite (rwalk_at F mk r k L St Hs Hf (visit im h) (fun a => default d (find a l)) (visit_find d) Hb Hl L [] e b F).
    - f_equal. rewrite <- map_rev. apply map_find. intros x. rewrite elem_of_list_In, <- in_rev, <- elem_of_list_In. auto.
    - rewrite app_nil_r. reflexivity.
    - exact He.
    - exact Hbp.
    - rewrite map_length. lia.
  Qed.
  Lemma iterate_filtered_fwd p : fwd_order F (mk (Some r)) k L ->
    iterate_filtered F im h p k (Some r) = Ok (List.filter (fun x => p (snd x)) l).
  Proof.
    intros [(St & Hs & Hf & (o & Ho & Ho2))]. unfold iterate_filtered, tree_begin, tree_end, it_end, get_instance, fix_navigator_root.
    cbn [mbind res_bind].
    unfold initial_open in Ho. rewrite Ho. cbn [mbind res_bind].
    set (e := Iter k None (Some r) o None).
    assert (He : at_pos r k St None e) by (split; cbn; auto).
    destruct (incr_end F mk r k L St Hf e He) as (b & Hb & Hb2 & _).
    rewrite Hb. cbn [mbind res_bind].
    destruct l as [|d l'] eqn:El.
    { cbn in Hb2. unfold filter_make. rewrite (ap_cur _ _ _ _ _ Hb2), (ap_cur _ _ _ _ _ He). cbn [mbind res_bind].
      destruct F; [cbn in HF; lia|]. cbn [walk]. rewrite (at_pos_eqb _ _ _ _ _ _ _ Hb2 He), ptr_eqb_true. reflexivity. }
    rewrite <- El in *.
    rewrite (filter_loop F mk r k L St Hs (vpred im h p) (fun a => p (snd (default d (find a l))))) 
      with (l1 := []) (l2 := L) (A := (addr * V)%type) (vis := visit im h) (val := fun a => default d (find a l)); auto.
    - f_equal. clear - Hnd. 
      assert (Hg : forall m, (forall x, x ∈ m -> x ∈ l) ->
        map (fun a => default d (find a l)) (List.filter (fun a => p (snd (default d (find a l)))) (map fst m)) =
        List.filter (fun x => p (snd x)) m).
      { induction m as [|x m IH]; intros Hm; cbn; [reflexivity|].
        rewrite !find_in by (auto; apply Hm; set_solver +). cbn.
        destruct (p (snd x)); cbn; [rewrite find_in by (auto; apply Hm; set_solver +); cbn; f_equal|];
          apply IH; intros y Hy; apply Hm; set_solver +Hy. }
      apply Hg. auto.
    - intros x Hx. apply elem_of_list_fmap in Hx as (y & -> & Hy). rewrite find_in by assumption. cbn [default]. unfold vpred.
      rewrite Hval by exact Hy. reflexivity.
    - apply visit_find.
    - rewrite map_length. lia.
    - rewrite map_length. lia.
  Qed.

  (** Positions: any sequence of moves is on the position arithmetic says, and
      the iterator there is the one that would be created there. *)
  Lemma position_moves n ms : forall i, position n ms i = moves n ms i.
  Proof. induction ms as [|[] ms IH]; intros i; cbn; [reflexivity| |]. { destruct (i =? n); apply IH. } destruct i; [reflexivity|apply IH]. Qed.
  Lemma run_run_moves ms : forall it, run F im h ms it = run_moves F mk ms it.
  Proof.
    induction ms as [|[] ms IH]; intros it; cbn [run run_moves]; [reflexivity| |]; unfold incr, decr.
    - destruct (it_incr F mk it); cbn; [apply IH|reflexivity].
    - destruct (it_decr F mk it); cbn; [apply IH|reflexivity].
  Qed.
  Lemma nth_ptr i : (nth_error L i = None \/ exists x, nth_error L i = Some x /\ x ∈ L).
  Proof.
    destruct (nth_error L i) as [x|] eqn:E; [right|left; reflexivity]. exists x. split; [reflexivity|].
    apply elem_of_list_In. eapply nth_error_In, E.
  Qed.
  Lemma run_full ms i j : full_order F (mk (Some r)) k L -> i <= length l -> position (length l) ms i = Some j ->
    j <= length l /\
    exists it it' it2, iterator_at F im h k (nth_addr l i) (Some r) = Ok it /\ run F im h ms it = Ok it' /\
      it_cur it' = nth_addr l j /\
      iterator_at F im h k (nth_addr l j) (Some r) = Ok it2 /\ same_iter it' it2.
  Proof.
    intros [(St & Hs & Hf & Hb & Hl & Hi)] Hlen Hpos. unfold iterator_at, nth_addr.
    destruct (instance_at F mk r k L St _ Hi (nth_ptr i)) as (it & Hit & Hat & _).
    rewrite position_moves in Hpos. rewrite <- (map_length fst l) in Hpos, Hlen |- *.
    destruct (run_moves_ok F mk r k L St Hs Hf (fun _ => Ok ()) (fun _ => ()) (fun _ _ => eq_refl) Hb Hl ms i it j Hlen Hat Hpos) as (Hj & it' & Hrun & Hat' & _).
    split; [exact Hj|].
    destruct (instance_at F mk r k L St _ Hi (nth_ptr j)) as (it2 & Hit2 & Hat2 & _).
    exists it, it', it2. split; [exact Hit|]. split; [rewrite run_run_moves; exact Hrun|].
    split; [apply (ap_cur _ _ _ _ _ Hat')|]. split; [exact Hit2|].
    destruct Hat' as [A1 A2 A3 A4], Hat2 as [B1 B2 B3 B4]. split; [congruence|]. split; [congruence|]. split; [congruence|].
    eapply (os_fun _ _ _ _ _ Hs); eassumption.
  Qed.
  Lemma begin_is_first : full_order F (mk (Some r)) k L ->
    exists b it, tree_begin F mk k (Some r) = Ok b /\ iterator_at F im h k (nth_addr l 0) (Some r) = Ok it /\ same_iter b it.
  Proof.
    intros [(St & Hs & Hf & Hb & Hl & Hi)]. unfold iterator_at, nth_addr.
    destruct (begin_at F mk r k L St Hf Hi) as (b & Hbb & Hbp & _).
    destruct (instance_at F mk r k L St _ Hi (nth_ptr 0)) as (it & Hit & Hat & _).
    exists b, it. split; [exact Hbb|]. split; [exact Hit|].
    replace (head L) with (nth_error L 0) in Hbp by (destruct l; reflexivity).
    destruct Hbp as [A1 A2 A3 A4], Hat as [B1 B2 B3 B4]. split; [congruence|]. split; [congruence|]. split; [congruence|].
    eapply (os_fun _ _ _ _ _ Hs); eassumption.
  Qed.
  (** Forward from any element. *)
  Lemma iterate_from_full i : full_order F (mk (Some r)) k L -> i <= length l ->
    exists it, iterator_at F im h k (nth_addr l i) (Some r) = Ok it /\ iterate_from F im h it k (Some r) = Ok (skipn i l).
  Proof.
    intros [(St & Hs & Hf & Hb & Hl & Hi)] Hle. unfold iterator_at, nth_addr, iterate_from.
    destruct (instance_at F mk r k L St _ Hi (nth_ptr i)) as (it & Hit & Hat & _). exists it. split; [exact Hit|].
    destruct (end_at F mk r k L St Hi) as (e & -> & He & _). cbn [mbind res_bind].
    assert (HL : L = map fst (take i l) ++ map fst (skipn i l)) by (rewrite <- map_app, take_drop; reflexivity).
    assert (Hh : nth_error L i = head (map fst (skipn i l))).
    { rewrite HL, nth_error_app2; rewrite map_length, take_length; [|lia]. replace (i - min i (length l)) with 0 by lia.
      destruct (map fst (skipn i l)); reflexivity. }
    rewrite Hh in Hat.
    destruct l as [|d l'] eqn:El.
    { rewrite drop_nil in Hat |- *. cbn in Hat. destruct F; [cbn in HF; lia|]. cbn [walk].
      rewrite (at_pos_eqb _ _ _ _ _ _ _ Hat He), ptr_eqb_true. reflexivity. }
    rewrite <- El in *.
    unfold incr. rewrite (walk_at F mk r k L St Hs (visit im h) (fun a => default d (find a l)) (visit_find d)
       (map fst (skipn i l)) (map fst (take i l)) it e F HL Hat He).
    - f_equal. apply map_find. intros x Hx. rewrite <- (take_drop i l). apply elem_of_app. right. exact Hx.
    - rewrite map_length, drop_length. lia.
  Qed.
End Generic.
