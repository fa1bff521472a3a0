(** NaryOps2.v: releasing, counting and comparing n-ary nodes in the heap; arity
    of both kinds of trees. *)
From Verif Require Import Base Spec StructNode LitFacts BinaryNode NaryNode Nav Policy Tree RoseFacts RowFacts
  NavFacts BinOrder Rep BinRep BinOps NaryRep NaryOps.

Global Instance rose_eq_dec {A} `{EqDecision A} : EqDecision (rose A).
Proof.
  refine (fix go (x y : rose A) : Decision (x = y) :=
    match x, y with
    | Rose a cs, Rose b ds =>
        match decide (a = b) with
        | left Ha => match (list_eq_dec (dec := go)) cs ds with left Hc => left _ | right Hc => right _ end
        | right Ha => right _
        end
    end); congruence.
Defined.

Lemma W64_pos : (W64 <> 0)%N.
Proof. unfold W64. lia. Qed.
Lemma szt_small n : (N.of_nat n < W64)%N -> szt n = N.of_nat n.
Proof. intros Hn. apply N.mod_small, Hn. Qed.
Lemma szt_succ n : wadd (szt n) 1 = szt (S n).
Proof. unfold wadd, szt. rewrite N.add_mod_idemp_l by apply W64_pos. f_equal. lia. Qed.
Lemma szt_pred n : wsub (szt (S n)) 1 = szt n.
Proof.
  unfold wsub, szt.
  assert (H1 : (1 mod W64 = 1)%N) by reflexivity. rewrite H1.
  rewrite N.add_mod_idemp_l by apply W64_pos.
  replace (N.of_nat (S n) + (W64 - 1))%N with (N.of_nat n + 1 * W64)%N by (unfold W64; lia).
  apply N.mod_add, W64_pos.
Qed.

Section NaryOps2.
  Context {V : Type} `{EqDecision V}.
  Notation heap := (gmap addr (nnode V)).
  Notation tree := (rose (addr * V)).
  Implicit Types (t s u : tree) (cs ls rs : list tree).

  Lemma fsize_cons (c : tree) l : fsize (c :: l) = rsize c + fsize l.
  Proof. reflexivity. Qed.
  Lemma rsize_rose (a : addr * V) cs : rsize (Rose a cs) = S (fsize cs).
  Proof. reflexivity. Qed.

  (** *** Release *)
  Lemma n_deallocate_seg : forall fuel h par prev l,
    nseg h par prev l None 0 -> NoDup (faddrs l) -> fsize l < fuel ->
    exists h', deallocate (nary_impl V) fuel h (first_or l None) = Ok h' /\
      forall x, h' !! x = if bool_decide (x ∈ faddrs l) then None else h !! x.
  Proof.
    induction fuel as [|fuel IH]; intros h par prev l Hs Hnd Hf; [lia|].
    destruct l as [|[[a v] cs] l].
    - exists h. split; [reflexivity|]. intros x. rewrite bool_decide_eq_false_2; [reflexivity|apply not_elem_of_nil].
    - cbn [nseg] in Hs. destruct Hs as [Hc Hl]. rewrite nrep_unfold in Hc. destruct Hc as [Ha Hcs].
      rewrite fsize_cons, rsize_rose in Hf. rewrite faddrs_cons, raddrs_rose in Hnd. cbn [app] in Hnd.
      apply NoDup_cons in Hnd as [Hna Hnd]. apply NoDup_app in Hnd as (Hndc & Hd & Hndl).
      cbn [first_or raddr label fst deallocate ni_resources nary_impl]. unfold n_resources.
      rewrite (deref_Some _ _ _ Ha). cbn [mbind res_bind nfirst nnext foldl].
      destruct (IH h _ _ cs Hcs Hndc ltac:(lia)) as (h1 & -> & H1). cbn [mbind res_bind].
      assert (Hl1 : nseg h1 par (Some a) l None 0).
      { eapply nseg_ext; [|exact Hl]. intros x Hx. rewrite H1, bool_decide_eq_false_2; [reflexivity|].
        intros Hx'. exact (Hd x Hx' Hx). }
      destruct (IH h1 _ _ l Hl1 Hndl ltac:(lia)) as (h2 & -> & H2). cbn [mbind res_bind].
      rewrite H2, bool_decide_eq_false_2 by set_solver +Hna. rewrite H1, bool_decide_eq_false_2 by set_solver +Hna.
      rewrite Ha. eexists. split; [reflexivity|]. intros x. rewrite faddrs_cons, raddrs_rose. cbn [app].
      destruct (decide (x = a)) as [->|Hxa].
      { rewrite lookup_delete, bool_decide_eq_true_2 by set_solver +. reflexivity. }
      rewrite lookup_delete_ne by congruence. rewrite H2, H1.
      destruct (decide (x ∈ faddrs l)) as [Hxr|Hxr]; [rewrite !bool_decide_eq_true_2 by set_solver +Hxr; reflexivity|].
      rewrite (bool_decide_eq_false_2 (x ∈ faddrs l)) by exact Hxr.
      destruct (decide (x ∈ faddrs cs)) as [Hxl|Hxl]; [rewrite !bool_decide_eq_true_2 by set_solver +Hxl; reflexivity|].
      rewrite !bool_decide_eq_false_2 by set_solver +Hxa Hxl Hxr. reflexivity.
  Qed.
  Lemma n_deallocate_ok t fuel h par prev :
    nrep h par prev None (szt 0) t -> NoDup (raddrs t) -> rsize t < fuel ->
    exists h', deallocate (nary_impl V) fuel h (Some (raddr t)) = Ok h' /\
      forall x, h' !! x = if bool_decide (x ∈ raddrs t) then None else h !! x.
  Proof.
    intros Hr Hnd Hf. destruct (n_deallocate_seg fuel h par prev [t]) as (h' & Hd & Hx).
    - cbn. auto.
    - cbn. rewrite app_nil_r. exact Hnd.
    - cbn. lia.
    - exists h'. split; [exact Hd|]. intros x. rewrite Hx. cbn. rewrite app_nil_r. reflexivity.
  Qed.

  (** *** Counting *)
  Lemma n_size_loop_ok : forall fuel (h : heap) par prev (l : list tree) m,
    nseg h par prev l None 0 -> fsize l < fuel ->
    n_size_loop fuel h (first_or l None) (szt m) = Ok (szt (m + fsize l)).
  Proof.
    induction fuel as [|fuel IH]; intros h par prev l m Hs Hf; [lia|].
    destruct l as [|[[a v] cs] l].
    - cbn. rewrite Nat.add_0_r. reflexivity.
    - cbn [nseg] in Hs. destruct Hs as [Hc Hl]. rewrite nrep_unfold in Hc. destruct Hc as [Ha Hcs].
      rewrite fsize_cons, rsize_rose in Hf |- *.
      cbn [first_or raddr label fst n_size_loop]. unfold n_first, n_next. rewrite !(deref_Some _ _ _ Ha).
      cbn [mbind res_bind nfirst nnext].
      change 1%N with (szt 1). rewrite (IH h _ _ cs 1 Hcs) by lia. cbn [mbind res_bind].
      replace (wadd (szt m) (szt (1 + fsize cs))) with (szt (m + (1 + fsize cs))).
      2:{ unfold wadd, szt. rewrite <- N.add_mod by apply W64_pos. f_equal. lia. }
      rewrite (IH h _ _ l _ Hl) by lia. f_equal. f_equal. lia.
  Qed.
  Lemma n_calculate_size_ok t fuel h par prev next fs :
    nrep h par prev next fs t -> rsize t <= fuel ->
    n_calculate_size fuel h (Some (raddr t)) = Ok (szt (rsize t)).
  Proof.
    destruct t as [[a v] cs]. rewrite nrep_unfold. intros [Ha Hs] Hf. rewrite rsize_rose in Hf |- *.
    unfold n_calculate_size, n_first. cbn [raddr label fst]. rewrite (deref_Some _ _ _ Ha). cbn [mbind res_bind nfirst].
    change 1%N with (szt 1). rewrite (n_size_loop_ok _ _ _ _ _ _ Hs) by lia. reflexivity.
  Qed.

  (** *** Number of children *)
  Lemma n_children_ok h par prev next fs a v cs :
    nrep h par prev next fs (Rose (a, v) cs) -> n_children h (Some a) = Ok (szt (length cs)).
  Proof.
    rewrite nrep_unfold. intros [Ha Hs]. unfold n_children. rewrite (deref_Some _ _ _ Ha). cbn [mbind res_bind nfirst].
    destruct cs as [|c cs]; cbn [first_or]; [reflexivity|]. cbn [nseg] in Hs. destruct Hs as [Hc _].
    rewrite (deref_Some _ _ _ (nrep_root _ _ _ _ _ _ Hc)). cbn [mbind res_bind nfsize].
    rewrite Nat.add_0_r, szt_succ. reflexivity.
  Qed.

  (** *** Comparison of two n-ary chains *)
  Lemma fsize_length l : length l <= fsize (V := V) l.
  Proof. induction l as [|c l IH]; [cbn; lia|]. rewrite fsize_cons. cbn [length]. pose proof (rsize_pos c). lia. Qed.
  Lemma n_eq_seg : forall fuel (h1 h2 : heap) (c : tree) l (d : tree) m p1 q1 p2 q2,
    nseg h1 p1 q1 (c :: l) None 0 -> nseg h2 p2 q2 (d :: m) None 0 -> length l = length m ->
    fsize (c :: l) <= fuel -> (N.of_nat (fsize (c :: l)) < W64)%N -> (N.of_nat (fsize (d :: m)) < W64)%N ->
    n_eq fuel h1 h2 (Some (raddr c)) (Some (raddr d)) =
      Ok (bool_decide (map (rose_map snd) (c :: l) = map (rose_map snd) (d :: m))).
  Proof.
    induction fuel as [|fuel IH]; intros h1 h2 c l d m p1 q1 p2 q2 Hs1 Hs2 Hlen Hf HW1 HW2.
    { rewrite fsize_cons in Hf. pose proof (rsize_pos c). lia. }
    destruct c as [[a v] cs], d as [[b w] ds]. cbn [nseg] in Hs1, Hs2.
    destruct Hs1 as [Hc Hl]. destruct Hs2 as [Hd Hm].
    rewrite fsize_cons, rsize_rose in Hf, HW1, HW2.
    cbn [raddr label fst] in *. cbn [n_eq]. rewrite (n_children_ok _ _ _ _ _ _ _ _ Hc), (n_children_ok _ _ _ _ _ _ _ _ Hd).
    rewrite nrep_unfold in Hc, Hd. destruct Hc as [Ha Hcs]. destruct Hd as [Hb Hds].
    pose proof (fsize_length cs). pose proof (fsize_length ds).
    cbn [mbind res_bind]. rewrite !szt_small by lia.
    destruct (N.eqb_spec (N.of_nat (length cs)) (N.of_nat (length ds))) as [Hk|Hk]; cbn [negb].
    2:{ rewrite bool_decide_eq_false_2; [reflexivity|]. cbn. intros [=_ Heq _]. apply Hk.
        rewrite <- (map_length (rose_map snd) cs), Heq, map_length. reflexivity. }
    rewrite (deref_Some _ _ _ Ha), (deref_Some _ _ _ Hb). cbn [mbind res_bind nval nfirst nnext].
    destruct (decide (v = w)) as [->|Hvw].
    2:{ rewrite (bool_decide_eq_false_2 (v = w)) by exact Hvw. cbn [negb].
        rewrite bool_decide_eq_false_2; [reflexivity|]. cbn. congruence. }
    rewrite (bool_decide_eq_true_2 (w = w)) by reflexivity. cbn [negb].
    assert (Hsub : forall x1 x2 P1 Q1 P2 Q2, nseg h1 P1 Q1 x1 None 0 -> nseg h2 P2 Q2 x2 None 0 -> length x1 = length x2 ->
              fsize x1 <= fuel -> (N.of_nat (fsize x1) < W64)%N -> (N.of_nat (fsize x2) < W64)%N ->
              (if is_null (first_or x1 None) then Ok true else n_eq fuel h1 h2 (first_or x1 None) (first_or x2 None)) =
              Ok (bool_decide (map (rose_map snd) x1 = map (rose_map snd) x2))).
    { intros [|x x1] [|y x2] P1 Q1 P2 Q2 H1 H2 Hl12 Hf1 HWx HWy; cbn in Hl12; try discriminate.
      - cbn. rewrite bool_decide_eq_true_2; reflexivity.
      - cbn [first_or is_null]. eapply IH; try eassumption. lia. }
    rewrite (Hsub cs ds _ _ _ _ Hcs Hds) by lia. cbn [mbind res_bind].
    destruct (decide (map (rose_map snd) cs = map (rose_map snd) ds)) as [Ec|Ec].
    2:{ rewrite (bool_decide_eq_false_2 (map _ cs = _)) by exact Ec. cbn [negb].
        rewrite bool_decide_eq_false_2; [reflexivity|]. cbn. congruence. }
    rewrite (bool_decide_eq_true_2 (map _ cs = _)) by exact Ec. cbn [negb].
    rewrite (Hsub l m _ _ _ _ Hl Hm) by lia. cbn [mbind res_bind].
    destruct (decide (map (rose_map snd) l = map (rose_map snd) m)) as [El|El].
    - rewrite (bool_decide_eq_true_2 (map _ l = _)) by exact El. cbn [negb].
      rewrite bool_decide_eq_true_2; [reflexivity|]. cbn. congruence.
    - rewrite (bool_decide_eq_false_2 (map _ l = _)) by exact El. cbn [negb].
      rewrite bool_decide_eq_false_2; [reflexivity|]. cbn. congruence.
  Qed.
  Lemma bool_decide_iff' (P Q : Prop) `{Decision P, Decision Q} : (P <-> Q) -> bool_decide P = bool_decide Q.
  Proof. apply bool_decide_ext. Qed.
  Lemma n_eq_ok fuel (h1 h2 : heap) t u p1 q1 p2 q2 :
    nrep h1 p1 q1 None (szt 0) t -> nrep h2 p2 q2 None (szt 0) u ->
    rsize t <= fuel -> (N.of_nat (rsize t) < W64)%N -> (N.of_nat (rsize u) < W64)%N ->
    n_eq fuel h1 h2 (Some (raddr t)) (Some (raddr u)) = Ok (bool_decide (rose_map snd t = rose_map snd u)).
  Proof.
    intros Ht Hu Hf HW1 HW2. erewrite (n_eq_seg fuel h1 h2 t [] u []); cbn; eauto; try lia.
    f_equal. apply bool_decide_ext. split; [intros [=Heq]; exact Heq|congruence].
  Qed.

  (** *** Comparison of an n-ary chain with what a binary heap answers *)
  Lemma n_eq_binary_seg bh : forall fuel (h : heap) (c : tree) l (d : tree) m p q,
    nseg h p q (c :: l) None 0 -> answers bh fuel (d :: m) -> length l = length m ->
    fsize (c :: l) <= fuel -> (N.of_nat (fsize (c :: l)) < W64)%N ->
    n_eq_binary fuel h bh (Some (raddr c)) (Some (raddr d)) =
      Ok (bool_decide (map (rose_map snd) (c :: l) = map (rose_map snd) (d :: m))).
  Proof.
    induction fuel as [|fuel IH]; intros h c l d m p q Hs1 Hs2 Hlen Hf HW1; [discriminate|].
    destruct c as [[a v] cs], d as [[b w] ds]. cbn [nseg] in Hs1.
    destruct Hs1 as [Hc Hl]. cbn [answers] in Hs2. destruct Hs2 as (Hv & _ & Hch & Hnx & Hfc & Hds & Hm).
    rewrite fsize_cons, rsize_rose in Hf, HW1.
    cbn [raddr label fst] in *. cbn [n_eq_binary]. rewrite (n_children_ok _ _ _ _ _ _ _ _ Hc), Hch.
    rewrite nrep_unfold in Hc. destruct Hc as [Ha Hcs].
    pose proof (fsize_length cs).
    cbn [mbind res_bind]. rewrite !szt_small by lia.
    destruct (N.eqb_spec (N.of_nat (length cs)) (N.of_nat (length ds))) as [Hk|Hk]; cbn [negb].
    2:{ rewrite bool_decide_eq_false_2; [reflexivity|]. cbn. intros [=_ Heq _]. apply Hk.
        rewrite <- (map_length (rose_map snd) cs), Heq, map_length. reflexivity. }
    rewrite (deref_Some _ _ _ Ha), Hv. cbn [mbind res_bind nval nfirst nnext].
    destruct (decide (v = w)) as [->|Hvw].
    2:{ rewrite (bool_decide_eq_false_2 (v = w)) by exact Hvw. cbn [negb].
        rewrite bool_decide_eq_false_2; [reflexivity|]. cbn. congruence. }
    rewrite (bool_decide_eq_true_2 (w = w)) by reflexivity. cbn [negb].
    rewrite Hfc, Hnx. cbn [mbind res_bind].
    assert (Hsub : forall x1 x2 P1 Q1, nseg h P1 Q1 x1 None 0 -> answers bh fuel x2 -> length x1 = length x2 ->
              fsize x1 <= fuel -> (N.of_nat (fsize x1) < W64)%N ->
              (if is_null (first_or x1 None) then Ok true else n_eq_binary fuel h bh (first_or x1 None) (first_or x2 None)) =
              Ok (bool_decide (map (rose_map snd) x1 = map (rose_map snd) x2))).
    { intros [|x x1] [|y x2] P1 Q1 H1 H2 Hl12 Hf1 HWx; cbn in Hl12; try discriminate.
      - cbn. rewrite bool_decide_eq_true_2; reflexivity.
      - cbn [first_or is_null]. eapply IH; try eassumption. lia. }
    rewrite (Hsub cs ds _ _ Hcs Hds) by lia. cbn [mbind res_bind].
    destruct (decide (map (rose_map snd) cs = map (rose_map snd) ds)) as [Ec|Ec].
    2:{ rewrite (bool_decide_eq_false_2 (map _ cs = _)) by exact Ec. cbn [negb].
        rewrite bool_decide_eq_false_2; [reflexivity|]. cbn. congruence. }
    rewrite (bool_decide_eq_true_2 (map _ cs = _)) by exact Ec. cbn [negb].
    rewrite (Hsub l m _ _ Hl Hm) by lia. cbn [mbind res_bind].
    destruct (decide (map (rose_map snd) l = map (rose_map snd) m)) as [El|El].
    - rewrite (bool_decide_eq_true_2 (map _ l = _)) by exact El. cbn [negb].
      rewrite bool_decide_eq_true_2; [reflexivity|]. cbn. congruence.
    - rewrite (bool_decide_eq_false_2 (map _ l = _)) by exact El. cbn [negb].
      rewrite bool_decide_eq_false_2; [reflexivity|]. cbn. congruence.
  Qed.

  (** *** Comparison with a literal *)
  Lemma lit_rose_len (ls : list (lit V)) : Forall no_empty ls -> length (flat_map lit_rose ls) = length ls.
  Proof.
    induction 1 as [|c cs Hc _ IH]; [reflexivity|]. destruct c as [|cv ccs]; [destruct Hc|]. cbn. rewrite IH. reflexivity.
  Qed.
  Lemma n_eq_struct_seg (s : snode V) : forall (x : lit V) (ls : list (lit V)) (h : heap) (c : tree) l p q,
    reads s (x :: ls) -> Forall no_empty (x :: ls) ->
    nseg h p q (c :: l) None 0 -> length l = length ls -> (N.of_nat (fsize (c :: l)) < W64)%N ->
    n_eq_struct h (Some (raddr c)) s =
      Ok (bool_decide (map (rose_map snd) (c :: l) = flat_map lit_rose (x :: ls))).
  Proof.
    induction s as [|sv lv i fc IHf ns IHn]; intros x ls h c l p q Hr Hne Hs Hlen HW; [destruct Hr|].
    inversion Hne as [|? ? Hx Hls]; subst.
    destruct sv as [sv|], x as [|xv xs]; [destruct Hr| |destruct Hx|destruct Hr].
    pose proof (s_children_ok _ _ _ _ Hr) as Hch. cbn [reads] in Hr. destruct Hr as (-> & Hf & Hn).
    apply no_empty_cons in Hx. rewrite (lit_rose_len _ Hx) in Hch.
    destruct c as [[a v] cs]. cbn [nseg] in Hs. destruct Hs as [Hc Hl]. rewrite fsize_cons, rsize_rose in HW.
    pose proof (fsize_length cs).
    cbn [n_eq_struct raddr label fst] in *. rewrite (n_children_ok _ _ _ _ _ _ _ _ Hc), Hch.
    rewrite nrep_unfold in Hc. destruct Hc as [Ha Hcs].
    cbn [mbind res_bind]. rewrite szt_small by lia.
    destruct (N.eqb_spec (N.of_nat (length cs)) (N.of_nat (length xs))) as [Hk|Hk]; cbn [negb].
    2:{ rewrite bool_decide_eq_false_2; [reflexivity|]. cbn. intros [=_ Heq _]. apply Hk.
        rewrite <- (map_length (rose_map snd) cs), Heq, lit_rose_len by exact Hx. reflexivity. }
    rewrite (deref_Some _ _ _ Ha). cbn [mbind res_bind nval nfirst nnext].
    destruct (decide (v = xv)) as [->|Hvw].
    2:{ rewrite (bool_decide_eq_false_2 (v = xv)) by exact Hvw. cbn [negb].
        rewrite bool_decide_eq_false_2; [reflexivity|]. cbn. congruence. }
    rewrite (bool_decide_eq_true_2 (xv = xv)) by reflexivity. cbn [negb].
    assert (HC : (match fc with SNil => Ok true | _ => if is_empty_node fc then Ok false else n_eq_struct h (first_or cs None) fc end)
                 = Ok (bool_decide (map (rose_map snd) cs = flat_map lit_rose xs))).
    { destruct xs as [|y xs], cs as [|d cs]; cbn [length] in Hk; try lia.
      - destruct fc as [|[?|] ? ? ? ?]; [|destruct Hf|destruct Hf]. rewrite bool_decide_eq_true_2; reflexivity.
      - destruct fc as [|fv fl fi ffc fns]; [destruct Hf|].
        assert (He : is_empty_node (SN fv fl fi ffc fns) = false).
        { inversion Hx as [|? ? Hy _]; subst. destruct fv, y; cbn in Hf, Hy |- *; tauto. }
        rewrite He. cbn [first_or]. eapply IHf; [exact Hf|exact Hx|exact Hcs|lia|lia]. }
    assert (HN : (match ns with SNil => Ok true | _ => if is_empty_node ns then Ok false else n_eq_struct h (first_or l None) ns end)
                 = Ok (bool_decide (map (rose_map snd) l = flat_map lit_rose ls))).
    { destruct ls as [|y ls], l as [|d l]; cbn [length] in Hlen; try lia.
      - destruct ns as [|[?|] ? ? ? ?]; [|destruct Hn|destruct Hn]. rewrite bool_decide_eq_true_2; reflexivity.
      - destruct ns as [|fv fl fi ffc fns]; [destruct Hn|].
        assert (He : is_empty_node (SN fv fl fi ffc fns) = false).
        { inversion Hls as [|? ? Hy _]; subst. destruct fv, y; cbn in Hn, Hy |- *; tauto. }
        rewrite He. cbn [first_or]. eapply IHn; [exact Hn|exact Hls|exact Hl|lia|lia]. }
    rewrite HC. cbn [mbind res_bind].
    destruct (decide (map (rose_map snd) cs = flat_map lit_rose xs)) as [Ec|Ec].
    2:{ rewrite (bool_decide_eq_false_2 (map _ cs = _)) by exact Ec. cbn [negb].
        rewrite bool_decide_eq_false_2; [reflexivity|]. cbn. congruence. }
    rewrite (bool_decide_eq_true_2 (map _ cs = _)) by exact Ec. cbn [negb].
    rewrite HN. cbn [mbind res_bind].
    destruct (decide (map (rose_map snd) l = flat_map lit_rose ls)) as [El|El].
    - rewrite (bool_decide_eq_true_2 (map _ l = _)) by exact El. cbn [negb].
      rewrite bool_decide_eq_true_2; [reflexivity|]. cbn. congruence.
    - rewrite (bool_decide_eq_false_2 (map _ l = _)) by exact El. cbn [negb].
      rewrite bool_decide_eq_false_2; [reflexivity|]. cbn. congruence.
  Qed.
  Lemma n_eq_struct_ok (v : V) (xs : list (lit V)) (h : heap) t p q :
    no_empty (LNode v xs) -> nrep h p q None (szt 0) t -> (N.of_nat (rsize t) < W64)%N ->
    n_eq_struct h (Some (raddr t)) (eval_lit (LNode v xs)) =
      Ok (bool_decide ([rose_map snd t] = lit_rose (LNode v xs))).
  Proof.
    intros Hne Ht HW. rewrite (n_eq_struct_seg _ (LNode v xs) [] h t [] p q).
    - reflexivity.
    - apply reads_eval.
    - constructor; [exact Hne|constructor].
    - cbn. auto.
    - reflexivity.
    - rewrite fsize_cons. cbn. lia.
  Qed.

  (** *** What a binary heap answers *)
  Notation btree := (bin (addr * V)).
  Lemma bin_forest_size (b : btree) : fsize (bin_forest b) = bin_size b.
  Proof.
    induction b as [|a l IHl r IHr]; [reflexivity|]. unfold fsize in *. cbn. rewrite map_app, list_sum_app. lia.
  Qed.
  Lemma fsize_app (l1 l2 : list tree) : fsize (l1 ++ l2) = fsize l1 + fsize l2.
  Proof. unfold fsize. rewrite map_app. apply list_sum_app. Qed.
  Lemma first_or_forest (b : btree) q : first_or (bin_forest b) q = match baddr b with Some a => Some a | None => q end.
  Proof. destruct b as [|[a v] l r]; reflexivity. Qed.
  Lemma brep_answers bh (b : btree) : forall par l',
    brep bh par b -> NoDup (baddrs b) ->
    (forall a, baddr b = Some a -> b_following_siblings bh (Some a) = Ok (szt (length l')) /\
                                   b_next bh (Some a) = Ok (first_or l' None)) ->
    (forall fuel, fsize l' <= fuel -> answers bh fuel l') ->
    forall fuel, bin_size b + fsize l' <= fuel -> answers bh fuel (bin_forest b ++ l').
  Proof.
    induction b as [|[a v] l IHl r IHr]; intros par l' Hr Hnd Hown Hl' fuel Hf; [apply Hl'; cbn in Hf; lia|].
    destruct fuel as [|fuel]; [cbn in Hf; lia|]. cbn [bin_size] in Hf.
    cbn [brep] in Hr. destruct Hr as (Ha & Hl & Hr).
    pose proof (NoDup_baddrs_inv _ _ _ _ Hnd) as (Hal & Har & Hndl & Hndr & Hd).
    destruct (Hown a eq_refl) as [Hfol Hnx].
    assert (Hchild : forall x, baddr l = Some x \/ baddr r = Some x -> exists n, bh !! x = Some n /\ bparent n = Some a).
    { intros x Hx. destruct Hx as [Hx|Hx]; apply baddr_root in Hx as (w & ll & lr & ->); cbn in *; eexists;
        (split; [apply Hl || apply Hr|reflexivity]). }
    cbn [bin_forest app answers]. split; [|split; [exact Hfol|split; [|split; [exact Hnx|split; [|split]]]]].
    - unfold b_value. rewrite (deref_Some _ _ _ Ha). reflexivity.
    - unfold b_children. rewrite (deref_Some _ _ _ Ha). cbn. f_equal. rewrite app_length.
      destruct l as [|[? ?] ? ?], r as [|[? ?] ? ?]; reflexivity.
    - unfold b_first. rewrite (deref_Some _ _ _ Ha). cbn. rewrite first_or_app, !first_or_forest.
      destruct (baddr l); [reflexivity|]. destruct (baddr r); reflexivity.
    - (* the children *)
      assert (Hright : forall fuel, bin_size r <= fuel -> answers bh fuel (bin_forest r)).
      { intros f Hfr. rewrite <- (app_nil_r (bin_forest r)). eapply IHr; [exact Hr|exact Hndr| | |cbn; lia].
        - intros x Hx. destruct (Hchild x (or_intror Hx)) as (n & Hn & Hp).
          unfold b_following_siblings, b_next, b_is_left, b_left, b_last.
          rewrite !(deref_Some _ _ _ Hn). cbn [mbind res_bind]. rewrite Hp, !(deref_Some _ _ _ Ha).
          cbn [mbind res_bind bright bleft]. rewrite Hx, ptr_eqb_true. split; [reflexivity|].
          rewrite ptr_eqb_false; [reflexivity|]. intros Heq. symmetry in Heq. apply (Hd x); apply baddr_in; assumption.
        - intros f' _. destruct f'; reflexivity. }
      eapply IHl; [exact Hl|exact Hndl| | |].
      + intros x Hx. destruct (Hchild x (or_introl Hx)) as (n & Hn & Hp).
        unfold b_following_siblings, b_next, b_is_left, b_left, b_last, b_parent, b_right.
        rewrite !(deref_Some _ _ _ Hn). cbn [mbind res_bind]. rewrite Hp, !(deref_Some _ _ _ Ha).
        cbn [mbind res_bind bright bleft]. rewrite Hx, ptr_eqb_true. cbn [mbind res_bind].
        rewrite first_or_forest.
        destruct r as [|[rb rv] rl rr]; cbn [baddr bin_forest length].
        * rewrite ptr_eqb_true. auto.
        * rewrite ptr_eqb_false; [auto|]. intros [=Heq]. apply (Hd x); [apply baddr_in, Hx|].
          rewrite baddrs_node, Heq. set_solver +.
      + intros f Hfr. apply Hright. rewrite bin_forest_size in Hfr. exact Hfr.
      + rewrite bin_forest_size. lia.
    - apply Hl'. lia.
  Qed.
  Lemma bin_at_answers bh (b : btree) fuel :
    brep bh None b -> NoDup (baddrs b) -> bin_size b <= fuel -> answers bh fuel (bin_forest b).
  Proof.
    intros Hr Hnd Hf. rewrite <- (app_nil_r (bin_forest b)). eapply brep_answers; [exact Hr|exact Hnd| | |cbn; lia].
    - intros a Ha. apply baddr_root in Ha as (v & l & r & ->). cbn in Hr. destruct Hr as (Ha & _).
      unfold b_following_siblings, b_next, b_is_left. rewrite !(deref_Some _ _ _ Ha). auto.
    - intros f _. destruct f; reflexivity.
  Qed.

  Lemma rose_map_map {A B C} (f : A -> B) (g : B -> C) (t : rose A) : rose_map g (rose_map f t) = rose_map (fun x => g (f x)) t.
  Proof.
    induction t as [a cs IH] using rose_ind'. cbn. f_equal. rewrite map_map.
    induction IH as [|c cs Hc _ IH]; cbn; [reflexivity|]. rewrite Hc, IH. reflexivity.
  Qed.
  Lemma bin_forest_map {A B} (f : A -> B) (b : bin A) : bin_forest (bin_map f b) = map (rose_map f) (bin_forest b).
  Proof.
    induction b as [|a l IHl r IHr]; [reflexivity|]. cbn. rewrite IHl, IHr, map_app. reflexivity.
  Qed.

  Lemma n_from_binary_ok al bh (b : btree) fuel (h : heap) a :
    brep bh None b -> NoDup (baddrs b) -> baddr b = Some a -> bin_size b <= fuel ->
    exists a' h' t', n_from_binary fuel al bh h (Some a) = Ok (a', h') /\ raddr t' = a' /\
      [rose_map snd t'] = bin_forest (bin_map snd b) /\ nbuilt_tree h h' t'.
  Proof.
    intros Hr Hnd Ha Hf. pose proof (bin_at_answers bh b fuel Hr Hnd Hf) as Hans.
    apply baddr_root in Ha as (v & l & r & ->). cbn [bin_forest] in Hans.
    destruct (n_from_binary_from_ok al bh fuel h _ _ None None Hans) as (a' & h' & l' & Hc & Ha & Hm & Hb); [discriminate|].
    destruct l' as [|t' l']; [discriminate|]. cbn [first_or] in Ha. injection Ha as <-.
    pose proof Hm as Hm'. cbn in Hm'. injection Hm' as _ Hnil. destruct l'; [|discriminate].
    exists (raddr t'), h', t'. split; [exact Hc|]. split; [reflexivity|]. split; [|apply nbuilt_single, Hb].
    rewrite bin_forest_map. exact Hm.
  Qed.
  Lemma n_eq_binary_ok bh (b : btree) fuel (h : heap) t a p q :
    brep bh None b -> NoDup (baddrs b) -> baddr b = Some a -> bin_size b <= fuel ->
    nrep h p q None (szt 0) t -> rsize t <= fuel -> (N.of_nat (rsize t) < W64)%N ->
    n_eq_binary fuel h bh (Some (raddr t)) (Some a) =
      Ok (bool_decide ([rose_map snd t] = bin_forest (bin_map snd b))).
  Proof.
    intros Hr Hnd Ha Hf Ht Hft HW. pose proof (bin_at_answers bh b fuel Hr Hnd Hf) as Hans.
    apply baddr_root in Ha as (v & l & r & ->). cbn [bin_forest] in Hans.
    pose proof (n_eq_binary_seg bh fuel h t [] (Rose (a, v) (bin_forest l ++ bin_forest r)) [] p q) as Heq. cbn [raddr label fst] in Heq. rewrite Heq.
    - f_equal. apply bool_decide_ext. rewrite bin_forest_map. reflexivity.
    - cbn. auto.
    - exact Hans.
    - reflexivity.
    - rewrite fsize_cons. cbn. lia.
    - rewrite fsize_cons. cbn. lia.
  Qed.
End NaryOps2.
