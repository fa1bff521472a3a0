(** LeafLawFacts.v: the stack of a leaves iterator, see LeafLaw.v. *)
From Verif Require Import Base Spec EditSpec StructNode RoseFacts RowFacts BinaryNode NaryNode Nav Policy NavFacts BranchFacts Orders PolicyFacts NodeFacts LeafBack
  Tree Rep User Iter IterTrees IterMain LeafStay TreeNary LeafLaw.

Section Law.
  Variable nav : navigator.
  Variable t : rose addr.
  Hypothesis Hok : nav_ok nav t.
  Variable F : nat.
  Hypothesis HF : rsize t <= F.

  (** What is to be visited with the stack [o]. *)
  Inductive pend : list ptr -> list addr -> Prop :=
  | pend_nil : pend [] []
  | pend_cons ls a s d rs c o l : plug ((ls, a, d :: rs) :: c) s = t -> pend o l ->
      pend (Some (label s) :: o) (flat_map leaves (d :: rs) ++ l).

  Definition sib_after (c : ctx addr) : list addr := match c with [] => [] | (_, _, rs) :: _ => flat_map leaves rs end.

  Lemma down_pend s : forall c fuel o l, plug c s = t -> height s <= fuel -> pend o l ->
    exists o', keep_calling0 (leaves_call nav) fuel (Some (label s)) o = Ok (head (leaves s), o') /\
      pend o' (tail (leaves s) ++ sib_after c ++ l).
  Proof using All.
    induction s as [a cs IH] using rose_ind'. intros c fuel o l Hp Hf Ho.
    unfold keep_calling0. rewrite (leaves_call_ok _ _ Hok _ _ _ Hp). cbn [mbind res_bind children label].
    set (o1 := match ctx_next c with Some _ => _ | None => _ end).
    assert (Ho1 : pend o1 (sib_after c ++ l)).
    { subst o1. destruct c as [|[[ls b] [|d rs]] c]; cbn [ctx_next head_label sib_after flat_map app]; try exact Ho.
      change (leaves d ++ flat_map leaves rs) with (flat_map leaves (d :: rs)). exact (pend_cons ls b (Rose a cs) d rs c o l Hp Ho). }
    destruct fuel as [|fuel]; [cbn in Hf; lia|].
    destruct cs as [|s cs]; cbn [head_label keep_calling0_loop]; [eexists; split; [reflexivity|exact Ho1]|].
    assert (Hp2 : plug (([], a, cs) :: c) s = t) by exact Hp.
    apply Forall_cons in IH as [IH _].
    assert (Hf2 : height s <= fuel) by (cbn [height map] in Hf; rewrite list_max_cons in Hf; lia).
    destruct (IH _ fuel o1 _ Hp2 Hf2 Ho1) as (o' & E & Hpe). exists o'. unfold keep_calling0 in E. rewrite E.
    rewrite leaves_unfold by discriminate. cbn [flat_map]. pose proof (leaves_ne s) as Hls. cbn [sib_after] in Hpe.
    destruct (leaves s) as [|y ys]; [congruence|]. cbn [app head tail] in *. split; [reflexivity|]. rewrite <- !app_assoc. exact Hpe.
  Qed.

  Lemma next_pend o l : pend o l -> exists o', leaves_increment F nav o = Ok (head l, o') /\ pend o' (tail l).
  Proof using All.
    intros H. destruct H as [|ls a s d rs c o l Hp Ho]; cbn [leaves_increment].
    - exists []. split; [reflexivity|constructor].
    - rewrite (no_next _ _ Hok _ _ Hp). cbn [mbind res_bind ctx_next head_label].
      assert (Hp2 : plug ((ls ++ [s], a, rs) :: c) d = t) by (rewrite <- Hp; cbn; rewrite <- app_assoc; reflexivity).
      destruct (down_pend d _ F o l Hp2) as (o' & E & Hpe); [apply (pos_fuelB _ _ Hok F HF _ _ Hp2)|exact Ho|].
      exists o'. rewrite E. cbn [flat_map]. pose proof (leaves_ne d) as Hd. destruct (leaves d) as [|y ys]; [congruence|].
      cbn [app head tail sib_after] in *. split; [reflexivity|]. rewrite <- !app_assoc. exact Hpe.
  Qed.
  Lemma first_pend i o l : pend o l -> exists o', go_first_impl F nav Leaves i o = Ok (head (leaves t), o') /\ pend o' (tail (leaves t) ++ l).
  Proof using All.
    intros Ho. cbn [go_first_impl]. rewrite (no_root _ _ Hok).
    destruct (down_pend t [] F o l eq_refl) as (o' & E & Hpe); [pose proof (height_rsize t); lia|exact Ho|]. exists o'. split; [exact E|exact Hpe].
  Qed.
  Lemma last_pend i o : go_last_impl F nav Leaves i o = Ok (last (leaves t), []).
  Proof using All. cbn [go_last_impl]. rewrite (no_root _ _ Hok), (last_descend _ _ Hok F HF t [] eq_refl). reflexivity. Qed.

  (** The family of a leaf is determined by it. *)
  Lemma back_pend x y f o l : family t y x f -> pend o l ->
    exists o', leaves_decrement F nav (Some x) o = Ok (Some y, o') /\ pend o' (f ++ l).
  Proof using All.
    intros [q ls s d rs Hsub Hy Hx ->] Ho.
    apply rsubtree_plug in Hsub as (c & Hc).
    (* the leaf x below d *)
    assert (Hxd : exists ds, leaves d = x :: ds) by (destruct (leaves d); [discriminate|injection Hx as ->; eauto]).
    destruct Hxd as (ds & Hd). destruct (leaf_position d x) as (e & He). { rewrite Hd. left. }
    assert (Hp : plug (e ++ (ls ++ [s], q, rs) :: c) (Rose x []) = t).
    { rewrite RoseFacts.plug_app, He. cbn. rewrite <- app_assoc. exact Hc. }
    assert (Hbe : leaves_before e = []).
    { pose proof (leaves_plug e (Rose x [])) as Hlp. rewrite He, Hd in Hlp. cbn [leaves app] in Hlp.
      pose proof (nd_leaves _ _ Hok) as Hn. destruct (leaves_before e) as [|b bs]; [reflexivity|]. injection Hlp as -> Hds.
      exfalso. assert (Hnd : NoDup (leaves d)).
      { rewrite <- Hc in Hn. rewrite leaves_plug in Hn. apply NoDup_app in Hn as (_ & _ & Hn). apply NoDup_app in Hn as (Hn & _).
        rewrite leaves_unfold, flat_map_app' in Hn by (destruct ls; discriminate). apply NoDup_app in Hn as (_ & _ & Hn). cbn [flat_map] in Hn.
        apply NoDup_app in Hn as (_ & _ & Hn). apply NoDup_app in Hn as (Hn & _). exact Hn. }
      rewrite Hd in Hnd. apply NoDup_cons in Hnd as [Hni _]. apply Hni. rewrite Hds. set_solver +. }
    assert (Hclimb : forall e u fuel, plug (e ++ (ls ++ [s], q, rs) :: c) u = t -> leaves_before e = [] -> length e < fuel ->
      keep_calling_loop (S := unit) (pure_call (nav_parent nav))
        (fun st child _ => b ← nav_is_first nav child; Ok (negb b, st))
        (fun st child _ => q ← nav_prev nav child; Ok (q, st))
        fuel (Some (label u)) (ctx_parent (e ++ (ls ++ [s], q, rs) :: c)) () = Ok (Some (label s), ())).
    { clear -Hok. induction e as [|[[ls' b] rs'] e IH]; intros u fuel Hp Hb Hf; (destruct fuel as [|fuel]; [cbn in Hf; lia|]); cbn [app keep_calling_loop ctx_parent].
      - cbn [app] in Hp. rewrite (no_is_first _ _ Hok _ _ Hp). cbn [mbind res_bind].
        replace (is_nil (ls ++ [s])) with false by (destruct ls; reflexivity). cbn [negb].
        rewrite (no_prev _ _ Hok _ _ Hp). cbn [mbind res_bind ctx_prev]. rewrite last_label_snoc. reflexivity.
      - cbn [app] in Hp. rewrite (no_is_first _ _ Hok _ _ Hp). cbn [mbind res_bind].
        cbn [leaves_before] in Hb. apply app_eq_nil in Hb as [Hb1 Hb2].
        destruct ls' as [|z ls']. 2:{ exfalso. cbn in Hb2. apply app_eq_nil in Hb2 as [Hz _]. exact (leaves_ne z Hz). }
        cbn [is_nil negb]. cbn [plug] in Hp. pose proof (no_parent _ _ Hok _ _ Hp) as Hpar. cbn [label] in Hpar.
        rewrite (pure_call_ok _ _ _ _ Hpar). cbn [mbind res_bind]. apply (IH (Rose b ([] ++ u :: rs')) fuel Hp Hb1). cbn in Hf. lia. }
    unfold leaves_decrement, keep_calling. rewrite (pure_call_ok _ _ _ _ (no_parent _ _ Hok _ _ Hp)). cbn [mbind res_bind].
    assert (Hlen : length e < F) by (pose proof (pos_fuelB _ _ Hok F HF _ _ Hp) as [Hl _]; rewrite app_length in Hl; cbn in Hl; lia).
    pose proof (Hclimb e (Rose x []) F Hp Hbe Hlen) as Hcl. cbn [label] in Hcl. cbn [label]. rewrite Hcl. clear Hcl.
    cbn [mbind res_bind].
    assert (Hp2 : plug ((ls, q, d :: rs) :: c) s = t) by exact Hc.
    rewrite (last_descend _ _ Hok F HF _ _ Hp2), Hy. cbn [mbind res_bind]. eexists. split; [reflexivity|].
    exact (pend_cons ls q s d rs c o l Hp2 Ho).
  Qed.
End Law.

Lemma family_map {A B} (g : A -> B) (t : rose A) y x f : family t y x f -> family (rose_map g t) (g y) (g x) (map g f).
Proof.
  assert (Hfm : forall l : list (rose A), flat_map leaves (map (rose_map g) l) = map g (flat_map leaves l)).
  { induction l as [|d l IH]; cbn; [reflexivity|]. rewrite map_app, IH, leaves_map. reflexivity. }
  intros [q ls s d rs Hsub Hy Hx ->].
  apply (Family _ _ _ _ (g q) (map (rose_map g) ls) (rose_map g s) (rose_map g d) (map (rose_map g) rs)).
  - apply rsubtree_plug in Hsub as (c & <-). apply rsubtree_plug. exists (ctx_map g c). rewrite plug_map. cbn. rewrite map_app. reflexivity.
  - rewrite leaves_map. change (map g (leaves s)) with (g <$> leaves s). rewrite fmap_last, Hy. reflexivity.
  - rewrite leaves_map. destruct (leaves d); [discriminate|]. injection Hx as ->. reflexivity.
  - symmetry. apply (Hfm (d :: rs)).
Qed.

Section Iter.
  Context {V Nd : Type}.
  Variable F : nat.
  Variable im : node_impl V Nd.
  Variable h : gmap addr Nd.
  Variable r : addr.
  Variable t : rose (addr * V).
  Hypothesis Hs : seen F im h r t.
  Notation T := (rose_map fst t).
  Let Hok := sn_nav _ _ _ _ _ Hs.
  Let HF' : rsize T <= F. Proof. rewrite rsize_map. pose proof (sn_size _ _ _ _ _ Hs). lia. Qed.

  Record law (it : iter) (st : leaf_state (addr * V)) : Prop := Law {
    lw_kind : it_kind it = Leaves;
    lw_root : it_root it = Some r;
    lw_cur : it_cur it = option_map fst (fst st);
    lw_open : pend T (it_open it) (map fst (snd st))
  }.
  Definition move (m : bool) : iter -> res iter := if m then incr F im h else decr F im h.

  Lemma law_move m it st st' : law it st -> leaf_move t m st st' -> exists it', move m it = Ok it' /\ law it' st'.
  Proof using Hs.
    intros [Hk Hr Hc Ho] Hm. destruct Hm as [x y l|x|x l' l E|l' x l E|x y f l Hf]; cbn [fst snd option_map fmap option_fmap map] in *; cbn [move].
    - destruct (next_pend _ _ Hok F HF' _ _ Ho) as (o' & E & Hp). unfold incr, it_incr. rewrite Hc, Hk, Hr. cbn [increment_impl]. rewrite E. cbn [mbind res_bind].
      eexists. split; [reflexivity|]. split; cbn; auto.
    - destruct (next_pend _ _ Hok F HF' _ _ Ho) as (o' & E & Hp). unfold incr, it_incr. rewrite Hc, Hk, Hr. cbn [increment_impl]. rewrite E. cbn [mbind res_bind].
      eexists. split; [reflexivity|]. split; cbn; auto.
    - destruct (first_pend _ _ Hok F HF' (it_initial it) _ _ Ho) as (o' & Ef & Hp). rewrite leaves_map, E in Ef, Hp. unfold incr, it_incr. rewrite Hc, Hk, Hr, Ef. cbn [mbind res_bind].
      eexists. split; [reflexivity|]. split; cbn; auto. rewrite map_app. exact Hp.
    - pose proof (last_pend _ _ Hok F HF' (it_initial it) (it_open it)) as El. rewrite leaves_map, E, map_app in El. cbn [map] in El. rewrite last_snoc in El.
      unfold decr, it_decr. rewrite Hc, Hk, Hr, El. cbn [mbind res_bind]. eexists. split; [reflexivity|]. split; cbn; auto. constructor.
    - destruct (back_pend _ _ Hok F HF' _ _ _ _ _ (family_map fst t y x f Hf) Ho) as (o' & E & Hp).
      unfold decr, it_decr. rewrite Hc, Hk, Hr. cbn [decrement_impl]. rewrite E. cbn [mbind res_bind]. eexists. split; [reflexivity|]. split; cbn; auto.
      rewrite map_app. exact Hp.
  Qed.
  Lemma law_moves ms st st' : leaf_moves t ms st st' -> forall it, law it st -> exists it', run F im h ms it = Ok it' /\ law it' st'.
  Proof using Hs.
    induction 1 as [st|m ms st st1 st2 Hm _ IH]; intros it Hl; [exists it; split; [reflexivity|exact Hl]|].
    destruct (law_move m it st st1 Hl Hm) as (it1 & E & Hl1). destruct (IH it1 Hl1) as (it2 & E2 & Hl2). exists it2. split; [|exact Hl2].
    destruct m; cbn [move] in E; cbn [run]; rewrite E; exact E2.
  Qed.
  Lemma law_begin : exists b, tree_begin F (tree_nav im h) Leaves (Some r) = Ok b /\ law b (leaf_begin t).
  Proof using Hs.
    unfold tree_begin, it_end, get_instance, fix_navigator_root. cbn [mbind res_bind].
    set (e := Iter Leaves None (Some r) [] None).
    pose proof (leaves_ne T) as Hne. rewrite leaves_map in Hne. unfold leaf_begin.
    destruct (leaves t) as [|x l] eqn:E; [destruct (Hne eq_refl)|].
    destruct (law_move true e (None, []) (Some x, l ++ [])) as (b & Eb & Hb); [split; cbn; auto; constructor|constructor; exact E|].
    rewrite app_nil_r in Hb. exists b. split; [exact Eb|exact Hb].
  Qed.
End Iter.

Lemma some_leaf {A} (t : rose A) : leaves t <> [].
Proof. induction t as [a cs IH] using rose_ind'. destruct cs as [|c cs]; [discriminate|]. rewrite Forall_cons in IH. destruct IH as [IH _]. cbn. destruct (leaves c); [congruence|discriminate]. Qed.
(** Two consecutive leaves of a forest are in one of its trees, or in two
    consecutive ones. *)
Lemma forest_split {A} (cs : list (rose A)) : forall l1 y x l2, flat_map leaves cs = l1 ++ y :: x :: l2 ->
  (exists pre c post l1' l2', cs = pre ++ c :: post /\ leaves c = l1' ++ y :: x :: l2' /\ l2 = l2' ++ flat_map leaves post) \/
  (exists pre s d post, cs = pre ++ s :: d :: post /\ last (leaves s) = Some y /\ head (leaves d) = Some x /\ x :: l2 = flat_map leaves (d :: post)).
Proof.
  induction cs as [|c cs IH]; intros l1 y x l2 E; [destruct l1; discriminate|]. cbn [flat_map] in E.
  apply app_eq_inv in E as [(k & E1 & E2)|(k & E1 & E2)].
  - (* leaves c = l1 ++ k *)
    destruct k as [|y' [|x' k]].
    + rewrite app_nil_r in E1. subst l1. cbn in E2. destruct (IH [] y x l2 (eq_sym E2)) as [(pre & c' & post & l1' & l2' & -> & H1 & H2)|(pre & s & d & post & -> & H)].
      * left. exists (c :: pre), c', post, l1', l2'. auto.
      * right. exists (c :: pre), s, d, post. split; [reflexivity|exact H].
    + cbn in E2. injection E2 as <- E2. right. destruct cs as [|d cs]; [discriminate|]. exists [], c, d, cs. split; [reflexivity|].
      split; [rewrite E1, last_snoc; reflexivity|]. cbn [flat_map] in E2. pose proof (some_leaf d). split; [|exact E2].
      destruct (leaves d); [congruence|]. injection E2 as <- _. reflexivity.
    + cbn in E2. injection E2 as <- <- E2. left. exists [], c, cs, l1, k. auto.
  - (* l1 = leaves c ++ k *)
    destruct (IH k y x l2 E2) as [(pre & c' & post & l1' & l2' & -> & H1 & H2)|(pre & s & d & post & -> & H)].
    + left. exists (c :: pre), c', post, l1', l2'. auto.
    + right. exists (c :: pre), s, d, post. split; [reflexivity|exact H].
Qed.
(** The moves of the specification, other than [--] at the first leaf, are possible. *)
Lemma family_ex {A} (t : rose A) : forall l1 y x l2, leaves t = l1 ++ y :: x :: l2 -> exists l' l3, family t y x (x :: l') /\ l2 = l' ++ l3.
Proof.
  induction t as [a cs IH] using rose_ind'. intros l1 y x l2 E. destruct cs as [|c0 cs0]; [destruct l1 as [|? [|? ?]]; discriminate|].
  change (flat_map leaves (c0 :: cs0) = l1 ++ y :: x :: l2) in E. destruct (forest_split _ _ _ _ _ E) as [(pre & c & post & l1' & l2' & Ec & H1 & H2)|(pre & s & d & post & Ec & H1 & H2 & H3)].
  - rewrite Forall_forall in IH. destruct (IH c ltac:(rewrite Ec; set_solver +) _ _ _ _ H1) as (l' & l3 & [q ls s d rs Hsub Hy Hx El] & ->).
    exists l', (l3 ++ flat_map leaves post). split; [|rewrite H2, app_assoc; reflexivity]. econstructor; [|exact Hy|exact Hx|exact El].
    rewrite Ec. econstructor; [|exact Hsub]. set_solver +.
  - exists l2, []. split; [|rewrite app_nil_r; reflexivity]. econstructor; [|exact H1|exact H2|exact H3]. rewrite Ec. apply rsub_here.
Qed.

(** The state of a right iterator at position [i]. *)
Definition right_state {A} (t : rose A) (i : nat) : leaf_state A := (nth_error (leaves t) i, skipn (S i) (leaves t)).
Lemma skipn_nth {A} (l : list A) : forall i y, nth_error l i = Some y -> skipn i l = y :: skipn (S i) l.
Proof. induction l as [|a l IH]; intros [|i] y E; cbn in *; try discriminate; [injection E as ->; reflexivity|]. rewrite (IH _ _ E). destruct l; reflexivity. Qed.
Lemma right_end {A} (t : rose A) : right_state t (length (leaves t)) = (None, []).
Proof. unfold right_state. f_equal; [apply nth_error_None; lia|apply skipn_all2; lia]. Qed.
Lemma right_next {A} (t : rose A) i : i < length (leaves t) -> leaf_move t true (right_state t i) (right_state t (S i)).
Proof.
  intros Hi. destruct (nth_error (leaves t) i) as [x|] eqn:Ex; [|apply nth_error_None in Ex; lia].
  unfold right_state. rewrite Ex. destruct (nth_error (leaves t) (S i)) as [y|] eqn:Ey.
  - rewrite (skipn_nth _ _ _ Ey). constructor.
  - apply nth_error_None in Ey. rewrite (skipn_all2 (n := S i)), (skipn_all2 (n := S (S i))) by lia. constructor.
Qed.
Lemma fine_moves {A} (t : rose A) ms i j : fine t ms i j -> leaf_moves t ms (right_state t i) (right_state t j).
Proof.
  induction 1 as [i Hi|ms i j Hi _ IH|ms j _ IH|ms j _ IH|ms i j y x Ey Ex Hf _ IH]; [constructor|..]; (eapply moves_cons; [|exact IH]).
  - apply right_next, Hi.
  - rewrite right_end. unfold right_state. destruct (leaves t) as [|x l] eqn:E; [destruct (some_leaf t E)|]. cbn. pose proof (move_first t x l [] E) as Hm. rewrite app_nil_r in Hm. exact Hm.
  - rewrite right_end. destruct (exists_last (some_leaf t)) as (l & x & E). unfold right_state. rewrite E, app_length. cbn [length].
    replace (pred (length l + 1)) with (length l) by lia. rewrite nth_error_app2, Nat.sub_diag by lia. cbn [nth_error]. rewrite skipn_all2 by (rewrite app_length; cbn; lia).
    eapply move_last. exact E.
  - unfold right_state. rewrite Ex, Ey, (skipn_nth _ _ _ Ex). exact (move_back t x y [x] _ Hf).
Qed.
Lemma right_begin {A} (t : rose A) : leaf_begin t = right_state t 0.
Proof. unfold leaf_begin, right_state. destruct (leaves t); reflexivity. Qed.
Lemma moves_app {A} (t : rose A) ms ms' s s1 s2 : leaf_moves t ms s s1 -> leaf_moves t ms' s1 s2 -> leaf_moves t (ms ++ ms') s s2.
Proof. induction 1; intros H2; [exact H2|]. cbn. econstructor; eauto. Qed.
(** Only [++]. *)
Lemma ahead {A} (t : rose A) l : forall k x, k <= length l -> leaf_moves t (repeat true k) (Some x, l) (nth_error (x :: l) k, skipn k l).
Proof.
  induction l as [|y l IH]; intros [|k] x Hk; cbn in *; try constructor; try lia. econstructor; [constructor|]. apply (IH k y). lia.
Qed.
Lemma ahead_end {A} (t : rose A) l x : leaf_moves t (repeat true (S (length l))) (Some x, l) (None, []).
Proof.
  rewrite <- (Nat.add_1_r (length l)), repeat_app. eapply moves_app; [apply ahead; lia|].
  rewrite skipn_all2 by lia. destruct (nth_error (x :: l) (length l)) eqn:E; [|apply nth_error_None in E; cbn in E; lia].
  econstructor; [constructor|constructor].
Qed.
Lemma to_leaf {A} (t : rose A) l1 x l2 : leaves t = l1 ++ x :: l2 -> leaf_moves t (repeat true (length l1)) (leaf_begin t) (Some x, l2).
Proof.
  intros E. unfold leaf_begin. destruct (leaves t) as [|x0 l] eqn:El; [destruct l1; discriminate|]. cbn [head tail].
  assert (Hl : length l = length l1 + length l2) by (apply (f_equal length) in E; rewrite app_length in E; cbn in E; lia).
  pose proof (ahead t l (length l1) x0 ltac:(lia)) as H. rewrite E, nth_error_app2, Nat.sub_diag in H by lia. cbn [nth_error] in H.
  replace (skipn (length l1) l) with l2 in H; [exact H|]. change (skipn (length l1) l) with (skipn (S (length l1)) (x0 :: l)). rewrite E.
  rewrite skipn_app, skipn_all2 by lia. replace (S (length l1) - length l1) with 1 by lia. reflexivity.
Qed.

Section Trip.
  Context {V Nd : Type}.
  Lemma round_trip F (im : node_impl V Nd) h r (t : rose (addr * V)) l1 y x z f l2 : seen F im h r t ->
    leaves t = l1 ++ y :: x :: l2 -> family t y x (x :: z :: f) ->
    exists b it, tree_begin F (tree_nav im h) Leaves (Some r) = Ok b /\
      run F im h (repeat true (S (length l1)) ++ [false; true]) b = Ok it /\ it_cur it = Some (fst x) /\
      forall k, k <= S (length ((z :: f) ++ l2)) ->
        exists it', run F im h (repeat true k) it = Ok it' /\ it_cur it' = nth_addr (x :: (z :: f) ++ l2) k.
  Proof.
    intros Hs El Hf. destruct (law_begin F im h r t Hs) as (b & Eb & Hb).
    assert (Hm : leaf_moves t (repeat true (S (length l1)) ++ [false; true]) (leaf_begin t) (Some x, (z :: f) ++ l2)).
    { eapply moves_app.
      - pose proof (to_leaf t (l1 ++ [y]) x l2) as H. rewrite app_length in H. cbn [length] in H. rewrite Nat.add_1_r in H. apply H. rewrite El, <- app_assoc. reflexivity.
      - econstructor; [apply move_back; exact Hf|]. econstructor; [apply move_next|]. constructor. }
    destruct (law_moves F im h r t Hs _ _ _ Hm b Hb) as (it & E & Hl). exists b, it. split; [exact Eb|]. split; [exact E|]. split; [exact (lw_cur _ _ _ _ Hl)|].
    intros k Hk. destruct (decide (k = S (length ((z :: f) ++ l2)))) as [->|Hne].
    - destruct (law_moves F im h r t Hs _ _ _ (ahead_end t ((z :: f) ++ l2) x) it Hl) as (it' & E' & Hl'). exists it'. split; [exact E'|]. rewrite (lw_cur _ _ _ _ Hl'). cbn [fst option_map].
      unfold nth_addr. symmetry. apply nth_error_None. rewrite map_length. cbn [length]. lia.
    - destruct (law_moves F im h r t Hs _ _ _ (ahead t ((z :: f) ++ l2) k x ltac:(lia)) it Hl) as (it' & E' & Hl'). exists it'. split; [exact E'|]. rewrite (lw_cur _ _ _ _ Hl'). cbn [fst].
      unfold nth_addr. rewrite nth_error_map. reflexivity.
  Qed.
  Lemma law_ok F (im : node_impl V Nd) h r (t : rose (addr * V)) ms st : seen F im h r t -> leaf_moves t ms (leaf_begin t) st ->
    exists b it, tree_begin F (tree_nav im h) Leaves (Some r) = Ok b /\ run F im h ms b = Ok it /\ it_cur it = option_map fst (fst st).
  Proof.
    intros Hs Hm. destruct (law_begin F im h r t Hs) as (b & Eb & Hb). destruct (law_moves F im h r t Hs _ _ _ Hm b Hb) as (it & E & Hl).
    exists b, it. split; [exact Eb|]. split; [exact E|exact (lw_cur _ _ _ _ Hl)].
  Qed.
  Lemma fine_ok F (im : node_impl V Nd) h r (t : rose (addr * V)) ms j : seen F im h r t -> fine t ms 0 j ->
    exists b it, tree_begin F (tree_nav im h) Leaves (Some r) = Ok b /\ run F im h ms b = Ok it /\ it_cur it = nth_addr (leaves t) j.
  Proof.
    intros Hs Hf. apply fine_moves in Hf. rewrite <- right_begin in Hf. destruct (law_ok F im h r t ms _ Hs Hf) as (b & it & Eb & E & Hc).
    exists b, it. split; [exact Eb|]. split; [exact E|]. rewrite Hc. unfold nth_addr. rewrite nth_error_map. reflexivity.
  Qed.
End Trip.

Lemma family_in {A} (t : rose A) y x f : family t y x f -> (forall a, a ∈ f -> a ∈ leaves t) /\ y ∈ leaves t.
Proof.
  intros [q ls s d rs Hsub Hy Hx ->]. apply rsubtree_plug in Hsub as (c & Hc).
  assert (H : forall a, a ∈ flat_map leaves (ls ++ s :: d :: rs) -> a ∈ leaves t).
  { intros a Ha. rewrite <- Hc. clear Hc Hy Hx. revert Ha. assert (Hgen : forall (c : ctx A) u, (forall a, a ∈ leaves u -> a ∈ leaves (plug c u))).
    { clear. induction c as [|[[l1 b] l2] c IH]; intros u a Ha; [exact Ha|]. cbn [plug]. apply IH.
      replace (leaves (Rose b (l1 ++ u :: l2))) with (flat_map leaves (l1 ++ u :: l2)) by (destruct l1; reflexivity). rewrite flat_map_app'. cbn. set_solver. }
    intros Ha. apply Hgen. replace (leaves (Rose q (ls ++ s :: d :: rs))) with (flat_map leaves (ls ++ s :: d :: rs)) by (destruct ls; reflexivity). exact Ha. }
  split.
  - intros a Ha. apply H. rewrite flat_map_app'. cbn [flat_map] in *. set_solver.
  - apply H. rewrite flat_map_app'. cbn [flat_map]. apply last_Some_elem_of in Hy. set_solver.
Qed.
(** Every leaf the iterator is at or will go to is a leaf of the tree, and every
    move except [--] at the first leaf is possible. *)
Lemma moves_possible {A} (t : rose A) ms st : leaf_moves t ms (leaf_begin t) st ->
  (forall a, fst st = Some a \/ a ∈ snd st -> a ∈ leaves t) /\
  (exists st', leaf_move t true st st') /\
  (fst st <> head (leaves t) -> exists st', leaf_move t false st st').
Proof.
  intros H. assert (Hin : forall a, fst st = Some a \/ a ∈ snd st -> a ∈ leaves t).
  { assert (H0 : forall a, fst (leaf_begin t) = Some a \/ a ∈ snd (leaf_begin t) -> a ∈ leaves t).
    { unfold leaf_begin. cbn. intros a. pose proof (some_leaf t) as Hne. destruct (leaves t) as [|b l]; [destruct (Hne eq_refl)|]. cbn. intros [E|E]; [injection E as <-; left|right; exact E]. }
    revert H H0. generalize (leaf_begin t). intros s H. induction H as [s|m ms s s1 s2 Hm _ IH]; intros H0; [exact H0|]. apply IH.
    destruct Hm as [x y l|x|x l' l E|l' x l E|x y f l Hf]; cbn [fst snd] in *; intros a.
    - intros [Ea|Ea]; apply H0; right; [injection Ea as <-; left|right; exact Ea].
    - intros [Ea|Ea]; [discriminate|apply elem_of_nil in Ea as []].
    - intros [Ea|Ea]; [rewrite E; injection Ea as <-; left|]. apply elem_of_app in Ea as [Ea|Ea]; [rewrite E; right; exact Ea|apply H0; right; exact Ea].
    - intros [Ea|Ea]; [rewrite E; injection Ea as <-; set_solver +|apply elem_of_nil in Ea as []].
    - destruct (family_in _ _ _ _ Hf) as [Hfi Hyi]. intros [Ea|Ea]; [injection Ea as <-; exact Hyi|]. apply elem_of_app in Ea as [Ea|Ea]; [apply Hfi, Ea|apply H0; right; exact Ea]. }
  split; [exact Hin|]. destruct st as [[x|] l]; cbn [fst snd] in *.
  - split; [destruct l; eexists; constructor|]. intros Hx. specialize (Hin x (or_introl eq_refl)). apply elem_of_list_split in Hin as (l1 & l2 & E).
    destruct (exists_last (l := l1)) as (l0 & y & ->). { intros ->. rewrite E in Hx. apply Hx. reflexivity. }
    rewrite <- app_assoc in E. destruct (family_ex t l0 y x l2 E) as (l' & l3 & Hf & _). eexists. apply move_back. exact Hf.
  - destruct (leaves t) as [|x l'] eqn:E; [destruct (some_leaf t E)|]. split; [eexists; apply (move_first t x l' l E)|].
    intros _. destruct (exists_last (some_leaf t)) as (l0 & y & E2). eexists. apply (move_last t l0 y l E2).
Qed.
