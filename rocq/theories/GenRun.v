(** GenRun.v: a breadth-first iterator over a generative navigator, in memory. *)
From Verif Require Import Base Spec StructNode BinaryNode NaryNode Nav Policy Tree Rep RoseFacts NavFacts
  World Kinds TreeSpec TreeOps PredProofs GenFacts GenInv Gen GenSim Fail StarFail Tried.

(** A generation whose nodes may fail to be created: as [generate], if there are nodes
    enough; otherwise [back] runs in a state of memory that is [here]. *)
Definition fails_well {V Nd St C : Type} (F : nat) (im : node_impl V Nd) (al : allocator Nd) (like : gmap addr Nd -> ptr -> ptr -> ptr -> res (gmap addr Nd))
    (pred : St -> gmap addr Nd -> mptr -> res (St * mptr * bool)) (root : mptr) (st : St) (h0 : gmap addr Nd) (apr : St -> addr -> St * dec C)
    (here : gmap addr Nd -> list (addr * dec C) -> Prop) : Prop :=
  forall (ti : try_impl V Nd) (late : bool) (St2 : Type) (pred2 : St2 -> gmap addr Nd -> mptr -> res (St2 * mptr * bool)) (view : St -> option St2)
    (back : St2 -> gmap addr Nd -> res (gmap addr Nd)) (L : gmap addr Nd -> gmap addr Nd -> Prop) (Stuck : gmap addr Nd -> Prop),
  (forall s h p s' r b, pred s h p = Ok (s', r, b) -> forall st', view s' = Some st' -> exists st, view s = Some st /\ pred2 st h p = Ok (st', r, b)) ->
  (forall h v a h', ni_from_value im al h v = Ok (a, h') -> tried (L h) (ti_value ti late al v) h a h') ->
  (forall tr st1, calls apr st tr st1 -> NoDup (map fst tr) -> is_Some (view st1)) ->
  (forall tr st1 st2 h hl, calls apr st tr st1 -> NoDup (map fst tr) -> view st1 = Some st2 -> here h tr -> L h hl -> exists h2, back st2 hl = Ok h2 /\ Stuck h2) ->
  forall st2, view st = Some st2 -> exists st' h' st2', generate F im al like pred root st h0 = Ok (st', h') /\ view st' = Some st2' /\
    tried Stuck (generate_try F im ti al late like pred2 back root st2) h0 st2' h'.
Lemma fails_mono {V Nd St C : Type} F im al like pred root st h0 apr (here here' : gmap addr Nd -> list (addr * dec C) -> Prop) : (forall h tr, here h tr -> here' h tr) ->
  @fails_well V Nd St C F im al like pred root st h0 apr here -> fails_well F im al like pred root st h0 apr here'.
Proof.
  intros Hh H ti late St2 pred2 view back L Stuck H1 H2 H3 H4. apply (H ti late St2 pred2 view back L Stuck H1 H2 H3).
  intros tr st1 st2 h hl Hc Hn Hv Hhere. eapply H4; eauto.
Qed.

Section Run.
  Context {V Nd : Type}.
  Variable F : nat.
  Variable im : node_impl V Nd.
  Variable al : allocator Nd.
  Variable like : gmap addr Nd -> ptr -> ptr -> ptr -> res (gmap addr Nd).
  Variable K : kind_data V Nd.
  Hypothesis KO : kind_ok F im al K.
  Notation heap := (gmap addr Nd).
  Notation tree := (rose (addr * V)).
  Notation C := (C K).
  Notation croot := (croot K).
  Notation caddrs := (caddrs K).
  Notation crep := (crep K).
  Notation gl := (addr * (addr * (V + C)))%type.
  Notation dec := (dec C).
  Notation entry := (entry V).
  Variable tg : tree.
  Hypothesis tg_nd : NoDup (raddrs tg).
  Hypothesis tg_F : rsize tg < F.

  (** Well placed: the children stand for children of the target, in order. *)
  Definition placed_node (x : gl) (ts : list (rose gl)) : Prop :=
    (exists kids, tat tg (fst (snd x)) kids /\ map rmain ts `sublist_of` map raddr kids) /\
    (match snd (snd x) with inl _ => True | inr u => ts = [] /\ croot u = Some (fst x) end).
  Fixpoint placed (t : rose gl) : Prop :=
    match t with Rose x ts => placed_node x ts /\ foldr (fun t Q => placed t /\ Q) True ts end.
  Lemma placed_unfold x ts : placed (Rose x ts) <-> placed_node x ts /\ Forall placed ts.
  Proof. cbn [placed]. rewrite foldr_and_Forall. reflexivity. Qed.

  (** *** What the kind of trees has to provide *)
  Variable src : heap -> Prop.
  Hypothesis src_ext : forall h h', (forall a, a ∈ raddrs tg -> h' !! a = h !! a) -> src h -> src h'.
  Hypothesis src_dom : forall h a, src h -> a ∈ raddrs tg -> is_Some (h !! a).
  Hypothesis src_ops : forall h, src h -> ops_ok (ni_ops im h) (rose_map fst tg).
  Hypothesis src_val : forall h x, src h -> x ∈ preorder tg -> ni_value im h (Some (fst x)) = Ok (snd x).
  Variable image : rose gl -> C.
  Hypothesis img_leaf : forall c a m v, croot c = Some a -> cvals K c = lit_vals K (LNode v []) -> image (Rose (a, (m, inl v)) []) = c.
  Hypothesis img_use : forall g m u, image (Rose (g, (m, inr u)) []) = u.
  Hypothesis img_keys : forall T g, placed T -> g ∈ keys T -> g ∈ caddrs (image T).
  Hypothesis img_like : forall h cx x ts s, src h -> placed (plug cx (Rose x (ts ++ [s]))) -> pl_use (snd (snd x)) = false -> children s = [] ->
    crep h (image (plug cx (Rose x ts))) -> crep h (image s) -> (forall z, z ∈ caddrs (image s) -> z ∉ caddrs (image (plug cx (Rose x ts)))) ->
    croot (image s) = Some (rkey s) -> length ts < F ->
    exists h', like h (Some (fst x)) (Some (rkey s)) (Some (rmain s)) = Ok h' /\ crep h' (image (plug cx (Rose x (ts ++ [s])))) /\
      Permutation (caddrs (image (plug cx (Rose x (ts ++ [s]))))) (caddrs (image (plug cx (Rose x ts))) ++ caddrs (image s)) /\
      (forall z, z ∉ caddrs (image (plug cx (Rose x ts))) -> z ∉ caddrs (image s) -> h' !! z = h !! z).
  Hypothesis img_first : forall h c x, crep h (image (plug c (Rose x []))) -> placed (plug c (Rose x [])) -> pl_use (snd (snd x)) = false ->
    op_first (ni_ops im h) (Some (fst x)) = Ok None.
  Hypothesis img_last : forall h c a ls s, crep h (image (plug c (Rose a (ls ++ [s])))) -> placed (plug c (Rose a (ls ++ [s]))) ->
    op_next (ni_ops im h) (Some (rkey s)) = Ok None /\ op_parent (ni_ops im h) (Some (rkey s)) = Ok (Some (fst a)).
  Hypothesis img_nav : forall h c z, crep h c -> z ∈ caddrs c ->
    (exists q, op_first (ni_ops im h) (Some z) = Ok q /\ (forall y, q = Some y -> y ∈ caddrs c)) /\
    (exists q, op_next (ni_ops im h) (Some z) = Ok q /\ (forall y, q = Some y -> y ∈ caddrs c)).

  (** *** The start, the predicate *)
  Variable h0 : heap.
  Variable g0 : addr.
  Notation T0 := (Rose (g0, (raddr tg, inl (snd (label tg)))) [] : rose gl).
  Hypothesis h0_src : src h0.
  Hypothesis h0_rep : crep h0 (image T0).
  Hypothesis h0_apart : forall a, a ∈ raddrs tg -> a ∉ caddrs (image T0).
  Hypothesis h0_one : length (caddrs (image T0)) = 1.
  Context {St : Type}.
  Variable pred : St -> heap -> mptr -> res (St * mptr * bool).
  Variable apr : St -> addr -> St * dec.
  (** The trees that the predicate puts in. *)
  Variable uses : addr -> option C.
  Hypothesis uses_rep : forall m u, uses m = Some u -> crep h0 u /\ croot u <> None /\
    (forall z, z ∈ caddrs u -> z ∉ raddrs tg /\ z ∉ caddrs (image T0)).
  Hypothesis uses_apart : forall m m' u u' z, uses m = Some u -> uses m' = Some u' -> m <> m' -> z ∈ caddrs u -> z ∉ caddrs u'.
  Hypothesis apr_use : forall st m st' u, apr st m = (st', Use u) -> uses m = Some u.
  Hypothesis use_kids : forall m u kids, uses m = Some u -> tat tg m kids -> forall st x, x ∈ kids -> exists st', apr st (raddr x) = (st', Skip).
  Definition answer (p : mptr) (d : dec) : mptr := match d with Use u => mp_assign 1 (croot u) p | _ => p end.
  Definition accepted (d : dec) : bool := match d with Skip => false | _ => true end.
  Hypothesis pred_ok : forall st h m q fl st' d, src h -> m ∈ raddrs tg -> m <> raddr tg -> apr st m = (st', d) ->
    pred st h (MPtr [Some m; q] fl) = Ok (st', answer (MPtr [Some m; q] fl) d, accepted d).
  Variable flr : list bool.
  Notation root := (MPtr [Some (raddr tg); Some g0] flr).

  (** *** The target *)
  Lemma t_first h c s : src h -> plug c s = tg -> op_first (ni_ops im h) (Some (raddr s)) = Ok (first_addr (children s)).
  Proof.
    intros Hs Hp. pose proof (src_ops h Hs) as Ho. apply (plug_map_ex fst) in Hp. rewrite <- Hp in Ho. apply ops_ok_plug in Ho as [Ho _].
    destruct s as [x cs]. cbn [rose_map] in Ho. apply ops_ok_unfold in Ho as [Ho _]. unfold raddr. cbn [label children]. rewrite Ho.
    destruct cs as [|[y ys] cs]; reflexivity.
  Qed.
  Lemma t_next h ls a rs c s : src h -> plug ((ls, a, rs) :: c) s = tg -> op_next (ni_ops im h) (Some (raddr s)) = Ok (first_addr rs).
  Proof.
    intros Hs Hp. pose proof (src_ops h Hs) as Ho. apply (plug_map_ex fst) in Hp. rewrite <- Hp in Ho. apply ops_ok_plug in Ho as [_ Ho].
    cbn [map] in Ho. destruct Ho as (_ & _ & Ho & _). destruct s as [x cs]. unfold raddr. cbn [label rose_map] in *. rewrite Ho.
    destruct rs as [|[y ys] rs]; reflexivity.
  Qed.
  Lemma t_notroot ls a rs c s : plug ((ls, a, rs) :: c) s = tg -> raddr s <> raddr tg.
  Proof.
    intros Hp E. assert (Hm := Hp). apply (plug_map_ex fst) in Hm. cbn [map] in Hm.
    pose proof tg_nd as Hnd. unfold raddrs in Hnd. rewrite <- (@NaryRep.preorder_map _ _ fst tg), <- Hm in Hnd.
    apply label_root_iff in Hnd. rewrite Hm in Hnd. destruct Hnd as [Hnd _]. 
    assert (Hl : forall t : tree, label (rose_map fst t) = raddr t) by (intros [? ?]; reflexivity).
    rewrite !Hl in Hnd. specialize (Hnd E). discriminate.
  Qed.
  Lemma t_in c s : plug c s = tg -> raddr s ∈ raddrs tg.
  Proof. intros E. unfold raddrs. apply elem_of_list_fmap. exists (label s). split; [reflexivity|]. rewrite <- E. apply position_elem. Qed.

  (** *** Looking for the next accepted sibling *)
  (** [q] can be moved. *)
  Definition safe (h : heap) (q : ptr) : Prop := q = None \/ exists c z, q = Some z /\ crep h c /\ z ∈ caddrs c.
  Lemma safe_next h q : safe h q -> exists q', (match q with None => Ok None | Some _ => op_next (ni_ops im h) q end) = Ok q' /\ safe h q' /\ (q = None -> q' = None).
  Proof.
    intros [->|(c & z & -> & Hc & Hz)]; [exists None; split; [reflexivity|split; [left; reflexivity|auto]]|].
    destruct (img_nav h c z Hc Hz) as [_ (q & E & Hq)]. exists q. split; [exact E|]. split; [|discriminate].
    destruct q as [y|]; [right; exists c, y; auto|left; reflexivity].
  Qed.
  Lemma safe_first h q : safe h q -> exists q', (match q with None => Ok None | Some _ => op_first (ni_ops im h) q end) = Ok q' /\ safe h q' /\ (q = None -> q' = None).
  Proof.
    intros [->|(c & z & -> & Hc & Hz)]; [exists None; split; [reflexivity|split; [left; reflexivity|auto]]|].
    destruct (img_nav h c z Hc Hz) as [(q & E & Hq) _]. exists q. split; [exact E|]. split; [|discriminate].
    destruct q as [y|]; [right; exists c, y; auto|left; reflexivity].
  Qed.
  (** [l] are siblings of the target, up to the last one. *)
  Definition sibs (l : list tree) : Prop := exists ls a c, forall sk x l', l = sk ++ x :: l' -> plug ((ls ++ sk, a, l') :: c) x = tg.
  Lemma sibs_cons x l : sibs (x :: l) -> sibs l /\ exists ls a c, plug ((ls, a, l) :: c) x = tg.
  Proof.
    intros (ls & a & c & H). split.
    - exists (ls ++ [x]), a, c. intros sk y l' ->. rewrite <- app_assoc. apply (H (x :: sk)). reflexivity.
    - exists ls, a, c. rewrite <- (app_nil_r ls). apply (H [] x l). reflexivity.
  Qed.
  Lemma sibs_kids c s : plug c s = tg -> sibs (children s).
  Proof. intros H. destruct s as [x cs]. exists [], x, c. intros sk y l' E. cbn in *. subst cs. exact H. Qed.
  Lemma sibs_rights c s : plug c s = tg -> sibs (rights c).
  Proof.
    intros H. destruct c as [|[[ls a] rs] c].
    { exists [], (label tg), []. intros sk y l' E. destruct sk; discriminate. }
    exists (ls ++ [s]), a, c. intros sk y l' E. cbn in *. subst rs. rewrite <- !app_assoc. exact H.
  Qed.
  Lemma sibs_length l : sibs l -> length l < F.
  Proof.
    intros (ls & a & c & H). destruct l as [|x l]; [cbn; lia|]. specialize (H [] x l eq_refl). cbn in H.
    pose proof (ctx_length_size c (Rose a ((ls ++ []) ++ x :: l))) as Hs. rewrite H in Hs. cbn in Hs. rewrite map_app, list_sum_app' in Hs. cbn in Hs.
    assert (forall k : list tree, length k <= list_sum (map rsize k)).
    { induction k as [|y k IH]; cbn; [lia|]. pose proof (rsize_pos y). change (fold_right Nat.add 0) with list_sum. lia. }
    specialize (H0 l). pose proof (rsize_pos x). change (fold_right Nat.add 0) with list_sum in *. cbn [length]. lia.
  Qed.

  Definition found_ok (q : ptr) (r : mptr) (res : option (tree * list tree * dec)) : Prop :=
    match res with
    | None => mp_bool r = false
    | Some (x, _, d) => q = None -> r = answer (mp_make [Some (raddr x); None]) d
    end.
  Lemma mp_make2 p q : mp_make [p; q] = MPtr [p; q] [false; false].
  Proof. reflexivity. Qed.
  Lemma mp_do2 call m q fl p' q' : call (Some m) = Ok p' -> match q with None => Ok None | Some _ => call q end = Ok q' ->
    mp_do call (MPtr [Some m; q] fl) = Ok (mp_make [p'; q']).
  Proof. intros E1 E2. unfold mp_do. cbn [mp_ptrs mapM]. rewrite E1, E2. reflexivity. Qed.
  Lemma next_loop h l : src h -> sibs l -> forall k st q, length l < k -> safe h q ->
    exists r, m_next_loop im pred root h k st (mp_make [first_addr l; q]) = Ok (fst (fst (scan apr st l)), r) /\ found_ok q r (snd (scan apr st l)).
  Proof.
    intros Hs. induction l as [|x l IH]; intros Hl k st q Hk Hq; (destruct k as [|k]; [cbn in Hk; lia|]).
    { cbn. eexists. split; [reflexivity|]. reflexivity. }
    destruct (sibs_cons _ _ Hl) as [Hl' (ls & a & c & Hp)].
    cbn [m_next_loop]. change (mp_bool (mp_make [first_addr (x :: l); q])) with true. cbn [first_addr]. cbv iota.
    cbn [scan]. destruct (apr st (raddr x)) as [st1 d] eqn:Ea.
    rewrite mp_make2, (pred_ok st h (raddr x) q _ st1 d Hs (t_in _ _ Hp) (t_notroot _ _ _ _ _ Hp) Ea). cbn [mbind res_bind].
    destruct d as [| |u]; cbn [accepted answer].
    - unfold m_unless_root at 1. unfold mp_eqb, mp_main, mp_get. cbn [mp_ptrs nth].
      rewrite ptr_eqb_false by (intros [=E]; exact (t_notroot _ _ _ _ _ Hp E)).
      destruct (safe_next h q Hq) as (q' & E' & Hq' & Hn). 
      unfold mp_next. rewrite (mp_do2 _ _ _ _ _ _ (t_next h _ _ _ _ _ Hs Hp) E'). cbn [mbind res_bind].
      destruct (IH Hl' k st1 q') as (r & Er & Hr); [cbn in Hk; lia|exact Hq'|]. rewrite Er.
      destruct (scan apr st1 l) as [[st2 tr2] res]. exists r. split; [reflexivity|]. cbn [snd] in *.
      destruct res as [[[y l'] d]|]; [|exact Hr]. intros E. apply Hr, Hn, E.
    - eexists. split; [reflexivity|]. intros ->. reflexivity.
    - eexists. split; [reflexivity|]. intros ->. reflexivity.
  Qed.

  Lemma next_pos h ls a rs c s st q fl : src h -> plug ((ls, a, rs) :: c) s = tg -> safe h q ->
    exists r q', m_next F im pred root h st (MPtr [Some (raddr s); q] fl) = Ok (fst (fst (scan apr st rs)), r) /\
      (match q with None => Ok None | Some _ => op_next (ni_ops im h) q end) = Ok q' /\ found_ok q' r (snd (scan apr st rs)).
  Proof.
    intros Hs Hp Hq. unfold m_next, m_unless_root. unfold mp_eqb at 1, mp_main, mp_get. cbn [mp_ptrs nth].
    rewrite ptr_eqb_false by (intros [=E]; exact (t_notroot _ _ _ _ _ Hp E)).
    destruct (safe_next h q Hq) as (q' & E' & Hq' & _). unfold mp_next.
    rewrite (mp_do2 _ _ _ _ _ _ (t_next h _ _ _ _ _ Hs Hp) E'). cbn [mbind res_bind].
    assert (Hsib : sibs rs) by exact (sibs_rights _ _ Hp).
    destruct (next_loop h rs Hs Hsib F st q') as (r & E & Hr); [apply sibs_length, Hsib|exact Hq'|].
    exists r, q'. auto.
  Qed.
  Lemma next_ok h e g st fl : src h -> at_target tg e -> safe h (Some g) -> (e_fol e <> [] -> op_next (ni_ops im h) (Some g) = Ok None) ->
    exists r, m_next F im pred root h st (MPtr [Some (e_main e); Some g] fl) = Ok (fst (fst (scan apr st (e_fol e))), r) /\
      found_ok None r (snd (scan apr st (e_fol e))).
  Proof.
    intros Hs (c & s & Hp & Hm & Hk & Hf) Hq Hn. destruct c as [|[[ls a] rs] c].
    - cbn in Hp, Hf. subst s. rewrite <- Hf, <- Hm. cbn [scan fst snd].
      unfold m_next, m_unless_root. unfold mp_eqb at 1, mp_main, mp_get. cbn [mp_ptrs nth]. rewrite ptr_eqb_true. cbn [mbind res_bind].
      destruct F as [|F']; [lia|]. cbn. eexists. split; reflexivity.
    - cbn in Hf. subst rs. destruct (next_pos h ls a (e_fol e) c s st (Some g) fl Hs Hp Hq) as (r & q' & E & E' & Hr). rewrite Hm in E.
      exists r. split; [exact E|]. destruct (snd (scan apr st (e_fol e))) as [[[x l'] d]|] eqn:Es; [|exact Hr].
      intros _. apply Hr. rewrite Hn in E'; [congruence|]. intros E0. rewrite E0 in Es. discriminate.
  Qed.
  Lemma first_ok h c s g st fl : src h -> plug c s = tg -> safe h (Some g) ->
    exists r q, m_first F im pred root h st (MPtr [Some (raddr s); Some g] fl) = Ok (fst (fst (scan apr st (children s))), r) /\
      op_first (ni_ops im h) (Some g) = Ok q /\ found_ok q r (snd (scan apr st (children s))).
  Proof.
    intros Hs Hp Hq. unfold m_first. destruct (safe_first h (Some g) Hq) as (q & E & Hsq & _).
    unfold mp_first. rewrite (mp_do2 _ _ (Some g) _ _ _ (t_first h c s Hs Hp) E). cbn [mbind res_bind].
    destruct s as [y cs]. cbn [children] in *. destruct cs as [|x cs]; cbn [first_addr].
    - eexists _, q. split; [reflexivity|]. split; [exact E|]. reflexivity.
    - change (mp_bool (mp_make [Some (raddr x); q])) with true. cbv iota. cbn [scan].
      assert (Hpx : plug (([], y, cs) :: c) x = tg) by exact Hp.
      destruct (apr st (raddr x)) as [st1 d] eqn:Ea.
      rewrite mp_make2, (pred_ok st h (raddr x) q _ st1 d Hs (t_in _ _ Hpx) (t_notroot _ _ _ _ _ Hpx) Ea). cbn [mbind res_bind].
      destruct d as [| |u]; cbn [accepted answer].
      + destruct (next_pos h _ _ _ _ _ st1 q [false; false] Hs Hpx Hsq) as (r & q' & E1 & E2 & Hr). rewrite E1.
        destruct (scan apr st1 cs) as [[st2 tr2] res]. exists r, q. split; [reflexivity|]. split; [exact E|]. cbn [snd] in *.
        destruct res as [[[z l'] d]|]; [|exact Hr]. intros ->. apply Hr. congruence.
      + eexists _, q. split; [reflexivity|]. split; [exact E|]. intros ->. reflexivity.
      + eexists _, q. split; [reflexivity|]. split; [exact E|]. intros ->. reflexivity.
  Qed.
  Lemma scan_skips st (l : list tree) : (forall st x, x ∈ l -> exists st', apr st (raddr x) = (st', Skip)) -> snd (scan apr st l) = None.
  Proof.
    revert st. induction l as [|x l IH]; intros st H; [reflexivity|]. cbn. destruct (H st x) as [st' E]; [left|]. rewrite E.
    specialize (IH st'). destruct (scan apr st' l) as [[st2 tr2] r]. cbn in *. apply IH. intros st0 y Hy. apply H. right. exact Hy.
  Qed.

  (** *** The heap *)
  Definition cost (d : dec) : nat := match d with Skip => 0 | Keep => 1 | Use u => length (caddrs u) end.
  Definition costs (tr : list (addr * dec)) : nat := list_sum (map (fun x => cost (snd x)) tr).
  Lemma costs_app tr tr' : costs (tr ++ tr') = costs tr + costs tr'.
  Proof. unfold costs. rewrite map_app, list_sum_app'. reflexivity. Qed.
  Lemma costs_in m d tr : (m, d) ∈ tr -> cost d <= costs tr.
  Proof. unfold costs. induction tr as [|x tr IH]; intros H; [apply elem_of_nil in H as []|]. apply elem_of_cons in H as [<-|H]; cbn; [lia|]. specialize (IH H). change (fold_right Nat.add 0) with list_sum. lia. Qed.
  Record hinv (h : heap) (T : rose gl) (tr : list (addr * dec)) : Prop := HInv {
    h_rep : crep h (image T);
    h_frame : forall a, a ∉ caddrs (image T) -> h !! a = h0 !! a;
    h_own : forall a, a ∈ caddrs (image T) -> h0 !! a = None \/ a ∈ caddrs (image T0) \/ exists m u, (m, Use u) ∈ tr /\ a ∈ caddrs u;
    h_placed : placed T;
    h_use : forall g m u, (g, (m, inr u)) ∈ preorder T -> uses m = Some u /\ croot u = Some g;
    h_tr : forall m u, (m, Use u) ∈ tr -> uses m = Some u;
    h_root : rkey T = g0;
    h_par : forall m, m ∈ map fst tr -> under tg T m;
    h_in : forall m u, (m, Use u) ∈ tr -> exists g, (g, (m, inr u)) ∈ preorder T;
    h_size : length (caddrs (image T)) <= S (costs tr)
  }.
  Lemma wf_placed P T : wf tg P T -> (forall g m u, (g, (m, inr u)) ∈ preorder T -> uses m = Some u /\ croot u = Some g) -> placed T.
  Proof.
    induction T as [x ts IH] using rose_ind'. intros Hw Hu. apply wf_unfold in Hw as [(_ & _ & (kids & Hk & Hs) & H4) Hf]. apply placed_unfold. split.
    - split.
      + exists kids. split; [exact Hk|]. etransitivity; [|exact Hs]. apply sublist_inserts_r. reflexivity.
      + destruct x as [g [m [v|u]]]; [exact I|]. cbn in *. split; [exact H4|]. eapply Hu. left.
    - rewrite Forall_forall in *. intros t Ht. apply IH; [exact Ht|apply Hf, Ht|]. intros g m u Hin. apply (Hu g m u). cbn. right. apply elem_of_flat_map. eauto.
  Qed.
  Lemma h_src h T tr : hinv h T tr -> src h.
  Proof.
    intros H. eapply src_ext; [|exact h0_src]. intros a Ha. apply (h_frame _ _ _ H). intros Hin.
    destruct (h_own _ _ _ H a Hin) as [Hn|[Hn|(m & u & Hm & Hau)]].
    - destruct (src_dom h0 a h0_src Ha) as [n E]. congruence.
    - exact (h0_apart a Ha Hn).
    - apply (h_tr _ _ _ H) in Hm. destruct (uses_rep m u Hm) as (_ & _ & Hd). destruct (Hd a Hau) as [Hd' _]. exact (Hd' Ha).
  Qed.
  Lemma hinv_more h T tr tr' : hinv h T tr -> (forall m u, (m, Use u) ∉ tr') -> (forall m, m ∈ map fst tr' -> under tg T m) -> hinv h T (tr ++ tr').
  Proof.
    intros H Hno Hp. assert (Hu : forall m u, (m, Use u) ∈ tr' -> uses m = Some u) by (intros m u Hm; destruct (Hno m u Hm)). split; try apply H.
    - intros a Ha. destruct (h_own _ _ _ H a Ha) as [Hn|[Hn|(m & u & Hm & Hau)]]; auto. right. right. exists m, u. split; [set_solver +Hm|exact Hau].
    - intros m u Hm. apply elem_of_app in Hm as [Hm|Hm]; [apply (h_tr _ _ _ H), Hm|apply Hu, Hm].
    - intros m Hm. rewrite map_app in Hm. apply elem_of_app in Hm as [Hm|Hm]; [apply (h_par _ _ _ H), Hm|apply Hp, Hm].
    - intros m u Hm. apply elem_of_app in Hm as [Hm|Hm]; [apply (h_in _ _ _ H), Hm|destruct (Hno m u Hm)].
    - pose proof (h_size _ _ _ H). rewrite costs_app. lia.
  Qed.
  Lemma scan_only st (l : list tree) st' tr r : scan apr st l = (st', tr, r) -> forall m u, (m, Use u) ∈ tr -> exists x l', r = Some (x, l', Use u) /\ m = raddr x.
  Proof.
    revert st tr. induction l as [|y l IH]; intros st tr E m u Hin; cbn in E; [injection E as <- <- <-; apply elem_of_nil in Hin as []|].
    destruct (apr st (raddr y)) as [st1 d1] eqn:Ea. destruct d1.
    - destruct (scan apr st1 l) as [[st2 tr2] r2] eqn:Es. injection E as <- <- <-. apply elem_of_cons in Hin as [Hin|Hin]; [discriminate|]. eapply IH; eassumption.
    - injection E as <- <- <-. apply elem_of_list_singleton in Hin. discriminate.
    - injection E as <- <- <-. apply elem_of_list_singleton in Hin as [= -> ->]. eauto.
  Qed.
  Lemma scan_uses st (l : list tree) st' tr r : scan apr st l = (st', tr, r) -> forall m u, (m, Use u) ∈ tr -> uses m = Some u.
  Proof.
    intros E. pose proof (scan_calls apr _ _ _ _ _ E) as Hc. clear E. induction Hc as [|st0 m st1 d tr st2 Ea _ IH]; intros m' u Hin.
    - apply elem_of_nil in Hin as [].
    - apply elem_of_cons in Hin as [[=-> <-]|Hin]; [eapply apr_use, Ea|eauto].
  Qed.
  Lemma scan_not_none st (l : list tree) st' tr x l' d : scan apr st l = (st', tr, Some (x, l', d)) -> exists st1, apr st1 (raddr x) = (st', d).
  Proof.
    revert st tr. induction l as [|y l IH]; intros st tr E; [discriminate|]. cbn in E. destruct (apr st (raddr y)) as [st1 d1] eqn:Ea. destruct d1.
    - destruct (scan apr st1 l) as [[st2 tr2] r2] eqn:Es. injection E as <- <- ->. eapply IH, Es.
    - injection E as <- <- <- <- <-. eauto.
    - injection E as <- <- <- <- <-. eauto.
  Qed.

  (** The node for the accepted node [y]. *)
  Definition fresh_part (h : heap) (r : mptr) : res (mptr * heap) :=
    match mp_get 1 r with
    | None => v ← ni_value im h (mp_main r); '(a, h1) ← ni_from_value im al h v; Ok (mp_assign 1 (Some a) r, h1)
    | Some _ => Ok (r, h)
    end.
  Lemma create_ok h T tr y cy d : hinv h T tr -> plug cy y = tg -> d <> Skip -> raddr y ∉ map fst tr -> (forall u, d = Use u -> uses (raddr y) = Some u) ->
    exists g' h1 fl, fresh_part h (answer (mp_make [Some (raddr y); None]) d) = Ok (MPtr [Some (raddr y); Some g'] fl, h1) /\ nth 1 fl false = true /\
      crep h1 (image (leaf_of g' y d)) /\ croot (image (leaf_of g' y d)) = Some g' /\ 
      (forall z, z ∈ caddrs (image (leaf_of g' y d)) -> z ∉ caddrs (image T) /\ z ∉ raddrs tg /\ (h0 !! z = None \/ exists u, d = Use u /\ z ∈ caddrs u)) /\
      (forall z, z ∉ caddrs (image (leaf_of g' y d)) -> h1 !! z = h !! z) /\ length (caddrs (image (leaf_of g' y d))) = cost d.
  Proof.
    intros H Hy Hd Htr Hu. pose proof (h_src _ _ _ H) as Hs. destruct d as [| |u]; [congruence| |].
    - cbn [answer]. unfold fresh_part. change (mp_get 1 (mp_make [Some (raddr y); None])) with (None : ptr).
      change (mp_main (mp_make [Some (raddr y); None])) with (Some (fst (label y))). cbv iota.
      rewrite (src_val h (label y) Hs) by (rewrite <- Hy; apply position_elem). cbn [mbind res_bind].
      destruct (k_value _ _ _ _ KO h (snd (label y))) as (a & h1 & c & E & Hr & Hv & Hlen & _ & Hc & Hn & Hf). rewrite E. cbn [mbind res_bind].
      exists a, h1, [false; true]. split; [reflexivity|]. split; [reflexivity|]. unfold leaf_of. rewrite (img_leaf c a _ _ Hr Hv).
      split; [exact Hc|]. split; [exact Hr|]. split; [|split; [exact Hf|exact Hlen]]. intros z Hz. specialize (Hn z Hz).
      assert (Hz1 : z ∉ caddrs (image T)).
      { intros Hin. destruct (k_dom _ _ _ _ KO _ _ _ (h_rep _ _ _ H) Hin) as [n En]. congruence. }
      split; [exact Hz1|]. split; [|left; rewrite <- (h_frame _ _ _ H z Hz1); exact Hn].
      intros Hin. destruct (src_dom h z Hs Hin) as [n En]. congruence.
    - specialize (Hu u eq_refl). destruct (uses_rep _ _ Hu) as (Hc & Hr & Hdis). destruct (croot u) as [b|] eqn:Eb; [|congruence].
      exists b, h, [false; true]. split; [cbn [answer]; rewrite Eb; reflexivity|]. split; [reflexivity|]. unfold leaf_of. rewrite img_use.
      assert (Hap : forall z, z ∈ caddrs u -> z ∉ caddrs (image T)).
      { intros z Hz Hin. destruct (h_own _ _ _ H z Hin) as [Hn|[Hn|(m & u' & Hm & Hau)]].
        - destruct (k_dom _ _ _ _ KO _ _ _ Hc Hz) as [n En]. congruence.
        - destruct (Hdis z Hz) as [_ ?]. auto.
        - pose proof (h_tr _ _ _ H _ _ Hm) as Hm'. refine (uses_apart (raddr y) m u u' z Hu Hm' _ Hz Hau). intros E. apply Htr.
          rewrite E. apply elem_of_list_fmap. exists (m, Use u'). auto. }
      split; [eapply (k_ext _ _ _ _ KO); [|exact Hc]; intros z Hz; apply (h_frame _ _ _ H), Hap, Hz|]. split; [exact Eb|].
      split; [|split; reflexivity]. intros z Hz. split; [apply Hap, Hz|]. split; [apply (Hdis z Hz)|right; eauto].
  Qed.

  Lemma preorder_snoc_in (cx : ctx gl) x ts s l : children s = [] ->
    l ∈ preorder (plug cx (Rose x (ts ++ [s]))) -> l ∈ preorder (plug cx (Rose x ts)) \/ l = label s.
  Proof.
    intros Hs. rewrite !preorder_plug, !elem_of_app. cbn. rewrite flat_map_app'. cbn. destruct s as [y ys]. cbn in Hs |- *. subst ys. cbn.
    rewrite !elem_of_cons, !elem_of_app. rewrite !elem_of_cons. set_solver +.
  Qed.
  Lemma tat_length m kids : tat tg m kids -> length kids < F.
  Proof. intros (c & v & H). apply sibs_length. exact (sibs_kids _ _ H). Qed.

  Lemma attach_ok h T tr tr' y cy d cx x ts g' h1 P' : hinv h T tr -> T = plug cx (Rose x ts) -> pl_use (snd (snd x)) = false ->
    inv tg (plug cx (Rose x (ts ++ [leaf_of g' y d]))) P' (tr ++ tr') -> plug cy y = tg ->
    (raddr y, d) ∈ tr' -> (forall m u, (m, Use u) ∈ tr' -> uses m = Some u) -> (forall m u, (m, Use u) ∈ tr' -> m = raddr y /\ d = Use u) -> (forall m, m ∈ map fst tr' -> under tg T m) ->
    crep h1 (image (leaf_of g' y d)) -> croot (image (leaf_of g' y d)) = Some g' -> 
    (forall z, z ∈ caddrs (image (leaf_of g' y d)) -> z ∉ caddrs (image T) /\ z ∉ raddrs tg /\ (h0 !! z = None \/ exists u, d = Use u /\ z ∈ caddrs u)) ->
    (forall z, z ∉ caddrs (image (leaf_of g' y d)) -> h1 !! z = h !! z) -> length (caddrs (image (leaf_of g' y d))) = cost d ->
    exists h2, like h1 (Some (fst x)) (Some g') (Some (raddr y)) = Ok h2 /\ hinv h2 (plug cx (Rose x (ts ++ [leaf_of g' y d]))) (tr ++ tr').
  Proof.
    intros H ET Hx Hi Hy Hin Hu Honly Hpar Hc Hr Hz Hf Hcost. set (s := leaf_of g' y d) in *. rewrite ET in *.
    assert (Huse : forall g m u, (g, (m, inr u)) ∈ preorder (plug cx (Rose x (ts ++ [s]))) -> uses m = Some u /\ croot u = Some g).
    { intros g m u Hl. apply (preorder_snoc_in cx x ts s _ eq_refl) in Hl as [Hl|Hl]; [apply (h_use _ _ _ H _ _ _ Hl)|].
      unfold s, leaf_of in Hl. cbn in Hl. destruct d as [| |u0]; [discriminate|discriminate|]. injection Hl as -> -> ->.
      split; [apply Hu, Hin|]. unfold s, leaf_of in Hr. rewrite img_use in Hr. exact Hr. }
    assert (Hpl : placed (plug cx (Rose x (ts ++ [s])))) by (eapply wf_placed; [apply (i_wf _ _ _ _ Hi)|exact Huse]).
    assert (Hs1 : src h1).
    { eapply src_ext; [|apply (h_src _ _ _ H)]. intros a Ha. apply Hf. intros Hin'. destruct (Hz a Hin') as (_ & Hn & _). auto. }
    assert (Hc1 : crep h1 (image (plug cx (Rose x ts)))).
    { eapply (k_ext _ _ _ _ KO); [|apply (h_rep _ _ _ H)]. intros a Ha. apply Hf. intros Hin'. destruct (Hz a Hin') as (Hn & _). auto. }
    assert (Hlen : length ts < F).
    { assert (Hpn : exists kids, tat tg (fst (snd x)) kids /\ length ts <= length kids).
      { pose proof (wf_sub _ _ _ _ (i_wf _ _ _ _ Hi)) as Hw. apply wf_unfold in Hw as [(_ & _ & (kids & Hk & Hsl) & _) _]. exists kids. split; [exact Hk|].
        apply sublist_length in Hsl. rewrite map_app, !app_length, !map_length in Hsl. lia. }
      destruct Hpn as (kids & Hk & Hl). apply tat_length in Hk. lia. }
    destruct (img_like h1 cx x ts s) as (h2 & E & Hc2 & Hp2 & Hf2); auto.
    { intros z Hzs. apply (Hz z Hzs). }
    exists h2. split; [exact E|]. split.
    - exact Hc2.
    - intros a Ha. rewrite Hp2, elem_of_app in Ha. rewrite Hf2, Hf by tauto. apply (h_frame _ _ _ H). tauto.
    - intros a. rewrite Hp2, elem_of_app. intros [Ha|Ha].
      + destruct (h_own _ _ _ H a Ha) as [Hn|[Hn|(m & u & Hm & Hau)]]; auto. right. right. exists m, u. split; [set_solver +Hm|exact Hau].
      + destruct (Hz a Ha) as (_ & _ & [Hn|(u & -> & Hau)]); [auto|]. right. right. exists (raddr y), u. split; [set_solver +Hin|exact Hau].
    - exact Hpl.
    - exact Huse.
    - intros m u Hm. apply elem_of_app in Hm as [Hm|Hm]; [apply (h_tr _ _ _ H), Hm|apply Hu, Hm].
    - rewrite <- (h_root _ _ _ H). apply rkey_plug_eq. reflexivity.
    - assert (Hmore : forall m, under tg (plug cx (Rose x ts)) m -> under tg (plug cx (Rose x (ts ++ [s]))) m).
      { intros m (g & pm & pl & kids & Hl & Hk). exists g, pm, pl, kids. split; [|exact Hk]. revert Hl. apply preorder_plug_in. cbn. rewrite flat_map_app'. set_solver +. }
      intros m Hm. rewrite map_app in Hm. apply Hmore. apply elem_of_app in Hm as [Hm|Hm]; [apply (h_par _ _ _ H), Hm|apply Hpar, Hm].
    - intros m u Hm. apply elem_of_app in Hm as [Hm|Hm].
      + destruct (h_in _ _ _ H m u Hm) as [g Hg]. exists g. revert Hg. apply preorder_plug_in. cbn. rewrite flat_map_app'. set_solver +.
      + destruct (Honly m u Hm) as [-> Ed]. exists g'. assert (Hl : label s = (g', (raddr y, inr u))) by (unfold s, leaf_of; rewrite Ed; reflexivity).
        rewrite <- Hl. change (label s ∈ preorder (plug ((ts, x, []) :: cx) s)). apply position_elem.
    - rewrite Hp2, app_length, costs_app. pose proof (h_size _ _ _ H) as Hsz. pose proof (costs_in _ _ _ Hin). lia.
  Qed.

  (** *** One call of [get_next_sibling], [get_first_child] *)
  Notation ptrs e fl := (MPtr [Some (e_main e); Some (e_gen e)] fl).
  Notation weight l := (length (flat_map raddrs l)).
  Definition step_post (rest : list entry) (bound : nat) (st : St) (tr : list (addr * dec)) (Q : list entry) (st' : St) (h' : heap) (r : mptr) : Prop :=
    exists tr' T', calls apr st tr' st' /\ hinv h' T' (tr ++ tr') /\
      ((mp_bool r = false /\ inv tg T' (rest ++ Q) (tr ++ tr')) \/
       (exists e' fl', r = ptrs e' fl' /\ at_target tg e' /\ inv tg T' (e' :: rest ++ Q) (tr ++ tr') /\ length (pend e') < bound)).
  (** When a node is to be created. *)
  Definition creating_ok (nav : res (St * mptr)) (st : St) (tr : list (addr * dec)) (T : rose gl) (h : heap) : Prop :=
    forall st1 r, nav = Ok (st1, r) -> mp_bool r = true -> mp_get 1 r = None ->
    exists tr', calls apr st tr' st1 /\ hinv h T (tr ++ tr') /\ NoDup (map fst (tr ++ tr')).
  Lemma inv_traced T P (tr : list (addr * dec)) : inv tg T P tr -> NoDup (map fst tr).
  Proof. intros H. pose proof (i_pend _ _ _ _ H) as Hn. apply NoDup_app in Hn as [Hn _]. exact Hn. Qed.
  Lemma mp_bool_main r p q fl : r = MPtr [Some p; q] fl -> mp_bool r = true.
  Proof. intros ->. reflexivity. Qed.
  Lemma entry_safe h T P tr e : inv tg T P tr -> hinv h T tr -> e ∈ P -> safe h (Some (e_gen e)).
  Proof.
    intros Hi Hh He. right. exists (image T), (e_gen e). split; [reflexivity|]. split; [apply (h_rep _ _ _ Hh)|].
    apply img_keys; [apply (h_placed _ _ _ Hh)|]. eapply gens_in; eassumption.
  Qed.
  Lemma weight_some (sk : list tree) x l' g d : length (pend (entry_of (C := C) g x l' d)) < weight (sk ++ x :: l').
  Proof.
    unfold pend. cbn. rewrite flat_map_app'. rewrite flat_map_app' at 1. cbn. rewrite !app_length. rewrite (raddrs_kids x). cbn. lia.
  Qed.
  Lemma fresh_key h T tr g' : hinv h T tr -> g' ∉ caddrs (image T) -> g' ∉ keys T.
  Proof. intros H Hn Hk. apply Hn. apply img_keys; [apply (h_placed _ _ _ H)|exact Hk]. Qed.
  Lemma pend_distinct T e Q (tr : list (addr * dec)) a : inv tg T (e :: Q) tr -> a ∈ pend e -> a ∉ map fst tr.
  Proof.
    intros H Ha Hin. pose proof (i_pend _ _ _ _ H) as Hnd. apply NoDup_app in Hnd as (_ & Hnd & _).
    apply (Hnd _ Hin). cbn. apply elem_of_app. left. exact Ha.
  Qed.
  Lemma raddr_weight (y : tree) l : y ∈ l -> raddr y ∈ flat_map raddrs l.
  Proof. intros H. apply elem_of_flat_map. exists y. split; [exact H|]. destruct y as [y ys]. unfold raddrs, raddr. cbn. left. Qed.

  Lemma step_next T e Q tr st h fl : inv tg T (e :: Q) tr -> hinv h T tr -> at_target tg e ->
    exists st' h' r, gen_next F im al like pred root st h (ptrs e fl) = Ok (st', h', r) /\ creating_ok (m_next F im pred root h st (ptrs e fl)) st tr T h /\ step_post [no_fol e] (weight (e_fol e)) st tr Q st' h' r.
  Proof.
    intros Hi Hh Ht. pose proof (h_src _ _ _ Hh) as Hs.
    destruct (entry_at tg T (e :: Q) tr e Hi ltac:(left)) as (c & pl & ts & ET & Hpl & Hts & _ & _ & Hfol).
    assert (Hslave : e_fol e <> [] -> op_next (ni_ops im h) (Some (e_gen e)) = Ok None /\ exists ls ga ma va c', c = (ls, (ga, (ma, inl va)), []) :: c' /\ op_parent (ni_ops im h) (Some (e_gen e)) = Ok (Some ga)).
    { intros Hn. destruct (Hfol Hn) as (ls & ga & ma & va & c' & ->). cbn [plug] in ET.
      pose proof (h_rep _ _ _ Hh) as Hr. pose proof (h_placed _ _ _ Hh) as Hp. rewrite ET in Hr, Hp.
      destruct (img_last h c' _ ls _ Hr Hp) as [E1 E2]. split; [exact E1|]. eauto 10. }
    destruct (next_ok h e (e_gen e) st fl Hs Ht) as (r & E & Hr); [eapply entry_safe; [exact Hi|exact Hh|left]|intros Hn; apply Hslave, Hn|].
    unfold gen_next, gen_navigate. cbn [mp_all_valid mp_ptrs forallb is_null negb andb guard_res mbind res_bind]. rewrite E. cbn [mbind res_bind].
    destruct (scan apr st (e_fol e)) as [[st' tr'] res] eqn:Es. cbn [fst snd] in *.
    pose proof (scan_calls apr _ _ _ _ _ Es) as Hcalls. pose proof (scan_uses _ _ _ _ _ Es) as Huses. pose proof (scan_only _ _ _ _ _ Es) as Honly0.
    assert (Hunder : forall m, m ∈ map fst tr' -> under tg T m) by (intros m Hin; eapply fol_under; [exact Hi|eapply scan_in; [exact Es|exact Hin]]).
    destruct res as [[[x l'] d]|]; cbn [found_ok] in Hr.
    - specialize (Hr eq_refl).
      destruct (scan_some apr _ _ _ _ _ _ _ Es) as (sk & Hsk & Htr & Hd & Hin & _).
      assert (Hfn : e_fol e <> []) by (rewrite Hsk; destruct sk; discriminate).
      destruct (Hslave Hfn) as (_ & ls & ga & ma & va & c' & -> & Hpar). cbn [plug] in ET.
      destruct Ht as (ct & s & Hp & Hm & Hk & Hrs).
      destruct ct as [|[[lt at'] rt] ct]; [cbn in Hrs; congruence|]. cbn in Hrs. subst rt.
      assert (Hx : plug ((lt ++ s :: sk, at', l') :: ct) x = tg) by (cbn; rewrite <- app_assoc; cbn [app]; rewrite <- Hsk; exact Hp).
      destruct (create_ok h T tr x _ d Hh Hx Hd) as (g' & h1 & fl1 & Ec & Hfl & Hc1 & Hr1 & Hz1 & Hf1 & Hl1).
      { eapply pend_distinct; [exact Hi|]. rewrite pend_app. apply elem_of_app. right. apply raddr_weight. rewrite Hsk. set_solver +. }
      { intros u ->. apply Huses, Hin. }
      assert (Hb : mp_bool r = true) by (rewrite Hr; destruct d; reflexivity). rewrite Hb.
      unfold fresh_part in Ec. rewrite <- Hr in Ec. rewrite Ec. cbn [mbind res_bind]. change (mp_is_assigned 1 (MPtr [Some (raddr x); Some g'] fl1)) with (nth 1 fl1 false). rewrite Hfl.
      change (mp_get 1 (ptrs e fl)) with (Some (e_gen e)). change (mp_get 1 (MPtr [Some (raddr x); Some g'] fl1)) with (Some g').
      change (mp_main (MPtr [Some (raddr x); Some g'] fl1)) with (Some (raddr x)). unfold attach_sibling.
      assert (Hg' : g' ∉ keys T).
      { eapply fresh_key; [exact Hh|]. apply Hz1. apply (k_root _ _ _ _ KO). exact Hr1. }
      pose proof (sib_some tg apr c' ls (ga, (ma, inl va)) pl ts e Q tr st st' tr' x l' d g') as Hss. rewrite <- ET in Hss.
      specialize (Hss Hi). specialize (Hss ltac:(exists ((lt, at', e_fol e) :: ct), s; auto) Es Hg' eq_refl).
      rewrite app_assoc in Hss.
      assert (Honly : forall m u, (m, Use u) ∈ tr' -> m = raddr x /\ d = Use u) by (intros m u Hmu; destruct (Honly0 m u Hmu) as (x2 & l2 & [= <- _ <-] & ->); auto).
      destruct (attach_ok h T tr tr' x _ d c' (ga, (ma, inl va)) (ls ++ [Rose (e_gen e, (e_main e, pl)) ts]) g' h1 _ Hh ET eq_refl Hss Hx Hin Huses Honly Hunder Hc1 Hr1 Hz1 Hf1 Hl1)
        as (h2 & El & Hh2).
      assert (Hpar1 : op_parent (ni_ops im h1) (Some (e_gen e)) = Ok (Some ga)).
      { assert (Hrep1 : crep h1 (image T)).
        { eapply (k_ext _ _ _ _ KO); [|apply (h_rep _ _ _ Hh)]. intros z Hz. apply Hf1. intros Hin'. destruct (Hz1 z Hin') as (Hn & _). auto. }
        pose proof (h_placed _ _ _ Hh) as Hpp. rewrite ET in Hrep1, Hpp. exact (proj2 (img_last h1 c' _ ls _ Hrep1 Hpp)). }
      rewrite Hpar1. cbn [mbind res_bind fst] in El |- *. rewrite El. cbn [mbind res_bind].
      assert (Hcr : creating_ok (m_next F im pred root h st (ptrs e fl)) st tr T h).
      { intros st1 r1 E1 _ Hg1. rewrite E in E1. injection E1 as <- <-. exists tr'. split; [exact Hcalls|]. split; [|apply (inv_traced _ _ _ Hss)].
        apply hinv_more; [exact Hh| |exact Hunder]. intros m u Hmu. destruct (Honly m u Hmu) as [-> ->]. rewrite Hr in Hg1. cbn in Hg1.
        destruct (uses_rep _ _ (Huses _ _ Hmu)) as (_ & Hn & _). apply Hn. unfold answer, mp_get in Hg1. cbn in Hg1. exact Hg1. }
      eexists _, _, _. split; [reflexivity|]. split; [rewrite E in Hcr; exact Hcr|]. exists tr', (plug c' (Rose (ga, (ma, inl va)) ((ls ++ [Rose (e_gen e, (e_main e, pl)) ts]) ++ [leaf_of g' x d]))).
      split; [exact Hcalls|]. split; [exact Hh2|]. right. exists (entry_of g' x l' d), fl1. split; [reflexivity|]. split.
      + exists ((lt ++ s :: sk, at', l') :: ct), x. auto.
      + split; [exact Hss|]. rewrite Hsk. apply weight_some.
    - rewrite Hr. eexists _, _, _. split; [reflexivity|]. split; [intros st1 r1 E1 Hb1 _; injection E1 as <- <-; congruence|]. exists tr', T. split; [exact Hcalls|]. split; [apply hinv_more; [assumption|intros m u Hmu; destruct (Honly0 m u Hmu) as (x2 & l2 & Hx2 & _); discriminate|assumption]|]. left. split; [exact Hr|].
      eapply sib_none; eassumption.
  Qed.

  Lemma step_first T e e0 Q tr st h fl : inv tg T (e :: Q) tr -> hinv h T tr -> at_target tg e0 -> e = no_fol e0 ->
    exists st' h' r, gen_first F im al like pred root st h (ptrs e fl) = Ok (st', h', r) /\ creating_ok (m_first F im pred root h st (ptrs e fl)) st tr T h /\ step_post [] (weight (e_kids e)) st tr Q st' h' r.
  Proof.
    intros Hi Hh Ht Ee. pose proof (h_src _ _ _ Hh) as Hs.
    destruct (entry_at tg T (e :: Q) tr e Hi ltac:(left)) as (c & pl & ts & ET & Hpl & Hts & _ & _ & _).
    assert (Ht' := Ht). destruct Ht' as (ct & s & Hp & Hm & Hk & _).
    assert (Hm' : raddr s = e_main e) by (rewrite Ee; exact Hm). assert (Hk' : children s = e_kids e) by (rewrite Ee; exact Hk). assert (Hfol : e_fol e = []) by (rewrite Ee; reflexivity).
    destruct (first_ok h ct s (e_gen e) st fl Hs Hp) as (r & q & E & Eq & Hr); [eapply entry_safe; [exact Hi|exact Hh|left]|].
    rewrite Hm', Hk' in *.
    unfold gen_first, gen_navigate. cbn [mp_all_valid mp_ptrs forallb is_null negb andb guard_res mbind res_bind]. rewrite E. cbn [mbind res_bind].
    destruct (scan apr st (e_kids e)) as [[st' tr'] res] eqn:Es. cbn [fst snd] in *.
    pose proof (scan_calls apr _ _ _ _ _ Es) as Hcalls. pose proof (scan_uses _ _ _ _ _ Es) as Huses. pose proof (scan_only _ _ _ _ _ Es) as Honly0.
    assert (Hunder : forall m, m ∈ map fst tr' -> under tg T m).
    { intros m Hin. exists (e_gen e), (e_main e), pl, (e_kids e). split; [rewrite ET; exact (position_elem c (Rose (e_gen e, (e_main e, pl)) ts))|].
      split; [|eapply scan_in; [exact Es|exact Hin]]. destruct s as [[sm sv] cs]. unfold raddr in Hm'. cbn in Hm', Hk'. subst sm cs. exists ct, sv. exact Hp. }
    destruct res as [[[x l'] d]|]; cbn [found_ok] in Hr.
    - destruct (scan_some apr _ _ _ _ _ _ _ Es) as (sk & Hsk & Htr & Hd & Hin & _).
      destruct (e_use e) eqn:Eu.
      { exfalso. destruct pl as [v|u]; [discriminate|].
        destruct (h_use _ _ _ Hh (e_gen e) (e_main e) u) as [Hu _]; [rewrite ET; exact (position_elem c (Rose (e_gen e, (e_main e, inr u)) ts))|].
        assert (Htat : tat tg (e_main e) (e_kids e)).
        { destruct s as [[sm sv] cs]. unfold raddr in Hm'. cbn in Hm', Hk'. subst sm cs. exists ct, sv. exact Hp. }
        pose proof (scan_skips st (e_kids e) (fun st0 y Hy => use_kids _ _ _ Hu Htat st0 y Hy)) as Hn. rewrite Es in Hn. discriminate. }
      assert (Hkn : e_kids e <> []) by (rewrite Hsk; destruct sk; discriminate).
      rewrite (Hts (or_intror Hkn)) in ET. destruct pl as [v|u]; [|discriminate].
      assert (Hq : q = None).
      { pose proof (h_rep _ _ _ Hh) as Hrp. pose proof (h_placed _ _ _ Hh) as Hpp. rewrite ET in Hrp, Hpp.
        pose proof (img_first h c _ Hrp Hpp eq_refl) as E1. cbn in E1. congruence. }
      specialize (Hr Hq).
      destruct s as [sl cs]. cbn in Hk'. subst cs.
      assert (Hx : plug ((sk, sl, l') :: ct) x = tg) by (cbn; rewrite <- Hsk; exact Hp).
      destruct (create_ok h T tr x _ d Hh Hx Hd) as (g' & h1 & fl1 & Ec & Hfl & Hc1 & Hr1 & Hz1 & Hf1 & Hl1).
      { eapply pend_distinct; [exact Hi|]. rewrite pend_app. apply elem_of_app. left. apply raddr_weight. rewrite Hsk. set_solver +. }
      { intros u ->. apply Huses, Hin. }
      assert (Hb : mp_bool r = true) by (rewrite Hr; destruct d; reflexivity). rewrite Hb.
      unfold fresh_part in Ec. rewrite <- Hr in Ec. rewrite Ec. cbn [mbind res_bind]. change (mp_is_assigned 1 (MPtr [Some (raddr x); Some g'] fl1)) with (nth 1 fl1 false). rewrite Hfl.
      change (mp_get 1 (ptrs e fl)) with (Some (e_gen e)). change (mp_get 1 (MPtr [Some (raddr x); Some g'] fl1)) with (Some g').
      assert (Hg' : g' ∉ keys T).
      { eapply fresh_key; [exact Hh|]. apply Hz1. apply (k_root _ _ _ _ KO). exact Hr1. }
      pose proof (kid_some tg apr c (e_main e) v e Q tr st st' tr' x l' d g') as Hss. rewrite <- ET in Hss.
      specialize (Hss Hi ltac:(right; exists e0; auto) Hfol Eu Es Hg').
      assert (Honly : forall m u, (m, Use u) ∈ tr' -> m = raddr x /\ d = Use u) by (intros m u Hmu; destruct (Honly0 m u Hmu) as (x2 & l2 & [= <- _ <-] & ->); auto).
      destruct (attach_ok h T tr tr' x _ d c (e_gen e, (e_main e, inl v)) [] g' h1 _ Hh ET eq_refl Hss Hx Hin Huses Honly Hunder Hc1 Hr1 Hz1 Hf1 Hl1) as (h2 & El & Hh2).
      cbn [fst] in El. change (mp_main (MPtr [Some (raddr x); Some g'] fl1)) with (Some (raddr x)). rewrite El. cbn [mbind res_bind].
      assert (Hcr : creating_ok (m_first F im pred root h st (ptrs e fl)) st tr T h).
      { intros st1 r1 E1 _ Hg1. rewrite E in E1. injection E1 as <- <-. exists tr'. split; [exact Hcalls|]. split; [|apply (inv_traced _ _ _ Hss)].
        apply hinv_more; [exact Hh| |exact Hunder]. intros m u Hmu. destruct (Honly m u Hmu) as [-> ->]. rewrite Hr in Hg1. cbn in Hg1.
        destruct (uses_rep _ _ (Huses _ _ Hmu)) as (_ & Hn & _). apply Hn. unfold answer, mp_get in Hg1. cbn in Hg1. exact Hg1. }
      eexists _, _, _. split; [reflexivity|]. split; [rewrite E in Hcr; exact Hcr|]. exists tr', (plug c (Rose (e_gen e, (e_main e, inl v)) [leaf_of g' x d])).
      split; [exact Hcalls|]. split; [exact Hh2|]. right. exists (entry_of g' x l' d), fl1. split; [reflexivity|]. split.
      + exists ((sk, sl, l') :: ct), x. auto.
      + split; [exact Hss|]. rewrite Hsk. apply weight_some.
    - rewrite Hr. eexists _, _, _. split; [reflexivity|]. split; [intros st1 r1 E1 Hb1 _; injection E1 as <- <-; congruence|]. exists tr', T. split; [exact Hcalls|]. split; [apply hinv_more; [assumption|intros m u Hmu; destruct (Honly0 m u Hmu) as (x2 & l2 & Hx2 & _); discriminate|assumption]|]. left. split; [exact Hr|].
      eapply kid_none; eassumption.
  Qed.

  (** *** The queue of the breadth-first iterator *)
  Definition queued (p : mptr) (e : entry) : Prop := (exists fl, p = ptrs e fl) /\ at_target tg e.
  Definition total (Q : list entry) : nat := list_sum (map (fun e => S (length (pend e))) Q).
  Lemma total_app Q Q' : total (Q ++ Q') = total Q + total Q'.
  Proof. unfold total. rewrite map_app, list_sum_app'. reflexivity. Qed.
  Lemma total_cons e Q : total (e :: Q) = S (length (pend e)) + total Q.
  Proof. reflexivity. Qed.
  Notation gen_process := (gen_process F im al like pred root).
  Notation gen_increment := (gen_increment F im al like pred root).
  Notation gen_loop := (gen_loop F im al like pred root).
  Notation calls := (calls apr).

  Lemma process_ok T e Q tr st h fl open : inv tg T (no_fol e :: Q) tr -> hinv h T tr -> at_target tg e -> Forall2 queued open Q ->
    exists st' h' open' tr' T' Q', gen_process st h (ptrs e fl) open = Ok (st', h', open') /\ calls st tr' st' /\ hinv h' T' (tr ++ tr') /\
      inv tg T' Q' (tr ++ tr') /\ Forall2 queued open' Q' /\ total Q' <= total Q + weight (e_kids e).
  Proof.
    intros Hi Hh Ht Hq. destruct (step_first T (no_fol e) e Q tr st h fl Hi Hh Ht eq_refl) as (st' & h' & r & E & _ & tr' & T' & Hc & Hh' & Hcase).
    change (ptrs (no_fol e) fl) with (ptrs e fl) in E. unfold Gen.gen_process. rewrite E. cbn [mbind res_bind].
    destruct Hcase as [[Hb Hi']|(e' & fl' & -> & Ht' & Hi' & Hw)].
    - rewrite Hb. eexists _, _, _, tr', T', Q. split; [reflexivity|]. cbn in Hi'. split; [exact Hc|]. split; [exact Hh'|]. split; [exact Hi'|]. split; [exact Hq|lia].
    - change (mp_bool (ptrs e' fl')) with true. cbv iota. eexists _, _, _, tr', T', (Q ++ [e']). split; [reflexivity|]. cbn in Hi', Hw.
      split; [exact Hc|]. split; [exact Hh'|]. split; [eapply inv_perm; [|exact Hi']; apply Permutation_cons_append|]. split.
      + apply Forall2_app; [exact Hq|]. constructor; [|constructor]. split; eauto.
      + rewrite total_app, total_cons. cbn. lia.
  Qed.
  Lemma increment_ok T e Q tr st h p open : inv tg T (e :: Q) tr -> hinv h T tr -> queued p e -> Forall2 queued open Q ->
    exists st' h' open' tr' T' Q', gen_increment st h (p :: open) = Ok (st', h', p, open') /\ calls st tr' st' /\ hinv h' T' (tr ++ tr') /\
      inv tg T' Q' (tr ++ tr') /\ Forall2 queued open' Q' /\ total Q' < total (e :: Q) /\ mp_bool p = true.
  Proof.
    intros Hi Hh [[fl ->] Ht] Hq. destruct (step_next T e Q tr st h fl Hi Hh Ht) as (st1 & h1 & r & E & _ & tr1 & T1 & Hc & Hh1 & Hcase).
    unfold Gen.gen_increment. rewrite E. cbn [mbind res_bind].
    assert (Hnext : exists open1 Q1, (if mp_bool r then r :: open else open) = open1 /\ inv tg T1 (no_fol e :: Q1) (tr ++ tr1) /\ Forall2 queued open1 Q1 /\
      total Q1 <= total Q + weight (e_fol e)).
    { destruct Hcase as [[Hb Hi']|(e' & fl' & -> & Ht' & Hi' & Hw)].
      - rewrite Hb. exists open, Q. split; [reflexivity|]. split; [exact Hi'|]. split; [exact Hq|lia].
      - exists (ptrs e' fl' :: open), (e' :: Q). split; [reflexivity|]. cbn in Hi'. split; [eapply inv_perm; [|exact Hi']; apply perm_swap|].
        split; [constructor; [split; eauto|exact Hq]|]. rewrite total_cons. lia. }
    destruct Hnext as (open1 & Q1 & -> & Hi1 & Hq1 & Hw1).
    destruct (process_ok T1 e Q1 (tr ++ tr1) st1 h1 fl open1 Hi1 Hh1 Ht Hq1) as (st2 & h2 & open2 & tr2 & T2 & Q2 & E2 & Hc2 & Hh2 & Hi2 & Hq2 & Hw2).
    rewrite E2. cbn [mbind res_bind]. exists st2, h2, open2, (tr1 ++ tr2), T2, Q2. split; [reflexivity|]. rewrite app_assoc.
    split; [eapply calls_app; eassumption|]. split; [exact Hh2|]. split; [exact Hi2|]. split; [exact Hq2|]. split; [|reflexivity].
    rewrite total_cons, pend_app, app_length. lia.
  Qed.
  Lemma loop_ok k : forall T Q tr st h cur open, inv tg T Q tr -> hinv h T tr -> Forall2 queued open Q -> mp_bool cur = true -> S (total Q) < k ->
    exists st' h' tr' T', gen_loop k st h cur open = Ok (st', h') /\ calls st tr' st' /\ hinv h' T' (tr ++ tr') /\ inv tg T' [] (tr ++ tr').
  Proof.
    induction k as [|k IH]; intros T Q tr st h cur open Hi Hh Hq Hc Hk; [lia|]. cbn [Gen.gen_loop]. rewrite Hc.
    inversion Hq as [|p e open' Q' Hp Hq' E1 E2]; subst.
    - cbn [Gen.gen_increment mbind res_bind]. destruct k as [|k]; [lia|]. cbn [Gen.gen_loop]. change (mp_bool (mp_null root)) with false. cbv iota.
      exists st, h, [], T. rewrite app_nil_r. split; [reflexivity|]. split; [constructor|auto].
    - destruct (increment_ok T e Q' tr st h p open' Hi Hh Hp Hq') as (st1 & h1 & open1 & tr1 & T1 & Q1 & E & Hc1 & Hh1 & Hi1 & Hq1 & Hw & Hb).
      rewrite E. cbn [mbind res_bind].
      destruct (IH T1 Q1 (tr ++ tr1) st1 h1 p open1 Hi1 Hh1 Hq1 Hb) as (st2 & h2 & tr2 & T2 & E2 & Hc2 & Hh2 & Hi2); [lia|].
      exists st2, h2, (tr1 ++ tr2), T2. rewrite app_assoc. split; [exact E2|]. split; [eapply calls_app; eassumption|auto].
  Qed.
  Lemma hinv_start : inv tg T0 [root_entry tg g0] [] -> hinv h0 T0 [].
  Proof.
    intros Hi. split; auto.
      - eapply wf_placed; [apply (i_wf _ _ _ _ Hi)|]. intros g m u Hin. cbn in Hin. apply elem_of_list_singleton in Hin. discriminate.
      - intros g m u Hin. cbn in Hin. apply elem_of_list_singleton in Hin. discriminate.
      - intros m u Hin. apply elem_of_nil in Hin as [].
      - intros m Hin. apply elem_of_nil in Hin as [].
      - intros m u Hin. apply elem_of_nil in Hin as [].
      - rewrite h0_one. cbn. lia.
  Qed.
  Theorem generate_ok st : exists st' h' tr T, generate F im al like pred root st h0 = Ok (st', h') /\ calls st tr st' /\ NoDup (map fst tr) /\
    hinv h' T tr /\ (forall f, agree f tr -> rose_map snd T = grow f tg).
  Proof.
    assert (Hi : inv tg T0 [root_entry tg g0] []) by (apply inv_start, tg_nd).
    assert (Ht : at_target tg (root_entry tg g0)) by (exists [], tg; auto).
    assert (Hh : hinv h0 T0 []) by exact (hinv_start Hi).
    unfold generate, gen_start.
    destruct (step_next T0 (root_entry tg g0) [] [] st h0 flr Hi Hh Ht) as (st1 & h1 & r & E & _ & tr1 & T1 & Hc & Hh1 & Hcase).
    change (ptrs (root_entry tg g0) flr) with root in E. rewrite E. cbn [mbind res_bind].
    destruct Hcase as [[Hb Hi1]|(e' & fl' & _ & _ & _ & Hw)]; [|cbn in Hw; lia]. rewrite Hb. cbn [app] in Hi1, Hh1.
    destruct (process_ok T1 (root_entry tg g0) [] tr1 st1 h1 flr [] Hi1 Hh1 Ht ltac:(constructor))
      as (st2 & h2 & open2 & tr2 & T2 & Q2 & E2 & Hc2 & Hh2 & Hi2 & Hq2 & Hw2).
    change (ptrs (root_entry tg g0) flr) with root in E2. rewrite E2. cbn [mbind res_bind].
    destruct (loop_ok F T2 Q2 (tr1 ++ tr2) st2 h2 root open2 Hi2 Hh2 Hq2 eq_refl) as (st3 & h3 & tr3 & T3 & E3 & Hc3 & Hh3 & Hi3).
    { assert (Hsz : S (weight (children tg)) = rsize tg) by (pose proof (raddrs_kids tg) as Hp; apply Permutation_length in Hp; unfold raddrs at 1 in Hp;
        rewrite map_length, length_preorder in Hp; cbn in Hp; lia). cbn in Hw2. lia. }
    exists st3, h3, ((tr1 ++ tr2) ++ tr3), T3. split; [exact E3|]. split; [eapply calls_app; [eapply calls_app|]; eassumption|].
    split; [pose proof (i_pend _ _ _ _ Hi3) as Hn; cbn in Hn; rewrite app_nil_r in Hn; exact Hn|]. split; [exact Hh3|].
    apply inv_end, Hi3.
  Qed.

  (** *** The same, when the creation of a node may fail *)
  Section Failing.
    Variable ti : try_impl V Nd.
    Variable late : bool.
    Context {St2 : Type}.
    Variable pred2 : St2 -> heap -> mptr -> res (St2 * mptr * bool).
    Variable view : St -> option St2.
    Variable back : St2 -> heap -> res heap.
    Hypothesis pred_sim : forall s h p s' r b, pred s h p = Ok (s', r, b) ->
      forall st', view s' = Some st' -> exists st, view s = Some st /\ pred2 st h p = Ok (st', r, b).
    Variable L : heap -> heap -> Prop.
    Hypothesis tv_ok : forall h v a h', ni_from_value im al h v = Ok (a, h') -> tried (L h) (ti_value ti late al v) h a h'.
    Variable st0 : St.
    Hypothesis seen : forall tr st1, calls st0 tr st1 -> NoDup (map fst tr) -> is_Some (view st1).
    Variable Stuck : heap -> Prop.
    Hypothesis stuck : forall tr st1 st2 h T hl, calls st0 tr st1 -> NoDup (map fst tr) -> view st1 = Some st2 -> hinv h T tr -> L h hl ->
      exists h2, back st2 hl = Ok h2 /\ Stuck h2.
    Notation gen_next_try := (gen_next_try F im ti al late like pred2 back root).
    Notation gen_first_try := (gen_first_try F im ti al late like pred2 back root).
    Notation gen_process_try := (gen_process_try F im ti al late like pred2 back root).
    Notation gen_increment_try := (gen_increment_try F im ti al late like pred2 back root).
    Notation gen_loop_try := (gen_loop_try F im ti al late like pred2 back root).

    Lemma navigate_tried nav nav2 attach st tr T h node st' h' r st2' :
      (forall s' r, nav h st node = Ok (s', r) -> follows view st s' (fun x => nav2 h x node) r) ->
      calls st0 tr st -> gen_navigate im al nav attach st h node = Ok (st', h', r) -> creating_ok (nav h st node) st tr T h -> view st' = Some st2' ->
      exists st2, view st = Some st2 /\ tried Stuck (gen_navigate_try im ti al late back nav2 attach st2 node) h (st2', r) h'.
    Proof.
      intros Hf Hc E Hcr Hv. unfold gen_navigate in E. destruct (guard_res (mp_all_valid node)) as [[]|] eqn:Eg; cbn [mbind res_bind] in E; [|discriminate].
      destruct (nav h st node) as [[s1 r1]|] eqn:En; cbn [mbind res_bind] in E; [|discriminate]. specialize (Hf _ _ eq_refl).
      assert (Es : s1 = st').
      { destruct (mp_bool r1); [|congruence]. destruct (match mp_get 1 r1 with None => _ | Some _ => _ end) as [[r2 h2]|]; cbn [mbind res_bind] in E; [|discriminate].
        destruct (mp_is_assigned 1 r2); [|congruence]. destruct (attach h2 _ _ _); cbn [mbind res_bind] in E; [congruence|discriminate]. }
      subst s1. destruct (Hf _ Hv) as (st2 & Hs2 & E2). exists st2. split; [exact Hs2|]. unfold gen_navigate_try.
      eapply tried_read; [exact Eg|]. eapply tried_read; [exact E2|]. cbv beta iota. destruct (mp_bool r1) eqn:Eb.
      - assert (Hmk : exists r2 h2, match mp_get 1 r1 with None => v ← ni_value im h (mp_main r1); '(a, h1) ← ni_from_value im al h v; Ok (mp_assign 1 (Some a) r1, h1) | Some _ => Ok (r1, h) end = Ok (r2, h2) /\
          tried Stuck (match mp_get 1 r1 with None => then_ (reading (fun h => ni_value im h (mp_main r1))) (fun v =>
                       then_ (unwinding (back st2') (ti_value ti late al v)) (fun a => give (mp_assign 1 (Some a) r1))) | Some _ => give r1 end) h r2 h2).
        { destruct (mp_get 1 r1) as [g|] eqn:Eg1; [exists r1, h; split; [reflexivity|apply tried_give]|].
          destruct (ni_value im h (mp_main r1)) as [v|] eqn:Ev; cbn [mbind res_bind] in E |- *; [|discriminate].
          destruct (ni_from_value im al h v) as [[a h1]|] eqn:Ea; cbn [mbind res_bind] in E |- *; [|discriminate].
          eexists _, h1. split; [reflexivity|]. eapply tried_read; [exact Ev|]. eapply tried_then; [|apply tried_give].
          eapply tried_unwinding; [|apply tv_ok, Ea]. destruct (Hcr _ _ eq_refl Eb Eg1) as (tr' & Hc' & Hh' & Hn'). intros hl Hl.
          eapply stuck; [eapply calls_app; [exact Hc|exact Hc']|exact Hn'|exact Hv|exact Hh'|exact Hl]. }
        destruct Hmk as (r2 & h2 & Em & Ht). rewrite Em in E. cbn [mbind res_bind] in E. eapply tried_then; [exact Ht|]. cbv beta.
        destruct (mp_is_assigned 1 r2).
        + destruct (attach h2 _ _ _) as [h3|] eqn:Ea; cbn [mbind res_bind] in E; [|discriminate]. injection E as <- <-. eapply tried_write; [exact Ea|apply tried_give].
        + injection E as <- <-. apply tried_give.
      - injection E as <- <-. apply tried_give.
    Qed.
    Lemma next_tried T e Q tr st h fl st2 : inv tg T (e :: Q) tr -> hinv h T tr -> at_target tg e -> calls st0 tr st -> view st = Some st2 ->
      exists st' h' r st2', gen_next F im al like pred root st h (ptrs e fl) = Ok (st', h', r) /\ step_post [no_fol e] (weight (e_fol e)) st tr Q st' h' r /\
        view st' = Some st2' /\ tried Stuck (gen_next_try st2 (ptrs e fl)) h (st2', r) h'.
    Proof.
      intros Hi Hh Ht Hc Hv. destruct (step_next T e Q tr st h fl Hi Hh Ht) as (st' & h' & r & E & Hcr & Hp).
      exists st', h', r. assert (Hs : is_Some (view st')).
      { destruct Hp as (tr' & T' & Hc' & _ & Hcase). apply (seen (tr ++ tr')); [eapply calls_app; eassumption|].
        destruct Hcase as [[_ H]|(? & ? & _ & _ & H & _)]; apply (inv_traced _ _ _ H). }
      destruct Hs as [st2' Hs]. exists st2'. split; [exact E|]. split; [exact Hp|]. split; [exact Hs|].
      destruct (navigate_tried _ (m_next F im pred2 root) _ st tr T h (ptrs e fl) st' h' r st2' (fun s' r0 E0 => sim_next F im pred2 pred view root pred_sim _ _ _ _ _ E0) Hc E Hcr Hs)
        as (x & Hx & H). rewrite Hv in Hx. injection Hx as <-. exact H.
    Qed.
    Lemma first_tried T e e0 Q tr st h fl st2 : inv tg T (e :: Q) tr -> hinv h T tr -> at_target tg e0 -> e = no_fol e0 -> calls st0 tr st -> view st = Some st2 ->
      exists st' h' r st2', gen_first F im al like pred root st h (ptrs e fl) = Ok (st', h', r) /\ step_post [] (weight (e_kids e)) st tr Q st' h' r /\
        view st' = Some st2' /\ tried Stuck (gen_first_try st2 (ptrs e fl)) h (st2', r) h'.
    Proof.
      intros Hi Hh Ht Ee Hc Hv. destruct (step_first T e e0 Q tr st h fl Hi Hh Ht Ee) as (st' & h' & r & E & Hcr & Hp).
      exists st', h', r. assert (Hs : is_Some (view st')).
      { destruct Hp as (tr' & T' & Hc' & _ & Hcase). apply (seen (tr ++ tr')); [eapply calls_app; eassumption|].
        destruct Hcase as [[_ H]|(? & ? & _ & _ & H & _)]; apply (inv_traced _ _ _ H). }
      destruct Hs as [st2' Hs]. exists st2'. split; [exact E|]. split; [exact Hp|]. split; [exact Hs|].
      destruct (navigate_tried _ (m_first F im pred2 root) _ st tr T h (ptrs e fl) st' h' r st2' (fun s' r0 E0 => sim_first F im pred2 pred view root pred_sim _ _ _ _ _ E0) Hc E Hcr Hs)
        as (x & Hx & H). rewrite Hv in Hx. injection Hx as <-. exact H.
    Qed.

    Lemma process_tried T e Q tr st h fl open st2 : inv tg T (no_fol e :: Q) tr -> hinv h T tr -> at_target tg e -> Forall2 queued open Q -> calls st0 tr st -> view st = Some st2 ->
      exists st' h' open' tr' T' Q' st2', gen_process st h (ptrs e fl) open = Ok (st', h', open') /\ calls st tr' st' /\ hinv h' T' (tr ++ tr') /\
        inv tg T' Q' (tr ++ tr') /\ Forall2 queued open' Q' /\ total Q' <= total Q + weight (e_kids e) /\
        view st' = Some st2' /\ tried Stuck (gen_process_try st2 (ptrs e fl) open) h (st2', open') h'.
    Proof.
      intros Hi Hh Ht Hq Hc0 Hv. destruct (first_tried T (no_fol e) e Q tr st h fl st2 Hi Hh Ht eq_refl Hc0 Hv) as (st' & h' & r & st2' & E & (tr' & T' & Hc & Hh' & Hcase) & Hv' & Htr).
      change (ptrs (no_fol e) fl) with (ptrs e fl) in E, Htr. unfold Gen.gen_process. rewrite E. cbn [mbind res_bind].
      assert (Htr2 : tried Stuck (gen_process_try st2 (ptrs e fl) open) h (st2', if mp_bool r then open ++ [r] else open) h') by (eapply tried_then; [exact Htr|apply tried_give]).
      destruct Hcase as [[Hb Hi']|(e' & fl' & -> & Ht' & Hi' & Hw)].
      - rewrite Hb in *. eexists _, _, _, tr', T', Q, st2'. split; [reflexivity|]. cbn in Hi'. split; [exact Hc|]. split; [exact Hh'|]. split; [exact Hi'|]. split; [exact Hq|]. split; [lia|]. auto.
      - change (mp_bool (ptrs e' fl')) with true in *. cbv iota in *. eexists _, _, _, tr', T', (Q ++ [e']), st2'. split; [reflexivity|]. cbn in Hi', Hw.
        split; [exact Hc|]. split; [exact Hh'|]. split; [eapply inv_perm; [|exact Hi']; apply Permutation_cons_append|]. split; [|split; [|auto]].
        + apply Forall2_app; [exact Hq|]. constructor; [|constructor]. split; eauto.
        + rewrite total_app, total_cons. cbn. lia.
    Qed.
    Lemma increment_tried T e Q tr st h p open st2 : inv tg T (e :: Q) tr -> hinv h T tr -> queued p e -> Forall2 queued open Q -> calls st0 tr st -> view st = Some st2 ->
      exists st' h' open' tr' T' Q' st2', gen_increment st h (p :: open) = Ok (st', h', p, open') /\ calls st tr' st' /\ hinv h' T' (tr ++ tr') /\
        inv tg T' Q' (tr ++ tr') /\ Forall2 queued open' Q' /\ total Q' < total (e :: Q) /\ mp_bool p = true /\
        view st' = Some st2' /\ tried Stuck (gen_increment_try st2 (p :: open)) h (st2', p, open') h'.
    Proof.
      intros Hi Hh [[fl ->] Ht] Hq Hc0 Hv. destruct (next_tried T e Q tr st h fl st2 Hi Hh Ht Hc0 Hv) as (st1 & h1 & r & st3 & E & (tr1 & T1 & Hc & Hh1 & Hcase) & Hv1 & Htr1).
      unfold Gen.gen_increment. rewrite E. cbn [mbind res_bind].
      assert (Hnext : exists open1 Q1, (if mp_bool r then r :: open else open) = open1 /\ inv tg T1 (no_fol e :: Q1) (tr ++ tr1) /\ Forall2 queued open1 Q1 /\
        total Q1 <= total Q + weight (e_fol e)).
      { destruct Hcase as [[Hb Hi']|(e' & fl' & -> & Ht' & Hi' & Hw)].
        - rewrite Hb. exists open, Q. split; [reflexivity|]. split; [exact Hi'|]. split; [exact Hq|lia].
        - exists (ptrs e' fl' :: open), (e' :: Q). split; [reflexivity|]. cbn in Hi'. split; [eapply inv_perm; [|exact Hi']; apply perm_swap|].
          split; [constructor; [split; eauto|exact Hq]|]. rewrite total_cons. lia. }
      destruct Hnext as (open1 & Q1 & Eo & Hi1 & Hq1 & Hw1). rewrite Eo.
      destruct (process_tried T1 e Q1 (tr ++ tr1) st1 h1 fl open1 st3 Hi1 Hh1 Ht Hq1 ltac:(eapply calls_app; eassumption) Hv1) as (st2' & h2 & open2 & tr2 & T2 & Q2 & st4 & E2 & Hc2 & Hh2 & Hi2 & Hq2 & Hw2 & Hv2 & Htr2).
      rewrite E2. cbn [mbind res_bind]. exists st2', h2, open2, (tr1 ++ tr2), T2, Q2, st4. split; [reflexivity|]. rewrite app_assoc.
      split; [eapply calls_app; eassumption|]. split; [exact Hh2|]. split; [exact Hi2|]. split; [exact Hq2|]. split; [rewrite total_cons, pend_app, app_length; lia|]. split; [reflexivity|].
      split; [exact Hv2|]. unfold StarFail.gen_increment_try. eapply tried_then; [exact Htr1|]. cbv beta iota. rewrite Eo. eapply tried_then; [exact Htr2|]. apply tried_give.
    Qed.
    Lemma loop_tried k : forall T Q tr st h cur open st2, inv tg T Q tr -> hinv h T tr -> Forall2 queued open Q -> mp_bool cur = true -> S (total Q) < k -> calls st0 tr st -> view st = Some st2 ->
      exists st' h' st2', gen_loop k st h cur open = Ok (st', h') /\ view st' = Some st2' /\ tried Stuck (gen_loop_try k st2 cur open) h st2' h'.
    Proof.
      induction k as [|k IH]; intros T Q tr st h cur open st2 Hi Hh Hq Hc Hk Hc0 Hv; [lia|]. cbn [Gen.gen_loop StarFail.gen_loop_try]. rewrite Hc.
      inversion Hq as [|p e open' Q' Hp Hq' E1 E2]; subst.
      - cbn [Gen.gen_increment mbind res_bind]. destruct k as [|k]; [lia|]. cbn [Gen.gen_loop]. change (mp_bool (mp_null root)) with false. cbv iota.
        exists st, h, st2. split; [reflexivity|]. split; [exact Hv|]. eapply tried_then; [apply tried_give|]. apply tried_give.
      - destruct (increment_tried T e Q' tr st h p open' st2 Hi Hh Hp Hq' Hc0 Hv) as (st1 & h1 & open1 & tr1 & T1 & Q1 & st3 & E & Hc1 & Hh1 & Hi1 & Hq1 & Hw & Hb & Hv1 & Htr1).
        rewrite E. cbn [mbind res_bind].
        destruct (IH T1 Q1 (tr ++ tr1) st1 h1 p open1 st3 Hi1 Hh1 Hq1 Hb ltac:(lia) ltac:(eapply calls_app; eassumption) Hv1) as (st2' & h2 & st4 & E2 & Hv2 & Htr2).
        exists st2', h2, st4. split; [exact E2|]. split; [exact Hv2|]. eapply tried_then; [exact Htr1|]. exact Htr2.
    Qed.
    Theorem generate_tried st2 : view st0 = Some st2 -> exists st' h' st2', generate F im al like pred root st0 h0 = Ok (st', h') /\ view st' = Some st2' /\
      tried Stuck (generate_try F im ti al late like pred2 back root st2) h0 st2' h'.
    Proof.
      intros Hv.
      assert (Hi : inv tg T0 [root_entry tg g0] []) by (apply inv_start, tg_nd).
      assert (Ht : at_target tg (root_entry tg g0)) by (exists [], tg; auto).
      assert (Hh : hinv h0 T0 []) by exact (hinv_start Hi).
      unfold generate, gen_start.
      destruct (next_tried T0 (root_entry tg g0) [] [] st0 h0 flr st2 Hi Hh Ht ltac:(constructor) Hv) as (st1 & h1 & r & st3 & E & (tr1 & T1 & Hc & Hh1 & Hcase) & Hv1 & Htr1).
      change (ptrs (root_entry tg g0) flr) with root in E, Htr1. rewrite E. cbn [mbind res_bind].
      destruct Hcase as [[Hb Hi1]|(e' & fl' & _ & _ & _ & Hw)]; [|cbn in Hw; lia]. rewrite Hb. cbn [app] in Hi1, Hh1.
      destruct (process_tried T1 (root_entry tg g0) [] tr1 st1 h1 flr [] st3 Hi1 Hh1 Ht ltac:(constructor) Hc Hv1)
        as (st2' & h2 & open2 & tr2 & T2 & Q2 & st4 & E2 & Hc2 & Hh2 & Hi2 & Hq2 & Hw2 & Hv2 & Htr2).
      change (ptrs (root_entry tg g0) flr) with root in E2, Htr2. rewrite E2. cbn [mbind res_bind].
      destruct (loop_tried F T2 Q2 (tr1 ++ tr2) st2' h2 root open2 st4 Hi2 Hh2 Hq2 eq_refl) as (st5 & h3 & st6 & E3 & Hv3 & Htr3).
      { assert (Hsz : S (weight (children tg)) = rsize tg) by (pose proof (raddrs_kids tg) as Hp; apply Permutation_length in Hp; unfold raddrs at 1 in Hp;
          rewrite map_length, length_preorder in Hp; cbn in Hp; lia). cbn in Hw2. lia. }
      { eapply calls_app; eassumption. } { exact Hv2. }
      exists st5, h3, st6. split; [exact E3|]. split; [exact Hv3|]. unfold generate_try, gen_start_try.
      eapply tried_then; [eapply tried_then; [exact Htr1|]; cbv beta iota; rewrite Hb; exact Htr2|]. exact Htr3.
    Qed.
  End Failing.
  Theorem generate_full st : (exists st' h' tr T, generate F im al like pred root st h0 = Ok (st', h') /\ calls st tr st' /\ NoDup (map fst tr) /\
    hinv h' T tr /\ (forall f, agree f tr -> rose_map snd T = grow f tg)) /\
    fails_well F im al like pred root st h0 apr (fun h tr => exists T, hinv h T tr).
  Proof.
    split; [apply generate_ok|]. intros ti late St2 pred2 view back L Stuck H1 H2 H3 H4 st2 Hv.
    eapply (generate_tried ti late pred2 view back H1 L H2 st H3 Stuck); [|exact Hv]. intros tr st1 st2' h T hl Hc Hn Hv' Hh Hl. eapply H4; eauto.
  Qed.
End Run.
