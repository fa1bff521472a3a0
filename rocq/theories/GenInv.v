(** GenInv.v: the invariant of the generation, without memory. *)
From Verif Require Import Base Spec Rep RoseFacts NavFacts GenFacts.

Section Inv.
  Context {V C : Type}.
  Notation tree := (rose (addr * V)).
  Notation gl := (addr * (addr * (V + C)))%type.
  Notation dec := (dec C).
  Notation entry := (entry V).
  Implicit Types (T : rose gl) (P : list entry).
  Variable tg : tree.

  Definition rkey (t : rose gl) : addr := fst (label t).
  Definition rmain (t : rose gl) : addr := fst (snd (label t)).
  (** [kids] are the children of the node [m] of the target. *)
  Definition tat (m : addr) (kids : list tree) : Prop := exists c v, plug c (Rose (m, v) kids) = tg.
  Definition nexts P (x : gl) (ts : list (rose gl)) : list tree :=
    match last ts with None => pkids P (fst x) | Some t => pfol P (rkey t) end.
  Definition node_ok P (x : gl) (ts : list (rose gl)) : Prop :=
    (ts = [] \/ pkids P (fst x) = []) /\ Forall (fun t => pfol P (rkey t) = []) (removelast ts) /\
    (exists kids, tat (fst (snd x)) kids /\ (map rmain ts ++ map raddr (nexts P x ts)) `sublist_of` map raddr kids) /\
    (match snd (snd x) with inl _ => True | inr _ => ts = [] end).
  Fixpoint wf P (t : rose gl) : Prop :=
    match t with Rose x ts => node_ok P x ts /\ foldr (fun t Q => wf P t /\ Q) True ts end.
  Lemma wf_unfold P x ts : wf P (Rose x ts) <-> node_ok P x ts /\ Forall (wf P) ts.
  Proof. cbn [wf]. rewrite foldr_and_Forall. reflexivity. Qed.

  Lemma rkey_in (t : rose gl) : rkey t ∈ keys t.
  Proof. destruct t as [x ts]. rewrite keys_rose. left. Qed.
  Lemma keys_sub x ts (t : rose gl) g : t ∈ ts -> g ∈ keys t -> g ∈ keys (Rose x ts).
  Proof. intros Ht Hg. rewrite keys_rose. right. apply elem_of_flat_map. eauto. Qed.

  (** [P'] has the same or less pending. *)
  Definition lep P P' g : Prop := (pkids P' g = pkids P g \/ pkids P' g = []) /\ (pfol P' g = pfol P g \/ pfol P' g = []).
  Lemma removelast_in {A} (l : list A) x : x ∈ removelast l -> x ∈ l.
  Proof.
    induction l as [|y l IH]; [auto|]. cbn. destruct l as [|z l]; [intros H; apply elem_of_nil in H as []|].
    intros H. apply elem_of_cons in H as [->|H]; [left|right; apply IH, H].
  Qed.
  Lemma node_ok_le P P' x ts : lep P P' (fst x) -> (forall t, t ∈ ts -> lep P P' (rkey t)) -> node_ok P x ts -> node_ok P' x ts.
  Proof.
    intros Hx Hts (H1 & H2 & (kids & Hk & Hs) & H4). split; [|split; [|split; [|exact H4]]].
    - destruct H1 as [H1|H1]; [left; exact H1|right]. destruct Hx as [[E|E] _]; congruence.
    - rewrite Forall_forall in H2 |- *. intros t Ht. specialize (H2 t Ht). cbn in *. destruct (Hts t (removelast_in _ _ Ht)) as [_ [E|E]]; congruence.
    - exists kids. split; [exact Hk|]. etransitivity; [|exact Hs]. apply sublist_app; [reflexivity|]. unfold nexts.
      destruct (last ts) as [t|] eqn:El.
      + destruct (Hts t) as [_ [E|E]]; [apply last_Some_elem_of in El; exact El|rewrite E; reflexivity|rewrite E; apply sublist_nil_l].
      + destruct Hx as [[E|E] _]; rewrite E; [reflexivity|apply sublist_nil_l].
  Qed.
  Lemma wf_le P P' (t : rose gl) : (forall g, g ∈ keys t -> lep P P' g) -> wf P t -> wf P' t.
  Proof.
    induction t as [x ts IH] using rose_ind'. intros H. rewrite !wf_unfold. intros [Hn Hf]. split.
    - eapply node_ok_le; [| |exact Hn]; [apply H; rewrite keys_rose; left|]. intros t Ht. apply H. eapply keys_sub; [exact Ht|apply rkey_in].
    - rewrite Forall_forall in *. intros t Ht. apply IH; [exact Ht| |apply Hf, Ht]. intros g Hg. apply H. eapply keys_sub; eassumption.
  Qed.

  (** Changing a subtree. *)
  Definition eqp P P' g : Prop := pkids P' g = pkids P g /\ pfol P' g = pfol P g.
  Lemma eqp_le P P' g : eqp P P' g -> lep P P' g.
  Proof. intros [H1 H2]. split; left; assumption. Qed.
  Lemma node_ok_change P P' x ls s s' rs : rkey s = rkey s' -> rmain s = rmain s' -> eqp P P' (fst x) ->
    (forall t, t ∈ ls ++ rs -> eqp P P' (rkey t)) -> pfol P' (rkey s') = pfol P (rkey s) ->
    node_ok P x (ls ++ s :: rs) -> node_ok P' x (ls ++ s' :: rs).
  Proof.
    intros Hk Hm Hx Hts Hf (H1 & H2 & (kids & Hkid & Hs) & H4).
    assert (Hr : forall (t : rose gl) l, removelast (ls ++ t :: l) = ls ++ removelast (t :: l)) by (intros t l; apply removelast_app; discriminate).
    assert (Hsub : forall t, t ∈ ls ++ removelast rs -> t ∈ ls ++ rs).
    { intros t Ht. apply elem_of_app in Ht as [Ht|Ht]; apply elem_of_app; [left|right; apply removelast_in]; exact Ht. }
    split; [|split; [|split]].
    - destruct H1 as [H1|H1]; [destruct ls; discriminate|right]. destruct Hx as [-> _]. exact H1.
    - rewrite Hr, Forall_app in H2 |- *. destruct H2 as [H2 H3].
      assert (Hall : forall l, (forall t, t ∈ l -> t ∈ ls ++ rs) -> Forall (fun t => pfol P (rkey t) = []) l -> Forall (fun t => pfol P' (rkey t) = []) l).
      { intros l Hl Hf'. rewrite Forall_forall in Hf' |- *. intros t Ht. destruct (Hts t (Hl t Ht)) as [_ ->]. apply Hf', Ht. }
      split; [apply Hall; [|exact H2]; set_solver +|]. cbn in H3 |- *. destruct rs as [|r rs]; [constructor|].
      apply Forall_cons in H3 as [H3 H5]. apply Forall_cons. split; [rewrite Hf; exact H3|]. apply Hall; [|exact H5].
      intros t Ht. apply Hsub. apply elem_of_app. right. exact Ht.
    - exists kids. split; [exact Hkid|]. unfold nexts in *. rewrite !map_app in *. cbn [map] in *. rewrite <- Hm.
      destruct rs as [|r rs _] using rev_ind.
      + rewrite last_snoc in *. rewrite Hf. exact Hs.
      + assert (Hl : forall t : rose gl, last (ls ++ t :: rs ++ [r]) = Some r).
        { intros t. change (t :: rs ++ [r]) with ((t :: rs) ++ [r]). rewrite app_assoc. apply last_snoc. }
        rewrite Hl in Hs |- *. destruct (Hts r) as [_ ->]; [set_solver +|]. exact Hs.
    - destruct (snd (snd x)); [exact I|destruct ls; discriminate].
  Qed.
  Lemma wf_change P P' c : forall s s', wf P (plug c s) -> rkey s = rkey s' -> rmain s = rmain s' ->
    (forall g, g ∈ ckeys c -> eqp P P' g) -> pfol P' (rkey s') = pfol P (rkey s) -> (wf P s -> wf P' s') -> wf P' (plug c s').
  Proof.
    induction c as [|[[ls a] rs] c IH]; intros s s' Hw Hk Hm Hle Hf Hs; cbn [plug] in *; [apply Hs, Hw|].
    assert (Hlr : forall t g, t ∈ ls ++ rs -> g ∈ keys t -> eqp P P' g).
    { intros t g Ht Hg. apply Hle. cbn. right. apply elem_of_app. left. rewrite <- flat_map_app. apply elem_of_flat_map. eauto. }
    eapply IH; [exact Hw|reflexivity|reflexivity| | |].
    - intros g Hg. apply Hle. cbn. set_solver +Hg.
    - apply (Hle (fst a)). cbn. left.
    - rewrite !wf_unfold. intros [Hn Hfa]. split.
      + eapply node_ok_change; [exact Hk|exact Hm| | |exact Hf|exact Hn]; [apply Hle; cbn; left|].
        intros t Ht. eapply Hlr; [exact Ht|apply rkey_in].
      + apply Forall_app in Hfa as [H1 H2]. apply Forall_cons in H2 as [H2 H3]. apply Forall_app. split; [|apply Forall_cons; split; [auto|]].
        * rewrite Forall_forall in H1 |- *. intros t Ht. eapply wf_le; [|apply H1, Ht]. intros g Hg. apply eqp_le. eapply Hlr; [|exact Hg]. set_solver +Ht.
        * rewrite Forall_forall in H3 |- *. intros t Ht. eapply wf_le; [|apply H3, Ht]. intros g Hg. apply eqp_le. eapply Hlr; [|exact Hg]. set_solver +Ht.
  Qed.
  Lemma wf_sub P c : forall s, wf P (plug c s) -> wf P s.
  Proof.
    induction c as [|[[ls a] rs] c IH]; intros s H; [exact H|]. cbn in H. apply IH in H. apply wf_unfold in H as [_ H].
    apply Forall_app in H as [_ H]. apply Forall_cons in H as [H _]. exact H.
  Qed.

  (** *** The invariant *)
  Definition rights {A} (c : ctx A) : list (rose A) := match c with [] => [] | (_, _, rs) :: _ => rs end.
  (** Where an entry is in the target. *)
  Definition at_target (e : entry) : Prop := exists c s, plug c s = tg /\ raddr s = e_main e /\ children s = e_kids e /\ rights c = e_fol e.
  Definition pl_use (pl : V + C) : bool := match pl with inl _ => false | inr _ => true end.
  Definition pos T (e : entry) : Prop := exists pl, (e_gen e, (e_main e, pl)) ∈ preorder T /\ pl_use pl = e_use e.
  Definition pend (e : entry) : list addr := flat_map raddrs (e_kids e ++ e_fol e).
  Record inv T P (tr : list (addr * dec)) : Prop := Inv {
    i_comp : forall f, agree f tr -> comp f P T = [grow f tg];
    i_nd : NoDup (keys T);
    i_wf : wf P T;
    i_root : pfol P (rkey T) = [];
    i_pos : Forall (pos T) P;
    i_gens : NoDup (map e_gen P);
    i_pend : NoDup (map fst tr ++ flat_map pend P)
  }.
  (** [m] is a child of a node of the target that has a node in [T]. *)
  Definition under T (m : addr) : Prop := exists g pm pl kids, (g, (pm, pl)) ∈ preorder T /\ tat pm kids /\ m ∈ map raddr kids.
  Definition no_fol (e : entry) : entry := Entry (e_main e) (e_gen e) (e_kids e) [] (e_use e).
  Definition leaf_of (g : addr) (x : tree) (d : dec) : rose gl :=
    Rose (g, (raddr x, match d with Use u => inr u | _ => inl (snd (label x)) end)) [].
  Definition entry_of (g : addr) (x : tree) (l : list tree) (d : dec) : entry :=
    Entry (raddr x) g (children x) l (match d with Use _ => true | _ => false end).

  (** The position of an entry in what was generated. *)
  Lemma entry_at T P tr e : inv T P tr -> e ∈ P -> exists c pl ts, T = plug c (Rose (e_gen e, (e_main e, pl)) ts) /\ pl_use pl = e_use e /\
    (e_use e = true \/ e_kids e <> [] -> ts = []) /\ (pkids P (e_gen e) = if e_use e then [] else e_kids e) /\ pfol P (e_gen e) = e_fol e /\
    (e_fol e <> [] -> exists ls ga ma va c', c = (ls, (ga, (ma, inl va)), []) :: c').
  Proof.
    intros H He. pose proof (i_pos _ _ _ H) as Hp. rewrite Forall_forall in Hp. destruct (Hp e He) as (pl & Hin & Hu).
    apply elem_position in Hin as (c & [x ts] & <- & Hl). cbn in Hl. subst x. exists c, pl, ts. split; [reflexivity|]. split; [exact Hu|].
    destruct (pkids_in _ _ (i_gens _ _ _ H) He) as [Hk Hf].
    pose proof (i_wf _ _ _ H) as Hw. pose proof (wf_sub _ _ _ Hw) as Hs. apply wf_unfold in Hs as [(H1 & _ & _ & H4) _]. cbn in H1, H4.
    split; [|split; [exact Hk|split; [exact Hf|]]].
    - intros [Hus|Hkn].
      + destruct pl; [cbn in Hu; congruence|exact H4].
      + destruct (e_use e) eqn:Eu; [destruct pl; [discriminate|exact H4]|]. destruct H1 as [H1|H1]; [exact H1|congruence].
    - intros Hn. destruct c as [|[[ls [ga [ma pa]]] rs] c].
      { pose proof (i_root _ _ _ H) as Hr. cbn in Hr. unfold rkey in Hr. cbn in Hr. congruence. }
      cbn in Hw. apply wf_sub in Hw. apply wf_unfold in Hw as [(_ & H2 & _ & H5) _]. cbn in H5.
      destruct pa as [va|ua]; [|destruct ls; discriminate].
      destruct rs as [|r rs]; [eauto 10|]. rewrite removelast_app in H2 by discriminate. apply Forall_app in H2 as [_ H2].
      change (removelast (?a :: r :: rs)) with (a :: removelast (r :: rs)) in H2. apply Forall_cons in H2 as [H2 _].
      unfold rkey in H2. cbn in H2. congruence.
  Qed.
  Lemma fol_under T e Q tr m : inv T (e :: Q) tr -> m ∈ map raddr (e_fol e) -> under T m.
  Proof.
    intros Hi Hm. destruct (entry_at T (e :: Q) tr e Hi ltac:(left)) as (c & pl & ts & ET & _ & _ & _ & Hpf & Hfol).
    destruct Hfol as (ls & ga & ma & va & c' & ->); [intros E; rewrite E in Hm; apply elem_of_nil in Hm as []|]. cbn [plug] in ET.
    pose proof (i_wf _ _ _ Hi) as Hw. rewrite ET in Hw. apply wf_sub in Hw. apply wf_unfold in Hw as [(_ & _ & (kids & Hk & Hs) & _) _]. cbn in Hk.
    exists ga, ma, (inl va), kids. split; [rewrite ET; exact (position_elem c' (Rose (ga, (ma, inl va)) (ls ++ [Rose (e_gen e, (e_main e, pl)) ts])))|]. split; [exact Hk|].
    eapply elem_of_submseteq; [|eapply sublist_submseteq; exact Hs]. apply elem_of_app. right. unfold nexts. rewrite last_snoc.
    change (rkey (Rose (e_gen e, (e_main e, pl)) ts)) with (e_gen e). rewrite Hpf. exact Hm.
  Qed.
  Lemma submseteq_nd {A} (l k : list A) : l ⊆+ k -> NoDup k -> NoDup l.
  Proof. intros H Hk. apply submseteq_Permutation in H as [z Hz]. rewrite Hz in Hk. apply NoDup_app in Hk as [? _]. assumption. Qed.
  Lemma raddr_sub (l : list tree) : map raddr l ⊆+ flat_map raddrs l.
  Proof.
    induction l as [|[x cs] l IH]; [reflexivity|]. cbn [map flat_map]. unfold raddrs at 1. cbn. constructor.
    apply submseteq_inserts_l. exact IH.
  Qed.
  Lemma raddrs_kids (x : tree) : Permutation (raddrs x) (raddr x :: flat_map raddrs (children x)).
  Proof.
    destruct x as [x cs]. unfold raddrs. cbn. constructor. clear x.
    induction cs as [|c cs IH]; [reflexivity|]. cbn. rewrite map_app, IH. reflexivity.
  Qed.

  (** *** Steps *)
  Lemma eqp_refl P g : eqp P P g.
  Proof. split; reflexivity. Qed.
  Lemma no_fol_other e Q g : e_gen e <> g -> eqp (e :: Q) (no_fol e :: Q) g.
  Proof. intros H. unfold eqp. destruct (pkids_cons e Q g H) as [-> ->]. destruct (pkids_cons (no_fol e) Q g H) as [-> ->]. split; reflexivity. Qed.
  Lemma no_fol_self e Q : e_gen e ∉ map e_gen Q -> pkids (no_fol e :: Q) (e_gen e) = pkids (e :: Q) (e_gen e) /\ pfol (no_fol e :: Q) (e_gen e) = [].
  Proof.
    intros H. destruct (pkids_out Q _ H) as [E1 E2]. unfold pkids, pfol in *. cbn. rewrite !decide_True by reflexivity. rewrite E1, E2.
    split; reflexivity.
  Qed.
  Lemma pos_no_fol T e : pos T e -> pos T (no_fol e).
  Proof. intros H. exact H. Qed.

  Lemma pend_app e : pend e = flat_map raddrs (e_kids e) ++ flat_map raddrs (e_fol e).
  Proof. apply flat_map_app. Qed.
  Lemma pend_no_fol e : pend (no_fol e) = flat_map raddrs (e_kids e).
  Proof. unfold pend. cbn. rewrite app_nil_r. reflexivity. Qed.

  Section Apr.
    Context {St : Type}.
    Variable apr : St -> addr -> St * dec.
    Lemma scan_none st (l : list tree) st' tr : scan apr st l = (st', tr, None) ->
      map fst tr = map raddr l /\ forall f, agree f tr -> growl f l = [].
    Proof.
      intros E. destruct (scan_split apr _ _ _ _ _ E) as (sk & -> & Htr & _ & Hg). cbn in *. rewrite app_nil_r in *. auto.
    Qed.
    Lemma scan_in st (l : list tree) st' tr r m : scan apr st l = (st', tr, r) -> m ∈ map fst tr -> m ∈ map raddr l.
    Proof.
      intros E Hm. destruct (scan_split apr _ _ _ _ _ E) as (sk & -> & Htr & _ & _). rewrite Htr in Hm. rewrite map_app. apply elem_of_app in Hm as [Hm|Hm]; apply elem_of_app; [left; exact Hm|right].
      destruct r as [[[x l'] d]|]; [|apply elem_of_nil in Hm as []]. apply elem_of_list_singleton in Hm as ->. cbn. left.
    Qed.
    (** No accepted sibling. *)
    Lemma sib_none T e Q tr st st' tr' : inv T (e :: Q) tr -> scan apr st (e_fol e) = (st', tr', None) -> inv T (no_fol e :: Q) (tr ++ tr').
    Proof.
      intros H E. destruct (scan_none _ _ _ _ E) as [Htr Hg].
      pose proof (i_gens _ _ _ H) as Hgens. cbn in Hgens. apply NoDup_cons in Hgens as [Hn Hgens].
      destruct (no_fol_self e Q Hn) as [S1 S2].
      assert (He : e ∈ e :: Q) by left.
      destruct (pkids_in _ _ (i_gens _ _ _ H) He) as [K1 K2].
      split.
      - intros f Hf. apply agree_app in Hf as [Hf1 Hf2]. rewrite <- (i_comp _ _ _ H f Hf1). apply comp_ext. intros g _.
        destruct (decide (e_gen e = g)) as [<-|Hne].
        + unfold same. rewrite S1, S2, K2, (Hg f Hf2). split; reflexivity.
        + destruct (no_fol_other e Q g Hne) as [E1 E2]. unfold same. rewrite E1, E2. split; reflexivity.
      - apply (i_nd _ _ _ H).
      - eapply wf_le; [|apply (i_wf _ _ _ H)]. intros g _. destruct (decide (e_gen e = g)) as [<-|Hne].
        + split; [left; exact S1|right; exact S2].
        + apply eqp_le, no_fol_other, Hne.
      - destruct (decide (e_gen e = rkey T)) as [E'|Hne]; [rewrite <- E'; exact S2|].
        destruct (no_fol_other e Q _ Hne) as [_ ->]. apply (i_root _ _ _ H).
      - pose proof (i_pos _ _ _ H) as Hp. apply Forall_cons in Hp as [Hp1 Hp2]. constructor; assumption.
      - exact (i_gens _ _ _ H).
      - eapply submseteq_nd; [|exact (i_pend _ _ _ H)]. rewrite map_app, Htr. cbn [flat_map]. rewrite pend_no_fol, pend_app. rewrite <- !app_assoc. apply submseteq_app; [reflexivity|].
        etransitivity; [apply submseteq_app; [apply raddr_sub|reflexivity]|]. rewrite !app_assoc. apply submseteq_app; [|reflexivity]. rewrite Permutation_app_comm. reflexivity.
    Qed.
    (** No accepted child. *)
    Lemma kid_none T e Q tr st st' tr' : inv T (e :: Q) tr -> e_fol e = [] -> scan apr st (e_kids e) = (st', tr', None) ->
      inv T Q (tr ++ tr').
    Proof.
      intros H Hfol E. destruct (scan_none _ _ _ _ E) as [Htr Hg].
      pose proof (i_gens _ _ _ H) as Hgens. cbn in Hgens. apply NoDup_cons in Hgens as [Hn Hgens].
      assert (He : e ∈ e :: Q) by left.
      destruct (pkids_in _ _ (i_gens _ _ _ H) He) as [K1 K2]. destruct (pkids_out Q _ Hn) as [O1 O2].
      split.
      - intros f Hf. apply agree_app in Hf as [Hf1 Hf2]. rewrite <- (i_comp _ _ _ H f Hf1). apply comp_ext. intros g _.
        destruct (decide (e_gen e = g)) as [<-|Hne].
        + unfold same. rewrite K1, K2, O1, O2, Hfol. destruct (e_use e); [|rewrite (Hg f Hf2)]; split; reflexivity.
        + destruct (pkids_cons e Q g Hne) as [E1 E2]. unfold same. rewrite E1, E2. split; reflexivity.
      - apply (i_nd _ _ _ H).
      - eapply wf_le; [|apply (i_wf _ _ _ H)]. intros g _. destruct (decide (e_gen e = g)) as [<-|Hne].
        + split; right; assumption.
        + destruct (pkids_cons e Q g Hne) as [E1 E2]. split; left; congruence.
      - destruct (decide (e_gen e = rkey T)) as [E'|Hne]; [rewrite <- E'; exact O2|].
        destruct (pkids_cons e Q _ Hne) as [_ <-]. apply (i_root _ _ _ H).
      - pose proof (i_pos _ _ _ H) as Hp. apply Forall_cons in Hp as [Hp1 Hp2]. assumption.
      - exact Hgens.
      - eapply submseteq_nd; [|exact (i_pend _ _ _ H)]. rewrite map_app, Htr. cbn [flat_map]. rewrite pend_app, Hfol. cbn. rewrite app_nil_r.
        rewrite <- !app_assoc. apply submseteq_app; [reflexivity|]. apply submseteq_app; [apply raddr_sub|reflexivity].
    Qed.
    (** An accepted node. *)
    Lemma scan_some st (l : list tree) st' tr x l' d : scan apr st l = (st', tr, Some (x, l', d)) ->
      exists sk, l = sk ++ x :: l' /\ map fst tr = map raddr (sk ++ [x]) /\ d <> Skip /\ (raddr x, d) ∈ tr /\
        forall f, agree f tr -> growl f l = grow1 f x ++ growl f l'.
    Proof.
      intros E. destruct (scan_split apr _ _ _ _ _ E) as (sk & -> & Htr & [Hd Hin] & Hg). exists sk. rewrite map_app. cbn in *. auto.
    Qed.
    Lemma comp_leaf f P g x l d : d <> Skip -> f (raddr x) = d -> g ∉ map e_gen P ->
      comp f (entry_of g x l d :: P) (leaf_of g x d) = grow1 f x ++ growl f l.
    Proof.
      intros Hd Hf Hn. unfold leaf_of. cbn [comp fst snd flat_map app].
      assert (Hnd : pkids (entry_of g x l d :: P) g = (if e_use (entry_of g x l d) then [] else children x) /\ pfol (entry_of g x l d :: P) g = l).
      { destruct (pkids_out P g Hn) as [O1 O2]. unfold pkids, pfol in *. cbn. rewrite !decide_True by reflexivity. rewrite O1, O2, !app_nil_r. auto. }
      destruct Hnd as [-> ->]. unfold grow1. rewrite Hf. destruct x as [[m v] cs]. unfold raddr. cbn.
      destruct d; [congruence|reflexivity|reflexivity].
    Qed.
    Lemma rkey_plug c (s : rose gl) : c = [] \/ rkey (plug c s) ∈ ckeys c.
    Proof.
      revert s. induction c as [|[[ls a] rs] c IH]; intros s; [left; reflexivity|right]. cbn [plug].
      destruct (IH (Rose a (ls ++ s :: rs))) as [->|H]; [cbn; left|]. cbn. right. apply elem_of_app. right. exact H.
    Qed.
    Lemma rkey_plug_eq c (s s' : rose gl) : rkey s = rkey s' -> rkey (plug c s) = rkey (plug c s').
    Proof.
      revert s s'. induction c as [|[[ls a] rs] c IH]; intros s s' H; [exact H|]. cbn [plug]. apply IH. reflexivity.
    Qed.
    Lemma preorder_plug_in (c : ctx gl) s s' : preorder s ⊆ preorder s' -> preorder (plug c s) ⊆ preorder (plug c s').
    Proof. intros H x. rewrite !preorder_plug, !elem_of_app. set_solver +H. Qed.

    Lemma inv_grow c s s' P P' g' tr tr' : inv (plug c s) P tr -> rkey s = rkey s' -> rmain s = rmain s' ->
      (forall g, g ∈ ckeys c -> eqp P P' g) -> pfol P' (rkey s') = pfol P (rkey s) ->
      (forall f, agree f (tr ++ tr') -> comp f P s = comp f P' s') -> (wf P s -> wf P' s') ->
      Permutation (keys s') (g' :: keys s) -> g' ∉ keys (plug c s) -> Forall (pos (plug c s')) P' ->
      NoDup (map e_gen P') -> NoDup (map fst (tr ++ tr') ++ flat_map pend P') -> inv (plug c s') P' (tr ++ tr').
    Proof.
      intros H Hk Hm Heq Hf Hc Hw Hkeys Hg Hp Hgens Hpend. split; [| | | |exact Hp|exact Hgens|exact Hpend].
      - intros f Hfa. pose proof Hfa as Hfa'. apply agree_app in Hfa' as [Hf1 _]. rewrite <- (i_comp _ _ _ H f Hf1). symmetry. apply comp_plug; [|apply Hc, Hfa].
        intros g Hgc. destruct (Heq g Hgc) as [E1 E2]. unfold same. rewrite E1, E2. split; reflexivity.
      - rewrite keys_plug, Hkeys. cbn. apply NoDup_cons. pose proof (i_nd _ _ _ H) as Hn. rewrite keys_plug in Hn, Hg. split; assumption.
      - eapply wf_change; [exact (i_wf _ _ _ H)|exact Hk|exact Hm|exact Heq|exact Hf|exact Hw].
      - destruct (rkey_plug c s') as [->|Hc'].
        + cbn. rewrite Hf. exact (i_root _ _ _ H).
        + destruct (Heq _ Hc') as [_ ->]. rewrite <- (rkey_plug_eq c s s' Hk). exact (i_root _ _ _ H).
    Qed.

    Lemma new_entry P g x l d : g ∉ map e_gen P -> pkids (entry_of g x l d :: P) g = (if e_use (entry_of g x l d) then [] else children x) /\
      pfol (entry_of g x l d :: P) g = l.
    Proof.
      intros Hn. destruct (pkids_out P g Hn) as [O1 O2]. unfold pkids, pfol in *. cbn. rewrite !decide_True by reflexivity. rewrite O1, O2, !app_nil_r. auto.
    Qed.
    Lemma wf_leaf P g x l d : g ∉ map e_gen P -> tat (raddr x) (children x) -> wf (entry_of g x l d :: P) (leaf_of g x d).
    Proof.
      intros Hn Ht. apply wf_unfold. split; [|constructor]. split; [left; reflexivity|]. split; [constructor|]. split.
      - exists (children x). split; [exact Ht|]. unfold nexts. cbn [last map app fst]. destruct (new_entry P g x l d Hn) as [-> _].
        destruct (e_use _); [apply sublist_nil_l|reflexivity].
      - destruct d; cbn; auto.
    Qed.
    Lemma gens_in T P tr e : inv T P tr -> e ∈ P -> e_gen e ∈ keys T.
    Proof.
      intros H He. pose proof (i_pos _ _ _ H) as Hp. rewrite Forall_forall in Hp. destruct (Hp e He) as (pl & Hin & _).
      unfold keys. apply elem_of_list_fmap. eexists. split; [|exact Hin]. reflexivity.
    Qed.
    Lemma gens_fresh T P tr g : inv T P tr -> g ∉ keys T -> g ∉ map e_gen P.
    Proof. intros H Hg Hin. apply elem_of_list_fmap in Hin as (e & -> & He). apply Hg. eapply gens_in; eassumption. Qed.

    Lemma sib_some c' ls a pl ts e Q tr st st' tr' x l' d g' :
      inv (plug c' (Rose a (ls ++ [Rose (e_gen e, (e_main e, pl)) ts]))) (e :: Q) tr -> at_target e ->
      scan apr st (e_fol e) = (st', tr', Some (x, l', d)) -> g' ∉ keys (plug c' (Rose a (ls ++ [Rose (e_gen e, (e_main e, pl)) ts]))) ->
      pl_use (snd (snd a)) = false ->
      inv (plug c' (Rose a (ls ++ [Rose (e_gen e, (e_main e, pl)) ts] ++ [leaf_of g' x d]))) (entry_of g' x l' d :: no_fol e :: Q) (tr ++ tr').
    Proof.
      intros H Htgt E Hg' Hpa. set (n := Rose (e_gen e, (e_main e, pl)) ts) in *.
      destruct (scan_some _ _ _ _ _ _ _ E) as (sk & Hfol & Htr & Hd & Hin & Hg).
      pose proof (i_gens _ _ _ H) as Hgens. cbn in Hgens. apply NoDup_cons in Hgens as [Hn Hgens].
      destruct (no_fol_self e Q Hn) as [S1 S2]. assert (He : e ∈ e :: Q) by left.
      destruct (pkids_in _ _ (i_gens _ _ _ H) He) as [K1 K2].
      pose proof (gens_fresh _ _ _ _ H Hg') as Hfresh. cbn in Hfresh.
      assert (Hgne : g' <> e_gen e) by (intros ->; apply Hfresh; left).
      assert (Hgen' : g' ∉ map e_gen (no_fol e :: Q)) by exact Hfresh.
      assert (Heq : forall g, g <> e_gen e -> g <> g' -> eqp (e :: Q) (entry_of g' x l' d :: no_fol e :: Q) g).
      { intros g H1 H2. destruct (pkids_cons (entry_of g' x l' d) (no_fol e :: Q) g) as [E1 E2]; [cbn; congruence|].
        destruct (no_fol_other e Q g) as [E3 E4]; [congruence|]. split; congruence. }
      assert (Hself : pkids (entry_of g' x l' d :: no_fol e :: Q) (e_gen e) = pkids (e :: Q) (e_gen e) /\ pfol (entry_of g' x l' d :: no_fol e :: Q) (e_gen e) = []).
      { destruct (pkids_cons (entry_of g' x l' d) (no_fol e :: Q) (e_gen e)) as [-> ->]; [cbn; congruence|]. auto. }
      destruct Hself as [Z1 Z2]. destruct (new_entry (no_fol e :: Q) g' x l' d Hgen') as [N1 N2].
      assert (Hx : tat (raddr x) (children x)).
      { destruct Htgt as (ct & [y cy] & Hp & Hr & _ & Hrs). destruct ct as [|[[lt at'] rt] ct]; cbn in Hrs; [rewrite <- Hrs in Hfol; destruct sk; discriminate|].
        subst rt. rewrite Hfol in Hp. destruct x as [[m v] cs]. unfold tat, raddr. cbn in Hp |- *.
        exists ((lt ++ Rose y cy :: sk, at', l') :: ct), v. cbn. rewrite <- app_assoc. cbn. exact Hp. }
      set (P' := entry_of g' x l' d :: no_fol e :: Q) in *.
      pose proof (i_nd _ _ _ H) as Hnd. rewrite keys_plug in Hnd, Hg'. rewrite keys_rose in Hnd, Hg'. cbn [app] in Hnd.
      rewrite flat_map_app in Hnd, Hg'. cbn [flat_map] in Hnd, Hg'. rewrite app_nil_r in Hnd, Hg'.
      assert (Hkn : keys n = e_gen e :: flat_map keys ts) by apply keys_rose.
      assert (Hdis : forall g, g ∈ fst a :: flat_map keys ls \/ g ∈ flat_map keys ts \/ g ∈ ckeys c' -> g <> e_gen e /\ g <> g').
      { intros g Hin'. rewrite Hkn in Hnd, Hg'. split.
        - intros ->. apply NoDup_cons in Hnd as [Hna Hnd]. rewrite <- app_assoc in Hnd. apply NoDup_app in Hnd as (_ & Hnl & Hnd).
          cbn in Hnd. apply NoDup_cons in Hnd as [Hne Hnd]. destruct Hin' as [Hi|[Hi|Hi]].
          + apply elem_of_cons in Hi as [Hi|Hi]; [apply Hna; set_solver +Hi|]. apply (Hnl _ Hi). set_solver +.
          + set_solver +Hi Hne.
          + set_solver +Hi Hne.
        - intros ->. apply Hg'. set_solver +Hin'. }
      apply (inv_grow c' (Rose a (ls ++ [n])) (Rose a (ls ++ [n] ++ [leaf_of g' x d])) (e :: Q) P' g' tr tr'); [exact H|reflexivity|reflexivity| | | | | | | | |].
      - intros g Hgc. destruct (Hdis g) as [? ?]; [auto|]. apply Heq; assumption.
      - destruct (Hdis (fst a)) as [? ?]; [left; left|]. apply (Heq (fst a)); assumption.
      - intros f Hf. apply agree_app in Hf as [_ Hf]. cbn [comp].
        assert (Ha : eqp (e :: Q) P' (fst a)) by (destruct (Hdis (fst a)) as [? ?]; [left; left|]; apply Heq; assumption).
        destruct Ha as [-> ->]. f_equal. f_equal. f_equal. rewrite !flat_map_app. cbn [flat_map]. rewrite !app_nil_r.
        f_equal; [apply comp_map_ext; intros g Hgl; destruct (Hdis g) as [? ?]; [left; right; exact Hgl|]; destruct (Heq g) as [E1 E2]; auto; unfold same; rewrite E1, E2; auto|].
        unfold P'; rewrite comp_leaf; [|exact Hd| |exact Hgen']; fold P'.
        + rewrite <- (Hg f Hf). unfold n. cbn [comp fst snd]. rewrite Z1, Z2, K2. cbn. f_equal. f_equal. f_equal.
          apply comp_map_ext. intros g Hgl. destruct (Hdis g) as [? ?]; [auto|]. destruct (Heq g) as [E1 E2]; auto. unfold same. rewrite E1, E2. auto.
        + unfold agree in Hf. rewrite Forall_forall in Hf. exact (Hf _ Hin).
      - intros Hw. apply wf_unfold in Hw as [(W1 & W2 & (kids & Wk & Ws) & W4) Wf]. apply wf_unfold. split; [split; [|split; [|split]]|].
        + right. destruct W1 as [W1|W1]; [destruct ls; discriminate|]. destruct (Hdis (fst a)) as [? ?]; [left; left|]. destruct (Heq (fst a)) as [-> _]; auto.
        + rewrite app_assoc, removelast_last. rewrite removelast_last in W2. apply Forall_app. split.
          * rewrite Forall_forall in W2 |- *. intros t Ht. destruct (Hdis (rkey t)) as [? ?].
            { left. right. apply elem_of_flat_map. exists t. split; [exact Ht|apply rkey_in]. }
            destruct (Heq (rkey t)) as [_ ->]; auto.
          * apply Forall_cons. split; [exact Z2|constructor].
        + exists kids. split; [exact Wk|]. etransitivity; [|exact Ws]. unfold nexts. rewrite (app_assoc ls), !last_snoc.
          change (rkey (leaf_of g' x d)) with g'. rewrite N2. change (rkey n) with (e_gen e). rewrite K2, Hfol.
          rewrite (map_app rmain (ls ++ [n])), <- app_assoc. apply sublist_app; [reflexivity|]. rewrite map_app. cbn [map].
          change (rmain (leaf_of g' x d)) with (raddr x). cbn. apply sublist_inserts_l. reflexivity.
        + destruct (snd (snd a)); [exact I|discriminate].
        + apply Forall_app in Wf as [Wf1 Wf2]. apply Forall_cons in Wf2 as [Wf2 _]. apply Forall_app. split; [|apply Forall_cons; split; [|apply Forall_cons; split; [|constructor]]].
          * rewrite Forall_forall in Wf1 |- *. intros t Ht. eapply wf_le; [|apply Wf1, Ht]. intros g Hgt.
            destruct (Hdis g) as [? ?]; [left; right; apply elem_of_flat_map; eauto|]. apply eqp_le, Heq; assumption.
          * eapply wf_le; [|exact Wf2]. intros g Hgt. rewrite Hkn in Hgt. apply elem_of_cons in Hgt as [->|Hgt].
            -- split; [left; exact Z1|right; exact Z2].
            -- destruct (Hdis g) as [? ?]; [auto|]. apply eqp_le, Heq; assumption.
          * apply wf_leaf; assumption.
      - rewrite !keys_rose, !flat_map_app. cbn. rewrite !app_nil_r. solve_Permutation.
      - rewrite keys_plug, keys_rose, flat_map_app. cbn. rewrite app_nil_r. exact Hg'.
      - pose proof (i_pos _ _ _ H) as Hp. assert (Hsub : preorder (plug c' (Rose a (ls ++ [n]))) ⊆ preorder (plug c' (Rose a (ls ++ [n] ++ [leaf_of g' x d])))).
        { apply preorder_plug_in. cbn. rewrite !flat_map_app. cbn. set_solver +. }
        apply Forall_cons. split.
        + exists (match d with Use u => inr u | _ => inl (snd (label x)) end). split; [|destruct d; reflexivity]. rewrite preorder_plug. apply elem_of_app. right. apply elem_of_app. left. cbn.
          right. rewrite !flat_map_app. cbn. set_solver +.
        + rewrite Forall_forall in Hp |- *. intros e' He'. apply elem_of_cons in He' as [->|He'].
          * destruct (Hp e He) as (p0 & Hp1 & Hp2). exists p0. split; [apply Hsub, Hp1|exact Hp2].
          * destruct (Hp e') as (p0 & Hp1 & Hp2); [right; exact He'|]. exists p0. split; [apply Hsub, Hp1|exact Hp2].
      - cbn. apply NoDup_cons. split; [exact Hfresh|]. exact (i_gens _ _ _ H).
      - eapply submseteq_nd; [|exact (i_pend _ _ _ H)]. rewrite map_app, Htr. unfold P'. cbn [flat_map].
        rewrite pend_no_fol, !pend_app. cbn [entry_of e_kids e_fol]. rewrite Hfol, !flat_map_app. cbn [flat_map]. rewrite (raddrs_kids x).
        rewrite map_app. cbn [map].
        etransitivity; [apply submseteq_app; [apply submseteq_app; [reflexivity|apply submseteq_app; [apply raddr_sub|reflexivity]]|reflexivity]|].
        apply Permutation_submseteq. cbn. solve_Permutation.
    Qed.

    Lemma kid_some c m v e Q tr st st' tr' x l' d g' :
      inv (plug c (Rose (e_gen e, (m, inl v)) [])) (e :: Q) tr -> at_target e \/ (exists e0, at_target e0 /\ e = no_fol e0) -> e_fol e = [] -> e_use e = false ->
      scan apr st (e_kids e) = (st', tr', Some (x, l', d)) -> g' ∉ keys (plug c (Rose (e_gen e, (m, inl v)) [])) ->
      inv (plug c (Rose (e_gen e, (m, inl v)) [leaf_of g' x d])) (entry_of g' x l' d :: Q) (tr ++ tr').
    Proof.
      intros H Htgt Hnf Huse E Hg'.
      destruct (scan_some _ _ _ _ _ _ _ E) as (sk & Hkids & Htr & Hd & Hin & Hg).
      pose proof (i_gens _ _ _ H) as Hgens. cbn in Hgens. apply NoDup_cons in Hgens as [Hn Hgens]. assert (He : e ∈ e :: Q) by left.
      destruct (pkids_in _ _ (i_gens _ _ _ H) He) as [K1 K2]. rewrite Huse in K1. rewrite Hnf in K2.
      pose proof (gens_fresh _ _ _ _ H Hg') as Hfresh. cbn in Hfresh.
      assert (Hgne : g' <> e_gen e) by (intros ->; apply Hfresh; left).
      assert (Hgen' : g' ∉ map e_gen Q) by (intros Hi; apply Hfresh; right; exact Hi).
      assert (Heq : forall g, g <> e_gen e -> g <> g' -> eqp (e :: Q) (entry_of g' x l' d :: Q) g).
      { intros g H1 H2. destruct (pkids_cons (entry_of g' x l' d) Q g) as [E1 E2]; [cbn; congruence|].
        destruct (pkids_cons e Q g) as [E3 E4]; [congruence|]. split; congruence. }
      assert (Hself : pkids (entry_of g' x l' d :: Q) (e_gen e) = [] /\ pfol (entry_of g' x l' d :: Q) (e_gen e) = []).
      { destruct (pkids_cons (entry_of g' x l' d) Q (e_gen e)) as [-> ->]; [cbn; congruence|]. apply pkids_out, Hn. }
      destruct Hself as [Z1 Z2]. destruct (new_entry Q g' x l' d Hgen') as [N1 N2].
      assert (Hx : tat (raddr x) (children x)).
      { assert (Ht : exists ct s, plug ct s = tg /\ children s = e_kids e).
        { destruct Htgt as [(ct & s & Hp & _ & Hk & _)|(e0 & (ct & s & Hp & _ & Hk & _) & ->)]; exists ct, s; auto. }
        destruct Ht as (ct & [y cy] & Hp & Hk). cbn in Hk. subst cy. rewrite Hkids in Hp. destruct x as [[xm xv] cs]. unfold tat, raddr. cbn in Hp |- *.
        exists ((sk, y, l') :: ct), xv. exact Hp. }
      set (P' := entry_of g' x l' d :: Q) in *.
      pose proof (i_nd _ _ _ H) as Hnd. rewrite keys_plug in Hnd. rewrite keys_plug in Hg'. cbn in Hnd, Hg'.
      assert (Hdis : forall g, g ∈ ckeys c -> g <> e_gen e /\ g <> g').
      { intros g Hgc. apply NoDup_cons in Hnd as [Hnd _]. split; intros ->; set_solver +Hgc Hnd Hg'. }
      apply (inv_grow c (Rose (e_gen e, (m, inl v)) []) (Rose (e_gen e, (m, inl v)) [leaf_of g' x d]) (e :: Q) P' g' tr tr'); [exact H|reflexivity|reflexivity| | | | | | | | |].
      - intros g Hgc. destruct (Hdis g Hgc) as [? ?]. apply Heq; assumption.
      - change (pfol P' (e_gen e) = pfol (e :: Q) (e_gen e)). congruence.
      - intros f Hf. apply agree_app in Hf as [_ Hf]. cbn [comp flat_map fst snd app]. rewrite app_nil_r.
        unfold P' at 1; rewrite comp_leaf; [|exact Hd| |exact Hgen']; fold P'.
        + rewrite <- (Hg f Hf), Z1, Z2, K1, K2. cbn. rewrite app_nil_r. reflexivity.
        + unfold agree in Hf. rewrite Forall_forall in Hf. exact (Hf _ Hin).
      - intros Hw. apply wf_unfold in Hw as [(W1 & W2 & (kids & Wk & Ws) & W4) Wf]. apply wf_unfold. split; [split; [|split; [|split]]|].
        + right. exact Z1.
        + constructor.
        + exists kids. split; [exact Wk|]. etransitivity; [|exact Ws]. unfold nexts. cbn [last map app fst].
          change (rkey (leaf_of g' x d)) with g'. rewrite N2, K1, Hkids. change (rmain (leaf_of g' x d)) with (raddr x).
          rewrite map_app. apply sublist_inserts_l. reflexivity.
        + exact I.
        + apply Forall_cons. split; [apply wf_leaf; assumption|constructor].
      - cbn. apply perm_swap.
      - rewrite keys_plug. exact Hg'.
      - pose proof (i_pos _ _ _ H) as Hp.
        assert (Hsub : preorder (plug c (Rose (e_gen e, (m, inl v)) [])) ⊆ preorder (plug c (Rose (e_gen e, (m, inl v)) [leaf_of g' x d]))).
        { apply preorder_plug_in. cbn. set_solver +. }
        apply Forall_cons. split.
        + exists (match d with Use u => inr u | _ => inl (snd (label x)) end). split; [|destruct d; reflexivity].
          rewrite preorder_plug. apply elem_of_app. right. apply elem_of_app. left. cbn. set_solver +.
        + rewrite Forall_forall in Hp |- *. intros e' He'. destruct (Hp e') as (p0 & Hp1 & Hp2); [right; exact He'|]. exists p0. split; [apply Hsub, Hp1|exact Hp2].
      - cbn. apply NoDup_cons. split; [exact Hgen'|exact Hgens].
      - eapply submseteq_nd; [|exact (i_pend _ _ _ H)]. rewrite map_app, Htr. unfold P'. cbn [flat_map].
        rewrite !pend_app. cbn [entry_of e_kids e_fol]. rewrite Hnf, Hkids, !flat_map_app. cbn [flat_map]. rewrite (raddrs_kids x).
        rewrite map_app. cbn [map].
        etransitivity; [apply submseteq_app; [apply submseteq_app; [reflexivity|apply submseteq_app; [apply raddr_sub|reflexivity]]|reflexivity]|].
        apply Permutation_submseteq. cbn. solve_Permutation.
    Qed.
  End Apr.

  Lemma eqp_perm P P' g : Permutation P P' -> NoDup (map e_gen P) -> eqp P P' g.
  Proof.
    intros Hp Hnd. destruct (decide (g ∈ map e_gen P)) as [Hg|Hg].
    - apply elem_of_list_fmap in Hg as (e & -> & He). destruct (pkids_in _ _ Hnd He) as [E1 E2].
      destruct (pkids_in P' e) as [E3 E4]; [rewrite <- Hp; exact Hnd|rewrite <- Hp; exact He|]. split; congruence.
    - destruct (pkids_out _ _ Hg) as [E1 E2]. destruct (pkids_out P' g) as [E3 E4]; [rewrite <- Hp; exact Hg|]. split; congruence.
  Qed.
  Lemma inv_perm T P P' tr : Permutation P P' -> inv T P tr -> inv T P' tr.
  Proof.
    intros Hp H. assert (Heq : forall g, eqp P P' g) by (intros g; apply eqp_perm; [exact Hp|apply (i_gens _ _ _ H)]). split.
    - intros f Hf. rewrite <- (i_comp _ _ _ H f Hf). apply comp_ext. intros g _. destruct (Heq g) as [E1 E2]. unfold same. rewrite E1, E2. auto.
    - apply (i_nd _ _ _ H).
    - eapply wf_le; [|apply (i_wf _ _ _ H)]. intros g _. apply eqp_le, Heq.
    - destruct (Heq (rkey T)) as [_ ->]. apply (i_root _ _ _ H).
    - rewrite <- Hp. apply (i_pos _ _ _ H).
    - rewrite <- Hp. apply (i_gens _ _ _ H).
    - rewrite <- Hp. apply (i_pend _ _ _ H).
  Qed.
  Definition root_entry (g : addr) : entry := Entry (raddr tg) g (children tg) [] false.
  Lemma inv_start g : NoDup (raddrs tg) -> inv (Rose (g, (raddr tg, inl (snd (label tg)))) []) [root_entry g] [].
  Proof.
    intros Hnd. unfold root_entry. destruct tg as [[m v] cs] eqn:Et. unfold raddr. cbn [label children fst snd].
    assert (Hk : pkids [Entry m g cs [] false] g = cs /\ pfol [Entry m g cs [] false] g = []).
    { unfold pkids, pfol. cbn. rewrite !decide_True by reflexivity. rewrite !app_nil_r. auto. }
    destruct Hk as [K1 K2]. split.
    - intros f _. cbn [comp fst snd flat_map app]. rewrite K1, K2, Et. cbn. reflexivity.
    - cbn. apply NoDup_singleton.
    - apply wf_unfold. split; [|constructor]. split; [left; reflexivity|]. split; [constructor|]. split; [|exact I].
      exists cs. split; [exists [], v; symmetry; exact Et|]. unfold nexts. cbn [last map app fst]. rewrite K1. reflexivity.
    - exact K2.
    - constructor; [|constructor]. exists (inl v). split; [cbn; left|reflexivity].
    - cbn. apply NoDup_singleton.
    - cbn. rewrite app_nil_r. unfold pend. cbn. rewrite app_nil_r. rewrite raddrs_kids in Hnd. cbn in Hnd. apply NoDup_cons in Hnd as [_ Hnd]. exact Hnd.
  Qed.
  Lemma comp_nil f (t : rose gl) : comp (V := V) f [] t = [rose_map snd t].
  Proof.
    induction t as [x ts IH] using rose_ind'. cbn. rewrite app_nil_r. f_equal. f_equal.
    induction IH as [|t ts H _ IH]; [reflexivity|]. cbn. rewrite H, IH. reflexivity.
  Qed.
  Lemma inv_end T tr : inv T [] tr -> forall f, agree f tr -> rose_map snd T = grow f tg.
  Proof. intros H f Hf. pose proof (i_comp _ _ _ H f Hf) as E. rewrite comp_nil in E. injection E as ->. reflexivity. Qed.
End Inv.
