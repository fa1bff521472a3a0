(** StarFlat.v: what a generation grows, as a tree of nodes of the target. *)
From Verif Require Import Base Spec Rep RoseFacts NavFacts NodeFacts MatchSpec Matcher Star StarSpec StarResultSpec GenFacts GenInv.

Section Trees.
  Context {V : Type}.
  Notation tree := (rose (addr * V)).
  Lemma raddrs_sub x (cs : list tree) c z : c ∈ cs -> z ∈ raddrs c -> z ∈ raddrs (Rose x cs).
  Proof.
    intros Hc Hz. unfold raddrs in *. apply elem_of_list_fmap in Hz as (y & -> & Hy). apply elem_of_list_fmap. exists y. split; [reflexivity|]. cbn. right.
    apply elem_of_flat_map. eauto.
  Qed.
  Lemma raddrs_node x (cs : list tree) : raddrs (Rose x cs) = fst x :: flat_map raddrs cs.
  Proof. unfold raddrs. cbn. f_equal. induction cs as [|c cs IH]; [reflexivity|]. cbn. rewrite map_app, IH. reflexivity. Qed.
  Lemma raddr_mem (t : tree) : raddr t ∈ raddrs t.
  Proof. destruct t as [x cs]. rewrite raddrs_node. left. Qed.
  Lemma nd_child x (cs : list tree) c : NoDup (raddrs (Rose x cs)) -> c ∈ cs -> NoDup (raddrs c).
  Proof.
    rewrite raddrs_node. intros Hnd Hc. apply NoDup_cons in Hnd as [_ Hnd]. apply elem_of_list_split in Hc as (l1 & l2 & ->).
    rewrite flat_map_app in Hnd. cbn in Hnd. apply NoDup_app in Hnd as (_ & _ & Hnd). apply NoDup_app in Hnd as (Hnd & _). exact Hnd.
  Qed.
  Lemma nd_root x (cs : list tree) c : NoDup (raddrs (Rose x cs)) -> c ∈ cs -> fst x ∉ raddrs c.
  Proof. rewrite raddrs_node. intros Hnd Hc Hx. apply NoDup_cons in Hnd as [Hn _]. apply Hn. apply elem_of_flat_map. eauto. Qed.
  Lemma nd_same x (cs : list tree) c d z : NoDup (raddrs (Rose x cs)) -> c ∈ cs -> d ∈ cs -> z ∈ raddrs c -> z ∈ raddrs d -> c = d.
  Proof.
    rewrite raddrs_node. intros Hnd Hc Hd Hzc Hzd. apply NoDup_cons in Hnd as [_ Hnd]. apply elem_of_list_split in Hc as (l1 & l2 & ->).
    rewrite flat_map_app in Hnd. cbn in Hnd. apply NoDup_app in Hnd as (_ & H1 & Hnd). apply NoDup_app in Hnd as (_ & H2 & _).
    apply elem_of_app in Hd as [Hd|Hd]; [|apply elem_of_cons in Hd as [->|Hd]; [reflexivity|]].
    - destruct (H1 z); [apply elem_of_flat_map; eauto|]. apply elem_of_app. left. exact Hzc.
    - destruct (H2 z Hzc). apply elem_of_flat_map. eauto.
  Qed.
  Lemma sub_raddrs (s t : tree) z : rsubtree s t -> z ∈ raddrs s -> z ∈ raddrs t.
  Proof. induction 1 as [|x cs c Hc _ IH]; [auto|]. intros Hz. eapply raddrs_sub; [exact Hc|]. apply IH, Hz. Qed.
  Lemma sub_nd (s t : tree) : rsubtree s t -> NoDup (raddrs t) -> NoDup (raddrs s).
  Proof. induction 1 as [|x cs c Hc _ IH]; [auto|]. intros Hnd. apply IH. eapply nd_child; eassumption. Qed.
  (** A node is determined by its address. *)
  Lemma sub_unique (t : tree) : NoDup (raddrs t) -> forall s s', rsubtree s t -> rsubtree s' t -> raddr s = raddr s' -> s = s'.
  Proof.
    induction t as [x cs IH] using rose_ind'. intros Hnd s s' Hs Hs' E. rewrite Forall_forall in IH.
    assert (Hr : forall c u, c ∈ cs -> rsubtree u c -> raddr u <> fst x).
    { intros c u Hc Hu E'. apply (nd_root _ _ _ Hnd Hc). rewrite <- E'. eapply sub_raddrs; [exact Hu|apply raddr_mem]. }
    inversion Hs as [|? ? c Hc Hsc]; subst.
    - inversion Hs' as [|? ? d Hd Hsd]; subst; [reflexivity|]. exfalso. eapply Hr; [exact Hd|exact Hsd|symmetry; exact E].
    - inversion Hs' as [|? ? d Hd Hsd]; subst; [exfalso; eapply Hr; [exact Hc|exact Hsc|exact E]|].
      assert (c = d).
      { eapply nd_same; [exact Hnd|exact Hc|exact Hd| |]; eapply sub_raddrs; [exact Hsc|apply raddr_mem|exact Hsd|rewrite E; apply raddr_mem]. }
      subst d. eapply IH; try eassumption. eapply nd_child; eassumption.
  Qed.
  Lemma rsub_trans (s t u : tree) : rsubtree s t -> rsubtree t u -> rsubtree s u.
  Proof. intros H. induction 1; [exact H|]. econstructor; eauto. Qed.
  Lemma sub_kid (s t : tree) c : rsubtree s t -> c ∈ children s -> rsubtree c t.
  Proof. intros H Hc. eapply rsub_trans; [|exact H]. destruct s as [x cs]. econstructor; [exact Hc|constructor]. Qed.
  Lemma label_sub (t : tree) y : y ∈ preorder t -> exists s, rsubtree s t /\ label s = y.
  Proof. intros H. apply elem_position in H as (c & s & Hp & Hl). exists s. split; [apply rsubtree_plug; eauto|exact Hl]. Qed.
  Lemma reached_sub (p : V -> bool) (t s : tree) : reached snd p t s -> rsubtree s t /\ raddr s <> raddr t \/ ~ NoDup (raddrs t).
  Proof.
    intros H. assert (Hs : exists x cs c, t = Rose x cs /\ c ∈ cs /\ rsubtree s c).
    { induction H as [x ts s Hs|x ts t s Ht _ _ (y & ds & c & -> & Hc & Hsc)]; [exists x, ts, s; split; [reflexivity|split; [exact Hs|constructor]]|].
      exists x, ts, (Rose y ds). split; [reflexivity|]. split; [exact Ht|]. econstructor; eassumption. }
    destruct Hs as (x & cs & c & -> & Hc & Hs). destruct (decide (NoDup (raddrs (Rose x cs)))) as [Hnd|Hnd]; [left|right; exact Hnd].
    split; [econstructor; eassumption|]. intros E. apply (nd_root _ _ _ Hnd Hc). change (fst x) with (raddr (Rose x cs)). rewrite <- E.
    eapply sub_raddrs; [exact Hs|apply raddr_mem].
  Qed.

  (** *** The result is made of nodes of the tree *)
  Definition trim (m t : tree) : Prop := exists p, occurs snd p t m.
  Definition trims (ms ts : list tree) : Prop := exists ps, chosen snd ps ts ms.
  Lemma trim_node x ms ts : trims ms ts -> trim (Rose x ms) (Rose x ts).
  Proof. intros [ps H]. exists (Rose (fun _ => true) ps). constructor; [reflexivity|exact H]. Qed.
  Lemma trims_take m t ms ts : trim m t -> trims ms ts -> trims (m :: ms) (t :: ts).
  Proof. intros [p H] [ps H']. exists (p :: ps). constructor; assumption. Qed.
  Lemma trims_skip t ms ts : trims ms ts -> trims ms (t :: ts).
  Proof. intros [ps H']. exists ps. constructor; assumption. Qed.
  Lemma trims_nil ts : trims [] ts.
  Proof. exists []. constructor. Qed.
  Lemma trims_app ms1 ts1 ms2 ts2 : trims ms1 ts1 -> trims ms2 ts2 -> trims (ms1 ++ ms2) (ts1 ++ ts2).
  Proof.
    intros [ps H1] H2. induction H1 as [ts|p ps t ts m ms Ho _ IH|ps t ts ms _ IH]; cbn.
    - induction ts as [|t ts IH]; cbn; [exact H2|apply trims_skip, IH].
    - apply trims_take; [exists p; exact Ho|exact IH].
    - apply trims_skip, IH.
  Qed.
  Lemma trim_label m t : trim m t -> label m = label t.
  Proof. intros [p H]. destruct H. reflexivity. Qed.
  Lemma fill_trims q p R ts out : (forall s m, (s, m) ∈ R -> trim m s) -> fill snd q p R ts out -> trims out ts.
  Proof.
    intros HR. induction 1 as [|t m ts out Hm _ IH|x cs ts ms out _ _ _ _ IH1 _ IH2|x cs ts out _ _ _ _ IH].
    - apply trims_nil.
    - apply trims_take; [apply HR, Hm|exact IH].
    - apply trims_take; [apply trim_node, IH1|exact IH2].
    - apply trims_skip, IH.
  Qed.
End Trees.

Section Flat.
  Context {V C : Type}.
  Notation tree := (rose (addr * V)).
  Notation dec := (dec C).
  Implicit Types (f : addr -> dec) (t s c : tree).
  (** What is put in for a node. *)
  Variable mof : addr -> tree.

  Section F.
    Variable f : addr -> dec.
    Fixpoint flat (t : tree) : tree :=
      match t with
      | Rose x cs => Rose x (flat_map (fun c => match f (raddr c) with Skip => [] | Keep => [flat c] | Use _ => [mof (raddr c)] end) cs)
      end.
    Definition flat1 (c : tree) : list tree := match f (raddr c) with Skip => [] | Keep => [flat c] | Use _ => [mof (raddr c)] end.
    Lemma flat_unfold x cs : flat (Rose x cs) = Rose x (flat_map flat1 cs).
    Proof. reflexivity. Qed.

    (** [s] was kept, and all nodes on the way to it. *)
    Inductive reach : tree -> tree -> Prop :=
    | Rc_here t : reach t t
    | Rc_down x cs c s : c ∈ cs -> f (raddr c) = Keep -> reach c s -> reach (Rose x cs) s.
    Lemma reach_snoc t s c : reach t s -> c ∈ children s -> f (raddr c) = Keep -> reach t c.
    Proof.
      induction 1 as [[x cs]|x cs c' s Hc Hk _ IH]; intros Hin Hf.
      - eapply Rc_down; [exact Hin|exact Hf|constructor].
      - eapply Rc_down; eauto.
    Qed.
    Lemma reach_sub t s : reach t s -> rsubtree s t.
    Proof. induction 1 as [t|x cs c s Hc _ _ IH]; [constructor|]. econstructor; eassumption. Qed.
    (** A node with a kept node inside was kept. *)
    Lemma reach_inside t : NoDup (raddrs t) -> forall c s, rsubtree c t -> c <> t -> reach t s -> raddr s ∈ raddrs c -> f (raddr c) = Keep.
    Proof.
      induction t as [x cs IH] using rose_ind'. intros Hnd c s Hc Hne Hs Hin. rewrite Forall_forall in IH.
      inversion Hc as [|? ? d Hd Hcd]; subst; [congruence|].
      assert (Hsd : raddr s ∈ raddrs d) by (eapply sub_raddrs; eassumption).
      inversion Hs as [|? ? e ? He Hk Hse]; subst.
      - exfalso. exact (nd_root _ _ _ Hnd Hd Hsd).
      - assert (e = d).
        { eapply nd_same; [exact Hnd|exact He|exact Hd| |exact Hsd]. eapply sub_raddrs; [apply reach_sub, Hse|apply raddr_mem]. }
        subst e. destruct (decide (raddr c = raddr d)) as [E|E]; [rewrite E; exact Hk|].
        eapply IH; [exact Hd|eapply nd_child; eassumption|exact Hcd|congruence|exact Hse|exact Hin].
    Qed.
    (** The nodes of what is grown. *)
    Lemma grow_inl t pm (v : V) : (pm, inl v) ∈ preorder (grow f t) -> exists s, reach t s /\ raddr s = pm.
    Proof.
      induction t as [x cs IH] using rose_ind'. rewrite grow_unfold. cbn [preorder]. intros H. apply elem_of_cons in H as [[= -> ->]|H]; [exists (Rose x cs); split; [constructor|reflexivity]|].
      apply elem_of_flat_map in H as (g & Hg & H). unfold growl in Hg. apply elem_of_flat_map in Hg as (c & Hc & Hg). unfold grow1 in Hg.
      rewrite Forall_forall in IH. destruct (f (raddr c)) eqn:Ef.
      - apply elem_of_nil in Hg as [].
      - apply elem_of_list_singleton in Hg as ->. destruct (IH c Hc H) as (s & Hs & E). exists s. split; [eapply Rc_down; eassumption|exact E].
      - apply elem_of_list_singleton in Hg as ->. cbn in H. apply elem_of_list_singleton in H. discriminate.
    Qed.
    Lemma grow_inr t pm (u : C) : (pm, inr u) ∈ preorder (grow f t) -> f pm = Use u.
    Proof.
      induction t as [x cs IH] using rose_ind'. rewrite grow_unfold. cbn [preorder]. intros H. apply elem_of_cons in H as [[=]|H].
      apply elem_of_flat_map in H as (g & Hg & H). unfold growl in Hg. apply elem_of_flat_map in Hg as (c & Hc & Hg). unfold grow1 in Hg.
      rewrite Forall_forall in IH. destruct (f (raddr c)) eqn:Ef.
      - apply elem_of_nil in Hg as [].
      - apply elem_of_list_singleton in Hg as ->. exact (IH c Hc H).
      - apply elem_of_list_singleton in Hg as ->. cbn in H. apply elem_of_list_singleton in H. injection H as -> ->. exact Ef.
    Qed.
    Lemma grow_used t s c (u : C) : reach t s -> c ∈ children s -> f (raddr c) = Use u -> (raddr c, inr u) ∈ preorder (grow f t).
    Proof.
      induction 1 as [[x cs]|x cs d s Hd Hk _ IH]; intros Hc Hf; rewrite grow_unfold; cbn [preorder]; right; apply elem_of_flat_map.
      - exists (Rose (raddr c, inr u) []). split; [|left]. unfold growl. apply elem_of_flat_map. exists c. split; [exact Hc|]. unfold grow1. rewrite Hf. left.
      - exists (grow f d). split; [|apply IH; assumption]. unfold growl. apply elem_of_flat_map. exists d. split; [exact Hd|]. unfold grow1. rewrite Hk. left.
    Qed.
  End F.

  (** *** Nodes whose parent was kept were asked for *)
  Lemma grow_le f f' t : (forall m, f' m = f m \/ f m = Skip) -> rsize (grow f t) <= rsize (grow f' t).
  Proof.
    intros H. induction t as [x cs IH] using rose_ind'. rewrite !grow_unfold. cbn [rsize]. apply le_n_S.
    induction IH as [|c cs Hc _ IHcs]; [apply le_n|]. change (growl ?g (c :: cs)) with (grow1 g c ++ growl g cs). rewrite !map_app, !list_sum_app'.
    assert (list_sum (map rsize (grow1 f c)) <= list_sum (map rsize (grow1 f' c))); [|lia].
    unfold grow1. destruct (H (raddr c)) as [E|E]; rewrite E; [|cbn; lia]. destruct (f (raddr c)); cbn; lia.
  Qed.
  Lemma grow_lt f f' t s c : (forall m, f' m = f m \/ f m = Skip) -> reach f t s -> c ∈ children s -> f (raddr c) = Skip -> f' (raddr c) = Keep ->
    rsize (grow f t) < rsize (grow f' t).
  Proof.
    intros Hle. assert (Hsum : forall cs : list tree, list_sum (map rsize (growl f cs)) <= list_sum (map rsize (growl f' cs))).
    { intros cs. pose proof (grow_le f f' (Rose (1%positive, snd (label t)) cs) Hle) as H. rewrite !grow_unfold in H. cbn [rsize] in H.
      apply le_S_n in H. exact H. }
    assert (Hin : forall (cs : list tree) c, c ∈ cs -> list_sum (map rsize (grow1 f c)) < list_sum (map rsize (grow1 f' c)) ->
      list_sum (map rsize (growl f cs)) < list_sum (map rsize (growl f' cs))).
    { intros cs c0 Hc Hlt. apply elem_of_list_split in Hc as (l1 & l2 & ->). unfold growl. rewrite !flat_map_app. cbn [flat_map]. rewrite !map_app, !list_sum_app'.
      pose proof (Hsum l1). pose proof (Hsum l2). unfold growl in *. lia. }
    induction 1 as [[x cs]|x cs d s Hd Hk _ IH]; intros Hc Hf Hf'; rewrite !grow_unfold; cbn [rsize]; apply (proj1 (Nat.succ_lt_mono _ _)).
    - apply (Hin cs c Hc). unfold grow1. rewrite Hf, Hf'. cbn. pose proof (rsize_pos (grow f' c)). lia.
    - apply (Hin cs d Hd). unfold grow1. rewrite Hk. destruct (Hle (raddr d)) as [E|E]; [|congruence]. rewrite E, Hk. cbn.
      assert (Hlt : rsize (grow f d) < rsize (grow f' d)); [|lia]. apply IH; assumption.
  Qed.
  Lemma asked t (tr : list (addr * dec)) X s c : NoDup (map fst tr) -> (forall f, agree f tr -> grow f t = X) ->
    reach (decided tr) t s -> c ∈ children s -> raddr c ∈ map fst tr.
  Proof.
    intros Hnd HX Hs Hc. destruct (decide (raddr c ∈ map fst tr)) as [H|H]; [exact H|exfalso].
    set (f' := fun m => if decide (m = raddr c) then Keep else decided tr m).
    assert (Hskip : decided tr (raddr c) = Skip).
    { unfold decided. destruct (list_find _ tr) as [[i md]|] eqn:E; [|reflexivity]. apply list_find_Some in E as (E & Em & _). destruct H.
      rewrite <- Em. apply elem_of_list_fmap. exists md. split; [reflexivity|]. eapply elem_of_list_lookup_2, E. }
    assert (Ha : agree f' tr).
    { pose proof (decided_agree tr Hnd) as Hd. unfold agree in *. rewrite Forall_forall in *. intros md Hin. unfold f'. rewrite decide_False; [apply Hd, Hin|].
      intros E. apply H. rewrite <- E. apply elem_of_list_fmap. eauto. }
    assert (Hlt : rsize (grow (decided tr) t) < rsize (grow f' t)).
    { eapply grow_lt; [|exact Hs|exact Hc|exact Hskip|unfold f'; rewrite decide_True by reflexivity; reflexivity].
      intros m. unfold f'. destruct (decide (m = raddr c)) as [->|]; [right; exact Hskip|left; reflexivity]. }
    rewrite (HX _ Ha), (HX _ (decided_agree tr Hnd)) in Hlt. lia.
  Qed.

  (** *** The levels of a star are filled in *)
  Section Fill.
    Variable tg : tree.
    Hypothesis tg_nd : NoDup (raddrs tg).
    Variable f : addr -> dec.
    Variable called : addr -> Prop.
    Variable q : quantifier.
    Variable p : V -> bool.
    Variable R : list (tree * tree).
    Variable uses : addr -> option C.
    Hypothesis q_not : q <> QReluctant.
    Hypothesis R_ok : forall s m, (s, m) ∈ R -> reached snd p tg s /\ m = mof (raddr s) /\ is_Some (uses (raddr s)).
    Hypothesis R_all : forall t, rsubtree t tg -> is_Some (uses (raddr t)) -> exists m, (t, m) ∈ R.
    Hypothesis R_apart : forall s m s' m', (s, m) ∈ R -> (s', m') ∈ R -> raddr s' ∈ raddrs s -> s' = s.
    Hypothesis called_use : forall m u, called m -> uses m = Some u -> f m = Use u.
    Hypothesis use_called : forall m u, f m = Use u -> uses m = Some u.
    Hypothesis called_keep : forall c, rsubtree c tg -> called (raddr c) -> uses (raddr c) = None -> f (raddr c) = Keep -> p (snd (label c)) = true.
    Hypothesis called_kept : forall s c, reach f tg s -> uses (raddr s) = None -> c ∈ children s -> called (raddr c) -> uses (raddr c) = None -> p (snd (label c)) = true ->
      q <> QDefault \/ (exists s0 m0, (s0, m0) ∈ R /\ ~ called (raddr s0)) -> f (raddr c) = Keep.
    Hypothesis reach_called : forall s c, reach f tg s -> c ∈ children s -> called (raddr c).
    Hypothesis called_par : forall m, called m -> exists pm kids, tat tg pm kids /\ m ∈ map raddr kids /\
      ((exists s, reach f tg s /\ raddr s = pm) \/ is_Some (uses pm)).
    Hypothesis called_dec : forall m, called m \/ ~ called m.

    Lemma R_sub s m : (s, m) ∈ R -> rsubtree s tg /\ raddr s <> raddr tg.
    Proof. intros H. destruct (R_ok s m H) as (Hr & _). apply reached_sub in Hr as [Hr|Hr]; [exact Hr|destruct (Hr tg_nd)]. Qed.
    (** Strictly inside a node taken, nothing is taken. *)
    Lemma R_strict s m t : (s, m) ∈ R -> rsubtree s t -> rsubtree t tg -> t <> s -> uses (raddr t) = None.
    Proof.
      intros Hs Hst Ht Hne. destruct (uses (raddr t)) as [u|] eqn:E; [|reflexivity]. exfalso.
      destruct (R_all t Ht ltac:(rewrite E; eauto)) as (m' & Hm'). apply Hne. symmetry. eapply (R_apart t m' s m); [exact Hm'|exact Hs|].
      eapply sub_raddrs; [exact Hst|apply raddr_mem].
    Qed.
    Lemma root_free : uses (raddr tg) = None.
    Proof.
      destruct (uses (raddr tg)) as [u|] eqn:E; [|reflexivity]. exfalso. destruct (R_all tg ltac:(constructor) ltac:(rewrite E; eauto)) as (m & Hm).
      destruct (R_sub _ _ Hm) as [_ Hn]. congruence.
    Qed.
    Lemma reached_parts (t s : tree) : reached snd p t s -> exists x cs c, t = Rose x cs /\ c ∈ cs /\ rsubtree s c.
    Proof.
      induction 1 as [x ts s Hs|x ts t s Ht _ _ (y & ds & c & -> & Hc & Hsc)]; [exists x, ts, s; split; [reflexivity|split; [exact Hs|constructor]]|].
      exists x, ts, (Rose y ds). split; [reflexivity|]. split; [exact Ht|]. econstructor; eassumption.
    Qed.
    Lemma reached_uncalled s m : (s, m) ∈ R -> ~ called (raddr s) -> forall t, reach f tg t -> uses (raddr t) = None -> reached snd p t s -> False.
    Proof.
      intros Hs Hn t Ht Hu Hr. revert Hs Hn Ht Hu. induction Hr as [x ts s Hc|x ts t s Hc Hp Hr IH]; intros Hs Hn Hx Hu.
      - apply Hn. eapply reach_called; [exact Hx|exact Hc].
      - assert (Htg : rsubtree t tg) by (eapply sub_kid; [apply reach_sub with (f := f), Hx|exact Hc]).
        assert (Hne : t <> s).
        { intros ->. pose proof (reached_sub p s s Hr) as [[_ H]|H]; [congruence|]. apply H. eapply sub_nd; [exact Htg|exact tg_nd]. }
        assert (Hst : rsubtree s t) by (destruct (reached_parts _ _ Hr) as (y & ds & c & -> & Hc' & Hs'); econstructor; eassumption).
        pose proof (R_strict s m t Hs Hst Htg Hne) as Hut.
        refine (IH Hs Hn _ Hut). eapply reach_snoc; [exact Hx|exact Hc|].
        eapply called_kept; [exact Hx|exact Hu|exact Hc|eapply reach_called; [exact Hx|exact Hc]|exact Hut|exact Hp|]. right. eauto.
    Qed.
    Theorem all_called s m : (s, m) ∈ R -> called (raddr s).
    Proof.
      intros Hs. destruct (called_dec (raddr s)) as [H|H]; [exact H|exfalso]. destruct (R_ok s m Hs) as (Hr & _).
      eapply reached_uncalled; [exact Hs|exact H|constructor|apply root_free|exact Hr].
    Qed.
    Lemma parent_reached s m : (s, m) ∈ R -> exists t, reach f tg t /\ s ∈ children t.
    Proof.
      intros Hs. destruct (R_sub _ _ Hs) as [Hsub _]. destruct (called_par _ (all_called s m Hs)) as (pm & kids & (cx & v & Hp) & Hin & Hcase).
      set (t := Rose (pm, v) kids) in *. assert (Ht : rsubtree t tg) by (apply rsubtree_plug; eauto).
      apply elem_of_list_fmap in Hin as (s' & E & Hs').
      assert (s' = s). { eapply sub_unique; [exact tg_nd|eapply sub_kid; [exact Ht|exact Hs']|exact Hsub|symmetry; exact E]. } subst s'.
      destruct Hcase as [(t' & Ht' & E')|Hu].
      - assert (t' = t) by (eapply sub_unique; [exact tg_nd|apply reach_sub with (f := f), Ht'|exact Ht|exact E']). subst t'. exists t. auto.
      - exfalso. assert (Hne : t <> s).
        { intros Et. assert (Hnd : NoDup (raddrs t)) by (eapply sub_nd; [exact Ht|exact tg_nd]). apply (nd_root _ _ _ Hnd Hs'). rewrite <- Et. exact (raddr_mem t). }
        pose proof (R_strict s m t Hs ltac:(econstructor; [exact Hs'|constructor]) Ht Hne) as Hun. unfold t, raddr in Hun. cbn in Hun. rewrite Hun in Hu. destruct Hu as [? [=]].
    Qed.
    Lemma way_keep c : rsubtree c tg -> c <> tg -> ~ taken R c -> way R c -> f (raddr c) = Keep.
    Proof.
      intros Hc Hne Hnt (s & m & Hs & Hin). destruct (R_sub _ _ Hs) as [Hsub _].
      assert (Hsc : rsubtree s c).
      { apply label_sub in Hin as (s' & Hs' & El). assert (s' = s); [|subst; exact Hs'].
        eapply sub_unique; [exact tg_nd|eapply rsub_trans; [exact Hs'|exact Hc]|exact Hsub|]. unfold raddr. rewrite El. reflexivity. }
      inversion Hsc as [|y cs d Hd Hsd]; subst; [destruct Hnt; exists m; exact Hs|].
      destruct (parent_reached s m Hs) as (t & Ht & Hst).
      eapply reach_inside; [exact tg_nd|exact Hc|exact Hne|exact Ht|].
      (* the parent of s is in c *)
      clear Hnt Hin. assert (Hpar : exists t', rsubtree t' (Rose y cs) /\ s ∈ children t').
      { revert Hd. clear -Hsd. revert y cs. induction Hsd as [|z ds e He _ IH]; intros y cs Hd; [exists (Rose y cs); split; [constructor|exact Hd]|].
        destruct (IH z ds He) as (t' & Ht' & Hs'). exists t'. split; [|exact Hs']. econstructor; eassumption. }
      destruct Hpar as (t' & Ht' & Hst'). assert (t' = t); [|subst t'; eapply sub_raddrs; [exact Ht'|apply raddr_mem]].
      assert (Hpos : forall u, rsubtree u tg -> s ∈ children u -> exists cx ls rs, plug ((ls, label u, rs) :: cx) s = tg /\ u = Rose (label u) (ls ++ s :: rs)).
      { intros u Hu Hsu. apply rsubtree_plug in Hu as (cx & Hp). destruct u as [z zs]. cbn in *. apply elem_of_list_split in Hsu as (ls & rs & ->). exists cx, ls, rs. auto. }
      destruct (Hpos t' ltac:(eapply rsub_trans; [exact Ht'|exact Hc]) Hst') as (cx1 & l1 & r1 & P1 & E1).
      destruct (Hpos t (reach_sub f _ _ Ht) Hst) as (cx2 & l2 & r2 & P2 & E2).
      destruct (ctx_unique ((l1, label t', r1) :: cx1) s ((l2, label t, r2) :: cx2) s) as [Ectx _]; [|congruence|reflexivity|].
      - rewrite P1. apply (NoDup_fmap_1 fst). exact tg_nd.
      - injection Ectx as -> El -> _. rewrite E1, E2, El. reflexivity.
    Qed.
    Lemma fill_from t : forall c0, (forall c, c ∈ children c0 -> c ∈ children t) -> reach f tg t -> uses (raddr t) = None -> 
      (forall c, c ∈ children c0 -> f (raddr c) = Keep -> fill snd q p R (children c) (flat_map (flat1 f) (children c))) ->
      fill snd q p R (children c0) (flat_map (flat1 f) (children c0)).
    Proof.
      intros [x0 cs]. cbn [children]. induction cs as [|c cs IH]; intros Hsub Ht Hu Hk; [constructor|]. cbn [flat_map].
      assert (Hrest : fill snd q p R cs (flat_map (flat1 f) cs)).
      { apply IH; auto; intros d Hd; [apply Hsub|intros; apply Hk; [|assumption]]; right; exact Hd. }
      assert (Hc : c ∈ children t) by (apply Hsub; left). assert (Hcs : rsubtree c tg) by (eapply sub_kid; [apply reach_sub with (f := f), Ht|exact Hc]).
      assert (Hca : called (raddr c)) by (eapply reach_called; eassumption).
      assert (Hne : c <> tg).
      { intros ->. pose proof (reach_sub f _ _ Ht) as H. assert (Hnd : NoDup (raddrs t)) by (eapply sub_nd; eassumption). destruct t as [y ys]. cbn in Hc.
        apply (nd_root _ _ _ Hnd Hc). eapply sub_raddrs; [exact H|exact (raddr_mem (Rose y ys))]. }
      destruct (uses (raddr c)) as [u|] eqn:Eu.
      - destruct (R_all c Hcs ltac:(rewrite Eu; eauto)) as (m & Hm). destruct (R_ok _ _ Hm) as (_ & -> & _).
        unfold flat1 at 1. rewrite (called_use _ _ Hca Eu). cbn [app]. apply F_taken; assumption.
      - assert (Hnt : ~ taken R c). { intros (m & Hm). destruct (R_ok _ _ Hm) as (_ & _ & Hsome). rewrite Eu in Hsome. destruct Hsome as [? [=]]. }
        destruct (f (raddr c)) eqn:Ef.
        + unfold flat1 at 1. rewrite Ef. cbn [app]. destruct c as [y ds]. apply F_drop; [exact Hnt| | |exact Hrest].
          * intros Hw. pose proof (way_keep _ Hcs Hne Hnt Hw). congruence.
          * intros Hp. assert (Hqd : q = QDefault \/ q <> QDefault) by (destruct q; auto; right; discriminate). destruct Hqd as [Hq|Hq]; [rewrite Hq; split; discriminate|]. exfalso.
            assert (f (raddr (Rose y ds)) = Keep); [|congruence]. eapply called_kept; [exact Ht|exact Hu|exact Hc|exact Hca|exact Eu|exact Hp|left; exact Hq].
        + unfold flat1 at 1. rewrite Ef. cbn [app]. assert (Hkc := Hk c ltac:(left) Ef). destruct c as [y ds].
          rewrite flat_unfold. apply F_keep; [exact Hnt| |intros; contradiction|exact Hkc|exact Hrest].
          exact (called_keep _ Hcs Hca Eu Ef).
        + apply use_called in Ef. congruence.
    Qed.
    Theorem flat_fill : fill snd q p R (children tg) (children (flat f tg)).
    Proof.
      assert (H : forall t, reach f tg t -> uses (raddr t) = None -> fill snd q p R (children t) (flat_map (flat1 f) (children t))).
      { intros t. induction t as [x cs IH] using rose_ind'. intros Ht Hu. rewrite Forall_forall in IH.
        apply (fill_from (Rose x cs) (Rose x cs)); [auto|exact Ht|exact Hu|]. intros c Hc Hf. apply IH; [exact Hc|eapply reach_snoc; eassumption|].
        destruct (uses (raddr c)) as [u|] eqn:Eu; [|reflexivity]. rewrite (called_use _ _ (reach_called _ _ Ht Hc) Eu) in Hf. discriminate. }
      specialize (H tg (Rc_here f tg) root_free). destruct tg as [x cs]. exact H.
    Qed.
    Theorem used_grown s m u : (s, m) ∈ R -> uses (raddr s) = Some u -> (raddr s, inr u) ∈ preorder (grow f tg).
    Proof.
      intros Hs Hu. destruct (parent_reached s m Hs) as (t & Ht & Hst). eapply grow_used; [exact Ht|exact Hst|].
      apply called_use; [eapply all_called, Hs|exact Hu].
    Qed.
  End Fill.
End Flat.
