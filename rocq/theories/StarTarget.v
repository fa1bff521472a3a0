(** StarTarget.v: filling in the levels of a star with a generative navigator
    (multi_matcher.hpp 214-262). *)
From Verif Require Import Base Spec StructNode BinaryNode NaryNode Nav Policy Tree Rep RoseFacts NavFacts NaryRep Iter IterTrees
  World Kinds EditSpec TreeSpec TreeOps NodeFacts MatchSpec Matcher MatchWalk PredProofs GenFacts GenInv Gen GenSim GenRun GenUser Star StarSpec StarResultSpec StarLemmas StarWalk StarFlat.

Section Target.
  Context {V Nd : Type}.
  Variable F : nat.
  Variable im : node_impl V Nd.
  Variable al : allocator Nd.
  Variable like : gmap addr Nd -> ptr -> ptr -> ptr -> res (gmap addr Nd).
  Variable K : kind_data V Nd.
  Notation heap := (gmap addr Nd).
  Notation tree := (rose (addr * V)).
  Notation C := (C K).
  Notation croot := (croot K).
  Notation dec := (dec C).
  Variable q : quantifier.
  Variable p : V -> bool.
  Variable tg : tree.
  Hypothesis tg_nd : NoDup (raddrs tg).
  (** The results of the children of the star, by the node they stand for. *)
  Variable us : gmap addr C.

  (** *** The predicate, with the set [D] of the targets used so far *)
  Definition none_left (D : gset addr) : bool :=
    (match q with QDefault => true | _ => false end) && (Z.of_nat (size us) - Z.of_nat (size D) =? 0)%Z.
  Definition conc (D : gset addr) : gmap addr ptr * Z :=
    (map_imap (fun m u => Some (if decide (m ∈ D) then None else croot u)) us, (Z.of_nat (size us) - Z.of_nat (size D))%Z).
  Definition inner (m : addr) : bool := passes (fun x => bool_decide (is_Some (us !! fst x))) tg m.
  Definition tapr (st : option (gset addr)) (m : addr) : option (gset addr) * dec :=
    match st with
    | None => (None, Skip)
    | Some D =>
        if none_left D then (Some D, Skip)
        else match us !! m with
             | Some u => if decide (m ∈ D) then (None, Skip) else (Some ({[m]} ∪ D), Use u)
             | None => (Some D, if inner m then Skip else if pass tg p m then Keep else Skip)
             end
    end.
  Definition tpred (st : option (gset addr)) (h : heap) (pt : mptr) : res (option (gset addr) * mptr * bool) :=
    match st with
    | None => Ok (None, pt, false)
    | Some D =>
        match mp_main pt with
        | None => Err NullDeref
        | Some m =>
            match us !! m with
            | Some u => if none_left D then Ok (Some D, pt, false)
                        else if decide (m ∈ D) then Ok (None, pt, false)
                        else Ok (Some ({[m]} ∪ D), mp_assign 1 (croot u) pt, true)
            | None => '(_, r, b) ← check_target im q p (conc D) h pt; Ok (Some D, r, b)
            end
        end
    end.
  Definition tview (st : option (gset addr)) : option (gmap addr ptr * Z) := option_map conc st.

  Lemma conc_get D m : fst (conc D) !! m = (fun u => if decide (m ∈ D) then None else croot u) <$> us !! m.
  Proof. unfold conc. cbn [fst]. rewrite map_lookup_imap. destruct (us !! m); reflexivity. Qed.
  Lemma target_sim s h pt s' r b : tpred s h pt = Ok (s', r, b) ->
    forall st', tview s' = Some st' -> exists st, tview s = Some st /\ check_target im q p st h pt = Ok (st', r, b).
  Proof.
    intros E st' Hv. destruct s as [D|]; [|injection E as <- _ _; discriminate]. exists (conc D). split; [reflexivity|]. cbn [tpred] in E.
    unfold check_target. change (snd (conc D)) with (Z.of_nat (size us) - Z.of_nat (size D))%Z. fold (none_left D).
    destruct (mp_main pt) as [m|] eqn:Em; [|discriminate]. destruct (us !! m) as [u|] eqn:Eu.
    - destruct (none_left D); [injection E as <- <- <-; injection Hv as <-; reflexivity|]. rewrite conc_get, Eu. cbn [fmap option_fmap option_map].
      destruct (decide (m ∈ D)) as [H|H]; [injection E as <- _ _; discriminate|]. injection E as <- <- <-. injection Hv as <-.
      assert (Hm : <[m := None]> (fst (conc D)) = fst (conc ({[m]} ∪ D))).
      { apply map_eq. intros a. rewrite conc_get. destruct (decide (a = m)) as [->|Hne].
        - rewrite lookup_insert, Eu. cbn. rewrite decide_True by set_solver +. reflexivity.
        - rewrite lookup_insert_ne, conc_get by congruence. destruct (us !! a); [|reflexivity]. cbn. f_equal.
          destruct (decide (a ∈ D)) as [Ha|Ha]; [rewrite decide_True by set_solver +Ha|rewrite decide_False by set_solver +Ha Hne]; reflexivity. }
      rewrite Hm. unfold conc. cbn [fst snd]. rewrite size_union, size_singleton by set_solver +H. do 4 f_equal. lia.
    - destruct (check_target im q p (conc D) h pt) as [[[st1 r1] b1]|] eqn:Ec; cbn [mbind res_bind] in E; [|discriminate]. injection E as <- <- <-. injection Hv as <-.
      revert Ec. unfold check_target. change (snd (conc D)) with (Z.of_nat (size us) - Z.of_nat (size D))%Z. fold (none_left D). rewrite Em, conc_get, Eu. cbn [fmap option_fmap option_map].
      destruct (none_left D); [intros [= <- <- <-]; reflexivity|]. destruct (op_parent (ni_ops im h) (Some m)) as [par|]; cbn [mbind res_bind]; [|discriminate].
      destruct (match par with Some b => _ | None => false end); [intros [= <- <- <-]; reflexivity|].
      destruct (ni_value im h (Some m)) as [v|]; cbn [mbind res_bind]; [|discriminate]. intros [= <- <- <-]. reflexivity.
  Qed.

  Lemma parent_pos m : m ∈ raddrs tg -> m <> raddr tg -> exists ls x rs c s, plug ((ls, x, rs) :: c) s = tg /\ raddr s = m.
  Proof.
    intros Hm Hne. unfold raddrs in Hm. apply elem_of_list_fmap in Hm as (y & -> & Hy). apply elem_position in Hy as (c & s & Hp & El).
    destruct c as [|[[ls x] rs] c]; [cbn in Hp; subst s; unfold raddr in Hne; rewrite El in Hne; congruence|].
    exists ls, x, rs, c, s. split; [exact Hp|]. unfold raddr. rewrite El. reflexivity.
  Qed.
  Lemma target_ok h m o fl st st' d : ops_ok (ni_ops im h) (rose_map fst tg) -> (forall x, x ∈ preorder tg -> ni_value im h (Some (fst x)) = Ok (snd x)) ->
    m ∈ raddrs tg -> m <> raddr tg -> tapr st m = (st', d) ->
    tpred st h (MPtr [Some m; o] fl) = Ok (st', answer K (MPtr [Some m; o] fl) d, accepted K d).
  Proof.
    intros Hops Hval Hm Hne. destruct st as [D|]; [|intros [= <- <-]; reflexivity]. cbn [tapr tpred].
    change (mp_main (MPtr [Some m; o] fl)) with (Some m). cbv iota. destruct (us !! m) as [u|] eqn:Eu.
    - destruct (none_left D); [intros [= <- <-]; reflexivity|]. destruct (decide (m ∈ D)); intros [= <- <-]; reflexivity.
    - unfold check_target. change (snd (conc D)) with (Z.of_nat (size us) - Z.of_nat (size D))%Z. fold (none_left D).
      destruct (none_left D); [intros [= <- <-]; reflexivity|]. change (mp_main (MPtr [Some m; o] fl)) with (Some m). cbv iota. rewrite conc_get, Eu. cbn [fmap option_fmap option_map].
      destruct (parent_pos m Hm Hne) as (ls & x & rs & c & s & Hp & <-).
      assert (Hpar : op_parent (ni_ops im h) (Some (raddr s)) = Ok (Some (fst x))).
      { pose proof Hp as Hp'. apply (plug_map_ex fst) in Hp'. rewrite <- Hp' in Hops. apply ops_ok_plug in Hops as [_ Ho].
        cbn [map] in Ho. destruct Ho as (Ho & _). rewrite label_map in Ho. exact Ho. }
      rewrite Hpar. cbn [mbind res_bind]. rewrite conc_get. unfold inner. rewrite (passes_at _ _ _ _ _ _ _ tg_nd Hp).
      destruct (us !! fst x) as [w|] eqn:Ex; cbn [fmap option_fmap option_map].
      + rewrite bool_decide_eq_true_2 by eauto. intros [= <- <-]. reflexivity.
      + rewrite bool_decide_eq_false_2 by (intros [? [=]]). assert (Hin : label s ∈ preorder tg) by (rewrite <- Hp; apply position_elem).
        pose proof (Hval _ Hin) as Hv. change (fst (label s)) with (raddr s) in Hv. rewrite Hv. cbn [mbind res_bind].
        unfold pass. change (raddr s) with (fst (label s)) at 1. rewrite (value_of_in _ _ tg_nd Hin). intros [= <- <-]. destruct (p (snd (label s))); reflexivity.
  Qed.
  Lemma target_use st m st' u : tapr st m = (st', Use u) -> us !! m = Some u.
  Proof.
    destruct st as [D|]; cbn [tapr]; [|discriminate]. destruct (none_left D); [discriminate|]. destruct (us !! m) as [w|] eqn:E.
    - destruct (decide (m ∈ D)); [discriminate|]. intros [= _ ->]. reflexivity.
    - intros [= _ H]. destruct (inner m); [discriminate|]. destruct (pass tg p m); discriminate.
  Qed.
  Lemma target_kids : (forall m u kids, us !! m = Some u -> tat tg m kids -> forall x, x ∈ kids -> us !! raddr x = None) ->
    forall m u kids, us !! m = Some u -> tat tg m kids -> forall st x, x ∈ kids -> exists st', tapr st (raddr x) = (st', Skip).
  Proof.
    intros Hap m u kids Hu Ht st x Hx. destruct st as [D|]; [|exists None; reflexivity]. cbn [tapr]. destruct (none_left D); [eauto|].
    rewrite (Hap _ _ _ Hu Ht x Hx). destruct Ht as (c & v & Hp). apply elem_of_list_split in Hx as (ls & rs & ->).
    change (plug c (Rose (m, v) (ls ++ x :: rs))) with (plug ((ls, (m, v), rs) :: c) x) in Hp. unfold inner. rewrite (passes_at _ _ _ _ _ _ _ tg_nd Hp).
    cbn [fst]. rewrite bool_decide_eq_true_2 by eauto. eauto.
  Qed.

  (** *** The calls *)
  Record run (D D' : gset addr) (tr : list (addr * dec)) : Prop := Run {
    r_le : D ⊆ D';
    r_dom : forall m, m ∈ D' -> is_Some (us !! m);
    r_new : forall m, m ∈ D' -> m ∈ D \/ m ∈ map fst tr;
    r_use : forall m u, us !! m = Some u -> m ∈ map fst tr -> (m, Use u) ∈ tr /\ m ∈ D';
    r_used : forall m u, (m, Use u) ∈ tr -> us !! m = Some u;
    r_keep : forall m, (m, Keep) ∈ tr -> us !! m = None /\ pass tg p m = true;
    r_kept : forall m, m ∈ map fst tr -> us !! m = None -> inner m = false -> pass tg p m = true ->
      q <> QDefault \/ (exists m0, is_Some (us !! m0) /\ m0 ∉ D') -> (m, Keep) ∈ tr
  }.
  Lemma not_none D m : (forall m, m ∈ D -> is_Some (us !! m)) -> is_Some (us !! m) -> m ∉ D -> none_left D = false.
  Proof.
    intros Hd Hm Hn. unfold none_left. destruct q; try reflexivity. cbn [andb]. apply Z.eqb_neq.
    assert (Hlt : size D < size (dom us)); [|rewrite size_dom in Hlt; lia]. apply subset_size. split.
    - intros x Hx. apply elem_of_dom, Hd, Hx.
    - intros H. apply Hn, H, elem_of_dom, Hm.
  Qed.
  Lemma calls_run D tr st' : calls tapr (Some D) tr st' -> NoDup (map fst tr) -> (forall m, m ∈ map fst tr -> m ∉ D) -> (forall m, m ∈ D -> is_Some (us !! m)) ->
    exists D', st' = Some D' /\ run D D' tr.
  Proof.
    intros H. remember (Some D) as st eqn:Es. revert D Es. induction H as [st|st m st1 d tr st2 Ha Hc IH]; intros D -> Hnd Hn Hd.
    { exists D. split; [reflexivity|]. split; auto; try (intros; exfalso; eapply not_elem_of_nil; eassumption). }
    cbn [map fst] in Hnd, Hn. apply NoDup_cons in Hnd as [Hm Hnd].
    assert (Hcase : exists D1, st1 = Some D1 /\ D ⊆ D1 /\ (forall x, x ∈ D1 -> x = m \/ x ∈ D) /\ (m ∈ D1 -> is_Some (us !! m)) /\
      (forall u, us !! m = Some u -> d = Use u /\ m ∈ D1) /\ (forall u, d = Use u -> us !! m = Some u) /\ (d = Keep -> us !! m = None /\ pass tg p m = true) /\
      (us !! m = None -> inner m = false -> pass tg p m = true -> none_left D = false -> d = Keep)).
    { assert (Hmn : m ∉ D) by (apply Hn; left). cbn [tapr] in Ha. destruct (none_left D) eqn:En.
      - injection Ha as <- <-. exists D. split; [reflexivity|]. split; [reflexivity|]. split; [auto|]. split; [intros; contradiction|].
        split; [|split; [intros; discriminate|split; [discriminate|discriminate]]]. intros u Hu. rewrite (not_none D m Hd) in En by (eauto || exact Hmn). discriminate.
      - destruct (us !! m) as [w|] eqn:Eu.
        + rewrite decide_False in Ha by exact Hmn. injection Ha as <- <-. exists ({[m]} ∪ D). split; [reflexivity|]. split; [set_solver +|]. split; [set_solver +|].
          split; [eauto|]. split; [intros u [= ->]; split; [reflexivity|set_solver +]|]. split; [intros u [= ->]; reflexivity|]. split; [discriminate|discriminate].
        + injection Ha as <- <-. exists D. split; [reflexivity|]. split; [reflexivity|]. split; [auto|]. split; [intros; contradiction|].
          split; [discriminate|]. split; [intros u Hu; destruct (inner m); [discriminate|]; destruct (pass tg p m); discriminate|].
          split; [|intros _ -> -> _; reflexivity]. destruct (inner m); [discriminate|]. destruct (pass tg p m); [auto|discriminate]. }
    destruct Hcase as (D1 & -> & Hle & Hnew & Hdm & Huse & Hused & Hkeep & Hkept).
    destruct (IH D1 eq_refl Hnd) as (D' & -> & [H1 H2 H3 H4 H5 H6 H7]).
    { intros x Hx Hx1. destruct (Hnew x Hx1) as [->|H]; [contradiction|]. apply (Hn x); [right; exact Hx|exact H]. }
    { intros x Hx. destruct (Hnew x Hx) as [->|H]; [apply Hdm, Hx|apply Hd, H]. }
    exists D'. split; [reflexivity|]. split.
    - set_solver +Hle H1.
    - exact H2.
    - intros x Hx. destruct (H3 x Hx) as [H|H]; [|right; right; exact H]. destruct (Hnew x H) as [->|H']; [right; left|left; exact H'].
    - intros x u Hu Hx. cbn [map fst] in Hx. apply elem_of_cons in Hx as [->|Hx].
      + destruct (Huse u Hu) as [-> H]. split; [left|apply H1, H].
      + destruct (H4 x u Hu Hx) as [H H']. split; [right; exact H|exact H'].
    - intros x u Hx. apply elem_of_cons in Hx as [[= -> E]|Hx]; [apply Hused; congruence|apply H5, Hx].
    - intros x Hx. apply elem_of_cons in Hx as [[= -> E]|Hx]; [apply Hkeep; congruence|apply H6, Hx].
    - intros x Hx Hu Hi Hps Hz. cbn [map fst] in Hx. apply elem_of_cons in Hx as [->|Hx]; [|right; apply H7; assumption].
      rewrite (Hkept Hu Hi Hps); [left|]. destruct Hz as [Hz|(m0 & Hm0 & Hn0)]; [unfold none_left; destruct q; first [reflexivity|congruence]|].
      eapply not_none; [exact Hd|exact Hm0|]. intros H. apply Hn0, H1, Hle, H.
  Qed.

  Section Filled.
    Variable mof : addr -> tree.
    Variable R : list (tree * tree).
    Hypothesis q_not : q <> QReluctant.
    Hypothesis R_ok : forall s m, (s, m) ∈ R -> reached snd p tg s /\ m = mof (raddr s) /\ is_Some (us !! raddr s).
    Hypothesis R_dom : forall a, is_Some (us !! a) -> exists s m, (s, m) ∈ R /\ raddr s = a.
    Hypothesis R_apart : forall s m s' m', (s, m) ∈ R -> (s', m') ∈ R -> raddr s' ∈ raddrs s -> s' = s.
    Variable tr : list (addr * dec).
    Variable st' : option (gset addr).
    Variable X : rose (addr * (V + C)).
    Hypothesis tr_calls : calls tapr (Some ∅) tr st'.
    Hypothesis tr_nd : NoDup (map fst tr).
    Hypothesis tr_grow : forall f, GenFacts.agree f tr -> grow f tg = X.
    Hypothesis tr_par : forall m, m ∈ map fst tr -> exists pm pl kids, (pm, pl) ∈ preorder X /\ tat tg pm kids /\ m ∈ map raddr kids.
    Notation f := (decided tr).

    Lemma decided_in m d : (m, d) ∈ tr -> f m = d.
    Proof. intros H. pose proof (decided_agree tr tr_nd) as Ha. unfold GenFacts.agree in Ha. rewrite Forall_forall in Ha. exact (Ha (m, d) H). Qed.
    Lemma in_decided m d : d <> Skip -> f m = d -> (m, d) ∈ tr.
    Proof.
      intros Hd E. unfold decided in E. destruct (list_find (fun md : addr * dec => fst md = m) tr) as [[i [m' d']]|] eqn:Ef; [|congruence].
      apply list_find_Some in Ef as (Hi & Hm & _). cbn in Hm, E. subst m' d'. eapply elem_of_list_lookup_2, Hi.
    Qed.
    Lemma called_in m : m ∈ map fst tr -> (m, f m) ∈ tr.
    Proof.
      intros H. apply elem_of_list_fmap in H as ([m' d] & -> & Hin). cbn [fst]. rewrite (decided_in _ _ Hin). exact Hin.
    Qed.

    Theorem filled : exists D', st' = Some D' /\ (forall m, is_Some (us !! m) -> m ∈ D') /\
      fill snd q p R (children tg) (children (flat mof f tg)) /\
      (forall m u, us !! m = Some u -> (m, inr u) ∈ preorder X) /\ (forall m u, f m = Use u -> us !! m = Some u).
    Proof.
      destruct (calls_run ∅ tr st' tr_calls tr_nd) as (D' & -> & [_ _ Hnew Huse Hused Hkeep Hkept]); [set_solver +|set_solver +|].
      exists D'. split; [reflexivity|].
      assert (Hfu : forall m u, f m = Use u -> us !! m = Some u) by (intros m u E; apply Hused; apply in_decided; [discriminate|exact E]).
      assert (HX : grow f tg = X) by (apply tr_grow, decided_agree, tr_nd).
      set (called := fun m => m ∈ map fst tr).
      assert (A1 : forall t, rsubtree t tg -> is_Some (us !! raddr t) -> exists m, (t, m) ∈ R).
      { intros t Ht Hu. destruct (R_dom _ Hu) as (s & m & Hs & E). exists m. replace t with s; [exact Hs|].
        destruct (R_ok _ _ Hs) as (Hr & _). apply reached_sub in Hr as [[Hr _]|Hr]; [|destruct (Hr tg_nd)]. eapply sub_unique; eassumption. }
      assert (A2 : forall m u, called m -> us !! m = Some u -> f m = Use u) by (intros m u Hc Hu; apply decided_in, (Huse m u Hu Hc)).
      assert (Hval : forall c : tree, rsubtree c tg -> pass tg p (raddr c) = p (snd (label c))).
      { intros c Hc. unfold pass, raddr. rewrite (value_of_in _ (label c) tg_nd); [reflexivity|]. apply rsubtree_plug in Hc as (cx & <-). apply position_elem. }
      assert (A3 : forall c : tree, rsubtree c tg -> called (raddr c) -> us !! raddr c = None -> f (raddr c) = Keep -> p (snd (label c)) = true).
      { intros c Hc Hca _ Hk. rewrite <- (Hval c Hc). apply Hkeep. rewrite <- Hk. apply called_in, Hca. }
      assert (A4 : forall s c : tree, reach f tg s -> us !! raddr s = None -> c ∈ children s -> called (raddr c) -> us !! raddr c = None -> p (snd (label c)) = true ->
        q <> QDefault \/ (exists s0 m0, (s0, m0) ∈ R /\ ~ called (raddr s0)) -> f (raddr c) = Keep).
      { intros s c Hs Hus Hc Hca Huc Hp Hz. apply decided_in. apply reach_sub in Hs. apply Hkept; [exact Hca|exact Huc| |rewrite Hval; [exact Hp|eapply sub_kid; eassumption]|].
        - apply rsubtree_plug in Hs as (cx & Hpl). destruct s as [x cs]. cbn in Hc. apply elem_of_list_split in Hc as (ls & rs & ->).
          change (plug cx (Rose x (ls ++ c :: rs))) with (plug ((ls, x, rs) :: cx) c) in Hpl. unfold inner. rewrite (passes_at _ _ _ _ _ _ _ tg_nd Hpl).
          unfold raddr in Hus. cbn in Hus. rewrite Hus. apply bool_decide_eq_false_2. intros [? [=]].
        - destruct Hz as [Hz|(s0 & m0 & Hs0 & Hn0)]; [left; exact Hz|right]. exists (raddr s0). destruct (R_ok _ _ Hs0) as (_ & _ & Hd). split; [exact Hd|].
          intros Hin. destruct (Hnew _ Hin) as [H|H]; [set_solver +H|contradiction]. }
      assert (A5 : forall s c : tree, reach f tg s -> c ∈ children s -> called (raddr c)) by (intros s c Hs Hc; eapply asked; eassumption).
      assert (A6 : forall m, called m -> exists pm kids, tat tg pm kids /\ m ∈ map raddr kids /\ ((exists s, reach f tg s /\ raddr s = pm) \/ is_Some (us !! pm))).
      { intros m Hm. destruct (tr_par m Hm) as (pm & pl & kids & Hin & Ht & Hk). exists pm, kids. split; [exact Ht|]. split; [exact Hk|]. rewrite <- HX in Hin. destruct pl as [v|u].
        - left. eapply grow_inl, Hin.
        - right. apply grow_inr in Hin. exists u. apply Hfu, Hin. }
      assert (A7 : forall m, called m \/ ~ called m) by (intros m; unfold called; destruct (decide (m ∈ map fst tr)); auto).
      split; [|split; [|split; [|exact Hfu]]].
      - intros m Hm. destruct (R_dom m Hm) as (s & m' & Hs & <-). destruct Hm as [u Hu]. apply (Huse _ u Hu).
        eapply (all_called mof tg tg_nd f called q p R (fun a => us !! a)); eassumption.
      - eapply (flat_fill mof tg tg_nd f called q p R (fun a => us !! a)); eassumption.
      - intros m u Hu. destruct (R_dom m ltac:(eauto)) as (s & m' & Hs & <-). rewrite <- HX.
        eapply (used_grown mof tg tg_nd f called q p R (fun a => us !! a)); eassumption.
    Qed.
  End Filled.

  (** Afterwards nothing is left to be released. *)
  Lemma release_none h D' : 0 < F -> (forall m, is_Some (us !! m) -> m ∈ D') -> release_all F im (map_to_list (fst (conc D'))) h = Ok h.
  Proof.
    intros HF Hall. assert (H : forall a x, (a, x) ∈ map_to_list (fst (conc D')) -> x = None).
    { intros a x Hin. apply elem_of_map_to_list in Hin. rewrite conc_get in Hin. destruct (us !! a) as [u|] eqn:Eu; [|discriminate]. cbn in Hin.
      rewrite decide_True in Hin by (apply Hall; eauto). congruence. }
    revert H. generalize (map_to_list (fst (conc D'))). intros l. induction l as [|[a x] l IH]; intros H; [reflexivity|]. cbn [release_all].
    rewrite (H a x) by left. destruct F as [|n]; [lia|]. cbn [deallocate mbind res_bind]. apply IH. intros b y Hb. apply (H b y). right. exact Hb.
  Qed.
End Target.
