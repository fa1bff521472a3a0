(** MatchFacts.v: the search of a pattern in which every [opt] has children. *)
From Verif Require Import Base Spec MatchSpec StructNode BinaryNode NaryNode Nav Policy Tree Rep Matcher OptSpec MatchUser.

Section Ind.
  Context {V : Type}.
  Variable P : upat V -> Prop.
  Hypothesis H1 : forall vm cs, Forall P cs -> P (UOne vm cs).
  Hypothesis H2 : forall q vm cs, Forall P cs -> P (UOpt q vm cs).
  Hypothesis H3 : forall p, P p -> P (UCpt p).
  Fixpoint upat_ind' (u : upat V) : P u :=
    let fix all (l : list (upat V)) : Forall P l :=
      match l with [] => List.Forall_nil P | c :: l => @List.Forall_cons _ P c l (upat_ind' c) (all l) end in
    match u with
    | UOne vm cs => H1 vm cs (all cs)
    | UOpt q vm cs => H2 q vm cs (all cs)
    | UCpt p => H3 p (upat_ind' p)
    end.
End Ind.

Section Spec.
  Context {V A : Type}.
  Variable val : A -> V.
  Notation matches := (matches val).
  Notation matches_all := (matches_all val).
  Notation best := (best val).
  Notation bests := (bests val).

  Fixpoint best_matches u t m l (H : best u t m l) {struct H} : matches u t m
  with bests_matches us ts ms l (H : bests us ts ms l) {struct H} : matches_all us ts ms.
  Proof.
    - destruct H as [p cs x ts ms l Hp Hf|q p cs x ts ms l Hp Hf|q p c x ts m l Hc Hf|u t m l Hf].
      + apply M_one; [exact Hp|]. eapply bests_matches, Hf.
      + apply M_opt; [exact Hp|]. eapply bests_matches, Hf.
      + apply M_absent; [intros Hx; apply (Hc Hx)|]. eapply best_matches, Hf.
      + apply M_cpt. eapply best_matches, Hf.
    - destruct H as [ts|p ps t ts m ms l l' Hl Hf|p ps t ts ms l Hn Hf].
      + constructor.
      + constructor; [eapply best_matches, Hl|eapply bests_matches, Hf].
      + constructor. eapply bests_matches, Hf.
  Qed.
  (** A match is a selection of nodes of the tree. *)
  Definition anyp (m : rose A) : rose (V -> bool) := rose_map (fun _ _ => true) m.
  Fixpoint matches_occurs u t m (H : matches u t m) {struct H} : occurs val (anyp m) t m
  with matches_chosen us ts ms (H : matches_all us ts ms) {struct H} : chosen val (map anyp ms) ts ms.
  Proof.
    - destruct H as [p cs x ts ms Hp Hf|q p cs x ts ms Hp Hf|q p c x ts m Hc Hf|u t m Hf].
      + cbn. constructor; [reflexivity|]. eapply matches_chosen, Hf.
      + cbn. constructor; [reflexivity|]. eapply matches_chosen, Hf.
      + eapply matches_occurs, Hf.
      + eapply matches_occurs, Hf.
    - destruct H as [ts|p ps t ts m ms Hl Hf|ps t ts ms Hf]; cbn.
      + constructor.
      + constructor; [eapply matches_occurs, Hl|eapply matches_chosen, Hf].
      + constructor. eapply matches_chosen, Hf.
  Qed.
  Lemma matches_label u t m : matches u t m -> label m = label t.
  Proof. intros H. apply matches_occurs in H. destruct H. reflexivity. Qed.

  (** [bests], with the children left over. *)
  Inductive greedy : list (upat V) -> list (rose A) -> list (rose A) -> list (rose A) -> list (rose A) -> Prop :=
  | G_done ts : greedy [] ts [] [] ts
  | G_take u us t ts m ms l l' rest : best u t m l -> greedy us ts ms l' rest -> greedy (u :: us) (t :: ts) (m :: ms) (l ++ l') rest
  | G_skip u us t ts ms l rest : (forall m, ~ matches u t m) -> greedy (u :: us) ts ms l rest -> greedy (u :: us) (t :: ts) ms l rest.

  Lemma greedy_bests us ts ms l rest : greedy us ts ms l rest -> bests us ts ms l.
  Proof. induction 1; [constructor|constructor; assumption|apply Bs_skip; assumption]. Qed.
  Lemma greedy_one u us ts m l rest ms l' rest' :
    greedy [u] ts [m] l rest -> greedy us rest ms l' rest' -> greedy (u :: us) ts (m :: ms) (l ++ l') rest'.
  Proof.
    remember [u] as lu. remember [m] as lm. intros H. revert Heqlu Heqlm.
    induction H as [ts|u' us' t ts m' ms' l1 l2 rest Hb Hg IH|u' us' t ts ms' l1 rest Hn Hg IH]; intros E1 E2 H2.
    - discriminate.
    - injection E1 as -> ->. injection E2 as -> ->. inversion Hg; subst. rewrite app_nil_r. apply G_take; assumption.
    - injection E1 as -> ->. subst. apply G_skip; auto.
  Qed.
  Lemma greedy_length us ts ms l rest : greedy us ts ms l rest -> length ms = length us.
  Proof. induction 1; cbn in *; congruence. Qed.
  Lemma all_more us ts0 ts ms : matches_all us ts ms -> matches_all us (ts0 ++ ts) ms.
  Proof. intros H. induction ts0; cbn; [exact H|constructor; assumption]. Qed.
  Lemma all_rest u us ts ms : matches_all (u :: us) ts ms ->
    exists t m pre post ms', ts = pre ++ t :: post /\ matches u t m /\ matches_all us post ms'.
  Proof.
    induction ts as [|t ts IH] in ms |- *; intros H; inversion H; subst.
    - eexists t, _, [], ts, _. split; [reflexivity|]. eauto.
    - destruct (IH _ ltac:(eassumption)) as (t' & m & pre & post & ms' & -> & H1 & H2).
      exists t', m, (t :: pre), post, ms'. eauto.
  Qed.
  Lemma all_one u ts t m pre post : ts = pre ++ t :: post -> matches u t m -> matches_all [u] ts [m].
  Proof. intros -> H. apply all_more. constructor; [exact H|constructor]. Qed.
  (** A later choice leaves less for the rest. *)
  Lemma greedy_fail u us ts m l rest : greedy [u] ts [m] l rest -> (forall ms, ~ matches_all us rest ms) ->
    forall ms, ~ matches_all (u :: us) ts ms.
  Proof.
    remember [u] as lu. remember [m] as lm. intros H. revert Heqlu Heqlm.
    induction H as [ts|p' ps' t ts m' ms' l1 l2 rest Hl Hg IH|p' ps' t ts ms' l1 rest Hn Hg IH]; intros E1 E2 Hno ms Hc.
    - discriminate.
    - injection E1 as -> ->. injection E2 as -> ->. inversion Hg; subst.
      apply all_rest in Hc as (t' & m1 & pre & post & ms1 & E & _ & Hc).
      destruct pre as [|t1 pre]; cbn in E; injection E as -> ->.
      + apply (Hno ms1 Hc).
      + apply (Hno ms1). change (pre ++ t' :: post) with (pre ++ [t'] ++ post). rewrite app_assoc. apply all_more, Hc.
    - injection E1 as -> ->. subst. inversion Hc; subst.
      + eapply Hn. eassumption.
      + eapply IH; eauto.
  Qed.
  Lemma all_none u us ts ms : Forall (fun t => forall m, ~ matches u t m) ts -> ~ matches_all (u :: us) ts ms.
  Proof.
    intros H Hc. apply all_rest in Hc as (t & m & pre & post & _ & -> & Ho & _).
    rewrite Forall_app in H. destruct H as [_ H]. inversion H; subst. firstorder.
  Qed.
End Spec.

Notation chain := (foldr build PNil).

Section Solid.
  Context {V : Type}.
  Lemma solid_all (cs : list (upat V)) vm : solid (UOne vm cs) <-> Forall solid cs.
  Proof. cbn. induction cs as [|c cs IH]; [split; auto|]. rewrite Forall_cons, <- IH. reflexivity. Qed.
  Lemma solid_opt (cs : list (upat V)) q vm : solid (UOpt q vm cs) <-> cs <> [] /\ Forall solid cs.
  Proof. rewrite <- (solid_all cs vm). reflexivity. Qed.
  Lemma null_solid (u : upat V) : solid u -> forall w ns, matches_null w (build u ns) = false.
  Proof.
    induction u as [vm cs IH|q vm cs IH|p IH] using upat_ind'; intros Hs w ns; cbn [build matches_null].
    - reflexivity.
    - apply solid_opt in Hs as [Hne Hs]. destruct cs as [|c cs]; [congruence|]. inversion IH as [|? ? Hc _]; subst. inversion Hs; subst.
      cbn [foldr]. rewrite Hc by assumption. reflexivity.
    - rewrite IH by exact Hs. reflexivity.
  Qed.
  Lemma count_solid (cs : list (upat V)) : Forall solid cs -> count_needed (chain cs) = length cs.
  Proof.
    induction 1 as [|c cs Hc _ IH]; [reflexivity|]. cbn [foldr length]. rewrite <- IH. pose proof (null_solid c Hc false (chain cs)) as Hn.
    destruct c; cbn [build count_needed] in *; rewrite Hn; reflexivity.
  Qed.
  Lemma steal_solid (cs : list (upat V)) : Forall solid cs -> child_may_steal (chain cs) = (length cs <=? 1).
  Proof. intros H. unfold child_may_steal. rewrite count_solid by exact H. reflexivity. Qed.
  Lemma prefers_solid (u : upat V) ns : solid u -> prefers_null (build u ns) = false.
  Proof. intros H. pose proof (null_solid u H false ns) as Hn. destruct u as [|[]|]; cbn [build prefers_null] in *; auto. Qed.
End Solid.

Section Search.
  Context {V Nd : Type}.
  Variable F : nat.
  Variable im : node_impl V Nd.
  Variable h : gmap addr Nd.
  Notation tree := (rose (addr * V)).
  Notation mknav := (tree_nav im h).
  Notation search_node := (search_node F im h).

  (** [it] goes through the nodes of [ts]; from each it can reach the children,
      and so can an iterator that stays at the node. *)
  Inductive walks : iter -> list tree -> Prop :=
  | Walks_end it : it_cur it = None -> 0 < F -> walks it []
  | Walks_at it x cs ts it' ti :
      it_cur it = Some (fst x) -> ni_value im h (Some (fst x)) = Ok (snd x) ->
      it_incr F mknav it = Ok it' -> walks it' ts ->
      children_iter F im h it = Ok ti -> walks ti cs ->
      (exists tf, walks tf cs /\ forall fi, it_kind fi = Fixed -> it_cur fi = Some (fst x) -> children_iter F im h fi = Ok tf) ->
      Forall (fun c => raddr c <> fst x) cs ->
      1 < F -> length (Rose x cs :: ts) < F -> walks it (Rose x cs :: ts).

  (** The nodes recorded in [s] are those of [ms]; the captures stand at [l]. *)
  Inductive descs : list (upat V) -> mstate -> list tree -> list tree -> Prop :=
  | D_nil s : descs [] s [] []
  | D_cons u us s m ms l l' : ms_matched s = Some (raddr m) -> inner u (ms_first s) m l -> descs us (ms_next s) ms l' ->
      descs (u :: us) s (m :: ms) (l ++ l')
  with inner : upat V -> mstate -> tree -> list tree -> Prop :=
  | I_one vm cs sc x ms l : descs cs sc ms l -> inner (UOne vm cs) sc (Rose x ms) l
  | I_opt q vm cs sc x ms l : descs cs sc ms l -> Forall (fun m => raddr m <> fst x) ms -> inner (UOpt q vm cs) sc (Rose x ms) l
  | I_absent q vm c sc m l : descs [c] sc [m] l -> inner (UOpt q vm [c]) sc m l
  | I_cpt u sc m l : descs [u] sc [m] l -> inner (UCpt u) sc m (m :: l).

  (** The parts of [search_node]. *)
  Definition child (fc : pat V) (sc : mstate) (i : iter) : res (bool * mstate) :=
    '(b, sc', _) ← search_node fc sc i; Ok (b, sc').
  Definition impl (k : mkind) (vm : V -> bool) (fc : pat V) (sc : mstate) (i : iter) : res (bool * mstate) :=
    v ← ni_value im h (it_cur i);
    match k with
    | MOpt _ =>
        if negb (vm v) then
          if child_may_steal fc
          then i' ← it_other_policy F mknav i Fixed; child fc sc i'
          else Ok (false, sc)
        else
          i' ← children_iter F im h i;
          '(b, sc') ← child fc sc i';
          if negb (possessive k) && child_may_steal fc && negb b
          then i'' ← it_other_policy F mknav i Fixed; child fc sc' i''
          else Ok (b, sc')
    | _ =>
        if negb (vm v) then Ok (false, sc)
        else i' ← children_iter F im h i; child fc sc i'
    end.
  Section Loop.
    Variable try : mstate -> iter -> res (bool * mstate).
    Variable null : bool.
    Fixpoint loop (n : nat) (m : ptr) (sc : mstate) (begin i : iter) : res (bool * ptr * mstate * iter) :=
      match n with
      | 0 => Err OutOfFuel
      | S n =>
          match it_cur i with
          | None => if null then Ok (true, m, sc, begin) else Ok (false, m, sc, i)
          | Some _ =>
              '(b, sc') ← try sc i;
              i' ← it_incr F mknav i;
              if b : bool then Ok (true, it_cur i, sc', i') else loop n m sc' begin i'
          end
      end.
  End Loop.
  Lemma search_unfold k vm fc ns s it : search_node (PN k vm fc ns) s it =
    ('(b, m, sc, i) ←
       (match k with
        | MCapture =>
            '(b, sc, i) ← search_node fc (ms_first s) it;
            Ok (b, if b : bool then ms_matched sc else ms_matched s, sc, i)
        | _ =>
            if prefers_null (PN k vm fc ns) then Ok (true, ms_matched s, ms_first s, it)
            else loop (impl k vm fc) (matches_null false (PN k vm fc ns)) F (ms_matched s) (ms_first s) it it
        end);
     if negb b then Ok (false, MS m sc (ms_next s), i)
     else
       '(b2, sn, i2) ← search_node ns (ms_next s) i;
       if b2 : bool then Ok (true, MS m sc sn, i2)
       else if matches_null false (PN k vm fc ns) && negb (is_null m)
            then i3 ← it_other_node F mknav i2 m;
                 '(b3, sn', i4) ← search_node ns MSNil i3;
                 Ok (b3, MS None MSNil sn', i4)
            else Ok (false, MS m sc sn, i2)).
  Proof. reflexivity. Qed.

  Definition outcome (us : list (upat V)) (s : mstate) (it : iter) (ts : list tree) : Prop :=
    (exists s' it' ms l rest, search_node (chain us) s it = Ok (true, s', it') /\
       greedy snd us ts ms l rest /\ walks it' rest /\ descs us s' ms l) \/
    (exists s' it', search_node (chain us) s it = Ok (false, s', it') /\ forall ms, ~ matches_all snd us ts ms).

  Lemma walks_length it ts : walks it ts -> length ts < F.
  Proof. destruct 1; cbn in *; lia. Qed.
  (** An iterator that stays at the node. *)
  Lemma walks_fixed it x cs ts : walks it (Rose x cs :: ts) ->
    exists fi, it_other_policy F mknav it Fixed = Ok fi /\ walks fi [Rose x cs].
  Proof.
    intros Hw. inversion Hw as [|? ? ? ? it' ti Hc Hv Hi Hw1 Ht Hwt (tf & Hwf & Hf) Hne HF1 HF]; subst.
    unfold it_other_policy, get_instance. rewrite Hc.
    assert (exists rt, fix_navigator_root mknav Fixed (Some (fst x)) (it_root it) = Ok rt) as [rt Hrt].
    { destruct (it_root it); eexists; reflexivity. }
    rewrite Hrt. cbn [mbind res_bind]. eexists. split; [reflexivity|].
    eapply Walks_at with (ti := tf); [reflexivity|exact Hv|reflexivity| |apply Hf; reflexivity|exact Hwf| |exact Hne|exact HF1|cbn; lia].
    - apply Walks_end; [reflexivity|lia].
    - exists tf. auto.
  Qed.

  Lemma child_of fc sc i b sc' i' : search_node fc sc i = Ok (b, sc', i') -> child fc sc i = Ok (b, sc').
  Proof. intros E. unfold child. rewrite E. reflexivity. Qed.
  (** Trying a candidate. *)
  Definition tried (u : upat V) (t : tree) (r : res (bool * mstate)) : Prop :=
    (exists m l sc', r = Ok (true, sc') /\ best snd u t m l /\ inner u sc' m l) \/
    (exists sc', r = Ok (false, sc') /\ forall m, ~ matches snd u t m).
  Lemma loop_ok u try : (forall sc it x cs ts, walks it (Rose x cs :: ts) -> tried u (Rose x cs) (try sc it)) ->
    forall n m0 sc begin i ts, walks i ts -> length ts < n ->
    (exists m l sc' i' rest, loop try false n m0 sc begin i = Ok (true, Some (raddr m), sc', i') /\
       greedy snd [u] ts [m] l rest /\ walks i' rest /\ inner u sc' m l) \/
    (exists sc' i', loop try false n m0 sc begin i = Ok (false, m0, sc', i') /\ Forall (fun t => forall m, ~ matches snd u t m) ts).
  Proof.
    intros Him. induction n as [|n IH]; intros m0 sc begin i ts Hw Hn; [lia|]. pose proof Hw as Hw0.
    destruct Hw as [i Hc HF|i x cs ts it' ti Hc Hv Hi Hw1 Ht Hwt Hf Hne HF1 HF].
    - right. exists sc, i. cbn. rewrite Hc. split; [reflexivity|constructor].
    - cbn [loop]. rewrite Hc. destruct (Him sc i x cs ts Hw0) as [(m & l & sc' & E & Hb & Hin)|(sc' & E & Hno)]; rewrite E; cbn [mbind res_bind];
        rewrite Hi; cbn [mbind res_bind].
      + left. exists m, l, sc', it', ts. split.
        { apply best_matches in Hb. apply matches_label in Hb. unfold raddr. rewrite Hb. reflexivity. }
        split; [|auto]. rewrite <- (app_nil_r l). apply G_take; [exact Hb|constructor].
      + cbn [length] in Hn. destruct (IH m0 sc' begin it' ts Hw1 ltac:(lia)) as [(m & l & sc2 & i2 & rest & E2 & Hg & Hw2 & Hin)|(sc2 & i2 & E2 & Hall)].
        * left. exists m, l, sc2, i2, rest. split; [exact E2|]. split; [apply G_skip; assumption|]. auto.
        * right. exists sc2, i2. split; [exact E2|]. constructor; assumption.
  Qed.

  Lemma greedy_single u t m l rest : greedy snd [u] [t] [m] l rest -> best (A := addr * V) snd u t m l.
  Proof.
    intros H. inversion H as [|? ? ? ? ? ? l1 l2 ? Hb Hg|? ? ? ? ? ? ? Hn Hg]; subst.
    - inversion Hg; subst. rewrite app_nil_r. exact Hb.
    - inversion Hg.
  Qed.
  Lemma greedy_roots us ts ms l rest (a : addr) : greedy snd us ts ms l rest -> Forall (fun c => raddr c <> a) ts ->
    Forall (fun c : tree => raddr c <> a) ms.
  Proof.
    induction 1 as [|u us t ts m ms l l' rest Hb Hg IH|u us t ts ms l rest Hn Hg IH]; intros Hf.
    - constructor.
    - inversion Hf; subst. constructor; [|auto]. apply best_matches in Hb. apply matches_label in Hb. unfold raddr in *. rewrite Hb. assumption.
    - inversion Hf; subst. auto.
  Qed.

  Lemma one_tried vm cs : (forall s it ts, walks it ts -> outcome cs s it ts) ->
    forall sc it x ds ts, walks it (Rose x ds :: ts) -> tried (UOne vm cs) (Rose x ds) (impl MOne vm (chain cs) sc it).
  Proof.
    intros IH sc it x ds ts Hw. inversion Hw as [|? ? ? ? it' ti Hc Hv Hi Hw1 Ht Hwt Hf Hne HF1 HF]; subst.
    unfold impl, child. rewrite Hc, Hv. cbn [mbind res_bind]. destruct (vm (snd x)) eqn:Hvm; cbn [negb].
    - rewrite Ht. cbn [mbind res_bind]. destruct (IH sc ti ds Hwt) as [(s' & i1 & ms & l & rest & E & Hg & _ & Hd)|(s' & i1 & E & Hno)]; rewrite E; cbn [mbind res_bind].
      + left. exists (Rose x ms), l, s'. split; [reflexivity|]. split; [constructor; [exact Hvm|eapply greedy_bests, Hg]|constructor; exact Hd].
      + right. exists s'. split; [reflexivity|]. intros m Hm. inversion Hm; subst. eapply Hno. eassumption.
    - right. exists sc. split; [reflexivity|]. intros m Hm. inversion Hm; subst. congruence.
  Qed.
  Lemma opt_tried q vm cs : cs <> [] -> Forall solid cs -> (forall s it ts, walks it ts -> outcome cs s it ts) ->
    forall sc it x ds ts, walks it (Rose x ds :: ts) -> tried (UOpt q vm cs) (Rose x ds) (impl (MOpt q) vm (chain cs) sc it).
  Proof.
    intros Hcs Hso IH sc it x ds ts Hw. destruct (walks_fixed _ _ _ _ Hw) as (fi & Hfi & Hwf).
    inversion Hw as [|? ? ? ? it' ti Hc Hv Hi Hw1 Ht Hwt Hf Hne HF1 HF]; subst.
    unfold impl. rewrite Hc, Hv. cbn [mbind res_bind]. rewrite (steal_solid cs Hso), Hfi, Ht. cbn [mbind res_bind].
    (* one of the children takes the node *)
    assert (Habs : forall sc, length cs <=? 1 = true ->
      (vm (snd x) = true -> q <> QPossessive /\ forall ms, ~ matches_all snd cs ds ms) ->
      tried (UOpt q vm cs) (Rose x ds) (child (chain cs) sc fi)).
    { intros sc0 Hl Hno. apply Nat.leb_le in Hl. destruct cs as [|c [|]]; [congruence| |cbn in Hl; lia].
      unfold child. destruct (IH sc0 fi [Rose x ds] Hwf) as [(s' & i1 & ms & l & rest & E & Hg & _ & Hd)|(s' & i1 & E & Hnm)]; rewrite E; cbn [mbind res_bind].
      - left. pose proof (greedy_length _ _ _ _ _ _ Hg) as Hlen. destruct ms as [|m [|]]; try discriminate. exists m, l, s'. split; [reflexivity|].
        split; [|apply I_absent; exact Hd]. apply B_absent; [exact Hno|]. eapply greedy_single, Hg.
      - right. exists s'. split; [reflexivity|]. intros m Hm.
        inversion Hm as [|? ? ? ? ? ms' Hvm' Hall|? ? ? ? ? ? Hq Hm'|]; subst.
        + destruct (Hno Hvm') as [_ Hn]. eapply Hn, Hall.
        + apply (Hnm [m]). eapply (all_one _ _ _ _ _ [] []); [reflexivity|exact Hm']. }
    destruct (vm (snd x)) eqn:Hvm; cbn [negb].
    - destruct (IH sc ti ds Hwt) as [(s' & i1 & ms & l & rest & E & Hg & _ & Hd)|(s' & i1 & E & Hno)]; rewrite (child_of _ _ _ _ _ _ E); cbn [mbind res_bind].
      + rewrite andb_false_r. left. exists (Rose x ms), l, s'. split; [reflexivity|]. split; [constructor; [exact Hvm|eapply greedy_bests, Hg]|].
        constructor; [exact Hd|]. eapply greedy_roots; eassumption.
      + rewrite andb_true_r. destruct (negb (possessive (MOpt q)) && (length cs <=? 1)) eqn:Eb.
        * apply andb_true_iff in Eb as [Eq El]. apply Habs; [exact El|]. intros _. split; [intros ->; discriminate|exact Hno].
        * right. exists s'. split; [reflexivity|]. intros m Hm.
          inversion Hm as [|? ? ? ? ? ms' _ Hall|? ? ? ? ? ? Hq Hm'|]; subst; [eapply Hno, Hall|].
          apply andb_false_iff in Eb as [Eb|Eb]; [|discriminate]. specialize (Hq Hvm). destruct q; try discriminate. congruence.
    - destruct (length cs <=? 1) eqn:El; [apply Habs; [reflexivity|congruence]|].
      right. exists sc. split; [reflexivity|]. intros m Hm. inversion Hm; subst; [congruence|discriminate].
  Qed.

  Lemma next_ok u us s s0 it ts m l sc i rest : (forall s it ts, walks it ts -> outcome us s it ts) ->
    greedy snd [u] ts [m] l rest -> walks i rest -> inner u sc m l ->
    search_node (chain (u :: us)) s0 it =
      ('(b2, sn, i2) ← search_node (chain us) (ms_next s) i;
       if b2 : bool then Ok (true, MS (Some (raddr m)) sc sn, i2)
       else Ok (false, MS (Some (raddr m)) sc sn, i2)) ->
    outcome (u :: us) s0 it ts.
  Proof.
    intros IH Hg Hw Hin E. unfold outcome. rewrite E. destruct (IH (ms_next s) i rest Hw) as [(s' & i1 & ms & l' & rest' & E1 & Hg1 & Hw1 & Hd)|(s' & i1 & E1 & Hno)]; rewrite E1; cbn [mbind res_bind].
    - left. exists (MS (Some (raddr m)) sc s'), i1, (m :: ms), (l ++ l'), rest'. split; [reflexivity|]. split; [eapply greedy_one; eassumption|].
      split; [exact Hw1|]. constructor; [reflexivity|exact Hin|exact Hd].
    - right. eexists _, _. split; [reflexivity|]. eapply greedy_fail; eassumption.
  Qed.

  Lemma search_ok p : forall us, p = chain us -> Forall solid us -> forall s it ts, walks it ts -> outcome us s it ts.
  Proof.
    induction p as [|k vm fc IHf ns IHn]; intros us Ep Hso s it ts Hw.
    { destruct us as [|u us]; [|destruct u; discriminate]. left. exists s, it, [], [], ts. split; [reflexivity|]. split; [constructor|]. split; [exact Hw|constructor]. }
    destruct us as [|u us]; [discriminate|]. inversion Hso as [|? ? Hu Hus]; subst.
    assert (Hns : forall s it ts, walks it ts -> outcome us s it ts).
    { apply IHn; [|exact Hus]. destruct u; injection Ep; auto. }
    assert (Hnull := null_solid u Hu false (chain us)). assert (Hpref := prefers_solid u (chain us) Hu).
    destruct u as [vm' cs|q vm' cs|c]; cbn [build foldr] in Ep, Hnull, Hpref; injection Ep as -> -> -> ->.
    - apply solid_all in Hu. pose proof (IHf cs eq_refl Hu) as Hcs.
      destruct (loop_ok (UOne vm' cs) _ (one_tried vm' cs Hcs) F (ms_matched s) (ms_first s) it it ts Hw (walks_length _ _ Hw))
        as [(m & l & sc' & i' & rest & E & Hg & Hw' & Hin)|(sc' & i' & E & Hall)].
      + eapply (next_ok _ us s s it ts m l sc' i' rest); [exact Hns|exact Hg|exact Hw'|exact Hin|].
        cbn [foldr build]. rewrite search_unfold, Hpref, Hnull, E. reflexivity.
      + right. unfold outcome. cbn [foldr build]. rewrite search_unfold, Hpref, Hnull, E. cbn [mbind res_bind negb]. eexists _, _. split; [reflexivity|].
        intros ms. apply all_none, Hall.
    - apply solid_opt in Hu as [Hne Hu]. pose proof (IHf cs eq_refl Hu) as Hcs.
      destruct (loop_ok (UOpt q vm' cs) _ (opt_tried q vm' cs Hne Hu Hcs) F (ms_matched s) (ms_first s) it it ts Hw (walks_length _ _ Hw))
        as [(m & l & sc' & i' & rest & E & Hg & Hw' & Hin)|(sc' & i' & E & Hall)].
      + eapply (next_ok _ us s s it ts m l sc' i' rest); [exact Hns|exact Hg|exact Hw'|exact Hin|].
        cbn [foldr build]. rewrite search_unfold, Hpref, Hnull, E. reflexivity.
      + right. unfold outcome. cbn [foldr build]. rewrite search_unfold, Hpref, Hnull, E. cbn [mbind res_bind negb]. eexists _, _. split; [reflexivity|].
        intros ms. apply all_none, Hall.
    - pose proof (IHf [c] eq_refl (List.Forall_cons _ c [] Hu (List.Forall_nil _)) (ms_first s) it ts Hw) as [(s' & it' & ms & l & rest & E & Hg & Hw' & Hd)|(s' & it' & E & Hno)].
      + pose proof (greedy_length _ _ _ _ _ _ Hg) as Hlen. destruct ms as [|m [|]]; try discriminate.
        assert (Hm : ms_matched s' = Some (raddr m)) by (inversion Hd; subst; assumption).
        eapply (next_ok _ us s s it ts m (m :: l) s' it' rest); [exact Hns| |exact Hw'|constructor; exact Hd|].
        * clear -Hg. remember [c] as lc. remember [m] as lm. revert Heqlc Heqlm. induction Hg as [ts|u' us' t ts m' ms' l1 l2 rest Hb Hg IH|u' us' t ts ms' l1 rest Hn Hg IH]; intros E1 E2.
          { discriminate. }
          { injection E1 as -> ->. injection E2 as -> ->. inversion Hg; subst. rewrite app_nil_r. rewrite <- (app_nil_r (m :: l1)).
            apply G_take; [constructor; exact Hb|constructor]. }
          { injection E1 as -> ->. subst. apply G_skip; [intros m1 H1; inversion H1; subst; eapply Hn; eassumption|auto]. }
        * cbn [foldr build]. rewrite search_unfold, Hnull. cbn [foldr] in E. rewrite E. cbn [mbind res_bind negb]. rewrite Hm. reflexivity.
      + right. cbn [foldr build]. rewrite search_unfold, Hnull. cbn [foldr] in E. rewrite E. cbn [mbind res_bind negb]. eexists _, _. split; [reflexivity|].
        intros ms Hc. apply all_rest in Hc as (t & m & pre & post & ms' & -> & Ho & _). inversion Ho; subst.
        apply (Hno [m]). eapply all_one; [reflexivity|assumption].
  Qed.
End Search.
