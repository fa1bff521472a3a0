(** TreeNary.v: n-ary trees satisfy what TreeOps.v asks of a node type. *)
From Verif Require Import Base Spec StructNode LitFacts BinaryNode NaryNode Nav Policy Tree RoseFacts RowFacts
  NavFacts BranchFacts Orders PolicyFacts BinOrder Rep EditSpec BinRep NaryRep NaryOps NaryOps2 NaryEdit Arity User World Stand
  Kinds Iter IterTrees IterMain NodeFacts TreeOps TreeBin.

Definition ctx_map {A B} (f : A -> B) (c : ctx A) : ctx B :=
  map (fun '(ls, a, rs) => (map (rose_map f) ls, f a, map (rose_map f) rs)) c.
Lemma plug_map {A B} (f : A -> B) (c : ctx A) : forall s, rose_map f (plug c s) = plug (ctx_map f c) (rose_map f s).
Proof.
  induction c as [|[[ls a] rs] c IH]; intros s; cbn [plug ctx_map map]; [reflexivity|]. rewrite IH. cbn [rose_map]. rewrite map_app. reflexivity.
Qed.

Section TreeNary.
  Context {V : Type} `{EqDecision V}.
  Notation heap := (gmap addr (nnode V)).
  Notation tree := (rose (addr * V)).
  Notation nctx := (ctx (addr * V)).
  Notation im := (nary_impl V).
  Notation K := (nary_kind V).
  Implicit Types (s u : tree) (c : nctx) (h : heap).
  Variable F : nat.
  Variable al : allocator (nnode V).

  (** The node at an address of the tree. *)
  Lemma nary_place h c s : nary_at h (plug c s) -> let a := raddr s in let t := plug c s in
    rsub a t = Some s /\ a ∉ nctx_addrs c /\ nary_in h s /\ (forall u : option tree, rsubst a u t = plug_opt c u) /\
    (c = [] <-> raddr t = a).
  Proof.
    intros [Hr Hnd]. cbn zeta. destruct (NoDup_plug _ _ Hnd) as (Hn1 & Hn2 & Hn3).
    assert (Hac : raddr s ∉ nctx_addrs c) by (apply Hn3, raddr_in).
    split; [apply rsub_plug; [reflexivity|exact Hac]|]. split; [exact Hac|]. split.
    { apply nrep_plug in Hr as [_ Hr]. do 4 eexists. split; [exact Hr|exact Hn1]. }
    split; [intros u; apply rsubst_plug; [reflexivity|exact Hac]|]. split; [intros ->; reflexivity|].
    intros Hroot. destruct c as [|[[ls x] rs] c _] using rev_ind; [reflexivity|]. exfalso. rewrite plug_app in Hroot.
    rewrite nctx_addrs_app in Hac. cbn in Hroot. unfold raddr in Hroot at 1. cbn in Hroot. cbn [nctx_addrs] in Hac. set_solver +Hac Hroot.
  Qed.
  Lemma nary_find h (t : option tree) a : onary_at h t -> a ∈ naddrs t ->
    exists c s, t = Some (plug c s) /\ raddr s = a /\ nary_at h (plug c s).
  Proof.
    intros Ht Ha. destruct t as [t|]; [|apply elem_of_nil in Ha as []].
    destruct (raddrs_position a t Ha) as (c & s & -> & Hs). eauto.
  Qed.
  Lemma nary_addrs_opt c s (u : option tree) : c <> [] ->
    exists t, plug_opt c u = Some t /\ label t = label (plug c s) /\
      Permutation (raddrs t ++ raddrs s) (raddrs (plug c s) ++ naddrs u).
  Proof.
    intros Hc. assert (Hroot : forall x : tree, label (plug c x) = label (plug c s)).
    { intros x. destruct c as [|[[ls y] rs] c _] using rev_ind; [congruence|]. rewrite !plug_app. reflexivity. }
    destruct u as [u|]; cbn [plug_opt naddrs opt_list].
    - eexists. split; [reflexivity|]. split; [apply Hroot|]. rewrite !raddrs_plug. apply perm_rot.
    - destruct c as [|[[ls x] rs] c]; [congruence|]. eexists. split; [reflexivity|]. split.
      + cbn [plug] in *. destruct c as [|[[ls' y] rs'] c _] using rev_ind; [reflexivity|]. rewrite !plug_app. reflexivity.
      + cbn [plug]. rewrite !raddrs_plug. destruct x as [x w]. rewrite !raddrs_rose, !faddrs_app, faddrs_cons, app_nil_r. cbn.
        constructor. rewrite <- !app_assoc. apply Permutation_app_head. rewrite (Permutation_app_comm (raddrs s)), <- !app_assoc. reflexivity.
  Qed.

  Lemma kn_built h h' t : nbuilt_tree h h' t -> built naddrs onary_at h h' (Some t).
  Proof. unfold nbuilt_tree, built, onary_at, nary_at, naddrs, opt_list. tauto. Qed.
  Lemma carity_nvals (t : option tree) : carity K t = match nvals t with None => 0 | Some x => rarity x end.
  Proof. destruct t as [t|]; cbn; [|reflexivity]. rewrite rarity_map. reflexivity. Qed.
  Lemma len_nvals (t : option tree) : length (naddrs t) = match nvals t with None => 0 | Some x => rsize x end.
  Proof. destruct t as [t|]; cbn; [|reflexivity]. rewrite length_raddrs, rsize_map. reflexivity. Qed.
  Lemma lit_head (v : V) cs : lit_rose (LNode v cs) = [Rose v (flat_map lit_rose cs)].
  Proof. reflexivity. Qed.

  Lemma kn_vals (t u : option tree) : nvals t = nvals u ->
    length (naddrs t) = length (naddrs u) /\ carity K t = carity K u /\ (nroot t = None <-> nroot u = None).
  Proof.
    intros Hv. rewrite !len_nvals, !carity_nvals, Hv. repeat (split; [reflexivity|]).
    destruct t, u; try discriminate; cbn; split; congruence.
  Qed.
  Lemma kn_lit (t : option tree) v cs : nvals t = Some (Rose v (flat_map lit_rose cs)) ->
    N.of_nat (length (naddrs t)) = subtree_size (eval_lit (LNode v cs)) /\
    N.of_nat (carity K t) = subtree_arity (eval_lit (LNode v cs)).
  Proof.
    intros Hv. rewrite len_nvals, carity_nvals, Hv.
    rewrite (subtree_size_ok _ _ _ (reads_eval (LNode v cs))), (subtree_arity_ok _ _ _ (reads_eval (LNode v cs))).
    rewrite lit_head. cbn [map list_sum]. split; f_equal; [cbn; lia|]. cbn. lia.
  Qed.

  Lemma nary_ok : kind_ok F im al K.
  Proof.
    constructor; cbn [croot caddrs crep csrc cnil cvals lit_vals lit_ok csubst csub cadd crepl cfull nary_kind
      ni_copy ni_from_value ni_from_struct ni_size ni_ops ni_replace_with ni_children ni_following ni_prepend ni_append ni_eq ni_eq_struct
      ni_binary nary_impl op_first nary_ops].
    - intros h [t|] H; [apply H|constructor].
    - intros h [t|] a H Ha; [|apply elem_of_nil in Ha as []]. destruct H as [H _]. eapply nrep_dom; eassumption.
    - intros h h' [t|] He H; [|exact I]. destruct H as [H1 H2]. split; [eapply nrep_ext; [exact He|exact H1]|exact H2].
    - split; [reflexivity|]. split; [reflexivity|]. split; [intros; exact I|reflexivity].
    - intros [t|]; [discriminate|reflexivity].
    - intros [t|] a; [|discriminate]. intros [=<-]. apply raddr_in.
    - intros h [t|] H; [|exact I]. destruct H as [H1 H2]. split; [eauto|exact H2].
    - intros h [t|] a H Ha; [|apply elem_of_nil in Ha as []]. destruct H as [(p & q & H) _]. eapply nrep_dom; eassumption.
    - intros h h' [t|] He H; [|exact I]. destruct H as [(p & q & H) H2]. split; [|exact H2]. exists p, q. eapply nrep_ext; [exact He|exact H].
    - intros h [t|] H; [apply H|constructor].
    - intros h [t|] H HF; cbn [nroot fmap option_fmap option_map naddrs opt_list] in *.
      + destruct H as [H1 H2]. rewrite length_raddrs in HF. eapply n_deallocate_ok; eassumption.
      + destruct F; [lia|]. exists h. split; [reflexivity|]. intros x. reflexivity.
    - intros h [t|] a H Ha HF; [|discriminate]. injection Ha as <-. destruct H as [(p & q & H) H2]. cbn [naddrs opt_list] in HF. rewrite length_raddrs in HF.
      destruct (n_copy_ok al t F h p q (szt 0) H eq_refl HF) as (a' & h' & t' & Hc & Hr & Hv & Hb).
      exists a', h', (Some t'). split; [exact Hc|]. split; [cbn; rewrite Hr; reflexivity|].
      assert (Hv' : nvals (Some t') = nvals (Some t)) by (cbn; rewrite Hv; reflexivity).
      destruct (kn_vals _ _ Hv') as (H3 & H4 & _). split; [exact Hv'|]. split; [exact H3|]. split; [exact H4|apply kn_built, Hb].
    - intros h v. destruct (n_from_value_ok al h v) as (a & h' & Hc & Hb). exists a, h', (Some (Rose (a, v) [])).
      split; [exact Hc|]. repeat (split; [reflexivity|]). apply kn_built, Hb.
    - intros h v cs Hl. destruct (n_from_struct_ok al v cs h Hl) as (a & h' & t' & Hc & Hr & Hv & Hb).
      exists a, h', (Some t'). split; [exact Hc|]. split; [cbn; rewrite Hr; reflexivity|].
      rewrite lit_head in *. injection Hv as Hv. assert (Hv' : nvals (Some t') = Some (Rose v (flat_map lit_rose cs))) by (cbn; rewrite Hv; reflexivity).
      destruct (kn_lit _ _ _ Hv') as (H3 & H4). split; [exact Hv'|]. split; [exact H3|]. split; [exact H4|apply kn_built, Hb].
    - intros h [t|] a H Ha HF; [|discriminate]. injection Ha as <-. destruct H as [(p & q & H) _]. cbn in *. rewrite length_raddrs in *.
      eapply n_calculate_size_ok; eassumption.
    - intros h [t|] a H Ha HF HW; [|discriminate]. injection Ha as <-. destruct H as [(p & q & H) _]. cbn in HF, HW. rewrite length_raddrs in *.
      pose proof (rarity_lt_rsize t) as Hlt.
      pose proof (n_calculate_arity_ok F h p q None (szt 0) t H HF ltac:(lia)) as Har.
      pose proof (nrep_root _ _ _ _ _ _ H) as Hn. unfold n_first. rewrite (deref_Some _ _ _ Hn). cbn.
      eexists. split; [reflexivity|]. split; [|exact Har]. destruct t as [x cs]. cbn. destruct cs; [reflexivity|discriminate].
    - intros [t|]; cbn; [|lia]. rewrite length_raddrs. pose proof (rarity_lt_rsize t). lia.
    - intros h [t|] a H Ha; [|discriminate]. injection Ha as <-. destruct H as [H1 H2]. eapply n_replace_root; [exact H1|auto].
    - intros h t u a Ht Hu Hd Ha Hr Hrepl HF. destruct u as [u|].
      + destruct (nary_find h t a Ht Ha) as (c & s & -> & <- & Ht'). destruct (nary_place h c s Ht') as (Hs & Hac & Hin & Hsub & Hc).
        destruct c as [|[[ls [q w]] rs] c]; [destruct Hr; reflexivity|]. destruct Ht' as [H1 H2]. destruct Hu as [Hu1 Hu2].
        destruct (n_replace_some F h ls q w rs c s u H1 H2 Hu1 Hu2 Hd) as (h' & Hrep & R1 & R2 & R3).
        exists h'. cbn [nsubst nsub mbind option_bind]. rewrite Hsub, Hs. split; [exact Hrep|]. split; [|split; [|exact R3]].
        * split; [exact R1|]. destruct (nary_addrs_opt ((ls, (q, w), rs) :: c) s (Some u)) as (t' & E & _ & Hp); [discriminate|].
          injection E as <-. assert (Hnd : NoDup (raddrs (plug ((ls, (q, w), rs) :: c) u) ++ raddrs s)).
          { rewrite Hp. apply NoDup_app. split; [exact H2|]. split; [|exact Hu2]. intros x Hx Hxu. exact (Hd x Hxu Hx). }
          apply NoDup_app in Hnd. tauto.
        * split; [exact R2|]. apply (NoDup_plug _ _ H2).
      + destruct t as [t|]; [|destruct Hrepl]. destruct Hrepl as (q & ls & s & rs & Hst & <- & Hls & Hrs).
        apply rsubtree_plug in Hst as (c & Hc). change (plug ((ls, q, rs) :: c) s = t) in Hc. subst t.
        destruct (nary_place h _ s Ht) as (Hs & Hac & Hin & Hsub & Hc). destruct q as [q w]. destruct Ht as [H1 H2].
        assert (HF' : length ls < F).
        { cbn [naddrs opt_list] in HF. rewrite length_raddrs in HF. pose proof (ctx_length_size c (Rose (q, w) (ls ++ s :: rs))) as Hsz.
          rewrite rsize_rose in Hsz. pose proof (fsize_length (V := V) (ls ++ s :: rs)) as Hl. rewrite app_length in Hl. cbn [length] in Hl. cbn [plug] in HF. lia. }
        destruct (n_replace_none F h ls q w rs c s H1 H2 Hls Hrs HF') as (h' & Hrep & R1 & R2 & R3).
        exists h'. cbn [nsubst nsub mbind option_bind nroot fmap option_fmap option_map]. rewrite Hsub, Hs. split; [exact Hrep|]. split; [|split].
        * split; [exact R1|]. destruct (nary_addrs_opt ((ls, (q, w), rs) :: c) s None) as (t' & E & _ & Hp); [discriminate|].
          injection E as <-. assert (Hnd : NoDup (raddrs (plug c (Rose (q, w) (ls ++ rs))) ++ raddrs s)).
          { rewrite Hp. cbn. rewrite app_nil_r. exact H2. }
          apply NoDup_app in Hnd. tauto.
        * split; [exact R2|]. apply (NoDup_plug _ _ H2).
        * intros x Hx _. apply R3, Hx.
    - intros h t u a Ht Ha. destruct (nary_find h t a Ht Ha) as (c & s & -> & <- & Ht'). destruct (nary_place h c s Ht') as (Hs & Hac & Hin & Hsub & Hc).
      cbn [nsubst nsub mbind option_bind]. rewrite Hsub, Hs. split; [reflexivity|]. split.
      + intros Hr. injection Hr as Hr. apply Hc in Hr. subst c. split; [reflexivity|]. destruct u; reflexivity.
      + intros Hr. destruct (nary_addrs_opt c s u) as (t' & E & Hl & Hp). { intros ->. apply Hr. reflexivity. }
        rewrite E. cbn. split; [unfold raddr; rewrite Hl; reflexivity|exact Hp].
    - intros h t a Ht Ha. destruct (nary_find h t a Ht Ha) as (c & s & -> & <- & Ht'). destruct (nary_place h c s Ht') as (Hs & Hac & Hin & Hsub & Hc).
      cbn [cdeg nary_kind nsub mbind option_bind]. rewrite Hs. destruct Hin as (p & q & n & f & Hn & _).
      unfold n_first. rewrite (deref_Some _ _ _ (nrep_root _ _ _ _ _ _ Hn)). cbn. eexists. split; [reflexivity|].
      destruct s as [[x v] cs]. cbn [children]. destruct cs as [|d ds]; cbn.
      + split; [tauto|discriminate].
      + split; [split; discriminate|]. intros b [=<-]. apply nrep_unfold in Hn as [_ Hn]. cbn [nseg] in Hn. destruct Hn as [Hd _].
        unfold n_following_siblings. rewrite (deref_Some _ _ _ (nrep_root _ _ _ _ _ _ Hd)). cbn. eexists. split; [reflexivity|].
        rewrite Nat.add_0_r. apply szt_succ.
    - intros h t a Ht Ha. destruct (nary_find h t a Ht Ha) as (c & s & -> & <- & Ht'). destruct (nary_place h c s Ht') as (Hs & Hac & Hin & Hsub & Hc).
      cbn [cdeg nary_kind nsub mbind option_bind]. rewrite Hs. cbn [mbind option_bind].
      assert (rsub (raddr s) s = Some s) as ->.
      { destruct s as [[x v] cs]. cbn. rewrite decide_True by reflexivity. reflexivity. }
      split; [reflexivity|]. destruct s as [[x v] [|d ds]]; cbn; [reflexivity|discriminate].
    - intros h t a Ht Ha. destruct (nary_find h t a Ht Ha) as (c & s & -> & <- & Ht'). destruct (nary_place h c s Ht') as (Hs & Hac & Hin & Hsub & Hc).
      destruct Hin as (p & q & n & f & Hn & _). destruct s as [[x v] cs]. cbn in *. rewrite (n_children_ok _ _ _ _ _ _ _ _ Hn).
      eexists. split; [reflexivity|]. split; [discriminate|tauto].
    - intros first h a. destruct first; reflexivity.
    - intros first h t u a b Ht Hu Hd Ha _ Hb HF. destruct u as [u|]; [|discriminate]. injection Hb as <-.
      destruct (nary_find h t a Ht Ha) as (c & s & -> & <- & Ht'). destruct (nary_place h c s Ht') as (Hs & Hac & Hin & Hsub & Hc).
      destruct Ht' as [H1 H2]. destruct Hu as [Hu1 Hu2]. destruct s as [[a v] cs].
      assert (HF' : length cs <= F).
      { cbn [naddrs opt_list] in HF. rewrite length_raddrs in HF. pose proof (ctx_length_size c (Rose (a, v) cs)) as Hsz.
        rewrite rsize_rose in Hsz. pose proof (fsize_length (V := V) cs). lia. }
      set (cs' := if first then u :: cs else cs ++ [u]).
      assert (Hp : Permutation cs' (u :: cs)).
      { unfold cs'. destruct first; [reflexivity|]. symmetry. apply Permutation_cons_append. }
      assert (Hlink : exists h', (if first then n_prepend_child h (Some a) (Some (raddr u)) else n_append_child F h (Some a) (Some (raddr u))) = Ok (Some (raddr u), h') /\
         nrep h' None None None (szt 0) (plug c (Rose (a, v) cs')) /\
         (forall x, x ∉ raddrs (plug c (Rose (a, v) cs)) -> x ∉ raddrs u -> h' !! x = h !! x)).
      { unfold cs'. destruct first; [apply n_prepend_ok|apply n_append_ok]; assumption. }
      destruct Hlink as (h' & Hl & Hrep & Hfr). exists h'. split; [exact Hl|].
      cbn [nadd nroot fmap option_fmap option_map naddrs opt_list raddr label fst]. rewrite radd_plug by exact Hac. fold cs'.
      assert (Haddrs : Permutation (raddrs (plug c (Rose (a, v) cs'))) (raddrs (plug c (Rose (a, v) cs)) ++ raddrs u)).
      { rewrite !raddrs_plug, !raddrs_rose. unfold faddrs. rewrite Hp. cbn. constructor. rewrite <- !app_assoc.
        rewrite (Permutation_app_comm (raddrs u)), <- !app_assoc. reflexivity. }
      assert (Hnd : NoDup (raddrs (plug c (Rose (a, v) cs')))).
      { rewrite Haddrs. apply NoDup_app. split; [exact H2|]. split; [|exact Hu2]. intros x Hx Hxu. exact (Hd x Hxu Hx). }
      split; [split; assumption|]. split; [exact Hfr|].
      split. { destruct c as [|[[ls y] rs] c _] using rev_ind; [reflexivity|]. rewrite !plug_app. reflexivity. }
      split; [exact Haddrs|].
      cbn [cdeg carity nary_kind nsub mbind option_bind]. change (raddr (Rose (a, v) cs)) with a in Hs, Hac. rewrite Hs.
      rewrite (rsub_plug a c (Rose (a, v) cs') eq_refl Hac). cbn [children].
      rewrite (Permutation_length Hp). split; [reflexivity|].
      rewrite !rarity_plug. cbn [rarity]. rewrite (list_max_perm _ _ (Permutation_map rarity Hp)), (Permutation_length Hp).
      cbn [map length]. change (list_max (rarity u :: map rarity cs)) with (max (rarity u) (list_max (map rarity cs))). lia.
    - intros h t k a r Ht Ha Hr HF. destruct (nary_find h t a Ht Ha) as (c & s & -> & <- & Ht'). injection Hr as <-. cbn [naddrs opt_list] in HF. rewrite length_raddrs in HF.
      destruct Ht' as [H1 H2]. pose proof (nrep_nav_ok h _ _ _ _ _ H1 H2) as Hok. rewrite <- label_nrose in Hok.
      destruct (rose_instance F im h (nrose (plug c s)) k (ctx_map fst c) (nrose s) Hok) as (it & Hit & R1 & R2 & R3 & _).
      { unfold nrose. rewrite rsize_map. lia. }
      { unfold nrose. rewrite plug_map. reflexivity. }
      rewrite !label_nrose in *. exists it. auto.
    - intros h t u a pos Ht Hu Ha HF Hst. destruct (nary_find h t a Ht Ha) as (c & s & -> & <- & Ht').
      destruct (nary_place h c s Ht') as (Hs & Hac & Hin & Hsub & Hc). cbn [naddrs opt_list] in HF. rewrite length_raddrs in HF.
      destruct Ht' as [H1 H2]. pose proof (nrep_nav_ok h _ _ _ _ _ H1 H2) as Hok. rewrite <- label_nrose in Hok.
      assert (HF' : rsize (nrose (plug c s)) < F) by (unfold nrose; rewrite rsize_map; lia).
      assert (Hpl : forall x, plug (ctx_map fst c) (nrose x) = nrose (plug c x)) by (intros x; unfold nrose; rewrite plug_map; reflexivity).
      cbn [nroot fmap option_fmap option_map] in Hst. rewrite <- (label_nrose (plug c s)), <- (label_nrose s) in Hst.
      destruct u as [u|].
      + destruct Hu as [Hu1 Hu2]. pose proof (nrep_ops_ok h u _ _ _ _ Hu1) as Hop.
        destruct (rose_update F im h _ (ctx_map fst c) (nrose s) (nrose u) pos Hok HF' (Hpl s) Hst) as (pos' & Hup & R1 & R2 & R3 & R4).
        { destruct (nrose u) as [b ys] eqn:Eu. apply ops_ok_unfold in Hop as (Hf & _). exact Hf. }
        rewrite !label_nrose in *. exists pos'. split; [exact Hup|]. split; [exact R1|]. split; [exact R2|]. split; [exact R3|].
        cbn [nsubst mbind option_bind nroot fmap option_fmap option_map]. rewrite Hsub. cbn [plug_opt].
        intros Hne b h' [=<-] Ht' HF2. cbn [naddrs opt_list] in HF2. rewrite length_raddrs in HF2. destruct Ht' as [T1 T2].
        assert (Hcne : c <> []) by (intros ->; apply Hne; reflexivity).
        assert (Hroot : raddr (plug c u) = raddr (plug c s)).
        { destruct c as [|[[ls y] rs] c _] using rev_ind; [congruence|]. rewrite !plug_app. reflexivity. }
        apply R4.
        * destruct c; [congruence|discriminate].
        * rewrite <- Hroot, Hpl. eapply nrep_nav_ok; [exact T1|exact T2].
        * rewrite Hpl. unfold nrose. rewrite rsize_map. lia.
      + destruct (rose_pop F im h _ (ctx_map fst c) (nrose s) pos None None Hok HF' (Hpl s) Hst) as (pos' & Hup & R1 & R2 & R3 & _); [discriminate|].
        rewrite !label_nrose in *. exists pos'. split; [exact Hup|]. split; [exact R1|]. split; [exact R2|]. split; [exact R3|]. discriminate.
    - intros h [t|] l1 x l2 Ht HF Hp; [|destruct l1; discriminate]. destruct Ht as [H1 H2]. cbn in HF, Hp. rewrite length_raddrs in HF.
      pose proof (nrep_nav_ok h _ _ _ _ _ H1 H2) as Hok. rewrite <- postorder_map in Hp.
      eapply post_increment_ok; [exact Hok|unfold nrose; rewrite rsize_map; lia|exact Hp].
    - intros [t|]; cbn; [|reflexivity]. unfold raddrs. apply Permutation_map. symmetry. apply pre_post_perm.
    - intros h t a Ht Ha. destruct (nary_find h t a Ht Ha) as (c & s & -> & <- & Ht').
      destruct (nary_place h c s Ht') as (Hs & Hac & Hin & Hsub & Hc).
      exists (map fst (post_before c)), (map fst (post_after c)), (map fst (flat_map postorder (children s))).
      cbn [cpost nary_kind opt_list nsub nsubst mbind option_bind]. rewrite Hs, Hsub, postorder_plug, !map_app. split; [reflexivity|]. split.
      + destruct s as [[x v] cs]. cbn. rewrite map_app. reflexivity.
      + intros Hr. destruct c as [|[[ls y] rs] c]; [destruct Hr; reflexivity|]. cbn [plug_opt opt_list]. rewrite postorder_plug.
        cbn [post_before post_after postorder]. rewrite flat_map_app, !map_app, <- !app_assoc. reflexivity.
    - intros h h' t a pos Ht Ht2 Ha HF Hst. destruct (nary_find h t a Ht Ha) as (c & s & -> & <- & Ht'). cbn [naddrs opt_list] in HF. rewrite length_raddrs in HF.
      destruct Ht' as [H1 H2]. destruct Ht2 as [T1 T2]. pose proof (nrep_nav_ok h _ _ _ _ _ H1 H2) as Hok. rewrite <- label_nrose in Hok.
      pose proof (nrep_nav_ok h' _ _ _ _ _ T1 T2) as Hok'. rewrite <- label_nrose in Hok'.
      cbn [nroot fmap option_fmap option_map] in *. rewrite <- (label_nrose (plug c s)), <- (label_nrose s) in *.
      eapply rose_stands; [exact Hok|exact Hok'|unfold nrose; rewrite rsize_map; lia| |exact Hst]. unfold nrose. rewrite plug_map. reflexivity.
    - apply kn_vals.
    - intros h h' [t|] [u|] a b H1 H2 Ha Hb HF W1 W2; try discriminate. injection Ha as <-. injection Hb as <-.
      destruct H1 as [(p1 & q1 & H1) _]. destruct H2 as [(p2 & q2 & H2) _]. cbn in HF, W1, W2. rewrite length_raddrs in *.
      rewrite (n_eq_ok F h h' t u p1 q1 p2 q2 H1 H2 HF W1 W2). eexists. split; [reflexivity|]. rewrite bool_decide_eq_true. cbn. split; congruence.
    - intros t v cs _ Hv. apply kn_lit, Hv.
    - intros [t|] v cs _ Hv; [discriminate|]. discriminate.
    - intros h [t|] a v cs Hl H Ha HW; [|discriminate]. injection Ha as <-. destruct H as [(p & q & H) _]. cbn in HW. rewrite length_raddrs in HW.
      rewrite (n_eq_struct_ok v cs h t p q Hl H HW). eexists. split; [reflexivity|]. rewrite bool_decide_eq_true, lit_head. cbn. split; congruence.
  Qed.
End TreeNary.
