(** TreeOps3.v: the insertions of tree.hpp with each kind of argument (generic
    in the node type, see TreeOps.v). *)
From Verif Require Import Base Spec StructNode BinaryNode NaryNode Nav Policy Tree User Rep NavFacts World NaryOps2 Kinds TreeSpec TreeOps TreeOps2.

Section Ops3.
  Context {V Nd : Type}.
  Variable F : nat.
  Variable im : node_impl V Nd.
  Variable al : allocator Nd.
  Variable K : kind_data V Nd.
  Hypothesis KO : kind_ok F im al K.
  Hypothesis HFW : (N.of_nat F <= W64)%N.
  Notation heap := (gmap addr Nd).
  Notation C := (C K).
  Notation croot := (croot K).
  Notation caddrs := (caddrs K).
  Notation crep := (crep K).
  Notation cnil := (cnil K).
  Notation cvals := (cvals K).
  Notation holds := (holds croot caddrs crep).
  Notation heap_ok := (heap_ok caddrs crep).
  Notation built := (built caddrs crep).
  Notation len c := (length (caddrs c)).
  Notation csubst := (csubst K).
  Notation csub := (csub K).

  Let nd := k_nd _ _ _ _ KO.
  Let dm := k_dom _ _ _ _ KO.
  Let ext := k_ext _ _ _ _ KO.

  Notation caches := (caches K).
  Notation gives := (gives K).
  Notation placed := (placed K).
  Notation src_cached := (src_cached K).

  Lemma small_szt n : n <= F -> n <> F \/ (N.of_nat F < W64)%N -> szt n = N.of_nat n.
  Proof using HFW. intros. apply szt_small. lia. Qed.
  Lemma lt_szt n : n < F -> szt n = N.of_nat n.
  Proof using HFW. intros. apply szt_small. lia. Qed.
  Lemma src_size (h : heap) c : csrc K h c -> len c <= size h.
  Proof using KO.
    intros Hc. rewrite <- (size_dom (D := gset addr)).
    rewrite <- (size_list_to_set (C := gset addr)) by exact (k_src_nd _ _ _ _ KO _ _ Hc). apply subseteq_size.
    intros a Ha. apply elem_of_list_to_set in Ha. apply elem_of_dom. eapply (k_src_dom _ _ _ _ KO); eassumption.
  Qed.

  (** size() and arity() on an object with right caches. *)
  Lemma size_exact h t c : csrc K h c -> t_root t = croot c -> len c < F -> cached K t c ->
    size_of F im h t = Ok (N.of_nat (len c), TreeRec (t_root t) (N.of_nat (len c)) (t_arity t) (t_nav t)).
  Proof using KO HFW.
    intros Hc Hr HF [Hs _]. destruct (size_of_ok F im al K KO h t c Hc Hr ltac:(lia)) as (s & E & Hs1 & Hs2).
    rewrite E. rewrite lt_szt in * by exact HF. assert (s = N.of_nat (len c)) as -> by (destruct Hs as [Hs|Hs]; [apply Hs2, Hs|destruct Hs1; congruence]). reflexivity.
  Qed.
  Lemma arity_exact h t c : csrc K h c -> t_root t = croot c -> len c < F -> cached K t c ->
    arity_of F im h t = Ok (N.of_nat (carity K c), TreeRec (t_root t) (t_size t) (N.of_nat (carity K c)) (t_nav t)).
  Proof using KO HFW.
    intros Hc Hr HF [_ Hs]. destruct (arity_of_ok F im al K KO h t c Hc Hr ltac:(lia) ltac:(lia)) as (s & E & Hs1 & Hs2).
    rewrite E. assert (s = N.of_nat (carity K c)) as -> by (destruct Hs as [Hs|Hs]; [apply Hs2, Hs|destruct Hs1; congruence]). reflexivity.
  Qed.
  Lemma exact_cached s r p q c : s = N.of_nat (len c) -> r = N.of_nat (carity K c) -> cached K (TreeRec p s r q) c.
  Proof. intros -> ->. split; right; reflexivity. Qed.
  Lemma caches_set w M i c s r p q : caches w M -> M !! i = Some c -> cached K (TreeRec p s r q) c -> caches (set_tree w i (TreeRec p s r q)) M.
  Proof.
    intros H Hi Hc k t d Ht Hd. cbn in Ht. destruct (decide (i = k)) as [->|Hne].
    - rewrite lookup_insert in Ht. injection Ht as <-. rewrite Hi in Hd. injection Hd as <-. exact Hc.
    - rewrite lookup_insert_ne in Ht by exact Hne. eapply H; eassumption.
  Qed.
  Lemma caches_upd w (M : gmap tid C) i c t' (ts : gmap tid tree_rec) h : caches w M -> ts = <[i := t']> (w_trees w) -> cached K t' c ->
    caches (World h ts) (<[i := c]> M).
  Proof.
    intros H -> Hc k t d Ht Hd. cbn in Ht. destruct (decide (i = k)) as [->|Hne].
    - rewrite lookup_insert in Ht. rewrite lookup_insert in Hd. injection Ht as <-. injection Hd as <-. exact Hc.
    - rewrite lookup_insert_ne in Ht by exact Hne. rewrite lookup_insert_ne in Hd by exact Hne. eapply H; eassumption.
  Qed.
  Lemma caches_upd' w w' (M : gmap tid C) i c t' : caches w M -> w_trees w' = <[i := t']> (w_trees w) -> cached K t' c ->
    caches w' (<[i := c]> M).
  Proof. intros H E Hc. destruct w' as [h ts]. cbn in E. eapply caches_upd; eassumption. Qed.
  Lemma nil_cached p q : cached K (TreeRec p 0 0 q) cnil.
  Proof. split; left; reflexivity. Qed.

  (** The attributes of tree [i] and its values after size() and arity(). *)
  Lemma measure_ok w M E j c : holds w M E -> M !! j = Some c -> len c < F ->
    exists s r w2, ('(s, w1) ← tree_size F im w j; '(r, w2) ← tree_arity F im w1 j; Ok (s, r, w2)) = Ok (s, r, w2) /\
      holds w2 M E /\ w_heap w2 = w_heap w /\
      (exists t, w_trees w !! j = Some t /\ w_trees w2 = <[j := TreeRec (t_root t) s r (t_nav t)]> (w_trees w) /\
         (t_size t <> 0%N -> t_size t = s \/ s = N.of_nat (len c)) /\ (t_size t = 0%N -> s = N.of_nat (len c)) /\
         (t_arity t = 0%N -> r = N.of_nat (carity K c)) /\
         (cached K t c -> s = N.of_nat (len c) /\ r = N.of_nat (carity K c))).
  Proof using KO HFW.
    intros H Hj HF. destruct (holds_get _ _ _ _ _ _ _ _ H Hj) as (t & Ht & _).
    destruct (tree_size_ok F im al K KO w M E j c t H Hj Ht ltac:(lia)) as (s & Hs & H1 & Hs1 & Hs2). rewrite Hs. cbn [mbind res_bind].
    set (w1 := set_tree w j (TreeRec (t_root t) s (t_arity t) (t_nav t))) in *.
    assert (Ht1 : w_trees w1 !! j = Some (TreeRec (t_root t) s (t_arity t) (t_nav t))) by apply lookup_insert.
    destruct (tree_arity_ok F im al K KO w1 M E j c _ H1 Hj Ht1 ltac:(lia) ltac:(lia)) as (r & Hr & H2 & Hr1 & Hr2). rewrite Hr. cbn [mbind res_bind].
    cbn [t_root t_size t_arity t_nav] in *. rewrite lt_szt in * by exact HF. do 3 eexists. split; [reflexivity|]. split; [exact H2|]. split; [reflexivity|].
    exists t. split; [exact Ht|]. split; [cbn; apply insert_insert|].
    split; [intros _; destruct Hs2; auto|]. split; [exact Hs1|]. split; [exact Hr1|].
    intros [Hc1 Hc2]. split; [destruct Hc1 as [Hc1|Hc1]; [apply Hs1, Hc1|destruct Hs2; congruence]|].
    destruct Hc2 as [Hc2|Hc2]; [apply Hr1, Hc2|destruct Hr2; congruence].
  Qed.

  (** A tree object whose root is taken: its nodes are loose. *)
  Lemma release_ok w M j c : holds w M [] -> M !! j = Some c ->
    exists w1 t, w_trees w !! j = Some t /\
      (t ← get_tree w j; replace_node F im w j (t_root t) None 0 0) = Ok (croot c, w1) /\ holds w1 M [] /\ w_heap w1 = w_heap w /\
      w_trees w1 = (if decide (croot c = None) then w_trees w else <[j := TreeRec (croot c) 0 0 (croot c)]> (w_trees w)).
  Proof using KO.
    intros H Hj. destruct (holds_get _ _ _ _ _ _ _ _ H Hj) as (t & Ht & Hg & Hr & Hn). rewrite Hg. cbn [mbind res_bind].
    unfold replace_node. rewrite Hg, Hr. destruct (croot c) as [a|] eqn:Ec.
    - cbn [is_null negb guard_res mbind res_bind].
      rewrite (k_replace_root _ _ _ _ KO (w_heap w) c a); [|eapply holds_rep; eassumption|exact Ec]. cbn [mbind res_bind].
      rewrite Hr. assert (ptr_eqb (Some a) (Some a) = true) as ->. { cbn. apply bool_decide_eq_true. reflexivity. }
      rewrite Hn. exists (set_tree (set_heap w (w_heap w)) j (TreeRec (Some a) 0 0 (Some a))), t. split; [exact Ht|]. split; [reflexivity|].
      split; [|split; [reflexivity|rewrite decide_False by discriminate; reflexivity]].
      destruct H as [H1 H2]. split; [|exact H2]. intros k. cbn. specialize (H1 k). destruct (decide (j = k)) as [->|Hne].
      + rewrite lookup_insert, Hj. cbn. auto.
      + rewrite lookup_insert_ne by exact Hne. exact H1.
    - exists w, t. split; [exact Ht|]. split; [reflexivity|]. split; [exact H|]. split; [reflexivity|]. rewrite decide_True by reflexivity. reflexivity.
  Qed.
  Lemma take_ok w M j c : holds w M [] -> M !! j = Some c ->
    holds (nullify w j) (<[j := cnil]> M) [c].
  Proof using KO.
    intros H Hj. rewrite (nullify_eq F im al K KO). apply holds_set; [|exact Hj]. eapply holds_add_nil; [exact KO|exact H].
  Qed.

  (** Taking the argument of insert_over. *)
  Record prepared (w : world Nd) (M : gmap tid C) (i : tid) (src : source V) (x : X K) (M1 : gmap tid C) (u : C) (w1 : world Nd) : Prop := {
    pr_holds : holds w1 M1 [u];
    pr_vals : cvals u = x;
    pr_placed : placed w M src u;
    pr_fuel : forall c, M1 !! i = Some c -> len c + len u < F;
    pr_caches : caches w M -> caches w1 M1;
    pr_rec : forall t c, w_trees w !! i = Some t -> M !! i = Some c -> cached K t c -> exists t1, w_trees w1 !! i = Some t1 /\
      (t1 = t \/ (t_size t1 = N.of_nat (len c) /\ t_arity t1 = N.of_nat (carity K c)))
  }.

  Lemma gives_fuel w M i src x M1 : holds w M [] -> gives w M i src x M1 -> fits F w src -> size (w_heap w) < F.
  Proof. unfold fits. lia. Qed.

  (** A new tree built for the argument. *)
  Lemma prepared_new w M i src x u h : holds w M [] -> built (w_heap w) h u -> cvals u = x ->
    (forall j, src <> SrcMove j) -> size (w_heap w) + len u < F ->
    prepared w M i src x M u (set_heap w h).
  Proof using KO HFW.
    intros H Hb Hv Hm HF. constructor.
    - eapply holds_alloc; [exact KO|exact H|exact Hb].
    - exact Hv.
    - unfold placed. destruct src; try apply Hb. destruct (Hm j eq_refl).
    - intros c Hc. pose proof (holds_size _ _ _ _ _ _ _ _ H Hc). lia.
    - intros Hc. exact Hc.
    - intros t c Ht _ _. exists t. auto.
  Qed.
  Lemma lit_len u v cs : lit_ok K (LNode v cs) -> cvals u = lit_vals K (LNode v cs) -> len u = N.to_nat (subtree_size (eval_lit (LNode v cs))).
  Proof using KO HFW. intros H1 H2. destruct (k_lit _ _ _ _ KO u v cs H1 H2) as [E _]. lia. Qed.

  Lemma prepare_over w M i src x M1 : holds w M [] -> is_Some (M !! i) -> gives w M i src x M1 -> fits F w src ->
    exists u s r w1, (forall pos it w', modify_subtree F im w1 i pos (croot u) s r = Ret it w' -> insert_over F im al w i pos src = Ret it w') /\
      ((forall j, src <> SrcMove j) -> forall pos w', modify_subtree F im w1 i pos (croot u) s r = Throw w' -> insert_over F im al w i pos src = Throw w') /\
      prepared w M i src x M1 u w1 /\ (caches w M -> src_cached w src -> s = N.of_nat (len u) /\ r = N.of_nat (carity K u)).
  Proof using KO HFW.
    intros H [ci Hi] Hg HF. unfold fits in HF. inversion Hg; subst; cbn [needs] in HF.
    - destruct (k_value _ _ _ _ KO (w_heap w) v) as (a & h & u & Ha & Hr & Hv & Hl & Har & Hb).
      exists u, 1%N, 0%N, (set_heap w h). split; [|split; [|split]].
      + intros pos it w' E. unfold insert_over. rewrite Ha. cbn [res_out]. rewrite <- Hr. exact E.
      + intros _ pos w' E. unfold insert_over. rewrite Ha. cbn [res_out]. rewrite <- Hr. exact E.
      + apply prepared_new; try assumption; [discriminate|lia].
      + intros _ _. rewrite Hl, Har. auto.
    - destruct (k_struct _ _ _ _ KO (w_heap w) v cs H0) as (a & h & u & Ha & Hr & Hv & Hl & Har & Hb).
      exists u, (subtree_size (eval_lit (LNode v cs))), (subtree_arity (eval_lit (LNode v cs))), (set_heap w h). split; [|split; [|split]].
      + intros pos it w' E. unfold insert_over. rewrite Ha. cbn [res_out]. rewrite <- Hr. exact E.
      + intros _ pos w' E. unfold insert_over. rewrite Ha. cbn [res_out]. rewrite <- Hr. exact E.
      + apply prepared_new; try assumption; [discriminate|]. rewrite (lit_len u v cs) by assumption. exact HF.
      + intros _ _. rewrite Hl, Har. auto.
    - destruct (holds_get _ _ _ _ _ _ _ _ H H0) as (t & Ht & Hgt & Hr & _).
      pose proof (holds_size _ _ _ _ _ _ _ _ H H0) as Hsz.
      destruct (copy_root_ok F im al K KO (w_heap w) t c) as (u & h & Hcp & Hv & Hl & Har & Hb); [|exact Hr|lia|].
      { eapply rep_src, holds_rep; eassumption. }
      assert (P : prepared w M1 i (SrcCopy j) (cvals c) M1 u (set_heap w h)).
      { apply prepared_new; try assumption; [discriminate|]. lia. }
      destruct (measure_ok (set_heap w h) M1 [u] j c (pr_holds _ _ _ _ _ _ _ _ P) H0 ltac:(lia)) as (s & r & w2 & Hm & H2 & Hh2 & t' & Ht' & Htr & _ & _ & _ & Hcc).
      cbn in Ht'. rewrite Ht in Ht'. injection Ht' as <-. cbn in Htr.
      exists u, s, r, w2. split; [|split; [|split]].
      + intros pos it w' E. unfold insert_over. rewrite Hgt. cbn [mbind res_bind]. rewrite Hcp. cbn [res_out]. rewrite Hm. cbn [res_out]. exact E.
      + intros _ pos w' E. unfold insert_over. rewrite Hgt. cbn [mbind res_bind]. rewrite Hcp. cbn [res_out]. rewrite Hm. cbn [res_out]. exact E.
      + constructor; [exact H2|apply P|apply P|apply P| |].
        * intros Hc k t1 c1 Ht1 Hc1. rewrite Htr in Ht1. destruct (decide (j = k)) as [->|Hne].
          -- rewrite lookup_insert in Ht1. injection Ht1 as <-. rewrite H0 in Hc1. injection Hc1 as <-.
             destruct (Hcc (Hc _ _ _ Ht H0)) as [-> ->]. split; right; reflexivity.
          -- rewrite lookup_insert_ne in Ht1 by exact Hne. eapply Hc; eassumption.
        * intros t1 c1 Ht1 Hc1 Hca. rewrite Htr. destruct (decide (j = i)) as [->|Hne].
          -- rewrite lookup_insert. eexists. split; [reflexivity|]. right. rewrite Ht in Ht1. injection Ht1 as <-.
             rewrite H0 in Hc1. injection Hc1 as <-. destruct (Hcc Hca) as [-> ->]. auto.
          -- rewrite lookup_insert_ne by exact Hne. eauto.
      + intros Hc _. rewrite Hl, Har. apply Hcc. eapply Hc; eassumption.
    - pose proof (src_size _ _ H0) as Hsz.
      destruct (copy_root_ok F im al K KO (w_heap w) t c H0 H1 ltac:(lia)) as (u & h & Hcp & Hv & Hl & Har & Hb).
      assert (Hs : csrc K h c) by (eapply built_old_src; [exact KO|exact Hb|exact H0]).
      destruct (size_of_ok F im al K KO h t c Hs H1 ltac:(lia)) as (s & Es & Hs1 & Hs2).
      destruct (arity_of_ok F im al K KO h (TreeRec (t_root t) s (t_arity t) (t_nav t)) c Hs H1 ltac:(lia) ltac:(lia)) as (r & Er & Hr1 & Hr2).
      exists u, s, r, (set_heap w h). split; [|split; [|split]].
      + intros pos it w' E. unfold insert_over. rewrite Hcp. cbn [res_out].
        rewrite Es. cbn [mbind res_bind]. rewrite Er. cbn [mbind res_bind res_out]. exact E.
      + intros _ pos w' E. unfold insert_over. rewrite Hcp. cbn [res_out].
        rewrite Es. cbn [mbind res_bind]. rewrite Er. cbn [mbind res_bind res_out]. exact E.
      + apply prepared_new; try assumption; [discriminate|]. lia.
      + intros _ Hvc. rewrite Hl, Har. destruct (Hvc c H0 H1) as [Hv1 Hv2]. cbn [t_arity] in *. rewrite lt_szt in * by lia.
        split; [destruct Hv1 as [Hv1|Hv1]; [apply Hs2, Hv1|destruct Hs1; congruence]|destruct Hv2 as [Hv2|Hv2]; [apply Hr2, Hv2|destruct Hr1; congruence]].
    - destruct (release_ok w M j c H H1) as (w1 & t & Ht & Hrel & Hw1 & Hh1 & Htr).
      pose proof (holds_size _ _ _ _ _ _ _ _ H H1) as Hsz.
      destruct (measure_ok w1 M [] j c Hw1 H1 ltac:(lia)) as (s & r & w2 & Hm & H2 & Hh2 & t' & Ht' & Htr2 & _ & Hs0 & Ha0 & Hcc).
      exists c, s, r, (nullify w2 j). split; [|split; [|split]].
      + intros pos it w' E. unfold insert_over. rewrite decide_False by congruence. rewrite Hrel. cbn [res_out]. rewrite Hm. cbn [res_out].
        unfold nullify in E. rewrite modify_set in E by congruence.
        destruct (modify_subtree F im w2 i pos (croot c) s r) as [it' w4|w4|e]; cbn in E |- *; try discriminate. exact E.
      + intros Hm0. destruct (Hm0 j eq_refl).
      + constructor.
        * apply take_ok; assumption.
        * reflexivity.
        * exact H1.
        * intros c' Hc'. rewrite lookup_insert_ne in Hc' by exact H0.
          pose proof (holds_unfold _ _ _ _ _ _ _ _ H Hc') as Hu. cbn [app] in Hu.
          assert (Hj' : delete i M !! j = Some c) by (rewrite lookup_delete_ne by congruence; exact H1).
          eapply (heap_ok_perm caddrs crep) in Hu; [|constructor; apply elems_lookup, Hj'].
          pose proof (heap_ok_size2 caddrs crep _ _ _ _ Hu). lia.
        * intros Hc k t1 c1 Ht1 Hc1. cbn in Ht1. destruct (decide (j = k)) as [->|Hne].
          -- rewrite lookup_insert in Ht1. rewrite lookup_insert in Hc1. injection Ht1 as <-. injection Hc1 as <-. apply nil_cached.
          -- rewrite lookup_insert_ne in Ht1 by exact Hne. rewrite lookup_insert_ne in Hc1 by exact Hne.
             rewrite Htr2, lookup_insert_ne in Ht1 by exact Hne. eapply Hc; [|exact Hc1].
             rewrite Htr in Ht1. destruct (decide (croot c = None)); [exact Ht1|]. rewrite lookup_insert_ne in Ht1 by exact Hne. exact Ht1.
        * intros t1 c1 Ht1 Hc1 _. exists t1. split; [|auto]. cbn. rewrite lookup_insert_ne by congruence.
          rewrite Htr2, lookup_insert_ne by congruence. rewrite Htr. destruct (decide (croot c = None)); [exact Ht1|].
          rewrite lookup_insert_ne by congruence. exact Ht1.
      + intros Hc _. apply Hcc. rewrite Htr in Ht'. destruct (decide (croot c = None)).
        * eapply Hc; eassumption.
        * rewrite lookup_insert in Ht'. injection Ht' as <-. split; left; reflexivity.
  Qed.

  Lemma prepare_child first emplace w M i src x M1 : holds w M [] -> is_Some (M !! i) -> gives w M i src x M1 -> fits F w src ->
    exists u s r w1, (forall pos it w', add_child F im first w1 i pos (croot u) s r = Ret it w' -> insert_child F im al first emplace w i pos src = Ret it w') /\
      ((forall j, src <> SrcMove j) -> forall pos w', add_child F im first w1 i pos (croot u) s r = Throw w' -> insert_child F im al first emplace w i pos src = Throw w') /\
      ((forall j, src <> SrcMove j) -> w_trees w1 = w_trees w) /\
      prepared w M i src x M1 u w1 /\ (child_exact first emplace src -> croot u <> None /\ s = N.of_nat (len u) /\ r = N.of_nat (carity K u)) /\
      (~ child_exact first emplace src -> s = 1%N /\ r = 0%N) /\ w_trees w1 !! i = w_trees w !! i.
  Proof using KO HFW.
    intros H [ci Hi] Hg HF. unfold fits in HF. inversion Hg; subst; cbn [needs] in HF.
    - destruct (k_value _ _ _ _ KO (w_heap w) v) as (a & h & u & Ha & Hr & Hv & Hl & Har & Hb).
      exists u, 1%N, 0%N, (set_heap w h). split; [|split; [|split; [|split; [|split; [|split]]]]].
      + intros pos it w' E. unfold insert_child. rewrite Ha. cbn [res_out]. rewrite <- Hr. exact E.
      + intros _ pos w' E. unfold insert_child. rewrite Ha. cbn [res_out]. rewrite <- Hr. exact E.
      + reflexivity.
      + apply prepared_new; try assumption; [discriminate|lia].
      + intros _. rewrite Hl, Har, Hr. split; [discriminate|]. auto.
      + intros Hn. destruct (Hn I).
      + reflexivity.
    - destruct (k_struct _ _ _ _ KO (w_heap w) v cs H0) as (a & h & u & Ha & Hr & Hv & Hl & Har & Hb).
      set (st := eval_lit (LNode v cs)) in *.
      exists u, (if first && negb emplace then 1%N else subtree_size st), (if first && negb emplace then 0%N else subtree_arity st), (set_heap w h).
      split; [|split; [|split; [|split; [|split; [|split]]]]].
      + intros pos it w' E. unfold insert_child. rewrite Ha. cbn [res_out]. rewrite <- Hr. destruct (first && negb emplace); exact E.
      + intros _ pos w' E. unfold insert_child. rewrite Ha. cbn [res_out]. rewrite <- Hr. destruct (first && negb emplace); exact E.
      + reflexivity.
      + apply prepared_new; try assumption; [discriminate|]. rewrite (lit_len u v cs) by assumption. exact HF.
      + cbn [child_exact]. intros ->. rewrite Hl, Har, Hr. split; [discriminate|]. auto.
      + cbn [child_exact]. destruct (first && negb emplace); [auto|intros Hn; destruct (Hn eq_refl)].
      + reflexivity.
    - destruct (holds_get _ _ _ _ _ _ _ _ H H0) as (t & Ht & Hgt & Hr & _).
      pose proof (holds_size _ _ _ _ _ _ _ _ H H0) as Hsz.
      destruct (copy_root_ok F im al K KO (w_heap w) t c) as (u & h & Hcp & Hv & Hl & Har & Hb); [|exact Hr|lia|].
      { eapply rep_src, holds_rep; eassumption. }
      exists u, 1%N, 0%N, (set_heap w h). split; [|split; [|split; [|split; [|split; [|split]]]]].
      + intros pos it w' E. unfold insert_child. rewrite Hgt. cbn [mbind res_bind]. rewrite Hcp. cbn [res_out]. exact E.
      + intros _ pos w' E. unfold insert_child. rewrite Hgt. cbn [mbind res_bind]. rewrite Hcp. cbn [res_out]. exact E.
      + reflexivity.
      + apply prepared_new; try assumption; [discriminate|]. lia.
      + intros [].
      + auto.
      + reflexivity.
    - pose proof (src_size _ _ H0) as Hsz.
      destruct (copy_root_ok F im al K KO (w_heap w) t c H0 H1 ltac:(lia)) as (u & h & Hcp & Hv & Hl & Har & Hb).
      exists u, 1%N, 0%N, (set_heap w h). split; [|split; [|split; [|split; [|split; [|split]]]]].
      + intros pos it w' E. unfold insert_child. rewrite Hcp. cbn [res_out]. exact E.
      + intros _ pos w' E. unfold insert_child. rewrite Hcp. cbn [res_out]. exact E.
      + reflexivity.
      + apply prepared_new; try assumption; [discriminate|]. lia.
      + intros [].
      + auto.
      + reflexivity.
    - destruct (release_ok w M j c H H1) as (w1 & t & Ht & Hrel & Hw1 & Hh1 & Htr).
      pose proof (holds_size _ _ _ _ _ _ _ _ H H1) as Hsz.
      exists c, 1%N, 0%N, (nullify w1 j). split; [|split; [|split; [|split; [|split; [|split]]]]].
      + intros pos it w' E. unfold insert_child. rewrite decide_False by congruence. rewrite Hrel. cbn [res_out].
        unfold nullify in E. rewrite add_child_set in E by congruence.
        destruct (add_child F im first w1 i pos (croot c) 1 0) as [it' w4|w4|e]; cbn in E |- *; try discriminate. exact E.
      + intros Hn. destruct (Hn j eq_refl).
      + intros Hn. destruct (Hn j eq_refl).
      + constructor.
        * apply take_ok; assumption.
        * reflexivity.
        * exact H1.
        * intros c' Hc'. rewrite lookup_insert_ne in Hc' by exact H0.
          pose proof (holds_unfold _ _ _ _ _ _ _ _ H Hc') as Hu. cbn [app] in Hu.
          assert (Hj' : delete i M !! j = Some c) by (rewrite lookup_delete_ne by congruence; exact H1).
          eapply (heap_ok_perm caddrs crep) in Hu; [|constructor; apply elems_lookup, Hj'].
          pose proof (heap_ok_size2 caddrs crep _ _ _ _ Hu). lia.
        * intros Hc k t1 c1 Ht1 Hc1. cbn in Ht1. destruct (decide (j = k)) as [->|Hne].
          -- rewrite lookup_insert in Ht1. rewrite lookup_insert in Hc1. injection Ht1 as <-. injection Hc1 as <-. apply nil_cached.
          -- rewrite lookup_insert_ne in Ht1 by exact Hne. rewrite lookup_insert_ne in Hc1 by exact Hne.
             eapply Hc; [|exact Hc1].
             rewrite Htr in Ht1. destruct (decide (croot c = None)); [exact Ht1|]. rewrite lookup_insert_ne in Ht1 by exact Hne. exact Ht1.
        * intros t1 c1 Ht1 Hc1 _. exists t1. split; [|auto]. cbn. rewrite lookup_insert_ne by congruence.
          rewrite Htr. destruct (decide (croot c = None)); [exact Ht1|].
          rewrite lookup_insert_ne by congruence. exact Ht1.
      + intros [].
      + auto.
      + cbn. rewrite lookup_insert_ne by congruence. rewrite Htr. destruct (decide (croot c = None)); [reflexivity|]. rewrite lookup_insert_ne by congruence. reflexivity.
  Qed.

  Lemma gives_other w M i src x M1 c : gives w M i src x M1 -> M !! i = Some c -> M1 !! i = Some c.
  Proof. intros Hg Hi. inversion Hg; subst; try exact Hi. rewrite lookup_insert_ne by assumption. exact Hi. Qed.

  Notation over_counted := (over_counted K).
  Lemma len_subst h c u a : crep h c -> a ∈ caddrs c -> croot c <> Some a -> len (csubst a u c) + len (csub a c) = len c + len u.
  Proof using KO.
    intros Hc Ha Hr. destruct (k_subst _ _ _ _ KO h c u a Hc Ha) as (_ & _ & H). destruct (H Hr) as [_ Hp].
    apply Permutation_length in Hp. rewrite !app_length in Hp. exact Hp.
  Qed.
  Lemma replaced_cached h t c a u s r : crep h c -> a ∈ caddrs c -> cached K t c -> s = N.of_nat (len u) -> r = N.of_nat (carity K u) ->
    len c + len u < F -> over_counted t c a u -> cached K (replaced_rec K t c a u s r) (csubst a u c).
  Proof using KO HFW.
    intros Hc Ha [Hs Hr] -> -> HF Hov. unfold replaced_rec. destruct (decide (croot c = Some a)) as [E|E].
    - destruct (k_subst _ _ _ _ KO h c u a Hc Ha) as (_ & H & _). destruct (H E) as [_ ->]. apply exact_cached; reflexivity.
    - destruct (decide (cdeg K a c = 0)) as [Ed|Ed]; [|split; left; reflexivity].
      pose proof (len_subst h c u a Hc Ha E) as Hl. destruct (k_deg_sub _ _ _ _ KO h c a Hc Ha) as [_ H1]. rewrite (H1 Ed) in Hl.
      split; [|left; reflexivity]. cbn [t_size]. unfold wadd, wsub. destruct Hs as [Hs|Hs].
      + destruct Hov as [Ho|[Ho|[Ho|Ho]]]; try congruence. rewrite Hs, Ho. left. unfold W64. reflexivity.
      + right. rewrite Hs. assert (W64 <> 0)%N by (unfold W64; discriminate).
        assert (Hln : 1 <= len c). { destruct (caddrs c); [apply elem_of_nil in Ha as []|cbn; lia]. }
        assert (1 mod W64 = 1)%N as -> by reflexivity.
        destruct (decide (len u = 0)) as [Eu|Eu].
        * rewrite Eu in *. cbn [N.of_nat]. rewrite N.add_0_l. rewrite (N.mod_small (W64 - _)) by (unfold W64 in *; lia).
          replace (N.of_nat (len c) + (W64 - 1))%N with (N.of_nat (len c - 1) + 1 * W64)%N by (unfold W64 in *; lia).
          rewrite N.mod_add by exact H. rewrite N.mod_small by lia. lia.
        * replace (N.of_nat (len u) + (W64 - 1))%N with (N.of_nat (len u - 1) + 1 * W64)%N by (unfold W64 in *; lia).
          rewrite N.mod_add by exact H. rewrite (N.mod_small (N.of_nat (len u - 1))) by lia. rewrite N.mod_small by lia. lia.
  Qed.

  Lemma insert_over_ok w M i c t src x M1 a pos : holds w M [] -> M !! i = Some c -> w_trees w !! i = Some t ->
    gives w M i src x M1 -> fits F w src ->
    a ∈ caddrs c -> stands F im (w_heap w) (croot c) a pos ->
    (croot c <> Some a -> forall u, cvals u = x -> crepl K a u c) ->
    exists u it w', insert_over F im al w i pos src = Ret it w' /\ cvals u = x /\ placed w M src u /\
      holds w' (<[i := csubst a u c]> M1) [] /\
      it_kind it = it_kind pos /\ it_root it = it_root pos /\ it_cur it = croot u /\
      (croot c <> Some a -> forall b, croot u = Some b -> stands F im (w_heap w') (croot c) b it) /\
      len (csubst a u c) < F /\
      (caches w M -> src_cached w src -> over_counted t c a u -> caches w' (<[i := csubst a u c]> M1)).
  Proof using KO HFW.
    intros H Hi Ht Hg HF Ha Hst Hrepl. pose proof (gives_fuel _ _ _ _ _ _ H Hg HF) as HF0.
    destruct (prepare_over w M i src x M1 H (ex_intro _ _ Hi) Hg HF) as (u & s & r & w1 & Hret & _ & P & Hsr).
    pose proof (gives_other _ _ _ _ _ _ _ Hg Hi) as Hi1. destruct (holds_get _ _ _ _ _ _ _ _ (pr_holds _ _ _ _ _ _ _ _ P) Hi1) as (t1 & Ht1 & _).
    pose proof (pr_fuel _ _ _ _ _ _ _ _ P c Hi1) as HFu.
    pose proof (holds_rep _ _ _ _ _ _ _ _ H Hi) as Hrep. pose proof (holds_rep _ _ _ _ _ _ _ _ (pr_holds _ _ _ _ _ _ _ _ P) Hi1) as Hrep1.
    assert (Hst1 : stands F im (w_heap w1) (croot c) a pos) by (eapply (k_stands _ _ _ _ KO); [exact Hrep|exact Hrep1|exact Ha|lia|exact Hst]).
    destruct (modify_ok F im al K KO w1 M1 [] i c t1 u a s r pos (pr_holds _ _ _ _ _ _ _ _ P) Hi1 Ht1 Ha Hst1) as (it & w' & Hm & Hw' & Htr & R1 & R2 & R3 & R4).
    { intros Hr. apply Hrepl; [exact Hr|apply P]. }
    { lia. }
    exists u, it, w'. split; [apply Hret, Hm|]. split; [apply P|]. split; [apply P|]. split; [exact Hw'|].
    split; [exact R1|]. split; [exact R2|]. split; [exact R3|]. split; [|split].
    - intros Hr b Hb. apply R4; [exact Hr|exact Hb|]. pose proof (len_subst _ _ u a Hrep Ha Hr). lia.
    - destruct (decide (croot c = Some a)) as [Er|Hr]; [|pose proof (len_subst _ _ u a Hrep Ha Hr); lia].
      destruct (k_subst _ _ _ _ KO _ c u a Hrep Ha) as (_ & Hs & _). destruct (Hs Er) as [_ ->]. lia.
    - intros Hc Hvc Hov. destruct (Hsr Hc Hvc) as [Es Er]. pose proof (pr_caches _ _ _ _ _ _ _ _ P Hc) as Hc1.
      eapply caches_upd'; [exact Hc1|exact Htr|]. eapply replaced_cached; [exact Hrep1|exact Ha|eapply Hc1; eassumption|exact Es|exact Er|exact HFu|].
      destruct (pr_rec _ _ _ _ _ _ _ _ P t c Ht Hi (Hc _ _ _ Ht Hi)) as (t1' & Ht1' & Hor). rewrite Ht1 in Ht1'. injection Ht1' as <-.
      destruct Hov as [Ho|Ho]; [|right; exact Ho]. left. destruct Hor as [->|[-> _]]; [exact Ho|].
      destruct (caddrs c); [apply elem_of_nil in Ha as []|cbn; lia].
  Qed.
  Lemma insert_over_empty_ok w M i src x M1 pos : holds w M [] -> M !! i = Some cnil ->
    gives w M i src x M1 -> fits F w src -> it_cur pos = None ->
    exists u w', insert_over F im al w i pos src = Ret pos w' /\ cvals u = x /\ placed w M src u /\
      holds w' (<[i := u]> M1) [] /\ (caches w M -> src_cached w src -> caches w' (<[i := u]> M1)).
  Proof using KO HFW.
    intros H Hi Hg HF Hpos. pose proof (gives_fuel _ _ _ _ _ _ H Hg HF) as HF0.
    destruct (prepare_over w M i src x M1 H (ex_intro _ _ Hi) Hg HF) as (u & s & r & w1 & Hret & _ & P & Hsr).
    pose proof (gives_other _ _ _ _ _ _ _ Hg Hi) as Hi1.
    destruct (modify_empty_ok F im al K KO w1 M1 [] i u s r pos (pr_holds _ _ _ _ _ _ _ _ P) Hi1 Hpos ltac:(lia)) as (w' & Hm & Hw' & Htr).
    exists u, w'. split; [apply Hret, Hm|]. split; [apply P|]. split; [apply P|]. split; [exact Hw'|].
    intros Hc Hvc. destruct (Hsr Hc Hvc) as [-> ->]. eapply caches_upd'; [exact (pr_caches _ _ _ _ _ _ _ _ P Hc)|exact Htr|]. apply exact_cached; reflexivity.
  Qed.

  Lemma insert_child_ok first emplace w M i c t src x M1 a pos : holds w M [] -> M !! i = Some c -> w_trees w !! i = Some t ->
    gives w M i src x M1 -> fits F w src ->
    a ∈ caddrs c -> it_cur pos = Some a -> ~ cfull K a c ->
    exists u it w', insert_child F im al first emplace w i pos src = Ret it w' /\ cvals u = x /\ placed w M src u /\
      holds w' (<[i := cput K first a u c]> M1) [] /\
      it_kind it = it_kind pos /\ stands F im (w_heap w') (croot c) a it /\
      (caches w M -> t_size t = N.of_nat (len c) -> t_arity t = N.of_nat (carity K c) -> child_exact first emplace src ->
       caches w' (<[i := cput K first a u c]> M1)).
  Proof using KO HFW.
    intros H Hi Ht Hg HF Ha Hpos Hfull. pose proof (gives_fuel _ _ _ _ _ _ H Hg HF) as HF0.
    destruct (prepare_child first emplace w M i src x M1 H (ex_intro _ _ Hi) Hg HF) as (u & s & r & w1 & Hret & _ & _ & P & Hsr & _).
    pose proof (gives_other _ _ _ _ _ _ _ Hg Hi) as Hi1. destruct (holds_get _ _ _ _ _ _ _ _ (pr_holds _ _ _ _ _ _ _ _ P) Hi1) as (t1 & Ht1 & _).
    pose proof (pr_fuel _ _ _ _ _ _ _ _ P c Hi1) as HFu.
    destruct (add_child_ok F im al K KO first w1 M1 [] i c t1 u a s r pos (pr_holds _ _ _ _ _ _ _ _ P) Hi1 Ht1 Ha Hpos Hfull HFu)
      as (it & w' & Hm & Hw' & Htr & R1 & R2).
    exists u, it, w'. split; [apply Hret, Hm|]. split; [apply P|]. split; [apply P|]. split; [exact Hw'|].
    split; [exact R1|]. split; [exact R2|].
    intros Hc Es Er Hex. destruct (Hsr Hex) as (Hu & -> & ->). pose proof (pr_caches _ _ _ _ _ _ _ _ P Hc) as Hc1.
    eapply caches_upd'; [exact Hc1|exact Htr|].
    destruct (pr_rec _ _ _ _ _ _ _ _ P t c Ht Hi (Hc _ _ _ Ht Hi)) as (t1' & Ht1' & Hor). rewrite Ht1 in Ht1'. injection Ht1' as <-.
    assert (Es1 : t_size t1 = N.of_nat (len c)) by (destruct Hor as [->|[? _]]; assumption).
    assert (Er1 : t_arity t1 = N.of_nat (carity K c)) by (destruct Hor as [->|[_ ?]]; assumption).
    unfold added_rec, cput in *. destruct (croot u) as [b|] eqn:Eu; [|congruence].
    pose proof (pr_holds _ _ _ _ _ _ _ _ P) as Hh.
    pose proof (holds_unfold _ _ _ _ _ _ _ _ Hh Hi1) as Hun. cbn [app] in Hun.
    destruct (k_add _ _ _ _ KO first (w_heap w1) c u a b) as (h' & _ & _ & _ & _ & Hp & Hd & Har).
    { eapply heap_ok_head, Hun. }
    { eapply heap_ok_second, Hun. }
    { intros y Hy Hyc. eapply heap_ok_disj; [exact Hun|exact Hyc|exact Hy]. }
    { exact Ha. } { exact Hfull. } { exact Eu. } { lia. }
    apply Permutation_length in Hp. rewrite app_length in Hp.
    apply exact_cached.
    - rewrite Es1, Hp. unfold wadd. rewrite N.mod_small by lia. lia.
    - rewrite Er1, Hd, Har. rewrite decide_False by lia.
      pose proof (k_arity_lt _ _ _ _ KO (cadd K first a u c)) as Hle. rewrite Har in Hle.
      rewrite szt_small by lia. lia.
  Qed.

  (** The size and arity the call leaves recorded. *)
  Lemma insert_child_rec first emplace w M i c t src x M1 a pos : holds w M [] -> M !! i = Some c -> w_trees w !! i = Some t ->
    gives w M i src x M1 -> fits F w src ->
    a ∈ caddrs c -> it_cur pos = Some a -> ~ cfull K a c ->
    exists u s r it w', insert_child F im al first emplace w i pos src = Ret it w' /\ cvals u = x /\
      holds w' (<[i := cput K first a u c]> M1) [] /\
      w_trees w' !! i = Some (added_rec K first t c a u s r) /\ len c + len u < F /\
      (child_exact first emplace src -> s = N.of_nat (len u) /\ r = N.of_nat (carity K u)) /\
      (~ child_exact first emplace src -> s = 1%N /\ r = 0%N) /\
      (croot u <> None -> length (caddrs (cput K first a u c)) = len c + len u /\ cdeg K a (cput K first a u c) = S (cdeg K a c) /\
         carity K (cput K first a u c) = max (max (carity K c) (carity K u)) (S (cdeg K a c))).
  Proof using KO HFW.
    intros H Hi Ht Hg HF Ha Hpos Hfull.
    destruct (prepare_child first emplace w M i src x M1 H (ex_intro _ _ Hi) Hg HF) as (u & s & r & w1 & Hret & _ & _ & P & Hsr & Hns & Htri).
    pose proof (gives_other _ _ _ _ _ _ _ Hg Hi) as Hi1. rewrite Ht in Htri.
    pose proof (pr_fuel _ _ _ _ _ _ _ _ P c Hi1) as HFu.
    destruct (add_child_ok F im al K KO first w1 M1 [] i c t u a s r pos (pr_holds _ _ _ _ _ _ _ _ P) Hi1 Htri Ha Hpos Hfull HFu)
      as (it & w' & Hm & Hw' & Htr & R1 & R2).
    exists u, s, r, it, w'. split; [apply Hret, Hm|]. split; [apply P|]. split; [exact Hw'|].
    split; [rewrite Htr; apply lookup_insert|]. split; [exact HFu|]. split; [intros Hex; apply Hsr, Hex|]. split; [exact Hns|].
    intros Hr. unfold cput. destruct (croot u) as [b|] eqn:Eu; [|congruence].
    pose proof (pr_holds _ _ _ _ _ _ _ _ P) as Hh.
    pose proof (holds_unfold _ _ _ _ _ _ _ _ Hh Hi1) as Hun. cbn [app] in Hun.
    destruct (k_add _ _ _ _ KO first (w_heap w1) c u a b) as (h' & _ & _ & _ & _ & Hp & Hd & Har).
    { eapply heap_ok_head, Hun. }
    { eapply heap_ok_second, Hun. }
    { intros y Hy Hyc. eapply heap_ok_disj; [exact Hun|exact Hyc|exact Hy]. }
    { exact Ha. } { exact Hfull. } { exact Eu. } { lia. }
    apply Permutation_length in Hp. rewrite app_length in Hp. auto.
  Qed.

  (** *** Failing calls *)
  (** insert_over at end() of a non-empty tree: what was made for the call stays
      allocated; a tree to be moved keeps its nodes. *)
  Lemma insert_over_throw w M i c src x M1 pos : holds w M [] -> M !! i = Some c -> croot c <> None ->
    gives w M i src x M1 -> fits F w src -> it_cur pos = None ->
    exists w' E, insert_over F im al w i pos src = Throw w' /\ holds w' M E /\
      ((exists j, src = SrcMove j) -> E = []) /\
      ((forall j, src <> SrcMove j) -> exists u, E = [u] /\ cvals u = x /\ placed w M src u).
  Proof using KO HFW.
    intros H Hi Hrt Hg HF Hpos.
    assert (Hd : (exists j, src = SrcMove j) \/ (forall j, src <> SrcMove j)) by (destruct src; [right|right|right|right|left; eauto]; discriminate).
    destruct Hd as [[j Ej]|Hm].
    - subst src. inversion Hg as [| | | |j' d Hne Hj]; subst. unfold fits in HF; cbn [needs] in HF.
      destruct (release_ok w M j d H Hj) as (w1 & t & Ht & Hrel & Hw1 & Hh1 & Htr).
      pose proof (holds_size _ _ _ _ _ _ _ _ H Hj) as Hsz.
      destruct (measure_ok w1 M [] j d Hw1 Hj ltac:(lia)) as (s & r & w2 & Hme & H2 & Hh2 & _).
      destruct (holds_get _ _ _ _ _ _ _ _ H2 Hi) as (t2 & Ht2 & _ & Hr2 & _).
      exists w2, []. split; [|split; [exact H2|split; [reflexivity|intros Hm; destruct (Hm j eq_refl)]]].
      unfold insert_over. rewrite decide_False by congruence. rewrite Hrel. cbn [res_out]. rewrite Hme. cbn [res_out].
      rewrite (modify_throw F im w2 i t2) by (congruence || exact Ht2). reflexivity.
    - destruct (prepare_over w M i src x M1 H (ex_intro _ _ Hi) Hg HF) as (u & s & r & w1 & _ & Hthr & P & _).
      assert (M1 = M) as -> by (inversion Hg; subst; try reflexivity; destruct (Hm j eq_refl)).
      pose proof (pr_holds _ _ _ _ _ _ _ _ P) as H1.
      destruct (holds_get _ _ _ _ _ _ _ _ H1 Hi) as (t1 & Ht1 & _ & Hr1 & _).
      exists w1, [u]. split; [|split; [exact H1|split]].
      + apply (Hthr Hm). apply (modify_throw F im w1 i t1); congruence.
      + intros [j Ej]. destruct (Hm j Ej).
      + intros _. exists u. split; [reflexivity|]. split; [apply P|apply P].
  Qed.
  Lemma insert_child_throw first emplace w M i c src x M1 pos : holds w M [] -> M !! i = Some c -> gives w M i src x M1 -> fits F w src ->
    (forall j, src <> SrcMove j) ->
    it_cur pos = None \/ (exists a, it_cur pos = Some a /\ a ∈ caddrs c /\ cfull K a c) ->
    exists w', insert_child F im al first emplace w i pos src = Throw w' /\ holds w' M [] /\ w_trees w' = w_trees w.
  Proof using KO HFW.
    intros H Hi Hg HF Hnm Hpos.
    destruct (prepare_child first emplace w M i src x M1 H (ex_intro _ _ Hi) Hg HF) as (u & s & r & w1 & _ & Hthr & Htr & P & _).
    pose proof (gives_other _ _ _ _ _ _ _ Hg Hi) as Hi1. pose proof (pr_fuel _ _ _ _ _ _ _ _ P c Hi1) as HFu.
    destruct (add_child_throw F im al K KO first w1 M1 [] i c u s r pos (pr_holds _ _ _ _ _ _ _ _ P) Hi1 ltac:(lia) Hpos) as (w' & Ha & Hw' & Ht').
    exists w'. split; [apply Hthr; assumption|]. split.
    - assert (M1 = M) as -> by (inversion Hg; subst; try reflexivity; destruct (Hnm j eq_refl)). exact Hw'.
    - rewrite Ht', Htr by exact Hnm. reflexivity.
  Qed.
End Ops3.
