(** PropEditLast.v: erasing the last child of a node of an n-ary tree (C30), in
    every tree.  Conventions: see PropTree.v and PropEdit.v. *)
From Verif Require Import Base Spec EditSpec RoseFacts NavFacts NodeFacts NaryEdit StructNode BinaryNode NaryNode Nav Policy Tree Rep User World Kinds TreeSpec
  TreeOps TreeOps2 TreeOps3 TreeOps4 History TreeFacts IterMain SibFacts BinRep NaryRep NaryOps NaryOps2 TreeNary RowFacts NaryLast IterProofs Examples Examples2 EditFacts.

(** The call returns, all nodes of the erased subtree are freed and every node
    is as it should be, except for the parent: it has no last child any more,
    although it still has children.  (An append that follows looks there for
    the place to put its node.) *)
Theorem C30_last_child_nary_refuted :
  forall (V : Type) (EV : EqDecision V) (F : nat), (N.of_nat F <= W64)%N ->
  forall (w : world (nnode V)) (M : gmap tid (option (rose (addr * V)))) (i : tid) (t : rose (addr * V)) (q : addr * V) (ls : list (rose (addr * V))) (s : rose (addr * V)) (pos : iter),
  consistent (nary_kind V) w M -> size (w_heap w) < F -> M !! i = Some (Some t) ->
  rsubtree (Rose q (ls ++ [s])) t -> ls <> [] -> it_cur pos = Some (raddr s) -> it_root pos = Some (raddr t) ->
  exists it w' wg n, erase F (nary_impl V) w i pos = Ret it w' /\
    consistent (nary_kind V) wg (<[i := rprune [raddr s] t]> M) /\
    w_trees w' = w_trees wg /\ w_heap wg !! fst q = Some n /\ nlast n <> None /\
    w_heap w' = <[fst q := nset_last None n]> (w_heap wg) /\
    n_last (w_heap w') (Some (fst q)) = Ok None /\ n_first (w_heap w') (Some (fst q)) = Ok (first_or ls None).
Proof.
  intros V EV F HFW w M i t [q v] ls s pos Hw HF Hi Hs Hls Hcur Hroot. pose proof (nary_tree_kind V EV) as HK. pose proof (first_fit (nnode V)) as al.
  pose proof (kind_is_ok F al HK) as KO.
  assert (Ha : raddr s ∈ raddrs t).
  { apply elem_of_list_fmap. exists (label s). split; [reflexivity|]. eapply sub_children_in; [exact Hs|]. cbn. rewrite map_app. apply elem_of_app. right. left. }
  destruct (wo_live _ _ _ _ _ Hw i) as [_ Hl]. destruct Hl as [tr Ht]; [eauto|].
  destruct (wo_tree _ _ _ _ _ Hw i tr _ Ht Hi) as (Hr & Hnav & Hrep). pose proof Hw as H. apply (to_holds F _ al _ HK HFW) in H.
  pose proof (holds_size _ _ _ _ _ _ _ _ H Hi) as Lc.
  assert (Hne : raddr s <> raddr t).
  { destruct Hrep as (_ & Hnd). eapply child_ne_root; [exact Hnd|exact Hs|]. apply elem_of_app. right. left. }
  destruct (k_post_sub _ _ _ _ KO (w_heap w) (Some t) (raddr s) Hrep Ha) as (p1 & p2 & l & Hp & Hq & _).
  assert (Hps : cpost (nary_kind V) (Some t) = (p1 ++ l) ++ raddr s :: p2) by (rewrite Hp, Hq, <- !app_assoc; reflexivity).
  unfold erase. rewrite Hcur, Hroot. change (get_instance F (tree_nav (nary_impl V) (w_heap w)) PostOrder (Some (raddr s)) (Some (raddr t)))
    with (Ok (Iter PostOrder (Some (raddr s)) (Some (raddr t)) [] (Some (raddr s)))). cbn [res_out].
  rewrite (incr_post F _ al _ KO [] (w_heap w) (Some t) (raddr s) (raddr t) _ _ Hrep ltac:(lia) eq_refl Hps). cbn [res_out].
  destruct (k_update _ _ _ _ KO (w_heap w) (Some t) None (raddr s) (Iter PostOrder (Some (raddr s)) (Some (raddr t)) [] (Some (raddr s))) Hrep I Ha ltac:(lia)) as (pos' & Hup & _).
  { split; [reflexivity|]. split; [reflexivity|]. discriminate. }
  unfold erase_subtree, get_tree. rewrite Ht. cbn [res_out it_cur]. rewrite Hr. cbn [croot nary_kind nroot fmap option_fmap option_map is_null negb guard_res mbind res_bind].
  cbn [croot nary_kind nroot fmap option_fmap option_map] in Hup. rewrite Hup. cbn [res_out]. rewrite ptr_eqb_false by congruence.
  unfold replace_node, get_tree. rewrite Ht. cbn [mbind res_bind]. rewrite Hr. cbn [croot nary_kind nroot fmap option_fmap option_map is_null negb guard_res mbind res_bind].
  (* the link operation *)
  pose proof Hs as Hs'. apply rsubtree_plug in Hs' as (cx & E). change (plug ((ls, (q, v), []) :: cx) s = t) in E. subst t.
  destruct (nary_place (w_heap w) _ s Hrep) as (Hsub & Hac & Hin & Hsubst & Hc). destruct Hrep as [H1 H2].
  assert (HF' : length ls < F).
  { cbn [caddrs nary_kind naddrs opt_list] in Lc. rewrite length_raddrs in Lc. pose proof (ctx_length_size cx (Rose (q, v) (ls ++ [s]))) as Hsz.
    rewrite rsize_rose in Hsz. pose proof (fsize_length (V := V) (ls ++ [s])) as Hlen. rewrite app_length in Hlen. cbn [length] in Hlen. cbn [plug] in Lc. lia. }
  destruct (n_replace_none_last F (w_heap w) ls q v cx s H1 H2 Hls HF') as (hg & nq & Hrw & Hgq & Hgl & R1 & R2 & R3).
  destruct (NoDup_plug _ _ H2) as (Hnds & _ & Hdsc).
  assert (Hqs : q ∉ raddrs s).
  { intros Hx. apply (Hdsc q Hx). cbn [nctx_addrs fst]. left. }
  set (t := plug ((ls, (q, v), []) :: cx) s) in *.
  set (t' := plug cx (Rose (q, v) ls)) in *.
  assert (Esub : csubst (nary_kind V) (raddr s) None (Some t) = Some t').
  { cbn [csubst nary_kind nsubst mbind option_bind]. rewrite (Hsubst None). cbn [plug_opt]. rewrite app_nil_r. reflexivity. }
  assert (Ecs : csub (nary_kind V) (raddr s) (Some t) = Some s) by exact Hsub.
  assert (Ht' : NoDup (raddrs t' ++ raddrs s)).
  { destruct (nary_addrs_opt ((ls, (q, v), []) :: cx) s None) as (t2 & E2 & _ & Hp2); [discriminate|]. cbn [plug_opt] in E2. rewrite app_nil_r in E2.
    injection E2 as <-. unfold t'. rewrite Hp2. cbn. rewrite app_nil_r. exact H2. }
  assert (C1 : crep (nary_kind V) hg (Some t')) by (split; [exact R1|apply NoDup_app in Ht'; tauto]).
  assert (C2 : crep (nary_kind V) hg (Some s)) by (split; [exact R2|exact Hnds]).
  set (ha := <[q := nset_last None nq]> hg) in *.
  assert (C3 : crep (nary_kind V) ha (Some s)).
  { eapply (k_ext _ _ _ _ KO); [|exact C2]. intros x Hx. apply lookup_insert_ne. intros <-. exact (Hqs Hx). }
  pose proof (holds_unfold _ _ _ _ _ _ _ _ H Hi) as Hu. cbn [app] in Hu.
  pose proof (k_subst _ _ _ _ KO (w_heap w) (Some t) (cnil (nary_kind V)) (raddr s) (conj H1 H2) Ha) as (Hsr & _ & Hsb).
  destruct Hsb as [Hs1 Hs2]; [intros Hx; apply Hne; injection Hx as Hx; symmetry; exact Hx|]. change (cnil (nary_kind V)) with (@None (rose (addr * V))) in *. rewrite Esub in Hs1, Hs2. rewrite Ecs in Hs2.
  destruct (k_deg _ _ _ _ KO ha (Some s) (raddr s) C3 ltac:(apply raddr_in)) as (fc & Hfc & _).
  cbn [ni_replace_with nary_impl]. rewrite Hrw. cbn [mbind res_bind]. rewrite ptr_eqb_false by congruence.
  cbn [ni_ops nary_impl] in Hfc |- *. rewrite Hfc. cbn [mbind res_bind].
  set (t'' := match fc with
              | Some _ => TreeRec (Some (raddr t)) 0 0 (t_nav tr)
              | None => TreeRec (Some (raddr t)) (wadd (t_size tr) (wsub 0 1)) 0 (t_nav tr)
              end).
  assert (Hls' : length (caddrs (nary_kind V) (Some s)) < F).
  { cbn [caddrs nary_kind naddrs opt_list]. pose proof (Permutation_length Hs2) as Hpl. rewrite !app_length in Hpl. cbn [caddrs nary_kind naddrs opt_list length] in Hpl, Lc. lia. }
  assert (Hholds : holds (croot (nary_kind V)) (caddrs (nary_kind V)) (crep (nary_kind V)) (set_tree (set_heap w hg) i t'') (<[i := Some t']> M) [Some s]).
  { apply (holds_add_nil F _ al _ KO) in H.
    pose proof (holds_edit _ _ _ _ _ _ i (Some t) (Some t') hg H Hi Hs1 [Some s]) as Hed.
    eapply holds_cache with (c := Some t').
    - apply Hed. intros Hok. cbn [app]. cbn [app] in Hok.
      eapply (heap_ok_change (croot (nary_kind V)) _ _ (k_dom _ _ _ _ KO) (k_ext _ _ _ _ KO)); [exact Hok|exact C1|exact C2|exact Hs2|].
      intros x Hx _. apply R3, Hx.
    - apply lookup_insert.
    - rewrite Hs1. unfold t''. destruct fc; reflexivity.
    - rewrite Hs1. unfold t''. destruct fc; exact Hnav. }
  destruct (drop_ok F _ al _ KO _ _ _ _ Hholds Hls') as (wg & Hd & Hh & Htr).
  apply (to_holds F _ al _ HK HFW) in Hh.
  destruct (k_dealloc _ _ _ _ KO hg (Some s) C2 Hls') as (hg' & Dg & Dg').
  destruct (k_dealloc _ _ _ _ KO ha (Some s) C3 Hls') as (ha' & Da & Da').
  unfold drop in Hd. cbn [w_heap set_tree set_heap] in Hd. rewrite Dg in Hd. injection Hd as <-.
  assert (Eq : ha' = <[q := nset_last None nq]> hg').
  { apply map_eq. intros x. rewrite Da'. destruct (decide (x = q)) as [->|Hx].
    - rewrite lookup_insert, bool_decide_eq_false_2 by exact Hqs. apply lookup_insert.
    - rewrite (lookup_insert_ne hg') by congruence. rewrite Dg'. destruct (bool_decide _); [reflexivity|]. apply lookup_insert_ne. congruence. }
  assert (Hgq' : hg' !! q = Some nq) by (rewrite Dg', bool_decide_eq_false_2 by exact Hqs; exact Hgq).
  assert (Ep : rprune [raddr s] t = Some t').
  { rewrite rprune_cons. change (rsubst (raddr s) None t) with (csubst (nary_kind V) (raddr s) None (Some t)). rewrite Esub. apply rprune_nil. }
  eexists _, (World ha' (<[i := t'']> (w_trees w))), _, nq. split; [|split; [|split; [|split; [|split; [|split; [|split]]]]]].
  - unfold drop. destruct fc; cbn [mbind res_bind w_heap set_tree set_heap of_res]; change (deallocate (nary_impl V) F ha (Some (raddr s))) with (deallocate (nary_impl V) F ha (croot (nary_kind V) (Some s))); rewrite Da;
      cbn [mbind res_bind of_res set_heap set_tree w_heap w_trees]; cbn [out_bind of_res set_heap set_tree w_trees w_heap]; rewrite lookup_insert; reflexivity.
  - rewrite Ep. exact Hh.
  - reflexivity.
  - exact Hgq'.
  - exact Hgl.
  - exact Eq.
  - cbn [w_heap]. rewrite Eq. unfold n_last. cbn [fst]. rewrite (deref_Some _ _ _ (lookup_insert _ _ _)). reflexivity.
  - cbn [w_heap]. rewrite Eq. unfold n_first. cbn [fst]. rewrite (deref_Some _ _ _ (lookup_insert _ _ _)). cbn [mbind res_bind nset_last nfirst].
    apply nrep_plug in R1 as [_ R1]. pose proof (nrep_root _ _ _ _ _ _ R1) as Hrt. cbn in Hrt. rewrite Hgq in Hrt. injection Hrt as ->. reflexivity.
Qed.
Print Assumptions C30_last_child_nary_refuted.

(** Node 6 of the example is a last child with a previous sibling. *)
Example C30_used_last : exists it w', erase 100 (nary_impl nat) ex_nw 1%positive (Iter PostOrder (Some 6%positive) (Some 1%positive) [] None) = Ret it w' /\
  n_first (w_heap w') (Some 3%positive) = Ok (Some 5%positive) /\ n_last (w_heap w') (Some 3%positive) = Ok None.
Proof.
  destruct (C30_last_child_nary_refuted nat _ 100 ex_word ex_nw ex_nM 1%positive ex_nary (3%positive, 30) [Rose (5%positive, 50) []] (Rose (6%positive, 60) []) (Iter PostOrder (Some 6%positive) (Some 1%positive) [] None) ex_nw_ok)
    as (it & w' & wg & n & E & _ & _ & _ & _ & _ & H1 & H2); [vm_compute; lia|reflexivity|exact ex_nsub_ok|discriminate|reflexivity..|].
  exists it, w'. split; [exact E|]. split; [exact H2|exact H1].
Qed.
