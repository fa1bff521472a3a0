(** NaryLast.v: what [erase] does at the last child of a node of an n-ary tree (C30). *)
From Verif Require Import Base Spec StructNode BinaryNode NaryNode Nav Policy Tree RoseFacts RowFacts
  NavFacts BinOrder Rep BinRep BinOps NaryRep NaryOps NaryOps2 EditSpec NaryEdit World Kinds TreeOps TreeOps2 TreeNary.

Section NaryLast.
  Context {V : Type}.
  Notation heap := (gmap addr (nnode V)).
  Notation tree := (rose (addr * V)).
  Implicit Types (t s u : tree) (cs ls rs : list tree) (h : heap).

  (** Removing a last child that has a previous sibling: the heap [hg] is right, the
      actual one lacks the parent's link to its last child. *)
  Lemma n_replace_none_last F h ls q w c s :
    let t := plug ((ls, (q, w), []) :: c) s in
    nrep h None None None (szt 0) t -> NoDup (raddrs t) -> ls <> [] -> length ls < F ->
    exists hg nq, n_replace_with F h (Some (raddr s)) None = Ok (<[q := nset_last None nq]> hg) /\ hg !! q = Some nq /\ nlast nq <> None /\
      nrep hg None None None (szt 0) (plug c (Rose (q, w) ls)) /\
      nrep hg None None None (szt 0) s /\
      (forall x, x ∉ raddrs t -> hg !! x = h !! x).
  Proof.
    intros t Hr Hnd Hlsne HF.
    pose proof (NoDup_plug _ _ Hnd) as (Hnds & Hndc & Hdsc). cbn [nctx_addrs fst faddrs flat_map app] in Hndc, Hdsc.
    apply NoDup_cons in Hndc as [Hq Hndc]. apply NoDup_app in Hndc as (Hndls & Hdls & Hndc).
    unfold t in Hr. apply nrep_plug in Hr as [Hc Hs]. cbn [nctx_rep] in Hc. destruct Hc as (HQ & Hls & _ & Hc).
    unfold nrep_at in Hs. cbn [hpar hprev hnext hfs fst] in Hs.
    set (a := raddr s) in *.
    pose proof (raddr_in s) as Hain. fold a in Hain.
    assert (Haq : a <> q /\ a ∉ faddrs ls /\ a ∉ nctx_addrs c).
    { pose proof (Hdsc a Hain) as Hx. set_solver +Hx. }
    destruct Haq as (Haq & Hals & Hac).
    pose proof (nrep_root _ _ _ _ _ _ Hs) as Ha. fold a in Ha. cbn [first_or last_or length] in Ha, HQ.
    unfold n_replace_with, n_first. cbn [mbind res_bind]. rewrite (deref_Some _ _ _ Ha). cbn [mbind res_bind nparent].
    rewrite (deref_Some _ _ _ HQ). cbn [mbind res_bind nfirst].
    destruct (n_find_prev_ok a (Some q) 0 ls F h None BLNull Hls Hndls Hals HF) as (h1 & -> & Hls1 & Ho1).
    cbn [mbind res_bind].
    assert (Ha1 := Ha). rewrite <- (Ho1 a Hals) in Ha1.
    rewrite (deref_Some _ _ _ Ha1). cbn [mbind res_bind nnext].
    destruct (last_or_cases ls None) as [[-> _]|(d & ls' & -> & El)]; [congruence|]. rewrite El in *. cbn [write_back_link].
    destruct (nseg_snoc_dom _ _ _ _ _ _ _ Hls1) as [nd Hnd'].
    assert (Hdin : raddr d ∈ faddrs (ls' ++ [d])) by (apply faddrs_raddr; set_solver +).
    rewrite (update_Some _ _ _ _ Hnd'). cbn [mbind res_bind].
    pose proof (nseg_next _ _ _ _ _ _ None _ _ Hls1 Hndls Hnd') as Hls2.
    set (h2 := <[raddr d := _]> h1) in *.
    assert (Ho2 : forall x, x ∉ faddrs (ls' ++ [d]) -> h2 !! x = h !! x).
    { intros x Hx. unfold h2. rewrite lookup_insert_ne by (intros <-; exact (Hx Hdin)). apply Ho1, Hx. }
    assert (Hqls : q ∉ faddrs (ls' ++ [d])) by (intros Hx; apply Hq; set_solver +Hx).
    assert (Ha2 := Ha). rewrite <- (Ho2 a Hals) in Ha2.
    assert (HQ2 := HQ). rewrite <- (Ho2 q Hqls) in HQ2.
    unfold n_is_last, n_last. rewrite (deref_Some _ _ _ Ha2). cbn [mbind res_bind nparent].
    rewrite (deref_Some _ _ _ HQ2). cbn [mbind res_bind nlast]. rewrite ptr_eqb_true.
    rewrite (update_Some _ _ _ _ HQ2). cbn [mbind res_bind].
    assert (Ha3 : <[q := nset_last None (NNodeR w (hpar c) (hfs c) (hprev c) (hnext c) (first_or (ls' ++ [d]) (Some a)) (Some a))]> h2 !! a = h2 !! a) by (apply lookup_insert_ne; congruence).
    rewrite Ha2 in Ha3. rewrite (update_Some _ _ _ _ Ha3). cbn [mbind res_bind].
    do 3 (rewrite (update_Some _ _ _ _ (lookup_insert _ _ _)), insert_insert; cbn [mbind res_bind]).
    set (na := nset_next _ _).
    set (nq := NNodeR w (hpar c) (hfs c) (hprev c) (hnext c) (first_or (ls' ++ [d]) None) (Some (raddr d))).
    set (hg := <[a := na]> (<[q := nq]> h2)).
    exists hg, nq. split; [|split; [|split; [|split; [|split]]]].
    - f_equal. unfold hg. rewrite (insert_commute _ q a) by congruence. f_equal. rewrite insert_insert. f_equal.
      unfold nq. cbn. rewrite !first_or_app. cbn [first_or]. reflexivity.
    - unfold hg. rewrite lookup_insert_ne by congruence. apply lookup_insert.
    - discriminate.
    - apply nrep_plug. cbn [raddr label fst]. split.
      + apply (nctx_rep_ext h); [|exact Hc]. intros x Hx. unfold hg. rewrite lookup_insert_ne by (intros <-; exact (Hac Hx)).
        rewrite lookup_insert_ne by (intros <-; apply Hq; set_solver +Hx). apply Ho2. intros Hx'; apply (Hdls x Hx'); set_solver +Hx.
      + unfold nrep_at. rewrite nrep_unfold. unfold hg at 1. rewrite lookup_insert_ne by congruence. rewrite lookup_insert.
        unfold nq at 1. rewrite El. split; [reflexivity|].
        unfold hg. apply nseg_insert; [exact Hals|]. apply nseg_insert; [exact Hqls|exact Hls2].
    - unfold a. unfold hg. eapply nrep_relink' with (h := <[q := nq]> h2); [|exact Hnds|reflexivity].
      apply (nrep_ext h); [|exact Hs]. intros x Hx. pose proof (Hdsc x Hx) as Hx'. rewrite lookup_insert_ne by set_solver +Hx'. apply Ho2; set_solver +Hx'.
    - intros x Hx. unfold t in Hx. rewrite raddrs_plug in Hx. cbn [nctx_addrs fst] in Hx. unfold hg.
      rewrite lookup_insert_ne by (intros <-; apply Hx; set_solver +Hain). rewrite lookup_insert_ne by set_solver +Hx. apply Ho2; set_solver +Hx.
  Qed.
End NaryLast.
