(** NaryEdit.v: editing n-ary trees in the heap: [replace_with],
    [prepend_child], [append_child]. *)
From Verif Require Import Base Spec StructNode BinaryNode NaryNode Nav Policy Tree RoseFacts RowFacts
  NavFacts BinOrder Rep BinRep BinOps NaryRep NaryOps NaryOps2 EditSpec.

Section NaryEdit.
  Context {V : Type}.
  Notation heap := (gmap addr (nnode V)).
  Notation tree := (rose (addr * V)).
  Notation nctx := (ctx (addr * V)).
  Implicit Types (t s u : tree) (cs ls rs : list tree) (c : nctx) (h : heap).

  (** *** Changing the links at the ends of a segment *)
  Lemma nrep_relink' h par prev next fs par' prev' next' fs' t n :
    nrep h par prev next fs t -> NoDup (raddrs t) ->
    n = NNodeR (snd (label t)) par' fs' prev' next' (first_or (children t) None) (last_or None (children t)) ->
    nrep (<[raddr t := n]> h) par' prev' next' fs' t.
  Proof. intros Hr Hnd ->. eapply nrep_relink; eassumption. Qed.
  Lemma nseg_next h par prev l d next next' k n :
    nseg h par prev (l ++ [d]) next k -> NoDup (faddrs (l ++ [d])) -> h !! raddr d = Some n ->
    nseg (<[raddr d := nset_next next' n]> h) par prev (l ++ [d]) next' k.
  Proof.
    rewrite !nseg_app, faddrs_app. cbn [nseg first_or length]. rewrite faddrs_cons. intros [Hl [Hd _]] Hnd Hn.
    apply NoDup_app in Hnd as (_ & Hdis & Hndd). cbn [faddrs flat_map] in Hndd, Hdis. rewrite app_nil_r in Hndd, Hdis.
    split; [|split; [|exact I]].
    - apply nseg_insert; [|exact Hl]. intros Hx. exact (Hdis _ Hx (raddr_in d)).
    - eapply nrep_relink'; [exact Hd|exact Hndd|]. rewrite (nrep_root _ _ _ _ _ _ Hd) in Hn. injection Hn as <-. reflexivity.
  Qed.
  Lemma nseg_prev h par prev prev' l d next k n :
    nseg h par prev (d :: l) next k -> NoDup (faddrs (d :: l)) -> h !! raddr d = Some n ->
    nseg (<[raddr d := nset_prev prev' n]> h) par prev' (d :: l) next k.
  Proof.
    cbn [nseg]. rewrite faddrs_cons. intros [Hd Hl] Hnd Hn.
    apply NoDup_app in Hnd as (Hndd & Hdis & _). split.
    - eapply nrep_relink'; [exact Hd|exact Hndd|]. rewrite (nrep_root _ _ _ _ _ _ Hd) in Hn. injection Hn as <-. reflexivity.
    - apply nseg_insert; [|exact Hl]. apply Hdis, raddr_in.
  Qed.
  Lemma nseg_snoc_dom h par prev l d next k : nseg h par prev (l ++ [d]) next k -> exists n, h !! raddr d = Some n.
  Proof. intros Hs. apply (nseg_dom _ _ _ _ _ _ _ Hs). rewrite faddrs_app, faddrs_cons. pose proof (raddr_in d) as Hr. set_solver +Hr. Qed.
  Lemma faddrs_raddr (d : tree) (l : list tree) : d ∈ l -> raddr d ∈ faddrs l.
  Proof. intros Hd. apply elem_of_flat_map. exists d. split; [exact Hd|apply raddr_in]. Qed.

  (** *** Positions by address *)
  Lemma raddrs_position a t : a ∈ raddrs t -> exists c s, t = plug c s /\ raddr s = a.
  Proof.
    induction t as [[x v] cs IH] using rose_ind'. rewrite raddrs_rose, elem_of_cons. intros [->|Ha].
    - exists [], (Rose (x, v) cs). auto.
    - apply elem_of_flat_map in Ha as (d & Hd & Ha). rewrite Forall_forall in IH.
      destruct (IH d Hd Ha) as (c & s & -> & Hs). apply elem_of_list_split in Hd as (ls & rs & ->).
      exists (c ++ [(ls, (x, v), rs)]), s. rewrite plug_app. auto.
  Qed.

  Fixpoint rsub_in (a : addr) (l : list tree) : option tree :=
    match l with [] => None | d :: l => match rsub a d with Some s => Some s | None => rsub_in a l end end.
  Lemma rsub_unfold a x v cs : rsub a (Rose (x, v) cs) = if decide (x = a) then Some (Rose (x, v) cs) else rsub_in a cs.
  Proof.
    cbn [rsub]. destruct (decide (x = a)); [reflexivity|]. induction cs as [|d cs IH]; cbn [rsub_in]; [reflexivity|].
    rewrite <- IH. reflexivity.
  Qed.
  Lemma not_in_faddrs a (d : tree) (l : list tree) : a ∉ faddrs l -> d ∈ l -> a ∉ raddrs d.
  Proof. intros Ha Hd Hx. apply Ha. apply elem_of_flat_map. eauto. Qed.
  Lemma rsub_out a t : a ∉ raddrs t -> rsub a t = None.
  Proof.
    induction t as [[x v] cs IH] using rose_ind'. rewrite raddrs_rose, not_elem_of_cons. intros [Hne Ha].
    rewrite rsub_unfold, decide_False by congruence. rewrite Forall_forall in IH.
    induction cs as [|d cs IHcs]; [reflexivity|]. cbn [rsub_in]. rewrite IH; [|set_solver +|eapply not_in_faddrs; [exact Ha|set_solver +]].
    apply IHcs; [intros e He; apply IH; set_solver +He|]. rewrite faddrs_cons in Ha. set_solver +Ha.
  Qed.
  Lemma rsub_in_out a (l : list tree) : a ∉ faddrs l -> rsub_in a l = None.
  Proof.
    induction l as [|d l IH]; [reflexivity|]. rewrite faddrs_cons. intros Ha. cbn [rsub_in].
    rewrite rsub_out by set_solver +Ha. apply IH. set_solver +Ha.
  Qed.
  Lemma rsub_in_app a l1 l2 : rsub_in a (l1 ++ l2) = match rsub_in a l1 with Some s => Some s | None => rsub_in a l2 end.
  Proof. induction l1 as [|d l1 IH]; cbn; [reflexivity|]. destruct (rsub a d); [reflexivity|exact IH]. Qed.
  Lemma rsubst_out a (u : option tree) t : a ∉ raddrs t -> rsubst a u t = Some t.
  Proof.
    induction t as [[x v] cs IH] using rose_ind'. rewrite raddrs_rose, not_elem_of_cons. intros [Hne Ha].
    cbn [rsubst]. rewrite decide_False by congruence. do 2 f_equal. rewrite Forall_forall in IH.
    induction cs as [|d cs IHcs]; [reflexivity|]. cbn [flat_map]. rewrite IH; [|set_solver +|eapply not_in_faddrs; [exact Ha|set_solver +]].
    cbn. f_equal. apply IHcs; [intros e He; apply IH; set_solver +He|]. rewrite faddrs_cons in Ha. set_solver +Ha.
  Qed.
  Lemma rsubst_list_out a (u : option tree) (l : list tree) : a ∉ faddrs l -> flat_map (fun d => opt_list (fun y => [y]) (rsubst a u d)) l = l.
  Proof.
    induction l as [|d l IH]; [reflexivity|]. rewrite faddrs_cons. intros Ha. cbn.
    rewrite rsubst_out by set_solver +Ha. cbn. f_equal. apply IH. set_solver +Ha.
  Qed.
  Lemma radd_out f a u t : a ∉ raddrs t -> radd f a u t = t.
  Proof.
    induction t as [[x v] cs IH] using rose_ind'. rewrite raddrs_rose, not_elem_of_cons. intros [Hne Ha].
    cbn [radd]. rewrite decide_False by congruence. f_equal. rewrite Forall_forall in IH.
    induction cs as [|d cs IHcs]; [reflexivity|]. cbn [map]. rewrite IH; [|set_solver +|eapply not_in_faddrs; [exact Ha|set_solver +]].
    f_equal. apply IHcs; [intros e He; apply IH; set_solver +He|]. rewrite faddrs_cons in Ha. set_solver +Ha.
  Qed.
  Lemma radd_list_out f a u (l : list tree) : a ∉ faddrs l -> map (radd f a u) l = l.
  Proof.
    induction l as [|d l IH]; [reflexivity|]. rewrite faddrs_cons. intros Ha. cbn.
    rewrite radd_out by set_solver +Ha. f_equal. apply IH. set_solver +Ha.
  Qed.

  Lemma rsub_plug a c s : raddr s = a -> a ∉ nctx_addrs c -> rsub a (plug c s) = Some s.
  Proof.
    intros Hs. induction c as [|[[ls [x v]] rs] c IH] using rev_ind; intros Ha.
    - destruct s as [[y w] cs]. cbn in Hs |- *. subst. rewrite decide_True by reflexivity. reflexivity.
    - rewrite nctx_addrs_app in Ha. cbn [nctx_addrs fst] in Ha. rewrite plug_app. cbn [plug].
      rewrite rsub_unfold, decide_False by set_solver +Ha.
      rewrite rsub_in_app, rsub_in_out by set_solver +Ha. cbn [rsub_in]. rewrite IH by set_solver +Ha. reflexivity.
  Qed.
  (** The whole tree when the hole is filled with [u], or removed. *)
  Definition plug_opt c (u : option tree) : option tree :=
    match u with
    | Some u => Some (plug c u)
    | None => match c with [] => None | (ls, x, rs) :: c => Some (plug c (Rose x (ls ++ rs))) end
    end.
  Lemma rsubst_plug a (u : option tree) c s : raddr s = a -> a ∉ nctx_addrs c -> rsubst a u (plug c s) = plug_opt c u.
  Proof.
    intros Hs. induction c as [|[[ls [x v]] rs] c IH] using rev_ind; intros Ha.
    - destruct s as [[y w] cs]. cbn in Hs |- *. subst. rewrite decide_True by reflexivity. destruct u; reflexivity.
    - rewrite nctx_addrs_app in Ha. cbn [nctx_addrs fst] in Ha. rewrite plug_app. cbn [plug rsubst].
      rewrite decide_False by set_solver +Ha. rewrite flat_map_app. cbn [flat_map].
      rewrite !rsubst_list_out by set_solver +Ha. rewrite IH by set_solver +Ha.
      destruct u as [u|]; cbn [plug_opt opt_list].
      + rewrite plug_app. reflexivity.
      + destruct c as [|[[ls' x'] rs'] c]; cbn [plug_opt opt_list app plug]; [reflexivity|]. rewrite plug_app. reflexivity.
  Qed.
  Lemma radd_plug f a v cs u c : a ∉ nctx_addrs c ->
    radd f a u (plug c (Rose (a, v) cs)) = plug c (Rose (a, v) (if f then u :: cs else cs ++ [u])).
  Proof.
    induction c as [|[[ls [x w]] rs] c IH] using rev_ind; intros Ha.
    - cbn. rewrite decide_True by reflexivity. reflexivity.
    - rewrite nctx_addrs_app in Ha. cbn [nctx_addrs fst] in Ha. rewrite !plug_app. cbn [plug radd].
      rewrite decide_False by set_solver +Ha. rewrite map_app. cbn [map].
      rewrite !radd_list_out by set_solver +Ha. rewrite IH by set_solver +Ha. reflexivity.
  Qed.

  (** *** replace_with *)
  Lemma n_replace_root F h t (node : ptr) :
    nrep h None None None (szt 0) t ->
    (node = None \/ exists u, node = Some (raddr u) /\ nrep h None None None (szt 0) u) ->
    n_replace_with F h (Some (raddr t)) node = Ok h.
  Proof.
    intros Ht Hn. pose proof (nrep_root _ _ _ _ _ _ Ht) as Ha. unfold n_replace_with.
    destruct Hn as [->|(u & -> & Hu)].
    - cbn [mbind res_bind]. rewrite (deref_Some _ _ _ Ha). reflexivity.
    - rewrite (deref_Some _ _ _ (nrep_root _ _ _ _ _ _ Hu)). cbn. rewrite (deref_Some _ _ _ Ha). reflexivity.
  Qed.

  (** Distinctness facts of a position with a parent. *)
  Lemma n_replace_some F h ls q w rs c s u :
    let t := plug ((ls, (q, w), rs) :: c) s in
    nrep h None None None (szt 0) t -> NoDup (raddrs t) ->
    nrep h None None None (szt 0) u -> NoDup (raddrs u) -> (forall x, x ∈ raddrs u -> x ∉ raddrs t) ->
    exists h', n_replace_with F h (Some (raddr s)) (Some (raddr u)) = Ok h' /\
      nrep h' None None None (szt 0) (plug ((ls, (q, w), rs) :: c) u) /\
      nrep h' None None None (szt 0) s /\
      (forall x, x ∉ raddrs t -> x ∉ raddrs u -> h' !! x = h !! x).
  Proof.
    intros t Hr Hnd Hu Hndu Hdis.
    pose proof (NoDup_plug _ _ Hnd) as (Hnds & Hndc & Hdsc). cbn [nctx_addrs fst] in Hndc, Hdsc.
    assert (Hdu : forall x, x ∈ raddrs u -> x ∉ raddrs s /\ x <> q /\ x ∉ faddrs ls /\ x ∉ faddrs rs /\ x ∉ nctx_addrs c).
    { intros x Hx. apply Hdis in Hx. unfold t in Hx. rewrite raddrs_plug in Hx. cbn [nctx_addrs fst] in Hx. set_solver +Hx. }
    apply NoDup_cons in Hndc as [Hq Hndc]. apply NoDup_app in Hndc as (Hndls & Hdls & Hndc).
    apply NoDup_app in Hndc as (Hndrs & Hdrs & Hndc).
    unfold t in Hr. apply nrep_plug in Hr as [Hc Hs]. cbn [nctx_rep] in Hc. destruct Hc as (HQ & Hls & Hrs & Hc).
    unfold nrep_at in Hs. cbn [hpar hprev hnext hfs fst] in Hs.
    set (a := raddr s) in *. set (b := raddr u) in *.
    pose proof (raddr_in s) as Hain. fold a in Hain. pose proof (raddr_in u) as Hbin. fold b in Hbin.
    assert (Haq : a <> q /\ a ∉ faddrs ls /\ a ∉ faddrs rs /\ a ∉ nctx_addrs c).
    { pose proof (Hdsc a Hain) as Hx. set_solver +Hx. }
    destruct Haq as (Haq & Hals & Hars & Hac).
    destruct (Hdu b Hbin) as (Hbs & Hbq & Hbls & Hbrs & Hbc).
    assert (Hba : b <> a) by (intros E; rewrite E in Hbs; exact (Hbs Hain)).
    pose proof (nrep_root _ _ _ _ _ _ Hs) as Ha. fold a in Ha.
    pose proof (nrep_root _ _ _ _ _ _ Hu) as Hb. fold b in Hb.
    unfold n_replace_with. rewrite (deref_Some _ _ _ Hb). cbn [mbind res_bind nparent nnext is_null andb guard_res].
    rewrite (deref_Some _ _ _ Ha). cbn [mbind res_bind nparent nfsize nprev nnext].
    rewrite (update_Some _ _ _ _ Hb). cbn [mbind res_bind].
    do 3 (rewrite (update_Some _ _ _ _ (lookup_insert _ _ _)), insert_insert; cbn [mbind res_bind]).
    set (nb := nset_next _ _). set (h1 := <[b:=nb]> h).
    (* the link to the replaced node *)
    assert (H2 : exists h2 nq, write_back_link h1 (match last_or None ls with
                   | Some _ => BLNext (last_or None ls) | None => BLFirst (Some q) end) (Some b) = Ok h2 /\
       nseg h2 (Some q) None ls (Some b) (S (length rs)) /\
       h2 !! q = Some nq /\ nq = NNodeR w (hpar c) (hfs c) (hprev c) (hnext c) (first_or ls (Some b)) (last_or (Some a) rs) /\
       (forall x, x <> q -> x ∉ faddrs ls -> h2 !! x = h1 !! x)).
    { destruct (last_or_cases ls None) as [[-> ->]|(d & ls' & -> & ->)]; cbn [write_back_link].
      - assert (Hq1 : h1 !! q = Some (NNodeR w (hpar c) (hfs c) (hprev c) (hnext c) (first_or [] (Some a)) (last_or (Some a) rs)))
          by (unfold h1; rewrite lookup_insert_ne by congruence; exact HQ).
        rewrite (update_Some _ _ _ _ Hq1). eexists _, _. split; [reflexivity|]. split; [exact I|].
        split; [apply lookup_insert|]. split; [reflexivity|]. intros x Hx _. rewrite lookup_insert_ne by congruence. reflexivity.
      - assert (Hls1 : nseg h1 (Some q) None (ls' ++ [d]) (Some a) (S (length rs))) by (apply nseg_insert; assumption).
        destruct (nseg_snoc_dom _ _ _ _ _ _ _ Hls1) as [nd Hnd'].
        assert (Hdin : raddr d ∈ faddrs (ls' ++ [d])) by (apply faddrs_raddr; set_solver +).
        rewrite (update_Some _ _ _ _ Hnd'). eexists _, _. split; [reflexivity|].
        split; [eapply nseg_next; [exact Hls1|exact Hndls|exact Hnd']|].
        split; [|split].
        + rewrite lookup_insert_ne by (intros E; apply Hq; rewrite <- E; set_solver +Hdin).
          unfold h1. rewrite lookup_insert_ne by congruence. exact HQ.
        + rewrite !first_or_app. reflexivity.
        + intros x _ Hx. rewrite lookup_insert_ne; [reflexivity|]. intros <-. exact (Hx Hdin). }
    destruct H2 as (h2 & nq & -> & Hls2 & HQ2 & Enq & Ho2). cbn [mbind res_bind].
    assert (Ha2 : h2 !! a = Some (NNodeR (snd (label s)) (Some q) (szt (length rs)) (last_or None ls) (first_or rs None)
                      (first_or (children s) None) (last_or None (children s)))).
    { rewrite Ho2 by assumption. unfold h1. rewrite lookup_insert_ne by congruence. exact Ha. }
    unfold n_is_last, n_last. rewrite (deref_Some _ _ _ Ha2). cbn [mbind res_bind nparent].
    rewrite (deref_Some _ _ _ HQ2). cbn [mbind res_bind]. rewrite Enq. cbn [nlast].
    (* the link after the replaced node *)
    assert (H3 : exists h3 nq3,
       (if ptr_eqb (last_or (Some a) rs) (Some a)
        then update h2 (Some q) (nset_last (Some b))
        else update h2 (first_or rs None) (nset_prev (Some b))) = Ok h3 /\
       nseg h3 (Some q) (Some b) rs None 0 /\ nseg h3 (Some q) None ls (Some b) (S (length rs)) /\
       h3 !! q = Some nq3 /\ nq3 = NNodeR w (hpar c) (hfs c) (hprev c) (hnext c) (first_or ls (Some b)) (last_or (Some b) rs) /\
       (forall x, x <> q -> x ∉ faddrs rs -> h3 !! x = h2 !! x)).
    { destruct rs as [|d rs].
      - cbn [last_or]. rewrite ptr_eqb_true, (update_Some _ _ _ _ HQ2). eexists _, _. split; [reflexivity|]. split; [exact I|].
        split; [apply nseg_insert; [|exact Hls2]; intros Hx; apply Hq; set_solver +Hx|].
        split; [apply lookup_insert|]. split; [rewrite Enq; reflexivity|].
        intros x Hx _. rewrite lookup_insert_ne by congruence. reflexivity.
      - rewrite ptr_eqb_false.
        2:{ destruct (last_or_cases (d :: rs) (Some a)) as [[? _]|(e & l' & E & ->)]; [discriminate|]. intros [=E'].
            apply Hars. rewrite <- E'. apply faddrs_raddr. rewrite E. set_solver +. }
        cbn [first_or].
        assert (Hrs2 : nseg h2 (Some q) (Some a) (d :: rs) None 0).
        { eapply nseg_ext; [|exact Hrs]. intros x Hx.
          rewrite Ho2; [|intros ->; apply Hq; set_solver +Hx|intros Hx'; apply (Hdls x Hx'); set_solver +Hx].
          unfold h1. apply lookup_insert_ne. intros <-. exact (Hbrs Hx). }
        assert (Hdin : raddr d ∈ faddrs (d :: rs)) by (apply faddrs_raddr; set_solver +).
        destruct (nseg_dom _ _ _ _ _ _ _ Hrs2 Hdin) as [nd Hnd'].
        rewrite (update_Some _ _ _ _ Hnd'). eexists _, _. split; [reflexivity|].
        split; [eapply nseg_prev; [exact Hrs2|exact Hndrs|exact Hnd']|].
        split; [apply nseg_insert; [|exact Hls2]; intros Hx; apply (Hdls _ Hx); set_solver +Hdin|].
        split; [rewrite lookup_insert_ne by (intros E; apply Hq; rewrite <- E; set_solver +Hdin); exact HQ2|].
        split; [rewrite Enq; reflexivity|].
        intros x _ Hx. rewrite lookup_insert_ne; [reflexivity|]. intros <-. exact (Hx Hdin). }
    cbn [nnext]. destruct H3 as (h3 & nq3 & -> & Hrs3 & Hls3 & HQ3 & Enq3 & Ho3). cbn [mbind res_bind].
    assert (Ha3 : h3 !! a = Some (NNodeR (snd (label s)) (Some q) (szt (length rs)) (last_or None ls) (first_or rs None)
                      (first_or (children s) None) (last_or None (children s)))).
    { rewrite Ho3 by assumption. exact Ha2. }
    rewrite (update_Some _ _ _ _ Ha3). cbn [mbind res_bind].
    do 3 (rewrite (update_Some _ _ _ _ (lookup_insert _ _ _)), insert_insert; cbn [mbind res_bind]).
    set (na := nset_next _ _). eexists. split; [reflexivity|].
    assert (Hsame : forall x, x ∉ faddrs ls -> x ∉ faddrs rs -> x <> q -> x <> b -> h3 !! x = h !! x).
    { intros x H1 H2 H3 H4. rewrite Ho3, Ho2 by assumption. unfold h1. apply lookup_insert_ne. congruence. }
    split; [|split].
    - apply nrep_plug. cbn [nctx_rep]. fold b. split.
      + split; [rewrite lookup_insert_ne by congruence; rewrite HQ3, Enq3; reflexivity|].
        split; [apply nseg_insert; assumption|]. split; [apply nseg_insert; assumption|].
        apply (nctx_rep_ext h); [|exact Hc]. intros x Hx.
        rewrite lookup_insert_ne by (intros <-; exact (Hac Hx)).
        apply Hsame; [intros Hx'; apply (Hdls x Hx'); set_solver +Hx|intros Hx'; apply (Hdrs x Hx'); set_solver +Hx|
                      intros ->; apply Hq; set_solver +Hx|intros ->; exact (Hbc Hx)].
      + unfold nrep_at. cbn [hpar hprev hnext hfs fst].
        apply nrep_insert; [intros Hx; apply Hdu in Hx as [Hx _]; exact (Hx Hain)|].
        apply (nrep_ext h1).
        { intros x Hx. destruct (Hdu x Hx) as (? & ? & ? & ? & ?). rewrite Ho3, Ho2 by assumption. reflexivity. }
        unfold h1, b. eapply nrep_relink'; [exact Hu|exact Hndu|]. reflexivity.
    - unfold a. eapply nrep_relink' with (h := h3); [|exact Hnds|reflexivity].
      apply (nrep_ext h); [|exact Hs]. intros x Hx. pose proof (Hdsc x Hx) as Hx'.
      apply Hsame; [set_solver +Hx'|set_solver +Hx'|set_solver +Hx'|intros ->; exact (Hbs Hx)].
    - intros x Hx Hxu. unfold t in Hx. rewrite raddrs_plug in Hx. cbn [nctx_addrs fst] in Hx.
      rewrite lookup_insert_ne by (intros <-; apply Hx; set_solver +Hain).
      apply Hsame; [set_solver +Hx|set_solver +Hx|set_solver +Hx|intros ->; exact (Hxu Hbin)].
  Qed.

  (** The loop that decrements the counts of the preceding siblings. *)
  Lemma n_find_prev_ok a par k : forall ls fuel h prev bl,
    nseg h par prev ls (Some a) (S k) -> NoDup (faddrs ls) -> a ∉ faddrs ls -> length ls < fuel ->
    exists h', n_find_prev fuel h (first_or ls (Some a)) (Some a) bl =
        Ok (match last_or None ls with Some x => BLNext (Some x) | None => bl end, h') /\
      nseg h' par prev ls (Some a) k /\ (forall x, x ∉ faddrs ls -> h' !! x = h !! x).
  Proof.
    induction ls as [|d ls IH]; intros fuel h prev bl Hs Hnd Ha Hf; (destruct fuel as [|fuel]; [cbn in Hf; lia|]); cbn [n_find_prev first_or].
    - rewrite ptr_eqb_true. exists h. auto.
    - cbn [nseg] in Hs. destruct Hs as [Hd Hl]. rewrite faddrs_cons in Hnd, Ha. apply NoDup_app in Hnd as (Hndd & Hdis & Hndl).
      pose proof (raddr_in d) as Hdin. pose proof (nrep_root _ _ _ _ _ _ Hd) as Hn.
      rewrite ptr_eqb_false by (intros [=E]; apply Ha; rewrite <- E; set_solver +Hdin).
      rewrite (deref_Some _ _ _ Hn). cbn [mbind res_bind nfsize nnext]. rewrite (update_Some _ _ _ _ Hn). cbn [mbind res_bind].
      rewrite Nat.add_succ_r, szt_pred.
      set (nd := nset_fsize _ _). set (h1 := <[raddr d := nd]> h).
      assert (Hl1 : nseg h1 par (Some (raddr d)) ls (Some a) (S k)) by (apply nseg_insert; [apply Hdis, Hdin|exact Hl]).
      cbn [length] in Hf. destruct (IH fuel h1 (Some (raddr d)) (BLNext (Some (raddr d))) Hl1 Hndl ltac:(set_solver +Ha) ltac:(lia)) as (h' & -> & Hs' & Ho).
      exists h'. split; [|split].
      + f_equal. f_equal. destruct (last_or_cases ls None) as [[-> ->]|(e & l' & -> & ->)]; [reflexivity|].
        cbn [last_or]. rewrite last_or_app. reflexivity.
      + cbn [nseg]. split; [|exact Hs']. apply (nrep_ext h1); [intros x Hx; apply Ho, Hdis, Hx|].
        unfold h1. eapply nrep_relink'; [exact Hd|exact Hndd|reflexivity].
      + intros x Hx. rewrite faddrs_cons in Hx. rewrite Ho by set_solver +Hx. unfold h1. apply lookup_insert_ne.
        intros <-. apply Hx. set_solver +Hdin.
  Qed.

  (** Removing a child that is neither the first nor the last one. *)
  Lemma n_replace_none F h ls q w rs c s :
    let t := plug ((ls, (q, w), rs) :: c) s in
    nrep h None None None (szt 0) t -> NoDup (raddrs t) -> ls <> [] -> rs <> [] -> length ls < F ->
    exists h', n_replace_with F h (Some (raddr s)) None = Ok h' /\
      nrep h' None None None (szt 0) (plug c (Rose (q, w) (ls ++ rs))) /\
      nrep h' None None None (szt 0) s /\
      (forall x, x ∉ raddrs t -> h' !! x = h !! x).
  Proof.
    intros t Hr Hnd Hlsne Hrsne HF.
    pose proof (NoDup_plug _ _ Hnd) as (Hnds & Hndc & Hdsc). cbn [nctx_addrs fst] in Hndc, Hdsc.
    apply NoDup_cons in Hndc as [Hq Hndc]. apply NoDup_app in Hndc as (Hndls & Hdls & Hndc).
    apply NoDup_app in Hndc as (Hndrs & Hdrs & Hndc).
    unfold t in Hr. apply nrep_plug in Hr as [Hc Hs]. cbn [nctx_rep] in Hc. destruct Hc as (HQ & Hls & Hrs & Hc).
    unfold nrep_at in Hs. cbn [hpar hprev hnext hfs fst] in Hs.
    set (a := raddr s) in *.
    pose proof (raddr_in s) as Hain. fold a in Hain.
    assert (Haq : a <> q /\ a ∉ faddrs ls /\ a ∉ faddrs rs /\ a ∉ nctx_addrs c).
    { pose proof (Hdsc a Hain) as Hx. set_solver +Hx. }
    destruct Haq as (Haq & Hals & Hars & Hac).
    pose proof (nrep_root _ _ _ _ _ _ Hs) as Ha. fold a in Ha.
    unfold n_replace_with, n_first. cbn [mbind res_bind]. rewrite (deref_Some _ _ _ Ha). cbn [mbind res_bind nparent].
    rewrite (deref_Some _ _ _ HQ). cbn [mbind res_bind nfirst].
    destruct (n_find_prev_ok a (Some q) (length rs) ls F h None BLNull Hls Hndls Hals HF) as (h1 & -> & Hls1 & Ho1).
    cbn [mbind res_bind].
    assert (Ha1 : h1 !! a = Some (NNodeR (snd (label s)) (Some q) (szt (length rs)) (last_or None ls) (first_or rs None)
                      (first_or (children s) None) (last_or None (children s)))) by (rewrite Ho1 by exact Hals; exact Ha).
    rewrite (deref_Some _ _ _ Ha1). cbn [mbind res_bind nnext].
    destruct (last_or_cases ls None) as [[-> _]|(d & ls' & -> & El)]; [congruence|]. rewrite El. cbn [write_back_link].
    destruct (nseg_snoc_dom _ _ _ _ _ _ _ Hls1) as [nd Hnd'].
    assert (Hdin : raddr d ∈ faddrs (ls' ++ [d])) by (apply faddrs_raddr; set_solver +).
    rewrite (update_Some _ _ _ _ Hnd'). cbn [mbind res_bind].
    pose proof (nseg_next _ _ _ _ _ _ (first_or rs None) _ _ Hls1 Hndls Hnd') as Hls2.
    set (h2 := <[raddr d := _]> h1) in *.
    assert (Ho2 : forall x, x ∉ faddrs (ls' ++ [d]) -> h2 !! x = h !! x).
    { intros x Hx. unfold h2. rewrite lookup_insert_ne by (intros <-; exact (Hx Hdin)). apply Ho1, Hx. }
    assert (Hqls : q ∉ faddrs (ls' ++ [d])) by (intros Hx; apply Hq; set_solver +Hx).
    assert (Ha2 : h2 !! a = Some (NNodeR (snd (label s)) (Some q) (szt (length rs)) (last_or None (ls' ++ [d])) (first_or rs None)
                      (first_or (children s) None) (last_or None (children s)))) by (rewrite Ho2 by exact Hals; exact Ha).
    assert (HQ2 := HQ). rewrite <- (Ho2 q Hqls) in HQ2.
    unfold n_is_last, n_last. rewrite (deref_Some _ _ _ Ha2). cbn [mbind res_bind nparent].
    rewrite (deref_Some _ _ _ HQ2). cbn [mbind res_bind nlast].
    destruct rs as [|e rs]; [congruence|].
    rewrite ptr_eqb_false.
    2:{ destruct (last_or_cases (e :: rs) (Some a)) as [[? _]|(e' & l' & E & ->)]; [discriminate|]. intros [=E'].
        apply Hars. rewrite <- E'. apply faddrs_raddr. rewrite E. set_solver +. }
    cbn [nnext nprev first_or].
    assert (Hrs2 : nseg h2 (Some q) (Some a) (e :: rs) None 0).
    { eapply nseg_ext; [|exact Hrs]. intros x Hx. apply Ho2. intros Hx'. apply (Hdls x Hx'). set_solver +Hx. }
    assert (Hein : raddr e ∈ faddrs (e :: rs)) by (apply faddrs_raddr; set_solver +).
    destruct (nseg_dom _ _ _ _ _ _ _ Hrs2 Hein) as [ne Hne].
    rewrite (update_Some _ _ _ _ Hne). cbn [mbind res_bind].
    pose proof (nseg_prev _ _ _ (last_or None (ls' ++ [d])) _ _ _ _ _ Hrs2 Hndrs Hne) as Hrs3.
    set (h3 := <[raddr e := _]> h2) in *.
    assert (Ho3 : forall x, x ∉ faddrs (ls' ++ [d]) -> x ∉ faddrs (e :: rs) -> h3 !! x = h !! x).
    { intros x Hx Hx'. unfold h3. rewrite lookup_insert_ne by (intros <-; exact (Hx' Hein)). apply Ho2, Hx. }
    assert (Hqrs : q ∉ faddrs (e :: rs)) by (intros Hx; apply Hq; set_solver +Hx).
    assert (Ha3 := Ha). rewrite <- (Ho3 a Hals Hars) in Ha3.
    rewrite (update_Some _ _ _ _ Ha3). cbn [mbind res_bind].
    do 3 (rewrite (update_Some _ _ _ _ (lookup_insert _ _ _)), insert_insert; cbn [mbind res_bind]).
    set (na := nset_next _ _). eexists. split; [reflexivity|]. split; [|split].
    - apply nrep_plug. cbn [raddr label fst]. split.
      + apply (nctx_rep_ext h); [|exact Hc]. intros x Hx. rewrite lookup_insert_ne by (intros <-; exact (Hac Hx)).
        apply Ho3; [intros Hx'; apply (Hdls x Hx'); set_solver +Hx|intros Hx'; apply (Hdrs x Hx'); exact Hx].
      + unfold nrep_at. rewrite nrep_unfold. rewrite lookup_insert_ne by congruence. rewrite (Ho3 q Hqls Hqrs), HQ.
        rewrite !first_or_app, !last_or_app. cbn [first_or last_or]. split; [reflexivity|].
        rewrite (nseg_app _ _ _ (ls' ++ [d]) (e :: rs)). cbn [first_or]. rewrite Nat.add_0_r. split.
        * apply nseg_insert; [exact Hals|]. unfold h3. apply nseg_insert; [|exact Hls2]. intros Hx. apply (Hdls _ Hx). set_solver +Hein.
        * apply nseg_insert; [exact Hars|]. exact Hrs3.
    - unfold a. eapply nrep_relink' with (h := h3); [|exact Hnds|reflexivity].
      apply (nrep_ext h); [|exact Hs]. intros x Hx. pose proof (Hdsc x Hx) as Hx'. apply Ho3; set_solver +Hx'.
    - intros x Hx. unfold t in Hx. rewrite raddrs_plug in Hx. cbn [nctx_addrs fst] in Hx.
      rewrite lookup_insert_ne by (intros <-; apply Hx; set_solver +Hain). apply Ho3; set_solver +Hx.
  Qed.

  (** Removing a first child dereferences null. *)
  Lemma n_replace_none_first F h q w rs c s :
    let t := plug (([], (q, w), rs) :: c) s in
    nrep h None None None (szt 0) t -> 0 < F ->
    n_replace_with F h (Some (raddr s)) None = Err NullDeref.
  Proof.
    intros t Hr HF. unfold t in Hr. apply nrep_plug in Hr as [Hc Hs]. cbn [nctx_rep] in Hc. destruct Hc as (HQ & _ & _ & _).
    unfold nrep_at in Hs. cbn [hpar hprev hnext hfs fst] in Hs. pose proof (nrep_root _ _ _ _ _ _ Hs) as Ha.
    unfold n_replace_with, n_first. cbn [mbind res_bind]. rewrite (deref_Some _ _ _ Ha). cbn [mbind res_bind nparent].
    rewrite (deref_Some _ _ _ HQ). cbn [mbind res_bind nfirst first_or]. destruct F as [|F]; [lia|].
    cbn [n_find_prev]. rewrite ptr_eqb_true. cbn [mbind res_bind]. rewrite (deref_Some _ _ _ Ha). reflexivity.
  Qed.

  (** *** prepend_child / append_child *)
  Lemma n_prepend_ok h c a v cs u :
    let t := plug c (Rose (a, v) cs) in
    nrep h None None None (szt 0) t -> NoDup (raddrs t) ->
    nrep h None None None (szt 0) u -> NoDup (raddrs u) -> (forall x, x ∈ raddrs u -> x ∉ raddrs t) ->
    exists h', n_prepend_child h (Some a) (Some (raddr u)) = Ok (Some (raddr u), h') /\
      nrep h' None None None (szt 0) (plug c (Rose (a, v) (u :: cs))) /\
      (forall x, x ∉ raddrs t -> x ∉ raddrs u -> h' !! x = h !! x).
  Proof.
    intros t Hr Hnd Hu Hndu Hdis. pose proof (NoDup_plug _ _ Hnd) as (Hnds & _ & Hdsc).
    assert (Hdu : forall x, x ∈ raddrs u -> x <> a /\ x ∉ faddrs cs /\ x ∉ nctx_addrs c).
    { intros x Hx. apply Hdis in Hx. unfold t in Hx. rewrite raddrs_plug, raddrs_rose in Hx. set_solver +Hx. }
    rewrite raddrs_rose in Hnds. apply NoDup_cons in Hnds as [Hacs Hndcs].
    unfold t in Hr. apply nrep_plug in Hr as [Hc Hs]. cbn [raddr label fst] in Hc.
    unfold nrep_at in Hs. rewrite nrep_unfold in Hs. destruct Hs as [Ha Hcs].
    set (b := raddr u) in *. pose proof (raddr_in u) as Hbin. fold b in Hbin.
    destruct (Hdu b Hbin) as (Hba & Hbcs & Hbc).
    pose proof (nrep_root _ _ _ _ _ _ Hu) as Hb. fold b in Hb.
    unfold n_prepend_child. rewrite (deref_Some _ _ _ Hb). cbn [mbind res_bind nparent nprev nnext is_null andb guard_res].
    rewrite (update_Some _ _ _ _ Hb). cbn [mbind res_bind].
    erewrite deref_Some by (rewrite lookup_insert_ne by congruence; exact Ha). cbn [mbind res_bind nfirst].
    rewrite (update_Some _ _ _ _ (lookup_insert _ _ _)), insert_insert. cbn [mbind res_bind].
    set (nb := nset_next _ _). set (h2 := <[b := nb]> h).
    assert (H3 : exists h3, (match first_or cs None with
          | Some _ => f ← deref h2 (first_or cs None);
              h' ← update h2 (Some b) (nset_fsize (wadd (nfsize f) 1)); update h' (first_or cs None) (nset_prev (Some b))
          | None => update h2 (Some a) (nset_last (Some b)) end) = Ok h3 /\
          nseg h3 (Some a) (Some b) cs None 0 /\
          h3 !! b = Some (NNodeR (snd (label u)) (Some a) (szt (length cs)) None (first_or cs None) (first_or (children u) None) (last_or None (children u))) /\
          h3 !! a = Some (NNodeR v (hpar c) (hfs c) (hprev c) (hnext c) (first_or cs None) (last_or (Some b) cs)) /\
          (forall x, x <> a -> x <> b -> x ∉ faddrs cs -> h3 !! x = h !! x)).
    { assert (Ha2 : h2 !! a = Some (NNodeR v (hpar c) (hfs c) (hprev c) (hnext c) (first_or cs None) (last_or None cs)))
        by (unfold h2; rewrite lookup_insert_ne by congruence; exact Ha).
      destruct cs as [|d cs]; cbn [first_or].
      - rewrite (update_Some _ _ _ _ Ha2). eexists. split; [reflexivity|]. split; [exact I|].
        split; [rewrite lookup_insert_ne by congruence; unfold h2; rewrite lookup_insert; reflexivity|].
        split; [rewrite lookup_insert; reflexivity|]. intros x Hxa Hxb _. unfold h2. rewrite !lookup_insert_ne by congruence. reflexivity.
      - assert (Hdin : raddr d ∈ faddrs (d :: cs)) by (apply faddrs_raddr; set_solver +).
        assert (Hbd : b <> raddr d) by (intros E; rewrite E in Hbcs; exact (Hbcs Hdin)).
        pose proof Hcs as Hcs0. cbn [nseg] in Hcs. destruct Hcs as [Hd _]. pose proof (nrep_root _ _ _ _ _ _ Hd) as Hnd'.
        erewrite deref_Some by (unfold h2; rewrite lookup_insert_ne by exact Hbd; exact Hnd').
        cbn [mbind res_bind nfsize]. unfold h2 at 1. rewrite (update_Some _ _ _ _ (lookup_insert _ _ _)), insert_insert. cbn [mbind res_bind].
        erewrite update_Some by (rewrite lookup_insert_ne by exact Hbd; exact Hnd').
        eexists. split; [reflexivity|]. split; [|split; [|split]].
        + eapply nseg_prev; [apply nseg_insert; [exact Hbcs|exact Hcs0]|exact Hndcs|]. rewrite lookup_insert_ne by exact Hbd. exact Hnd'.
        + rewrite lookup_insert_ne by congruence. rewrite lookup_insert. unfold nb. cbn. rewrite Nat.add_0_r, szt_succ. reflexivity.
        + rewrite lookup_insert_ne by (intros E; apply Hacs; rewrite <- E; exact Hdin). rewrite lookup_insert_ne by congruence. exact Ha.
        + intros x Hxa Hxb Hx. rewrite lookup_insert_ne by (intros <-; exact (Hx Hdin)). rewrite lookup_insert_ne by congruence. reflexivity. }
    destruct H3 as (h3 & -> & Hcs3 & Hb3 & Ha3 & Ho3). cbn [mbind res_bind].
    rewrite (update_Some _ _ _ _ Ha3). cbn [mbind res_bind]. eexists. split; [reflexivity|]. split.
    - apply nrep_plug. cbn [raddr label fst]. split.
      + apply (nctx_rep_ext h); [|exact Hc]. intros x Hx.
        assert (Hxs : x ∉ raddrs (Rose (a, v) cs)) by (intros Hx'; exact (Hdsc x Hx' Hx)). rewrite raddrs_rose in Hxs.
        rewrite lookup_insert_ne by set_solver +Hxs. apply Ho3; [set_solver +Hxs|intros ->; exact (Hbc Hx)|set_solver +Hxs].
      + unfold nrep_at. rewrite nrep_unfold, lookup_insert. cbn [nset_first nval nparent nfsize nprev nnext nlast first_or last_or].
        split; [reflexivity|]. cbn [nseg first_or]. rewrite Nat.add_0_r.
        assert (Hau : a ∉ raddrs u) by (intros Hx; apply Hdu in Hx as [Hx _]; congruence).
        split; [|apply nseg_insert; [exact Hacs|exact Hcs3]]. apply nrep_insert; [exact Hau|].
        assert (Hmid : nrep (<[b := NNodeR (snd (label u)) (Some a) (szt (length cs)) None (first_or cs None) (first_or (children u) None) (last_or None (children u))]> h) (Some a) None (first_or cs None) (szt (length cs)) u)
          by (eapply nrep_relink'; [exact Hu|exact Hndu|reflexivity]).
        eapply nrep_ext; [|exact Hmid]. intros x Hx. destruct (decide (x = b)) as [->|Hxb].
        * rewrite lookup_insert. exact Hb3.
        * rewrite lookup_insert_ne by congruence. destruct (Hdu x Hx) as (? & ? & ?). apply Ho3; assumption.
    - intros x Hx Hxu. unfold t in Hx. rewrite raddrs_plug, raddrs_rose in Hx.
      rewrite lookup_insert_ne by (intros <-; apply Hx; set_solver +).
      apply Ho3; [set_solver +Hx|intros ->; exact (Hxu Hbin)|set_solver +Hx].
  Qed.

  Lemma n_bump_ok par k : forall ls fuel h prev,
    ls <> [] -> nseg h par prev ls None k -> NoDup (faddrs ls) -> length ls <= fuel ->
    exists h', n_bump fuel h (first_or ls None) = Ok h' /\
      nseg h' par prev ls None (S k) /\ (forall x, x ∉ faddrs ls -> h' !! x = h !! x).
  Proof.
    induction ls as [|d ls IH]; intros fuel h prev Hne Hs Hnd Hf; [congruence|]. destruct fuel as [|fuel]; [cbn in Hf; lia|].
    cbn [n_bump first_or nseg] in *. destruct Hs as [Hd Hl]. rewrite faddrs_cons in Hnd. apply NoDup_app in Hnd as (Hndd & Hdis & Hndl).
    pose proof (raddr_in d) as Hdin. pose proof (nrep_root _ _ _ _ _ _ Hd) as Hn.
    rewrite (deref_Some _ _ _ Hn). cbn [mbind res_bind nfsize nnext]. rewrite (update_Some _ _ _ _ Hn). cbn [mbind res_bind].
    rewrite szt_succ. set (nd := nset_fsize _ _). set (h1 := <[raddr d := nd]> h).
    assert (Hl1 : nseg h1 par (Some (raddr d)) ls None k) by (apply nseg_insert; [apply Hdis, Hdin|exact Hl]).
    assert (Hd1 : nrep h1 par prev (first_or ls None) (szt (length ls + S k)) d).
    { unfold h1. eapply nrep_relink'; [exact Hd|exact Hndd|]. unfold nd. cbn. rewrite Nat.add_succ_r. reflexivity. }
    destruct ls as [|e ls].
    - exists h1. split; [reflexivity|]. split; [split; [exact Hd1|exact I]|]. intros x Hx. rewrite faddrs_cons in Hx. unfold h1. apply lookup_insert_ne.
      intros <-. apply Hx. set_solver +Hdin.
    - cbn [length] in Hf. destruct (IH fuel h1 (Some (raddr d)) ltac:(congruence) Hl1 Hndl ltac:(cbn; lia)) as (h' & Hb & Hs' & Ho).
      cbn [first_or] in Hb |- *. rewrite Hb. exists h'. split; [reflexivity|]. split.
      + split; [|exact Hs']. apply (nrep_ext h1); [intros x Hx; apply Ho, Hdis, Hx|exact Hd1].
      + intros x Hx. rewrite faddrs_cons in Hx. rewrite Ho by set_solver +Hx. unfold h1. apply lookup_insert_ne.
        intros <-. apply Hx. set_solver +Hdin.
  Qed.

  Lemma n_append_ok F h c a v cs u :
    let t := plug c (Rose (a, v) cs) in
    nrep h None None None (szt 0) t -> NoDup (raddrs t) ->
    nrep h None None None (szt 0) u -> NoDup (raddrs u) -> (forall x, x ∈ raddrs u -> x ∉ raddrs t) ->
    length cs <= F ->
    exists h', n_append_child F h (Some a) (Some (raddr u)) = Ok (Some (raddr u), h') /\
      nrep h' None None None (szt 0) (plug c (Rose (a, v) (cs ++ [u]))) /\
      (forall x, x ∉ raddrs t -> x ∉ raddrs u -> h' !! x = h !! x).
  Proof.
    intros t Hr Hnd Hu Hndu Hdis HF. pose proof (NoDup_plug _ _ Hnd) as (Hnds & _ & Hdsc).
    assert (Hdu : forall x, x ∈ raddrs u -> x <> a /\ x ∉ faddrs cs /\ x ∉ nctx_addrs c).
    { intros x Hx. apply Hdis in Hx. unfold t in Hx. rewrite raddrs_plug, raddrs_rose in Hx. set_solver +Hx. }
    rewrite raddrs_rose in Hnds. apply NoDup_cons in Hnds as [Hacs Hndcs].
    unfold t in Hr. apply nrep_plug in Hr as [Hc Hs]. cbn [raddr label fst] in Hc.
    unfold nrep_at in Hs. rewrite nrep_unfold in Hs. destruct Hs as [Ha Hcs].
    set (b := raddr u) in *. pose proof (raddr_in u) as Hbin. fold b in Hbin.
    destruct (Hdu b Hbin) as (Hba & Hbcs & Hbc).
    pose proof (nrep_root _ _ _ _ _ _ Hu) as Hb. fold b in Hb.
    unfold n_append_child. rewrite (deref_Some _ _ _ Hb). cbn [mbind res_bind nparent nprev nnext is_null andb guard_res].
    rewrite (deref_Some _ _ _ Ha). cbn [mbind res_bind nfirst].
    assert (H1 : exists h1, (match first_or cs None with
          | Some _ => n_bump F h (first_or cs None)
          | None => update h (Some a) (nset_first (Some b)) end) = Ok h1 /\
          nseg h1 (Some a) None cs None 1 /\ h1 !! b = h !! b /\
          h1 !! a = Some (NNodeR v (hpar c) (hfs c) (hprev c) (hnext c) (first_or cs (Some b)) (last_or None cs)) /\
          (forall x, x <> a -> x ∉ faddrs cs -> h1 !! x = h !! x)).
    { destruct cs as [|d cs].
      - cbn [first_or]. rewrite (update_Some _ _ _ _ Ha). eexists. split; [reflexivity|]. split; [exact I|].
        split; [rewrite lookup_insert_ne by congruence; reflexivity|]. split; [rewrite lookup_insert; reflexivity|].
        intros x Hx _. rewrite lookup_insert_ne by congruence. reflexivity.
      - destruct (n_bump_ok (Some a) 0 (d :: cs) F h None ltac:(congruence) Hcs Hndcs HF) as (h1 & Hbump & Hs1 & Ho1).
        exists h1. split; [exact Hbump|]. split; [exact Hs1|]. split; [apply Ho1, Hbcs|]. split; [rewrite Ho1 by exact Hacs; exact Ha|].
        intros x _ Hx. apply Ho1, Hx. }
    destruct H1 as (h1 & -> & Hcs1 & Hb1 & Ha1 & Ho1). cbn [mbind res_bind]. rewrite Hb in Hb1.
    rewrite (update_Some _ _ _ _ Hb1). cbn [mbind res_bind].
    set (nb := nset_parent _ _). set (h2 := <[b := nb]> h1).
    assert (Ha2 : h2 !! a = Some (NNodeR v (hpar c) (hfs c) (hprev c) (hnext c) (first_or cs (Some b)) (last_or None cs)))
      by (unfold h2; rewrite lookup_insert_ne by congruence; exact Ha1).
    rewrite (deref_Some _ _ _ Ha2). cbn [mbind res_bind nlast].
    assert (H3 : exists h3, (match last_or None cs with
          | Some _ => h' ← update h2 (last_or None cs) (nset_next (Some b)); update h' (Some b) (nset_prev (last_or None cs))
          | None => Ok h2 end) = Ok h3 /\
          nseg h3 (Some a) None cs (Some b) 1 /\
          h3 !! b = Some (NNodeR (snd (label u)) (Some a) (szt 0) (last_or None cs) None (first_or (children u) None) (last_or None (children u))) /\
          h3 !! a = h2 !! a /\
          (forall x, x <> a -> x <> b -> x ∉ faddrs cs -> h3 !! x = h !! x)).
    { destruct (last_or_cases cs None) as [[-> El]|(d & cs' & -> & El)]; rewrite El.
      - exists h2. split; [reflexivity|]. split; [exact I|]. split; [unfold h2; rewrite lookup_insert; reflexivity|]. split; [reflexivity|].
        intros x Hxa Hxb Hx. unfold h2. rewrite lookup_insert_ne by congruence. apply Ho1; assumption.
      - assert (Hdin : raddr d ∈ faddrs (cs' ++ [d])) by (apply faddrs_raddr; set_solver +).
        assert (Hbd : b <> raddr d) by (intros E; rewrite E in Hbcs; exact (Hbcs Hdin)).
        assert (Hcs2 : nseg h2 (Some a) None (cs' ++ [d]) None 1) by (apply nseg_insert; assumption).
        destruct (nseg_snoc_dom _ _ _ _ _ _ _ Hcs2) as [nd Hnd'].
        rewrite (update_Some _ _ _ _ Hnd'). cbn [mbind res_bind].
        erewrite update_Some by (rewrite lookup_insert_ne by congruence; unfold h2; apply lookup_insert).
        eexists. split; [reflexivity|]. split; [|split; [|split]].
        + apply nseg_insert; [exact Hbcs|]. eapply nseg_next; eassumption.
        + rewrite lookup_insert. reflexivity.
        + rewrite !lookup_insert_ne; [reflexivity| |congruence]. intros E. apply Hacs. rewrite <- E. exact Hdin.
        + intros x Hxa Hxb Hx. rewrite lookup_insert_ne by congruence. rewrite lookup_insert_ne by (intros <-; exact (Hx Hdin)).
          unfold h2. rewrite lookup_insert_ne by congruence. apply Ho1; assumption. }
    destruct H3 as (h3 & -> & Hcs3 & Hb3 & Ha3 & Ho3). cbn [mbind res_bind]. rewrite Ha2 in Ha3.
    rewrite (update_Some _ _ _ _ Ha3). cbn [mbind res_bind]. eexists. split; [reflexivity|]. split.
    - apply nrep_plug. cbn [raddr label fst]. split.
      + apply (nctx_rep_ext h); [|exact Hc]. intros x Hx.
        assert (Hxs : x ∉ raddrs (Rose (a, v) cs)) by (intros Hx'; exact (Hdsc x Hx' Hx)). rewrite raddrs_rose in Hxs.
        rewrite lookup_insert_ne by set_solver +Hxs. apply Ho3; [set_solver +Hxs|intros ->; exact (Hbc Hx)|set_solver +Hxs].
      + unfold nrep_at. rewrite nrep_unfold, lookup_insert, first_or_app, last_or_app.
        cbn [nset_last nval nparent nfsize nprev nnext nfirst first_or last_or].
        split; [reflexivity|]. rewrite nseg_app. cbn [nseg first_or length]. rewrite Nat.add_0_r.
        assert (Hau : a ∉ raddrs u) by (intros Hx; apply Hdu in Hx as [Hx _]; congruence).
        split; [apply nseg_insert; [exact Hacs|exact Hcs3]|]. split; [|exact I]. apply nrep_insert; [exact Hau|].
        assert (Hmid : nrep (<[b := NNodeR (snd (label u)) (Some a) (szt 0) (last_or None cs) None (first_or (children u) None) (last_or None (children u))]> h) (Some a) (last_or None cs) None (szt 0) u)
          by (eapply nrep_relink'; [exact Hu|exact Hndu|reflexivity]).
        eapply nrep_ext; [|exact Hmid]. intros x Hx. destruct (decide (x = b)) as [->|Hxb].
        * rewrite lookup_insert. exact Hb3.
        * rewrite lookup_insert_ne by congruence. destruct (Hdu x Hx) as (? & ? & ?). apply Ho3; assumption.
    - intros x Hx Hxu. unfold t in Hx. rewrite raddrs_plug, raddrs_rose in Hx.
      rewrite lookup_insert_ne by (intros <-; apply Hx; set_solver +).
      apply Ho3; [set_solver +Hx|intros ->; exact (Hxu Hbin)|set_solver +Hx].
  Qed.
End NaryEdit.
