(** NaryOps.v: building, copying and releasing n-ary nodes in the heap. *)
From Verif Require Import Base Spec StructNode LitFacts BinaryNode NaryNode Nav Policy Tree RoseFacts RowFacts
  NavFacts BinOrder Rep BinRep NaryRep.

Section NaryOps.
  Context {V : Type} `{EqDecision V}.
  Notation heap := (gmap addr (nnode V)).
  Notation tree := (rose (addr * V)).
  Implicit Types (t s u : tree) (cs ls rs : list tree).

  (** [h'] is [h] plus new siblings [l] under [par] after [prev], at addresses
      that were free; the only old node that changes is the parent, whose last
      child is now the last one of [l]. *)
  Definition nbuilt (h h' : heap) (par prev : ptr) (l : list tree) : Prop :=
    nseg h' par prev l None 0 /\ NoDup (faddrs l) /\
    (forall x, x ∈ faddrs l -> h !! x = None) /\
    (forall x, x ∉ faddrs l -> par <> Some x -> h' !! x = h !! x) /\
    (forall q n, par = Some q -> h !! q = Some n ->
       h' !! q = Some (match l with [] => n | _ => nset_last (last_or None l) n end)).

  Lemma nbuilt_nil h par prev : nbuilt h h par prev [].
  Proof.
    split; [exact I|]. split; [constructor|]. split; [intros x Hx; apply elem_of_nil in Hx as []|].
    split; [auto|]. intros q n _ Hq. exact Hq.
  Qed.
  Lemma nbuilt_old h h' par prev l x n :
    nbuilt h h' par prev l -> h !! x = Some n -> par <> Some x -> h' !! x = Some n.
  Proof.
    intros (_ & _ & Hnew & Hold & _) Hx Hp. rewrite Hold; [exact Hx| |exact Hp]. intros Hin.
    rewrite (Hnew _ Hin) in Hx. discriminate.
  Qed.
  Lemma nbuilt_parent_out h h' par prev l q : nbuilt h h' par prev l -> is_Some (h !! q) -> q ∉ faddrs l.
  Proof. intros (_ & _ & Hnew & _) [n Hn] Hin. rewrite (Hnew _ Hin) in Hn. discriminate. Qed.

  Lemma n_assemble h a v par prev fs h1 l :
    h !! a = None -> (forall q, par = Some q -> is_Some (h !! q)) -> fs = szt (length l) ->
    nbuilt (<[a := NNodeR v par fs prev None None None]> h) h1 par (Some a) l ->
    exists h1', update h1 (Some a) (nset_next (first_or l None)) = Ok h1' /\
      (forall x n, h !! x = Some n -> par <> Some x -> h1' !! x = Some n) /\
      is_Some (h1' !! a) /\
    forall h2 cs, nbuilt h1' h2 (Some a) None cs ->
    exists h2' h3, update h2 (Some a) (nset_first (first_or cs None)) = Ok h2' /\
      n_manage_parent_last_child h2' a = Ok h3 /\ nbuilt h h3 par prev (Rose (a, v) cs :: l).
  Proof.
    intros Hfree Hpar Hfs Hb. set (h0 := <[a := NNodeR v par fs prev None None None]> h) in *.
    assert (Hpa : par <> Some a). { intros ->. destruct (Hpar a eq_refl) as [n Hn]. congruence. }
    assert (Hal : a ∉ faddrs l). { eapply nbuilt_parent_out; [exact Hb|]. unfold h0. rewrite lookup_insert. eauto. }
    pose proof Hb as (Hl & Hndl & Hnewl & Holdl & Hparl).
    assert (Ha1 : h1 !! a = Some (NNodeR v par fs prev None None None)).
    { rewrite Holdl by assumption. apply lookup_insert. }
    rewrite (update_Some _ _ _ _ Ha1). eexists. split; [reflexivity|].
    cbn [nset_next nval nparent nfsize nprev nfirst nlast]. set (nx := first_or l None) in *.
    set (h1' := <[a := NNodeR v par fs prev nx None None]> h1).
    split.
    { intros x n Hx Hxp. unfold h1'. rewrite lookup_insert_ne by congruence. eapply nbuilt_old; [exact Hb| |exact Hxp].
      unfold h0. rewrite lookup_insert_ne by congruence. exact Hx. }
    split; [unfold h1'; rewrite lookup_insert; eauto|].
    intros h2 cs Hb2. pose proof Hb2 as (Hcs & Hndc & Hnewc & Holdc & Hparc).
    assert (Hacs : a ∉ faddrs cs). { eapply nbuilt_parent_out; [exact Hb2|]. unfold h1'. rewrite lookup_insert. eauto. }
    assert (Ha2 : h2 !! a = Some (NNodeR v par fs prev nx None (last_or None cs))).
    { rewrite (Hparc a _ eq_refl (lookup_insert _ _ _)). destruct cs; reflexivity. }
    rewrite (update_Some _ _ _ _ Ha2). cbn [nset_first nval nparent nfsize nprev nnext nlast].
    set (nd := NNodeR v par fs prev nx (first_or cs None) (last_or None cs)).
    set (h2' := <[a := nd]> h2).
    (* the heap after manage_parent_last_child *)
    assert (Hold2 : forall x, x <> a -> x ∉ faddrs cs -> h2' !! x = h1 !! x).
    { intros x Hxa Hxc. unfold h2'. rewrite lookup_insert_ne by congruence. rewrite Holdc by congruence.
      unfold h1'. apply lookup_insert_ne. congruence. }
    assert (Hdl : forall x, x ∈ faddrs l -> x ∉ faddrs cs).
    { intros x Hx Hxc. apply Hnewc in Hxc. unfold h1' in Hxc. rewrite lookup_insert_ne in Hxc by congruence.
      destruct (nseg_dom _ _ _ _ _ _ _ Hl Hx) as [n Hn]. congruence. }
    assert (Hman : exists h3, n_manage_parent_last_child h2' a = Ok h3 /\ h3 !! a = Some nd /\
              (forall x, x <> a -> par <> Some x -> h3 !! x = h2' !! x) /\
              (forall q n, par = Some q -> h !! q = Some n -> h3 !! q = Some (nset_last (last_or (Some a) l) n))).
    { unfold n_manage_parent_last_child. rewrite (deref_Some _ a nd) by apply lookup_insert.
      cbn [mbind res_bind nparent nnext nfirst nd].
      assert (H3 : exists h3, (match par with
                | Some q => match nx with Some _ => Ok h2' | None => update h2' (Some q) (nset_last (Some a)) end
                | None => Ok h2' end) = Ok h3 /\ h3 !! a = Some nd /\
              (forall x, x <> a -> par <> Some x -> h3 !! x = h2' !! x) /\
              (forall q n, par = Some q -> h !! q = Some n -> h3 !! q = Some (nset_last (last_or (Some a) l) n))).
      { destruct par as [q|].
        2:{ exists h2'. split; [reflexivity|]. split; [apply lookup_insert|]. split; [auto|discriminate]. }
        destruct (Hpar q eq_refl) as [n Hn].
        assert (Hqa : q <> a) by congruence.
        assert (Hqc : q ∉ faddrs cs).
        { intros Hx. apply Hnewc in Hx. unfold h1' in Hx. rewrite lookup_insert_ne in Hx by congruence.
          assert (Hq0 : h0 !! q = Some n) by (unfold h0; rewrite lookup_insert_ne by congruence; exact Hn).
          rewrite (Hparl q n eq_refl Hq0) in Hx. discriminate. }
        assert (Hq0 : h0 !! q = Some n) by (unfold h0; rewrite lookup_insert_ne by congruence; exact Hn).
        pose proof (Hparl q n eq_refl Hq0) as Hq1.
        destruct l as [|d l].
        - subst nx. cbn [first_or last_or].
          assert (Hq2 : h2' !! q = Some n) by (rewrite Hold2 by assumption; exact Hq1).
          rewrite (update_Some _ _ _ _ Hq2). eexists. split; [reflexivity|].
          split; [rewrite lookup_insert_ne by congruence; apply lookup_insert|].
          split; [intros x Hxa Hxq; apply lookup_insert_ne; congruence|].
          intros q' n' [=<-] Hn'. rewrite lookup_insert. congruence.
        - subst nx. cbn [first_or last_or]. exists h2'. split; [reflexivity|]. split; [apply lookup_insert|].
          split; [auto|]. intros q' n' [=<-] Hn'. rewrite Hold2 by assumption. rewrite Hq1.
          replace n' with n by congruence. reflexivity. }
      destruct H3 as (h3 & H3 & Ha3 & Ho3 & Hp3). 
      match goal with |- context [?m ≫= _] => 
        replace m with (Ok h3) by (rewrite <- H3; destruct par; reflexivity) end.
      cbn [mbind res_bind]. destruct cs as [|c cs]; cbn [first_or].
      - rewrite (update_Some _ _ _ _ Ha3). eexists. split; [reflexivity|].
        assert (Hsame : <[a := nset_last None nd]> h3 = h3) by (apply insert_id; exact Ha3).
        rewrite Hsame. auto.
      - exists h3. auto. }
    destruct Hman as (h3 & Hman & Ha3 & Ho3 & Hp3).
    exists h2', h3. split; [reflexivity|]. split; [exact Hman|].
    assert (Hparnew : forall x, par = Some x -> x ∉ faddrs cs /\ x ∉ faddrs l /\ x <> a).
    { intros x Hx. destruct (Hpar x Hx) as [n Hn]. assert (Hxa : x <> a) by congruence.
      assert (Hx0 : h0 !! x = Some n) by (unfold h0; rewrite lookup_insert_ne by congruence; exact Hn).
      split; [|split; [eapply nbuilt_parent_out; [exact Hb|]; eauto|exact Hxa]].
      intros Hin. apply Hnewc in Hin. unfold h1' in Hin. rewrite lookup_insert_ne in Hin by congruence.
      pose proof (Hparl x n Hx Hx0) as Hx1. rewrite Hx1 in Hin. discriminate. }
    split; [|split; [|split; [|split]]].
    - cbn [nseg]. rewrite nrep_unfold. split; [split|].
      + rewrite Ha3. unfold nd. rewrite Nat.add_0_r, <- Hfs. reflexivity.
      + eapply nseg_ext; [|exact Hcs]. intros x Hx.
        assert (Hxa : x <> a) by (intros ->; auto).
        rewrite Ho3; [unfold h2'; apply lookup_insert_ne; congruence|exact Hxa|].
        intros Hxp. apply Hparnew in Hxp. tauto.
      + cbn [raddr label fst]. eapply nseg_ext; [|exact Hl]. intros x Hx.
        assert (Hxa : x <> a) by (intros ->; auto).
        rewrite Ho3; [apply Hold2; [exact Hxa|exact (Hdl x Hx)]|exact Hxa|].
        intros Hxp. apply Hparnew in Hxp. tauto.
    - rewrite faddrs_cons, raddrs_rose. cbn [app]. apply NoDup_cons. split; [set_solver +Hacs Hal|].
      apply NoDup_app. split; [exact Hndc|]. split; [|exact Hndl]. intros x Hx Hx'. exact (Hdl x Hx' Hx).
    - intros x. rewrite faddrs_cons, raddrs_rose. cbn [app]. rewrite elem_of_cons, elem_of_app. intros [->|[Hx|Hx]].
      + exact Hfree.
      + assert (Hxa : x <> a) by (intros ->; auto).
        pose proof (Hnewc x Hx) as Hn. unfold h1' in Hn. rewrite lookup_insert_ne in Hn by congruence.
        rewrite Holdl in Hn; [unfold h0 in Hn; rewrite lookup_insert_ne in Hn by congruence; exact Hn| |].
        * intros Hxl. exact (Hdl x Hxl Hx).
        * intros Hxp. apply Hparnew in Hxp. tauto.
      + assert (Hxa : x <> a) by (intros ->; auto).
        pose proof (Hnewl x Hx) as Hn. unfold h0 in Hn. rewrite lookup_insert_ne in Hn by congruence. exact Hn.
    - intros x. rewrite faddrs_cons, raddrs_rose. cbn [app]. rewrite not_elem_of_cons, not_elem_of_app. intros (Hxa & Hxc & Hxl) Hxp.
      rewrite Ho3 by assumption. rewrite Hold2 by assumption. rewrite Holdl by assumption.
      unfold h0. apply lookup_insert_ne. congruence.
    - intros q n Hq Hn. cbn [last_or raddr label fst]. apply Hp3; assumption.
  Qed.

  Lemma nrep_grow (h h' : heap) par prev next fs t : (forall x n, x ∈ raddrs t -> h !! x = Some n -> h' !! x = Some n) ->
    nrep h par prev next fs t -> nrep h' par prev next fs t.
  Proof.
    intros Hh Hr. eapply nrep_ext; [|exact Hr]. intros a Ha.
    destruct (nrep_dom _ _ _ _ _ _ _ Hr Ha) as (n & Hn). rewrite Hn. apply Hh; assumption.
  Qed.
  Lemma nseg_grow (h h' : heap) par prev l next k : (forall x n, x ∈ faddrs l -> h !! x = Some n -> h' !! x = Some n) ->
    nseg h par prev l next k -> nseg h' par prev l next k.
  Proof.
    intros Hh Hr. eapply nseg_ext; [|exact Hr]. intros a Ha.
    destruct (nseg_dom _ _ _ _ _ _ _ Hr Ha) as (n & Hn). rewrite Hn. apply Hh; assumption.
  Qed.
  Lemma first_or_map (l l' : list tree) : map (rose_map snd) l' = map (rose_map snd) l -> l = [] <-> l' = [].
  Proof. destruct l, l'; cbn; split; congruence. Qed.

  (** *** Copy: a node, its subtree, its following siblings and theirs. *)
  Definition fsize (l : list tree) : nat := list_sum (map rsize l).
  Lemma n_copy_from_ok al : forall fuel h c l spar sprev par prev,
    nseg h spar sprev (c :: l) None 0 -> fsize (c :: l) <= fuel ->
    (forall q, par = Some q -> is_Some (h !! q) /\ q ∉ faddrs (c :: l)) ->
    exists a' h' l', n_copy_from fuel al h (Some (raddr c)) par prev = Ok (a', h') /\
      first_or l' None = Some a' /\ map (rose_map snd) l' = map (rose_map snd) (c :: l) /\ nbuilt h h' par prev l'.
  Proof.
    induction fuel as [|fuel IH]; intros h c l spar sprev par prev Hs Hf Hpar.
    { cbn in Hf. pose proof (rsize_pos c). lia. }
    destruct c as [[a v] cs]. cbn [nseg] in Hs. destruct Hs as [Hc Hl]. rewrite nrep_unfold in Hc. destruct Hc as [Ha Hcs].
    rewrite Nat.add_0_r in Ha. cbn [raddr label fst] in *.
    rewrite faddrs_cons, raddrs_rose in Hpar.
    cbn [fsize map list_sum rsize foldr] in Hf. fold (list_sum (map rsize l)) in Hf. 
    change (list_sum (map rsize cs)) with (fsize cs) in Hf. change (list_sum (map rsize l)) with (fsize l) in Hf.
    cbn [n_copy_from]. rewrite (deref_Some _ _ _ Ha). cbn [mbind res_bind nval nfsize nnext nfirst].
    unfold n_alloc. set (a' := new_addr al h). pose proof (new_addr_fresh al h) as Hfree. fold a' in Hfree.
    set (h0 := <[a' := NNodeR v par (szt (length l)) prev None None None]> h).
    assert (Hg0 : forall x n, h !! x = Some n -> h0 !! x = Some n).
    { intros x n Hx. unfold h0. rewrite lookup_insert_ne by congruence. exact Hx. }
    assert (HL : exists h1 l', (match first_or l None with
                      | None => Ok (None, h0)
                      | Some _ => '(x, h') ← n_copy_from fuel al h0 (first_or l None) par (Some a'); Ok (Some x, h')
                      end) = Ok (first_or l' None, h1) /\ map (rose_map snd) l' = map (rose_map snd) l /\
                     nbuilt h0 h1 par (Some a') l').
    { destruct l as [|d l].
      - exists h0, []. split; [reflexivity|]. split; [reflexivity|apply nbuilt_nil].
      - cbn [first_or]. destruct (IH h0 d l spar (Some a) par (Some a')) as (x & h1 & l' & -> & Hx & Hm & Hb).
        + eapply nseg_grow; [|exact Hl]. auto.
        + lia.
        + intros q Hq. destruct (Hpar q Hq) as [[n Hn] Hqn]. split; [eauto|set_solver +Hqn].
        + exists h1, l'. cbn. rewrite Hx. auto. }
    destruct HL as (h1 & l' & -> & Hml & Hbl). cbn [mbind res_bind].
    assert (Hlen : length l' = length l) by (rewrite <- (map_length (rose_map snd) l'), Hml, map_length; reflexivity).
    destruct (n_assemble h a' v par prev (szt (length l)) h1 l' Hfree) as (h1' & -> & Hg1 & Ha1 & Hrest).
    { intros q Hq. apply (Hpar q Hq). }
    { rewrite Hlen. reflexivity. }
    { exact Hbl. }
    cbn [mbind res_bind].
    assert (HC : exists h2 cs', (match first_or cs None with
                      | None => Ok (None, h1')
                      | Some _ => '(x, h') ← n_copy_from fuel al h1' (first_or cs None) (Some a') None; Ok (Some x, h')
                      end) = Ok (first_or cs' None, h2) /\ map (rose_map snd) cs' = map (rose_map snd) cs /\
                     nbuilt h1' h2 (Some a') None cs').
    { destruct cs as [|d cs].
      - exists h1', []. split; [reflexivity|]. split; [reflexivity|apply nbuilt_nil].
      - cbn [first_or]. destruct (IH h1' d cs (Some a) None (Some a') None) as (x & h2 & cs' & -> & Hx & Hm & Hb).
        + eapply nseg_grow; [|exact Hcs]. intros x n Hx Hn. apply Hg1; [exact Hn|].
          intros Hxp. destruct (Hpar x Hxp) as [_ Hq]. set_solver +Hx Hq.
        + lia.
        + intros q [=<-]. split; [exact Ha1|]. intros Hx.
          destruct (nseg_dom _ _ _ _ _ _ _ Hcs Hx) as [n Hn]. congruence.
        + exists h2, cs'. cbn. rewrite Hx. auto. }
    destruct HC as (h2 & cs' & -> & Hmc & Hbc). cbn [mbind res_bind].
    destruct (Hrest h2 cs' Hbc) as (h2' & h3 & -> & Hat & Hbt). cbn [mbind res_bind]. rewrite Hat. cbn [mbind res_bind].
    exists a', h3, (Rose (a', v) cs' :: l'). split; [reflexivity|]. split; [reflexivity|]. split; [|exact Hbt].
    cbn [map rose_map snd]. rewrite Hmc, Hml. reflexivity.
  Qed.

  (** A whole tree built at fresh addresses. *)
  Definition nbuilt_tree (h h' : heap) (t : tree) : Prop :=
    nrep h' None None None (szt 0) t /\ NoDup (raddrs t) /\
    (forall x, x ∈ raddrs t -> h !! x = None) /\
    (forall x, x ∉ raddrs t -> h' !! x = h !! x).
  Lemma nbuilt_single h h' t : nbuilt h h' None None [t] -> nbuilt_tree h h' t.
  Proof.
    intros (Hs & Hnd & Hnew & Hold & _). cbn in Hs, Hnd, Hnew, Hold. rewrite app_nil_r in *.
    destruct Hs as [Hs _]. split; [exact Hs|]. split; [exact Hnd|]. split; [exact Hnew|].
    intros x Hx. apply Hold; [exact Hx|discriminate].
  Qed.
  (** The root's next sibling must be null; its parent and previous sibling do
      not matter. *)
  Lemma n_copy_ok al t fuel h par prev fs :
    nrep h par prev None fs t -> fs = szt 0 -> rsize t <= fuel ->
    exists a' h' t', n_copy fuel al h (Some (raddr t)) = Ok (a', h') /\ raddr t' = a' /\
      rose_map snd t' = rose_map snd t /\ nbuilt_tree h h' t'.
  Proof.
    intros Hr -> Hf. unfold n_copy.
    destruct (n_copy_from_ok al fuel h t [] par prev None None) as (a' & h' & l' & Hc & Ha & Hm & Hb).
    - cbn. auto.
    - cbn. lia.
    - discriminate.
    - destruct l' as [|t' l']; [discriminate|]. cbn in Ha, Hm. injection Ha as <-.
      injection Hm as Hm Hnil. destruct l'; [|discriminate].
      exists (raddr t'), h', t'. split; [exact Hc|]. split; [reflexivity|]. split; [exact Hm|].
      apply nbuilt_single, Hb.
  Qed.

  (** A single new node. *)
  Lemma n_from_value_ok al h v :
    exists a h', n_from_value al h v = Ok (a, h') /\ nbuilt_tree h h' (Rose (a, v) []).
  Proof.
    unfold n_from_value, n_alloc, n_manage_parent_last_child. set (a := new_addr al h). pose proof (new_addr_fresh al h) as Hfree.
    fold a in Hfree. rewrite (deref_Some _ a _ (lookup_insert _ _ _)). cbn [mbind res_bind nparent nnext nfirst].
    rewrite (update_Some _ a _ _ (lookup_insert _ _ _)). cbn. rewrite insert_insert.
    eexists a, _. split; [reflexivity|]. split; [|split; [|split]].
    - cbn. rewrite lookup_insert. auto.
    - cbn. apply NoDup_singleton.
    - cbn. intros x Hx. apply elem_of_list_singleton in Hx as ->. exact Hfree.
    - cbn. intros x Hx. apply lookup_insert_ne. intros ->. apply Hx. set_solver +.
  Qed.

  (** *** From a literal without [n()] *)
  Lemma n_from_struct_from_ok al (s : snode V) : forall (l : lit V) (ls : list (lit V)) h par prev,
    reads s (l :: ls) -> Forall no_empty (l :: ls) ->
    (forall q, par = Some q -> is_Some (h !! q)) ->
    exists a' h' l', n_from_struct_from al h s par prev = Ok (a', h') /\
      first_or l' None = Some a' /\ map (rose_map snd) l' = flat_map lit_rose (l :: ls) /\ nbuilt h h' par prev l'.
  Proof.
    induction s as [|v lv i fc IHf ns IHn]; intros l ls h par prev Hr Hne Hpar; [destruct Hr|].
    inversion Hne as [|? ? Hl Hls]; subst.
    destruct v as [v|], l as [|v' cs]; [destruct Hr| |destruct Hl|destruct Hr].
    pose proof (s_following_ok _ _ _ Hr) as Hfol. cbn [reads] in Hr. destruct Hr as (-> & Hf & Hn).
    apply no_empty_cons in Hl.
    cbn [n_from_struct_from]. rewrite Hfol. fold (szt (length ls)). clear Hfol.
    unfold n_alloc. set (a' := new_addr al h). pose proof (new_addr_fresh al h) as Hfree. fold a' in Hfree.
    set (h0 := <[a' := NNodeR v' par (szt (length ls)) prev None None None]> h).
    assert (HL : exists h1 l', (match ns with
                      | SNil => Ok (None, h0)
                      | _ => '(x, h') ← n_from_struct_from al h0 ns par (Some a'); Ok (Some x, h')
                      end) = Ok (first_or l' None, h1) /\ map (rose_map snd) l' = flat_map lit_rose ls /\
                     nbuilt h0 h1 par (Some a') l').
    { destruct ls as [|d ls].
      - destruct ns as [|[?|] ? ? ? ?]; [|destruct Hn|destruct Hn]. exists h0, []. split; [reflexivity|].
        split; [reflexivity|apply nbuilt_nil].
      - destruct ns as [|nv nl ni nfc nns]; [destruct Hn|].
        destruct (IHn d ls h0 par (Some a') Hn Hls) as (x & h1 & l' & -> & Hx & Hm & Hb).
        + intros q Hq. destruct (Hpar q Hq) as [n Hqn]. exists n. unfold h0. rewrite lookup_insert_ne by congruence. exact Hqn.
        + exists h1, l'. cbn [mbind res_bind]. rewrite Hx. auto. }
    destruct HL as (h1 & l' & -> & Hml & Hbl). cbn [mbind res_bind].
    assert (Hlen : length l' = length ls).
    { rewrite <- (map_length (rose_map snd) l'), Hml. clear -Hls. induction Hls as [|c cs Hc _ IH]; [reflexivity|].
      destruct c as [|cv ccs]; [destruct Hc|]. cbn. rewrite IH. reflexivity. }
    destruct (n_assemble h a' v' par prev (szt (length ls)) h1 l' Hfree Hpar) as (h1' & -> & Hg1 & Ha1 & Hrest).
    { rewrite Hlen. reflexivity. }
    { exact Hbl. }
    cbn [mbind res_bind].
    assert (HC : exists h2 cs', (match fc with
                      | SNil => Ok (None, h1')
                      | _ => '(x, h') ← n_from_struct_from al h1' fc (Some a') None; Ok (Some x, h')
                      end) = Ok (first_or cs' None, h2) /\ map (rose_map snd) cs' = flat_map lit_rose cs /\
                     nbuilt h1' h2 (Some a') None cs').
    { destruct cs as [|d cs].
      - destruct fc as [|[?|] ? ? ? ?]; [|destruct Hf|destruct Hf]. exists h1', []. split; [reflexivity|].
        split; [reflexivity|apply nbuilt_nil].
      - destruct fc as [|fv fl fi ffc fns]; [destruct Hf|].
        destruct (IHf d cs h1' (Some a') None Hf Hl) as (x & h2 & cs' & -> & Hx & Hm & Hb).
        + intros q [=<-]. exact Ha1.
        + exists h2, cs'. cbn [mbind res_bind]. rewrite Hx. auto. }
    destruct HC as (h2 & cs' & -> & Hmc & Hbc). cbn [mbind res_bind].
    destruct (Hrest h2 cs' Hbc) as (h2' & h3 & -> & Hat & Hbt). cbn [mbind res_bind]. rewrite Hat. cbn [mbind res_bind].
    exists a', h3, (Rose (a', v') cs' :: l'). split; [reflexivity|]. split; [reflexivity|]. split; [|exact Hbt].
    cbn [map rose_map snd flat_map lit_rose app]. rewrite Hmc, Hml. reflexivity.
  Qed.
  Lemma n_from_struct_ok al (v : V) (cs : list (lit V)) (h : heap) : no_empty (LNode v cs) ->
    exists a h' t', n_from_struct al h (eval_lit (LNode v cs)) = Ok (a, h') /\ raddr t' = a /\
      [rose_map snd t'] = lit_rose (LNode v cs) /\ nbuilt_tree h h' t'.
  Proof.
    intros Hne. destruct (n_from_struct_from_ok al (eval_lit (LNode v cs)) (LNode v cs) [] h None None) as (a & h' & l' & Hc & Ha & Hm & Hb).
    - apply reads_eval.
    - constructor; [exact Hne|constructor].
    - discriminate.
    - destruct l' as [|t' l']; [discriminate|]. cbn [first_or] in Ha. injection Ha as <-.
      cbn [flat_map app] in Hm. rewrite app_nil_r in Hm. pose proof Hm as Hm'. cbn in Hm'.
      injection Hm' as _ Hnil. destruct l'; [|discriminate].
      exists (raddr t'), h', t'. split; [exact Hc|]. split; [reflexivity|]. split; [exact Hm|].
      apply nbuilt_single, Hb.
  Qed.

  (** *** From a binary tree *)
  (** The binary heap answers like the ordered forest [l]. *)
  Fixpoint answers (bh : gmap addr (bnode V)) (fuel : nat) (l : list tree) : Prop :=
    match fuel with
    | 0 => l = []
    | S fuel =>
        match l with
        | [] => True
        | Rose (a, v) cs :: l' =>
            b_value bh (Some a) = Ok v /\ b_following_siblings bh (Some a) = Ok (szt (length l')) /\
            b_children bh (Some a) = Ok (N.of_nat (length cs)) /\
            b_next bh (Some a) = Ok (first_or l' None) /\ b_first bh (Some a) = Ok (first_or cs None) /\
            answers bh fuel cs /\ answers bh fuel l'
        end
    end.
  Lemma n_from_binary_from_ok al bh : forall fuel h c l par prev,
    answers bh fuel (c :: l) ->
    (forall q, par = Some q -> is_Some (h !! q)) ->
    exists a' h' l', n_from_binary_from fuel al bh h (Some (raddr c)) par prev = Ok (a', h') /\
      first_or l' None = Some a' /\ map (rose_map snd) l' = map (rose_map snd) (c :: l) /\ nbuilt h h' par prev l'.
  Proof.
    induction fuel as [|fuel IH]; intros h c l par prev Hs Hpar; [discriminate|].
    destruct c as [[a v] cs]. cbn [answers] in Hs. destruct Hs as (Hv & Hfol & _ & Hnx & Hfc & Hcs & Hl).
    cbn [raddr label fst].
    cbn [n_from_binary_from]. rewrite Hv. cbn [mbind res_bind]. rewrite Hfol. cbn [mbind res_bind].
    unfold n_alloc. set (a' := new_addr al h). pose proof (new_addr_fresh al h) as Hfree. fold a' in Hfree.
    set (h0 := <[a' := NNodeR v par (szt (length l)) prev None None None]> h).
    rewrite Hnx. cbn [mbind res_bind].
    assert (HL : exists h1 l', (match first_or l None with
                      | None => Ok (None, h0)
                      | Some _ => '(x, h') ← n_from_binary_from fuel al bh h0 (first_or l None) par (Some a'); Ok (Some x, h')
                      end) = Ok (first_or l' None, h1) /\ map (rose_map snd) l' = map (rose_map snd) l /\
                     nbuilt h0 h1 par (Some a') l').
    { destruct l as [|d l].
      - exists h0, []. split; [reflexivity|]. split; [reflexivity|apply nbuilt_nil].
      - cbn [first_or]. destruct (IH h0 d l par (Some a') Hl) as (x & h1 & l' & -> & Hx & Hm & Hb).
        + intros q Hq. destruct (Hpar q Hq) as [n Hqn]. exists n. unfold h0. rewrite lookup_insert_ne by congruence. exact Hqn.
        + exists h1, l'. cbn. rewrite Hx. auto. }
    destruct HL as (h1 & l' & -> & Hml & Hbl). cbn [mbind res_bind].
    assert (Hlen : length l' = length l) by (rewrite <- (map_length (rose_map snd) l'), Hml, map_length; reflexivity).
    destruct (n_assemble h a' v par prev (szt (length l)) h1 l' Hfree Hpar) as (h1' & -> & Hg1 & Ha1 & Hrest).
    { rewrite Hlen. reflexivity. }
    { exact Hbl. }
    cbn [mbind res_bind]. rewrite Hfc. cbn [mbind res_bind].
    assert (HC : exists h2 cs', (match first_or cs None with
                      | None => Ok (None, h1')
                      | Some _ => '(x, h') ← n_from_binary_from fuel al bh h1' (first_or cs None) (Some a') None; Ok (Some x, h')
                      end) = Ok (first_or cs' None, h2) /\ map (rose_map snd) cs' = map (rose_map snd) cs /\
                     nbuilt h1' h2 (Some a') None cs').
    { destruct cs as [|d cs].
      - exists h1', []. split; [reflexivity|]. split; [reflexivity|apply nbuilt_nil].
      - cbn [first_or]. destruct (IH h1' d cs (Some a') None Hcs) as (x & h2 & cs' & -> & Hx & Hm & Hb).
        + intros q [=<-]. exact Ha1.
        + exists h2, cs'. cbn. rewrite Hx. auto. }
    destruct HC as (h2 & cs' & -> & Hmc & Hbc). cbn [mbind res_bind].
    destruct (Hrest h2 cs' Hbc) as (h2' & h3 & -> & Hat & Hbt). cbn [mbind res_bind]. rewrite Hat. cbn [mbind res_bind].
    exists a', h3, (Rose (a', v) cs' :: l'). split; [reflexivity|]. split; [reflexivity|]. split; [|exact Hbt].
    cbn [map rose_map snd]. rewrite Hmc, Hml. reflexivity.
  Qed.
End NaryOps.
