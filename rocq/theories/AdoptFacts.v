(** AdoptFacts.v: proofs about Adopt.v. *)
From Verif Require Import Base Spec StructNode BinaryNode NaryNode Nav Policy Tree User Rep EditSpec RoseFacts NavFacts World BinRep BinOps NaryRep NaryOps NaryOps2 Kinds
  TreeSpec TreeOps TreeOps2 TreeOps3 TreeOps4 TreeFacts History MatchWalk Adopt.

(** *** The move constructors *)
Section BinMove.
  Context {V : Type}.
  Notation heap := (gmap addr (bnode V)).
  Lemma give_parent (h : heap) par b (t : bin (addr * V)) : brep h par t -> NoDup (baddrs t) ->
    exists h', (if is_null (baddr t) then Ok h else update h (baddr t) (bset_parent (Some b))) = Ok h' /\ brep h' (Some b) t /\
      forall x, x ∉ baddrs t -> h' !! x = h !! x.
  Proof.
    intros Hr Hnd. destruct (baddr t) as [a|] eqn:Ea.
    - destruct (brep_dom _ _ _ a Hr (baddr_in _ _ Ea)) as (n & Hn). cbn [is_null]. rewrite (update_Some _ _ _ _ Hn). eexists. split; [reflexivity|].
      split; [eapply brep_set_parent; eassumption|]. intros x Hx. rewrite lookup_insert_ne; [reflexivity|]. intros ->. apply Hx, baddr_in, Ea.
    - exists h. split; [reflexivity|]. split; [|auto]. destruct t as [|[? ?] ? ?]; [exact I|discriminate].
  Qed.
  Lemma b_move_ok F al (h : heap) par a v l r : brep h par (BNode (a, v) l r) -> NoDup (baddrs (BNode (a, v) l r)) ->
    exists b h', b_move F al h (Some a) = Ok (b, h') /\ h !! b = None /\
      brep h' None (BNode (b, v) l r) /\ h' !! a = Some (BNodeR v None None None) /\
      (forall x, x ∉ baddrs (BNode (a, v) l r) -> x <> b -> h' !! x = h !! x).
  Proof.
    intros (Ha & Hl & Hr) Hnd. pose proof (NoDup_baddrs_inv _ _ _ _ Hnd) as (Hal & Har & Hndl & Hndr & Hd).
    unfold b_move. rewrite (deref_Some _ _ _ Ha). cbn [mbind res_bind bval bleft bright]. unfold b_alloc.
    set (b := new_addr al h). pose proof (new_addr_fresh al h) as Hb. fold b in Hb.
    assert (Hne : a <> b) by congruence.
    assert (Hbl : b ∉ baddrs l) by (intros Hi; destruct (brep_dom _ _ _ _ Hl Hi); congruence).
    assert (Hbr : b ∉ baddrs r) by (intros Hi; destruct (brep_dom _ _ _ _ Hr Hi); congruence).
    rewrite (update_Some _ b (BNodeR v None None None) _) by apply lookup_insert. cbn [mbind res_bind bset_left bval bparent bright].
    rewrite insert_insert. rewrite (update_Some _ b (BNodeR v None (baddr l) None) _) by apply lookup_insert. cbn [mbind res_bind bset_right bval bparent bleft].
    rewrite insert_insert. set (h2 := <[b := _]> h).
    destruct (give_parent h2 (Some a) b l) as (h3 & -> & Hl3 & Ho3); [apply brep_insert; assumption|exact Hndl|]. cbn [mbind res_bind].
    destruct (give_parent h3 (Some a) b r) as (h4 & -> & Hr4 & Ho4).
    { eapply brep_ext; [|apply (brep_insert h (Some a) r b (BNodeR v None (baddr l) (baddr r)) Hbr Hr)]. intros x Hx. apply Ho3. intros Hx'. exact (Hd x Hx' Hx). }
    { exact Hndr. }
    cbn [mbind res_bind].
    assert (Ha4 : h4 !! a = Some (BNodeR v par (baddr l) (baddr r))).
    { rewrite Ho4 by exact Har. rewrite Ho3 by exact Hal. unfold h2. rewrite lookup_insert_ne by congruence. exact Ha. }
    rewrite (update_Some _ _ _ _ Ha4). cbn [mbind res_bind bval]. eexists b, _. split; [reflexivity|]. split; [exact Hb|].
    assert (Hb4 : h4 !! b = Some (BNodeR v None (baddr l) (baddr r))).
    { rewrite Ho4 by exact Hbr. rewrite Ho3 by exact Hbl. apply lookup_insert. }
    split; [|split].
    - cbn [brep]. rewrite lookup_insert_ne by exact Hne. split; [exact Hb4|]. split; apply brep_insert; try assumption.
      eapply brep_ext; [|exact Hl3]. intros x Hx. apply Ho4. intros Hx'. exact (Hd x Hx Hx').
    - apply lookup_insert.
    - intros x Hx Hxb. assert (Hx' : x <> a /\ x ∉ baddrs l /\ x ∉ baddrs r).
      { change (baddrs (BNode (a, v) l r)) with (map fst (bin_labels (BNode (a, v) l r))) in Hx. cbn [bin_labels] in Hx.
        rewrite map_cons, map_app in Hx. unfold baddrs. set_solver +Hx. }
      destruct Hx' as (H1 & H2 & H3). rewrite lookup_insert_ne by congruence. rewrite Ho4, Ho3 by assumption. apply lookup_insert_ne. congruence.
  Qed.
End BinMove.

Section NaryMove.
  Context {V : Type} `{EqDecision V}.
  Notation heap := (gmap addr (nnode V)).
  Notation tree := (rose (addr * V)).
  Lemma n_reparent_ok b a : forall (l : list tree) (h : heap) prev next k fuel, nseg h (Some a) prev l next k -> next = None -> NoDup (faddrs l) -> length l < fuel ->
    exists h', n_reparent fuel h b (first_or l None) = Ok h' /\ nseg h' (Some b) prev l next k /\ forall x, x ∉ faddrs l -> h' !! x = h !! x.
  Proof.
    induction l as [|c l IH]; intros h prev next k fuel Hs -> Hnd Hf; (destruct fuel as [|fuel]; [cbn in Hf; lia|]).
    - exists h. split; [reflexivity|]. split; [exact I|auto].
    - cbn [nseg] in Hs. destruct Hs as [Hc Hl]. rewrite faddrs_cons in Hnd. apply NoDup_app in Hnd as (Hndc & Hd & Hndl).
      pose proof (nrep_root _ _ _ _ _ _ Hc) as Hn. cbn [first_or n_reparent]. rewrite (update_Some _ _ _ _ Hn). cbn [mbind res_bind].
      unfold n_next. rewrite (deref_Some _ _ _ (lookup_insert _ _ _)). cbn [mbind res_bind nset_parent nnext nval nfsize nprev nfirst nlast].
      set (h1 := <[raddr c := _]> h).
      assert (Hin : raddr c ∈ raddrs c) by (destruct c as [[? ?] ?]; rewrite raddrs_rose; left).
      assert (Hcl : raddr c ∉ faddrs l) by exact (Hd _ Hin).
      destruct (IH h1 (Some (raddr c)) None k fuel) as (h' & E & Hl' & Ho); [apply nseg_insert; assumption|reflexivity|exact Hndl|cbn in Hf; lia|].
      exists h'. split; [exact E|]. cbn [nseg]. split; [split; [|exact Hl']|].
      + eapply nrep_ext; [|exact (nrep_relink _ _ _ _ _ (Some b) prev (first_or l None) (szt (length l + k)) _ Hc Hndc)].
        intros x Hx. apply Ho. exact (Hd x Hx).
      + intros x Hx. rewrite faddrs_cons in Hx. rewrite Ho by set_solver +Hx. apply lookup_insert_ne. intros <-. apply Hx. set_solver +Hin.
  Qed.
  (** The new node takes the siblings' links of the old one, but not its parent. *)
  Lemma n_move_ok F al (h : heap) par prev next fs a v cs : nrep h par prev next fs (Rose (a, v) cs) -> NoDup (raddrs (Rose (a, v) cs)) -> length cs < F ->
    exists b h', n_move F al h (Some a) = Ok (b, h') /\ h !! b = None /\
      nrep h' None prev next fs (Rose (b, v) cs) /\ h' !! a = Some (NNodeR v None 0 None None None None) /\
      (forall x, x ∉ raddrs (Rose (a, v) cs) -> x <> b -> h' !! x = h !! x).
  Proof.
    intros Hr Hnd HF. rewrite nrep_unfold in Hr. destruct Hr as [Ha Hs]. rewrite raddrs_rose in *. apply NoDup_cons in Hnd as [Hn Hnd].
    unfold n_move. rewrite (deref_Some _ _ _ Ha). cbn [mbind res_bind nval nfsize nprev nnext nfirst nlast]. unfold n_alloc.
    set (b := new_addr al h). pose proof (new_addr_fresh al h) as Hb. fold b in Hb. assert (Hne : a <> b) by congruence.
    assert (Hbf : b ∉ faddrs cs) by (intros Hi; destruct (nseg_dom _ _ _ _ _ _ _ Hs Hi); congruence).
    rewrite (update_Some _ b (NNodeR v None fs prev None None None) _) by apply lookup_insert. cbn [mbind res_bind nset_next nval nparent nfsize nprev nfirst nlast].
    rewrite insert_insert. rewrite (update_Some _ b (NNodeR v None fs prev next None None) _) by apply lookup_insert. cbn [mbind res_bind nset_first nval nparent nfsize nprev nnext nlast].
    rewrite insert_insert. rewrite (update_Some _ b (NNodeR v None fs prev next (first_or cs None) None) _) by apply lookup_insert. cbn [mbind res_bind nset_last nval nparent nfsize nprev nnext nfirst].
    rewrite insert_insert. set (h3 := <[b := _]> h).
    destruct (n_reparent_ok b a cs h3 None None 0 F) as (h4 & -> & Hs4 & Ho4); [apply nseg_insert; assumption|reflexivity|exact Hnd|exact HF|]. cbn [mbind res_bind].
    assert (Hb4 : h4 !! b = Some (NNodeR v None fs prev next (first_or cs None) (last_or None cs))) by (rewrite Ho4 by exact Hbf; apply lookup_insert).
    assert (Ha4 : h4 !! a = Some (NNodeR v par fs prev next (first_or cs None) (last_or None cs))).
    { rewrite Ho4 by exact Hn. unfold h3. rewrite lookup_insert_ne by congruence. exact Ha. }
    assert (Hm : exists h5, n_manage_parent_last_child h4 b = Ok h5 /\ h5 !! b = h4 !! b /\ forall x, x <> b -> h5 !! x = h4 !! x).
    { unfold n_manage_parent_last_child. rewrite (deref_Some _ _ _ Hb4). cbn [mbind res_bind nparent nnext nfirst].
      assert (E : (match next with Some _ => Ok h4 | None => Ok h4 end : res heap) = Ok h4) by (destruct next; reflexivity). cbn [mbind res_bind].
      destruct cs as [|c cs].
      - cbn [first_or]. rewrite (update_Some _ _ _ _ Hb4). eexists. split; [reflexivity|]. cbn [nset_last nval nparent nfsize nprev nnext nfirst].
        rewrite lookup_insert, Hb4. split; [reflexivity|]. intros x Hx. apply lookup_insert_ne. congruence.
      - cbn [first_or]. exists h4. auto. }
    destruct Hm as (h5 & -> & Hb5 & Ho5). cbn [mbind res_bind]. rewrite (update_Some _ a _ _ (eq_trans (Ho5 a Hne) Ha4)). cbn [mbind res_bind nval].
    eexists b, _. split; [reflexivity|]. split; [exact Hb|]. split; [|split].
    - rewrite nrep_unfold. rewrite lookup_insert_ne by exact Hne. rewrite Hb5. split; [exact Hb4|].
      apply nseg_insert; [exact Hn|]. eapply nseg_ext; [|exact Hs4]. intros x Hx. apply Ho5. intros ->. exact (Hbf Hx).
    - apply lookup_insert.
    - intros x Hx Hxb. rewrite lookup_insert_ne by set_solver +Hx. rewrite Ho5 by exact Hxb. rewrite Ho4 by set_solver +Hx. apply lookup_insert_ne. congruence.
  Qed.
End NaryMove.

(** What a move from the root of a whole tree does, for both kinds. *)
Definition moves {V Nd} (F : nat) (mv : nat -> allocator Nd -> gmap addr Nd -> ptr -> res (addr * gmap addr Nd)) (al : allocator Nd) (K : kind_data V Nd) : Prop :=
  forall h c a, crep K h c -> croot K c = Some a -> length (caddrs K c) < F ->
  exists b h' u e l, mv F al h (Some a) = Ok (b, h') /\ h !! b = None /\ croot K u = Some b /\ croot K e = Some a /\ caddrs K e = [a] /\
    caddrs K c = a :: l /\ caddrs K u = b :: l /\ cvals K u = cvals K c /\ crep K h' u /\ crep K h' e /\ (forall x, x ∉ caddrs K c -> x <> b -> h' !! x = h !! x) /\
    carity K e = 0.
Lemma binary_moves V F al : @moves V _ F b_move al (binary_kind V).
Proof.
  intros h [|[a0 v] l r] a [Hr Hnd] Ha HF; [discriminate|]. injection Ha as ->.
  destruct (b_move_ok F al h None a v l r Hr Hnd) as (b & h' & E & Hb & Hu & He & Ho).
  exists b, h', (BNode (b, v) l r), (BNode (a, v) BLeaf BLeaf), (baddrs l ++ baddrs r).
  assert (Hl : forall y, baddrs (BNode (y, v) l r) = y :: baddrs l ++ baddrs r) by (intros y; unfold baddrs; cbn [bin_labels]; rewrite map_cons, map_app; reflexivity).
  assert (Hnd' : NoDup (baddrs (BNode (b, v) l r))).
  { rewrite Hl in *. apply NoDup_cons in Hnd as [_ Hnd]. constructor; [|exact Hnd]. intros Hi. destruct Hr as (_ & H1 & H2).
    apply elem_of_app in Hi as [Hi|Hi]; [destruct (brep_dom _ _ _ _ H1 Hi)|destruct (brep_dom _ _ _ _ H2 Hi)]; congruence. }
  repeat split; try assumption; try (exact (Hl _)); try (repeat constructor; set_solver +).
  1-3: apply Hu. 
Qed.
Lemma nary_moves V (EV : EqDecision V) F al : @moves V _ F n_move al (nary_kind V).
Proof.
  intros h [[[a0 v] cs]|] a Hc Ha HF; [|discriminate]. change (Some a0 = Some a) in Ha. injection Ha as ->. destruct Hc as [Hr Hnd].
  assert (HL : length cs < F).
  { change (length (raddrs (Rose (a, v) cs)) < F) in HF. rewrite length_raddrs, rsize_rose in HF. pose proof (length_children cs).
    unfold fsize in HF. lia. }
  destruct (n_move_ok F al h None None None (szt 0) a v cs Hr Hnd HL) as (b & h' & E & Hb & Hu & He & Ho).
  exists b, h', (Some (Rose (b, v) cs)), (Some (Rose (a, v) [])), (faddrs cs).
  assert (Hnd' : NoDup (raddrs (Rose (b, v) cs))).
  { rewrite raddrs_rose in *. apply NoDup_cons in Hnd as [_ Hnd]. constructor; [|exact Hnd]. intros Hi. rewrite nrep_unfold in Hr. destruct Hr as [_ Hs].
    destruct (nseg_dom _ _ _ _ _ _ _ Hs Hi). congruence. }
  split; [exact E|]. split; [exact Hb|]. split; [reflexivity|]. split; [reflexivity|]. split; [reflexivity|].
  split; [exact (raddrs_rose a v cs)|]. split; [exact (raddrs_rose b v cs)|]. split; [reflexivity|].
  split; [split; assumption|]. split; [|split; [exact Ho|reflexivity]].
  split; [rewrite nrep_unfold; split; [exact He|exact I]|]. apply NoDup_singleton.
Qed.

(** *** Owners *)
Section Owners.
  Context {V Nd : Type} {EV : EqDecision V}.
  Variable F : nat.
  Variable im : node_impl V Nd.
  Variable mv : nat -> allocator Nd -> gmap addr Nd -> ptr -> res (addr * gmap addr Nd).
  Variable al : allocator Nd.
  Variable K : kind_data V Nd.
  Hypothesis HO : owner_kind V EV Nd im mv K.
  Hypothesis HFW : (N.of_nat F <= W64)%N.

  Lemma owner_tree : tree_kind V EV Nd im K.
  Proof using All. destruct HO; constructor. Qed.
  Lemma owner_moves : moves F mv al K.
  Proof using All. destruct HO; [apply binary_moves|apply nary_moves; exact EV]. Qed.
  Let HK := owner_tree.
  Let KO : kind_ok F im al K := kind_is_ok F al HK.
  Notation holds := (World.holds (croot K) (caddrs K) (crep K)).
  Notation built := (World.built (caddrs K) (crep K)).
  Notation len c := (length (caddrs K c)).

  Lemma own_ok w M p c a h' m : holds w M [] -> M !! p = None -> m = Ok (a, h') -> croot K c = Some a -> built (w_heap w) h' c ->
    exists w', own w p m = Ok w' /\ holds w' (<[p := c]> M) [] /\ w_heap w' = h' /\ w_trees w' = <[p := held (croot K c)]> (w_trees w).
  Proof using All.
    intros H Hp -> Hr Hb. eexists. split; [reflexivity|]. rewrite <- Hr. split; [|split; reflexivity].
    apply holds_new; [|exact Hp]. exact (holds_alloc F im al K KO w M [] h' c H Hb).
  Qed.

  (** The heap around the contents [l0] changes to [l1]. *)
  Lemma heap_ok_turn h h' (l0 l1 l : list (C K)) : heap_ok (caddrs K) (crep K) h (l0 ++ l) -> Forall (crep K h') l1 -> NoDup (flat_map (caddrs K) l1) ->
    (forall x, x ∈ flat_map (caddrs K) l1 -> x ∈ flat_map (caddrs K) l0 \/ h !! x = None) ->
    (forall x, x ∈ flat_map (caddrs K) l0 -> x ∈ flat_map (caddrs K) l1) ->
    (forall x, x ∉ flat_map (caddrs K) l0 -> x ∉ flat_map (caddrs K) l1 -> h' !! x = h !! x) -> heap_ok (caddrs K) (crep K) h' (l1 ++ l).
  Proof using All.
    intros (H1 & H2 & H3) Hr Hn Hnew Hkeep Hsame. rewrite Forall_app in H1. destruct H1 as [_ H1].
    rewrite flat_map_app in H2. apply NoDup_app in H2 as (_ & Hd & Hnl).
    assert (Hnl0 : forall x, x ∈ flat_map (caddrs K) l -> x ∉ flat_map (caddrs K) l0) by (intros x Hx Hx0; exact (Hd x Hx0 Hx)).
    assert (Hnl1 : forall x, x ∈ flat_map (caddrs K) l -> x ∉ flat_map (caddrs K) l1).
    { intros x Hx Hx1. destruct (Hnew x Hx1) as [Hx0|Hx0]; [exact (Hnl0 x Hx Hx0)|].
      assert (is_Some (h !! x)) as [n Hxn]; [|congruence]. apply H3. rewrite flat_map_app. apply elem_of_app. auto. }
    split; [|split].
    - apply Forall_app. split; [exact Hr|]. rewrite Forall_forall in *. intros c Hc. eapply (k_ext _ _ _ _ KO); [|exact (H1 c Hc)].
      intros x Hx. assert (Hin : x ∈ flat_map (caddrs K) l) by (eapply flat_in; eassumption). apply Hsame; auto.
    - rewrite flat_map_app. apply NoDup_app. split; [exact Hn|]. split; [|exact Hnl]. intros x Hx Hx'. exact (Hnl1 x Hx' Hx).
    - intros x. rewrite flat_map_app, elem_of_app. destruct (decide (x ∈ flat_map (caddrs K) l1)) as [Hx|Hx].
      + split; [auto|]. intros _. apply in_flat in Hx as (c & Hc & Hx). rewrite Forall_forall in Hr. exact (k_dom _ _ _ _ KO h' c x (Hr c Hc) Hx).
      + assert (Hx0 : x ∉ flat_map (caddrs K) l0) by auto. rewrite Hsame by assumption. rewrite H3, flat_map_app, elem_of_app. tauto.
  Qed.
  Lemma moved_ok w M p q c : holds w M [] -> M !! p = None -> M !! q = Some c -> c <> cnil K -> len c < F ->
    exists w' u e a b l, (t ← get_tree w q; own w p (mv F al (w_heap w) (t_root t))) = Ok w' /\ holds w' (<[p := u]> (<[q := e]> M)) [] /\
      croot K c = Some a /\ croot K e = Some a /\ croot K u = Some b /\ w_heap w !! b = None /\
      caddrs K c = a :: l /\ caddrs K e = [a] /\ caddrs K u = b :: l /\ cvals K u = cvals K c /\ carity K e = 0 /\
      w_trees w' = <[p := held (croot K u)]> (w_trees w) /\ (forall x, x ∉ caddrs K c -> x <> b -> w_heap w' !! x = w_heap w !! x).
  Proof using All.
    intros H Hp Hq Hne HF. destruct (croot K c) as [a|] eqn:Ea; [|destruct Hne; exact (k_null _ _ _ _ KO c Ea)].
    destruct (holds_get _ _ _ _ _ _ _ _ H Hq) as (t & Ht & Hg & Hr & Hn). pose proof (holds_rep _ _ _ _ _ _ _ _ H Hq) as Hc.
    destruct (owner_moves (w_heap w) c a Hc Ea HF) as (b & h' & u & e & l & E & Hb & Hu & He & Hle & Hlc & Hlu & Hv & Hru & Hre & Ho & Har).
    assert (Hpq : p <> q) by congruence.
    exists (set_tree (set_heap w h') p (held (Some b))), u, e, a, b, l. rewrite Hg. cbn [mbind res_bind]. rewrite Hr, Ea, E. split; [reflexivity|].
    assert (Hq' : holds (set_heap w h') (<[q := e]> M) [u]).
    { apply (holds_edit _ _ _ w M [] q c e h' H Hq ltac:(congruence) [u]). intros Hok. cbn [app] in *.
      assert (Hperm : Permutation (e :: u :: elems (delete q M)) ([u; e] ++ elems (delete q M))) by (cbn; apply perm_swap).
      eapply heap_ok_perm; [symmetry; exact Hperm|]. clear Hperm.
      eapply (heap_ok_turn (w_heap w) h' [c] [u; e] (elems (delete q M)) Hok).
      - repeat constructor; assumption.
      - cbn. rewrite Hle, Hlu, app_nil_r. pose proof (k_nd _ _ _ _ KO _ _ Hc) as Hnd. rewrite Hlc in Hnd. apply NoDup_cons in Hnd as [Hal Hnd].
        assert (Hbl : b ∉ a :: l). { rewrite <- Hlc. intros Hi. destruct (k_dom _ _ _ _ KO _ _ _ Hc Hi). congruence. }
        constructor; [set_solver +Hbl|]. apply NoDup_app. split; [exact Hnd|]. split; [set_solver +Hal|apply NoDup_singleton].
      - cbn. rewrite Hle, Hlu, Hlc, !app_nil_r. intros x Hx. destruct (decide (x = b)) as [->|Hxb]; [auto|]. left. set_solver +Hx Hxb.
      - cbn. rewrite Hle, Hlu, Hlc, !app_nil_r. intros x Hx. set_solver +Hx.
      - cbn. rewrite !app_nil_r. intros x Hx Hx'. apply Ho; [exact Hx|]. intros ->. apply Hx'. rewrite Hlu. set_solver +. }
    split; [|split; [reflexivity|]].
    - pose proof (holds_new _ _ _ (set_heap w h') (<[q := e]> M) [] p u 0%N 0%N Hq') as Hn'.
      rewrite Hu in Hn'. apply Hn'. rewrite lookup_insert_ne by congruence. exact Hp.
    - rewrite Hu. repeat (split; [assumption || reflexivity|]). exact Ho.
  Qed.

  Lemma adopt_new_ok w M i p c s r : holds w M [] -> M !! i = None -> M !! p = Some c ->
    exists w', adopt_new w i p s r = Ok w' /\ holds w' (<[p := cnil K]> (<[i := c]> M)) [] /\ w_heap w' = w_heap w /\
      w_trees w' = <[p := held None]> (<[i := TreeRec (croot K c) s r (croot K c)]> (w_trees w)).
  Proof using All.
    intros H Hi Hp. destruct (holds_get _ _ _ _ _ _ _ _ H Hp) as (t & Ht & Hg & Hr & _). assert (Hne : i <> p) by congruence.
    unfold adopt_new. rewrite Hg. cbn [mbind res_bind]. rewrite Hr. eexists. split; [reflexivity|]. split; [|split; [reflexivity|]].
    - pose proof (holds_set _ _ _ _ _ _ p c (cnil K) 0%N 0%N (holds_add_nil F im al K KO _ _ _ H) Hp) as H1.
      assert (Hi' : (<[p := cnil K]> M) !! i = None) by (rewrite lookup_insert_ne; congruence).
      pose proof (holds_new _ _ _ _ _ _ i c s r H1 Hi') as H2. rewrite (nil_root F im al K KO) in H2.
      rewrite (insert_commute M p i) by congruence. exact H2.
    - cbn. apply insert_commute. congruence.
  Qed.
  Lemma adopt_assign_ok w M i p c d : holds w M [] -> M !! i = Some d -> M !! p = Some c -> i <> p -> len d < F ->
    exists w', adopt_assign F im w i p = Ok w' /\ holds w' (<[i := c]> (<[p := cnil K]> M)) [] /\
      w_trees w' = <[i := TreeRec (croot K c) 0 0 (croot K c)]> (<[p := held None]> (w_trees w)).
  Proof using All.
    intros H Hi Hp Hne HF. destruct (holds_get _ _ _ _ _ _ _ _ H Hp) as (t & Ht & Hg & Hr & _).
    unfold adopt_assign. rewrite Hg. cbn [mbind res_bind]. rewrite Hr.
    pose proof (holds_set _ _ _ _ _ _ p c (cnil K) 0%N 0%N (holds_add_nil F im al K KO _ _ _ H) Hp) as H1. rewrite (nil_root F im al K KO) in H1.
    assert (Hi' : (<[p := cnil K]> M) !! i = Some d) by (rewrite lookup_insert_ne; congruence).
    exact (assign_ok F im al K KO _ _ [] i d c 0%N 0%N H1 Hi' HF).
  Qed.

  Lemma cached_zero p q (c : C K) : cached K (TreeRec p 0 0 q) c.
  Proof using All. split; left; reflexivity. Qed.
  Lemma pexec_ok w M c : consistent K w M -> pvalid F im K w M c -> size (w_heap w) < F ->
    exists w' M', (pexec F im mv al w c = Ret () w' \/ pexec F im mv al w c = Throw w') /\ consistent K w' M' /\
      (caches K w M -> pexact K w M c -> caches K w' M').
  Proof using All.
    intros H Hv HF. destruct c as [p v|p l|p i|p q|p|i p s r|i p|c]; cbn [pvalid] in Hv; cbn [pexec pexact].
    8: exact (exec_ok F im al K HK HFW w M c H Hv HF).
    all: apply (to_holds F im al K HK HFW) in H.
    all: assert (Hret : forall m w' M' (Q : Prop), m = Ok w' -> holds w' M' [] -> (caches K w M -> Q -> caches K w' M') ->
        exists w' M', (done m = Ret () w' \/ done m = Throw w') /\ consistent K w' M' /\ (caches K w M -> Q -> caches K w' M'))
      by (intros m w' M' Q -> H' HQ; exists w', M'; split; [left; reflexivity|]; split; [apply (to_holds F im al K HK HFW), H'|exact HQ]).
    - destruct (k_value _ _ _ _ KO (w_heap w) v) as (a & h' & c & E & Hr & _ & _ & _ & Hb).
      destruct (own_ok w M p c a h' _ H Hv E Hr Hb) as (w' & E' & H' & _ & Htr). eapply Hret; [exact E'|exact H'|].
      intros Hca _. eapply (upd F im al K HK HFW); [exact Hca|exact Htr|apply cached_zero].
    - destruct Hv as [Hp (v & cs & -> & Hl)]. destruct (k_struct _ _ _ _ KO (w_heap w) v cs Hl) as (a & h' & c & E & Hr & _ & _ & _ & Hb).
      destruct (own_ok w M p c a h' _ H Hp E Hr Hb) as (w' & E' & H' & _ & Htr). eapply Hret; [exact E'|exact H'|].
      intros Hca _. eapply (upd F im al K HK HFW); [exact Hca|exact Htr|apply cached_zero].
    - destruct Hv as [Hp (c & Hc & Hne)]. destruct (holds_get _ _ _ _ _ _ _ _ H Hc) as (t & Ht & Hg & Hr & _).
      pose proof (holds_size _ _ _ _ _ _ _ _ H Hc) as L. destruct (croot K c) as [a0|] eqn:Ea; [|destruct Hne; exact (k_null _ _ _ _ KO c Ea)].
      destruct (k_copy _ _ _ _ KO (w_heap w) c a0 (k_src _ _ _ _ KO _ _ (holds_rep _ _ _ _ _ _ _ _ H Hc)) Ea ltac:(lia)) as (a & h' & c' & E & Hra & _ & _ & _ & Hb).
      rewrite Hg. cbn [mbind res_bind]. rewrite Hr.
      destruct (own_ok w M p c' a h' _ H Hp E Hra Hb) as (w' & E' & H' & _ & Htr). eapply Hret; [exact E'|exact H'|].
      intros Hca _. eapply (upd F im al K HK HFW); [exact Hca|exact Htr|apply cached_zero].
    - destruct Hv as [Hp (c & Hc & Hne)]. pose proof (holds_size _ _ _ _ _ _ _ _ H Hc) as L.
      destruct (moved_ok w M p q c H Hp Hc Hne ltac:(lia)) as (w' & u & e & a & b & l & E & H' & _ & He & Hu & _ & _ & _ & _ & _ & _ & Htr & _).
      eapply Hret; [exact E|exact H'|]. intros Hca (t & Ht & E0 & E1). eapply (upd F im al K HK HFW (World (w_heap w) (w_trees w))); [|exact Htr|apply cached_zero].
      intros k t1 c1 Ht1 Hc1. cbn [w_trees] in Ht1. destruct (decide (k = q)) as [->|Hk].
      + rewrite Ht in Ht1. injection Ht1 as <-. split; left; assumption.
      + rewrite lookup_insert_ne in Hc1 by congruence. exact (Hca _ _ _ Ht1 Hc1).
    - destruct Hv as [c Hc]. pose proof (holds_size _ _ _ _ _ _ _ _ H Hc) as L.
      destruct (destroy_ok F im al K KO w M p c H Hc ltac:(lia)) as (w' & E & H' & Htr). eapply Hret; [exact E|exact H'|].
      intros Hca _ k t1 c1 Ht1 Hc1. rewrite Htr in Ht1. apply lookup_delete_Some in Ht1 as [_ Ht1]. apply lookup_delete_Some in Hc1 as [_ Hc1].
      eapply Hca; eassumption.
    - destruct Hv as [Hi [c Hp]]. destruct (adopt_new_ok w M i p c s r H Hi Hp) as (w' & E & H' & _ & Htr). eapply Hret; [exact E|exact H'|].
      intros Hca Hx. eapply (upd2 F im al K HK HFW); [exact Hca|exact Htr|apply cached_zero|exact (Hx c Hp)].
    - destruct Hv as ([d Hd] & [c Hp] & Hne). pose proof (holds_size _ _ _ _ _ _ _ _ H Hd) as L.
      destruct (adopt_assign_ok w M i p c d H Hd Hp Hne ltac:(lia)) as (w' & E & H' & Htr). eapply Hret; [exact E|exact H'|].
      intros Hca _. eapply (upd2 F im al K HK HFW); [exact Hca|exact Htr|apply cached_zero|apply cached_zero].
  Qed.
  Lemma empty_ok : consistent K empty_world ∅.
  Proof using All.
    split; [intros i; cbn; rewrite !lookup_empty; split; intros [? ?]; discriminate|intros i t c Ht; discriminate|intros i j c d a Hi; discriminate|].
    intros a. cbn. rewrite lookup_empty. split; [intros [? ?]; discriminate|intros (i & c & Hi & _); discriminate].
  Qed.
  Lemma preach_ok w : preach F im mv al K w -> exists M, consistent K w M.
  Proof using All.
    intros Hr. destruct Hr as [|w M c w' _ H Hv HF E]; [exists ∅; exact empty_ok|].
    destruct (pexec_ok w M c H Hv HF) as (w2 & M2 & E2 & H2 & _). exists M2. destruct E as [E|E], E2 as [E2|E2]; congruence.
  Qed.
  Lemma pcareful_ok w : pcareful F im mv al K w -> exists M, consistent K w M /\ caches K w M.
  Proof using All.
    intros Hr. induction Hr as [|w M c w' _ IH H Hv Hx HF E].
    - exists ∅. split; [exact empty_ok|]. intros k t c Ht. discriminate.
    - destruct IH as (M0 & H0 & Hc0). assert (M0 = M) as -> by exact (contents_unique HK w M0 M H0 H).
      destruct (pexec_ok w M c H Hv HF) as (w2 & M2 & E2 & H2 & Hc2). exists M2.
      assert (w' = w2) as -> by (destruct E as [E|E], E2 as [E2|E2]; congruence). auto.
  Qed.
End Owners.

(** *** Links point back *)
Lemma b_links_back {V} (h : gmap addr (bnode V)) x n a : forall t par, brep h par t -> x ∈ baddrs t -> h !! x = Some n -> bleft n = Some a \/ bright n = Some a ->
  exists m, h !! a = Some m /\ bparent m = Some x.
Proof.
  induction t as [|[y v] l IHl r IHr]; intros par Hr Hx Hn Ha; [apply elem_of_nil in Hx as []|]. destruct Hr as (Hy & Hl & Hr).
  assert (Hroot : forall (s : bin (addr * V)) p, brep h p s -> baddr s = Some a -> exists m, h !! a = Some m /\ bparent m = p).
  { intros [|[z u] s1 s2] p Hs E; [discriminate|]. injection E as ->. destruct Hs as (Hz & _). eexists. split; [exact Hz|reflexivity]. }
  unfold baddrs in Hx. cbn [bin_labels] in Hx. rewrite map_cons, map_app in Hx. apply elem_of_cons in Hx as [Ex|Hx].
  - cbn [fst] in Ex. subst y. rewrite Hy in Hn. injection Hn as <-. cbn [bleft bright] in Ha. destruct Ha as [Ha|Ha]; [exact (Hroot l _ Hl Ha)|exact (Hroot r _ Hr Ha)].
  - apply elem_of_app in Hx as [Hx|Hx]; [exact (IHl _ Hl Hx Hn Ha)|exact (IHr _ Hr Hx Hn Ha)].
Qed.
Lemma n_links_back {V} (h : gmap addr (nnode V)) x n a : forall t par prev next fs, nrep h par prev next fs t -> x ∈ raddrs t -> h !! x = Some n ->
  (nfirst n = Some a -> exists m, h !! a = Some m /\ nparent m = Some x) /\
  (nnext n = Some a -> (x = raddr t /\ next = Some a) \/ exists m, h !! a = Some m /\ nprev m = Some x).
Proof.
  induction t as [[y v] cs IH] using rose_ind'. intros par prev next fs Hr Hx Hn. rewrite nrep_unfold in Hr. destruct Hr as [Hy Hs].
  rewrite raddrs_rose in Hx. apply elem_of_cons in Hx as [Ex|Hx].
  - cbn [fst] in Ex. subst y. rewrite Hy in Hn. injection Hn as <-. cbn [nfirst nnext]. split; [|auto]. destruct cs as [|c cs]; [discriminate|]. cbn [first_or]. intros E. injection E as <-.
    cbn [nseg] in Hs. destruct Hs as [Hc _]. apply nrep_root in Hc. eexists. split; [exact Hc|reflexivity].
  - enough (Hgen : forall p, nseg h (Some y) p cs None 0 -> (nfirst n = Some a -> exists m, h !! a = Some m /\ nparent m = Some x) /\
        (nnext n = Some a -> exists m, h !! a = Some m /\ nprev m = Some x)).
    { destruct (Hgen _ Hs) as [H1 H2]. split; [exact H1|]. intros E. right. exact (H2 E). }
    clear Hs Hy. induction IH as [|c cs Hc _ IHcs]; intros p Hs; [apply elem_of_nil in Hx as []|].
    rewrite faddrs_cons in Hx. cbn [nseg] in Hs. destruct Hs as [Hc1 Hl]. apply elem_of_app in Hx as [Hx|Hx]; [|exact (IHcs Hx _ Hl)].
    destruct (Hc _ _ _ _ Hc1 Hx Hn) as [H1 H2]. split; [exact H1|]. intros E. destruct (H2 E) as [[-> E2]|H3]; [|exact H3].
    destruct cs as [|d cs]; [discriminate|]. cbn [first_or] in E2. injection E2 as <-. cbn [nseg] in Hl. destruct Hl as [Hd _]. apply nrep_root in Hd.
    eexists. split; [exact Hd|reflexivity].
Qed.
