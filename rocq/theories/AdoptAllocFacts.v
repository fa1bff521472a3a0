(** AdoptAllocFacts.v: where the nodes of each tree and pointer come from after a call on
    pointers, and what the allocators make of it. *)
From Verif Require Import Base Spec StructNode BinaryNode NaryNode Nav Policy Tree User Rep EditSpec RoseFacts NavFacts World Kinds
  TreeSpec TreeOps TreeOps2 TreeOps3 TreeOps4 TreeFacts History Allocs AllocFacts Adopt AdoptFacts AdoptAlloc.

Section Q.
  Context {V Nd : Type} {EV : EqDecision V}.
  Variable F : nat.
  Variable im : node_impl V Nd.
  Variable mv : nat -> allocator Nd -> gmap addr Nd -> ptr -> res (addr * gmap addr Nd).
  Variable al : allocator Nd.
  Variable K : kind_data V Nd.
  Hypothesis HO : owner_kind V EV Nd im mv K.
  Hypothesis HFW : (N.of_nat F <= W64)%N.
  Let HK := owner_tree F im mv al K HO HFW.
  Let KO : kind_ok F im al K := kind_is_ok F al HK.

  Definition ptakes (M : gmap tid (C K)) (c : pcall V) (k j : tid) : Prop :=
    match c with
    | PMoved p q => (k = p /\ j = q /\ forall c, M !! q = Some c -> length (caddrs K c) <> 1) \/ (k <> p /\ j = k)
    | PNew i p _ _ | PAssign i p => (k = i /\ j = p) \/ (k <> i /\ j = k)
    | _ => j = k
    end.
  Definition pgains (c : pcall V) : option tid :=
    match c with PValue p _ | PLiteral p _ | PCopy p _ | PMoved p _ => Some p | _ => None end.
  Definition ploses (c : pcall V) : option tid :=
    match c with PDrop p => Some p | PAssign i _ => Some i | _ => None end.

  Lemma nil_no a : a ∈ caddrs K (cnil K) -> False.
  Proof using All. rewrite (nil_addrs F im al K KO). apply not_elem_of_nil. Qed.
  Lemma inside w M k d a : consistent K w M -> M !! k = Some d -> a ∈ caddrs K d -> is_Some (w_heap w !! a).
  Proof. intros H Hk Ha. apply (wo_owned _ _ _ _ _ H a). eauto. Qed.

  (** A new owner of newly made nodes. *)
  Lemma new_owner w M w' p c : consistent K w M -> consistent K w' (<[p := c]> M) -> M !! p = None -> (forall a, a ∈ caddrs K c -> w_heap w !! a = None) ->
    (forall k c' a, (<[p := c]> M) !! k = Some c' -> a ∈ caddrs K c' ->
       (w_heap w !! a = None /\ Some p = Some k) \/ exists j d, j = k /\ M !! j = Some d /\ a ∈ caddrs K d) /\
    (forall k d a, M !! k = Some d -> a ∈ caddrs K d -> None = Some k \/ is_Some (w_heap w' !! a)).
  Proof.
    intros H H' Hp Hn. split.
    - intros k c' a Hk Ha. apply lookup_insert_Some in Hk as [[<- <-]|[Hne Hk]]; [left; auto|right; eauto].
    - intros k d a Hk Ha. right. eapply (inside w'); [exact H'| |exact Ha]. rewrite lookup_insert_ne; [exact Hk|congruence].
  Qed.
  Lemma origin w M c : consistent K w M -> (match c with PCall _ => False | _ => pvalid F im K w M c end) -> size (w_heap w) < F ->
    exists w' M', pexec F im mv al w c = Ret () w' /\ consistent K w' M' /\
      (forall k c' a, M' !! k = Some c' -> a ∈ caddrs K c' ->
         (w_heap w !! a = None /\ pgains c = Some k) \/ exists j d, ptakes M c k j /\ M !! j = Some d /\ a ∈ caddrs K d) /\
      (forall k d a, M !! k = Some d -> a ∈ caddrs K d -> ploses c = Some k \/ is_Some (w_heap w' !! a)).
  Proof using All.
    intros H Hv HF. pose proof H as Hh. apply (to_holds F im al K HK HFW) in Hh.
    destruct c as [p v|p l|p i|p q|p|i p s r|i p|c]; [| | | | | | |destruct Hv]; cbn [pvalid] in Hv; cbn [pexec pgains ploses ptakes].
    - destruct (k_value _ _ _ _ KO (w_heap w) v) as (a & h' & c & E & Hr & _ & _ & _ & Hb).
      destruct (own_ok F im mv al K HO HFW w M p c a h' _ Hh Hv E Hr Hb) as (w' & E' & H' & _). rewrite E'. exists w', (<[p := c]> M). split; [reflexivity|].
      apply (to_holds F im al K HK HFW) in H'. split; [exact H'|]. apply new_owner; try assumption. intros x Hx. exact (proj1 (proj2 Hb) x Hx).
    - destruct Hv as [Hp (v & cs & -> & Hl)]. destruct (k_struct _ _ _ _ KO (w_heap w) v cs Hl) as (a & h' & c & E & Hr & _ & _ & _ & Hb).
      destruct (own_ok F im mv al K HO HFW w M p c a h' _ Hh Hp E Hr Hb) as (w' & E' & H' & _). rewrite E'. exists w', (<[p := c]> M). split; [reflexivity|].
      apply (to_holds F im al K HK HFW) in H'. split; [exact H'|]. apply new_owner; try assumption. intros x Hx. exact (proj1 (proj2 Hb) x Hx).
    - destruct Hv as [Hp (c & Hc & Hne)]. destruct (holds_get _ _ _ _ _ _ _ _ Hh Hc) as (t & Ht & Hg & Hr & _).
      pose proof (holds_size _ _ _ _ _ _ _ _ Hh Hc) as L. destruct (croot K c) as [a0|] eqn:Ea; [|destruct Hne; exact (k_null _ _ _ _ KO c Ea)].
      destruct (k_copy _ _ _ _ KO (w_heap w) c a0 (k_src _ _ _ _ KO _ _ (holds_rep _ _ _ _ _ _ _ _ Hh Hc)) Ea ltac:(lia)) as (a & h' & c' & E & Hra & _ & _ & _ & Hb).
      rewrite Hg. cbn [mbind res_bind]. rewrite Hr.
      destruct (own_ok F im mv al K HO HFW w M p c' a h' _ Hh Hp E Hra Hb) as (w' & E' & H' & _). rewrite E'. exists w', (<[p := c']> M). split; [reflexivity|].
      apply (to_holds F im al K HK HFW) in H'. split; [exact H'|]. apply new_owner; try assumption. intros x Hx. exact (proj1 (proj2 Hb) x Hx).
    - destruct Hv as [Hp (c & Hc & Hne)]. pose proof (holds_size _ _ _ _ _ _ _ _ Hh Hc) as L.
      destruct (moved_ok F im mv al K HO HFW w M p q c Hh Hp Hc Hne ltac:(lia)) as (w' & u & e & a & b & l & E & H' & _ & He & Hu & Hb & Hlc & Hle & Hlu & _).
      rewrite E. exists w', (<[p := u]> (<[q := e]> M)). split; [reflexivity|]. apply (to_holds F im al K HK HFW) in H'. split; [exact H'|].
      assert (Hpq : p <> q) by congruence. split.
      + intros k c' x Hk Hx. apply lookup_insert_Some in Hk as [[<- <-]|[Hk1 Hk]].
        * rewrite Hlu in Hx. apply elem_of_cons in Hx as [->|Hx]; [left; auto|]. right. exists q, c. split; [|split; [exact Hc|rewrite Hlc; apply elem_of_cons; auto]].
          left. split; [reflexivity|]. split; [reflexivity|]. intros c2 Hc2. rewrite Hc in Hc2. injection Hc2 as <-. rewrite Hlc. destruct l; [apply elem_of_nil in Hx as []|discriminate].
        * right. apply lookup_insert_Some in Hk as [[<- <-]|[Hk2 Hk]].
          -- exists q, c. split; [auto|]. split; [exact Hc|]. rewrite Hle in Hx. apply elem_of_list_singleton in Hx as ->. rewrite Hlc. apply elem_of_cons. auto.
          -- exists k, c'. auto.
      + intros k d x Hk Hx. right. destruct (decide (k = q)) as [->|Hkq].
        * rewrite Hc in Hk. injection Hk as <-. rewrite Hlc in Hx. apply elem_of_cons in Hx as [->|Hx].
          -- eapply (inside w' _ q e); [exact H'|rewrite lookup_insert_ne by congruence; apply lookup_insert|rewrite Hle; apply elem_of_list_singleton; reflexivity].
          -- eapply (inside w' _ p u); [exact H'|apply lookup_insert|rewrite Hlu; apply elem_of_cons; auto].
        * eapply (inside w' _ k d); [exact H'| |exact Hx]. rewrite !lookup_insert_ne by congruence. exact Hk.
    - destruct Hv as [c Hc]. pose proof (holds_size _ _ _ _ _ _ _ _ Hh Hc) as L.
      destruct (destroy_ok F im al K KO w M p c Hh Hc ltac:(lia)) as (w' & E & H' & _). rewrite E. exists w', (delete p M). split; [reflexivity|].
      apply (to_holds F im al K HK HFW) in H'. split; [exact H'|]. split.
      + intros k c' x Hk Hx. right. apply lookup_delete_Some in Hk as [_ Hk]. eauto.
      + intros k d x Hk Hx. destruct (decide (k = p)) as [->|Hkp]; [auto|]. right. eapply (inside w' _ k d); [exact H'| |exact Hx]. rewrite lookup_delete_ne by congruence. exact Hk.
    - destruct Hv as [Hi [c Hp]]. destruct (adopt_new_ok F im mv al K HO HFW w M i p c s r Hh Hi Hp) as (w' & E & H' & Eh & _). rewrite E.
      exists w', (<[p := cnil K]> (<[i := c]> M)). split; [reflexivity|]. apply (to_holds F im al K HK HFW) in H'. split; [exact H'|]. split.
      + intros k c' x Hk Hx. right. apply lookup_insert_Some in Hk as [[<- <-]|[Hk1 Hk]]; [destruct (nil_no x Hx)|].
        apply lookup_insert_Some in Hk as [[<- <-]|[Hk2 Hk]]; [exists p, c; auto|exists k, c'; auto].
      + intros k d x Hk Hx. right. rewrite Eh. exact (inside w M k d x H Hk Hx).
    - destruct Hv as ([d Hd] & [c Hp] & Hne). pose proof (holds_size _ _ _ _ _ _ _ _ Hh Hd) as L.
      destruct (adopt_assign_ok F im mv al K HO HFW w M i p c d Hh Hd Hp Hne ltac:(lia)) as (w' & E & H' & _). rewrite E.
      exists w', (<[i := c]> (<[p := cnil K]> M)). split; [reflexivity|]. apply (to_holds F im al K HK HFW) in H'. split; [exact H'|]. split.
      + intros k c' x Hk Hx. right. apply lookup_insert_Some in Hk as [[<- <-]|[Hk1 Hk]]; [exists p, c; auto|].
        apply lookup_insert_Some in Hk as [[<- <-]|[Hk2 Hk]]; [destruct (nil_no x Hx)|exists k, c'; auto].
      + intros k e x Hk Hx. destruct (decide (k = i)) as [->|Hki]; [auto|]. right. destruct (decide (k = p)) as [->|Hkp].
        * rewrite Hp in Hk. injection Hk as <-. eapply (inside w' _ i c); [exact H'|apply lookup_insert|exact Hx].
        * eapply (inside w' _ k e); [exact H'| |exact Hx]. rewrite !lookup_insert_ne by congruence. exact Hk.
  Qed.

  (** One call on pointers releases to the right allocator. *)
  Lemma qrun (x : aworld Nd) M a c : consistent K (aw_world x) M -> own_made K x M -> qvalid F im K (aw_world x) M (QOwn a c) -> size (w_heap (aw_world x)) < F ->
    exists w' M' x', qstep F im mv al x (QOwn a c) = Good x' /\
      x' = AWorld w' (qafter (aw_alloc x) a c) (qshown_after (aw_shown x) c) (remade (w_heap (aw_world x)) (w_heap w') (aw_maker x) a) /\
      consistent K w' M' /\
      (forall k c' n, M' !! k = Some c' -> n ∈ caddrs K c' ->
         (w_heap (aw_world x) !! n = None /\ pgains c = Some k) \/ exists j d, ptakes M c k j /\ M !! j = Some d /\ n ∈ caddrs K d) /\
      (forall k d n, M !! k = Some d -> n ∈ caddrs K d -> ploses c = Some k \/ is_Some (w_heap w' !! n)).
  Proof using All.
    intros H [Ho1 Ho2] Hv HF. destruct (origin (aw_world x) M c H ltac:(destruct c; exact Hv) HF) as (w' & M' & E & H' & Hf & Hs).
    exists w', M'. eexists. split; [|split; [reflexivity|auto]]. cbn [qstep]. rewrite E. unfold qsettle. rewrite bool_decide_eq_true_2; [reflexivity|].
    intros n m Hm Hgone. destruct (proj1 (wo_owned _ _ _ _ _ H n)) as (k & d & Hk & Hn); [apply Ho2; eauto|].
    pose proof (Ho1 k d n Hk Hn) as Em. rewrite Hm in Em. injection Em as ->.
    destruct (Hs k d n Hk Hn) as [Hl|[y Hy]]; [|congruence]. destruct c; cbn in Hl |- *; try discriminate; congruence.
  Qed.
  Lemma qstep_ok (x : aworld Nd) M c : consistent K (aw_world x) M -> own_made K x M -> qvalid F im K (aw_world x) M c -> qunmixed K (aw_alloc x) M c ->
    size (w_heap (aw_world x)) < F ->
    exists x' M', qstep F im mv al x c = Good x' /\ consistent K (aw_world x') M' /\ own_made K x' M'.
  Proof using All.
    intros H Ho Hv Hu HF. destruct c as [a c|c]; [|exact (astep_ok F im al K HK HFW x M c H Ho Hv Hu HF)].
    destruct (qrun x M a c H Ho Hv HF) as (w' & M' & x' & E & -> & H' & Hf & _). eexists _, M'. split; [exact E|]. cbn [aw_world]. split; [exact H'|].
    destruct Ho as [Ho1 Ho2]. split; cbn [aw_maker aw_alloc aw_world]; [|intros n Hn; exact (remade_in _ _ _ _ _ Hn)].
    intros k c' n Hk Hn. rewrite remade_lookup by exact (inside w' M' k c' n H' Hk Hn).
    destruct (Hf k c' n Hk Hn) as [[E0 Hg]|(j & d & Ht & Hj & Hd)].
    - rewrite E0. f_equal. destruct c; cbn in Hg |- *; try discriminate; injection Hg as ->; rewrite put_eq; reflexivity.
    - destruct (inside (aw_world x) M j d n H Hj Hd) as [y Hy]. rewrite Hy, (Ho1 j d n Hj Hd). f_equal.
      assert (Hnil : forall i, M !! i = Some (cnil K) -> j <> i).
      { intros i Hi ->. rewrite Hi in Hj. injection Hj as <-. exact (nil_no n Hd). }
      assert (Hold : forall i m, M !! i = None -> j = k -> aw_alloc x j = put (aw_alloc x) i m k).
      { intros i m Hi ->. rewrite put_ne; [reflexivity|]. intros ->. congruence. }
      destruct c as [p v|p l|p i|p q|p|i p s r|i p|c]; [| | | | | | |destruct Hv]; cbn [qvalid pvalid qunmixed ptakes qafter] in *.
      + apply Hold; assumption.
      + apply Hold; [apply Hv|exact Ht].
      + apply Hold; [apply Hv|exact Ht].
      + destruct Ht as [(-> & -> & Hl)|[Hk1 ->]]; [|rewrite put_ne by exact Hk1; reflexivity]. rewrite put_eq. destruct Hu as [Hu|Hu]; [|exact Hu].
        destruct (Hl d Hj (Hu d Hj)).
      + subst j. reflexivity.
      + destruct Ht as [[-> ->]|[Hk1 ->]]; [|rewrite put_ne by exact Hk1; reflexivity]. rewrite put_eq. destruct Hu as [Hu|Hu]; [destruct (Hnil _ Hu eq_refl)|exact Hu].
      + destruct Ht as [[-> ->]|[Hk1 ->]]; [|reflexivity]. destruct Hu as [Hu|Hu]; [destruct (Hnil _ Hu eq_refl)|auto].
  Qed.
  Lemma qreach_own x : qreach F im mv al K x -> exists M, consistent K (aw_world x) M /\ own_made K x M.
  Proof using All.
    induction 1 as [|x M c x' Hx (M0 & Hc0 & Ho) Hc Hv Hu HF E].
    - exists ∅. split; [exact (empty_ok F im mv al K HO HFW)|]. split; [intros i c a H; discriminate|intros a [m H]; cbn in H; discriminate].
    - assert (M0 = M) as -> by exact (contents_unique HK _ M0 M Hc0 Hc).
      destruct (qstep_ok x M c Hc Ho Hv Hu HF) as (x2 & M' & E2 & H'). rewrite E in E2. injection E2 as <-. exists M'. exact H'.
  Qed.
  (** Nodes that go to an owner with another allocator go back to the wrong one. *)
  Lemma goes_wrong (x : aworld Nd) M a c i j d n : consistent K (aw_world x) M -> own_made K x M -> qvalid F im K (aw_world x) M (QOwn a c) ->
    size (w_heap (aw_world x)) < F -> M !! j = Some d -> n ∈ caddrs K d -> ploses c <> Some j ->
    (forall M' k c', consistent K (match pexec F im mv al (aw_world x) c with Ret _ w' | Throw w' => w' | Bad _ => aw_world x end) M' ->
       M' !! k = Some c' -> n ∈ caddrs K c' -> k = i) ->
    qafter (aw_alloc x) a c i <> aw_alloc x j ->
    exists x', qstep F im mv al x (QOwn a c) = Good x' /\
      (size (w_heap (aw_world x')) < F -> qstep F im mv al x' (QTree (ACall (CDestroy i))) = WrongAllocator).
  Proof using All.
    intros H Ho Hv HF Hj Hn Hl Hi Hne. destruct (qrun x M a c H Ho Hv HF) as (w' & M' & x' & E & -> & H' & Hf & Hs).
    eexists. split; [exact E|]. cbn [aw_world]. intros HF'. destruct (Hs j d n Hj Hn) as [?|Hin]; [congruence|].
    destruct (proj1 (wo_owned _ _ _ _ _ H' n) Hin) as (k & c' & Hk & Hn').
    assert (Ew : match pexec F im mv al (aw_world x) c with Ret _ w' | Throw w' => w' | Bad _ => aw_world x end = w').
    { cbn [qstep] in E. unfold qsettle in E. destruct (pexec F im mv al (aw_world x) c) as [[] w2|w2|e]; [| |discriminate];
        (case_bool_decide; [|discriminate]); injection E as ->; reflexivity. }
    rewrite Ew in Hi. assert (k = i) as -> by exact (Hi M' k c' H' Hk Hn').
    destruct (inside (aw_world x) M j d n H Hj Hn) as [y Hy].
    apply (destroy_wrong F im al K HK HFW _ M' i c' n (aw_alloc x j)); cbn [aw_world aw_maker aw_alloc]; try assumption; [|congruence].
    rewrite remade_lookup by exact Hin. rewrite Hy. destruct Ho as [Ho _]. exact (Ho j d n Hj Hn).
  Qed.
End Q.
