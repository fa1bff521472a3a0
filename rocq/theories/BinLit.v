(** BinLit.v: binary nodes built from, and compared with, structure literals. *)
From Verif Require Import Base Spec StructNode LitFacts BinaryNode Rep BinOrder BinRep BinOps.

Section BinLit.
  Context {V : Type} `{EqDecision V}.
  Notation heap := (gmap addr (bnode V)).
  Notation btree := (bin (addr * V)).

  Definition built_from (al : allocator (bnode V)) (s : snode V) : Prop :=
    forall l ls h, reads s (l :: ls) -> is_valid_node s = true ->
    exists a h' t', b_from_struct al h s = Ok (a, h') /\ baddr t' = Some a /\
      bin_map snd t' = lit_bin l /\ bbuilt h h' t'.

  Lemma slot_ok al (s : snode V) (h0 : heap) l ls :
    built_from al s -> reads s (l :: ls) ->
    exists h1 t', (if is_valid_node s then '(x, h') ← b_from_struct al h0 s; Ok (Some x, h') else Ok (None, h0))
               = Ok (baddr t', h1) /\ bin_map snd t' = lit_bin l /\ bbuilt h0 h1 t'.
  Proof.
    intros Hs Hr. destruct (is_valid_node s) eqn:Ev.
    - destruct (Hs l ls h0 Hr Ev) as (a & h' & t' & -> & Ha & Hm & Hb). exists h', t'. cbn. rewrite Ha. auto.
    - exists h0, BLeaf. split; [reflexivity|]. split; [|apply bbuilt_leaf].
      destruct s as [|[v|] lv i fc ns]; [destruct Hr|discriminate|]. destruct l; [reflexivity|destruct Hr].
  Qed.

  Lemma b_from_struct_both al (s : snode V) : built_from al s /\ built_from al (s_next_sibling s).
  Proof.
    induction s as [|v lv i fc [IHf IHfn] ns [IHn _]].
    - split; intros l ls h _ Hv; discriminate.
    - split; [|exact IHn]. intros l ls h Hr Hv. destruct v as [v|]; [|discriminate].
      destruct l as [|v' cs]; [destruct Hr|]. cbn in Hr. destruct Hr as (-> & Hf & _).
      cbn [b_from_struct]. unfold b_alloc. set (a' := new_addr al h). pose proof (new_addr_fresh al h) as Hfree.
      fold a' in Hfree. set (h0 := <[a' := BNodeR v' None None None]> h).
      destruct cs as [|c1 cs].
      + destruct fc as [|[?|] ? ? ? ?]; [|destruct Hf|destruct Hf]. cbn.
        destruct (b_assemble h a' v' h0 BLeaf Hfree (bbuilt_leaf _)) as (h1' & He & _ & Hrest).
        cbn in He. rewrite He. cbn.
        destruct (Hrest h1' BLeaf (bbuilt_leaf _)) as (h2' & h3 & He2 & Hat & Hb). cbn in He2. rewrite He2. cbn.
        rewrite Hat. cbn. exists a', h3, (BNode (a', v') BLeaf BLeaf). auto.
      + destruct (slot_ok al fc h0 c1 cs IHf Hf) as (h1 & t1 & -> & Hm1 & Hb1). cbn [mbind res_bind].
        destruct (b_assemble h a' v' h1 t1 Hfree Hb1) as (h1' & -> & _ & Hrest). cbn [mbind res_bind].
        destruct fc as [|fv flv fi ffc sib]; [destruct Hf|].
        assert (Hsib : reads sib cs) by (destruct fv, c1; cbn in Hf; tauto).
        cbn [s_next_sibling] in IHfn.
        assert (Hslot : exists h2 t2,
                  (if is_valid_node sib then '(x, h') ← b_from_struct al h1' sib; Ok (Some x, h') else Ok (None, h1'))
                  = Ok (baddr t2, h2) /\
                  bin_map snd t2 = match cs with [] => BLeaf | c2 :: _ => lit_bin c2 end /\ bbuilt h1' h2 t2).
        { destruct cs as [|c2 cs].
          - destruct sib as [|[?|] ? ? ? ?]; [|destruct Hsib|destruct Hsib]. exists h1', BLeaf.
            split; [reflexivity|]. split; [reflexivity|apply bbuilt_leaf].
          - eapply slot_ok; eassumption. }
        destruct Hslot as (h2 & t2 & -> & Hm2 & Hb2). cbn [mbind res_bind].
        destruct (Hrest h2 t2 Hb2) as (h2' & h3 & -> & Hat & Hb). cbn [mbind res_bind]. rewrite Hat. cbn.
        exists a', h3, (BNode (a', v') t1 t2). split; [reflexivity|]. split; [reflexivity|]. split; [|exact Hb].
        cbn. rewrite Hm1, Hm2. destruct cs; reflexivity.
  Qed.
  Lemma b_from_struct_ok al v cs (h : heap) :
    exists a h' t', b_from_struct al h (eval_lit (LNode v cs)) = Ok (a, h') /\ baddr t' = Some a /\
      bin_map snd t' = lit_bin (LNode v cs) /\ bbuilt h h' t'.
  Proof.
    apply (proj1 (b_from_struct_both al _) (LNode v cs) []); [apply reads_eval|].
    destruct cs; reflexivity.
  Qed.

  (** Comparison with a literal. *)
  Lemma rarity_le2 (l : lit V) : two_slots l -> list_max (map rarity (lit_rose l)) <= 2.
  Proof.
    induction l as [|v cs IH] using lit_ind'; [cbn; lia|]. rewrite two_slots_cons. intros [Hlen Hall].
    cbn [lit_rose map rarity list_max foldr]. rewrite Nat.max_0_r. apply Nat.max_lub.
    - clear IH Hall. enough (length (flat_map lit_rose cs) <= length cs) by lia. clear Hlen.
      induction cs as [|c cs IH]; cbn; [lia|]. rewrite app_length, lit_rose_length. destruct c; cbn; lia.
    - clear Hlen. induction IH as [|c cs Hc _ IH']; [cbn; lia|]. inversion Hall; subst.
      cbn [flat_map]. rewrite map_app. change (list_max (map rarity (lit_rose c) ++ map rarity (flat_map lit_rose cs)) <= 2).
      rewrite list_max_app. apply Nat.max_lub; auto.
  Qed.
  Definition compared (s : snode V) : Prop :=
    forall l ls h par t a, reads s (l :: ls) -> two_slots l -> is_valid_node s = true ->
    brep h par t -> baddr t = Some a ->
    b_eq_struct h (Some a) s = Ok (bool_decide (bin_map snd t = lit_bin l)).

  Lemma count_slots (l r : btree) :
    ((if is_null (baddr l) then 0 else 1) + (if is_null (baddr r) then 0 else 1))%N
    = N.of_nat (length (bin_forest (bin_map snd l)) + length (bin_forest (bin_map snd r))).
  Proof. destruct l as [|[? ?] ? ?], r as [|[? ?] ? ?]; reflexivity. Qed.
  Lemma null_map (t : btree) : is_null (baddr t) = match bin_map snd t with BLeaf => true | _ => false end.
  Proof. destruct t as [|[? ?] ? ?]; reflexivity. Qed.
  Lemma bin_nil (t : btree) : baddr t = None -> t = BLeaf.
  Proof. destruct t as [|[? ?] ? ?]; [reflexivity|discriminate]. Qed.

  Lemma b_eq_struct_both (s : snode V) : compared s /\ compared (s_next_sibling s).
  Proof.
    induction s as [|v lv i fc [IHf IHfn] ns [IHn _]].
    - split; intros l ls h par t a _ _ Hv; discriminate.
    - split; [|exact IHn]. intros l ls h par t a Hr Ht Hv Hrep Ha. destruct v as [v|]; [|discriminate].
      destruct l as [|v' cs]; [destruct Hr|]. pose proof Hr as Hr0. cbn in Hr. destruct Hr as (-> & Hf & _).
      apply baddr_root in Ha as (w & tl & tr & ->). cbn [brep] in Hrep. destruct Hrep as (Hx & Hl & Hr).
      assert (Har : (2 <? subtree_arity (SN (Some v') lv i fc ns))%N = false).
      { rewrite (subtree_arity_ok _ _ _ Hr0). apply N.ltb_ge. pose proof (rarity_le2 _ Ht). lia. }
      pose proof (s_children_ok _ _ _ _ Hr0) as Hch.
      cbn [b_eq_struct]. unfold b_children. rewrite !(deref_Some _ _ _ Hx), Har. cbn [mbind res_bind bval bleft bright].
      destruct (decide (w = v')) as [->|Hwv].
      2:{ rewrite (bool_decide_eq_false_2 (w = v')) by exact Hwv. cbn [negb].
          rewrite bool_decide_eq_false_2; [reflexivity|]. cbn. destruct cs as [|? [|? ?]]; congruence. }
      rewrite (bool_decide_eq_true_2 (v' = v')) by reflexivity. cbn [negb mbind res_bind].
      rewrite Hch, count_slots. clear Hch Har.
      apply two_slots_cons in Ht as [Hlen Hall].
      destruct cs as [|c1 cs].
      { destruct fc as [|[?|] ? ? ? ?]; [|destruct Hf|destruct Hf]. cbn [is_empty orb flat_map length].
        destruct tl as [|[? ?] ? ?]; cbn.
        - destruct tr as [|[? ?] ? ?]; cbn.
          + rewrite bool_decide_eq_true_2; reflexivity.
          + rewrite bool_decide_eq_false_2; [reflexivity|discriminate].
        - rewrite bool_decide_eq_false_2; [reflexivity|discriminate]. }
      destruct fc as [|fv flv fi ffc sib]; [destruct Hf|].
      inversion Hall as [|? ? Hc1 Hcs]; subst.
      assert (Hsib : reads sib cs) by (destruct fv, c1; cbn in Hf; tauto).
      cbn [s_next_sibling] in IHfn.
      assert (He1 : (is_empty (SN fv flv fi ffc sib) || is_empty_node (SN fv flv fi ffc sib)) =
                    match lit_bin c1 with BLeaf => true | _ => false end).
      { destruct fv as [fv|], c1 as [|? [|? [|? ?]]]; cbn in Hf |- *; tauto. }
      rewrite He1. rewrite null_map.
      assert (HL : forall pa, brep h pa tl ->
                is_null (baddr tl) = (match lit_bin c1 with BLeaf => true | _ => false end) ->
                (if is_empty_node (SN fv flv fi ffc sib) then Ok true else b_eq_struct h (baddr tl) (SN fv flv fi ffc sib))
                = Ok (bool_decide (bin_map snd tl = lit_bin c1))).
      { intros pa Hpa Hnull. destruct fv as [fv|], c1 as [|cv ccs]; cbn [reads] in Hf; try tauto; cbn [is_empty_node].
        - destruct (baddr tl) as [b|] eqn:Eb.
          + exact (IHf (LNode cv ccs) cs h pa tl b Hf Hc1 eq_refl Hpa Eb).
          + destruct ccs as [|? [|? ?]]; discriminate.
        - destruct tl as [|[? ?] ? ?]; [|discriminate]. rewrite bool_decide_eq_true_2; reflexivity. }
      set (c2 := match cs with [] => LEmpty | c2 :: _ => c2 end).
      assert (Hlit : lit_bin (LNode v' (c1 :: cs)) = BNode v' (lit_bin c1) (lit_bin c2)) by (destruct cs; reflexivity).
      assert (Hlen2 : length (flat_map lit_rose (c1 :: cs)) = length (lit_rose c1) + length (lit_rose c2)).
      { cbn. rewrite app_length. destruct cs as [|x [|y cs]]; cbn in Hlen |- *; [lia| |lia]. rewrite app_nil_r. reflexivity. }
      rewrite Hlit, Hlen2.
      assert (Hc2 : two_slots c2) by (destruct cs; [exact I|inversion Hcs; assumption]).
      assert (HR : forall pa, brep h pa tr ->
                length (bin_forest (bin_map snd tr)) = length (lit_rose c2) ->
                (match sib with SNil => Ok true | _ => if is_empty_node sib then Ok true else b_eq_struct h (baddr tr) sib end)
                = Ok (bool_decide (bin_map snd tr = lit_bin c2))).
      { intros pa Hpa Hk. destruct cs as [|x cs].
        - destruct sib as [|[?|] ? ? ? ?]; [|destruct Hsib|destruct Hsib].
          subst c2. cbn in Hk |- *. destruct tr as [|[? ?] ? ?]; [|discriminate]. rewrite bool_decide_eq_true_2; reflexivity.
        - subst c2. destruct sib as [|sv sl si sfc sns]; [destruct Hsib|].
          destruct sv as [sv|], x as [|xv xcs]; cbn [reads] in Hsib; try tauto; cbn [is_empty_node].
          + destruct tr as [|[b ?] ? ?]; [discriminate|]. exact (IHfn (LNode xv xcs) cs h pa _ b Hsib Hc2 eq_refl Hpa eq_refl).
          + destruct tr as [|[? ?] ? ?]; [|discriminate]. rewrite bool_decide_eq_true_2; reflexivity. }
      assert (Hlb : forall c : lit V, length (lit_rose c) = match lit_bin c with BLeaf => 0 | _ => 1 end).
      { intros [|? [|? [|? ?]]]; reflexivity. }
      destruct (Bool.eqb (match bin_map snd tl with BLeaf => true | _ => false end)
                         (match lit_bin c1 with BLeaf => true | _ => false end)) eqn:En; cbn [negb orb].
      2:{ rewrite bool_decide_eq_false_2; [reflexivity|]. cbn. intros [=Heq _]. rewrite Heq in En.
          destruct (lit_bin c1); discriminate. }
      assert (Hn1 : length (bin_forest (bin_map snd tl)) = length (lit_rose c1)).
      { rewrite Hlb. destruct (bin_map snd tl), (lit_bin c1); try discriminate; reflexivity. }
      destruct (N.eqb_spec (N.of_nat (length (bin_forest (bin_map snd tl)) + length (bin_forest (bin_map snd tr))))
                  (N.of_nat (length (lit_rose c1) + length (lit_rose c2)))) as [Heq|Hne]; cbn [negb].
      2:{ rewrite bool_decide_eq_false_2; [reflexivity|]. cbn. intros [=_ Heq]. apply Hne. rewrite Heq, Hn1, (Hlb c2).
          destruct (lit_bin c2); reflexivity. }
      rewrite (HL _ Hl).
      2:{ rewrite null_map. apply Bool.eqb_prop, En. }
      cbn [mbind res_bind]. destruct (decide (bin_map snd tl = lit_bin c1)) as [Htl|Htl].
      2:{ rewrite (bool_decide_eq_false_2 (_ = lit_bin c1)) by exact Htl. cbn [negb].
          rewrite bool_decide_eq_false_2; [reflexivity|]. cbn. congruence. }
      rewrite (bool_decide_eq_true_2 (_ = lit_bin c1)) by exact Htl. cbn [negb].
      rewrite (HR _ Hr) by lia. cbn [mbind res_bind].
      destruct (decide (bin_map snd tr = lit_bin c2)) as [Htr|Htr].
      + rewrite (bool_decide_eq_true_2 (_ = lit_bin c2)) by exact Htr. cbn [negb].
        rewrite bool_decide_eq_true_2; [reflexivity|]. cbn. congruence.
      + rewrite (bool_decide_eq_false_2 (_ = lit_bin c2)) by exact Htr. cbn [negb].
        rewrite bool_decide_eq_false_2; [reflexivity|]. cbn. congruence.
  Qed.
  Lemma b_eq_struct_ok v cs (h : heap) par t a : two_slots (LNode v cs) -> brep h par t -> baddr t = Some a ->
    b_eq_struct h (Some a) (eval_lit (LNode v cs)) = Ok (bool_decide (bin_map snd t = lit_bin (LNode v cs))).
  Proof.
    intros Ht Hr Ha. eapply (proj1 (b_eq_struct_both _) (LNode v cs) []); [apply reads_eval|exact Ht| |exact Hr|exact Ha].
    destruct cs; reflexivity.
  Qed.
End BinLit.
