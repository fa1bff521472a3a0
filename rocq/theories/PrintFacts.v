(** PrintFacts.v: the printing of trees, proofs (C54). *)
From Verif Require Import Base Spec StructNode BinaryNode NaryNode Nav Policy Tree Rep RoseFacts NavFacts Print PrintSpec.
Local Open Scope string_scope.

Lemma sapp_assoc (a b c : string) : (a ++ b) ++ c = a ++ (b ++ c).
Proof. induction a as [|x a IH]; [reflexivity|]. exact (f_equal (String x) IH). Qed.
Lemma sapp_nil (a : string) : a ++ "" = a.
Proof. induction a as [|x a IH]; [reflexivity|]. exact (f_equal (String x) IH). Qed.
Lemma concat_cons sep (a : string) l : String.concat sep (a :: l) = a ++ foldr (fun x r => sep ++ x ++ r) "" l.
Proof.
  revert a. induction l as [|b l IH]; intros a; [cbn; rewrite sapp_nil; reflexivity|].
  change (String.concat sep (a :: b :: l)) with (a ++ sep ++ String.concat sep (b :: l)).
  rewrite IH. reflexivity.
Qed.

Section Core.
  Context {V Nd : Type}.
  Variable im : node_impl V Nd.
  Variable right_child : gmap addr Nd -> ptr -> res bool.
  Variable show : V -> string.
  Variable inc : nat.
  Variable h : gmap addr Nd.
  Variable hole : addr * V -> bool.
  Notation tree := (rose (addr * V)).
  Notation pnode := (print_node im right_child show inc h).
  Notation prest := (print_rest im right_child show inc h).
  Notation text := (item_text show inc).

  (** The literal of a tree whose node [x] has [n()] before its children if [hole x]. *)
  Fixpoint hlit (t : tree) : lit V :=
    match t with
    | Rose x cs => LNode (snd x) (app (match cs with [] => [] | _ => if hole x then [LEmpty] else [] end) (map hlit cs))
    end.

  Definition good (t : tree) : Prop :=
    ops_ok (ni_ops im h) (rose_map fst t) /\
    (forall y, y ∈ preorder t -> ni_value im h (Some (fst y)) = Ok (snd y)) /\
    (forall x c cs, rsubtree (Rose x (c :: cs)) t -> right_child h (Some (raddr c)) = Ok (hole x)).

  Lemma good_kids x cs : good (Rose x cs) -> Forall good cs.
  Proof.
    intros (Ho & Hv & Hr). apply ops_ok_unfold in Ho as (_ & _ & _ & Hf).
    apply Forall_forall. intros c Hc. split; [|split].
    - rewrite Forall_forall in Hf. apply Hf. apply elem_of_list_fmap. exists c. split; [reflexivity|exact Hc].
    - intros y Hy. apply Hv. right. apply elem_of_list_In, in_flat_map. exists c. split; apply elem_of_list_In; assumption.
    - intros y d ds Hs. eapply Hr. eapply rsub_child; eassumption.
  Qed.

  Definition fsize (cs : list tree) : nat := list_sum (map rsize cs).
  Definition vals (cs : list tree) : list V := map snd (flat_map preorder cs).
  Definition dots (is : list (item V)) : item V :=
    IDots (forallb (fun i => match i with INode _ _ => false | _ => true end) is).

  (** The loop over the siblings [cs] of nodes already printed. *)
  Definition rest_post (cs : list tree) (lim : Z) (its : list (item V)) (l' : Z) : Prop :=
    ((cs = [] \/ (Z.of_nat (fsize cs) < lim)%Z) /\ its = map whole (map hlit cs) /\ l' = (lim - Z.of_nat (fsize cs))%Z)
    \/ ((lim <= Z.of_nat (fsize cs))%Z /\ (l' <= 0)%Z /\
        exists ls rs its', cs = app ls rs /\ its = app its' (match rs with [] => [] | _ => [IDots false] end) /\ Forall2 shown (map hlit ls) its' /\
          flat_map item_values its' = firstn (Z.to_nat (lim - 1)) (vals cs)).
  Definition node_post (t : tree) (lim : Z) (it : item V) (l' : Z) : Prop :=
    shown (hlit t) it /\ item_values it = firstn (Z.to_nat lim) (map snd (preorder t)) /\
    (((Z.of_nat (rsize t) <= lim)%Z /\ it = whole (hlit t) /\ l' = (lim - Z.of_nat (rsize t) + 1)%Z)
     \/ ((lim < Z.of_nat (rsize t))%Z /\ (l' <= 0)%Z)).

  Lemma shown_whole (l : lit V) : shown l (whole l).
  Proof.
    induction l as [|v cs IH] using lit_ind'; cbn; constructor.
    induction IH as [|c cs Hc _ IHc]; cbn; constructor; assumption.
  Qed.
  Lemma shown_wholes (ls : list (lit V)) : Forall2 shown ls (map whole ls).
  Proof. induction ls; constructor; [apply shown_whole|assumption]. Qed.
  Lemma whole_values (t : tree) : item_values (whole (hlit t)) = map snd (preorder t).
  Proof.
    induction t as [x cs IH] using rose_ind'. cbn. f_equal. rewrite map_app, flat_map_app.
    replace (flat_map item_values (map whole (match cs with [] => [] | _ => if hole x then [LEmpty] else [] end))) with (@nil V)
      by (destruct cs, (hole x); reflexivity). cbn [app].
    induction IH as [|c cs Hc _ IHc]; [reflexivity|]. cbn. rewrite Hc, IHc, map_app. reflexivity.
  Qed.
  Lemma wholes_values (cs : list tree) : flat_map item_values (map whole (map hlit cs)) = vals cs.
  Proof. induction cs as [|c cs IH]; [reflexivity|]. cbn. unfold vals in *. cbn. rewrite map_app, whole_values, IH. reflexivity. Qed.
  Lemma length_vals (cs : list tree) : List.length (vals cs) = fsize cs.
  Proof.
    unfold vals, fsize. rewrite map_length. induction cs as [|c cs IH]; [reflexivity|]. cbn. rewrite app_length, length_preorder, IH. reflexivity.
  Qed.
  Lemma node_values (t : tree) : List.length (map snd (preorder t)) = rsize t.
  Proof. rewrite map_length. apply length_preorder. Qed.
  Lemma vals_cons c cs : vals (c :: cs) = app (map snd (preorder c)) (vals cs).
  Proof. unfold vals. cbn. apply map_app. Qed.
  Lemma fsize_cons c cs : fsize (c :: cs) = rsize c + fsize cs.
  Proof. reflexivity. Qed.
  Lemma item_of_node t it : shown (hlit t) it -> exists v is, it = INode v is.
  Proof. destruct t as [x cs]. cbn. intros Hs. inversion Hs; subst; eauto. Qed.
  Lemma text_out o o' ind t it : shown (hlit t) it -> text o ind it = text o' ind it.
  Proof. intros Hs. destruct (item_of_node _ _ Hs) as (v & is & ->). reflexivity. Qed.
  Lemma hlit_node t : exists v ls, hlit t = LNode v ls.
  Proof. destruct t as [x cs]. cbn. eauto. Qed.

  Definition head (cs : list tree) : ptr := match cs with [] => None | c :: _ => Some (raddr c) end.
  Definition linked (cs : list tree) : Prop :=
    forall ls s rs, cs = app ls (s :: rs) -> op_next (ni_ops im h) (Some (raddr s)) = Ok (head rs).
  Lemma linked_tail c cs : linked (c :: cs) -> linked cs.
  Proof. intros H ls s rs ->. apply (H (c :: ls) s rs). reflexivity. Qed.
  Lemma head_eq cs : head_label (map (rose_map fst) cs) = head cs.
  Proof. destruct cs as [|[x ds] cs]; reflexivity. Qed.
  Lemma good_links x cs : good (Rose x cs) -> op_first (ni_ops im h) (Some (fst x)) = Ok (head cs) /\ linked cs.
  Proof.
    intros (Ho & _). apply ops_ok_unfold in Ho as (Hf & _ & Hn & _). rewrite head_eq in Hf. split; [exact Hf|].
    intros ls s rs ->. destruct (Hn (map (rose_map fst) ls) (rose_map fst s) (map (rose_map fst) rs)) as (_ & _ & H).
    { rewrite map_app. reflexivity. }
    rewrite head_eq in H. destruct s as [y ds]. exact H.
  Qed.

  Definition tail_text (ind : nat) (its : list (item V)) : string :=
    foldr (fun x r => ("," ++ line) ++ x ++ r) "" (map (text ind (ind + inc)) its).

  Lemma rest_node c cs lim itc l1 its l' :
    (0 < lim)%Z -> node_post c lim itc l1 -> rest_post cs l1 its l' ->
    ((Z.of_nat (fsize (c :: cs)) <= lim)%Z /\ itc :: its = map whole (map hlit (c :: cs)) /\ l' = (lim + 1 - Z.of_nat (fsize (c :: cs)))%Z)
    \/ ((lim < Z.of_nat (fsize (c :: cs)))%Z /\ (l' <= 0)%Z /\
        exists ls rs its', cs = app ls rs /\ its = app its' (match rs with [] => [] | _ => [IDots false] end) /\ Forall2 shown (map hlit (c :: ls)) (itc :: its') /\
          flat_map item_values (itc :: its') = firstn (Z.to_nat lim) (vals (c :: cs))).
  Proof.
    intros Hl (Hs & Hv & Hc) Hr. rewrite fsize_cons, vals_cons. pose proof (node_values c) as Lc. pose proof (length_vals cs) as Lcs.
    destruct Hc as [(Hc & -> & ->)|(Hc & Hl1)].
    - destruct Hr as [(Hr & -> & ->)|(Hr & Hl' & ls & rs & its' & -> & -> & Hf & Hvs)].
      + left. split; [|split; [reflexivity|lia]]. destruct Hr as [-> |Hr]; [cbn|]; lia.
      + right. split; [lia|]. split; [exact Hl'|]. exists ls, rs, its'. split; [reflexivity|]. split; [reflexivity|].
        split; [cbn; constructor; [apply shown_whole|exact Hf]|].
        cbn [flat_map]. rewrite whole_values, Hvs. rewrite take_app_ge by (rewrite Lc; lia). rewrite Lc. f_equal. f_equal. lia.
    - destruct Hr as [([-> |Hr] & -> & ->)|(Hr & Hl' & ls & rs & its' & -> & -> & Hf & Hvs)].
      + right. split; [lia|]. split; [cbn; lia|]. exists [], [], []. split; [reflexivity|]. split; [reflexivity|].
        split; [cbn; constructor; [exact Hs|constructor]|]. cbn [flat_map].
        rewrite Hv, app_nil_r. rewrite take_app_le by (rewrite Lc; lia). reflexivity.
      + exfalso. lia.
      + right. split; [lia|]. split; [exact Hl'|]. exists ls, rs, its'. split; [reflexivity|]. split; [reflexivity|].
        split; [cbn; constructor; [exact Hs|exact Hf]|].
        cbn [flat_map]. rewrite Hvs, Hv. replace (Z.to_nat (l1 - 1)) with 0 by lia. rewrite take_app_le by (rewrite Lc; lia).
        cbn [firstn]. rewrite app_nil_r. reflexivity.
  Qed.

  Lemma pnode_S n p ind lim : pnode (S n) p ind lim =
    (if (lim <=? 0)%Z then Ok ("", lim)
     else
       v ← ni_value im h p;
       current ← op_first (ni_ops im h) p;
       match current with
       | None => Ok (spaces ind ++ "n(" ++ show v ++ ")", lim)
       | Some _ =>
           r ← right_child h current;
           '(body, l) ←
             (if (0 <? lim - 1)%Z then
                '(s, l) ← pnode n current (ind + inc) (lim - 1)%Z;
                next ← op_next (ni_ops im h) current;
                '(s', l) ← prest n next ind l;
                Ok (s ++ s', l)
              else Ok (spaces (ind + 4) ++ "...", (lim - 1)%Z));
           Ok ((spaces ind ++ "n(" ++ show v ++ ")") ++ "(" ++ newline ++
               (if r : bool then spaces (ind + inc) ++ "n()," ++ newline else "") ++ body ++ ")", l)
       end).
  Proof. reflexivity. Qed.
  Lemma prest_S n p ind lim : prest (S n) p ind lim =
    match p with
    | None => Ok ("", lim)
    | Some _ =>
        if (0 <? lim - 1)%Z then
          '(s, l) ← pnode n p (ind + inc) (lim - 1)%Z;
          next ← op_next (ni_ops im h) p;
          '(s', l) ← prest n next ind l;
          Ok ("," ++ newline ++ s ++ s', l)
        else Ok ("," ++ newline ++ spaces (ind + inc) ++ "...", (lim - 1)%Z)
    end.
  Proof. reflexivity. Qed.

  Lemma print_ok n :
    (forall t ind lim, good t -> rsize t <= n -> (0 < lim)%Z ->
       exists it l', pnode n (Some (raddr t)) ind lim = Ok (text 0 ind it, l') /\ node_post t lim it l') /\
    (forall cs ind lim, Forall good cs -> linked cs -> fsize cs < n ->
       exists its l', prest n (head cs) ind lim = Ok (tail_text ind its, l') /\ rest_post cs lim its l').
  Proof.
    induction n as [|n [IHn IHr]].
    { split; [|intros; lia]. intros [x cs] ind lim _ Hn. cbn in Hn. lia. }
    split.
    - intros [x cs] ind lim Hg Hn Hl. destruct (good_links x cs Hg) as [Hfst Hlk]. pose proof (good_kids _ _ Hg) as Hk.
      destruct Hg as (_ & Hval & Hright).
      rewrite pnode_S. destruct (Z.leb_spec lim 0) as [Hx|_]; [lia|]. change (raddr (Rose x cs)) with (fst x).
      rewrite (Hval x) by left. cbn [mbind res_bind]. rewrite Hfst. cbn [mbind res_bind].
      destruct cs as [|c cs].
      { cbn [head]. exists (INode (snd x) []), lim. split; [cbn; change spaces with blanks; rewrite sapp_nil; reflexivity|].
        split; [cbn; constructor; constructor|]. split; [cbn; replace (Z.to_nat lim) with (S (Z.to_nat (lim - 1))) by lia; cbn; rewrite firstn_nil; reflexivity|].
        left. cbn. split; [lia|]. split; [reflexivity|lia]. }
      cbn [head]. rewrite (Hright x c cs) by constructor. cbn [mbind res_bind].
      set (hs := if hole x then [LEmpty] else @nil (lit V)). set (hi := if hole x then [INone] else @nil (item V)).
      assert (Hhs : Forall2 shown hs hi) by (unfold hs, hi; destruct (hole x); repeat constructor).
      assert (Hhv : flat_map item_values hi = []) by (unfold hi; destruct (hole x); reflexivity).
      assert (Hhw : hi = map whole hs) by (unfold hi, hs; destruct (hole x); reflexivity).
      change (hlit (Rose x (c :: cs))) with (LNode (snd x) (app hs (map hlit (c :: cs)))) in *.
      change (rsize (Rose x (c :: cs))) with (S (fsize (c :: cs))) in Hn. rewrite fsize_cons in Hn.
      apply Forall_cons in Hk as [Hkc Hks]. pose proof (rsize_pos c) as Hpos.
      assert (Htext : forall it0 its, text 0 ind (INode (snd x) (app hi (it0 :: its))) =
        (spaces ind ++ "n(" ++ show (snd x) ++ ")") ++ "(" ++ newline ++ (if hole x then spaces (ind + inc) ++ "n()," ++ newline else "") ++
        (text ind (ind + inc) it0 ++ tail_text ind its) ++ ")").
      { intros it0 its. unfold hi, tail_text. destruct (hole x); cbn [app item_text].
        - rewrite map_cons, concat_cons. rewrite map_cons. cbn [foldr]. cbn [item_text]. change spaces with blanks; rewrite !sapp_assoc. reflexivity.
        - rewrite map_cons, concat_cons. change spaces with blanks; rewrite !sapp_assoc. reflexivity. }
      destruct (Z.ltb_spec 0 (lim - 1)) as [Hlim|Hlim].
      + destruct (IHn c (ind + inc) (lim - 1)%Z Hkc ltac:(lia) Hlim) as (itc & l1 & E1 & P1). rewrite E1. cbn [mbind res_bind].
        rewrite (Hlk [] c cs eq_refl). cbn [mbind res_bind].
        destruct (IHr cs ind l1 Hks (linked_tail _ _ Hlk) ltac:(lia)) as (its & l' & E2 & P2). rewrite E2. cbn [mbind res_bind].
        exists (INode (snd x) (app hi (itc :: its))), l'.
        split. { rewrite Htext. rewrite (text_out 0 ind _ c) by apply P1. reflexivity. }
        assert (Hvals : forall k, firstn (S k) (map snd (preorder (Rose x (c :: cs)))) = snd x :: firstn k (vals (c :: cs))) by reflexivity.
        unfold node_post. replace (Z.to_nat lim) with (S (Z.to_nat (lim - 1))) by lia. rewrite Hvals.
        cbn [item_values]. rewrite flat_map_app, Hhv. cbn [app]. change (rsize (Rose x (c :: cs))) with (S (fsize (c :: cs))).
        change (hlit (Rose x (c :: cs))) with (LNode (snd x) (app hs (map hlit (c :: cs)))).
        destruct (rest_node c cs (lim - 1)%Z itc l1 its l' Hlim P1 P2) as [(Ha & Hb & Hc)|(Ha & Hb & ls & rs & its' & -> & -> & Hf & Hv)].
        * rewrite Hb. split; [|split].
          -- constructor. apply Forall2_app; [exact Hhs|apply shown_wholes].
          -- f_equal. rewrite wholes_values. rewrite firstn_all2; [reflexivity|]. rewrite length_vals. lia.
          -- left. split; [lia|]. split; [cbn [whole]; rewrite map_app, Hhw; reflexivity|lia].
        * split; [|split].
          -- destruct rs as [|d rs].
             { rewrite !app_nil_r. constructor. apply Forall2_app; [exact Hhs|exact Hf]. }
             destruct (hlit_node d) as (v' & l2 & Ed).
             change (map hlit (c :: app ls (d :: rs))) with (app (map hlit [c]) (map hlit (app ls (d :: rs)))). rewrite map_app. cbn [map]. rewrite Ed.
             replace (app hs (app [hlit c] (app (map hlit ls) (LNode v' l2 :: map hlit rs)))) with (app (app hs (map hlit (c :: ls))) (LNode v' l2 :: map hlit rs))
               by (cbn; rewrite <- app_assoc; reflexivity).
             replace (app hi (itc :: app its' [IDots false])) with (app (app hi (itc :: its')) [IDots (forallb (fun i => match i with INode _ _ => false | _ => true end) (app hi (itc :: its')))]).
             { apply shown_cut. apply Forall2_app; [exact Hhs|exact Hf]. }
             rewrite <- app_assoc. cbn. rewrite forallb_app. destruct P1 as (Hs & _). destruct (item_of_node _ _ Hs) as (v1 & l3 & ->). cbn. rewrite andb_false_r. reflexivity.
          -- f_equal. rewrite <- Hv. cbn [flat_map]. f_equal. rewrite flat_map_app. destruct rs; cbn; rewrite app_nil_r; reflexivity.
          -- right. split; [lia|exact Hb].
      + assert (lim = 1%Z) as -> by lia. cbn [mbind res_bind].
        exists (INode (snd x) (app hi [IDots true])), (1 - 1)%Z. split.
        { rewrite Htext. unfold tail_text. cbn [map foldr item_text]. change spaces with blanks; rewrite sapp_nil. reflexivity. }
        split; [|split].
        * destruct (hlit_node c) as (v' & l2 & Ed). cbn [map]. change (hlit (Rose x (c :: cs))) with (LNode (snd x) (app hs (map hlit (c :: cs)))). cbn [map]. rewrite Ed.
          replace true with (forallb (fun i => match i with INode _ _ => false | _ => true end) hi) by (unfold hi; destruct (hole x); reflexivity).
          apply shown_cut. exact Hhs.
        * cbn [item_values]. rewrite flat_map_app, Hhv. reflexivity.
        * right. change (rsize (Rose x (c :: cs))) with (S (fsize (c :: cs))). rewrite fsize_cons. lia.
    - intros cs ind lim Hg Hlk Hn. destruct cs as [|c cs].
      { exists [], lim. split; [reflexivity|]. left. split; [left; reflexivity|]. split; [reflexivity|cbn; lia]. }
      rewrite prest_S. cbn [head]. rewrite fsize_cons in Hn. apply Forall_cons in Hg as [Hkc Hks]. pose proof (rsize_pos c) as Hpos.
      destruct (Z.ltb_spec 0 (lim - 1)) as [Hlim|Hlim].
      + destruct (IHn c (ind + inc) (lim - 1)%Z Hkc ltac:(lia) Hlim) as (itc & l1 & E1 & P1). rewrite E1. cbn [mbind res_bind].
        rewrite (Hlk [] c cs eq_refl). cbn [mbind res_bind].
        destruct (IHr cs ind l1 Hks (linked_tail _ _ Hlk) ltac:(lia)) as (its & l' & E2 & P2). rewrite E2. cbn [mbind res_bind].
        exists (itc :: its), l'. split.
        { unfold tail_text. cbn [map foldr]. rewrite (text_out 0 ind _ c) by apply P1. rewrite !sapp_assoc. reflexivity. }
        destruct (rest_node c cs (lim - 1)%Z itc l1 its l' Hlim P1 P2) as [(Ha & Hb & Hc)|(Ha & Hb & ls & rs & its' & -> & -> & Hf & Hv)].
        * left. split; [right; lia|]. split; [exact Hb|lia].
        * right. split; [lia|]. split; [exact Hb|]. exists (c :: ls), rs, (itc :: its'). split; [reflexivity|]. split; [reflexivity|]. split; [exact Hf|exact Hv].
      + exists [IDots false], (lim - 1)%Z. split; [unfold tail_text; cbn [map foldr item_text]; change spaces with blanks; rewrite sapp_nil, !sapp_assoc; reflexivity|].
        right. rewrite fsize_cons. split; [lia|]. split; [lia|]. exists [], (c :: cs), []. split; [reflexivity|]. split; [reflexivity|]. split; [constructor|].
        replace (Z.to_nat (lim - 1)) with 0 by lia. reflexivity.
  Qed.
End Core.
