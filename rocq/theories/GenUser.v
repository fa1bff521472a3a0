(** GenUser.v: generating the copy of a tree under a predicate on values. *)
From Verif Require Import Base Spec StructNode BinaryNode NaryNode Nav Policy Tree Rep RoseFacts NavFacts BinOrder BinRep BinOps BinEdit NaryRep EditSpec
  World Kinds TreeSpec TreeOps TreeBin TreeNary NodeFacts Iter IterTrees Matcher MatchBin GenFacts GenInv Gen GenRun GenNary GenBin PruneSpec.

(** A predicate on the value of the target node, without state. *)
Definition by_value {V Nd} (im : node_impl V Nd) (keep : V -> bool) (st : unit) (h : gmap addr Nd) (p : mptr) : res (unit * mptr * bool) :=
  v ← ni_value im h (mp_main p); Ok (st, p, keep v).

Section Pure.
  Context {V C : Type}.
  Variable tg : rose (addr * V).
  Variable keep : V -> bool.
  (** The value of a node of the target. *)
  Definition value_of (m : addr) : option V := option_map snd (List.find (fun x => bool_decide (fst x = m)) (preorder tg)).
  Definition pass (m : addr) : bool := match value_of m with Some v => keep v | None => false end.
  Definition papr (st : unit) (m : addr) : unit * dec C := (tt, if pass m then Keep else Skip).
  Lemma value_of_in x : NoDup (raddrs tg) -> x ∈ preorder tg -> value_of (fst x) = Some (snd x).
  Proof.
    unfold raddrs, value_of. generalize (preorder tg). induction l as [|y l IH]; intros Hnd Hx; [apply elem_of_nil in Hx as []|].
    cbn in Hnd |- *. apply NoDup_cons in Hnd as [Hn Hnd]. apply elem_of_cons in Hx as [<-|Hx]; [rewrite bool_decide_eq_true_2 by reflexivity; reflexivity|].
    rewrite bool_decide_eq_false_2; [apply IH; assumption|]. intros E. apply Hn. rewrite E. apply elem_of_list_fmap. eauto.
  Qed.
  Lemma papr_agree st tr st' : calls papr st tr st' -> GenFacts.agree (fun m => snd (papr tt m)) tr.
  Proof. induction 1 as [|st m st1 d tr st2 E _ IH]; constructor; [|exact IH]. cbn. destruct st, st1. unfold papr in *. cbn. congruence. Qed.
  Lemma grow_prune t : NoDup (raddrs tg) -> (forall x, x ∈ preorder t -> x ∈ preorder tg) ->
    grow (fun m => snd (papr tt m)) t = rose_map (fun x => (fst x, inl (snd x))) (prune (fun x => keep (snd x)) t).
  Proof.
    intros Hnd. induction t as [x cs IH] using rose_ind'. intros Hsub. cbn. f_equal.
    assert (Hcs : forall c, c ∈ cs -> forall x, x ∈ preorder c -> x ∈ preorder tg).
    { intros c Hc y Hy. apply Hsub. cbn. right. apply elem_of_flat_map. eauto. }
    clear Hsub. induction cs as [|c cs IHcs]; [reflexivity|]. inversion IH as [|? ? H1 H2]; subst. cbn. rewrite map_app. f_equal.
    - assert (Hl : label c ∈ preorder tg) by (apply (Hcs c); [left|destruct c; left]). unfold papr, pass, raddr. cbn [snd]. rewrite (value_of_in _ Hnd Hl).
      destruct (keep (snd (label c))); [|reflexivity]. cbn. f_equal. apply H1. apply Hcs. left.
    - apply IHcs; [exact H2|]. intros d Hd. apply Hcs. right. exact Hd.
  Qed.
End Pure.

Lemma by_value_ok {V Nd} (im : node_impl V Nd) (K : kind_data V Nd) tg keep (h : gmap addr Nd) m q fl st' d :
  NoDup (raddrs tg) -> (forall x, x ∈ preorder tg -> ni_value im h (Some (fst x)) = Ok (snd x)) -> m ∈ raddrs tg ->
  papr tg keep tt m = (st', d) ->
  by_value im keep tt h (MPtr [Some m; q] fl) = Ok (st', answer K (MPtr [Some m; q] fl) d, accepted K d).
Proof.
  intros Hnd Hv Hm E. unfold raddrs in Hm. apply elem_of_list_fmap in Hm as (x & -> & Hx). unfold papr, pass in E. rewrite (value_of_in _ _ Hnd Hx) in E.
  injection E as <- <-. unfold by_value. change (mp_main (MPtr [Some (fst x); q] fl)) with (Some (fst x)). rewrite (Hv x Hx). cbn [mbind res_bind].
  destruct (keep (snd x)); reflexivity.
Qed.

Section Nary.
  Context {V : Type} `{EV : EqDecision V}.
  Notation tree := (rose (addr * V)).
  Notation gl := (addr * (addr * (V + option tree)))%type.
  (** The values of what was generated. *)
  Fixpoint nvimg (t : rose (addr * (V + option tree))) : list (rose V) :=
    match t with
    | Rose x ts => match snd x with
                   | inl v => [Rose v (flat_map nvimg ts)]
                   | inr u => match u with Some u => [rose_map snd u] | None => [] end
                   end
    end.
  Lemma nimg_vals (t : rose gl) : map (rose_map snd) (nimg t) = nvimg (rose_map snd t).
  Proof.
    induction t as [[g [m [v|[u|]]]] ts IH] using rose_ind'; [|reflexivity|reflexivity]. cbn. f_equal. f_equal.
    change (fun u : tree => rose_map snd u) with (rose_map (A := addr * V) snd).
    induction IH as [|t ts Ht _ IHts]; [reflexivity|]. cbn [flat_map map]. rewrite map_app, Ht, IHts. reflexivity.
  Qed.
  Lemma nvimg_prune (t : tree) : nvimg (rose_map (fun x => (fst x, inl (snd x))) t) = [rose_map snd t].
  Proof.
    induction t as [[a v] cs IH] using rose_ind'. cbn. f_equal. f_equal. induction IH as [|c cs Hc _ IHcs]; [reflexivity|]. cbn [map flat_map]. rewrite Hc, IHcs. reflexivity.
  Qed.
  Lemma nary_generates F (al : allocator (nnode V)) (h : gmap addr (nnode V)) (t : tree) (keep : V -> bool) g :
    rsize t < F -> nary_in h t -> nary_at h (Rose (g, snd (label t)) []) -> g ∉ raddrs t ->
    exists h' r, generate F (nary_impl V) al (n_assign_child_like F) (by_value (nary_impl V) keep) (mp_make [Some (raddr t); Some g]) tt h = Ok (tt, h') /\
      nary_at h' r /\ raddr r = g /\ rose_map snd r = rose_map snd (prune (fun x => keep (snd x)) t) /\
      (forall a, a ∈ raddrs r -> a = g \/ h !! a = None) /\ (forall a, a ∉ raddrs r -> h' !! a = h !! a).
  Proof.
    intros HF Hin Hg Hn. pose proof Hin as (? & ? & ? & ? & _ & Hnd).
    destruct (nary_generate F al t h g (by_value (nary_impl V) keep) (papr t keep) (fun _ => None) [false; false] tt) as (st' & h' & tr & T & E & Hc & _ & Hh & HT); try assumption;
      try (intros; discriminate).
    { intros [] m [] u [=]. destruct (pass t keep m); discriminate. }
    { intros [] h1 m q fl [] d H1 Hm _ Ea. apply (by_value_ok _ _ t); try assumption. apply (nary_value h1 t H1). }
    specialize (HT _ (papr_agree _ _ _ _ _ Hc)). rewrite grow_prune in HT by auto. destruct Hh as [H1 H2 H3 H4 H5 H6 H7 _].
    destruct (placed_one _ T H4) as (r & Hr & Hra). unfold nimage in *. rewrite Hr in *. cbn [head crep caddrs nary_kind onary_at naddrs opt_list] in *.
    exists h', r. destruct st'. split; [exact E|]. split; [exact H1|]. split; [etransitivity; [eassumption|try rewrite H7; reflexivity || exact H7 || (f_equal; exact H7)]|]. split.
    - pose proof (eq_trans (eq_sym (f_equal (map (rose_map snd)) Hr)) (eq_trans (nimg_vals T) (f_equal nvimg HT))) as Hv. rewrite nvimg_prune in Hv. injection Hv as Hv. exact Hv.
    - split; [|exact H2]. intros a Ha. destruct (H3 a Ha) as [H|[H|(m & u & Hm & _)]]; [right; exact H|left|].
      + unfold raddrs in H. cbn in H. apply elem_of_list_singleton in H. exact H.
      + apply H6 in Hm. discriminate.
  Qed.
End Nary.

Section Binary.
  Context {V : Type} `{EV : EqDecision V}.
  Notation tree := (rose (addr * V)).
  Notation C := (bin (addr * V)).
  Notation gl := (addr * (addr * (V + C)))%type.
  Variable left : addr -> bool.
  Section Slot.
    Variable f : rose (addr * (V + C)) -> bin V.
    Fixpoint vslot (s : bool) (ts : list (rose (addr * (V + C)))) : bin V :=
      match ts with [] => BLeaf | t :: ts => if Bool.eqb (left (fst (label t))) s then f t else vslot s ts end.
  End Slot.
  Fixpoint bvimg (t : rose (addr * (V + C))) : bin V :=
    match t with
    | Rose x ts => match snd x with
                   | inl v => BNode v (vslot bvimg true ts) (vslot bvimg false ts)
                   | inr u => bin_map snd u
                   end
    end.
  Lemma bimg_vals (t : rose gl) : bin_map snd (bimg left t) = bvimg (rose_map snd t).
  Proof.
    induction t as [[g [m [v|u]]] ts IH] using rose_ind'; [|reflexivity]. cbn [bimg bvimg rose_map fst snd bin_map].
    assert (Hs : forall s, bin_map snd (gslot left (bimg left) s ts) = vslot bvimg s (map (rose_map snd) ts)).
    { intros s. induction IH as [|t ts Ht _ IHts]; [reflexivity|]. cbn [gslot vslot map]. rewrite label_map. unfold rmain.
      destruct (Bool.eqb (left (fst (snd (label t)))) s); [exact Ht|exact IHts]. }
    rewrite !Hs. reflexivity.
  Qed.
  Lemma bvimg_prune keep b : forall t, bin_forest b = [t] ->
    (forall x l r, bsubtree (BNode x l r) b -> (forall a, baddr l = Some a -> left a = true) /\ (forall a, baddr r = Some a -> left a = false)) ->
    bvimg (rose_map (fun x => (fst x, inl (snd x))) (prune (fun x => keep (snd x)) t)) = bin_map snd (bkeep (fun x => keep (snd x)) b).
  Proof.
    induction b as [|x l IHl r IHr]; intros t Ht Hb; [discriminate|]. cbn in Ht. injection Ht as <-. cbn [prune rose_map bvimg bkeep bin_map fst snd].
    destruct (Hb x l r (bsub_here _)) as [Hl Hr].
    assert (IHl' : forall t, bin_forest l = [t] -> bvimg (rose_map (fun x => (fst x, inl (snd x))) (prune (fun x => keep (snd x)) t)) = bin_map snd (bkeep (fun x => keep (snd x)) l)).
    { intros t Ht. apply IHl; [exact Ht|]. intros y l' r' Hs. apply (Hb y). apply bsub_left, Hs. }
    assert (IHr' : forall t, bin_forest r = [t] -> bvimg (rose_map (fun x => (fst x, inl (snd x))) (prune (fun x => keep (snd x)) t)) = bin_map snd (bkeep (fun x => keep (snd x)) r)).
    { intros t Ht. apply IHr; [exact Ht|]. intros y l' r' Hs. apply (Hb y). apply bsub_right, Hs. }
    clear IHl IHr Hb. f_equal.
    - rewrite flat_map_app, !map_app. destruct l as [|[a v] l1 l2]; cbn [bin_forest flat_map map app].
      + destruct r as [|[a v] r1 r2]; cbn [bin_forest flat_map map app]; [reflexivity|]. cbn [label snd]. destruct (keep v); [|reflexivity]. cbn. rewrite (Hr a eq_refl). reflexivity.
      + cbn [label snd]. destruct (keep v) eqn:Ek.
        * cbn [app map vslot]. rewrite label_map. cbn [prune label fst]. rewrite (Hl a eq_refl). cbn [Bool.eqb]. exact (IHl' _ eq_refl).
        * cbn [app map]. destruct r as [|[b w] r1 r2]; cbn [bin_forest flat_map map app]; [reflexivity|]. cbn [label snd]. destruct (keep w); [|reflexivity]. cbn. rewrite (Hr b eq_refl). reflexivity.
    - rewrite flat_map_app, !map_app.
      assert (Hsk : forall ts, vslot bvimg false (map (rose_map (fun x : addr * V => (fst x, inl (snd x)))) (flat_map (fun c => if keep (snd (label c)) then [prune (fun x => keep (snd x)) c] else []) (bin_forest l)) ++ ts) = vslot bvimg false ts).
      { intros ts. destruct l as [|[a v] l1 l2]; [reflexivity|]. cbn [bin_forest flat_map label snd]. destruct (keep v); [|reflexivity]. cbn [app map vslot]. rewrite label_map. cbn [prune label fst].
        rewrite (Hl a eq_refl). reflexivity. }
      rewrite Hsk. clear Hsk. destruct r as [|[a v] r1 r2]; [reflexivity|]. cbn [bin_forest flat_map label snd]. destruct (keep v); [|reflexivity]. cbn [app map vslot]. rewrite label_map. cbn [prune label fst].
      rewrite (Hr a eq_refl). cbn [Bool.eqb]. exact (IHr' _ eq_refl).
  Qed.
End Binary.

Section BinaryRun.
  Context {V : Type} `{EV : EqDecision V}.
  Notation C := (bin (addr * V)).
  Lemma left_in_ok (h : gmap addr (bnode V)) (b : C) x l r : bin_in h b -> bsubtree (BNode x l r) b ->
    (forall a, baddr l = Some a -> left_in h a = true) /\ (forall a, baddr r = Some a -> left_in h a = false).
  Proof.
    intros Hb Hs. split; intros a Ha; unfold left_in; [rewrite (side_in b h x l r true a Hb Hs Ha)|rewrite (side_in b h x l r false a Hb Hs Ha)]; reflexivity.
  Qed.
  Lemma binary_generates F (al : allocator (bnode V)) (h : gmap addr (bnode V)) (b : C) a v l r (keep : V -> bool) g :
    b = BNode (a, v) l r -> bin_size b < F -> bin_in h b -> bin_at h (BNode (g, v) BLeaf BLeaf) -> g ∉ baddrs b ->
    exists h' u, generate F (binary_impl V) al b_assign_child_like (by_value (binary_impl V) keep) (mp_make [Some a; Some g]) tt h = Ok (tt, h') /\
      bin_at h' u /\ baddr u = Some g /\ bin_map snd u = bin_map snd (bkeep (fun x => keep (snd x)) b) /\
      (forall z, z ∈ baddrs u -> z = g \/ h !! z = None) /\ (forall z, z ∉ baddrs u -> h' !! z = h !! z).
  Proof.
    intros Eb HF Hin Hg Hn. set (t := Rose (a, v) (bin_forest l ++ bin_forest r)). assert (Hf : bin_forest b = [t]) by (rewrite Eb; reflexivity).
    pose proof Hin as (? & _ & Hnd). pose proof (raddrs_b b t Hf) as Hra.
    assert (Hsz : rsize t = bin_size b). { rewrite <- (length_baddrs b), <- Hra. unfold raddrs. rewrite map_length, length_preorder. reflexivity. }
    destruct (bin_generate F al b t Hf (left_in h)) with (h0 := h) (g0 := g) (pred := by_value (binary_impl V) keep) (apr := papr t keep (C := C)) (uses := fun _ : addr => @None C) (flr := [false; false]) (st := tt)
      as (st' & h' & tr & T & E & Hc & _ & Hh & HT); try assumption; try (intros; discriminate).
    { intros x0 l0 r0 Hs. eapply left_in_ok; eassumption. }
    { rewrite Hsz. exact HF. }
    { rewrite Hra. exact Hn. }
    { intros [] m [] u [=]. destruct (pass t keep m); discriminate. }
    { intros [] h1 m q fl [] d H1 Hm _ Ea. apply (by_value_ok _ _ t); try assumption; [rewrite Hra; exact Hnd|]. intros x0 Hx. apply (bin_value h1 b H1). rewrite <- forest_labels, Hf. cbn [flat_map]. rewrite app_nil_r. exact Hx. }
    specialize (HT _ (papr_agree _ _ _ _ _ Hc)). rewrite grow_prune in HT by (try rewrite Hra; auto). destruct Hh as [H1 H2 H3 H4 H5 H6 H7 _].
    pose proof (bimg_addr t (left_in h) T H4) as Hr. cbn [crep caddrs binary_kind] in *.
    exists h', (bimg (left_in h) T). destruct st'. split; [exact E|]. split; [exact H1|]. split; [etransitivity; [eassumption|try rewrite H7; reflexivity || exact H7 || (f_equal; exact H7)]|]. split.
    - etransitivity; [exact (eq_trans (bimg_vals (left_in h) T) (f_equal (bvimg (left_in h)) HT))|]. apply bvimg_prune; [exact Hf|]. intros x0 l0 r0 Hs. eapply left_in_ok; eassumption.
    - split; [|exact H2]. intros z Hz. destruct (H3 z Hz) as [H|[H|(m & u & Hm & _)]]; [right; exact H|left|].
      + cbn in H. apply elem_of_list_singleton in H. exact H.
      + apply H6 in Hm. discriminate.
  Qed.
End BinaryRun.
