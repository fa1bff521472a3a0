(** StarWalk.v: the iterators with which a pattern with [star] goes through a tree. *)
From Verif Require Import Base Spec PruneSpec StructNode BinaryNode NaryNode Nav Policy Tree Rep RoseFacts NavFacts Orders PolicyFacts
  BinRep NaryRep Iter IterTrees EditSpec PredFacts PredIter TreeNary Matcher MatchFacts MatchWalk Star StarSpec StarLemmas.
From Verif Require Import PruneSpec.

Lemma map_plug {A B} (f : A -> B) (c : ctx A) s t : plug c s = t -> plug (ctx_map f c) (rose_map f s) = rose_map f t.
Proof. intros <-. symmetry. apply plug_map. Qed.

(** A test on the parent's label, as a test on the node's address. *)
Section Links.
  Context {V : Type}.
  Notation tree := (rose (addr * V)).
  Fixpoint links (t : tree) : list (addr * (addr * V)) :=
    match t with Rose x cs => map (fun c => (raddr c, x)) cs ++ flat_map links cs end.
  Lemma links_pos t a x : (a, x) ∈ links t <-> exists ls s rs c, plug ((ls, x, rs) :: c) s = t /\ raddr s = a.
  Proof.
    split.
    - revert a x. induction t as [y cs IH] using rose_ind'. intros a x H. cbn [links] in H. apply elem_of_app in H as [H|H].
      + apply elem_of_list_fmap in H as (c & [= -> ->] & Hc). apply elem_of_list_split in Hc as (l1 & l2 & ->). exists l1, c, l2, []. auto.
      + apply elem_of_flat_map in H as (s & Hs & H). rewrite Forall_forall in IH. destruct (IH s Hs a x H) as (ls & u & rs & c & Hp & E).
        apply elem_of_list_split in Hs as (l1 & l2 & ->). exists ls, u, rs, (c ++ [(l1, y, l2)]). split; [|exact E].
        change ((ls, x, rs) :: c ++ [(l1, y, l2)]) with (((ls, x, rs) :: c) ++ [(l1, y, l2)]). rewrite plug_app, Hp. reflexivity.
    - intros (ls & s & rs & c & <- & <-). cbn [plug]. 
      enough (H : forall u : tree, (raddr s, x) ∈ links u -> forall c, (raddr s, x) ∈ links (plug c u)).
      { apply H. cbn [links]. apply elem_of_app. left. apply elem_of_list_fmap. exists s. split; [reflexivity|]. set_solver +. }
      clear. intros u H c. revert u H. induction c as [|[[ls y] rs] c IH]; intros u H; [exact H|]. cbn [plug]. apply IH. cbn [links].
      apply elem_of_app. right. apply elem_of_flat_map. exists u. split; [set_solver +|exact H].
  Qed.
  Definition passes (f : addr * V -> bool) (t : tree) (a : addr) : bool :=
    existsb (fun y => bool_decide (fst y = a) && f (snd y)) (links t).
  Lemma passes_at f t ls x rs c s : NoDup (map fst (preorder t)) -> plug ((ls, x, rs) :: c) s = t -> passes f t (raddr s) = f x.
  Proof.
    intros Hnd Hp. unfold passes. apply eq_true_iff_eq. rewrite existsb_exists. split.
    - intros ([a y] & Hin & H). apply andb_true_iff in H as [Ha Hf]. apply bool_decide_eq_true in Ha. cbn [fst snd] in Ha, Hf. subst a.
      apply elem_of_list_In, links_pos in Hin as (ls' & s' & rs' & c' & Hp' & E).
      assert (Hm : plug (ctx_map fst ((ls, x, rs) :: c)) (rose_map fst s) = plug (ctx_map fst ((ls', y, rs') :: c')) (rose_map fst s')).
      { transitivity (rose_map fst t); [|symmetry]; apply map_plug; assumption. }
      pose proof Hnd as Hnd'. rewrite <- preorder_map, <- (map_plug _ _ _ _ Hp) in Hnd'.
      apply (ctx_unique _ _ _ _ Hnd') in Hm as [Hc _]; [|rewrite !label_map; symmetry; exact E].
      cbn [ctx_map map] in Hc. injection Hc as _ Hx _ _.
      assert (Hpos : forall z (ls rs : list tree) c s, plug ((ls, z, rs) :: c) s = t -> z ∈ preorder t).
      { intros z l1 l2 c1 s1 <-. cbn [plug]. apply (position_elem c1 (Rose z (l1 ++ s1 :: l2))). }
      pose proof (Hpos _ _ _ _ _ Hp) as H1. pose proof (Hpos _ _ _ _ _ Hp') as H2. clear Hpos.
      rewrite <- (keep_of_in f (preorder t) x), <- Hf, <- (keep_of_in f (preorder t) y), Hx; try assumption; reflexivity.
    - intros Hf. exists (raddr s, x). split; [|cbn; rewrite bool_decide_eq_true_2 by reflexivity; exact Hf].
      apply elem_of_list_In, links_pos. eauto 6.
  Qed.

  (** The tree in which the children of the nodes that fail [f] are cut off. *)
  Fixpoint sprune (f : addr * V -> bool) (t : tree) : tree :=
    match t with Rose x cs => Rose x (if f x then map (sprune f) cs else []) end.
  Lemma sprune_ok f t : NoDup (map fst (preorder t)) -> prune (passes f t) (rose_map fst t) = rose_map fst (sprune f t).
  Proof.
    intros Hnd. enough (H : forall s c, plug c s = t -> prune (passes f t) (rose_map fst s) = rose_map fst (sprune f s)) by (apply (H t []); reflexivity).
    induction s as [x cs IH] using rose_ind'. intros c Hp. cbn [rose_map]. rewrite prune_unfold. cbn [sprune rose_map]. f_equal.
    enough (H : forall ls rs, cs = ls ++ rs -> pkids (passes f t) (map (rose_map fst) rs) = map (rose_map fst) (if f x then map (sprune f) rs else []))
      by (apply (H [] cs); reflexivity).
    intros ls rs. revert ls. induction rs as [|s rs IHr]; intros ls E; [destruct (f x); reflexivity|].
    cbn [map pkids flat_map]. fold (pkids (passes f t) (map (rose_map fst) rs)). rewrite (IHr (ls ++ [s])) by (rewrite <- app_assoc; exact E).
    subst cs. assert (Hs : plug ((ls, x, rs) :: c) s = t) by exact Hp.
    rewrite label_map. change (fst (label s)) with (raddr s). rewrite (passes_at f t _ _ _ _ _ Hnd Hs). destruct (f x); [|reflexivity].
    cbn [map app]. f_equal. rewrite Forall_forall in IH. apply (IH s ltac:(set_solver +) _ Hs).
  Qed.
  Lemma sprune_frontier (vm : V -> bool) (t : tree) :
    List.filter (fun x => negb (vm (snd x))) (leaves (sprune (fun x => vm (snd x)) t)) = map label (frontier snd vm t).
  Proof.
    induction t as [x cs IH] using rose_ind'. cbn [sprune frontier]. destruct (vm (snd x)) eqn:E.
    - assert (H : List.filter (fun x => negb (vm (snd x))) (flat_map leaves (map (sprune (fun x => vm (snd x))) cs)) = map label (flat_map (frontier snd vm) cs)).
      { clear E. induction IH as [|c cs Hc _ IHc]; [reflexivity|]. cbn [map flat_map]. rewrite List.filter_app, map_app, IHc, Hc. reflexivity. }
      destruct cs as [|c cs]; [cbn; rewrite E; reflexivity|]. exact H.
    - cbn. rewrite E. reflexivity.
  Qed.
  Lemma frontier_sub (vm : V -> bool) (t : tree) : forall s, s ∈ frontier snd vm t -> vm (snd (label s)) = false /\ exists c, plug c s = t.
  Proof.
    induction t as [x cs IH] using rose_ind'. intros s. cbn [frontier]. destruct (vm (snd x)) eqn:E.
    - intros H. apply elem_of_flat_map in H as (u & Hu & H). rewrite Forall_forall in IH. destruct (IH u Hu s H) as (H1 & c & Hc).
      split; [exact H1|]. apply elem_of_list_split in Hu as (l1 & l2 & ->). exists (c ++ [(l1, x, l2)]). rewrite plug_app, Hc. reflexivity.
    - intros H. apply elem_of_list_singleton in H as ->. split; [exact E|]. exists []. reflexivity.
  Qed.
End Links.

Section Walk.
  Context {V Nd : Type}.
  Variable F : nat.
  Variable im : node_impl V Nd.
  Variable h : gmap addr Nd.
  Notation tree := (rose (addr * V)).
  Notation ops := (ni_ops im h).
  Notation below := (below (A := addr * V) snd).
  Variable t0 : tree.
  Hypothesis Hops : ops_ok ops (rose_map fst t0).
  Hypothesis Hnd : NoDup (map fst (preorder t0)).
  Hypothesis Hval : forall x, x ∈ preorder t0 -> ni_value im h (Some (fst x)) = Ok (snd x).
  Hypothesis HF : rsize t0 < F.

  (** A subtree of the tree that is searched. *)
  Definition good (t : tree) : Prop := exists c, plug c t = t0.
  Lemma good_root : good t0.
  Proof. exists []. reflexivity. Qed.
  Lemma good_plug c s : good (plug c s) -> good s.
  Proof. intros [d Hd]. exists (c ++ d). rewrite plug_app. exact Hd. Qed.
  Lemma good_child x cs s : good (Rose x cs) -> s ∈ cs -> good s.
  Proof. intros Hg Hs. apply elem_of_list_split in Hs as (l1 & l2 & ->). apply (good_plug [(l1, x, l2)]). exact Hg. Qed.
  Lemma good_ops t : good t -> ops_ok ops (rose_map fst t).
  Proof. intros [c Hc]. rewrite <- Hc, plug_map in Hops. apply (ops_ok_plug _ _ _ Hops). Qed.
  Lemma good_nd t : good t -> NoDup (map fst (preorder t)).
  Proof.
    intros [c Hc]. pose proof Hnd as H. rewrite <- Hc, <- preorder_map, plug_map in H. apply NoDup_sub in H. rewrite preorder_map in H. exact H.
  Qed.
  Lemma good_val t x : good t -> x ∈ preorder t -> ni_value im h (Some (fst x)) = Ok (snd x).
  Proof. intros [c Hc] Hx. apply Hval. rewrite <- Hc, preorder_plug. set_solver +Hx. Qed.
  Lemma good_size t : good t -> rsize t < F.
  Proof. intros [c Hc]. pose proof (ctx_length_size c t) as H. rewrite Hc in H. lia. Qed.
  Lemma good_unique t s : good t -> good s -> raddr t = raddr s -> t = s.
  Proof.
    intros [c Hc] [d Hd] E.
    assert (Hl : label t = label s).
    { pose proof (find_in _ (label t) Hnd) as H1. pose proof (find_in _ (label s) Hnd) as H2. unfold raddr in E. rewrite E in H1.
      rewrite H1 in H2; [|rewrite <- Hc; apply position_elem]. specialize (H2 ltac:(rewrite <- Hd; apply position_elem)). congruence. }
    destruct (ctx_unique c t d s) as [_ Ht]; [|congruence|exact Hl|exact Ht].
    rewrite Hc. apply (NoDup_fmap_1 fst). exact Hnd.
  Qed.

  (** ** Single nodes and siblings *)
  Lemma good_value t : good t -> ni_value im h (Some (raddr t)) = Ok (snd (label t)).
  Proof. intros Hg. apply (good_val t (label t) Hg). destruct t. cbn. left. Qed.
  Lemma good_first t : good t -> op_first ops (Some (raddr t)) = Ok (at_first (children t)).
  Proof. intros Hg. apply good_ops in Hg. destruct t as [x cs]. cbn [rose_map] in Hg. apply ops_ok_unfold in Hg as (Hf & _). rewrite head_label_map in Hf. exact Hf. Qed.
  Lemma good_fresh t : good t -> raddr t ∉ map fst (flat_map preorder (children t)).
  Proof. intros Hg. apply good_nd in Hg. destruct t as [x cs]. cbn [preorder map] in Hg. apply NoDup_cons in Hg as [H _]. exact H. Qed.

  (** The iterator stands at [t]. *)
  Record here (i : sit) (t : tree) : Prop := Here {
    he_cur : si_cur i = Some (raddr t);
    he_good : good t;
    he_kind : it_kind (si_it i) = Fixed \/ it_kind (si_it i) = PreOrder \/ it_kind (si_it i) = Leaves \/
      (it_kind (si_it i) = Siblings /\ exists b, op_parent ops (Some (raddr t)) = Ok (Some b) /\ b ∉ map fst (preorder t));
    he_org : match si_org i with Under vm true => vm (snd (label t)) = false | _ => True end
  }.
  (** The iterator goes through the trees of [fs], and into those accepted by
      [ent] but for the node [cut].  With [deep = Some (o, r)] the iterators go
      through the tree at [r], and from each node a search can start again below
      it. *)
  Inductive goes (ent : V -> bool) (deep : option (origin * ptr)) : ptr -> sit -> list tree -> Prop :=
  | G_end cut i : si_cur i = None -> goes ent deep cut i []
  | G_at cut i s fs : here i s ->
      (forall c, c = cut \/ c = Some (raddr s) -> exists i', si_incr F im h c i = Ok i' /\
         goes ent deep c i' ((if ent (snd (label s)) && negb (ptr_eqb (Some (raddr s)) c) then children s else []) ++ fs)) ->
      (forall o r, deep = Some (o, r) -> si_org i = o /\ it_root (si_it i) = r) ->
      (forall o r j, deep = Some (o, r) -> si_org j = o -> it_root (si_it j) = r ->
         exists i' fs', backtrack F im h (Some (raddr s)) j = Ok i' /\
           goes ent deep None i' fs' /\ fsize fs' < fsize (s :: fs) /\ forall us l, below ent us fs' l -> below ent us (s :: fs) l) ->
      goes ent deep cut i (s :: fs).
  Notation no := (fun _ : V => false).
  Notation flat := (goes no None).
  Lemma flat_end cut i : si_cur i = None -> flat cut i [].
  Proof. apply G_end. Qed.
  Lemma flat_at cut i s fs : here i s -> (forall c, exists i', si_incr F im h c i = Ok i' /\ flat c i' fs) -> flat cut i (s :: fs).
  Proof. intros Hh Hi. apply G_at; [exact Hh| |discriminate..]. intros c _. cbn. apply Hi. Qed.

  Lemma sibling_walk x cs q : good (Rose x cs) -> q ∉ map fst (flat_map preorder cs) ->
    forall rs ls ini cut, cs = ls ++ rs -> flat cut (SIt (Iter Siblings (at_first rs) (Some q) [] ini) Plain) rs.
  Proof.
    intros Hg Hq. induction rs as [|s rs IH]; intros ls ini cut E; [apply flat_end; reflexivity|].
    pose proof (good_ops _ Hg) as Ho. cbn [rose_map] in Ho. apply ops_ok_unfold in Ho as (_ & _ & Hlink & _).
    destruct (Hlink (map (rose_map fst) ls) (rose_map fst s) (map (rose_map fst) rs)) as (Hpar & _ & Hnext); [rewrite E, map_app; reflexivity|].
    rewrite label_map in Hpar, Hnext. rewrite head_label_map in Hnext.
    assert (Hs : s ∈ cs) by (rewrite E; set_solver +).
    assert (Hsub : forall a, a ∈ map fst (preorder s) -> a ∈ map fst (flat_map preorder cs)).
    { intros a Ha. apply elem_of_list_fmap in Ha as (y & -> & Hy). apply elem_of_list_fmap. exists y. split; [reflexivity|].
      apply elem_of_flat_map. eauto. }
    apply flat_at.
    - split; [reflexivity|eapply good_child; eassumption| |exact I]. right. right. right. split; [reflexivity|].
      exists (fst x). split; [exact Hpar|]. intros H. apply (good_fresh _ Hg). apply Hsub, H.
    - intros c. unfold si_incr. cbn [si_org si_nav]. unfold it_incr. cbn [si_it it_cur at_first head_label option_map it_root it_kind it_open increment_impl].
      assert (Hn : nav_next (tree_nav im h (Some q)) (Some (fst (label s))) = Ok (at_first rs)).
      { cbn. unfold base_unless_root, base_is_root. rewrite ptr_eqb_false; [exact Hnext|]. intros [= <-]. apply Hq, Hsub.
        apply elem_of_list_fmap. exists (label s). split; [reflexivity|]. destruct s. cbn. left. }
      rewrite Hn. cbn [mbind res_bind]. eexists. split; [reflexivity|]. apply (IH (ls ++ [s])). rewrite <- app_assoc. exact E.
  Qed.
  Lemma here_children i t : here i t -> forall cut, exists i', si_children F im h i = Ok i' /\ flat cut i' (children t).
  Proof.
    intros [Hc Hg Hk _] cut. destruct t as [x cs]. pose proof (good_first _ Hg) as Hf. pose proof (good_fresh _ Hg) as Hfr. cbn [children] in *.
    assert (H : exists q ini, children_iter F im h (si_it i) = Ok (Iter Siblings (at_first cs) (Some q) [] ini) /\ q ∉ map fst (flat_map preorder cs)).
    { unfold si_cur in Hc. destruct Hk as [Hk|[Hk|[Hk|(Hk & b & Hb & Hbn)]]].
      - exists (raddr (Rose x cs)), (at_first cs). split; [|exact Hfr]. apply children_fixed; assumption.
      - exists (raddr (Rose x cs)), (at_first cs). split; [|exact Hfr].
        unfold children_iter, do_move, it_other_policy, get_instance. rewrite Hk, Hc. cbn. rewrite Hf. reflexivity.
      - exists (raddr (Rose x cs)), (at_first cs). split; [|exact Hfr].
        unfold children_iter, do_move, it_other_policy, get_instance. rewrite Hk, Hc. cbn. rewrite Hf. reflexivity.
      - exists b, (at_first cs). split; [eapply children_siblings; eassumption|]. intros H. apply Hbn. cbn. right. exact H. }
    destruct H as (q & ini & H & Hq). unfold si_children. rewrite H. cbn [mbind res_bind]. eexists. split; [reflexivity|].
    apply (sibling_walk x cs q Hg Hq cs []). reflexivity.
  Qed.
  Lemma here_fixed i t : here i t -> forall c cut, exists i', si_fixed F im h c i = Ok i' /\ flat cut i' [t].
  Proof.
    intros [Hc Hg Hk Ho] c cut. unfold si_cur in Hc. unfold si_fixed, it_other_policy, get_instance.
    assert (exists rt, fix_navigator_root (si_nav F im h (si_org i) c) Fixed (it_cur (si_it i)) (it_root (si_it i)) = Ok rt) as [rt Hrt].
    { rewrite Hc. destruct (it_root (si_it i)); eexists; reflexivity. }
    rewrite Hrt. cbn [mbind res_bind].
    assert (Hfl : match si_org i with Under vm true => star_filter im h vm (Some (raddr t)) = Ok true | _ => True end).
    { destruct (si_org i) as [|vm [|]]; try exact I. unfold star_filter. rewrite good_value by exact Hg. cbn. rewrite Ho. reflexivity. }
    assert (HF0 : exists n, F = S n) by (destruct F; [lia|eauto]). destruct HF0 as [n EF].
    exists (SIt (Iter Fixed (Some (raddr t)) rt [] (Some (raddr t))) (si_org i)). split.
    - rewrite Hc. destruct (si_org i) as [|vm [|]]; try reflexivity. unfold filter_make. cbn [it_cur]. rewrite Hfl. reflexivity.
    - apply flat_at.
      + split; [reflexivity|exact Hg|left; reflexivity|exact Ho].
      + intros c'. unfold si_incr. cbn [si_org si_it]. exists (SIt (Iter Fixed None rt [] (Some (raddr t))) (si_org i)). split; [|apply flat_end; reflexivity].
        destruct (si_org i) as [|vm [|]]; try reflexivity. unfold filter_incr. rewrite EF at 1. reflexivity.
  Qed.

  (** ** The nodes a star gives to its children *)
  Section Star.
    Variable vm : V -> bool.
    Variable tx : tree.
    Hypothesis Hgx : good tx.
    Notation root := (Some (raddr tx)).
    Definition enters (poss : bool) (cut : ptr) (x : addr * V) : bool := negb (negb poss && ptr_eqb (Some (fst x)) cut) && vm (snd x).
    Lemma frame_good c ls x rs s : plug ((ls, x, rs) :: c) s = tx ->
      good (Rose x (ls ++ s :: rs)) /\ op_parent ops (Some (raddr s)) = Ok (Some (fst x)) /\
      op_last ops (Some (fst x)) = Ok (option_map fst (last_label (ls ++ s :: rs))).
    Proof.
      intros Hp. cbn [plug] in Hp. assert (Hg : good (Rose x (ls ++ s :: rs))) by (apply (good_plug c); rewrite Hp; exact Hgx).
      split; [exact Hg|]. pose proof (good_ops _ Hg) as Ho. cbn [rose_map] in Ho. apply ops_ok_unfold in Ho as (_ & Hl & Hlink & _).
      destruct (Hlink (map (rose_map fst) ls) (rose_map fst s) (map (rose_map fst) rs)) as (Hpar & _ & _); [rewrite map_app; reflexivity|].
      rewrite label_map in Hpar. split; [exact Hpar|]. rewrite Hl. unfold last_label. rewrite <- map_rev, head_label_map. reflexivity.
    Qed.
    Lemma star_pred_ok poss cut a : a ∈ preorder (rose_map fst tx) -> a <> label (rose_map fst tx) ->
      star_pred im h vm poss cut (Some a) = Ok (passes (enters poss cut) tx a).
    Proof.
      rewrite preorder_map, label_map. intros Ha Hne. apply elem_of_list_fmap in Ha as (y & -> & Hy).
      apply elem_position in Hy as (c & s & Hp & <-). destruct c as [|[[ls x] rs] c]; [cbn in Hp; subst s; congruence|].
      destruct (frame_good _ _ _ _ _ Hp) as (Hg & Hpar & _). change (fst (label s)) with (raddr s).
      rewrite (passes_at _ _ _ _ _ _ _ (good_nd _ Hgx) Hp). unfold star_pred. rewrite Hpar. cbn [mbind res_bind]. unfold enters.
      destruct (negb poss && ptr_eqb (Some (fst x)) cut); cbn [negb andb]; [reflexivity|].
      pose proof (good_value _ Hg) as Hv. unfold raddr in Hv. cbn [label] in Hv. rewrite Hv. reflexivity.
    Qed.
    Lemma base_ok : nav_ok (node_navigator ops (Some (label (rose_map fst tx)))) (rose_map fst tx).
    Proof. apply node_navigator_ok; [apply good_ops, Hgx|]. rewrite preorder_map. apply good_nd, Hgx. Qed.
    Lemma size_ok : rsize (rose_map fst tx) <= F.
    Proof. rewrite rsize_map. pose proof (good_size _ Hgx). lia. Qed.

    Section Cut.
      Variable poss : bool.
      Variable cut : ptr.
      Notation nav := (star_nav F im h vm poss cut root).
      Lemma kept_all c ls x rs : plug c (Rose x (ls ++ rs)) = tx ->
        head_label (kept (passes (enters poss cut) tx) (map (rose_map fst) rs)) = if enters poss cut x then at_first rs else None.
      Proof.
        revert ls. induction rs as [|s rs IH]; intros ls Hp; cbn [map kept List.filter head_label at_first].
        { destruct (enters poss cut x); reflexivity. }
        assert (Hs : plug ((ls, x, rs) :: c) s = tx) by exact Hp.
        rewrite label_map. change (fst (label s)) with (raddr s). rewrite (passes_at _ _ _ _ _ _ _ (good_nd _ Hgx) Hs).
        destruct (enters poss cut x) eqn:E.
        - cbn [head_label]. rewrite label_map. reflexivity.
        - rewrite <- (IH (ls ++ [s])); [reflexivity|]. rewrite <- app_assoc. exact Hp.
      Qed.
      Lemma star_first c x cs : plug c (Rose x cs) = tx -> nav_first nav (Some (fst x)) = Ok (if enters poss cut x then at_first cs else None).
      Proof.
        intros Hp. unfold star_nav. cbn [node_pred_navigator nav_first]. change (Some (raddr tx)) with (Some (fst (label tx))). rewrite <- label_map.
        pose proof (map_plug fst _ _ _ Hp) as Hm. cbn [rose_map] in Hm.
        rewrite (pred_first_ok ops _ base_ok _ _ (star_pred_ok poss cut) F size_ok _ _ _ Hm). f_equal. apply (kept_all c []). exact Hp.
      Qed.
      Lemma star_next c ls x rs s : plug ((ls, x, rs) :: c) s = tx -> nav_next nav (Some (raddr s)) = Ok (if enters poss cut x then at_first rs else None).
      Proof.
        intros Hp. unfold star_nav. cbn [node_pred_navigator nav_next]. change (Some (raddr tx)) with (Some (fst (label tx))). rewrite <- label_map.
        pose proof (map_plug fst _ _ _ Hp) as Hm. cbn [ctx_map map] in Hm. unfold raddr. rewrite <- (label_map fst s).
        rewrite (pred_next_ok ops _ base_ok _ _ (star_pred_ok poss cut) F size_ok _ _ _ _ _ Hm). f_equal. apply (kept_all c (ls ++ [s])).
        rewrite <- app_assoc. exact Hp.
      Qed.
      Lemma star_parent c s : plug c s = tx -> nav_parent nav (Some (raddr s)) = Ok (match c with [] => None | (_, x, _) :: _ => Some (fst x) end).
      Proof.
        intros Hp. pose proof (no_parent _ _ base_ok _ _ (map_plug fst _ _ _ Hp)) as H. rewrite !label_map in H.
        cbn [star_nav node_pred_navigator nav_parent]. cbn [node_navigator nav_parent] in H. unfold raddr. rewrite H. destruct c as [|[[? ?] ?] ?]; reflexivity.
      Qed.
      Lemma star_parent_at c x cs : plug c (Rose x cs) = tx ->
        nav_parent nav (Some (fst x)) = Ok (match c with [] => None | (_, x, _) :: _ => Some (fst x) end).
      Proof. exact (star_parent c (Rose x cs)). Qed.
      Lemma star_last c s : plug c s = tx -> nav_is_last nav (Some (raddr s)) = Ok (match c with [] => false | (_, _, rs) :: _ => is_nil rs end).
      Proof.
        intros Hp. pose proof (no_is_last _ _ base_ok _ _ (map_plug fst _ _ _ Hp)) as H. rewrite !label_map in H.
        cbn [star_nav node_pred_navigator nav_is_last]. cbn [node_navigator nav_is_last] in H. unfold raddr. rewrite H.
        destruct c as [|[[? ?] rs] ?]; [reflexivity|]. destruct rs; reflexivity.
      Qed.
      Lemma star_root p : nav_is_root nav p = ptr_eqb p root.
      Proof. reflexivity. Qed.
    End Cut.

    (** *** Non-possessive *)
    Fixpoint after (c : ctx (addr * V)) : list tree := match c with [] => [] | (_, _, rs) :: c => rs ++ after c end.
    Definition opened (cut : ptr) (c : ctx (addr * V)) : Prop := Forall (fun f => enters false cut (snd (fst f)) = true) c.
    Definition spot (p : ptr) (ini : ptr) : sit := SIt (Iter PreOrder p root [] ini) (Under vm false).
    Lemma opened_none cut c : opened cut c -> opened None c.
    Proof.
      intros H. eapply Forall_impl; [exact H|]. intros [[ls x] rs] E. unfold enters in *. cbn [snd fst negb andb] in *.
      apply andb_true_iff in E as [_ ->]. reflexivity.
    Qed.
    Lemma frame_fresh f c s : plug (f :: c) s = tx -> raddr tx <> raddr s.
    Proof.
      intros Hp E. assert (Hg : good s) by (apply (good_plug (f :: c)); rewrite Hp; exact Hgx).
      pose proof (good_unique _ _ Hgx Hg E) as Ht. pose proof (ctx_length_size (f :: c) s) as Hl. rewrite Hp, Ht in Hl. cbn in Hl. lia.
    Qed.
    Lemma opened_here cut c s : plug c s = tx -> opened cut c -> opened (Some (raddr s)) c.
    Proof.
      intros Hp H. unfold opened in *. rewrite Forall_forall in *. intros [[ls x] rs] Hf. specialize (H _ Hf). cbn [fst snd] in *.
      unfold enters in *. apply andb_true_iff in H as [_ Hv]. rewrite Hv, andb_true_r. cbn [negb andb].
      rewrite ptr_eqb_false; [reflexivity|]. intros [= E].
      apply elem_of_list_split in Hf as (c1 & c2 & ->). rewrite plug_app in Hp.
      assert (Hg : good (Rose x (ls ++ plug c1 s :: rs))) by (apply (good_plug c2); cbn [plug] in Hp; rewrite Hp; exact Hgx).
      assert (Hgs : good s) by (apply (good_plug (c1 ++ [(ls, x, rs)])); rewrite plug_app; exact Hg).
      pose proof (good_unique _ _ Hg Hgs E) as Ht. pose proof (ctx_length_size (c1 ++ [(ls, x, rs)]) s) as Hl.
      rewrite plug_app, app_length in Hl. cbn [plug length] in Hl. rewrite Ht in Hl. lia.
    Qed.
    Lemma after_pos cut c : forall s s' fs, plug c s = tx -> opened cut c -> after c = s' :: fs ->
      exists c', plug c' s' = tx /\ c' <> [] /\ opened cut c' /\ after c' = fs.
    Proof.
      induction c as [|[[ls x] rs] c IH]; intros s s' fs Hp Ho E; [discriminate|]. apply Forall_cons in Ho as [Hx Ho'].
      cbn [after] in E. destruct rs as [|r rs]; cbn [app] in E.
      - apply (IH (Rose x (ls ++ [s])) s' fs); [exact Hp|exact Ho'|exact E].
      - injection E as -> <-. exists ((ls ++ [s], x, rs) :: c). repeat split; [|discriminate|constructor; assumption].
        cbn [plug] in Hp |- *. rewrite <- app_assoc. exact Hp.
    Qed.
    Lemma climbs cut c : forall s k, plug c s = tx -> opened cut c -> length c < k ->
      keep_calling_loop (S := unit) (pure_call (nav_parent (star_nav F im h vm false cut root)))
        (fun s child _ => b ← nav_is_last (star_nav F im h vm false cut root) child; Ok (negb b, s))
        (fun s child _ => q ← nav_next (star_nav F im h vm false cut root) child; Ok (q, s))
        k (Some (raddr s)) (match c with [] => None | (_, x, _) :: _ => Some (fst x) end) () =
      Ok (match at_first (after c) with None => root | Some a => Some a end, ()).
    Proof.
      induction c as [|[[ls x] rs] c IH]; intros s k Hp Ho Hk; (destruct k as [|k]; [cbn in Hk; lia|]); cbn [keep_calling_loop].
      { cbn in Hp |- *. rewrite Hp. reflexivity. }
      apply Forall_cons in Ho as [Hx Ho']. rewrite (star_last false cut _ _ Hp). cbn [mbind res_bind].
      destruct rs as [|r rs]; cbn [is_nil negb].
      - unfold pure_call at 2. rewrite (star_parent_at false cut c x (ls ++ [s]) Hp). cbn [mbind res_bind].
        apply (IH (Rose x (ls ++ [s])) k Hp Ho'). cbn in Hk. lia.
      - rewrite (star_next false cut _ _ _ _ _ Hp). cbn [fst snd] in Hx. rewrite Hx. reflexivity.
    Qed.
    Definition step (cut : ptr) (s : tree) : list tree :=
      if vm (snd (label s)) && negb (ptr_eqb (Some (raddr s)) cut) then children s else [].
    Lemma step_enters cut x cs : step cut (Rose x cs) = if enters false cut x then cs else [].
    Proof. unfold step, enters, raddr. cbn [label children negb andb]. destruct (vm (snd x)), (ptr_eqb (Some (fst x)) cut); reflexivity. Qed.
    Lemma climb_end cut c x cs : plug c (Rose x cs) = tx -> opened cut c ->
      ('(result, _) ← keep_calling (S := unit) (pure_call (nav_parent (star_nav F im h vm false cut root)))
        (fun s child _ => b ← nav_is_last (star_nav F im h vm false cut root) child; Ok (negb b, s))
        (fun s child _ => q ← nav_next (star_nav F im h vm false cut root) child; Ok (q, s)) F (Some (fst x)) ();
       Ok (if nav_is_root (star_nav F im h vm false cut root) result then None else result)) = Ok (at_first (after c)).
    Proof.
      intros Hp Ho. unfold keep_calling, pure_call at 2. rewrite (star_parent_at false cut _ _ _ Hp). cbn [mbind res_bind].
      pose proof (climbs cut c (Rose x cs) F Hp Ho) as Hcl. change (raddr (Rose x cs)) with (fst x) in Hcl. rewrite Hcl; clear Hcl.
      - cbn [mbind res_bind]. rewrite star_root. destruct (at_first (after c)) as [a|] eqn:Ea; [|rewrite ptr_eqb_true; reflexivity].
        destruct (after c) as [|s' fs] eqn:Ef; [discriminate|]. destruct (after_pos cut c _ _ _ Hp Ho Ef) as (c' & Hp' & Hne & _).
        rewrite ptr_eqb_false; [reflexivity|]. destruct c' as [|f c']; [congruence|]. pose proof (frame_fresh _ _ _ Hp') as Hfr.
        intros [= ->]. cbn in Ea. injection Ea as Ea. symmetry in Ea. exact (Hfr Ea).
      - pose proof (ctx_length_size c (Rose x cs)) as Hl. rewrite Hp in Hl. pose proof (good_size _ Hgx). lia.
    Qed.
    Lemma deep_incr cut c s ini : plug c s = tx -> opened cut c ->
      si_incr F im h cut (spot (Some (raddr s)) ini) = Ok (spot (at_first (step cut s ++ after c)) ini).
    Proof.
      intros Hp Ho. destruct s as [x cs]. change (raddr (Rose x cs)) with (fst x).
      unfold si_incr, spot. cbn [si_org si_it si_nav]. unfold it_incr. cbn [it_cur it_root it_kind it_open increment_impl].
      unfold pre_increment. rewrite (star_first false cut _ _ _ Hp), step_enters. cbn [mbind res_bind].
      destruct (enters false cut x) eqn:E; [destruct cs as [|d cs]|]; [|reflexivity|].
      all: cbn [at_first head_label option_map app]; rewrite (climb_end cut _ _ _ Hp Ho); reflexivity.
    Qed.
    (** The first of the nodes that remain. *)
    Lemma step_pos cut c s s' fs : plug c s = tx -> opened cut c -> step cut s ++ after c = s' :: fs ->
      exists c', plug c' s' = tx /\ c' <> [] /\ opened cut c' /\ after c' = fs.
    Proof.
      destruct s as [x cs]. intros Hp Ho E. rewrite step_enters in E. destruct (enters false cut x) eqn:Ex; [destruct cs as [|d cs]|]; cbn [app] in E.
      - eapply after_pos; eassumption.
      - injection E as -> <-. exists (([], x, cs) :: c). repeat split; [exact Hp|discriminate|]. constructor; [exact Ex|exact Ho].
      - eapply after_pos; eassumption.
    Qed.
    Lemma spot_here c s ini : plug c s = tx -> here (spot (Some (raddr s)) ini) s.
    Proof. intros Hp. split; [reflexivity| |right; left; reflexivity|exact I]. apply (good_plug c). rewrite Hp. exact Hgx. Qed.

    (** Where a search starts again. *)
    Lemma ramify s : forall c k b, plug c s = tx -> opened None c -> rsize s < k ->
      exists r b', keep_calling_loop (S := bool) (pure_call (nav_first (star_nav F im h vm false None root)))
        (fun _ _ child => b ← nav_is_last (star_nav F im h vm false None root) child; Ok (negb b, true))
        (fun s _ child => Ok (child, s)) k (Some (raddr s)) (at_first (step None s)) b = Ok (r, b') /\
      ((r = Some (raddr s) /\ b' = b) \/
       (b' = true /\ exists c' s', r = Some (raddr s') /\ plug c' s' = tx /\ c' <> [] /\ opened None c' /\
          fsize (s' :: after c') < fsize (s :: after c) /\
          forall us l, below vm us (s' :: after c') l -> below vm us (s :: after c) l)).
    Proof.
      induction s as [x cs IH] using rose_ind'. intros c k b Hp Ho Hk. destruct k as [|k]; [lia|].
      rewrite step_enters. destruct (enters false None x) eqn:Ex; [|eexists _, _; split; [reflexivity|left; auto]].
      destruct cs as [|d cs]; [eexists _, _; split; [reflexivity|left; auto]|].
      assert (Hd : plug (([], x, cs) :: c) d = tx) by exact Hp.
      assert (Hod : opened None (([], x, cs) :: c)) by (constructor; [exact Ex|exact Ho]).
      assert (Hvx : vm (snd x) = true) by (unfold enters in Ex; apply andb_true_iff in Ex as [_ Ex]; exact Ex).
      assert (Hb : forall us l, below vm us (d :: after (([], x, cs) :: c)) l -> below vm us (Rose x (d :: cs) :: after c) l).
      { intros us l H. apply W_skip. rewrite Hvx. exact H. }
      assert (Hs : fsize (d :: after (([], x, cs) :: c)) < fsize (Rose x (d :: cs) :: after c)).
      { cbn [after]. rewrite fsize_node. change (d :: cs ++ after c) with ((d :: cs) ++ after c). rewrite fsize_app. lia. }
      cbn [keep_calling_loop at_first head_label option_map]. change (fst (label d)) with (raddr d).
      rewrite (star_last false None _ _ Hd). cbn [mbind res_bind].
      destruct cs as [|e cs]; cbn [is_nil negb].
      - unfold pure_call at 2. rewrite Forall_forall in IH. destruct d as [y ds]. change (raddr (Rose y ds)) with (fst y) at 1 2.
        rewrite (star_first false None _ _ _ Hd). cbn [mbind res_bind].
        destruct (IH (Rose y ds) ltac:(left) _ k true Hd Hod) as (r & b' & Hr & Hcase).
        { cbn in Hk |- *. lia. }
        rewrite step_enters in Hr. exists r, b'. split; [destruct (enters false None y); exact Hr|]. right.
        destruct Hcase as [[-> ->]|(-> & c' & s' & -> & Hp' & Hne & Ho' & Hsz & Hbel)].
        + split; [reflexivity|]. exists (([], x, []) :: c), (Rose y ds). repeat split; try assumption. discriminate.
        + split; [reflexivity|]. exists c', s'. repeat split; try assumption; [lia|]. intros us l H. apply Hb, Hbel, H.
      - eexists _, _. split; [reflexivity|]. right. split; [reflexivity|]. exists (([], x, e :: cs) :: c), d.
        repeat split; try assumption. discriminate.
    Qed.
    Lemma backtracks c s j : plug c s = tx -> opened None c -> si_org j = Under vm false -> it_root (si_it j) = root ->
      backtrack F im h (Some (raddr s)) j = Ok (spot None (Some (raddr s))) \/
      exists c' s', backtrack F im h (Some (raddr s)) j = Ok (spot (Some (raddr s')) (Some (raddr s))) /\ plug c' s' = tx /\ c' <> [] /\ opened None c' /\
        fsize (s' :: after c') < fsize (s :: after c) /\ forall us l, below vm us (s' :: after c') l -> below vm us (s :: after c) l.
    Proof.
      intros Hp Ho Hj Hr. destruct (ramify s c F false Hp Ho) as (r & b' & E & Hcase).
      { pose proof (ctx_length_size c s) as Hl. rewrite Hp in Hl. pose proof (good_size _ Hgx). lia. }
      assert (Hbt : backtrack F im h (Some (raddr s)) j = Ok (spot (if b' then r else None) (Some (raddr s)))).
      { unfold backtrack. rewrite Hj, Hr. unfold get_instance. cbn [fix_navigator_root mbind res_bind si_nav it_root it_cur].
        unfold depth_first_ramification, keep_calling, pure_call at 2.
        assert (Hf : nav_first (star_nav F im h vm false None root) (Some (raddr s)) = Ok (at_first (step None s))).
        { destruct s as [x cs]. change (raddr (Rose x cs)) with (fst x). rewrite (star_first false None _ _ _ Hp), step_enters.
          destruct (enters false None x); reflexivity. }
        rewrite Hf. cbn [mbind res_bind]. rewrite E. reflexivity. }
      rewrite Hbt. destruct Hcase as [[-> ->]|(-> & c' & s' & -> & Hx)].
      - left. reflexivity.
      - right. exists c', s'. split; [reflexivity|exact Hx].
    Qed.
    Lemma deep_goes n : forall cut c s ini, fsize (s :: after c) < n -> plug c s = tx -> opened cut c ->
      goes vm (Some (Under vm false, root)) cut (spot (Some (raddr s)) ini) (s :: after c).
    Proof.
      induction n as [|n IH]; intros cut c s ini Hn Hp Ho; [lia|].
      apply G_at.
      - eapply spot_here, Hp.
      - intros cut' Hc. assert (Ho' : opened cut' c) by (destruct Hc as [->| ->]; [exact Ho|eapply opened_here; eassumption]).
        rewrite (deep_incr cut' c s ini Hp Ho'). eexists. split; [reflexivity|]. fold (step cut' s).
        destruct (step cut' s ++ after c) as [|s' fs] eqn:E; [apply G_end; reflexivity|].
        destruct (step_pos cut' c s s' fs Hp Ho' E) as (c' & Hp' & _ & Hoc & Hf). subst fs.
        apply IH; [|exact Hp'|exact Hoc]. rewrite <- E. destruct s as [x cs]. rewrite fsize_node in Hn. rewrite step_enters.
        rewrite fsize_app. destruct (enters false cut' x); cbn; lia.
      - intros o r [= <- <-]. split; reflexivity.
      - intros o r j [= <- <-] Hj Hr. destruct (backtracks c s j Hp (opened_none _ _ Ho) Hj Hr) as [E|(c' & s' & E & Hp' & _ & Ho' & Hs & Hb)].
        + eexists _, []. split; [exact E|]. split; [apply G_end; reflexivity|]. split; [destruct s; rewrite fsize_node; cbn; lia|].
          intros us l H. apply (below_more _ _ _ _ _ (s :: after c)) in H. rewrite app_nil_r in H. exact H.
        + eexists _, _. split; [exact E|]. split; [|split; [exact Hs|exact Hb]]. apply IH; [lia|exact Hp'|exact Ho'].
    Qed.
    Lemma star_start own i cut : si_cur i = root -> cut = own -> vm (snd (label tx)) = true ->
      exists i', match_iterator F im h vm false own i = Ok i' /\
        goes vm (Some (Under vm false, root)) cut i' (if ptr_eqb root own then [] else children tx).
    Proof.
      intros Hc -> Hv. unfold match_iterator. rewrite Hc. unfold get_instance. cbn [fix_navigator_root mbind res_bind].
      pose proof (deep_incr own [] tx root eq_refl) as Hi. unfold si_incr, spot in Hi. cbn [si_org si_it si_nav] in Hi.
      destruct (it_incr F (star_nav F im h vm false own) (Iter PreOrder root root [] root)) as [x|e]; cbn [mbind res_bind] in *.
      2: { specialize (Hi ltac:(constructor)). discriminate. }
      specialize (Hi ltac:(constructor)). injection Hi as Hi. eexists. split; [reflexivity|]. rewrite Hi. cbn [after]. rewrite app_nil_r.
      assert (Es : step own tx = if ptr_eqb root own then [] else children tx).
      { unfold step. rewrite Hv. destruct (ptr_eqb root own); reflexivity. }
      destruct (step own tx) as [|s' fs] eqn:E; rewrite <- Es; [apply G_end; reflexivity|].
      destruct (step_pos own [] tx s' fs eq_refl) as (c' & Hp' & _ & Ho' & Hf); [constructor|rewrite E; apply app_nil_r|].
      subst fs. eapply (deep_goes _ own c' s' root); [apply Nat.lt_succ_diag_r|exact Hp'|exact Ho'].
    Qed.

    (** *** Possessive *)
    Notation keep := (passes (enters true None) tx).
    Notation L := (leaves (prune keep (rose_map fst tx))).
    Notation St := (st_leaves (prune keep (rose_map fst tx))).
    Lemma leaf_order c : order_steps F (star_nav F im h vm true c root) Leaves L St /\ order_first F (star_nav F im h vm true c root) Leaves L St.
    Proof.
      pose proof (pred_leaves ops _ base_ok keep _ (star_pred_ok true None) F size_ok) as H. rewrite label_map in H. exact H.
    Qed.
    Definition outside (a : addr) : bool := keep_of (fun x => negb (vm (snd x))) (preorder tx) a.
    Lemma leaf_list : L = map fst (leaves (sprune (fun x => vm (snd x)) tx)).
    Proof. rewrite (sprune_ok (enters true None) tx (good_nd _ Hgx)). apply leaves_map. Qed.
    Lemma leaf_in a : a ∈ L -> exists x, a = fst x /\ x ∈ preorder tx.
    Proof.
      intros Ha. pose proof (leaves_sublist (prune keep (rose_map fst tx))) as H1. pose proof (sublist_pre keep (rose_map fst tx)) as H2.
      rewrite preorder_map in H2. assert (Hin : a ∈ map fst (preorder tx)) by (eapply elem_of_submseteq; [|apply sublist_submseteq, H2]; eapply elem_of_submseteq; [exact Ha|apply sublist_submseteq, H1]).
      apply elem_of_list_fmap in Hin as (x & -> & Hx). eauto.
    Qed.
    Lemma outside_ok a : a ∈ L -> star_filter im h vm (Some a) = Ok (outside a).
    Proof.
      intros Ha. apply leaf_in in Ha as (x & -> & Hx). unfold star_filter, outside. rewrite (good_val _ _ Hgx Hx). cbn [mbind res_bind].
      rewrite keep_of_in; [reflexivity|apply good_nd, Hgx|exact Hx].
    Qed.
    Lemma leaf_length : length L <= F.
    Proof.
      pose proof (sublist_length _ _ (leaves_sublist (prune keep (rose_map fst tx)))) as H1.
      pose proof (sublist_length _ _ (sublist_pre keep (rose_map fst tx))) as H2. rewrite (length_preorder (rose_map fst tx)) in H2. pose proof size_ok as H3. etransitivity; [exact H1|]. etransitivity; [exact H2|exact H3].
    Qed.
    Lemma poss_walk n : forall l1 l2 it fs cut, length l2 < n -> L = l1 ++ l2 -> skip_to outside l2 = l2 ->
      at_pos (raddr tx) Leaves St (head l2) it -> map raddr fs = List.filter outside l2 ->
      Forall (fun s => good s /\ vm (snd (label s)) = false) fs -> flat cut (SIt it (Under vm true)) fs.
    Proof.
      induction n as [|n IH]; intros l1 l2 it fs cut Hn HL Hsk Hat Hfs Hg; [lia|]. destruct l2 as [|x l2].
      { cbn in Hfs. apply map_eq_nil in Hfs as ->. apply flat_end. apply (ap_cur _ _ _ _ _ Hat). }
      pose proof (skip_to_head _ _ _ _ Hsk) as Hx. cbn [List.filter] in Hfs. rewrite Hx in Hfs.
      destruct fs as [|s fs]; [discriminate|]. cbn [map] in Hfs. injection Hfs as Hs Hfs. apply Forall_cons in Hg as [[Hgs Hvs] Hg].
      cbn [head] in Hat. apply flat_at.
      - split; [unfold si_cur; cbn [si_it]; rewrite (ap_cur _ _ _ _ _ Hat), Hs; reflexivity|exact Hgs| |exact Hvs].
        right. right. left. apply (ap_kind _ _ _ _ _ Hat).
      - intros c. unfold si_incr. cbn [si_org si_it si_nav]. unfold filter_incr.
        destruct (filter_incr_at F (star_nav F im h vm true c) (raddr tx) Leaves L St (proj1 (leaf_order c)) (star_filter im h vm) outside outside_ok
          (fun _ => Ok ()) (fun _ => ()) (fun _ _ => eq_refl) l2 l1 x it F HL Hat) as (it' & E & Hat').
        { pose proof leaf_length as HlL. rewrite HL, app_length in HlL. cbn in HlL. lia. }
        rewrite E. cbn [mbind res_bind]. eexists. split; [reflexivity|]. destruct (skip_to_suffix outside l2) as [m Hm].
        apply (IH (l1 ++ x :: m) (skip_to outside l2)).
        + cbn in Hn. rewrite Hm in Hn. rewrite app_length in Hn. lia.
        + rewrite HL, <- app_assoc. cbn. rewrite <- Hm. reflexivity.
        + clear. induction l2 as [|y l2 IHl]; cbn; [reflexivity|]. destruct (outside y) eqn:E; [|exact IHl]. cbn. rewrite E. reflexivity.
        + exact Hat'.
        + rewrite skip_to_filter. exact Hfs.
        + exact Hg.
    Qed.
    Lemma poss_start own i cut : si_cur i = root -> vm (snd (label tx)) = true ->
      exists i', match_iterator F im h vm true own i = Ok i' /\ flat cut i' (flat_map (frontier snd vm) (children tx)).
    Proof.
      intros Hc Hv. unfold match_iterator. rewrite Hc. unfold get_instance. cbn [fix_navigator_root mbind res_bind].
      destruct (leaf_order own) as [Hs Hf].
      destruct (incr_end F (star_nav F im h vm true own) (raddr tx) Leaves L St Hf (Iter Leaves None root [] None)) as (it1 & E1 & Hat1 & _); [split; reflexivity|].
      rewrite E1. cbn [mbind res_bind].
      destruct (filter_make_at F (star_nav F im h vm true own) (raddr tx) Leaves L St Hs (star_filter im h vm) outside outside_ok
        (fun _ => Ok ()) (fun _ => ()) (fun _ _ => eq_refl) leaf_length [] L it1 eq_refl Hat1)
        as (it2 & E2 & Hat2).
      rewrite E2. cbn [mbind res_bind]. eexists. split; [reflexivity|]. destruct (skip_to_suffix outside L) as [m Hm].
      eapply (poss_walk _ m (skip_to outside L) it2); [apply Nat.lt_succ_diag_r|exact Hm| |exact Hat2| |].
      - generalize L. clear. intros l2. induction l2 as [|y l2 IHl]; cbn; [reflexivity|]. destruct (outside y) eqn:E; [|exact IHl]. cbn. rewrite E. reflexivity.
      - rewrite skip_to_filter, leaf_list.
        transitivity (map fst (List.filter (fun x : addr * V => negb (vm (snd x))) (leaves (sprune (fun x => vm (snd x)) tx)))).
        + rewrite sprune_frontier, map_map. destruct tx as [x cs]. cbn [frontier children label] in *. rewrite Hv. reflexivity.
        + pose proof leaf_list as HL. assert (Hin : forall x, x ∈ leaves (sprune (fun x => vm (snd x)) tx) -> x ∈ preorder tx).
          { intros x Hx. assert (Hsub : forall u : tree, forall y, y ∈ preorder (sprune (fun x => vm (snd x)) u) -> y ∈ preorder u).
            { clear. induction u as [z cs IH] using rose_ind'. intros y. cbn [sprune preorder]. destruct (vm (snd z)); [|set_solver +].
              rewrite !elem_of_cons, !elem_of_flat_map. intros [->|(c & Hc & Hy)]; [auto|]. right. apply elem_of_list_fmap in Hc as (d & -> & Hd).
              rewrite Forall_forall in IH. exists d. split; [exact Hd|]. apply (IH d Hd), Hy. }
            apply Hsub. apply (rose_order_in _ Leaves). exact Hx. }
          clear HL Hm. induction (leaves (sprune (fun x => vm (snd x)) tx)) as [|y l IHl]; [reflexivity|]. cbn [List.filter map].
          unfold outside at 1. rewrite (keep_of_in (fun x => negb (vm (snd x))) (preorder tx) y (good_nd _ Hgx)) by (apply Hin; left).
          rewrite <- IHl by (intros x Hx; apply Hin; right; exact Hx). destruct (negb (vm (snd y))); reflexivity.
      - apply Forall_forall. intros s Hs'. apply elem_of_flat_map in Hs' as (u & Hu & Hs'). apply frontier_sub in Hs' as (Hvs & c & Hp).
        split; [|exact Hvs]. apply (good_plug c). rewrite Hp. destruct tx as [x cs]. eapply good_child; [exact Hgx|exact Hu].
    Qed.
  End Star.
End Walk.
