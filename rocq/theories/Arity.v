(** Arity.v: [calculate_arity] (utility.hpp 207-221) computes the largest number
    of children, for both node types. *)
From Verif Require Import Base Spec StructNode BinaryNode NaryNode Nav Policy Tree Rep RoseFacts NavFacts BinRep BinOps
  NaryRep NaryOps NaryOps2.

Section Kin.
  Context {V Nd : Type}.
  Variable im : node_impl V Nd.
  Variable h : gmap addr Nd.
  Notation tree := (rose (addr * V)).

  (** The first child, the next sibling and the number of following siblings of
      each node of the forest are as in the forest. *)
  Fixpoint kin (fuel : nat) (l : list tree) : Prop :=
    match fuel with
    | 0 => l = []
    | S fuel =>
        match l with
        | [] => True
        | Rose (a, v) cs :: l' =>
            op_first (ni_ops im h) (Some a) = Ok (first_or cs None) /\
            op_next (ni_ops im h) (Some a) = Ok (first_or l' None) /\
            ni_following im h (Some a) = Ok (szt (length l')) /\
            kin fuel cs /\ kin fuel l'
        end
    end.

  Lemma first_count_ok fuel (l : list tree) : kin fuel l -> (N.of_nat (length l) < W64)%N ->
    first_count im h (first_or l None) = Ok (N.of_nat (length l)).
  Proof.
    intros Hk HW. destruct fuel as [|fuel]; [cbn in Hk; subst; reflexivity|].
    destruct l as [|[[a v] cs] l]; [reflexivity|]. cbn [kin] in Hk. destruct Hk as (_ & _ & Hf & _).
    cbn [first_or raddr label fst first_count]. rewrite Hf. cbn [mbind res_bind].
    rewrite szt_succ. cbn [length] in *. rewrite szt_small by exact HW. reflexivity.
  Qed.

  Lemma arity_loop_ok maxe : (maxe < W64)%N -> forall fuel (l : list tree) a,
    kin fuel l -> (N.of_nat (list_max (map rarity l)) <= maxe)%N -> (N.of_nat a <= maxe)%N ->
    arity_loop im (S fuel) h maxe (first_or l None) (N.of_nat a) = Ok (N.of_nat (max a (list_max (map rarity l)))).
  Proof.
    intros HW. induction fuel as [|fuel IH]; intros l a Hk Hl Ha.
    { cbn in Hk. subst. cbn. rewrite Nat.max_0_r. reflexivity. }
    destruct l as [|[[x v] cs] l]; [cbn; rewrite Nat.max_0_r; reflexivity|].
    cbn [kin] in Hk. destruct Hk as (Hfc & Hnx & _ & Hcs & Hl').
    change (list_max (map rarity (Rose (x, v) cs :: l)))
      with (max (max (length cs) (list_max (map rarity cs))) (list_max (map rarity l))) in *.
    cbn [first_or]. change (raddr (Rose (x, v) cs)) with x.
    remember (S fuel) as fuel1 eqn:Ef. cbn [arity_loop].
    destruct (N.eqb_spec (N.of_nat a) maxe) as [He|He].
    { f_equal. f_equal. lia. }
    rewrite Hfc. cbn [mbind res_bind]. rewrite (first_count_ok fuel cs Hcs) by lia. cbn [mbind res_bind].
    subst fuel1. rewrite (IH cs) by (assumption || lia). cbn [mbind res_bind]. rewrite Hnx. cbn [mbind res_bind].
    replace (N.max (N.of_nat a) (N.of_nat (max (length cs) (list_max (map rarity cs)))))
      with (N.of_nat (max a (max (length cs) (list_max (map rarity cs))))) by lia.
    rewrite (IH l) by (assumption || lia). f_equal. f_equal. lia.
  Qed.

  Lemma calculate_arity_ok F maxe (t : tree) :
    op_first (ni_ops im h) (Some (raddr t)) = Ok (first_or (children t) None) ->
    kin (rsize t - 1) (children t) -> rsize t <= F -> (N.of_nat (rarity t) <= maxe)%N -> (maxe < W64)%N ->
    (forall f f' l, kin f l -> f <= f' -> kin f' l) ->
    calculate_arity F im h (Some (raddr t)) maxe = Ok (N.of_nat (rarity t)).
  Proof.
    intros Hf Hk HF Ha HW Hmono. destruct t as [[a v] cs]. cbn [children] in *.
    change (rarity (Rose (a, v) cs)) with (max (length cs) (list_max (map rarity cs))) in *.
    unfold calculate_arity. rewrite Hf. cbn [mbind res_bind].
    rewrite (first_count_ok _ _ Hk) by lia. cbn [mbind res_bind].
    cbn [rsize] in *. destruct F as [|F]; [lia|].
    apply arity_loop_ok; [assumption| |lia|lia]. eapply Hmono; [exact Hk|]. lia.
  Qed.

  Lemma kin_mono : forall f f' l, kin f l -> f <= f' -> kin f' l.
  Proof.
    induction f as [|f IH]; intros f' l Hk Hle.
    - cbn in Hk. subst. destruct f'; reflexivity || exact I.
    - destruct f' as [|f']; [lia|]. cbn [kin] in *. destruct l as [|[[a v] cs] l]; [exact I|].
      destruct Hk as (H1 & H2 & H3 & H4 & H5). repeat split; try assumption; eapply IH; try eassumption; lia.
  Qed.
End Kin.

Section Inst.
  Context {V : Type} `{EqDecision V}.
  Notation tree := (rose (addr * V)).

  Lemma answers_kin bh : forall fuel (l : list tree), answers bh fuel l -> kin (binary_impl V) bh fuel l.
  Proof.
    induction fuel as [|fuel IH]; intros l Ha; [exact Ha|]. cbn [answers kin] in *.
    destruct l as [|[[a v] cs] l]; [exact I|]. destruct Ha as (_ & H2 & _ & H4 & H5 & H6 & H7).
    repeat split; auto.
  Qed.

  Lemma bin_children_answers bh par a v (l r : bin (addr * V)) fuel :
    brep bh par (BNode (a, v) l r) -> NoDup (baddrs (BNode (a, v) l r)) -> bin_size l + bin_size r <= fuel ->
    answers bh fuel (bin_forest l ++ bin_forest r).
  Proof.
    intros Hb Hnd Hf. set (h' := <[a := BNodeR v None (baddr l) (baddr r)]> bh).
    pose proof Hb as Hb'. cbn [brep] in Hb'. destruct Hb' as (Ha & Hl & Hr).
    pose proof (NoDup_baddrs_inv _ _ _ _ Hnd) as (Hal & Har & Hndl & Hndr & Hd).
    assert (Hchild : forall x, baddr l = Some x \/ baddr r = Some x -> exists n, bh !! x = Some n /\ bparent n = Some a).
    { intros x Hx. destruct Hx as [Hx|Hx]; apply baddr_root in Hx as (w & ll & lr & ->); cbn in *; eexists;
        (split; [apply Hl || apply Hr|reflexivity]). }
    assert (Hright : forall fuel, bin_size r <= fuel -> answers bh fuel (bin_forest r)).
    { intros f Hfr. rewrite <- (app_nil_r (bin_forest r)). eapply brep_answers; [exact Hr|exact Hndr| | |cbn; lia].
      - intros x Hx. destruct (Hchild x (or_intror Hx)) as (n & Hn & Hp).
        unfold b_following_siblings, b_next, b_is_left, b_left, b_last.
        rewrite !(deref_Some _ _ _ Hn). cbn [mbind res_bind]. rewrite Hp, !(deref_Some _ _ _ Ha).
        cbn [mbind res_bind bright bleft]. rewrite Hx, ptr_eqb_true. split; [reflexivity|].
        rewrite ptr_eqb_false; [reflexivity|]. intros Heq. symmetry in Heq. apply (Hd x); apply baddr_in; assumption.
      - intros f' _. destruct f'; reflexivity. }
    eapply brep_answers; [exact Hl|exact Hndl| | |].
    + intros x Hx. destruct (Hchild x (or_introl Hx)) as (n & Hn & Hp).
      unfold b_following_siblings, b_next, b_is_left, b_left, b_last, b_parent, b_right.
      rewrite !(deref_Some _ _ _ Hn). cbn [mbind res_bind]. rewrite Hp, !(deref_Some _ _ _ Ha).
      cbn [mbind res_bind bright bleft]. rewrite Hx, ptr_eqb_true. cbn [mbind res_bind].
      rewrite first_or_forest.
      destruct r as [|[rb rv] rl rr]; cbn [baddr bin_forest length].
      * rewrite ptr_eqb_true. auto.
      * rewrite ptr_eqb_false; [auto|]. intros [=Heq]. apply (Hd x); [apply baddr_in, Hx|].
        rewrite baddrs_node, Heq. set_solver +.
    + intros f Hfr. apply Hright. rewrite bin_forest_size in Hfr. exact Hfr.
    + rewrite bin_forest_size. lia.
  Qed.

  Lemma bin_rarity_le2 {A} (b : bin A) : Forall (fun t => rarity t <= 2) (bin_forest b).
  Proof.
    induction b as [|a l IHl r IHr]; [constructor|]. cbn [bin_forest]. constructor; [|constructor].
    change (max (length (bin_forest l ++ bin_forest r)) (list_max (map rarity (bin_forest l ++ bin_forest r))) <= 2).
    assert (Hlen : forall c : bin A, length (bin_forest c) <= 1) by (intros []; cbn; lia).
    apply Nat.max_lub; [rewrite app_length; pose proof (Hlen l); pose proof (Hlen r); lia|].
    apply list_max_le. apply Forall_map. apply Forall_app; split; assumption.
  Qed.

  Lemma b_calculate_arity_ok F h par (t : bin (addr * V)) a : brep h par t -> NoDup (baddrs t) -> baddr t = Some a ->
    bin_size t <= F ->
    calculate_arity F (binary_impl V) h (Some a) 2 = Ok (N.of_nat (list_max (map rarity (bin_forest t)))).
  Proof.
    intros Hr Hnd Ha HF. apply baddr_root in Ha as (v & l & r & ->).
    pose proof (bin_rarity_le2 (BNode (a, v) l r)) as H2. cbn [bin_forest] in H2. inversion H2 as [|? ? H2' _]; subst.
    change (list_max (map rarity (bin_forest (BNode (a, v) l r)))) with (max (rarity (Rose (a, v) (bin_forest l ++ bin_forest r))) 0).
    rewrite Nat.max_0_r. change (Some a) with (Some (raddr (Rose (a, v) (bin_forest l ++ bin_forest r)))).
    apply calculate_arity_ok.
    - cbn [brep] in Hr. destruct Hr as (Hx & _). cbn [children raddr label fst]. unfold binary_impl, ni_ops, bin_ops, op_first.
      unfold b_first. rewrite (deref_Some _ _ _ Hx). cbn. rewrite first_or_app, !first_or_forest.
      destruct (baddr l); [reflexivity|]. destruct (baddr r); reflexivity.
    - apply answers_kin. cbn [children]. eapply bin_children_answers; [exact Hr|exact Hnd|].
      rewrite rsize_rose, fsize_app, !bin_forest_size. lia.
    - rewrite rsize_rose, fsize_app, !bin_forest_size. cbn [bin_size] in HF. lia.
    - lia.
    - reflexivity.
    - apply kin_mono.
  Qed.

  Lemma nseg_kin (h : gmap addr (nnode V)) : forall fuel (l : list tree) par prev,
    nseg h par prev l None 0 -> fsize l <= fuel -> kin (nary_impl V) h fuel l.
  Proof.
    induction fuel as [|fuel IH]; intros l par prev Hs Hf.
    - destruct l as [|[[a v] cs] l]; [reflexivity|]. rewrite fsize_cons, rsize_rose in Hf. lia.
    - cbn [kin]. destruct l as [|[[a v] cs] l]; [exact I|]. cbn [nseg] in Hs. destruct Hs as [Hn Hs].
      rewrite nrep_unfold in Hn. destruct Hn as [Ha Hcs]. rewrite fsize_cons, rsize_rose in Hf.
      unfold nary_impl, ni_ops, ni_following, nary_ops, op_first, op_next, n_first, n_next, n_following_siblings.
      rewrite (deref_Some _ _ _ Ha). cbn [mbind res_bind nfirst nnext].
      split; [reflexivity|]. split; [reflexivity|]. split; [cbn; rewrite Nat.add_0_r; reflexivity|].
      split; [eapply IH; [exact Hcs|lia]|eapply IH; [exact Hs|lia]].
  Qed.

  Lemma n_calculate_arity_ok F h par prev next fs (t : tree) : nrep h par prev next fs t -> rsize t <= F ->
    (N.of_nat (rarity t) < W64)%N ->
    calculate_arity F (nary_impl V) h (Some (raddr t)) (W64 - 1) = Ok (N.of_nat (rarity t)).
  Proof.
    intros Hr HF HW. destruct t as [[a v] cs]. rewrite nrep_unfold in Hr. destruct Hr as [Ha Hs].
    apply calculate_arity_ok.
    - cbn [children raddr label fst]. unfold nary_impl, ni_ops, nary_ops, op_first, n_first.
      rewrite (deref_Some _ _ _ Ha). reflexivity.
    - eapply nseg_kin; [exact Hs|]. rewrite rsize_rose. cbn [children]. lia.
    - exact HF.
    - lia.
    - unfold W64. lia.
    - apply kin_mono.
  Qed.

  Lemma rarity_lt_rsize (t : tree) : rarity t < rsize t.
  Proof.
    induction t as [x cs IH] using rose_ind'. change (max (length cs) (list_max (map rarity cs)) < rsize (Rose x cs)).
    destruct x as [a v]. rewrite rsize_rose. pose proof (fsize_length cs) as Hl.
    enough (list_max (map rarity cs) <= fsize cs) by lia. apply list_max_le. apply Forall_map.
    rewrite Forall_forall in *. intros c Hc. specialize (IH c Hc). unfold fsize. change (rarity c <= list_sum (map rsize cs)).
    enough (rsize c <= list_sum (map rsize cs)) by lia.
    clear -Hc. induction cs as [|d cs IHc]; [apply elem_of_nil in Hc as []|].
    change (rsize c <= rsize d + list_sum (map rsize cs)).
    apply elem_of_cons in Hc as [->|Hc]; [lia|]. specialize (IHc Hc). lia.
  Qed.
End Inst.
