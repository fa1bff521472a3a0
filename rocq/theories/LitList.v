(** LitList.v: the listing of a structure literal (C38). *)
From Verif Require Import Base Spec StructNode LitFacts.

(** The nodes of a literal as its links show them, parents before children and
    siblings in order: value ([None] for [n()]), level and index of each. *)
Fixpoint s_listing {V} (s : snode V) : list (option V * N * N) :=
  match s with
  | SNil => []
  | SN v level index fc ns => (v, level, index) :: s_listing fc ++ s_listing ns
  end.
(** What it should be: the root of the written expression has level [d] and index
    [i]; the arguments of a node are one level deeper, numbered from 0. *)
Fixpoint lit_listing {V} (d i : N) (t : lit V) : list (option V * N * N) :=
  match t with
  | LEmpty => [(None, d, i)]
  | LNode v cs =>
      (Some v, d, i) ::
      (fix args (j : N) (l : list (lit V)) :=
         match l with [] => [] | c :: l => lit_listing (d + 1) j c ++ args (j + 1)%N l end) 0%N cs
  end.

Section L.
  Context {V : Type}.
  Fixpoint lits_listing (d j : N) (l : list (lit V)) : list (option V * N * N) :=
    match l with [] => [] | c :: l => lit_listing d j c ++ lits_listing d (j + 1) l end.
  Lemma lit_listing_node d i (v : V) cs : lit_listing d i (LNode v cs) = (Some v, d, i) :: lits_listing (d + 1) 0 cs.
  Proof.
    cbn. f_equal. generalize 0%N. induction cs as [|c cs IH]; intros j; cbn; [reflexivity|]. rewrite IH. reflexivity.
  Qed.
  Lemma listing_ok (s : snode V) : forall ls d i, reads s ls -> placed s d i -> s_listing s = lits_listing d i ls.
  Proof.
    induction s as [|v l ix fc IHf ns IHn]; intros ls d i Hr Hp.
    - apply reads_nil in Hr as ->. reflexivity.
    - cbn [placed] in Hp. destruct Hp as (-> & -> & Hpf & Hpn).
      destruct v as [v|], ls as [|[|v' cs] ls]; cbn in Hr; try tauto.
      + destruct Hr as (-> & Hf & Hn). cbn [s_listing lits_listing]. rewrite lit_listing_node.
        rewrite (IHf _ _ _ Hf Hpf), (IHn _ _ _ Hn Hpn). reflexivity.
      + destruct Hr as (-> & Hn). cbn [s_listing lits_listing lit_listing app]. rewrite (IHn _ _ _ Hn Hpn). reflexivity.
  Qed.
  Lemma eval_listing (t : lit V) : s_listing (eval_lit t) = lit_listing 0 0 t.
  Proof.
    rewrite (listing_ok _ [t] 0 0 (reads_eval t) (placed_eval t)). cbn. apply app_nil_r.
  Qed.
  Lemma p_literals (t : lit V) :
    s_listing (eval_lit t) = lit_listing 0 0 t /\
    subtree_size (eval_lit t) = N.of_nat (list_sum (map rsize (lit_rose t))) /\
    subtree_arity (eval_lit t) = N.of_nat (list_max (map rarity (lit_rose t))).
  Proof.
    split; [apply eval_listing|]. split; [apply (subtree_size_ok _ t []), reads_eval|apply (subtree_arity_ok _ t []), reads_eval].
  Qed.
  Lemma p_literal_children (v : V) cs : s_children (eval_lit (LNode v cs)) = N.of_nat (length (flat_map lit_rose cs)).
  Proof. apply (s_children_ok _ v cs []), reads_eval. Qed.
End L.
