(** GenPre.v: model of policy/pre_order.hpp 15-37 over a generative navigator
    (Gen.v), advanced to the end from the navigator's root. *)
From Verif Require Import Base BinaryNode NaryNode Nav Policy Tree Gen.

Section Pre.
  Context {V Nd : Type}.
  Variable F : nat.
  Variable im : node_impl V Nd.
  Variable al : allocator Nd.
  Variable like : gmap addr Nd -> ptr -> ptr -> ptr -> res (gmap addr Nd).
  Notation heap := (gmap addr Nd).
  Context {St : Type}.
  Variable pred : St -> heap -> mptr -> res (St * mptr * bool).
  Variable root : mptr.

  (** navigator_base.hpp 232-234 [is_last_child]: not overridden by
      node_pred_navigator or generative_navigator, so it asks the nodes. *)
  Definition gen_is_last (h : heap) (p : mptr) : res bool :=
    if mp_eqb p root then Ok false
    else q ← mp_parent (ni_ops im h) p; l ← mp_last (ni_ops im h) q; Ok (mp_eqb p l).
  (** pre_order.hpp 21-35 with utility.hpp 153-165 [keep_calling]: up from [prev],
      whose parent is [next], until a node is not the last child; then to its next
      sibling.  The step to the sibling may generate, the others cannot. *)
  Fixpoint gen_cross (k : nat) (st : St) (h : heap) (prev next : mptr) : res (St * heap * mptr) :=
    match k with
    | 0 => Err OutOfFuel
    | S k =>
        if mp_bool next then
          b ← gen_is_last h prev;
          if negb b then gen_next F im al like pred root st h prev
          else p ← gen_parent im root h next; gen_cross k st h next p
        else Ok (st, h, prev)
    end.
  (** pre_order.hpp 15-37 [increment_impl] *)
  Definition gen_pre_increment (st : St) (h : heap) (cur : mptr) : res (St * heap * mptr) :=
    '(st1, h1, fc) ← gen_first F im al like pred root st h cur;
    if mp_bool fc then Ok (st1, h1, fc)
    else
      p ← gen_parent im root h1 cur;
      '(st2, h2, r) ← gen_cross F st1 h1 cur p;
      Ok (st2, h2, if mp_eqb r root then mp_null root else r).
  (** [while (iterator) iterator.increment();] with [current] the root
      (policy_base.hpp 115-119; as multi_matcher.hpp 257-261 does breadth-first). *)
  Fixpoint gen_pre_loop (k : nat) (st : St) (h : heap) (cur : mptr) : res (St * heap) :=
    match k with
    | 0 => Err OutOfFuel
    | S k =>
        if mp_bool cur then
          '(st1, h1, cur1) ← gen_pre_increment st h cur;
          gen_pre_loop k st1 h1 cur1
        else Ok (st, h)
    end.
  Definition generate_pre (st : St) (h : heap) : res (St * heap) := gen_pre_loop F st h root.
End Pre.
