(** FailSpec.v: how many nodes a call creates. *)
From Verif Require Import Base Spec StructNode BinaryNode NaryNode Nav Policy Tree User Rep EditSpec World Kinds TreeSpec History Fail.

(** The two kinds of trees, with their constructors that may fail. *)
Inductive fail_kind (V : Type) (EV : EqDecision V) : forall Nd, node_impl V Nd -> kind_data V Nd -> try_impl V Nd -> Prop :=
| binary_fail_kind : fail_kind V EV (bnode V) (binary_impl V) (binary_kind V) (binary_try V)
| nary_fail_kind : fail_kind V EV (nnode V) (nary_impl V) (nary_kind V) (nary_try V).

(** How many nodes a call creates, in a world whose trees have the contents [M]. *)
Section Takes.
  Context {V Nd : Type}.
  Variable K : kind_data V Nd.
  Definition lit_nodes (l : lit V) : nat := list_sum (map rsize (lit_rose l)).
  Inductive source_takes (w : world Nd) (M : gmap tid (C K)) : source V -> nat -> Prop :=
  | TValue v : source_takes w M (SrcValue v) 1
  | TStruct l : good_lit K l -> source_takes w M (SrcStruct (eval_lit l)) (lit_nodes l)
  | TMove j : source_takes w M (SrcMove j) 0
  | TCopy j c : M !! j = Some c -> source_takes w M (SrcCopy j) (length (caddrs K c))
  | TView t s : csrc K (w_heap w) s -> t_root t = croot K s -> source_takes w M (SrcView t) (length (caddrs K s)).
  (** Calls that create no node. *)
  Definition creates_none (c : call V) : bool :=
    match c with
    | CEmpty _ | CMove _ _ | CDestroy _ | CAssignMove _ _ | CClear _ | CSwap _ _ | CErase _ _ | CEraseRange _ _ _
    | CSize _ | CArity _ | CEqual _ _ | CEqualLiteral _ _ => true
    | _ => false
    end.
  Inductive takes (w : world Nd) (M : gmap tid (C K)) : call V -> nat -> Prop :=
  | TCLiteral i l : good_lit K l -> takes w M (CLiteral i l) (lit_nodes l)
  | TCAssignLiteral i l : good_lit K l -> takes w M (CAssignLiteral i l) (lit_nodes l)
  | TCCopy i j c : M !! j = Some c -> takes w M (CCopy i j) (length (caddrs K c))
  | TCAssignCopy i j c : M !! j = Some c -> takes w M (CAssignCopy i j) (length (caddrs K c))
  | TCAssignView i t s : csrc K (w_heap w) s -> t_root t = croot K s -> takes w M (CAssignView i t) (length (caddrs K s))
  | TCInsertOver i pos src n : source_takes w M src n -> takes w M (CInsertOver i pos src) n
  | TCInsertChild first emplace i pos src n : source_takes w M src n -> takes w M (CInsertChild first emplace i pos src) n
  | TCNone c : creates_none c = true -> takes w M c 0.
End Takes.
