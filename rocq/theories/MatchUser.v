(** MatchUser.v: vocabulary of the theorems about patterns. *)
From Verif Require Import Base Spec MatchSpec StructNode BinaryNode NaryNode Nav Policy Tree Matcher.

(** The pattern has no [opt]. *)
Fixpoint plain {V} (u : upat V) : Prop :=
  match u with
  | UOne _ cs => (fix all l := match l with [] => True | c :: l => plain c /\ all l end) cs
  | UOpt _ _ _ => False
  | UCpt p => plain p
  end.
(** The tree of what its nodes accept (captures are transparent). *)
Fixpoint strip {V} (u : upat V) : rose (V -> bool) :=
  match u with
  | UOne vm cs => Rose vm (map strip cs)
  | UOpt _ vm cs => Rose vm (map strip cs)
  | UCpt p => strip p
  end.
(** The subtrees of an occurrence [m] that the captures stand at, in pre-order:
    [m] is split among the children of the pattern as [strip] is. *)
Fixpoint marks {V A} (u : upat V) (m : rose A) : list (rose A) :=
  match u with
  | UOne _ cs | UOpt _ _ cs =>
      (fix go cs ms := match cs, ms with c :: cs, m :: ms => marks c m ++ go cs ms | _, _ => [] end) cs (children m)
  | UCpt p => m :: marks p m
  end.
