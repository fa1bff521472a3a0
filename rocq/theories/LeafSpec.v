(** LeafSpec.v: the specification for leaves and breadth-first iterators that outlive changes (C62, C57). *)
From Verif Require Import Base Spec.

(** The nodes on the way from the root of [t] down to [a] (the root not counted,
    [a] counted) that have a next sibling, from [a] upwards; nothing if [a] is not a
    node of [t]. *)
Fixpoint trail (a : addr) (t : rose addr) : option (list addr) :=
  match t with
  | Rose x cs =>
      if decide (x = a) then Some []
      else
        (fix go (l : list (rose addr)) : option (list addr) :=
           match l with
           | [] => None
           | d :: l' =>
               match trail a d with
               | Some p => Some (p ++ match l' with [] => [] | _ => [label d] end)
               | None => go l'
               end
           end) cs
  end.

(** Breadth-first (C57): the first children of the nodes [l] that have children. *)
Definition firsts (l : list (rose addr)) : list addr :=
  flat_map (fun s => match children s with [] => [] | f :: _ => [label f] end) l.
(** [waiting t a q]: when the nodes of [t] up to [a] were visited in breadth-first
    order, [q] are the first nodes of the groups of siblings that are still to be
    visited and whose parents were visited: the next sibling of [a], the groups on
    the same level as [a] (their parents are after the parent [p] of [a]), the groups
    below the nodes up to [a]. *)
Inductive waiting (t : rose addr) : addr -> list addr -> Prop :=
| w_root : waiting t (label t) (firsts [t])
| w_below n ps p ls s rs ps' : row n t = ps ++ Rose p (ls ++ s :: rs) :: ps' ->
    waiting t (label s) (match rs with [] => [] | r :: _ => [label r] end ++ firsts ps' ++ firsts (flat_map children ps ++ ls ++ [s])).
