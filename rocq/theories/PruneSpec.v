(** PruneSpec.v: the tree left when the nodes (other than the root) that fail a
    test are cut off with everything below them.  Specification only. *)
From Verif Require Import Base Spec.

Fixpoint prune {A} (keep : A -> bool) (t : rose A) : rose A :=
  match t with
  | Rose a cs => Rose a (flat_map (fun c => if keep (label c) then [prune keep c] else []) cs)
  end.
(** The subtrees whose root passes the test, in order. *)
Definition kept {A} (keep : A -> bool) (cs : list (rose A)) : list (rose A) :=
  List.filter (fun c => keep (label c)) cs.

Fixpoint bkeep {A} (keep : A -> bool) (t : bin A) : bin A :=
  match t with
  | BLeaf => BLeaf
  | BNode a l r =>
      BNode a (match l with BNode b _ _ => if keep b then bkeep keep l else BLeaf | BLeaf => BLeaf end)
              (match r with BNode b _ _ => if keep b then bkeep keep r else BLeaf | BLeaf => BLeaf end)
  end.
