(** EarlySpec.v: the nodes a pre-order loop meets when nodes are cut off by a
    test but the loop still decides by the uncut tree whether a node has
    siblings after it.  Specification only.
    The children of a node are taken in order, skipping the failing ones; each
    passing child is gone through with everything below it.  When a child has
    been gone through and there are siblings after it but all of them fail, the
    whole loop stops there. *)
From Verif Require Import Base Spec.

Section Early.
  Context {A : Type} (keep : A -> bool).
  Definition passes (c : rose A) : bool := keep (label c).
  (** What is met in [t], and whether the loop stopped there. *)
  Fixpoint met (t : rose A) : list A * bool :=
    match t with
    | Rose x cs =>
        let '(l, stopped) :=
          (fix row (cs : list (rose A)) : list A * bool :=
             match cs with
             | [] => ([], false)
             | c :: rest =>
                 if passes c then
                   let '(l, stopped) := met c in
                   if stopped then (l, true)
                   else match rest with
                        | [] => (l, false)
                        | _ :: _ =>
                            if existsb passes rest then let '(l', s') := row rest in (l ++ l', s')
                            else (l, true)
                        end
                 else row rest
             end) cs in
        (x :: l, stopped)
    end.
End Early.
