(** NameSpec.v: what the names in a pattern stand for. *)
From Verif Require Import Base Spec Matcher Star StarSpec Names.
From Coq Require Import String.

(** The names of a pattern as they are written, from left to right. *)
Fixpoint names {V} (u : wpat V) : list string :=
  match u with
  | WOne _ cs | WOpt _ _ cs | WStar _ _ cs => flat_map names cs
  | WCpt n p => n :: names p
  end.

(** [mark_of u a n s b]: in the pattern [u], of which [a] tells the nodes taken,
    the matcher [s] is marked with the name [n], and [b] tells the nodes it took. *)
Inductive mark_of {V A} : wpat V -> asg A -> string -> spat V -> asg A -> Prop :=
| M_here n p t b : mark_of (WCpt n p) (Asg t [b]) n (unname p) b
| M_in n m p t b s c : mark_of p b n s c -> mark_of (WCpt m p) (Asg t [b]) n s c
| M_one n vm cs t l k c b s d : nth_error cs k = Some c -> nth_error l k = Some b -> mark_of c b n s d -> mark_of (WOne vm cs) (Asg t l) n s d
| M_opt n q vm cs t l k c b s d : nth_error cs k = Some c -> nth_error l k = Some b -> mark_of c b n s d -> mark_of (WOpt q vm cs) (Asg t l) n s d
| M_star n q vm cs t l k c b s d : nth_error cs k = Some c -> nth_error l k = Some b -> mark_of c b n s d -> mark_of (WStar q vm cs) (Asg t l) n s d.
