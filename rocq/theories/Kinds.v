(** Kinds.v: what differs between binary and n-ary trees, gathered in a record so
    that tree.hpp (a template over the node type) is treated once. *)
From Verif Require Import Base Spec BinaryNode NaryNode Rep EditSpec.

Record kind_data (V Nd : Type) : Type := KindData {
  C : Type;                                   (* contents, labelled with addresses and values *)
  X : Type;                                   (* contents, without addresses *)
  croot : C -> ptr;                           (* the address of the root *)
  caddrs : C -> list addr;                    (* all the addresses *)
  crep : gmap addr Nd -> C -> Prop;           (* stored as a whole tree *)
  csrc : gmap addr Nd -> C -> Prop;           (* stored, possibly inside another tree, copyable *)
  cnil : C;                                   (* the empty tree *)
  cvals : C -> X;                             (* forget the addresses *)
  lit_vals : lit V -> X;                      (* what a literal denotes *)
  lit_ok : lit V -> Prop;                     (* the literals considered *)
  csubst : addr -> C -> C -> C;               (* replace the subtree at an address *)
  csub : addr -> C -> C;                      (* the subtree at an address *)
  cadd : bool -> addr -> C -> C -> C;         (* add a first / last child *)
  crepl : addr -> C -> C -> Prop;             (* replacing is possible *)
  cfull : addr -> C -> Prop;                  (* no room for another child *)
  carity : C -> nat;                          (* largest number of children *)
  cdeg : addr -> C -> nat;                    (* number of children of a node *)
  cpost : C -> list addr                      (* the addresses in post-order *)
}.
Arguments C {V Nd} _.
Arguments X {V Nd} _.
Arguments croot {V Nd} _ _.
Arguments caddrs {V Nd} _ _.
Arguments crep {V Nd} _ _ _.
Arguments csrc {V Nd} _ _ _.
Arguments cnil {V Nd} _.
Arguments cvals {V Nd} _ _.
Arguments lit_vals {V Nd} _ _.
Arguments lit_ok {V Nd} _ _.
Arguments csubst {V Nd} _ _ _ _.
Arguments csub {V Nd} _ _ _.
Arguments cadd {V Nd} _ _ _ _ _.
Arguments crepl {V Nd} _ _ _ _.
Arguments cfull {V Nd} _ _ _.
Arguments carity {V Nd} _ _.
Arguments cdeg {V Nd} _ _ _.
Arguments cpost {V Nd} _ _.

(** Number of children of the root. *)
Definition root_deg {A} (l : list (rose A)) : nat := list_sum (map (fun t => length (children t)) l).

Definition binary_kind (V : Type) : kind_data V (bnode V) :=
  KindData V (bnode V) (bin (addr * V)) (bin V)
    baddr baddrs bin_at bin_in BLeaf (bin_map snd) lit_bin two_slots
    bsubst bsub badd (fun _ _ _ => True) bfull
    (fun t => list_max (map rarity (bin_forest t)))
    (fun a t => root_deg (bin_forest (bsub a t)))
    (fun t => map fst (flat_map postorder (bin_forest t))).

(** Views of n-ary subtrees can be copied if their root has no next sibling
    (otherwise the library copies the siblings too, see C22). *)
Definition nary_src {V} (h : gmap addr (nnode V)) (t : option (rose (addr * V))) : Prop :=
  match t with
  | None => True
  | Some t => (exists par prev, nrep h par prev None (szt 0) t) /\ NoDup (raddrs t)
  end.
(** Removing a node that is the first or the last child of its parent is not
    possible (C30). *)
Definition nary_repl {V} (a : addr) (u t : option (rose (addr * V))) : Prop :=
  match u, t with Some _, _ => True | None, Some t => middle_child a t | None, None => False end.
Definition nary_kind (V : Type) : kind_data V (nnode V) :=
  KindData V (nnode V) (option (rose (addr * V))) (option (rose V))
    nroot naddrs onary_at nary_src None nvals (fun l => head (lit_rose l)) no_empty
    nsubst nsub nadd nary_repl (fun _ _ => False)
    (fun t => match t with None => 0 | Some t => rarity t end)
    (fun a t => match nsub a t with None => 0 | Some s => length (children s) end)
    (fun t => map fst (opt_list postorder t)).
