(** StructNode.v: model of include/TreeDS/node/struct_node.hpp, the structure
    literals [n(v)(c1, ..., ck)].

    In the code the shape of a literal is a C++ type
    [struct_node<T, FirstChild, NextSibling>]; here it is data.  [SNil] is
    [detail::empty_t]; the value of [n()] (also [detail::empty_t]) is [None].
    The compile-time counters are [unsigned]/[size_t] of compile-time bounded
    size; they are modelled as unbounded [N].  Emplacing tuples
    ([n(args...)], 326-329) are values like any other here. *)
From Verif Require Import Base Spec.

Section StructNode.
  Context {V : Type}.

  (** struct_node.hpp 18-37: the attributes [value], [first_child],
      [next_sibling], [level], [index]. *)
  Inductive snode : Type :=
  | SNil
  | SN (value : option V) (level index : N) (first_child next_sibling : snode).

  (** 115-120 [assign_indexes]. *)
  Fixpoint assign_indexes (s : snode) (index : N) : snode :=
    match s with
    | SNil => SNil
    | SN v l _ fc ns => SN v l index fc (assign_indexes ns (index + 1))
    end.

  (** 131-139 [set_level]. *)
  Fixpoint set_level (s : snode) (level : N) : snode :=
    match s with
    | SNil => SNil
    | SN v _ i fc ns => SN v level i (set_level fc (level + 1)) (set_level ns level)
    end.

  (** 41-49 the constructor: level and index are 0 (default member
      initialisers 36-37), then the children get their indexes and levels. *)
  Definition make_struct_node (v : option V) (fc ns : snode) : snode :=
    SN v 0 0 (set_level (assign_indexes fc 0) (0 + 1)) ns.

  (** 307-311 [with_first_child], 313-317 [with_next_sibling].  [SNil] is not
      a struct_node: these are never called on it. *)
  Definition with_first_child (s child : snode) : snode :=
    match s with
    | SNil => SNil
    | SN v _ _ _ ns => make_struct_node v child ns
    end.
  Definition with_next_sibling (s sibling : snode) : snode :=
    match s with
    | SNil => SNil
    | SN v _ _ fc _ => make_struct_node v fc sibling
    end.

  (** 321-324 [n(value)], 331-333 [n()]. *)
  Definition n_value (v : V) : snode := make_struct_node (Some v) SNil SNil.
  Definition n_empty : snode := make_struct_node None SNil SNil.

  (** 256-269 [operator()(nodes...)]: a right fold that links the arguments as
      siblings. *)
  Definition apply_children (s : snode) (nodes : list snode) : snode :=
    with_first_child s (foldr with_next_sibling SNil nodes).

  (** What the C++ expression [n(v)(c1, ..., ck)] evaluates to. *)
  Fixpoint eval_lit (t : lit V) : snode :=
    match t with
    | LEmpty => n_empty
    | LNode v cs =>
        match cs with
        | [] => n_value v
        | _ => apply_children (n_value v) (map eval_lit cs)
        end
    end.

  (** 194-196 [is_valid_node]; the traits [is_empty] / [is_empty_node]. *)
  Definition is_empty (s : snode) : bool :=
    match s with SNil => true | _ => false end.
  Definition is_valid_node (s : snode) : bool :=
    match s with SN (Some _) _ _ _ _ => true | _ => false end.
  Definition is_empty_node (s : snode) : bool :=
    match s with SN None _ _ _ _ => true | _ => false end.
  (** 142-156 getters. *)
  Definition s_first_child (s : snode) : snode :=
    match s with SNil => SNil | SN _ _ _ fc _ => fc end.
  Definition s_next_sibling (s : snode) : snode :=
    match s with SNil => SNil | SN _ _ _ _ ns => ns end.
  Definition s_value (s : snode) : option V :=
    match s with SNil => None | SN v _ _ _ _ => v end.

  (** 79-86 [foldl_siblings_types] applied through 158-165
      [foldl_children_types]: a left fold over the chain of children. *)
  Fixpoint foldl_chain {B} (f : B -> snode -> B) (acc : B) (s : snode) : B :=
    match s with
    | SNil => acc
    | SN _ _ _ _ ns => foldl_chain f (f acc s) ns
    end.

  (** 208-220 [children()]. *)
  Definition s_children (s : snode) : N :=
    foldl_chain (fun acc e => if is_valid_node e then acc + 1 else acc)%N 0%N (s_first_child s).

  (** 230-237 [subtree_size()].  The recursion of the code (a left fold over
      the children, each contributing its own [subtree_size]) is written on the
      child chain so that it is structural: [chain_size s acc] is the fold from
      chain element [s] on. *)
  Fixpoint chain_size (s : snode) (acc : N) : N :=
    match s with
    | SNil => acc
    | SN v _ _ fc ns =>
        chain_size ns (acc + chain_size fc (match v with Some _ => 1 | None => 0 end))%N
    end.
  Definition subtree_size (s : snode) : N :=
    match s with
    | SNil => 0
    | SN v _ _ fc _ => chain_size fc (match v with Some _ => 1 | None => 0 end)%N
    end.

  (** 239-246 [subtree_arity()], same remark; [k] is the number of children of
      the node whose chain is folded. *)
  Fixpoint chain_arity (s : snode) (k acc : N) : N :=
    match s with
    | SNil => acc
    | SN _ _ _ fc ns =>
        chain_arity ns k
          (N.max acc (N.max k (chain_arity fc (foldl_chain (fun acc e => if is_valid_node e then acc + 1 else acc)%N 0%N fc) 0)))
    end.
  Definition subtree_arity (s : snode) : N :=
    chain_arity (s_first_child s) (s_children s) 0.

  (** 271-277 [following_siblings()]. *)
  Fixpoint s_following_siblings (s : snode) : N :=
    match s with
    | SNil => 0
    | SN _ _ _ _ ns => match ns with SNil => 0 | _ => 1 + s_following_siblings ns end
    end.
End StructNode.
Arguments snode V : clear implicits.
