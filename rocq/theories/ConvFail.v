(** ConvFail.v: model of the conversions from a binary tree to an n-ary tree when
    the creation of a node fails (as in Fail.v). *)
From Verif Require Import Base StructNode BinaryNode NaryNode Nav Policy Tree Spec User Fail.

Section Convert.
  Context {V : Type} {EV : EqDecision V}.
  Variable F : nat.
  Variable al : allocator (nnode V).
  Variable late : bool.
  Notation heap := (gmap addr (nnode V)).

  (** nary_node.hpp 104-123, see [n_from_binary_from].  The value is copied in the
      base class, before the other members. *)
  Fixpoint n_binary_from_try (fuel : nat) (bh : gmap addr (bnode V)) (src parent prev : ptr) : attempt heap addr :=
    match fuel with
    | 0 => fun _ _ => Wrong OutOfFuel
    | S fuel =>
        then_ (reading (fun _ => b_value bh src)) (fun v =>
        then_ (reading (fun _ => b_following_siblings bh src)) (fun fs =>
        then_ (creating late (fun h => n_alloc al h v parent fs prev)) (fun a =>
        then_ (reading (fun _ => b_next bh src)) (fun ns =>
        then_ (match ns with None => give None | Some _ => then_ (n_binary_from_try fuel bh ns parent (Some a)) (fun x => give (Some x)) end) (fun nx =>
        then_ (writing (fun h => update h (Some a) (nset_next nx))) (fun _ =>
        then_ (reading (fun _ => b_first bh src)) (fun fcs =>
        then_ (match fcs with None => give None | Some _ => then_ (n_binary_from_try fuel bh fcs (Some a) None) (fun x => give (Some x)) end) (fun fc =>
        then_ (writing (fun h => update h (Some a) (nset_first fc))) (fun _ =>
        then_ (writing (fun h => n_manage_parent_last_child h a)) (fun _ => give a))))))))))
    end.
  (** The root of the new nodes.  [size()] and [arity()] of the binary tree, the
      other two arguments, create nothing and change the cached values of that tree
      only, so it does not matter in which order the arguments are evaluated. *)
  Definition binary_root_try (bh : gmap addr (bnode V)) (b : tree_rec) : attempt heap ptr :=
    match t_root b with
    | None => give None
    | Some _ => then_ (n_binary_from_try F bh (t_root b) None None) (fun a => give (Some a))
    end.
  Definition converting (rest : gmap addr (nnode V) -> ptr -> N -> N -> res (world (nnode V)))
      (k : nat) (w : world (nnode V)) (bh : gmap addr (bnode V)) (b : tree_rec) : out (world (nnode V)) unit :=
    match binary_root_try bh b (w_heap w) k with
    | Lost h => Throw (set_heap w h)
    | Wrong e => Bad e
    | Made p h _ =>
        match ('(s, b1) ← size_of F (binary_impl V) bh b;
               '(r, _) ← arity_of F (binary_impl V) bh b1;
               rest h p s r) with
        | Ok w' => Ret tt w'
        | Err e => Bad e
        end
    end.
  (** nary_tree.hpp 31-42 *)
  Definition construct_binary_try (k : nat) (w : world (nnode V)) (i : tid) (bh : gmap addr (bnode V)) (b : tree_rec) : out (world (nnode V)) unit :=
    converting (fun h p s r => Ok (set_tree (set_heap w h) i (TreeRec p s r p))) k w bh b.
  (** nary_tree.hpp 47-59 *)
  Definition assign_binary_try (k : nat) (w : world (nnode V)) (i : tid) (bh : gmap addr (bnode V)) (b : tree_rec) : out (world (nnode V)) unit :=
    converting (fun h p s r => assign F (nary_impl V) (set_heap w h) i p s r) k w bh b.
End Convert.
