(** Adopt.v: nodes owned by smart pointers; model of
      include/TreeDS/allocator_utility.hpp 75-102 ([unique_ptr_alloc], [allocate])
      include/TreeDS/tree.hpp 126-128, 226-229 (a tree made from such a pointer,
        assignment of such a pointer)
      the move constructors of the nodes: binary_node.hpp 41-54, nary_node.hpp 50-69
    on top of the calls of History.v, and its specification.

    A smart pointer is an object that owns a root node; it is kept in the same table
    as the tree objects, under its own identity, with 0 as size and arity (which a
    pointer does not have).  The allocator objects are those of Allocs.v and not
    part of this model. *)
From Verif Require Import Base Spec StructNode BinaryNode NaryNode Nav Policy Tree User Rep EditSpec World Kinds TreeSpec History.

(** binary_node.hpp 41-54: [binary_node(binary_node&& other)], through [allocate].
    The value is copied (line 42 passes [other.value]). *)
Definition b_move {V} (F : nat) (al : allocator (bnode V)) (h : gmap addr (bnode V)) (other : ptr)
  : res (addr * gmap addr (bnode V)) :=
  o ← deref h other;
  let '(a, h0) := b_alloc al h (bval o) in
  h1 ← update h0 (Some a) (bset_left (bleft o));
  h2 ← update h1 (Some a) (bset_right (bright o));
  h3 ← (if is_null (bleft o) then Ok h2 else update h2 (bleft o) (bset_parent (Some a)));
  h4 ← (if is_null (bright o) then Ok h3 else update h3 (bright o) (bset_parent (Some a)));
  h5 ← update h4 other (fun n => BNodeR (bval n) None None None);
  Ok (a, h5).

(** nary_node.hpp 57-61: the loop that gives the children their new parent. *)
Fixpoint n_reparent {V} (fuel : nat) (h : gmap addr (nnode V)) (a : addr) (cur : ptr) : res (gmap addr (nnode V)) :=
  match fuel with
  | 0 => Err OutOfFuel
  | S fuel =>
      match cur with
      | None => Ok h
      | Some _ =>
          h1 ← update h cur (nset_parent (Some a));
          nx ← n_next h1 cur;
          n_reparent fuel h1 a nx
      end
  end.
(** nary_node.hpp 50-69: [nary_node(nary_node&& other)], through [allocate].  The value is
    copied (node.hpp 31-33 does not forward). *)
Definition n_move {V} (F : nat) (al : allocator (nnode V)) (h : gmap addr (nnode V)) (other : ptr)
  : res (addr * gmap addr (nnode V)) :=
  o ← deref h other;
  let '(a, h0) := n_alloc al h (nval o) None (nfsize o) (nprev o) in
  h1 ← update h0 (Some a) (nset_next (nnext o));
  h2 ← update h1 (Some a) (nset_first (nfirst o));
  h3 ← update h2 (Some a) (nset_last (nlast o));
  h4 ← n_reparent F h3 a (nfirst o);
  h5 ← n_manage_parent_last_child h4 a;
  h6 ← update h5 other (fun n => NNodeR (nval n) None 0 None None None None);
  Ok (a, h6).

(** The calls: [p], [q] are smart pointers, [i], [j] trees. *)
Inductive pcall (V : Type) : Type :=
| PValue (p : tid) (v : V)                 (* auto p = allocate(alloc, v); *)
| PLiteral (p : tid) (l : lit V)           (* auto p = allocate(alloc, n(...)(...), alloc); *)
| PCopy (p i : tid)                        (* auto p = allocate(alloc, *i.raw_root_node(), alloc); *)
| PMoved (p q : tid)                       (* auto p = allocate(alloc, std::move( *q)); *)
| PDrop (p : tid)                          (* end of the lifetime of p *)
| PNew (i p : tid) (size arity : N)        (* tree i(std::move(p), size, arity); default 0, 0 *)
| PAssign (i p : tid)                      (* i = std::move(p); *)
| PCall (c : call V).                      (* a call on the trees *)
Arguments PValue {V} _ _.
Arguments PLiteral {V} _ _.
Arguments PCopy {V} _ _.
Arguments PMoved {V} _ _.
Arguments PDrop {V} _.
Arguments PNew {V} _ _ _ _.
Arguments PAssign {V} _ _.
Arguments PCall {V} _.

Definition held (q : ptr) : tree_rec := TreeRec q 0 0 q.

Section Adopt.
  Context {V Nd : Type}.
  Variable F : nat.
  Variable im : node_impl V Nd.
  Variable mv : nat -> allocator Nd -> gmap addr Nd -> ptr -> res (addr * gmap addr Nd).
  Variable al : allocator Nd.

  (** allocator_utility.hpp 90-102 [allocate]: the pointer [p] owns what was built. *)
  Definition own (w : world Nd) (p : tid) (m : res (addr * gmap addr Nd)) : res (world Nd) :=
    '(a, h) ← m; Ok (set_tree (set_heap w h) p (held (Some a))).
  (** tree.hpp 126-128; [release()] leaves the pointer null. *)
  Definition adopt_new (w : world Nd) (i p : tid) (size arity : N) : res (world Nd) :=
    t ← get_tree w p;
    Ok (set_tree (set_tree w p (held None)) i (TreeRec (t_root t) size arity (t_root t))).
  (** tree.hpp 226-229 *)
  Definition adopt_assign (w : world Nd) (i p : tid) : res (world Nd) :=
    t ← get_tree w p;
    assign F im (set_tree w p (held None)) i (t_root t) 0 0.
  Definition pexec (w : world Nd) (c : pcall V) : out (world Nd) unit :=
    match c with
    | PValue p v => done (own w p (ni_from_value im al (w_heap w) v))
    | PLiteral p l => done (own w p (ni_from_struct im al (w_heap w) (eval_lit l)))
    | PCopy p i => done (t ← get_tree w i; own w p (ni_copy im F al (w_heap w) (t_root t)))
    | PMoved p q => done (t ← get_tree w q; own w p (mv F al (w_heap w) (t_root t)))
    | PDrop p => done (destroy F im w p)       (* allocator_utility.hpp 70-72: the deleter *)
    | PNew i p s r => done (adopt_new w i p s r)
    | PAssign i p => done (adopt_assign w i p)
    | PCall c => exec F im al w c
    end.

  (** *** Specification *)
  Variable K : kind_data V Nd.
  Notation live := (live K).
  (** Pointers and trees exist (or not yet), the node that is copied or moved from exists,
      pointer and tree are different objects. *)
  Definition pvalid (w : world Nd) (M : gmap tid (C K)) (c : pcall V) : Prop :=
    match c with
    | PValue p _ => M !! p = None
    | PLiteral p l => M !! p = None /\ good_lit K l
    | PCopy p q | PMoved p q => M !! p = None /\ exists c, M !! q = Some c /\ c <> cnil K
    | PDrop p => live M p
    | PNew i p _ _ => M !! i = None /\ live M p
    | PAssign i p => live M i /\ live M p /\ i <> p
    | PCall c => valid F im K w M c
    end.
  (** The calls that keep the stored sizes and arities right: a size or arity given with
      a pointer is right (or 0), and a node is moved from an owner whose size and
      arity are not stored. *)
  Definition pexact (w : world Nd) (M : gmap tid (C K)) (c : pcall V) : Prop :=
    match c with
    | PNew i p s r => forall c, M !! p = Some c -> cached K (TreeRec (croot K c) s r (croot K c)) c
    | PMoved p q => exists t, w_trees w !! q = Some t /\ t_size t = 0%N /\ t_arity t = 0%N
    | PCall c => exact K w M c
    | _ => True
    end.
  Inductive preach : world Nd -> Prop :=
  | preach_start : preach empty_world
  | preach_call w M c w' : preach w -> consistent K w M -> pvalid w M c -> size (w_heap w) < F ->
      pexec w c = Ret () w' \/ pexec w c = Throw w' -> preach w'.
  Inductive pcareful : world Nd -> Prop :=
  | pcareful_start : pcareful empty_world
  | pcareful_call w M c w' : pcareful w -> consistent K w M -> pvalid w M c -> pexact w M c -> size (w_heap w) < F ->
      pexec w c = Ret () w' \/ pexec w c = Throw w' -> pcareful w'.
End Adopt.

(** The two kinds of trees with the move constructors of their nodes. *)
Inductive owner_kind (V : Type) (EV : EqDecision V) : forall Nd : Type, node_impl V Nd ->
  (nat -> allocator Nd -> gmap addr Nd -> ptr -> res (addr * gmap addr Nd)) -> kind_data V Nd -> Prop :=
| binary_owner : owner_kind V EV (bnode V) (binary_impl V) b_move (binary_kind V)
| nary_owner : owner_kind V EV (nnode V) (nary_impl V) n_move (nary_kind V).
