(** AdoptAlloc.v: the allocators of smart pointers (allocator_utility.hpp 63-102: the
    [deleter] of a pointer holds a copy of the allocator that [allocate] was given) and
    what trees do with them (tree.hpp 126-128, 226-229), on top of Adopt.v and
    Allocs.v; with its specification.

    [aw_alloc x p] of a pointer [p] is the allocator in its deleter. *)
From Verif Require Import Base Spec StructNode BinaryNode NaryNode Nav Policy Tree User Rep EditSpec World Kinds TreeSpec History Allocs Adopt.

Inductive qcall (V : Type) : Type :=
| QOwn (a : aid) (c : pcall V)    (* a call on pointers; [a]: the first argument of [allocate] *)
| QTree (c : acall V).            (* a call on trees *)
Arguments QOwn {V} _ _.
Arguments QTree {V} _.

Section AdoptAlloc.
  Context {V Nd : Type}.
  Variable F : nat.
  Variable im : node_impl V Nd.
  Variable mv : nat -> allocator Nd -> gmap addr Nd -> ptr -> res (addr * gmap addr Nd).
  Variable al : allocator Nd.

  (** The allocator the released nodes go to: the deleter's (allocator_utility.hpp 71-73),
      the tree's own ([assign], tree.hpp 400-408). *)
  Definition qreleases (A : tid -> aid) (a : aid) (c : pcall V) : aid :=
    match c with
    | PDrop p => A p
    | PAssign i _ => A i
    | _ => a
    end.
  (** The allocators afterwards: [allocate] puts the one it was given into the deleter
      (allocator_utility.hpp 98-100); the constructor (tree.hpp 126-128) calls
      [tree(node_type*, size, arity)] (tree.hpp 58-60), which leaves its allocator
      default-constructed; [release()] leaves the deleter in place. *)
  Definition qafter (A : tid -> aid) (a : aid) (c : pcall V) : tid -> aid :=
    match c with
    | PValue p _ | PLiteral p _ | PCopy p _ | PMoved p _ => put A p a
    | PNew i _ _ _ => put A i 0
    | _ => A
    end.
  Definition qshown_after (A : tid -> aid) (c : pcall V) : tid -> aid :=
    match c with PNew i _ _ _ => put A i 0 | _ => A end.
  (** As [settle] and [astep] (Allocs.v). *)
  Definition qsettle (x : aworld Nd) (a : aid) (c : pcall V) (w' : world Nd) : aout Nd :=
    if bool_decide (map_Forall (fun n m => w_heap w' !! n = None -> m = qreleases (aw_alloc x) a c) (aw_maker x))
    then Good (AWorld w' (qafter (aw_alloc x) a c) (qshown_after (aw_shown x) c)
                 (remade (w_heap (aw_world x)) (w_heap w') (aw_maker x) a))
    else WrongAllocator.
  Definition qstep (x : aworld Nd) (c : qcall V) : aout Nd :=
    match c with
    | QTree c => astep F im al x c
    | QOwn a c =>
        match pexec F im mv al (aw_world x) c with
        | Ret _ w' | Throw w' => qsettle x a c w'
        | Bad _ => Stuck
        end
    end.

  (** *** Specification *)
  Variable K : kind_data V Nd.
  Definition qvalid (w : world Nd) (M : gmap tid (C K)) (c : qcall V) : Prop :=
    match c with
    | QOwn _ (PCall _) => False
    | QOwn _ c => pvalid F im K w M c
    | QTree c => avalid F im K w M c
    end.
  (** The calls that do not mix allocators: a tree is made from a pointer with a
      default-constructed allocator, is assigned a pointer with the tree's allocator
      (or a null pointer), and a node with children is moved from one of the same
      allocator. *)
  Definition qunmixed (A : tid -> aid) (M : gmap tid (C K)) (c : qcall V) : Prop :=
    match c with
    | QTree c => unmixed K A M c
    | QOwn a (PMoved p q) => (forall c, M !! q = Some c -> length (caddrs K c) = 1) \/ A q = a
    | QOwn a (PNew i p _ _) => M !! p = Some (cnil K) \/ A p = 0
    | QOwn a (PAssign i p) => M !! p = Some (cnil K) \/ A i = A p
    | QOwn _ _ => True
    end.
  Inductive qreach : aworld Nd -> Prop :=
  | qreach_start : qreach aempty
  | qreach_call x M c x' : qreach x -> consistent K (aw_world x) M -> qvalid (aw_world x) M c -> qunmixed (aw_alloc x) M c ->
      size (w_heap (aw_world x)) < F -> qstep x c = Good x' -> qreach x'.
End AdoptAlloc.
