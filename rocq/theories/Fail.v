(** Fail.v: model of the node constructors and of the calls of tree.hpp when the
    creation of a node fails: the allocator throws (std::bad_alloc), or the
    constructor of the value throws.

    [k] nodes can still be created; the creation of the next one fails.  If
    [late] is false the allocator throws (allocator_utility.hpp 95); if it is true
    the memory was obtained and the constructor throws while copying the value
    (97), and no one gives that memory back.  The node is put in the heap as in
    BinaryNode.v/NaryNode.v, meaning only that the address is in use.  A
    constructor that throws destroys the members that were constructed; the links
    are raw pointers, so the nodes created for it stay as they are. *)
From Verif Require Import Base StructNode BinaryNode NaryNode Nav Policy Tree Spec User Rep EditSpec World Kinds TreeSpec History.

(** The outcome: the result, the heap and how many more nodes can be created; or
    an exception, with the heap as it was left; or an error of the code. *)
Inductive made (H A : Type) : Type :=
| Made (x : A) (h : H) (k : nat)
| Lost (h : H)
| Wrong (e : err).
Arguments Made {H A} _ _ _.
Arguments Lost {H A} _.
Arguments Wrong {H A} _.

Definition attempt (H A : Type) : Type := H -> nat -> made H A.
Definition give {H A} (x : A) : attempt H A := fun h k => Made x h k.
Definition then_ {H A B} (m : attempt H A) (f : A -> attempt H B) : attempt H B :=
  fun h k => match m h k with Made x h' k' => f x h' k' | Lost h' => Lost h' | Wrong e => Wrong e end.
(** Code that only reads, code that only writes. *)
Definition reading {H A} (r : H -> res A) : attempt H A :=
  fun h k => match r h with Ok x => Made x h k | Err e => Wrong e end.
Definition writing {H} (f : H -> res H) : attempt H unit :=
  fun h k => match f h with Ok h' => Made () h' k | Err e => Wrong e end.

Section Fail.
  Variable late : bool.

  (** allocator_utility.hpp 93-102 [allocate]: [f] is the creation of the node. *)
  Definition creating {H} (f : H -> addr * H) : attempt H addr :=
    fun h k => match k with
               | 0 => Lost (if late then snd (f h) else h)
               | S k => Made (fst (f h)) (snd (f h)) k
               end.

  Section Binary.
    Context {V : Type}.
    Variable al : allocator (bnode V).
    Notation heap := (gmap addr (bnode V)).
    (** binary_node.hpp 57-69, see [b_copy]. *)
    Fixpoint b_copy_try (fuel : nat) (src : ptr) : attempt heap addr :=
      match fuel with
      | 0 => fun _ _ => Wrong OutOfFuel
      | S fuel =>
          then_ (reading (fun h => deref h src)) (fun o =>
          then_ (creating (fun h => b_alloc al h (bval o))) (fun a =>
          then_ (match bleft o with None => give None | Some _ => then_ (b_copy_try fuel (bleft o)) (fun x => give (Some x)) end) (fun l =>
          then_ (writing (fun h => update h (Some a) (bset_left l))) (fun _ =>
          then_ (match bright o with None => give None | Some _ => then_ (b_copy_try fuel (bright o)) (fun x => give (Some x)) end) (fun r =>
          then_ (writing (fun h => update h (Some a) (bset_right r))) (fun _ =>
          then_ (writing (fun h => b_attach_children h a)) (fun _ => give a)))))))
      end.
    (** binary_node.hpp 71-107, 202-220, see [b_from_struct]. *)
    Fixpoint b_struct_try (s : snode V) {struct s} : attempt heap addr :=
      match s with
      | SN (Some v) _ _ fc _ =>
          then_ (creating (fun h => b_alloc al h v)) (fun a =>
          then_ (if is_valid_node fc then then_ (b_struct_try fc) (fun x => give (Some x)) else give None) (fun l =>
          then_ (writing (fun h => update h (Some a) (bset_left l))) (fun _ =>
          then_ (match fc with
                 | SN _ _ _ _ sib => if is_valid_node sib then then_ (b_struct_try sib) (fun x => give (Some x)) else give None
                 | SNil => give None
                 end) (fun r =>
          then_ (writing (fun h => update h (Some a) (bset_right r))) (fun _ =>
          then_ (writing (fun h => b_attach_children h a)) (fun _ => give a))))))
      | _ => fun _ _ => Wrong AssertFail
      end.
    (** binary_node.hpp 38 (the constructors of node.hpp) *)
    Definition b_value_try (v : V) : attempt heap addr := creating (fun h => b_alloc al h v).
  End Binary.

  Section Nary.
    Context {V : Type}.
    Variable al : allocator (nnode V).
    Notation heap := (gmap addr (nnode V)).
    (** nary_node.hpp 36-47, see [n_from_value]. *)
    Definition n_value_try (v : V) : attempt heap addr :=
      then_ (creating (fun h => n_alloc al h v None 0 None)) (fun a =>
      then_ (writing (fun h => n_manage_parent_last_child h a)) (fun _ => give a)).
    (** nary_node.hpp 78-96, see [n_copy_from]. *)
    Fixpoint n_copy_from_try (fuel : nat) (src parent prev : ptr) : attempt heap addr :=
      match fuel with
      | 0 => fun _ _ => Wrong OutOfFuel
      | S fuel =>
          then_ (reading (fun h => deref h src)) (fun o =>
          then_ (creating (fun h => n_alloc al h (nval o) parent (nfsize o) prev)) (fun a =>
          then_ (match nnext o with None => give None | Some _ => then_ (n_copy_from_try fuel (nnext o) parent (Some a)) (fun x => give (Some x)) end) (fun nx =>
          then_ (writing (fun h => update h (Some a) (nset_next nx))) (fun _ =>
          then_ (match nfirst o with None => give None | Some _ => then_ (n_copy_from_try fuel (nfirst o) (Some a) None) (fun x => give (Some x)) end) (fun fc =>
          then_ (writing (fun h => update h (Some a) (nset_first fc))) (fun _ =>
          then_ (writing (fun h => n_manage_parent_last_child h a)) (fun _ => give a)))))))
      end.
    Definition n_copy_try (fuel : nat) (src : ptr) : attempt heap addr := n_copy_from_try fuel src None None.
    (** nary_node.hpp 138-169, 185-215, see [n_from_struct_from]. *)
    Fixpoint n_struct_from_try (s : snode V) (parent prev : ptr) {struct s} : attempt heap addr :=
      match s with
      | SN (Some v) _ _ fcs ns =>
          then_ (creating (fun h => n_alloc al h v parent (s_following_siblings s mod W64)%N prev)) (fun a =>
          then_ (match ns with SNil => give None | _ => then_ (n_struct_from_try ns parent (Some a)) (fun x => give (Some x)) end) (fun nx =>
          then_ (writing (fun h => update h (Some a) (nset_next nx))) (fun _ =>
          then_ (match fcs with SNil => give None | _ => then_ (n_struct_from_try fcs (Some a) None) (fun x => give (Some x)) end) (fun fc =>
          then_ (writing (fun h => update h (Some a) (nset_first fc))) (fun _ =>
          then_ (writing (fun h => n_manage_parent_last_child h a)) (fun _ => give a))))))
      | _ => fun _ _ => Wrong AssertFail
      end.
    Definition n_struct_try (s : snode V) : attempt heap addr := n_struct_from_try s None None.
  End Nary.
End Fail.

(** The three ways in which a node type creates nodes. *)
Record try_impl (V Nd : Type) : Type := TryImpl {
  ti_value : bool -> allocator Nd -> V -> attempt (gmap addr Nd) addr;
  ti_struct : bool -> allocator Nd -> snode V -> attempt (gmap addr Nd) addr;
  ti_copy : bool -> allocator Nd -> nat -> ptr -> attempt (gmap addr Nd) addr
}.
Arguments ti_value {V Nd} _ _ _ _.
Arguments ti_struct {V Nd} _ _ _ _.
Arguments ti_copy {V Nd} _ _ _ _ _.
Definition binary_try (V : Type) : try_impl V (bnode V) := TryImpl V (bnode V) (fun late => b_value_try late) (fun late => b_struct_try late) (fun late => b_copy_try late).
Definition nary_try (V : Type) : try_impl V (nnode V) := TryImpl V (nnode V) (fun late => n_value_try late) (fun late => n_struct_try late) (fun late => n_copy_try late).

Section Calls.
  Context {V Nd : Type}.
  Variable F : nat.
  Variable im : node_impl V Nd.
  Variable ti : try_impl V Nd.
  Variable al : allocator Nd.
  Variable late : bool.

  (** The nodes a call creates: copies of a value, a literal or a tree. *)
  Inductive creation : Type :=
  | NewValue (v : V)
  | NewStruct (s : snode V)
  | NewCopy (root : ptr).
  Definition new_tree (w : world Nd) (j : tid) : option creation :=
    match w_trees w !! j with
    | Some t => match t_root t with Some _ => Some (NewCopy (t_root t)) | None => None end
    | None => None
    end.
  Definition new_source (w : world Nd) (src : source V) : option creation :=
    match src with
    | SrcValue v => Some (NewValue v)
    | SrcStruct s => Some (NewStruct s)
    | SrcCopy j => new_tree w j
    | SrcView t => match t_root t with Some _ => Some (NewCopy (t_root t)) | None => None end
    | SrcMove _ => None
    end.
  Definition creates (w : world Nd) (c : call V) : option creation :=
    match c with
    | CLiteral _ l | CAssignLiteral _ l => Some (NewStruct (eval_lit l))
    | CCopy _ j | CAssignCopy _ j => new_tree w j
    | CAssignView _ t => match t_root t with Some _ => Some (NewCopy (t_root t)) | None => None end
    | CInsertOver _ _ src | CInsertChild _ _ _ _ src => new_source w src
    | _ => None
    end.
  Definition create (x : creation) : attempt (gmap addr Nd) addr :=
    match x with
    | NewValue v => ti_value ti late al v
    | NewStruct s => ti_struct ti late al s
    | NewCopy root => ti_copy ti late al F root
    end.

  (** A call in which at most [k] nodes can be created.  In each of the calls the
      nodes are created first, in the arguments of the function that does the rest
      (tree.hpp 84-108, 135-155, 171-224, 451-747), so an exception leaves the tree
      objects as they are; if no exception occurs the call is that of Tree.v (its
      creation of nodes is the one above, see [try_agrees] in FailFacts.v). *)
  Definition exec_try (k : nat) (w : world Nd) (c : call V) : out (world Nd) unit :=
    match creates w c with
    | None => exec F im al w c
    | Some x =>
        match create x (w_heap w) k with
        | Made _ _ _ => exec F im al w c
        | Lost h => Throw (set_heap w h)
        | Wrong e => Bad e
        end
    end.
End Calls.
Arguments NewValue {V} _.
Arguments NewStruct {V} _.
Arguments NewCopy {V} _.
Arguments creation V : clear implicits.
