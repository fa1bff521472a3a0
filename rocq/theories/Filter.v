(** Filter.v: model of filtered iterators as objects
      include/TreeDS/tree_iterator_filter.hpp. *)
From Verif Require Import Base Spec StructNode BinaryNode NaryNode Nav Policy Tree User Moves.

(** 11-31: an iterator and [std::optional<Predicate> predicate]. *)
Record fiter (V : Type) : Type := Fiter { fi_it : iter; fi_pred : option (V -> bool) }.
Arguments Fiter {V} _ _.
Arguments fi_it {V} _.
Arguments fi_pred {V} _.

Section Filter.
  Context {V Nd : Type}.
  Variable F : nat.
  Variable im : node_impl V Nd.
  Variable h : gmap addr Nd.
  Notation nav := (tree_nav im h).

  (** [( *this->predicate)( *it)]; the value of an optional that has none must not be
      asked for (modelled as a null dereference). *)
  Definition fi_test (f : fiter V) (q : ptr) : res bool :=
    match fi_pred f with Some p => vpred im h p q | None => Err NullDeref end.
  (** 36-37 the default constructor. *)
  Definition fi_none (k : kind) : fiter V := Fiter (Iter k None None [] None) None.
  (** 39-45 the constructor from a predicate and an iterator. *)
  Definition fi_make (p : V -> bool) (it : iter) : res (fiter V) :=
    it' ← filter_make F nav (vpred im h p) it; Ok (Fiter it' (Some p)).
  (** 47-50 and 67-70 copy and move constructors. *)
  Definition fi_copy (f : fiter V) : fiter V := f.
  (** 72-75 and 85-88 [operator=]: the predicate stays. *)
  Definition fi_assign (f g : fiter V) : fiter V := Fiter (fi_it g) (fi_pred f).
  (** 117-122 [operator++], 130-135 [operator--]. *)
  Definition fi_incr (f : fiter V) : res (fiter V) :=
    it' ← filter_incr F nav (fi_test f) (fi_it f); Ok (Fiter it' (fi_pred f)).
  Definition fi_decr (f : fiter V) : res (fiter V) :=
    it' ← filter_decr F nav (fi_test f) (fi_it f); Ok (Fiter it' (fi_pred f)).
  (** 104-108 [other_policy] (tree_iterator.hpp 130-135). *)
  Definition fi_policy (k : kind) (f : fiter V) : res (fiter V) :=
    match fi_pred f with
    | None => Err NullDeref
    | Some p => it' ← get_instance F nav k (it_cur (fi_it f)) (it_root (fi_it f)); fi_make p it'
    end.
  (** 98-100 [other_node] (tree_iterator.hpp 126-128). *)
  Definition fi_node (q : ptr) (f : fiter V) : res (fiter V) :=
    match fi_pred f with
    | None => Err NullDeref
    | Some p => it' ← get_instance F nav (it_kind (fi_it f)) q (it_root (fi_it f)); fi_make p it'
    end.
  (** tree_iterator.hpp 233-255: the moves are inherited. *)
  Definition fi_go (m : iter_move) (f : fiter V) : res (fiter V) :=
    it' ← go F im h m (fi_it f); Ok (Fiter it' (fi_pred f)).

  (** A sequence of [++] ([true]) and [--] ([false]). *)
  Fixpoint fi_run (ms : list bool) (f : fiter V) : res (fiter V) :=
    match ms with
    | [] => Ok f
    | true :: ms => f' ← fi_incr f; fi_run ms f'
    | false :: ms => f' ← fi_decr f; fi_run ms f'
    end.
End Filter.

(** Specification: the accepted elements of a sequence. *)
Definition accepted {V} (p : V -> bool) (l : list (addr * V)) : list (addr * V) := List.filter (fun x => p (snd x)) l.
