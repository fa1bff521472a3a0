(** IterFail.v: model of [++] and [--] of iterators when the memory for the queue or stack
    they keep runs out: std::bad_alloc out of [push_back], [push_front]
    (policy/breadth_first.hpp 30-78) and [push] (policy/leaves.hpp 22-75).

    [room] pushes succeed, the next one throws (std::deque: without effect on the queue).
    [this->current = this->cast()->increment_impl()] (policy_base.hpp 117) is
    then not executed, so the iterator keeps its node, but what [increment_impl] did
    to the queue or stack before stays. *)
From Verif Require Import Base Spec StructNode BinaryNode NaryNode Nav Policy Tree User.

Inductive tried (A B : Type) : Type :=
| Returned (a : A)
| Thrown (b : B).                 (* the state left behind *)
Arguments Returned {A B} _.
Arguments Thrown {A B} _.

Section Try.
  Variable F : nat.
  Variable mknav : ptr -> navigator.

  Section Impl.
    Variable nav : navigator.

    (** breadth_first.hpp 30-49 *)
    Definition bfs_increment_try (room : nat) (open : list ptr) : res (tried (ptr * list ptr) (list ptr)) :=
      match open with
      | [] => Ok (Returned (None, open))
      | result :: rest =>
          sibling ← nav_next nav result;
          let open1 := match sibling with Some _ => sibling :: rest | None => rest end in
          fc ← nav_first nav result;
          Ok (match fc, room with
              | None, _ => Returned (result, open1)
              | Some _, 0 => Thrown open1
              | Some _, S _ => Returned (result, open1 ++ [fc])
              end)
      end.
    (** breadth_first.hpp 51-72: [push_front] comes last. *)
    Definition bfs_decrement_try (room : nat) (cur : ptr) (open : list ptr) : res (tried (ptr * list ptr) (list ptr)) :=
      '(result, open') ← bfs_decrement F nav cur open;
      Ok (match room with
          | 0 => Thrown (tl open')        (* [open'] is [cur] in front of what is left *)
          | S _ => Returned (result, open')
          end).
    (** breadth_first.hpp 74-78 *)
    Definition bfs_first_try (room : nat) : res (tried (ptr * list ptr) (list ptr)) :=
      match room with
      | 0 => Ok (Thrown [])
      | S room => bfs_increment_try room [nav_root nav]
      end.

    (** leaves.hpp 30-35 / 69-74: the lambda *)
    Definition leaves_call_try (room : nat) (st : list ptr) (node : ptr) : res (tried (ptr * list ptr * nat) (list ptr)) :=
      ns ← nav_next nav node;
      match ns, room with
      | Some _, 0 => Ok (Thrown st)
      | Some _, S room => fc ← nav_first nav node; Ok (Returned (fc, node :: st, room))
      | None, _ => fc ← nav_first nav node; Ok (Returned (fc, st, room))
      end.
    (** utility.hpp 174-183 [keep_calling] with that lambda *)
    Fixpoint leaves_loop_try (fuel room : nat) (prev next : ptr) (st : list ptr) : res (tried (ptr * list ptr) (list ptr)) :=
      match fuel with
      | 0 => Err OutOfFuel
      | S fuel =>
          match next with
          | None => Ok (Returned (prev, st))
          | Some _ =>
              x ← leaves_call_try room st next;
              match x with
              | Thrown st1 => Ok (Thrown st1)
              | Returned (next', st1, room1) => leaves_loop_try fuel room1 next next' st1
              end
          end
      end.
    Definition leaves_down_try (room : nat) (from : ptr) (st : list ptr) : res (tried (ptr * list ptr) (list ptr)) :=
      x ← leaves_call_try room st from;
      match x with
      | Thrown st1 => Ok (Thrown st1)
      | Returned (next, st1, room1) => leaves_loop_try F room1 from next st1
      end.
    (** leaves.hpp 22-36: [pop] comes first. *)
    Definition leaves_increment_try (room : nat) (st : list ptr) : res (tried (ptr * list ptr) (list ptr)) :=
      match st with
      | [] => Ok (Returned (None, st))
      | top :: st1 => node ← nav_next nav top; leaves_down_try room node st1
      end.
    (** leaves.hpp 38-64: before [push] nothing is changed. *)
    Definition leaves_decrement_try (room : nat) (cur : ptr) (st : list ptr) : res (tried (ptr * list ptr) (list ptr)) :=
      '(p, st') ← leaves_decrement F nav cur st;
      Ok (match p, room with
          | Some _, 0 => Thrown st
          | _, _ => Returned (p, st')
          end).

    (** The other policies keep no queue. *)
    Definition increment_try (room : nat) (k : kind) (cur : ptr) (open : list ptr) : res (tried (ptr * list ptr) (list ptr)) :=
      match k with
      | BreadthFirst => bfs_increment_try room open
      | Leaves => leaves_increment_try room open
      | _ => x ← increment_impl F nav k cur open; Ok (Returned x)
      end.
    Definition decrement_try (room : nat) (k : kind) (cur : ptr) (open : list ptr) : res (tried (ptr * list ptr) (list ptr)) :=
      match k with
      | BreadthFirst => bfs_decrement_try room cur open
      | Leaves => leaves_decrement_try room cur open
      | _ => x ← decrement_impl F nav k cur open; Ok (Returned x)
      end.
    Definition go_first_try (room : nat) (k : kind) (initial : ptr) (open : list ptr) : res (tried (ptr * list ptr) (list ptr)) :=
      match k with
      | BreadthFirst => bfs_first_try room
      | Leaves => leaves_down_try room (nav_root nav) open
      | _ => x ← go_first_impl F nav k initial open; Ok (Returned x)
      end.
  End Impl.

  (** The iterator after a call: the state is assigned only if the call returned. *)
  Definition it_tried (it : iter) (x : tried (ptr * list ptr) (list ptr)) : tried iter iter :=
    match x with
    | Returned p => Returned (it_set it p)
    | Thrown open => Thrown (it_set it (it_cur it, open))
    end.
  (** tree_iterator.hpp 257-270, policy_base.hpp 115-119, 127-131; as [it_incr] *)
  Definition it_incr_try (room : nat) (it : iter) : res (tried iter iter) :=
    match it_cur it with
    | Some _ => x ← increment_try (mknav (it_root it)) room (it_kind it) (it_cur it) (it_open it); Ok (it_tried it x)
    | None =>
        match it_root it with
        | Some _ => x ← go_first_try (mknav (it_root it)) room (it_kind it) (it_initial it) (it_open it); Ok (it_tried it x)
        | None => Ok (Returned it)
        end
    end.
  (** tree_iterator.hpp 278-291, policy_base.hpp 121-125, 133-137; [go_last_impl] pushes
      nothing. *)
  Definition it_decr_try (room : nat) (it : iter) : res (tried iter iter) :=
    match it_cur it with
    | Some _ => x ← decrement_try (mknav (it_root it)) room (it_kind it) (it_cur it) (it_open it); Ok (it_tried it x)
    | None => it' ← it_decr F mknav it; Ok (Returned it')
    end.
End Try.

(** What a user calls. *)
Definition incr_try {V Nd} (F : nat) (im : node_impl V Nd) (h : gmap addr Nd) (room : nat) (it : iter) : res (tried iter iter) :=
  it_incr_try F (tree_nav im h) room it.
Definition decr_try {V Nd} (F : nat) (im : node_impl V Nd) (h : gmap addr Nd) (room : nat) (it : iter) : res (tried iter iter) :=
  it_decr_try F (tree_nav im h) room it.

(** *** Specification *)
(** Whether a call throws depends only on the room left; if it does, the iterator
    stands where it stood, and with room enough the call does what it always does. *)
Definition may_fail (f : nat -> res (tried iter iter)) (it it' : iter) : Prop :=
  exists need, (forall room, need <= room -> f room = Ok (Returned it')) /\
    (forall room, room < need -> exists it1, f room = Ok (Thrown it1) /\
       it_kind it1 = it_kind it /\ it_cur it1 = it_cur it /\ it_root it1 = it_root it /\ it_initial it1 = it_initial it).
(** [l] without the nodes in [D] *)
Definition outside {V} (D : list addr) (l : list (addr * V)) : list (addr * V) := List.filter (fun z => bool_decide (fst z ∉ D)) l.
