(** Print.v: model of the printing of trees
      include/TreeDS/utility.hpp 302-410 (code_like_print, print_preferences,
      print_node, print_tree)
      include/TreeDS/tree_base.hpp 370-378 (operator<<).
    The stream is the text appended to it.  Simplified: the text of a value
    ([code_like_print], 302-332) is a parameter [show]; [address_digits] is 0, its
    default (the addresses of the nodes are not printed); the widths are unbounded. *)
From Coq Require Export String Ascii.
From Verif Require Import Base BinaryNode NaryNode Nav Policy Tree.
Local Open Scope string_scope.

(** [std::string(n, ' ')] *)
Fixpoint spaces (n : nat) : string := match n with 0 => "" | S n => String " " (spaces n) end.
(** ["\n"] *)
Definition newline : string := String "010" "".

(** utility.hpp 345-347: the defaults of [print_preferences]. *)
Definition default_increment : nat := 8.
Definition default_limit : Z := 10.

(** utility.hpp 371-375: [if constexpr (is_same_template<Node, binary_node<void>>)]
    [current->is_right_child()]; nothing for other nodes. *)
Definition b_right_child {V} : gmap addr (bnode V) -> ptr -> res bool := b_is_right.
Definition n_right_child {V} : gmap addr (nnode V) -> ptr -> res bool := fun _ _ => Ok false.

Section Print.
  Context {V Nd : Type}.
  Variable F : nat.
  Variable im : node_impl V Nd.
  Variable right_child : gmap addr Nd -> ptr -> res bool.
  Variable show : V -> string.
  Variable inc : nat.                 (* preferences.indentation_increment *)

  Section Heap.
    Variable h : gmap addr Nd.

    (** utility.hpp 350-398 [print_node]: the text printed and
        [preferences.limit] afterwards (the preferences are handed on by
        reference). *)
    Fixpoint print_node (fuel : nat) (node : ptr) (indentation : nat) (limit : Z) : res (string * Z) :=
      match fuel with
      | 0 => Err OutOfFuel
      | S fuel =>
          if (limit <=? 0)%Z then Ok ("", limit)                               (* 356-358 *)
          else
            v ← ni_value im h node;                                            (* 359-360 *)
            let head := spaces indentation ++ "n(" ++ show v ++ ")" in         (* ... 368 *)
            current ← op_first (ni_ops im h) node;                             (* 369 *)
            match current with
            | None => Ok (head, limit)
            | Some _ =>
                r ← right_child h current;                                     (* 372-376 *)
                let hole := if r : bool then spaces (indentation + inc) ++ "n()," ++ newline else "" in
                let limit := (limit - 1)%Z in                                  (* 377 *)
                '(body, limit) ←
                  (if (0 <? limit)%Z then
                     '(s, limit) ← print_node fuel current (indentation + inc) limit;   (* 378 *)
                     next ← op_next (ni_ops im h) current;                     (* 380 *)
                     '(s', limit) ← print_rest fuel next indentation limit;
                     Ok (s ++ s', limit)
                   else Ok (spaces (indentation + 4) ++ "...", limit));        (* 391-393 *)
                Ok (head ++ "(" ++ newline ++ hole ++ body ++ ")", limit)      (* 371, 394 *)
            end
      end
    (** 379-390: the loop over the next siblings. *)
    with print_rest (fuel : nat) (current : ptr) (indentation : nat) (limit : Z) : res (string * Z) :=
      match fuel with
      | 0 => Err OutOfFuel
      | S fuel =>
          match current with
          | None => Ok ("", limit)                                             (* 381 *)
          | Some _ =>
              let limit := (limit - 1)%Z in                                    (* 384 *)
              if (0 <? limit)%Z then
                '(s, limit) ← print_node fuel current (indentation + inc) limit;        (* 385 *)
                next ← op_next (ni_ops im h) current;                          (* 382 *)
                '(s', limit) ← print_rest fuel next indentation limit;
                Ok ("," ++ newline ++ s ++ s', limit)                          (* 383 *)
              else Ok ("," ++ newline ++ spaces (indentation + inc) ++ "...", limit)    (* 386-388 *)
          end
      end.
  End Heap.

  (** utility.hpp 400-410 [print_tree], for a tree or a view with root [root]. *)
  Definition print_tree (h : gmap addr Nd) (root : ptr) (limit : Z) : res string :=
    match root with
    | None => Ok "n()"
    | Some _ => '(s, _) ← print_node h F root 0 limit; Ok s
    end.
End Print.
