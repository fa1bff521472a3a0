(** PrintAt.v: model of the printing of trees with the addresses of the nodes
      include/TreeDS/utility.hpp 345-410 (print_preferences, print_node, print_tree
      with [address_digits > 0]).
    The stream is the text appended to it and the part of its formatting that
    [print_node] changes: the base of the numbers and the fill character; neither
    [std::hex] nor [std::setfill] is undone by the code.  Simplified as in Print.v;
    moreover: the printing of a value reads the formatting and leaves it as it is;
    the other flags of the stream are the default ones (numbers are adjusted to the
    right, in lower case and without base); [4 * address_digits] is less than the 64
    bits of a [size_t], as the shift of line 366 demands. *)
From Verif Require Import Base BinaryNode NaryNode Nav Policy Tree Print.
Local Open Scope string_scope.

(** The flags [std::ios_base::hex] and the fill character of the stream. *)
Record fmt : Type := Fmt { f_hex : bool; f_fill : ascii }.

(** What [os << n] writes for an unsigned number with [std::hex]. *)
Definition hex_char (n : N) : ascii := ascii_of_N (if (n <? 10)%N then 48 + n else 87 + n).
Fixpoint hex_loop (fuel : nat) (n : N) (acc : string) : string :=
  match fuel with
  | 0 => acc
  | S fuel => if (n =? 0)%N then acc else hex_loop fuel (n / 16)%N (String (hex_char (n mod 16)%N) acc)
  end.
Definition hex_text (n : N) : string := if (n =? 0)%N then "0" else hex_loop (N.size_nat n) n "".
(** [setw(w)]: the fill character before the text. *)
Fixpoint fills (c : ascii) (n : nat) : string := match n with 0 => "" | S n => String c (fills c n) end.
Definition padded (c : ascii) (w : nat) (s : string) : string := fills c (w - String.length s) ++ s.

Section Print.
  Context {V Nd : Type}.
  Variable F : nat.
  Variable im : node_impl V Nd.
  Variable right_child : gmap addr Nd -> ptr -> res bool.
  Variable show : fmt -> V -> string.
  Variable inc : nat.                 (* preferences.indentation_increment *)
  Variable digits : nat.              (* preferences.address_digits *)
  Variable loc : addr -> N.           (* reinterpret_cast<std::size_t>(&node) *)

  (** utility.hpp 361-367: the address, and the formatting afterwards. *)
  Definition print_address (node : ptr) (f : fmt) : string * fmt :=
    if (0 <? digits)%nat then
      let f := Fmt true "0" in
      let n := match node with Some a => loc a | None => 0%N end in
      (" @" ++ padded (f_fill f) digits (hex_text (N.land n (N.shiftl 1 (4 * N.of_nat digits) - 1)%N)), f)
    else ("", f).

  Section Heap.
    Variable h : gmap addr Nd.

    (** utility.hpp 350-398 [print_node]: the text printed, [preferences.limit] and
        the formatting of the stream afterwards. *)
    Fixpoint print_at (fuel : nat) (node : ptr) (indentation : nat) (limit : Z) (f : fmt) : res (string * Z * fmt) :=
      match fuel with
      | 0 => Err OutOfFuel
      | S fuel =>
          if (limit <=? 0)%Z then Ok ("", limit, f)                            (* 356-358 *)
          else
            v ← ni_value im h node;                                            (* 359-360 *)
            let text := show f v in
            let '(note, f) := print_address node f in                          (* 361-367 *)
            let head := spaces indentation ++ "n(" ++ text ++ note ++ ")" in   (* 359-368 *)
            current ← op_first (ni_ops im h) node;                             (* 369 *)
            match current with
            | None => Ok (head, limit, f)
            | Some _ =>
                r ← right_child h current;                                     (* 372-376 *)
                let hole := if r : bool then spaces (indentation + inc) ++ "n()," ++ newline else "" in
                let limit := (limit - 1)%Z in                                  (* 377 *)
                '(body, limit, f) ←
                  (if (0 <? limit)%Z then
                     '(s, limit, f) ← print_at fuel current (indentation + inc) limit f;   (* 378 *)
                     next ← op_next (ni_ops im h) current;                     (* 380 *)
                     '(s', limit, f) ← print_at_rest fuel next indentation limit f;
                     Ok (s ++ s', limit, f)
                   else Ok (spaces (indentation + 4) ++ "...", limit, f));     (* 391-393 *)
                Ok (head ++ "(" ++ newline ++ hole ++ body ++ ")", limit, f)   (* 371, 394 *)
            end
      end
    (** 379-390: the loop over the next siblings. *)
    with print_at_rest (fuel : nat) (current : ptr) (indentation : nat) (limit : Z) (f : fmt) : res (string * Z * fmt) :=
      match fuel with
      | 0 => Err OutOfFuel
      | S fuel =>
          match current with
          | None => Ok ("", limit, f)                                          (* 381 *)
          | Some _ =>
              let limit := (limit - 1)%Z in                                    (* 384 *)
              if (0 <? limit)%Z then
                '(s, limit, f) ← print_at fuel current (indentation + inc) limit f;     (* 385 *)
                next ← op_next (ni_ops im h) current;                          (* 382 *)
                '(s', limit, f) ← print_at_rest fuel next indentation limit f;
                Ok ("," ++ newline ++ s ++ s', limit, f)                       (* 383 *)
              else Ok ("," ++ newline ++ spaces (indentation + inc) ++ "...", limit, f) (* 386-388 *)
          end
      end.
  End Heap.

  (** utility.hpp 400-410 [print_tree]: the text and the formatting of the stream
      afterwards, for a tree or a view with root [root]. *)
  Definition print_tree_at (h : gmap addr Nd) (root : ptr) (limit : Z) (f : fmt) : res (string * fmt) :=
    match root with
    | None => Ok ("n()", f)
    | Some _ => '(s, _, f) ← print_at h F root 0 limit f; Ok (s, f)
    end.
End Print.
