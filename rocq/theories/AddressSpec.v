(** AddressSpec.v: what a tree printed with the addresses of its nodes looks like
    (C67, C68).  Independent of the model of the code. *)
From Verif Require Import Base Spec PrintSpec.
Local Open Scope string_scope.

(** The last [d] hexadecimal digits of a number, with leading zeros. *)
Definition hex_digit (n : N) : string := substring (N.to_nat n) 1 "0123456789abcdef".
Fixpoint last_digits (d : nat) (n : N) : string :=
  match d with 0 => "" | S d => last_digits d (n / 16)%N ++ hex_digit (n mod 16)%N end.

Section Spec.
  Context {V X : Type}.
  Variable show : X -> V -> string.        (* the text of a value, for a formatting *)
  Variable d : nat.                        (* the digits *)
  Variable loc : addr -> N.                (* the addresses of the nodes *)

  (** The text between the parentheses of a node: its value, printed with the
      formatting [x], and its address. *)
  Definition value_at (y : X * (addr * V)) : string :=
    show (fst y) (snd (snd y)) ++ " @" ++ last_digits d (loc (fst (snd y))).
End Spec.

(** Every node of a tree with the formatting its value is printed with: [x] for the
    root, [x'] for the other ones. *)
Definition rose_noted {X A} (x x' : X) (t : rose A) : rose (X * A) :=
  match t with Rose a cs => Rose (x, a) (map (rose_map (pair x')) cs) end.
Definition bin_noted {X A} (x x' : X) (t : bin A) : bin (X * A) :=
  match t with BLeaf => BLeaf | BNode a l r => BNode (x, a) (bin_map (pair x') l) (bin_map (pair x') r) end.
