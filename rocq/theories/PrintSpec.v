(** PrintSpec.v: what a printed tree is to look like (C54).  Independent of the
    model of the code. *)
From Coq Require Export String Ascii.
From Verif Require Import Base Spec.
Local Open Scope string_scope.

(** An expression as it is printed: [n()], [n(v)(...)], or dots in the place of
    what is left out; [IDots true] if no sibling is shown before them. *)
Inductive item (V : Type) : Type := INone | INode (v : V) (is : list (item V)) | IDots (first : bool).
Arguments INone {V}.
Arguments INode {V} _ _.
Arguments IDots {V} _.

(** A literal, with nothing left out. *)
Fixpoint whole {V} (l : lit V) : item V :=
  match l with LEmpty => INone | LNode v cs => INode v (map whole cs) end.

(** [shown l it]: [it] is [l] with some of the last arguments of some nodes
    replaced by dots; [n()] itself is not replaced. *)
Inductive shown {V} : lit V -> item V -> Prop :=
| shown_none : shown LEmpty INone
| shown_all v cs is : Forall2 shown cs is -> shown (LNode v cs) (INode v is)
| shown_cut v cs is v' cs' rest :
    Forall2 shown cs is ->
    shown (LNode v (app cs (LNode v' cs' :: rest)))
          (INode v (app is [IDots (forallb (fun i => match i with INode _ _ => false | _ => true end) is)])).

(** The values shown, in the order of the text. *)
Fixpoint item_values {V} (it : item V) : list V :=
  match it with INode v is => v :: flat_map item_values is | _ => [] end.
Fixpoint lit_values {V} (l : lit V) : list V :=
  match l with LNode v cs => v :: flat_map lit_values cs | LEmpty => [] end.

(** The text: one line per node, with [ind] blanks before it; the arguments have
    [inc] blanks more than the node.  ([out]: the blanks of the enclosing node.
    Dots with no sibling before them are 4 blanks further than it.) *)
Fixpoint blanks (n : nat) : string := match n with 0 => "" | S n => String " " (blanks n) end.
Definition line : string := String "010" "".
Section Text.
  Context {V : Type}.
  Variable show : V -> string.
  Variable inc : nat.
  Fixpoint item_text (out ind : nat) (it : item V) : string :=
    match it with
    | INone => blanks ind ++ "n()"
    | IDots true => blanks (out + 4) ++ "..."
    | IDots false => blanks ind ++ "..."
    | INode v is =>
        blanks ind ++ "n(" ++ show v ++ ")" ++
        match is with
        | [] => ""
        | _ => "(" ++ line ++ String.concat ("," ++ line) (map (item_text ind (ind + inc)) is) ++ ")"
        end
    end.

  (** What is to be printed for [l] with the limit [lim]: nothing if it is not
      positive; otherwise an expression with dots, that shows the first [lim]
      values; the whole literal if there are not more. *)
  Definition printed (l : lit V) (lim : Z) (s : string) : Prop :=
    ((lim <= 0)%Z -> s = "") /\
    ((0 < lim)%Z -> exists it, s = item_text 0 0 it /\ shown l it /\ item_values it = firstn (Z.to_nat lim) (lit_values l)) /\
    ((0 < lim)%Z -> (Z.of_nat (List.length (lit_values l)) <= lim)%Z -> s = item_text 0 0 (whole l)).

  (** The texts of the values can be told apart, and from no text, when they are
      read up to the closing parenthesis. *)
  Definition clear_text : Prop := forall (o1 o2 : option V) r1 r2,
    match o1 with Some v => show v | None => "" end ++ ")" ++ r1 = match o2 with Some v => show v | None => "" end ++ ")" ++ r2 ->
    o1 = o2 /\ r1 = r2.
End Text.

(** The literal of a binary tree: [n()] only in the place of a left child that is
    missing beside a right one.  (For other trees there is one literal, without
    [n()].) *)
Fixpoint bin_lit {V} (t : bin V) : lit V :=
  match t with
  | BLeaf => LEmpty
  | BNode v BLeaf BLeaf => LNode v []
  | BNode v l BLeaf => LNode v [bin_lit l]
  | BNode v l r => LNode v [bin_lit l; bin_lit r]
  end.
Fixpoint rose_lit {V} (t : rose V) : lit V :=
  match t with Rose v cs => LNode v (map rose_lit cs) end.
