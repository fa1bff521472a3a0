(** Spec.v: the mathematical trees and orders the theorems talk about.
    Independent of the model of the code: nothing here mentions heaps, links,
    iterators or policies. *)
From Verif Require Import Base.

(** ** Ordered trees with any number of children. *)
Inductive rose (A : Type) : Type := Rose (a : A) (cs : list (rose A)).
Arguments Rose {A} _ _.

(** ** Binary trees (possibly empty, left and right distinguished). *)
Inductive bin (A : Type) : Type := BLeaf | BNode (a : A) (l r : bin A).
Arguments BLeaf {A}.
Arguments BNode {A} _ _ _.

Section Rose.
  Context {A : Type}.

  Definition label (t : rose A) : A := match t with Rose a _ => a end.
  Definition children (t : rose A) : list (rose A) := match t with Rose _ cs => cs end.

  (** Root, then the subtrees left to right. *)
  Fixpoint preorder (t : rose A) : list A :=
    match t with Rose a cs => a :: flat_map preorder cs end.
  (** The subtrees left to right, then the root. *)
  Fixpoint postorder (t : rose A) : list A :=
    match t with Rose a cs => flat_map postorder cs ++ [a] end.
  (** The childless nodes, left to right. *)
  Fixpoint leaves (t : rose A) : list A :=
    match t with Rose a cs => match cs with [] => [a] | _ => flat_map leaves cs end end.
  (** The subtrees rooted at depth [d], left to right. *)
  Fixpoint row (d : nat) (t : rose A) : list (rose A) :=
    match d with
    | 0 => [t]
    | S d' => match t with Rose _ cs => flat_map (row d') cs end
    end.
  (** Number of nodes, height, and largest number of children of a node. *)
  Fixpoint rsize (t : rose A) : nat :=
    match t with Rose _ cs => S (list_sum (map rsize cs)) end.
  Fixpoint height (t : rose A) : nat :=
    match t with Rose _ cs => S (list_max (map height cs)) end.
  Fixpoint rarity (t : rose A) : nat :=
    match t with Rose _ cs => max (length cs) (list_max (map rarity cs)) end.
  (** Level order: all the rows, from the root's to the deepest. *)
  Definition levelorder (t : rose A) : list A :=
    flat_map (fun d => map label (row d t)) (seq 0 (height t)).
End Rose.

Section Bin.
  Context {A : Type}.

  Fixpoint inorder (t : bin A) : list A :=
    match t with BLeaf => [] | BNode a l r => inorder l ++ a :: inorder r end.
  Fixpoint bin_size (t : bin A) : nat :=
    match t with BLeaf => 0 | BNode _ l r => S (bin_size l + bin_size r) end.
  (** A non-empty binary tree read as an ordered tree: the present children,
      left before right. *)
  Fixpoint bin_forest (t : bin A) : list (rose A) :=
    match t with
    | BLeaf => []
    | BNode a l r => [Rose a (bin_forest l ++ bin_forest r)]
    end.
  (** All labels (the order is irrelevant where this is used). *)
  Fixpoint bin_labels (t : bin A) : list A :=
    match t with BLeaf => [] | BNode a l r => a :: bin_labels l ++ bin_labels r end.
End Bin.

(** [s] is a subtree of [t]. *)
Inductive rsubtree {A} (s : rose A) : rose A -> Prop :=
| rsub_here : rsubtree s s
| rsub_child a cs c : c ∈ cs -> rsubtree s c -> rsubtree s (Rose a cs).
Inductive bsubtree {A} (s : bin A) : bin A -> Prop :=
| bsub_here : bsubtree s s
| bsub_left a l r : bsubtree s l -> bsubtree s (BNode a l r)
| bsub_right a l r : bsubtree s r -> bsubtree s (BNode a l r).

Fixpoint rose_map {A B} (f : A -> B) (t : rose A) : rose B :=
  match t with Rose a cs => Rose (f a) (map (rose_map f) cs) end.
Fixpoint bin_map {A B} (f : A -> B) (t : bin A) : bin B :=
  match t with BLeaf => BLeaf | BNode a l r => BNode (f a) (bin_map f l) (bin_map f r) end.

(** Orders of a possibly empty tree given as a forest of at most one tree. *)
Definition opt_list {A B} (f : A -> list B) (o : option A) : list B :=
  match o with None => [] | Some a => f a end.

(** ** Literals: [n(v)(c1, ..., ck)]; [LEmpty] is [n()], an absent child. *)
Inductive lit (V : Type) : Type := LEmpty | LNode (v : V) (cs : list (lit V)).
Arguments LEmpty {V}.
Arguments LNode {V} _ _.

(** The ordered tree a literal denotes (none for [n()]): the children are the
    arguments that are not [n()]. *)
Fixpoint lit_rose {V} (t : lit V) : list (rose V) :=
  match t with
  | LEmpty => []
  | LNode v cs => [Rose v (flat_map lit_rose cs)]
  end.
(** The binary tree a literal denotes: the first argument is the left child,
    the second one the right child, [n()] or a missing argument is no child. *)
Fixpoint lit_bin {V} (t : lit V) : bin V :=
  match t with
  | LEmpty => BLeaf
  | LNode v cs =>
      match cs with
      | [] => BNode v BLeaf BLeaf
      | [a] => BNode v (lit_bin a) BLeaf
      | a :: b :: _ => BNode v (lit_bin a) (lit_bin b)
      end
  end.
(** No node of the literal has more than two arguments. *)
Fixpoint two_slots {V} (t : lit V) : Prop :=
  match t with
  | LEmpty => True
  | LNode _ cs => length cs <= 2 /\ (fix all l := match l with [] => True | c :: l => two_slots c /\ all l end) cs
  end.
(** The literal contains no [n()]. *)
Fixpoint no_empty {V} (t : lit V) : Prop :=
  match t with
  | LEmpty => False
  | LNode _ cs => (fix all l := match l with [] => True | c :: l => no_empty c /\ all l end) cs
  end.

(** ** Induction principles for the nested types. *)
Lemma rose_ind' {A} (P : rose A -> Prop) :
  (forall a cs, Forall P cs -> P (Rose a cs)) -> forall t, P t.
Proof.
  intros H. fix IH 1. intros [a cs]. apply H.
  induction cs as [|c cs IHcs]; constructor; [apply IH|exact IHcs].
Qed.

Lemma lit_ind' {V} (P : lit V -> Prop) :
  P LEmpty -> (forall v cs, Forall P cs -> P (LNode v cs)) -> forall t, P t.
Proof.
  intros H0 H. fix IH 1. intros [|v cs]; [exact H0|]. apply H.
  induction cs as [|c cs IHcs]; constructor; [apply IH|exact IHcs].
Qed.
