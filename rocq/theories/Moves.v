(** Moves.v: the explicit moves of an iterator, and where they should lead. *)
From Verif Require Import Base Spec StructNode BinaryNode NaryNode Nav Policy Tree User Rep.

(** tree_iterator.hpp 233-255: go_parent(), go_prev_sibling(),
    go_next_sibling(), go_first_child(), go_last_child(), go_child(index). *)
Inductive iter_move : Type := GoParent | GoPrev | GoNext | GoFirst | GoLast | GoChild (index : N).
Definition move_fun (m : iter_move) (nav : navigator) (p : ptr) : res ptr :=
  match m with
  | GoParent => nav_parent nav p
  | GoPrev => nav_prev nav p
  | GoNext => nav_next nav p
  | GoFirst => nav_first nav p
  | GoLast => nav_last nav p
  | GoChild i => nav_child nav p i
  end.
Definition go {V Nd} (F : nat) (im : node_impl V Nd) (h : gmap addr Nd) (m : iter_move) (it : iter) : res iter :=
  do_move F (tree_nav im h) (move_fun m) it.

(** Specification: in the tree (or viewed subtree) [t], move [m] leads from node
    [a] to the node [p], or to the end ([None]). *)
Inductive leads {V} (t : rose (addr * V)) : iter_move -> addr -> ptr -> Prop :=
| leads_parent x ls s rs : rsubtree (Rose x (ls ++ s :: rs)) t -> leads t GoParent (raddr s) (Some (fst x))
| leads_prev x ls s rs : rsubtree (Rose x (ls ++ s :: rs)) t -> leads t GoPrev (raddr s) (last (map raddr ls))
| leads_next x ls s rs : rsubtree (Rose x (ls ++ s :: rs)) t -> leads t GoNext (raddr s) (head (map raddr rs))
| leads_out m : m = GoParent \/ m = GoPrev \/ m = GoNext -> leads t m (raddr t) None
| leads_first s : rsubtree s t -> leads t GoFirst (raddr s) (head (map raddr (children s)))
| leads_last s : rsubtree s t -> leads t GoLast (raddr s) (last (map raddr (children s)))
| leads_child s i : rsubtree s t -> leads t (GoChild i) (raddr s) (nth_error (map raddr (children s)) (N.to_nat i)).
