(** PathSpec.v: positions in a tree by path.  Specification only. *)
From Verif Require Import Base Spec.

Section Path.
  Context {A : Type}.
  (** A path lists the child indices from the node up to the root; the root is []. *)
  Fixpoint at_path (p : list nat) (t : rose A) : option (rose A) :=
    match p with
    | [] => Some t
    | i :: p => match at_path p t with Some s => nth_error (children s) i | None => None end
    end.
  Definition node_at (t : rose A) (p : list nat) : option A := option_map label (at_path p t).
  (** Same shape: nothing but the labels differs. *)
  Definition same_shape (t u : rose A) : Prop := rose_map (fun _ => tt) t = rose_map (fun _ => tt) u.
  (** Where a step leads, if anywhere. *)
  Inductive step : Type := ToParent | ToPrev | ToNext | ToFirst | ToLast.
  Definition go (m : step) (t : rose A) (p : list nat) : option (list nat) :=
    match m, p with
    | ToParent, [] => None
    | ToParent, _ :: p => Some p
    | ToPrev, S i :: p => Some (i :: p)
    | ToPrev, _ => None
    | ToNext, [] => None
    | ToNext, i :: p => Some (S i :: p)
    | ToFirst, _ => Some (0 :: p)
    | ToLast, _ => match at_path p t with
                   | Some s => match children s with [] => None | cs => Some (pred (length cs) :: p) end
                   | None => None
                   end
    end.
  (** The node a step leads to. *)
  Definition node_after (m : step) (t : rose A) (p : list nat) : option A :=
    match go m t p with Some q => node_at t q | None => None end.
End Path.

(** Paths in a binary tree: [true] is the left slot; the lowest side first. *)
Fixpoint at_bpath {A} (p : list bool) (t : bin A) : option (bin A) :=
  match p with
  | [] => match t with BLeaf => None | _ => Some t end
  | s :: p => match at_bpath p t with
              | Some (BNode _ l r) => match (if s : bool then l else r) with BLeaf => None | u => Some u end
              | _ => None
              end
  end.
Definition bnode_at {A} (t : bin A) (p : list bool) : option A :=
  match at_bpath p t with Some (BNode a _ _) => Some a | _ => None end.
