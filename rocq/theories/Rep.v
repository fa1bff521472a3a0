(** Rep.v: what it means that a heap of nodes holds a given tree.  These are the
    data-structure invariants of the two node types; the theorems about the
    operations are stated with them.  A tree is labelled with the address of
    each node and its value. *)
From Verif Require Import Base Spec BinaryNode NaryNode.

Section Rep.
  Context {V : Type}.

  (** *** Binary nodes *)
  Definition baddr (t : bin (addr * V)) : ptr :=
    match t with BLeaf => None | BNode (a, _) _ _ => Some a end.
  Definition baddrs (t : bin (addr * V)) : list addr := map fst (bin_labels t).
  (** Every node of [t] is stored at its address with its value, its children's
      addresses, and its parent's; [par] is the parent of the root. *)
  Fixpoint brep (h : gmap addr (bnode V)) (par : ptr) (t : bin (addr * V)) : Prop :=
    match t with
    | BLeaf => True
    | BNode (a, v) l r =>
        h !! a = Some (BNodeR v par (baddr l) (baddr r)) /\
        brep h (Some a) l /\ brep h (Some a) r
    end.
  Definition bin_at (h : gmap addr (bnode V)) (t : bin (addr * V)) : Prop :=
    brep h None t /\ NoDup (baddrs t).
  (** [t] is stored in the heap, possibly as a subtree of a larger tree (the
      root may have a parent): what a view of a subtree sees. *)
  Definition bin_in (h : gmap addr (bnode V)) (t : bin (addr * V)) : Prop :=
    exists par, brep h par t /\ NoDup (baddrs t).

  (** *** N-ary nodes *)
  Definition raddr (t : rose (addr * V)) : addr := fst (label t).
  Definition first_addr (l : list (rose (addr * V))) : ptr :=
    match l with [] => None | c :: _ => Some (raddr c) end.
  Definition last_addr (l : list (rose (addr * V))) : ptr := first_addr (rev l).
  Definition raddrs (t : rose (addr * V)) : list addr := map fst (preorder t).
  (** A count kept in a [std::size_t]. *)
  Definition szt (n : nat) : N := (N.of_nat n mod W64)%N.
  (** The node of the root of [t] is stored at its address with its value, the
      given parent, previous and next sibling and number [fs] of following
      siblings, and the addresses of its first and last child; each child is
      stored with this node as parent, its neighbours in the list of children as
      siblings, and the number of children after it. *)
  Fixpoint nrep (h : gmap addr (nnode V)) (par prev next : ptr) (fs : N) (t : rose (addr * V)) : Prop :=
    match t with
    | Rose (a, v) cs =>
        h !! a = Some (NNodeR v par fs prev next (first_addr cs) (last_addr cs)) /\
        (fix forest (prev : ptr) (l : list (rose (addr * V))) : Prop :=
           match l with
           | [] => True
           | c :: l' => nrep h (Some a) prev (first_addr l') (szt (length l')) c /\
                        forest (Some (raddr c)) l'
           end) None cs
    end.
  Definition nary_at (h : gmap addr (nnode V)) (t : rose (addr * V)) : Prop :=
    nrep h None None None (szt 0) t /\ NoDup (raddrs t).
  Definition nary_in (h : gmap addr (nnode V)) (t : rose (addr * V)) : Prop :=
    exists par prev next fs, nrep h par prev next fs t /\ NoDup (raddrs t).
End Rep.

(** The heap after releasing a list of addresses. *)
Definition free {N} (h : gmap addr N) (l : list addr) : gmap addr N := foldr delete h l.
Lemma lookup_free {N} (h : gmap addr N) l a :
  free h l !! a = if bool_decide (a ∈ l) then None else h !! a.
Proof.
  induction l as [|b l IH]; cbn.
  - reflexivity.
  - destruct (decide (b = a)) as [->|Hne].
    + rewrite lookup_delete, bool_decide_eq_true_2 by set_solver. reflexivity.
    + rewrite lookup_delete_ne by congruence. change (foldr delete h l) with (free h l). rewrite IH.
      destruct (decide (a ∈ l)).
      * rewrite !bool_decide_eq_true_2 by set_solver. reflexivity.
      * rewrite !bool_decide_eq_false_2 by set_solver. reflexivity.
Qed.
Lemma lookup_free_out {N} (h : gmap addr N) l a : a ∉ l -> free h l !! a = h !! a.
Proof. intros H. rewrite lookup_free, bool_decide_eq_false_2 by exact H. reflexivity. Qed.
Lemma lookup_free_in {N} (h : gmap addr N) l a : a ∈ l -> free h l !! a = None.
Proof. intros H. rewrite lookup_free, bool_decide_eq_true_2 by exact H. reflexivity. Qed.
Lemma free_eq {N} (h h' : gmap addr N) l :
  (forall a, h' !! a = if bool_decide (a ∈ l) then None else h !! a) -> h' = free h l.
Proof. intros H. apply map_eq. intros a. rewrite H, lookup_free. reflexivity. Qed.
Lemma free_app {N} (h : gmap addr N) l1 l2 : free (free h l1) l2 = free h (l2 ++ l1).
Proof. unfold free. rewrite foldr_app. reflexivity. Qed.

Lemma deref_Some {N} (h : gmap addr N) a n : h !! a = Some n -> deref h (Some a) = Ok n.
Proof. intros H. cbn. rewrite H. reflexivity. Qed.
Lemma update_Some {N} (h : gmap addr N) a n f : h !! a = Some n -> update h (Some a) f = Ok (<[a := f n]> h).
Proof. intros H. cbn. rewrite H. reflexivity. Qed.
Global Arguments deref : simpl never.
Global Arguments update : simpl never.
