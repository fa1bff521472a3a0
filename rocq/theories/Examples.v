(** Examples.v: concrete trees in place, used to show that the hypotheses of the
    theorems are met by non-trivial states. *)
From Verif Require Import Base Spec EditSpec StructNode BinaryNode NaryNode Nav Policy Tree Rep User IterMain.

(** The binary tree 10 (20 (-, 40 (50, -)), 30). *)
Definition ex_bin : bin (addr * nat) :=
  BNode (1%positive, 10)
    (BNode (2%positive, 20) BLeaf (BNode (4%positive, 40) (BNode (5%positive, 50) BLeaf BLeaf) BLeaf))
    (BNode (3%positive, 30) BLeaf BLeaf).
Definition ex_bheap : gmap addr (bnode nat) :=
  list_to_map
    [(1%positive, BNodeR 10 None (Some 2%positive) (Some 3%positive));
     (2%positive, BNodeR 20 (Some 1%positive) None (Some 4%positive));
     (3%positive, BNodeR 30 (Some 1%positive) None None);
     (4%positive, BNodeR 40 (Some 2%positive) (Some 5%positive) None);
     (5%positive, BNodeR 50 (Some 4%positive) None None)].
(** The n-ary tree 10 (20, 30 (50, 60), 40). *)
Definition ex_nary : rose (addr * nat) :=
  Rose (1%positive, 10)
    [Rose (2%positive, 20) [];
     Rose (3%positive, 30) [Rose (5%positive, 50) []; Rose (6%positive, 60) []];
     Rose (4%positive, 40) []].
Definition ex_nheap : gmap addr (nnode nat) :=
  list_to_map
    [(1%positive, NNodeR 10 None 0 None None (Some 2%positive) (Some 4%positive));
     (2%positive, NNodeR 20 (Some 1%positive) 2 None (Some 3%positive) None None);
     (3%positive, NNodeR 30 (Some 1%positive) 1 (Some 2%positive) (Some 4%positive) (Some 5%positive) (Some 6%positive));
     (4%positive, NNodeR 40 (Some 1%positive) 0 (Some 3%positive) None None None);
     (5%positive, NNodeR 50 (Some 3%positive) 1 None (Some 6%positive) None None);
     (6%positive, NNodeR 60 (Some 3%positive) 0 (Some 5%positive) None None None)].

Example ex_bin_at : bin_at ex_bheap ex_bin.
Proof. split; [vm_compute; tauto|]. apply (bool_decide_unpack _). vm_compute. exact I. Qed.
Example ex_bin_in : bin_in ex_bheap ex_bin.
Proof. exists None. exact ex_bin_at. Qed.
Example ex_nary_at : nary_at ex_nheap ex_nary.
Proof. split; [vm_compute; tauto|]. apply (bool_decide_unpack _). vm_compute. exact I. Qed.
Example ex_nary_in : onary_in ex_nheap (Some ex_nary).
Proof. exists None, None, None, (szt 0). exact ex_nary_at. Qed.
Example ex_sizes : bin_size ex_bin < 100 /\ nsize (Some ex_nary) < 100.
Proof. vm_compute. lia. Qed.
(** A proper subtree of each (the roots of views). *)
Definition ex_bsub : bin (addr * nat) :=
  BNode (2%positive, 20) BLeaf (BNode (4%positive, 40) (BNode (5%positive, 50) BLeaf BLeaf) BLeaf).
Definition ex_nsub : rose (addr * nat) :=
  Rose (3%positive, 30) [Rose (5%positive, 50) []; Rose (6%positive, 60) []].
Example ex_bsub_ok : bsubtree ex_bsub ex_bin.
Proof. apply bsub_left, bsub_here. Qed.
Example ex_nsub_ok : rsubtree ex_nsub ex_nary.
Proof. eapply rsub_child; [|apply rsub_here]. set_solver +. Qed.
