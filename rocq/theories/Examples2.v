(** Examples2.v: concrete consistent worlds with two trees of each kind, used to
    show that the hypotheses of the theorems about tree objects are met. *)
From Verif Require Import Base Spec EditSpec StructNode BinaryNode NaryNode Nav Policy Tree Rep User World Kinds TreeSpec IterMain Examples.

Lemma consistent_two {V Nd} (K : kind_data V Nd) (h : gmap addr Nd) (c d : C K) si ri sj rj (l : list addr) :
  crep K h c -> crep K h d -> bool_decide (NoDup l) = true -> l = caddrs K c ++ caddrs K d -> bool_decide (dom h = list_to_set l) = true ->
  consistent K
    (World h (<[1%positive := TreeRec (croot K c) si ri (croot K c)]> (<[2%positive := TreeRec (croot K d) sj rj (croot K d)]> ∅)))
    (<[1%positive := c]> (<[2%positive := d]> ∅)).
Proof.
  intros Hc Hd Hnd -> Hdom. apply bool_decide_eq_true in Hnd, Hdom. apply NoDup_app in Hnd as (_ & Hnd & _).
  assert (Hin : forall i e, (<[1%positive := c]> (<[2%positive := d]> ∅) : gmap tid (C K)) !! i = Some e -> (i = 1%positive /\ e = c) \/ (i = 2%positive /\ e = d)).
  { intros i e H. apply lookup_insert_Some in H as [[<- <-]|[_ H]]; [left; auto|]. apply lookup_insert_Some in H as [[<- <-]|[_ H]]; [right; auto|]. rewrite lookup_empty in H. discriminate. }
  split.
  - intros i. cbn [w_trees]. rewrite !lookup_insert_is_Some, !lookup_empty. split; intros [->|[? [->|[? [? ?]]]]]; try discriminate; auto.
  - intros i t e Ht He. cbn [w_trees w_heap] in *. destruct (Hin _ _ He) as [[-> ->]|[-> ->]].
    + rewrite lookup_insert in Ht. injection Ht as <-. auto.
    + rewrite lookup_insert_ne, lookup_insert in Ht by discriminate. injection Ht as <-. auto.
  - intros i j e f a He Hf Ha Hb. destruct (Hin _ _ He) as [[-> ->]|[-> ->]], (Hin _ _ Hf) as [[-> ->]|[-> ->]]; try reflexivity; destruct (Hnd a); assumption.
  - intros a. cbn [w_heap]. rewrite <- elem_of_dom, Hdom, elem_of_list_to_set, elem_of_app. split.
    + intros [Ha|Ha]; [exists 1%positive, c; split; [apply lookup_insert|exact Ha]|exists 2%positive, d; split; [|exact Ha]].
      rewrite lookup_insert_ne by discriminate. apply lookup_insert.
    + intros (i & e & He & Ha). destruct (Hin _ _ He) as [[-> ->]|[-> ->]]; auto.
Qed.

(** Trees 1 and 2: the binary tree of Examples.v and a single node. *)
Definition ex_bw : world (bnode nat) :=
  World (<[7%positive := BNodeR 70 None None None]> ex_bheap)
    (<[1%positive := TreeRec (Some 1%positive) 0 0 (Some 1%positive)]> (<[2%positive := TreeRec (Some 7%positive) 1 0 (Some 7%positive)]> ∅)).
Definition ex_bM : gmap tid (bin (addr * nat)) := <[1%positive := ex_bin]> (<[2%positive := BNode (7%positive, 70) BLeaf BLeaf]> ∅).
Example ex_bw_ok : consistent (binary_kind nat) ex_bw ex_bM.
Proof.
  apply (consistent_two (binary_kind nat) _ ex_bin (BNode (7%positive, 70) BLeaf BLeaf) 0 0 1 0 [1;2;4;5;3;7]%positive).
  - split; [vm_compute; tauto|]. apply (bool_decide_unpack _). vm_compute. exact I.
  - split; [vm_compute; tauto|]. apply (bool_decide_unpack _). vm_compute. exact I.
  - vm_compute. reflexivity.
  - reflexivity.
  - vm_compute. reflexivity.
Qed.
Definition ex_nw : world (nnode nat) :=
  World (<[7%positive := NNodeR 70 None 0 None None None None]> ex_nheap)
    (<[1%positive := TreeRec (Some 1%positive) 0 0 (Some 1%positive)]> (<[2%positive := TreeRec (Some 7%positive) 1 0 (Some 7%positive)]> ∅)).
Definition ex_nM : gmap tid (option (rose (addr * nat))) := <[1%positive := Some ex_nary]> (<[2%positive := Some (Rose (7%positive, 70) [])]> ∅).
Example ex_nw_ok : consistent (nary_kind nat) ex_nw ex_nM.
Proof.
  apply (consistent_two (nary_kind nat) _ (Some ex_nary) (Some (Rose (7%positive, 70) [])) 0 0 1 0 [1;2;3;5;6;4;7]%positive).
  - split; [vm_compute; tauto|]. apply (bool_decide_unpack _). vm_compute. exact I.
  - split; [vm_compute; tauto|]. apply (bool_decide_unpack _). vm_compute. exact I.
  - vm_compute. reflexivity.
  - reflexivity.
  - vm_compute. reflexivity.
Qed.
Example ex_fuel : size (w_heap ex_bw) + size (w_heap ex_bw) < 100 /\ size (w_heap ex_nw) + size (w_heap ex_nw) < 100.
Proof. vm_compute. lia. Qed.
Example ex_word : (N.of_nat 100 <= W64)%N.
Proof. vm_compute. discriminate. Qed.
Example ex_bw_caches : caches (binary_kind nat) ex_bw ex_bM.
Proof.
  intros k t c Ht Hc. unfold ex_bM in Hc. apply lookup_insert_Some in Hc as [[<- <-]|[Hk Hc]].
  - vm_compute in Ht. injection Ht as <-. vm_compute. tauto.
  - apply lookup_insert_Some in Hc as [[<- <-]|[Hk2 Hc]]; [|rewrite lookup_empty in Hc; discriminate]. vm_compute in Ht. injection Ht as <-. vm_compute. tauto.
Qed.
Example ex_nw_caches : caches (nary_kind nat) ex_nw ex_nM.
Proof.
  intros k t c Ht Hc. unfold ex_nM in Hc. apply lookup_insert_Some in Hc as [[<- <-]|[Hk Hc]].
  - vm_compute in Ht. injection Ht as <-. vm_compute. tauto.
  - apply lookup_insert_Some in Hc as [[<- <-]|[Hk2 Hc]]; [|rewrite lookup_empty in Hc; discriminate]. vm_compute in Ht. injection Ht as <-. vm_compute. tauto.
Qed.
