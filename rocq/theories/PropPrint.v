(** PropPrint.v: printing trees (C54, C55). *)
From Verif Require Import Base Spec StructNode BinaryNode NaryNode Nav Policy Tree Rep RoseFacts NavFacts
  BinRep NaryRep Iter IterTrees IterMain EditSpec User World Kinds TreeSpec TreeOps TreeFacts PropTree StarMain
  Print PrintSpec PrintFacts PrintUser Examples Examples2.
Local Open Scope string_scope.

(** [printed] (PrintSpec.v): the text is that of the literal of the tree, of which
    the first [lim] nodes are shown, the others being replaced by dots. *)
Theorem C54_nary :
  forall (V : Type) (EV : EqDecision V) (F : nat) (show : V -> string) (inc : nat) (lim : Z)
    (h : gmap addr (nnode V)) (c : option (rose (addr * V))),
  onary_in h c -> nsize c < F ->
  exists s, print_tree F (nary_impl V) n_right_child show inc h (nroot c) lim = Ok s /\
    match c with
    | None => s = "n()"
    | Some t => printed show inc (rose_lit (rose_map snd t)) lim s
    end.
Proof.
  intros V EV F show inc lim h [t|] Ht HF; [|exists "n()"; split; reflexivity].
  exact (print_nary F show inc h t lim Ht (Nat.lt_le_incl _ _ HF)).
Qed.
Print Assumptions C54_nary.

Theorem C54_binary :
  forall (V : Type) (EV : EqDecision V) (F : nat) (show : V -> string) (inc : nat) (lim : Z)
    (h : gmap addr (bnode V)) (t : bin (addr * V)),
  bin_in h t -> bin_size t < F ->
  exists s, print_tree F (binary_impl V) b_right_child show inc h (baddr t) lim = Ok s /\
    match t with
    | BLeaf => s = "n()"
    | _ => printed show inc (bin_lit (bin_map snd t)) lim s
    end.
Proof.
  intros V EV F show inc lim h t Ht HF. destruct t as [|x l r]; [exists "n()"; split; reflexivity|].
  exact (print_binary F show inc h _ lim Ht (Nat.lt_le_incl _ _ HF) ltac:(discriminate)).
Qed.
Print Assumptions C54_binary.

(** The values of the literals are those of the trees, in pre-order. *)
Theorem C54_values :
  (forall (V : Type) (t : rose V), lit_values (rose_lit t) = preorder t) /\
  (forall (V : Type) (t : bin V), lit_values (bin_lit t) = bin_labels t).
Proof.
  split; intros V t.
  - induction t as [x cs IH] using rose_ind'. cbn. f_equal. induction IH as [|c cs Hc _ IHc]; [reflexivity|]. cbn. rewrite Hc, IHc. reflexivity.
  - induction t as [|x l IHl r IHr]; [reflexivity|]. destruct l, r; cbn in *; rewrite ?app_nil_r; f_equal; rewrite ?IHl, ?IHr; reflexivity.
Qed.
Print Assumptions C54_values.

(** The text of a tree that is printed in full is, read as code, a literal equal
    to the tree. *)
Theorem C54_code_nary :
  forall (V : Type) (EV : EqDecision V) (F : nat) (show : V -> string) (inc : nat) (lim : Z), (N.of_nat F <= W64)%N ->
  forall (w : world (nnode V)) (M : gmap tid (option (rose (addr * V)))) (i : tid) (t : rose (addr * V)),
  consistent (nary_kind V) w M -> size (w_heap w) < F -> reports (nary_kind V) F (nary_impl V) w M -> M !! i = Some (Some t) ->
  (Z.of_nat (rsize t) <= lim)%Z ->
  exists v cs w', print_tree F (nary_impl V) n_right_child show inc (w_heap w) (Some (raddr t)) lim = Ok (item_text show inc 0 0 (whole (LNode v cs))) /\
    no_empty (LNode v cs) /\ lit_rose (LNode v cs) = [rose_map snd t] /\
    tree_eq_struct F (nary_impl V) w i (eval_lit (LNode v cs)) = Ok (true, w').
Proof.
  intros V EV F show inc lim HFW w M i t Hw HF Hrep Hi Hl.
  assert (Ht : nary_in (w_heap w) t /\ rsize t <= size (w_heap w)).
  { pose proof Hw as H. apply (to_holds F _ (first_fit _) _ (nary_tree_kind V EV) HFW) in H. pose proof (holds_rep _ _ _ _ _ _ _ _ H Hi) as Hr.
    split; [exists None, None, None, (szt 0); exact Hr|]. pose proof (holds_size _ _ _ _ _ _ _ _ H Hi) as Hs. cbn in Hs.
    unfold raddrs in Hs. rewrite map_length, length_preorder in Hs. exact Hs. }
  destruct Ht as [Ht Hs]. destruct (print_nary F show inc (w_heap w) t lim Ht ltac:(lia)) as (s & E & _ & _ & Hfull).
  assert (exists v cs, rose_lit (rose_map snd t) = LNode v cs) as (v & cs & El) by (destruct t; cbn; eauto).
  rewrite (proj1 C54_values) in Hfull. rewrite preorder_map, map_length, length_preorder in Hfull. pose proof (rsize_pos t) as Hpos.
  rewrite Hfull in E by lia. rewrite El in E.
  pose proof (rose_lit_full (rose_map snd t)) as Hne. pose proof (lit_rose_lit (rose_map snd t)) as Hlr. rewrite El in Hne, Hlr.
  destruct (C24_literal_equality V EV _ _ _ F (nary_tree_kind V EV) HFW w M i (Some t) Hw HF Hrep Hi) as [Hq _].
  destruct (Hq v cs Hne) as (r & w' & E2 & Hiff & _).
  exists v, cs, w'. split; [exact E|]. split; [exact Hne|]. split; [exact Hlr|]. rewrite E2. f_equal. f_equal. apply Hiff.
  cbn [lit_vals nary_kind]. rewrite Hlr. reflexivity.
Qed.
Print Assumptions C54_code_nary.

Theorem C54_code_binary :
  forall (V : Type) (EV : EqDecision V) (F : nat) (show : V -> string) (inc : nat) (lim : Z), (N.of_nat F <= W64)%N ->
  forall (w : world (bnode V)) (M : gmap tid (bin (addr * V))) (i : tid) (t : bin (addr * V)),
  consistent (binary_kind V) w M -> size (w_heap w) < F -> reports (binary_kind V) F (binary_impl V) w M -> M !! i = Some t -> t <> BLeaf ->
  (Z.of_nat (bin_size t) <= lim)%Z ->
  exists v cs w', print_tree F (binary_impl V) b_right_child show inc (w_heap w) (baddr t) lim = Ok (item_text show inc 0 0 (whole (LNode v cs))) /\
    two_slots (LNode v cs) /\ lit_bin (LNode v cs) = bin_map snd t /\
    tree_eq_struct F (binary_impl V) w i (eval_lit (LNode v cs)) = Ok (true, w').
Proof.
  intros V EV F show inc lim HFW w M i t Hw HF Hrep Hi Hn Hl.
  assert (Ht : bin_in (w_heap w) t /\ bin_size t <= size (w_heap w)).
  { pose proof Hw as H. apply (to_holds F _ (first_fit _) _ (binary_tree_kind V EV) HFW) in H. pose proof (holds_rep _ _ _ _ _ _ _ _ H Hi) as Hr.
    split; [exists None; exact Hr|]. pose proof (holds_size _ _ _ _ _ _ _ _ H Hi) as Hs. cbn in Hs. rewrite length_baddrs in Hs. exact Hs. }
  destruct Ht as [Ht Hs]. destruct (print_binary F show inc (w_heap w) t lim Ht ltac:(lia) Hn) as (s & E & _ & _ & Hfull).
  assert (exists v cs, bin_lit (bin_map snd t) = LNode v cs) as (v & cs & El).
  { destruct t as [|x [] []]; [congruence|..]; cbn; eauto. }
  assert (Hpos : 0 < bin_size t) by (destruct t; [congruence|cbn; lia]).
  rewrite (proj2 C54_values) in Hfull.
  assert (Hlen : List.length (bin_labels (bin_map snd t)) = bin_size t).
  { clear. induction t as [|x l IHl r IHr]; [reflexivity|]. cbn. rewrite app_length, IHl, IHr. reflexivity. }
  rewrite Hfull in E by lia. rewrite El in E.
  pose proof (bin_lit_two (bin_map snd t)) as Hne. pose proof (lit_bin_lit (bin_map snd t)) as Hlr. rewrite El in Hne, Hlr.
  destruct (C24_literal_equality V EV _ _ _ F (binary_tree_kind V EV) HFW w M i t Hw HF Hrep Hi) as [Hq _].
  destruct (Hq v cs Hne) as (r & w' & E2 & Hiff & _).
  exists v, cs, w'. split; [exact E|]. split; [exact Hne|]. split; [exact Hlr|]. rewrite E2. f_equal. f_equal. apply Hiff.
  cbn [lit_vals binary_kind]. rewrite Hlr. reflexivity.
Qed.
Print Assumptions C54_code_binary.

(** Trees printed in full have the same text only if they are equal, provided the
    texts of the values can be told apart. *)
Theorem C54_distinct_nary :
  forall (V : Type) (EV : EqDecision V) (F : nat) (show : V -> string) (inc : nat), clear_text show ->
  forall (h1 h2 : gmap addr (nnode V)) (c1 c2 : option (rose (addr * V))) (lim1 lim2 : Z),
  onary_in h1 c1 -> onary_in h2 c2 -> nsize c1 < F -> nsize c2 < F ->
  (0 < lim1)%Z -> (0 < lim2)%Z -> (Z.of_nat (nsize c1) <= lim1)%Z -> (Z.of_nat (nsize c2) <= lim2)%Z ->
  exists s1 s2, print_tree F (nary_impl V) n_right_child show inc h1 (nroot c1) lim1 = Ok s1 /\
    print_tree F (nary_impl V) n_right_child show inc h2 (nroot c2) lim2 = Ok s2 /\ (s1 = s2 <-> nvals c1 = nvals c2).
Proof.
  intros V EV F show inc Hshow h1 h2 c1 c2 lim1 lim2 H1 H2 F1 F2 P1 P2 L1 L2.
  set (text c := item_text show inc 0 0 (whole (match c with Some t => rose_lit t | None => LEmpty end))).
  assert (Hpr : forall h c lim, onary_in h c -> nsize c < F -> (0 < lim)%Z -> (Z.of_nat (nsize c) <= lim)%Z ->
    print_tree F (nary_impl V) n_right_child show inc h (nroot c) lim = Ok (text (nvals c))).
  { intros h [t|] lim Ht HF HP HL; [|reflexivity]. destruct (print_nary F show inc h t lim Ht (Nat.lt_le_incl _ _ HF)) as (s & E & _ & _ & Hfull).
    cbn [nroot fmap option_fmap option_map] in *. rewrite E, Hfull; [reflexivity|exact HP|].
    rewrite (proj1 C54_values), preorder_map, map_length, length_preorder. exact HL. }
  rewrite (Hpr h1 c1 lim1), (Hpr h2 c2 lim2) by assumption. eexists _, _. split; [reflexivity|]. split; [reflexivity|].
  split; [|intros ->; reflexivity]. intros E. apply (lit_text_eq show inc Hshow) in E.
  destruct (nvals c1) as [t1|], (nvals c2) as [t2|]; [|destruct t1; discriminate|destruct t2; discriminate|reflexivity].
  f_equal. apply rose_lit_inj. exact E.
Qed.
Print Assumptions C54_distinct_nary.

Theorem C54_distinct_binary :
  forall (V : Type) (EV : EqDecision V) (F : nat) (show : V -> string) (inc : nat), clear_text show ->
  forall (h1 h2 : gmap addr (bnode V)) (t1 t2 : bin (addr * V)) (lim1 lim2 : Z),
  bin_in h1 t1 -> bin_in h2 t2 -> bin_size t1 < F -> bin_size t2 < F ->
  (0 < lim1)%Z -> (0 < lim2)%Z -> (Z.of_nat (bin_size t1) <= lim1)%Z -> (Z.of_nat (bin_size t2) <= lim2)%Z ->
  exists s1 s2, print_tree F (binary_impl V) b_right_child show inc h1 (baddr t1) lim1 = Ok s1 /\
    print_tree F (binary_impl V) b_right_child show inc h2 (baddr t2) lim2 = Ok s2 /\ (s1 = s2 <-> bin_map snd t1 = bin_map snd t2).
Proof.
  intros V EV F show inc Hshow h1 h2 t1 t2 lim1 lim2 H1 H2 F1 F2 P1 P2 L1 L2.
  set (text t := item_text show inc 0 0 (whole (bin_lit t))).
  assert (Hpr : forall h t lim, bin_in h t -> bin_size t < F -> (0 < lim)%Z -> (Z.of_nat (bin_size t) <= lim)%Z ->
    print_tree F (binary_impl V) b_right_child show inc h (baddr t) lim = Ok (text (bin_map snd t))).
  { intros h t lim Ht HF HP HL. assert (t = BLeaf \/ t <> BLeaf) as [-> |Hne] by (destruct t; auto; right; discriminate); [reflexivity|].
    destruct (print_binary F show inc h t lim Ht (Nat.lt_le_incl _ _ HF) Hne) as (s & E & _ & _ & Hfull).
    rewrite E, Hfull; [reflexivity|exact HP|].
    rewrite (proj2 C54_values). replace (List.length (bin_labels (bin_map snd t))) with (bin_size t); [exact HL|].
    clear. induction t as [|x l IHl r IHr]; [reflexivity|]. cbn. rewrite app_length, IHl, IHr. reflexivity. }
  rewrite (Hpr h1 t1 lim1), (Hpr h2 t2 lim2) by assumption. eexists _, _. split; [reflexivity|]. split; [reflexivity|].
  split; [|intros ->; reflexivity]. intros E. apply bin_lit_inj. exact (lit_text_eq show inc Hshow _ _ E).
Qed.
Print Assumptions C54_distinct_binary.

(** *** Which values can be told apart. *)
(** utility.hpp 309-311 [code_like_print] of a char. *)
Definition show_char (c : ascii) : string := String "'" (String c "'").
(** utility.hpp 313-323 [code_like_print] of strings. *)
Definition show_string (s : string) : string := String """" (s ++ String """" "").

Example chars_clear : clear_text show_char.
Proof.
  intros [c1|] [c2|] r1 r2 E; cbv [show_char] in E; try discriminate E.
  - injection E as -> E. auto.
  - injection E as E. auto.
Qed.
Fixpoint no_paren (s : string) : Prop := match s with "" => True | String c s => c <> ")"%char /\ no_paren s end.
Lemma no_paren_clear (V : Type) (show : V -> string) :
  (forall v1 v2, show v1 = show v2 -> v1 = v2) -> (forall v, no_paren (show v) /\ show v <> "") -> clear_text show.
Proof.
  intros Hinj Hno. assert (Hs : forall a b r1 r2, no_paren a -> no_paren b -> a ++ ")" ++ r1 = b ++ ")" ++ r2 -> a = b /\ r1 = r2).
  { induction a as [|x a IH]; intros [|y b] r1 r2 Ha Hb E.
    - injection E as E. auto.
    - injection E as E _. destruct Hb as [Hb _]. congruence.
    - injection E as E _. destruct Ha as [Ha _]. congruence.
    - injection E as -> E. destruct Ha as [_ Ha], Hb as [_ Hb]. destruct (IH b r1 r2 Ha Hb E) as [-> ->]. auto. }
  intros [v1|] [v2|] r1 r2 E; apply Hs in E as [E ->]; try apply Hno; try exact I; split; try reflexivity.
  - f_equal. apply Hinj, E.
  - exfalso. apply (proj2 (Hno v1) E).
  - exfalso. apply (proj2 (Hno v2)). symmetry. exact E.
Qed.

(** *** Strings are printed between quotes as they are: the text does not tell the
    tree.  [n(x)(n(a), n(b))] and [n(x)(n(s))] for a suitable [s] look the same. *)
Theorem C55_quotes_refuted :
  forall (F inc : nat) (x a b : string) (h1 h2 : gmap addr (nnode string)) (t1 t2 : rose (addr * string)) (lim : Z),
  nary_in h1 t1 -> nary_in h2 t2 -> rsize t1 < F -> rsize t2 < F -> (3 <= lim)%Z ->
  rose_map snd t1 = Rose x [Rose a []; Rose b []] ->
  rose_map snd t2 = Rose x [Rose (a ++ String """" ")," ++ newline ++ spaces inc ++ "n(" ++ String """" b) []] ->
  exists s, print_tree F (nary_impl string) n_right_child show_string inc h1 (Some (raddr t1)) lim = Ok s /\
    print_tree F (nary_impl string) n_right_child show_string inc h2 (Some (raddr t2)) lim = Ok s.
Proof.
  intros F inc x a b h1 h2 t1 t2 lim H1 H2 F1 F2 HL E1 E2.
  destruct (print_nary F show_string inc h1 t1 lim H1 ltac:(lia)) as (s1 & P1 & _ & _ & Full1).
  destruct (print_nary F show_string inc h2 t2 lim H2 ltac:(lia)) as (s2 & P2 & _ & _ & Full2).
  rewrite E1 in Full1. rewrite E2 in Full2. rewrite P1, P2, Full1, Full2 by (cbn; lia). eexists. split; [reflexivity|]. f_equal.
  unfold show_string. cbn [rose_lit map whole item_text String.concat]. change spaces with blanks. change newline with line. rewrite !Nat.add_0_l.
  change (String """" ")," ++ line ++ blanks inc ++ "n(" ++ String """" b) with (String """" (")," ++ line ++ blanks inc ++ "n(" ++ String """" b)).
  assert (Hc : forall c u v, String c u ++ v = String c (u ++ v)) by reflexivity.
  repeat (rewrite ?sapp_assoc, ?Hc, ?sapp_nil). reflexivity.
Qed.
Print Assumptions C55_quotes_refuted.

(** *** Examples. *)
From stdpp Require Import pretty.
Local Open Scope string_scope.
Example C54_used :
  (exists s, print_tree 100 (nary_impl nat) n_right_child pretty 2 ex_nheap (Some 1%positive) 4 = Ok s /\
     printed pretty 2 (rose_lit (rose_map snd ex_nary)) 4 s) /\
  print_tree 100 (nary_impl nat) n_right_child pretty 2 ex_nheap (Some 1%positive) 4 =
    Ok ("n(10)(" ++ line ++ "  n(20)," ++ line ++ "  n(30)(" ++ line ++ "    n(50)," ++ line ++ "    ...)," ++ line ++ "  ...)") /\
  print_tree 100 (nary_impl nat) n_right_child pretty 2 ex_nheap (Some 1%positive) 6 =
    Ok ("n(10)(" ++ line ++ "  n(20)," ++ line ++ "  n(30)(" ++ line ++ "    n(50)," ++ line ++ "    n(60))," ++ line ++ "  n(40))").
Proof.
  split; [|split; vm_compute; reflexivity].
  destruct (C54_nary nat _ 100 pretty 2 4 ex_nheap (Some ex_nary) ex_nary_in ltac:(vm_compute; lia)) as (s & E & H). exists s. split; [exact E|exact H].
Qed.
Example C54_used_binary :
  exists s, print_tree 100 (binary_impl nat) b_right_child pretty 2 ex_bheap (baddr ex_bin) 4 = Ok s /\
     printed pretty 2 (bin_lit (bin_map snd ex_bin)) 4 s.
Proof.
  destruct (C54_binary nat _ 100 pretty 2 4 ex_bheap ex_bin ex_bin_in ltac:(vm_compute; lia)) as (s & E & H). exists s. split; [exact E|exact H].
Qed.
Example C54_used_hole :
  print_tree 100 (binary_impl nat) b_right_child pretty 2 ex_bheap (baddr ex_bin) 5 =
    Ok ("n(10)(" ++ line ++ "  n(20)(" ++ line ++ "    n()," ++ line ++ "    n(40)(" ++ line ++ "      n(50)))," ++ line ++ "  n(30))").
Proof. vm_compute. reflexivity. Qed.
Example C54_used_code : forall F w M i t, (N.of_nat F <= W64)%N -> consistent (nary_kind nat) w M -> size (w_heap w) < F ->
  reports (nary_kind nat) F (nary_impl nat) w M -> M !! i = Some (Some t) ->
  exists v cs w', tree_eq_struct F (nary_impl nat) w i (eval_lit (LNode v cs)) = Ok (true, w').
Proof.
  intros F w M i t HF Hw Hs Hr Hi. destruct (C54_code_nary nat _ F pretty 8 _ HF w M i t Hw Hs Hr Hi (Z.le_refl _)) as (v & cs & w' & _ & _ & _ & H). eauto.
Qed.
(** Two trees of strings that look the same. *)
Definition ex_quotes : string := "a" ++ String """" ")," ++ newline ++ spaces 8 ++ "n(" ++ String """" "b".
Example C55_used : exists (h1 h2 : gmap addr (nnode string)) t1 t2,
  nary_in h1 t1 /\ nary_in h2 t2 /\ rose_map snd t1 = Rose "x" [Rose "a" []; Rose "b" []] /\ rose_map snd t2 = Rose "x" [Rose ex_quotes []] /\
  exists s, print_tree 100 (nary_impl string) n_right_child show_string default_increment h1 (Some (raddr t1)) default_limit = Ok s /\
    print_tree 100 (nary_impl string) n_right_child show_string default_increment h2 (Some (raddr t2)) default_limit = Ok s.
Proof.
  exists (list_to_map [(1%positive, NNodeR "x" None 0 None None (Some 2%positive) (Some 3%positive));
                       (2%positive, NNodeR "a" (Some 1%positive) 1 None (Some 3%positive) None None);
                       (3%positive, NNodeR "b" (Some 1%positive) 0 (Some 2%positive) None None None)]),
         (list_to_map [(1%positive, NNodeR "x" None 0 None None (Some 2%positive) (Some 2%positive));
                       (2%positive, NNodeR ex_quotes (Some 1%positive) 0 None None None None)]),
         (Rose (1%positive, "x") [Rose (2%positive, "a") []; Rose (3%positive, "b") []]),
         (Rose (1%positive, "x") [Rose (2%positive, ex_quotes) []]).
  assert (H1 : nary_in (list_to_map [(1%positive, NNodeR "x" None 0 None None (Some 2%positive) (Some 3%positive));
                       (2%positive, NNodeR "a" (Some 1%positive) 1 None (Some 3%positive) None None);
                       (3%positive, NNodeR "b" (Some 1%positive) 0 (Some 2%positive) None None None)])
            (Rose (1%positive, "x") [Rose (2%positive, "a") []; Rose (3%positive, "b") []])).
  { exists None, None, None, 0%N. split; [vm_compute; repeat split|]. apply (bool_decide_unpack _). vm_compute. exact I. }
  assert (H2 : nary_in (list_to_map [(1%positive, NNodeR "x" None 0 None None (Some 2%positive) (Some 2%positive));
                       (2%positive, NNodeR ex_quotes (Some 1%positive) 0 None None None None)])
            (Rose (1%positive, "x") [Rose (2%positive, ex_quotes) []])).
  { exists None, None, None, 0%N. split; [vm_compute; repeat split|]. apply (bool_decide_unpack _). vm_compute. exact I. }
  split; [exact H1|]. split; [exact H2|]. split; [reflexivity|]. split; [reflexivity|].
  eapply (C55_quotes_refuted 100 default_increment "x" "a" "b"); [exact H1|exact H2|vm_compute; lia|vm_compute; lia|vm_compute; discriminate|reflexivity|reflexivity].
Qed.
