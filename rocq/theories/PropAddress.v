(** PropAddress.v: printing trees with the addresses of their nodes (C67, C68). *)
From Verif Require Import Base Spec StructNode BinaryNode NaryNode Nav Policy Tree Rep RoseFacts NavFacts
  BinRep NaryRep Iter IterTrees IterMain EditSpec User World Kinds TreeSpec TreeOps TreeFacts PropTree Print PrintSpec PrintFacts PrintUser PrintAt AddressSpec PrintAtFacts PropPrint Examples Examples2.
Local Open Scope string_scope.

(** The text is that of the literal of the tree (PrintSpec.v, C54), where the value of
    every node is followed by the last [d] hexadecimal digits of its address.  In
    full, every value would be printed with the formatting [f] of the stream: missing,
    because only the value of the root is.  The other ones are printed with the
    formatting the address before them has left behind: hexadecimal, with '0' as fill
    character. *)
Theorem C67_nary_partial :
  forall (V : Type) (EV : EqDecision V) (F : nat) (show : fmt -> V -> string) (inc d : nat) (loc : addr -> N) (lim : Z) (f : fmt)
    (h : gmap addr (nnode V)) (c : option (rose (addr * V))),
  0 < d < 16 -> onary_in h c -> nsize c < F ->
  exists s f', print_tree_at F (nary_impl V) n_right_child show inc d loc h (nroot c) lim f = Ok (s, f') /\
    match c with
    | None => s = "n()"
    | Some t => printed (value_at show d loc) inc (rose_lit (rose_noted f (Fmt true "0") t)) lim s
    end.
Proof.
  intros V EV F show inc d loc lim f h [t|] [Hd _] Ht HF; [|eexists _, _; split; reflexivity].
  destruct (at_nary F show inc d loc Hd h t lim f Ht (Nat.lt_le_incl _ _ HF)) as (s & E & Hp). eexists _, _. split; [exact E|exact Hp].
Qed.
Print Assumptions C67_nary_partial.

Theorem C67_binary_partial :
  forall (V : Type) (EV : EqDecision V) (F : nat) (show : fmt -> V -> string) (inc d : nat) (loc : addr -> N) (lim : Z) (f : fmt)
    (h : gmap addr (bnode V)) (t : bin (addr * V)),
  0 < d < 16 -> bin_in h t -> bin_size t < F ->
  exists s f', print_tree_at F (binary_impl V) b_right_child show inc d loc h (baddr t) lim f = Ok (s, f') /\
    match t with
    | BLeaf => s = "n()"
    | _ => printed (value_at show d loc) inc (bin_lit (bin_noted f (Fmt true "0") t)) lim s
    end.
Proof.
  intros V EV F show inc d loc lim f h t [Hd _] Ht HF. destruct t as [|x l r]; [eexists _, _; split; reflexivity|].
  destruct (at_binary F show inc d loc Hd h _ lim f Ht (Nat.lt_le_incl _ _ HF) ltac:(discriminate)) as (s & E & Hp).
  eexists _, _. split; [exact E|exact Hp].
Qed.
Print Assumptions C67_binary_partial.

(** With the hexadecimal formatting from the beginning, or values whose text does not
    depend on the formatting, the property holds in full. *)
Lemma rose_noted_labels {X A} (x x' : X) (t : rose A) :
  rose_map snd (rose_noted x x' t) = t /\
  forall y, y ∈ preorder (rose_noted x x' t) -> snd y ∈ preorder t /\ (fst y = x \/ fst y = x').
Proof.
  destruct t as [a cs]. split.
  - cbn. f_equal. rewrite map_map. rewrite <- (map_id cs) at 2. apply map_ext. intros c. rewrite rose_map_map. cbn.
    induction c as [y ds IH] using rose_ind'. cbn. f_equal. rewrite <- (map_id ds) at 2. apply map_ext_Forall. exact IH.
  - intros y Hy. cbn in Hy. apply elem_of_cons in Hy as [-> |Hy]; [split; [left|auto]|].
    apply elem_of_list_In, in_flat_map in Hy as (c' & Hc & Hy). apply in_map_iff in Hc as (c & <- & Hc). rewrite preorder_map in Hy.
    apply in_map_iff in Hy as (z & <- & Hz). split; [|auto]. cbn. right. apply elem_of_list_In, in_flat_map. exists c. auto.
Qed.
Lemma bin_noted_labels {X A} (x x' : X) (t : bin A) :
  bin_map snd (bin_noted x x' t) = t /\
  forall y, y ∈ bin_labels (bin_noted x x' t) -> snd y ∈ bin_labels t /\ (fst y = x \/ fst y = x').
Proof.
  assert (E : forall u : bin A, bin_map snd (bin_map (pair x') u) = u) by (induction u as [|a l IHl r IHr]; cbn; congruence).
  destruct t as [|a l r]; [split; [reflexivity|intros y Hy; apply elem_of_nil in Hy as []]|]. split; [cbn; rewrite !E; reflexivity|].
  intros y Hy. cbn in Hy. rewrite !bin_labels_map in Hy. apply elem_of_cons in Hy as [-> |Hy]; [split; [left|auto]|].
  rewrite <- map_app in Hy. apply elem_of_list_fmap in Hy as (z & -> & Hz). split; [right; exact Hz|auto].
Qed.
Theorem C67_same_text_nary :
  forall (V : Type) (EV : EqDecision V) (F : nat) (show : fmt -> V -> string) (inc d : nat) (loc : addr -> N) (lim : Z) (f : fmt)
    (h : gmap addr (nnode V)) (t : rose (addr * V)),
  0 < d < 16 -> nary_in h t -> rsize t < F -> (forall v, v ∈ map snd (preorder t) -> show (Fmt true "0") v = show f v) ->
  exists s f', print_tree_at F (nary_impl V) n_right_child show inc d loc h (Some (raddr t)) lim f = Ok (s, f') /\
    printed (fun x => show f (snd x) ++ " @" ++ last_digits d (loc (fst x))) inc (rose_lit t) lim s.
Proof.
  intros V EV F show inc d loc lim f h t Hd Ht HF Hs.
  destruct (C67_nary_partial V EV F show inc d loc lim f h (Some t) Hd Ht HF) as (s & f' & E & Hp). exists s, f'. split; [exact E|]. cbn beta iota in Hp.
  destruct (rose_noted_labels f (Fmt true "0") t) as [Hm Hl]. rewrite <- Hm at 1. rewrite rose_litm.
  eapply printed_map; [|exact Hp]. intros y Hy. rewrite (proj1 C54_values) in Hy. destruct (Hl y Hy) as [Hin Hf].
  unfold value_at. f_equal. destruct Hf as [-> | ->]; [reflexivity|]. apply Hs, elem_of_list_fmap. eauto.
Qed.
Print Assumptions C67_same_text_nary.
Theorem C67_same_text_binary :
  forall (V : Type) (EV : EqDecision V) (F : nat) (show : fmt -> V -> string) (inc d : nat) (loc : addr -> N) (lim : Z) (f : fmt)
    (h : gmap addr (bnode V)) (t : bin (addr * V)),
  0 < d < 16 -> bin_in h t -> bin_size t < F -> t <> BLeaf -> (forall v, v ∈ map snd (bin_labels t) -> show (Fmt true "0") v = show f v) ->
  exists s f', print_tree_at F (binary_impl V) b_right_child show inc d loc h (baddr t) lim f = Ok (s, f') /\
    printed (fun x => show f (snd x) ++ " @" ++ last_digits d (loc (fst x))) inc (bin_lit t) lim s.
Proof.
  intros V EV F show inc d loc lim f h t Hd Ht HF Hne Hs.
  destruct (C67_binary_partial V EV F show inc d loc lim f h t Hd Ht HF) as (s & f' & E & Hp). exists s, f'. split; [exact E|].
  assert (Hp' : printed (value_at show d loc) inc (bin_lit (bin_noted f (Fmt true "0") t)) lim s) by (destruct t; [congruence|exact Hp]).
  destruct (bin_noted_labels f (Fmt true "0") t) as [Hm Hl]. rewrite <- Hm at 1. rewrite bin_litm.
  eapply printed_map; [|exact Hp']. intros y Hy. rewrite (proj2 C54_values) in Hy. destruct (Hl y Hy) as [Hin Hf].
  unfold value_at. f_equal. destruct Hf as [-> | ->]; [reflexivity|]. apply Hs, elem_of_list_fmap. eauto.
Qed.
Print Assumptions C67_same_text_binary.

(** In general it does not.  Whatever the tree, if the limit lets it be printed in full
    and no text of a value contains a closing parenthesis, the text is the expected one
    exactly if the values other than that of the root have the same text with both
    formattings. *)
Fixpoint no_close (s : string) : bool := match s with "" => true | String c s => negb (Ascii.eqb c ")") && no_close s end.
Definition plain_text (s : string) : bool := match s with "" => false | _ => no_close s end.
Lemma plain_go (s : string) : no_paren s -> no_close s = true.
Proof. induction s as [|c s IH]; [reflexivity|]. intros [Hc Hs]. cbn. rewrite (proj2 (Ascii.eqb_neq _ _) Hc), (IH Hs). reflexivity. Qed.
Lemma plain_ok (s : string) : no_paren s -> s <> "" -> plain_text s = true.
Proof. intros Hs Hn. destruct s; [congruence|]. apply plain_go, Hs. Qed.
Lemma go_plain (s : string) : no_close s = true -> no_paren s.
Proof.
  induction s as [|c s IH]; [exact (fun _ => I)|]. cbn. intros E. apply andb_true_iff in E as [E1 E2]. split; [|exact (IH E2)].
  apply Ascii.eqb_neq. destruct (Ascii.eqb c ")"); [discriminate E1|reflexivity].
Qed.
Lemma plain_no (s : string) : plain_text s = true -> no_paren s /\ s <> "".
Proof. intros E. destruct s as [|c s]; [discriminate E|]. split; [exact (go_plain _ E)|discriminate]. Qed.
Definition text_of (s : string | plain_text s = true) : string := proj1_sig s.
Lemma text_of_inj s1 s2 : text_of s1 = text_of s2 -> s1 = s2.
Proof.
  destruct s1 as [s1 H1], s2 as [s2 H2]. unfold text_of. cbn. intros ->. f_equal. apply Eqdep_dec.UIP_dec, Bool.bool_dec.
Qed.
Lemma texts_clear : clear_text text_of.
Proof. apply no_paren_clear; [exact text_of_inj|]. intros [s H]. exact (plain_no s H). Qed.
Lemma same_texts {A} (g1 g2 : A -> string) (inc : nat) (l : lit A) :
  (forall v, plain_text (g1 v) = true) -> (forall v, plain_text (g2 v) = true) ->
  item_text g1 inc 0 0 (whole l) = item_text g2 inc 0 0 (whole l) -> map g1 (lit_values l) = map g2 (lit_values l).
Proof.
  intros H1 H2 E.
  set (k1 := fun v => exist (fun s => plain_text s = true) (g1 v) (H1 v)). set (k2 := fun v => exist (fun s => plain_text s = true) (g2 v) (H2 v)).
  assert (E' : litm k1 l = litm k2 l).
  { apply (lit_text_eq text_of inc texts_clear). rewrite !whole_litm.
    transitivity (item_text g1 inc 0 0 (whole l)); [apply text_itemm; reflexivity|]. rewrite E. symmetry. apply text_itemm. reflexivity. }
  apply (f_equal lit_values) in E'. rewrite !litm_values in E'. apply (f_equal (map text_of)) in E'. rewrite !map_map in E'. exact E'.
Qed.
Lemma no_paren_app (a b : string) : no_paren a -> no_paren b -> no_paren (a ++ b).
Proof. induction a as [|c a IH]; [auto|]. intros [Hc Ha] Hb. split; [exact Hc|exact (IH Ha Hb)]. Qed.
Lemma digits_no_paren (d : nat) : forall n, no_paren (last_digits d n).
Proof.
  induction d as [|d IH]; intros n; [exact I|]. cbn [last_digits]. apply no_paren_app; [apply IH|]. rewrite <- hex_char_digit by (apply N.mod_lt; lia).
  split; [|exact I]. pose proof (N.mod_lt n 16 ltac:(lia)) as Hl. revert Hl. generalize (n mod 16)%N. intros m Hm.
  assert (m = 0 \/ m = 1 \/ m = 2 \/ m = 3 \/ m = 4 \/ m = 5 \/ m = 6 \/ m = 7 \/ m = 8 \/ m = 9 \/ m = 10 \/ m = 11 \/ m = 12 \/ m = 13 \/ m = 14 \/ m = 15)%N as Hc by lia.
  repeat destruct Hc as [-> |Hc]; [vm_compute; discriminate..|]. subst m. vm_compute. discriminate.
Qed.
Lemma text_plain (a : string) (d : nat) (n : N) : no_paren a -> plain_text (a ++ " @" ++ last_digits d n) = true.
Proof.
  intros Ha. apply plain_ok; [apply no_paren_app; [exact Ha|]; split; [discriminate|]; split; [discriminate|]; apply digits_no_paren|].
  destruct a; discriminate.
Qed.
Lemma sapp_cancel (a b c : string) : a ++ c = b ++ c -> a = b.
Proof.
  revert b. induction a as [|x a IH]; intros [|y b] E; [reflexivity|..].
  - exfalso. apply (f_equal String.length) in E. rewrite !slength_app in E. cbn in E. lia.
  - exfalso. apply (f_equal String.length) in E. rewrite !slength_app in E. cbn in E. lia.
  - change (String x (a ++ c) = String y (b ++ c)) in E. injection E as -> E. f_equal. exact (IH b E).
Qed.
Lemma expected_values {V} (show : fmt -> V -> string) (inc d : nat) (loc : addr -> N) (f : fmt) (lim : Z) (l : lit (fmt * (addr * V))) (s : string) :
  (0 < lim)%Z -> (Z.of_nat (List.length (lit_values l)) <= lim)%Z -> (forall x v, no_paren (show x v)) ->
  printed (value_at show d loc) inc l lim s ->
  (printed (fun x => show f (snd x) ++ " @" ++ last_digits d (loc (fst x))) inc (litm snd l) lim s <->
   forall y, y ∈ lit_values l -> show (fst y) (snd (snd y)) = show f (snd (snd y))).
Proof.
  intros Hl Hlen Hno Hp. split.
  - intros Hq. destruct Hp as (_ & _ & Hp), Hq as (_ & _ & Hq). rewrite litm_values, map_length in Hq.
    specialize (Hp Hl Hlen). specialize (Hq Hl Hlen). rewrite Hp, whole_litm in Hq.
    rewrite (text_itemm snd (fun y => show f (snd (snd y)) ++ " @" ++ last_digits d (loc (fst (snd y))))) in Hq by reflexivity.
    apply same_texts in Hq; [|intros v; apply text_plain, Hno|intros v; apply text_plain, Hno].
    intros y Hy. apply elem_of_list_In in Hy.
    apply (proj1 map_ext_in_iff Hq) in Hy. unfold value_at in Hy. exact (sapp_cancel _ _ _ Hy).
  - intros Hs. eapply printed_map; [|exact Hp]. intros y Hy. unfold value_at. rewrite (Hs y Hy). reflexivity.
Qed.
Theorem C67_exact_nary :
  forall (V : Type) (EV : EqDecision V) (F : nat) (show : fmt -> V -> string) (inc d : nat) (loc : addr -> N) (lim : Z) (f : fmt)
    (h : gmap addr (nnode V)) (v : addr * V) (cs : list (rose (addr * V))),
  0 < d < 16 -> nary_in h (Rose v cs) -> rsize (Rose v cs) < F -> (Z.of_nat (rsize (Rose v cs)) <= lim)%Z -> (forall x v, no_paren (show x v)) ->
  exists s f', print_tree_at F (nary_impl V) n_right_child show inc d loc h (Some (fst v)) lim f = Ok (s, f') /\
    (printed (fun x => show f (snd x) ++ " @" ++ last_digits d (loc (fst x))) inc (rose_lit (Rose v cs)) lim s <->
     forall c x, c ∈ cs -> x ∈ preorder c -> show (Fmt true "0") (snd x) = show f (snd x)).
Proof.
  intros V EV F show inc d loc lim f h v cs Hd Ht HF Hl Hno.
  destruct (C67_nary_partial V EV F show inc d loc lim f h (Some (Rose v cs)) Hd Ht HF) as (s & f' & E & Hp). exists s, f'. split; [exact E|]. cbn beta iota in Hp.
  destruct (rose_noted_labels f (Fmt true "0") (Rose v cs)) as [Hm _]. rewrite <- Hm at 1. rewrite rose_litm.
  assert (Hlen : List.length (lit_values (rose_lit (rose_noted f (Fmt true "0") (Rose v cs)))) = rsize (Rose v cs)).
  { rewrite (proj1 C54_values). rewrite <- (map_length snd), <- preorder_map, Hm. apply length_preorder. }
  rewrite (expected_values show inc d loc f lim _ s); [| pose proof (rsize_pos (Rose v cs)); lia|rewrite Hlen; exact Hl|exact Hno|exact Hp].
  rewrite (proj1 C54_values). cbn [rose_noted preorder]. split.
  - intros H c x Hc Hx. apply (H (Fmt true "0", x)). apply elem_of_cons. right. apply elem_of_list_In, in_flat_map.
    exists (rose_map (pair (Fmt true "0")) c). split; [apply in_map, elem_of_list_In, Hc|]. rewrite preorder_map. apply in_map, elem_of_list_In, Hx.
  - intros H y Hy. apply elem_of_cons in Hy as [-> |Hy]; [reflexivity|]. apply elem_of_list_In, in_flat_map in Hy as (c' & Hc & Hy).
    apply in_map_iff in Hc as (c & <- & Hc). rewrite preorder_map in Hy. apply in_map_iff in Hy as (x & <- & Hx).
    apply (H c x); apply elem_of_list_In; assumption.
Qed.
Print Assumptions C67_exact_nary.
Theorem C67_exact_binary :
  forall (V : Type) (EV : EqDecision V) (F : nat) (show : fmt -> V -> string) (inc d : nat) (loc : addr -> N) (lim : Z) (f : fmt)
    (h : gmap addr (bnode V)) (v : addr * V) (l r : bin (addr * V)),
  0 < d < 16 -> bin_in h (BNode v l r) -> bin_size (BNode v l r) < F -> (Z.of_nat (bin_size (BNode v l r)) <= lim)%Z -> (forall x v, no_paren (show x v)) ->
  exists s f', print_tree_at F (binary_impl V) b_right_child show inc d loc h (baddr (BNode v l r)) lim f = Ok (s, f') /\
    (printed (fun x => show f (snd x) ++ " @" ++ last_digits d (loc (fst x))) inc (bin_lit (BNode v l r)) lim s <->
     forall x, (x ∈ bin_labels l \/ x ∈ bin_labels r) -> show (Fmt true "0") (snd x) = show f (snd x)).
Proof.
  intros V EV F show inc d loc lim f h v l r Hd Ht HF Hl Hno.
  destruct (C67_binary_partial V EV F show inc d loc lim f h (BNode v l r) Hd Ht HF) as (s & f' & E & Hp). exists s, f'. split; [exact E|]. cbn beta iota in Hp.
  destruct (bin_noted_labels f (Fmt true "0") (BNode v l r)) as [Hm _]. rewrite <- Hm at 1. rewrite bin_litm.
  assert (Hlen : List.length (lit_values (bin_lit (bin_noted f (Fmt true "0") (BNode v l r)))) = bin_size (BNode v l r)).
  { rewrite (proj2 C54_values). rewrite <- (map_length snd), <- bin_labels_map, Hm.
    generalize (BNode v l r). clear. induction b as [|x l IHl r IHr]; [reflexivity|]. cbn. rewrite app_length, IHl, IHr. reflexivity. }
  rewrite (expected_values show inc d loc f lim _ s); [|cbn in Hl; cbn; lia|rewrite Hlen; exact Hl|exact Hno|exact Hp].
  rewrite (proj2 C54_values). cbn [bin_noted bin_labels]. rewrite !bin_labels_map. split.
  - intros H x Hx. apply (H (Fmt true "0", x)). apply elem_of_cons. right. rewrite elem_of_app, !elem_of_list_fmap. destruct Hx; [left|right]; eauto.
  - intros H y Hy. apply elem_of_cons in Hy as [-> |Hy]; [reflexivity|]. rewrite elem_of_app, !elem_of_list_fmap in Hy.
    destruct Hy as [(x & -> & Hx)|(x & -> & Hx)]; cbn [fst snd]; apply (H x); auto.
Qed.
Print Assumptions C67_exact_binary.

(** So the text is wrong for every tree with a node, other than the root, whose value
    has another text in hexadecimal. *)
Theorem C67_hex_refuted :
  forall (V : Type) (EV : EqDecision V) (F : nat) (show : fmt -> V -> string) (inc d : nat) (loc : addr -> N) (lim : Z) (f : fmt)
    (h : gmap addr (nnode V)) (v : addr * V) (cs : list (rose (addr * V))) (c : rose (addr * V)) (x : addr * V),
  0 < d < 16 -> nary_in h (Rose v cs) -> rsize (Rose v cs) < F -> (Z.of_nat (rsize (Rose v cs)) <= lim)%Z -> (forall x v, no_paren (show x v)) ->
  c ∈ cs -> x ∈ preorder c -> show (Fmt true "0") (snd x) <> show f (snd x) ->
  exists s f', print_tree_at F (nary_impl V) n_right_child show inc d loc h (Some (fst v)) lim f = Ok (s, f') /\
    ~ printed (fun x => show f (snd x) ++ " @" ++ last_digits d (loc (fst x))) inc (rose_lit (Rose v cs)) lim s.
Proof.
  intros V EV F show inc d loc lim f h v cs c x Hd Ht HF Hl Hno Hc Hx Hne.
  destruct (C67_exact_nary V EV F show inc d loc lim f h v cs Hd Ht HF Hl Hno) as (s & f' & E & Hiff). exists s, f'. split; [exact E|].
  intros Hp. exact (Hne (proj1 Hiff Hp c x Hc Hx)).
Qed.
Print Assumptions C67_hex_refuted.

(** The unsigned numbers, as they are printed. *)
From stdpp Require Import pretty.
Local Open Scope string_scope.
Definition show_number (f : fmt) (n : N) : string := if f_hex f then hex_text n else pretty n.
Lemma hex_loop_no (fuel : nat) : forall n acc, no_paren acc -> no_paren (hex_loop fuel n acc).
Proof.
  induction fuel as [|fuel IH]; intros n acc Ha; [exact Ha|]. cbn. destruct (n =? 0)%N; [exact Ha|]. apply IH. split; [|exact Ha].
  assert (E : no_paren (String (hex_char (n mod 16)) "")) by (rewrite hex_char_digit by (apply N.mod_lt; lia); exact (digits_no_paren 1 n)).
  exact (proj1 E).
Qed.
Lemma pretty_go_no (n : N) : forall acc, no_paren acc -> no_paren (pretty_N_go n acc).
Proof.
  induction (N.lt_wf_0 n) as [n _ IH]. intros acc Ha. destruct (decide (0 < n)%N) as [Hn|Hn].
  - rewrite pretty_N_go_step by exact Hn. apply IH; [apply N.div_lt; lia|]. split; [|exact Ha].
    pose proof (N.mod_lt n 10 ltac:(lia)) as Hl. revert Hl. generalize (n mod 10)%N. intros m Hm.
    assert (m = 0 \/ m = 1 \/ m = 2 \/ m = 3 \/ m = 4 \/ m = 5 \/ m = 6 \/ m = 7 \/ m = 8 \/ m = 9)%N as Hc by lia.
    repeat destruct Hc as [-> |Hc]; [vm_compute; discriminate..|]. subst m. vm_compute. discriminate.
  - replace n with 0%N by lia. rewrite pretty_N_go_0. exact Ha.
Qed.
Lemma number_no (f : fmt) (n : N) : no_paren (show_number f n).
Proof.
  unfold show_number. destruct (f_hex f).
  - unfold hex_text. destruct (n =? 0)%N; [split; [discriminate|exact I]|]. apply hex_loop_no. exact I.
  - unfold pretty, pretty_N. destruct (decide (n = 0)%N); [split; [discriminate|exact I]|]. apply pretty_go_no. exact I.
Qed.
Example C67_hex_used : exists s f',
  print_tree_at 100 (nary_impl N) n_right_child show_number 4 3 (fun a => (4096 + 32 * N.pos a)%N)
    (list_to_map [(1%positive, NNodeR 10%N None 0 None None (Some 2%positive) (Some 2%positive));
                  (2%positive, NNodeR 20%N (Some 1%positive) 0 None None None None)]) (Some 1%positive) 5 (Fmt false " ") = Ok (s, f') /\
  ~ printed (fun x => show_number (Fmt false " ") (snd x) ++ " @" ++ last_digits 3 (4096 + 32 * N.pos (fst x))%N) 4
      (rose_lit (Rose (1%positive, 10%N) [Rose (2%positive, 20%N) []])) 5 s.
Proof.
  apply (C67_hex_refuted N _ 100 show_number 4 3 (fun a => (4096 + 32 * N.pos a)%N) 5 (Fmt false " ") _ (1%positive, 10%N)
    [Rose (2%positive, 20%N) []] (Rose (2%positive, 20%N) []) (2%positive, 20%N)).
  - lia.
  - exists None, None, None, 0%N. split; [vm_compute; repeat split|]. apply (bool_decide_unpack _). vm_compute. exact I.
  - vm_compute. lia.
  - vm_compute. discriminate.
  - exact number_no.
  - left.
  - left.
  - vm_compute. discriminate.
Qed.

(** The formatting of the stream afterwards: it is that of before exactly if no
    address is printed or it was that of the addresses. *)
Theorem C68_nary_partial :
  forall (V : Type) (EV : EqDecision V) (F : nat) (show : fmt -> V -> string) (inc d : nat) (loc : addr -> N) (lim : Z) (f : fmt)
    (h : gmap addr (nnode V)) (c : option (rose (addr * V))),
  d < 16 -> onary_in h c -> nsize c < F ->
  exists s f', print_tree_at F (nary_impl V) n_right_child show inc d loc h (nroot c) lim f = Ok (s, f') /\
    (f' = f <-> d = 0 \/ (lim <= 0)%Z \/ c = None \/ f = Fmt true "0").
Proof.
  intros V EV F show inc d loc lim f h c _ Ht HF. destruct c as [t|]; [|eexists _, _; split; [reflexivity|]; split; auto].
  destruct (decide (d = 0)) as [Hd|Hd].
  - change (nroot (Some t)) with (Some (raddr t)). rewrite plain_tree by exact Hd. destruct (print_nary F (show f) inc h t lim Ht (Nat.lt_le_incl _ _ HF)) as (s & E & _).
    rewrite E. eexists _, _. split; [reflexivity|]. split; auto.
  - destruct (at_nary F show inc d loc ltac:(lia) h t lim f Ht (Nat.lt_le_incl _ _ HF)) as (s & E & _). eexists _, _. split; [exact E|].
    destruct (Z.leb_spec lim 0) as [Hl|Hl]; [tauto|]. split; [intros <-; right; right; right; reflexivity|].
    intros [?|[?|[?|?]]]; [lia|lia|discriminate|]. subst f. reflexivity.
Qed.
Print Assumptions C68_nary_partial.
Theorem C68_binary_partial :
  forall (V : Type) (EV : EqDecision V) (F : nat) (show : fmt -> V -> string) (inc d : nat) (loc : addr -> N) (lim : Z) (f : fmt)
    (h : gmap addr (bnode V)) (t : bin (addr * V)),
  d < 16 -> bin_in h t -> bin_size t < F ->
  exists s f', print_tree_at F (binary_impl V) b_right_child show inc d loc h (baddr t) lim f = Ok (s, f') /\
    (f' = f <-> d = 0 \/ (lim <= 0)%Z \/ t = BLeaf \/ f = Fmt true "0").
Proof.
  intros V EV F show inc d loc lim f h t _ Ht HF. destruct t as [|x l r]; [eexists _, _; split; [reflexivity|]; split; auto|].
  destruct (decide (d = 0)) as [Hd|Hd].
  - rewrite plain_tree by exact Hd. destruct (print_binary F (show f) inc h _ lim Ht (Nat.lt_le_incl _ _ HF) ltac:(discriminate)) as (s & E & _).
    rewrite E. eexists _, _. split; [reflexivity|]. split; auto.
  - destruct (at_binary F show inc d loc ltac:(lia) h _ lim f Ht (Nat.lt_le_incl _ _ HF) ltac:(discriminate)) as (s & E & _). eexists _, _. split; [exact E|].
    destruct (Z.leb_spec lim 0) as [Hl|Hl]; [tauto|]. split; [intros <-; right; right; right; reflexivity|].
    intros [?|[?|[?|?]]]; [lia|lia|discriminate|]. subst f. reflexivity.
Qed.
Print Assumptions C68_binary_partial.
(** Whatever the tree, its nodes and the limit, a stream that was not set to
    hexadecimal is afterwards, once an address has been printed. *)
Theorem C68_hex_refuted :
  forall (V : Type) (EV : EqDecision V) (F : nat) (show : fmt -> V -> string) (inc d : nat) (loc : addr -> N) (lim : Z) (f : fmt)
    (h : gmap addr (nnode V)) (t : rose (addr * V)),
  0 < d < 16 -> nary_in h t -> rsize t < F -> (0 < lim)%Z -> f_hex f = false ->
  exists s f', print_tree_at F (nary_impl V) n_right_child show inc d loc h (Some (raddr t)) lim f = Ok (s, f') /\ f_hex f' = true /\ f' <> f.
Proof.
  intros V EV F show inc d loc lim f h t Hd Ht HF Hl Hf.
  destruct (at_nary F show inc d loc ltac:(lia) h t lim f Ht (Nat.lt_le_incl _ _ HF)) as (s & E & _). eexists _, _. split; [exact E|].
  destruct (Z.leb_spec lim 0); [lia|]. split; [reflexivity|]. intros <-. discriminate.
Qed.
Print Assumptions C68_hex_refuted.

(** *** Examples. *)
Example C67_used :
  print_tree_at 100 (nary_impl nat) n_right_child (fun f n => show_number f (N.of_nat n)) 2 3 (fun a => (4096 + 32 * N.pos a)%N) ex_nheap (Some 1%positive) 3 (Fmt false " ") =
    Ok ("n(10 @020)(" ++ line ++ "  n(14 @040)," ++ line ++ "  n(1e @060)(" ++ line ++ "      ...)," ++ line ++ "  ...)", Fmt true "0").
Proof. vm_compute. reflexivity. Qed.
Example C67_used_binary : exists s f',
  print_tree_at 100 (binary_impl nat) b_right_child (fun f n => show_number f (N.of_nat n)) 2 3 (fun a => (4096 + 32 * N.pos a)%N) ex_bheap (baddr ex_bin) 10 (Fmt false " ") = Ok (s, f') /\
  printed (value_at (fun f n => show_number f (N.of_nat n)) 3 (fun a => (4096 + 32 * N.pos a)%N)) 2 (bin_lit (bin_noted (Fmt false " ") (Fmt true "0") ex_bin)) 10 s.
Proof.
  destruct (C67_binary_partial nat _ 100 (fun f n => show_number f (N.of_nat n)) 2 3 (fun a => (4096 + 32 * N.pos a)%N) 10 (Fmt false " ") ex_bheap ex_bin ltac:(lia) ex_bin_in ltac:(vm_compute; lia)) as (s & f' & E & H).
  exists s, f'. split; [exact E|exact H].
Qed.
Example C67_same_text_used : forall v, v ∈ map snd (Spec.preorder (Rose (1%positive, 3%N) [Rose (2%positive, 4%N) []])) -> show_number (Fmt true "0") v = show_number (Fmt false " ") v.
Proof. intros v Hv. cbn in Hv. repeat (apply elem_of_cons in Hv as [-> |Hv]; [reflexivity|]). apply elem_of_nil in Hv as []. Qed.
Example C68_used : exists s f',
  print_tree_at 100 (nary_impl nat) n_right_child (fun f n => show_number f (N.of_nat n)) 2 0 (fun a => N.pos a) ex_nheap (Some 1%positive) 3 (Fmt false " ") = Ok (s, f') /\ f' = Fmt false " ".
Proof.
  destruct (C68_nary_partial nat _ 100 (fun f n => show_number f (N.of_nat n)) 2 0 (fun a => N.pos a) 3 (Fmt false " ") ex_nheap (Some ex_nary) ltac:(lia) ex_nary_in ltac:(vm_compute; lia)) as (s & f' & E & H).
  exists s, f'. split; [exact E|]. apply H. left. reflexivity.
Qed.
