(** PrintAtFacts.v: printing with the addresses of the nodes, proofs (C67, C68). *)
From Verif Require Import Base Spec StructNode BinaryNode NaryNode Nav Policy Tree Rep RoseFacts NavFacts
  BinRep NaryRep Iter IterTrees IterMain User StarMain Print PrintSpec PrintFacts PrintUser PrintAt AddressSpec.
Local Open Scope string_scope.

(** ** The digits. *)
Lemma hex_char_digit (n : N) : (n < 16)%N -> String (hex_char n) "" = hex_digit n.
Proof.
  intros H. assert (Hn : n ∈ map N.of_nat (seq 0 16)).
  { apply elem_of_list_In, in_map_iff. exists (N.to_nat n). split; [lia|]. apply in_seq. lia. }
  cbn in Hn. repeat (apply elem_of_cons in Hn as [-> |Hn]; [reflexivity|]). apply elem_of_nil in Hn as [].
Qed.
Lemma slength_app (a b : string) : String.length (a ++ b) = String.length a + String.length b.
Proof. induction a as [|x a IH]; [reflexivity|]. exact (f_equal S IH). Qed.
Lemma fills_app c n m : fills c n ++ fills c m = fills c (n + m).
Proof. induction n as [|n IH]; [reflexivity|]. exact (f_equal (String c) IH). Qed.

(** The digits of [n < 16 ^ d], with nothing before. *)
Fixpoint digits_of (fuel : nat) (n : N) : string :=
  match fuel with
  | 0 => ""
  | S fuel => if (n =? 0)%N then "" else digits_of fuel (n / 16)%N ++ String (hex_char (n mod 16)%N) ""
  end.
Lemma hex_loop_eq fuel : forall n acc, hex_loop fuel n acc = digits_of fuel n ++ acc.
Proof.
  induction fuel as [|fuel IH]; intros n acc; [reflexivity|]. cbn [hex_loop digits_of]. destruct (n =? 0)%N; [reflexivity|].
  rewrite IH, sapp_assoc. reflexivity.
Qed.
Lemma last_zero d : last_digits d 0 = fills "0" d.
Proof.
  induction d as [|d IH]; [reflexivity|]. cbn [last_digits]. change (0 / 16)%N with 0%N. rewrite IH.
  change (hex_digit (0 mod 16)) with (fills "0" 1). rewrite fills_app. f_equal. lia.
Qed.
Lemma digits_last fuel : forall d n, (n < 2 ^ N.of_nat fuel)%N -> (n < 16 ^ N.of_nat d)%N ->
  String.length (digits_of fuel n) <= d /\ fills "0" (d - String.length (digits_of fuel n)) ++ digits_of fuel n = last_digits d n.
Proof.
  induction fuel as [|fuel IH]; intros d n Hf Hd.
  - assert (n = 0%N) by (cbn in Hf; lia). subst n. cbn. rewrite last_zero, sapp_nil. split; [lia|]. f_equal. lia.
  - cbn [digits_of]. destruct (N.eqb_spec n 0) as [-> |Hn].
    { cbn. rewrite last_zero, sapp_nil. split; [lia|]. f_equal. lia. }
    destruct d as [|d]; [cbn in Hd; lia|].
    assert (Hm := N.div_mod n 16). assert (Hr := N.mod_lt n 16). specialize (Hm ltac:(lia)). specialize (Hr ltac:(lia)).
    set (q := (n / 16)%N) in *. set (m := (n mod 16)%N) in *.
    rewrite Nat2N.inj_succ, N.pow_succ_r' in Hf, Hd.
    destruct (IH d q) as [Hl He]; [lia|lia|].
    rewrite slength_app. change (String.length (String (hex_char m) "")) with 1. split; [lia|].
    cbn [last_digits]. fold q m. rewrite <- He, <- (hex_char_digit m) by lia. rewrite sapp_assoc. f_equal.
    f_equal. lia.
Qed.
Lemma digits_pos fuel n : n <> 0%N -> 0 < fuel -> digits_of fuel n <> "".
Proof.
  intros Hn Hf. destruct fuel as [|fuel]; [lia|]. cbn. destruct (N.eqb_spec n 0); [congruence|].
  destruct (digits_of fuel (n / 16)); discriminate.
Qed.
Lemma last_mod d : forall n, last_digits d (n mod 16 ^ N.of_nat d) = last_digits d n.
Proof.
  induction d as [|d IH]; intros n; [reflexivity|]. cbn [last_digits].
  rewrite Nat2N.inj_succ, N.pow_succ_r'.
  assert (Hp : (16 ^ N.of_nat d <> 0)%N) by (apply N.pow_nonzero; lia).
  rewrite N.mod_mul_r by lia. set (q := ((n / 16) mod 16 ^ N.of_nat d)%N).
  replace (n mod 16 + 16 * q)%N with (n mod 16 + q * 16)%N by lia.
  rewrite N.div_add by lia. rewrite N.mod_add by lia.
  rewrite N.div_small by (apply N.mod_lt; lia). rewrite N.mod_mod by lia. rewrite N.add_0_l.
  unfold q. rewrite IH. reflexivity.
Qed.
Lemma size_nat_gt (n : N) : (n < 2 ^ N.of_nat (N.size_nat n))%N.
Proof.
  destruct n as [|p]; [cbn; lia|]. cbn [N.size_nat].
  assert (H := Pos.size_gt p). assert (E : Pos.size_nat p = Pos.to_nat (Pos.size p)).
  { clear H. induction p as [p IH|p IH|]; cbn [Pos.size_nat Pos.size]; rewrite ?IH; lia. }
  rewrite E. rewrite positive_nat_N. change (2 ^ N.pos (Pos.size p))%N with (N.pos (2 ^ Pos.size p)). lia.
Qed.

Lemma address_digits (d : nat) (n : N) : 0 < d ->
  padded "0" d (hex_text (N.land n (N.shiftl 1 (4 * N.of_nat d) - 1)%N)) = last_digits d n.
Proof.
  intros Hd. rewrite N.shiftl_1_l, N.sub_1_r.
  change (N.pred (2 ^ (4 * N.of_nat d))) with (N.pred (2 ^ (4 * N.of_nat d)))%N.
  assert (Hones : N.pred (2 ^ (4 * N.of_nat d)) = N.ones (4 * N.of_nat d)) by (rewrite N.ones_equiv; reflexivity).
  rewrite Hones, N.land_ones, N.pow_mul_r. change (2 ^ 4)%N with 16%N. rewrite <- (last_mod d n).
  assert (Hp : (16 ^ N.of_nat d <> 0)%N) by (apply N.pow_nonzero; lia).
  pose proof (N.mod_lt n _ Hp) as Hlt. set (m := (n mod 16 ^ N.of_nat d)%N) in *. unfold padded, hex_text.
  destruct (N.eqb_spec m 0) as [-> |Hm].
  - change (String.length "0") with 1. change "0" with (fills "0" 1). rewrite fills_app, last_zero. f_equal. lia.
  - rewrite hex_loop_eq, sapp_nil. apply digits_last; [apply size_nat_gt|exact Hlt].
Qed.

Lemma rose_map_map {A B C} (f : B -> C) (k : A -> B) (t : rose A) : rose_map f (rose_map k t) = rose_map (fun a => f (k a)) t.
Proof. induction t as [x cs IH] using rose_ind'. cbn. f_equal. rewrite map_map. apply map_ext_Forall. exact IH. Qed.
Lemma rose_map_ext {A B} (f k : A -> B) (t : rose A) : (forall x, x ∈ preorder t -> f x = k x) -> rose_map f t = rose_map k t.
Proof.
  induction t as [x cs IH] using rose_ind'. intros H. cbn. f_equal; [apply H; left|]. apply map_ext_Forall.
  rewrite Forall_forall in IH |- *. intros c Hc. apply IH; [exact Hc|]. intros y Hy. apply H. right. apply elem_of_list_In, in_flat_map.
  exists c. split; apply elem_of_list_In; assumption.
Qed.
Lemma bin_map_map {A B C} (f : B -> C) (k : A -> B) (t : bin A) : bin_map f (bin_map k t) = bin_map (fun a => f (k a)) t.
Proof. induction t as [|x l IHl r IHr]; [reflexivity|]. cbn. rewrite IHl, IHr. reflexivity. Qed.
Lemma bin_map_ext {A B} (f k : A -> B) (t : bin A) : (forall x, x ∈ bin_labels t -> f x = k x) -> bin_map f t = bin_map k t.
Proof.
  induction t as [|x l IHl r IHr]; [reflexivity|]. intros H. cbn. f_equal; [apply H; left|apply IHl|apply IHr]; intros y Hy; apply H; right; apply elem_of_app; auto.
Qed.

(** ** The text. *)
Section Core.
  Context {V Nd : Type}.
  Variable im : node_impl V Nd.
  Variable right_child : gmap addr Nd -> ptr -> res bool.
  Variable show : fmt -> V -> string.
  Variable inc : nat.
  Variable d : nat.
  Variable loc : addr -> N.
  Variable h : gmap addr Nd.
  Notation patn := (print_at im right_child show inc d loc h).
  Notation patr := (print_at_rest im right_child show inc d loc h).
  Definition sticky : fmt := Fmt true "0".

  Lemma patn_S n p ind lim f : patn (S n) p ind lim f =
    (if (lim <=? 0)%Z then Ok ("", lim, f)
     else
       v ← ni_value im h p;
       let '(note, f') := print_address d loc p f in
       current ← op_first (ni_ops im h) p;
       match current with
       | None => Ok (spaces ind ++ "n(" ++ show f v ++ note ++ ")", lim, f')
       | Some _ =>
           r ← right_child h current;
           '(body, l, f') ←
             (if (0 <? lim - 1)%Z then
                '(s, l, f') ← patn n current (ind + inc) (lim - 1)%Z f';
                next ← op_next (ni_ops im h) current;
                '(s', l, f') ← patr n next ind l f';
                Ok (s ++ s', l, f')
              else Ok (spaces (ind + 4) ++ "...", (lim - 1)%Z, f'));
           Ok ((spaces ind ++ "n(" ++ show f v ++ note ++ ")") ++ "(" ++ newline ++
               (if r : bool then spaces (ind + inc) ++ "n()," ++ newline else "") ++ body ++ ")", l, f')
       end).
  Proof. reflexivity. Qed.
  Lemma patr_S n p ind lim f : patr (S n) p ind lim f =
    match p with
    | None => Ok ("", lim, f)
    | Some _ =>
        if (0 <? lim - 1)%Z then
          '(s, l, f) ← patn n p (ind + inc) (lim - 1)%Z f;
          next ← op_next (ni_ops im h) p;
          '(s', l, f) ← patr n next ind l f;
          Ok ("," ++ newline ++ s ++ s', l, f)
        else Ok ("," ++ newline ++ spaces (ind + inc) ++ "...", (lim - 1)%Z, f)
    end.
  Proof. reflexivity. Qed.

  (** Without addresses. *)
  Definition with_fmt (f : fmt) (r : res (string * Z)) : res (string * Z * fmt) := '(s, l) ← r; Ok (s, l, f).
  Lemma plain_eq (Hd : d = 0) f n :
    (forall p ind lim, patn n p ind lim f = with_fmt f (print_node im right_child (show f) inc h n p ind lim)) /\
    (forall p ind lim, patr n p ind lim f = with_fmt f (print_rest im right_child (show f) inc h n p ind lim)).
  Proof.
    assert (Ha : forall p, print_address d loc p f = ("", f)) by (intros p; unfold print_address; rewrite Hd; reflexivity).
    induction n as [|n [IHn IHr]]; [split; reflexivity|]. split; intros p ind lim.
    - rewrite patn_S, pnode_S. destruct (lim <=? 0)%Z; [reflexivity|]. rewrite Ha. cbv beta iota zeta.
      destruct (ni_value im h p) as [v|e]; [|reflexivity]. cbn [mbind res_bind].
      destruct (op_first (ni_ops im h) p) as [[c|]|e]; [|reflexivity|reflexivity]. cbn [mbind res_bind].
      destruct (right_child h (Some c)) as [r|e]; [|reflexivity]. cbn [mbind res_bind].
      destruct (0 <? lim - 1)%Z; [|reflexivity]. rewrite IHn.
      destruct (print_node im right_child (show f) inc h n (Some c) (ind + inc) (lim - 1)) as [[s l]|e]; [|reflexivity]. cbn [with_fmt mbind res_bind].
      destruct (op_next (ni_ops im h) (Some c)) as [q|e]; [|reflexivity]. cbn [mbind res_bind]. rewrite IHr.
      destruct (print_rest im right_child (show f) inc h n q ind l) as [[s' l']|e]; reflexivity.
    - rewrite patr_S, prest_S. destruct p as [c|]; [|reflexivity]. destruct (0 <? lim - 1)%Z; [|reflexivity]. rewrite IHn.
      destruct (print_node im right_child (show f) inc h n (Some c) (ind + inc) (lim - 1)) as [[s l]|e]; [|reflexivity]. cbn [with_fmt mbind res_bind].
      destruct (op_next (ni_ops im h) (Some c)) as [q|e]; [|reflexivity]. cbn [mbind res_bind]. rewrite IHr.
      destruct (print_rest im right_child (show f) inc h n q ind l) as [[s' l']|e]; reflexivity.
  Qed.
  Lemma plain_tree F (Hd : d = 0) root lim f :
    print_tree_at F im right_child show inc d loc h root lim f =
    (s ← print_tree F im right_child (show f) inc h root lim; Ok (s, f)).
  Proof.
    unfold print_tree_at, print_tree. destruct root as [a|]; [|reflexivity]. rewrite (proj1 (plain_eq Hd f F)).
    destruct (print_node im right_child (show f) inc h F (Some a) 0 lim) as [[s l]|e]; reflexivity.
  Qed.

  (** With them: the printing without addresses of values that carry them. *)
  Variable g : addr -> fmt.
  Definition noted (x : addr * V) : addr * (fmt * (addr * V)) := (fst x, (g (fst x), x)).
  Definition im' : node_impl (fmt * (addr * V)) Nd := {|
    ni_ops := ni_ops im;
    ni_value := fun h p => v ← ni_value im h p; match p with Some a => Ok (g a, (a, v)) | None => Err NullDeref end;
    ni_children := fun _ _ => Err AssertFail; ni_following := fun _ _ => Err AssertFail; ni_resources := fun _ _ => Err AssertFail;
    ni_from_value := fun _ _ _ => Err AssertFail; ni_from_struct := fun _ _ _ => Err AssertFail; ni_copy := fun _ _ _ _ => Err AssertFail;
    ni_replace_with := fun _ _ _ _ => Err AssertFail; ni_prepend := fun _ _ _ _ => Err AssertFail; ni_append := fun _ _ _ _ => Err AssertFail;
    ni_eq := fun _ _ _ _ _ => Err AssertFail; ni_eq_struct := fun _ _ _ => Err AssertFail; ni_size := fun _ _ _ => Err AssertFail;
    ni_binary := false |}.
  Notation show' := (value_at show d loc).
  Notation pnode' := (print_node im' right_child show' inc h).
  Notation prest' := (print_rest im' right_child show' inc h).
  Variable hole : addr * V -> bool.
  Notation good := (good im right_child h hole).
  Notation linked := (linked im h).
  Hypothesis Hd : 0 < d.

  Lemma address_eq a f v : print_address d loc (Some a) f = (" @" ++ last_digits d (loc a), sticky) /\
    show f v ++ " @" ++ last_digits d (loc a) = show' (f, (a, v)).
  Proof using Hd.
    split; [|reflexivity]. unfold print_address. destruct (Nat.ltb_spec 0 d); [|lia]. cbn [f_fill]. rewrite address_digits by assumption. reflexivity.
  Qed.

  Lemma noted_run n :
    (forall t ind lim f, good t -> g (raddr t) = f -> (forall a, a ∈ raddrs t -> a <> raddr t -> g a = sticky) -> NoDup (raddrs t) ->
       patn n (Some (raddr t)) ind lim f =
       ('(s, l) ← pnode' n (Some (raddr t)) ind lim; Ok (s, l, if (lim <=? 0)%Z then f else sticky))) /\
    (forall cs ind lim, Forall good cs -> linked cs -> (forall a, a ∈ flat_map raddrs cs -> g a = sticky) -> Forall (fun c => NoDup (raddrs c)) cs ->
       patr n (head cs) ind lim sticky = with_fmt sticky (prest' n (head cs) ind lim)).
  Proof using All.
    induction n as [|n [IHn IHr]]; [split; reflexivity|].
    assert (Hrd : forall c : rose (addr * V), raddr c ∈ raddrs c) by (intros [y ds]; left).
    assert (Hstep : forall c cs ind lim, good c -> Forall good cs -> linked (c :: cs) -> (forall a, a ∈ flat_map raddrs (c :: cs) -> g a = sticky) ->
      Forall (fun c => NoDup (raddrs c)) (c :: cs) ->
      forall K : string -> string -> string,
      ('(s, l, f') ← patn n (Some (raddr c)) (ind + inc) lim sticky;
       next ← op_next (ni_ops im h) (Some (raddr c));
       '(s', l, f') ← patr n next ind l f'; Ok (K s s', l, f')) =
      with_fmt sticky
      ('(s, l) ← pnode' n (Some (raddr c)) (ind + inc) lim;
       next ← op_next (ni_ops im h) (Some (raddr c));
       '(s', l) ← prest' n next ind l; Ok (K s s', l))).
    { intros c cs ind lim Hc Hcs Hlk Hg Hnd K. apply Forall_cons in Hnd as [Hndc Hnd].
      rewrite (IHn c (ind + inc) lim sticky Hc).
      - destruct (pnode' n (Some (raddr c)) (ind + inc) lim) as [[s l]|e]; [|reflexivity]. cbn [mbind res_bind].
        assert (E : op_next (ni_ops im h) (Some (raddr c)) = Ok (head cs)) by (apply (Hlk [] c cs); reflexivity).
        rewrite E. cbn [mbind res_bind].
        replace (if (lim <=? 0)%Z then sticky else sticky) with sticky by (destruct (lim <=? 0)%Z; reflexivity).
        rewrite (IHr cs ind l Hcs).
        + destruct (prest' n (head cs) ind l) as [[s' l']|e]; reflexivity.
        + exact (linked_tail _ _ _ _ Hlk).
        + intros a Ha. apply Hg. cbn. apply elem_of_app. right. exact Ha.
        + exact Hnd.
      - apply Hg. cbn. apply elem_of_app. left. apply Hrd.
      - intros a Ha _. apply Hg. cbn. apply elem_of_app. left. exact Ha.
      - exact Hndc. }
    split.
    - intros t ind lim f Hg Hroot Hrest Hnd. destruct t as [x cs]. destruct (good_links im right_child h hole x cs Hg) as [Hfst Hlk].
      pose proof (good_kids im right_child h hole _ _ Hg) as Hk. pose proof Hg as (_ & Hval & Hright).
      rewrite patn_S, pnode_S. destruct (Z.leb_spec lim 0) as [Hx|Hx]; [reflexivity|].
      change (raddr (Rose x cs)) with (fst x) in *.
      cbn [im' ni_value ni_ops]. rewrite (Hval x) by left. cbn [mbind res_bind]. rewrite Hfst. cbn [mbind res_bind]. rewrite Hroot.
      destruct (address_eq (fst x) f (snd x)) as [E1 E2]. rewrite E1. rewrite <- E2.
      assert (Hkids : forall a, a ∈ flat_map raddrs cs -> g a = sticky).
      { intros a Ha. apply Hrest; [|]. 
        - unfold raddrs. cbn. right. apply elem_of_list_In, in_flat_map in Ha as (c & Hc & Ha). apply elem_of_list_fmap.
          apply elem_of_list_In, elem_of_list_fmap in Ha as (y & -> & Hy). exists y. split; [reflexivity|].
          apply elem_of_list_In, in_flat_map. exists c. split; [exact Hc|apply elem_of_list_In; exact Hy].
        - intros ->. unfold raddrs in Hnd. cbn in Hnd. apply NoDup_cons in Hnd as [Hnd _]. apply Hnd. 
          apply elem_of_list_In, in_flat_map in Ha as (c & Hc & Ha).
          apply elem_of_list_In, elem_of_list_fmap in Ha as (y & Ey & Hy). apply elem_of_list_fmap. exists y. split; [exact Ey|].
          apply elem_of_list_In, in_flat_map. exists c. split; [exact Hc|apply elem_of_list_In; exact Hy]. }
      assert (Hnds : Forall (fun c => NoDup (raddrs c)) cs).
      { apply Forall_forall. intros c Hc. unfold raddrs in Hnd |- *. cbn in Hnd. apply NoDup_cons in Hnd as [_ Hnd].
        apply elem_of_list_split in Hc as (l1 & l2 & ->). rewrite flat_map_app, map_app in Hnd. apply NoDup_app in Hnd as (_ & _ & Hnd).
        cbn in Hnd. rewrite map_app in Hnd. apply NoDup_app in Hnd as (Hnd & _). exact Hnd. }
      destruct cs as [|c cs]; cbn [head].
      + rewrite !sapp_assoc. reflexivity.
      + rewrite (Hright x c cs) by constructor. cbn [mbind res_bind].
        destruct (0 <? lim - 1)%Z eqn:El.
        * pose proof (Hstep c cs ind (lim - 1)%Z) as HS. apply Forall_cons in Hk as [Hkc Hks]. specialize (HS Hkc Hks Hlk Hkids Hnds).
          pose proof (HS (fun s s' => s ++ s')) as E. rewrite E.
          destruct (pnode' n (Some (raddr c)) (ind + inc) (lim - 1)%Z) as [[s l]|e]; [|reflexivity]. cbn [mbind res_bind with_fmt].
          destruct (op_next (ni_ops im h) (Some (raddr c))) as [q|e]; [|reflexivity]. cbn [mbind res_bind with_fmt].
          destruct (prest' n q ind l) as [[s' l']|e]; [|reflexivity]. cbn [mbind res_bind with_fmt]. rewrite !sapp_assoc. reflexivity.
        * cbn [mbind res_bind]. rewrite !sapp_assoc. reflexivity.
    - intros cs ind lim Hk Hlk Hg Hnd. rewrite patr_S, prest_S. destruct cs as [|c cs]; cbn [head]; [reflexivity|].
      destruct (0 <? lim - 1)%Z; [|reflexivity]. apply Forall_cons in Hk as [Hkc Hks].
      exact (Hstep c cs ind (lim - 1)%Z Hkc Hks Hlk Hg Hnd (fun s s' => "," ++ newline ++ s ++ s')).
  Qed.

  Definition nhole (y : addr * (fmt * (addr * V))) : bool := hole (snd (snd y)).
  Lemma noted_good t : good t -> PrintFacts.good im' right_child h nhole (rose_map noted t).
  Proof using All.
    intros (H1 & H2 & H3). split; [|split].
    - cbn [im' ni_ops]. rewrite rose_map_map. exact H1.
    - intros y Hy. rewrite preorder_map in Hy. apply elem_of_list_fmap in Hy as (x & -> & Hx).
      cbn [im' ni_value noted fst snd]. rewrite (H2 x Hx). cbn [mbind res_bind]. destruct x; reflexivity.
    - intros y c cs Hs. assert (exists u, rsubtree u t /\ Rose y (c :: cs) = rose_map noted u) as (u & Hu & E).
      { clear -Hs. remember (rose_map noted t) as t' eqn:E. revert t E. induction Hs as [|y0 ds e Hd1 Hd2 IH]; intros t E.
        - exists t. split; [constructor|exact E].
        - destruct t as [x us]. cbn in E. injection E as -> ->. apply elem_of_list_fmap in Hd1 as (v & -> & Hv).
          destruct (IH v eq_refl) as (u & Hu & Eu). exists u. split; [econstructor; eassumption|exact Eu]. }
      destruct u as [x [|c0 cs0]]; cbn in E; [discriminate|]. injection E as -> -> _. destruct c0 as [x0 ds0].
      exact (H3 x (Rose x0 ds0) cs0 Hu).
  Qed.

  Lemma noted_tree F t lim f : good t -> g (raddr t) = f -> (forall a, a ∈ raddrs t -> a <> raddr t -> g a = sticky) -> NoDup (raddrs t) ->
    rsize t <= F ->
    exists s, print_tree_at F im right_child show inc d loc h (Some (raddr t)) lim f = Ok (s, if (lim <=? 0)%Z then f else sticky) /\
      printed show' inc (hlit nhole (rose_map noted t)) lim s.
  Proof using All.
    intros Hg Hroot Hrest Hnd HF.
    destruct (print_core F show' inc im' right_child h nhole (rose_map noted t) lim (noted_good t Hg)) as (s & E & Hp).
    { rewrite rsize_map. exact HF. }
    exists s. split; [|exact Hp]. unfold print_tree_at. rewrite (proj1 (noted_run F) t 0 lim f Hg Hroot Hrest Hnd).
    assert (Er : raddr (rose_map noted t) = raddr t) by (destruct t; reflexivity). rewrite Er in E. unfold print_tree in E.
    destruct (pnode' F (Some (raddr t)) 0 lim) as [[s' l]|e]; [|discriminate]. cbn [mbind res_bind] in *. injection E as ->. reflexivity.
  Qed.
End Core.

(** ** The literals. *)
Fixpoint holes {A} (hole : addr * A -> bool) (t : bin (addr * A)) : Prop :=
  match t with
  | BLeaf => True
  | BNode x l r => hole x = match l with BLeaf => true | _ => false end /\ holes hole l /\ holes hole r
  end.
Lemma hlit_bin {A} (hole : addr * A -> bool) (t : bin (addr * A)) : holes hole t -> forall s, bin_forest t = [s] -> hlit hole s = bin_lit (bin_map snd t).
Proof.
  induction t as [|[a v] l IHl r IHr]; intros Ht s Hs; [discriminate|].
  destruct Ht as (Hh & Hl & Hr). cbn in Hs. injection Hs as <-.
  assert (Hleft : l = BLeaf \/ (exists s, bin_forest l = [s]) /\ exists y s1 s2, l = BNode y s1 s2) by (destruct l; cbn; eauto 10).
  assert (Hright : r = BLeaf \/ (exists s, bin_forest r = [s]) /\ exists y s1 s2, r = BNode y s1 s2) by (destruct r; cbn; eauto 10).
  assert (Hnode : forall l' r' : bin A, bin_lit (BNode v l' r') =
    match l', r' with
    | BLeaf, BLeaf => LNode v [] | BNode _ _ _, BLeaf => LNode v [bin_lit l'] | _, _ => LNode v [bin_lit l'; bin_lit r'] end) by (intros [] []; reflexivity).
  change (bin_map snd (BNode (a, v) l r)) with (BNode v (bin_map snd l) (bin_map snd r)). rewrite Hnode.
  destruct Hleft as [-> |((s1 & E1) & (y & l1 & l2 & El))], Hright as [-> |((s2 & E2) & (z & r1 & r2 & Er))].
  - reflexivity.
  - rewrite E2. cbn [app bin_forest]. cbn [hlit]. rewrite Hh. cbn [map app snd]. rewrite (IHr Hr _ E2). subst r. reflexivity.
  - rewrite E1. cbn [app bin_forest]. cbn [hlit]. rewrite Hh. subst l. cbn [map app snd]. rewrite (IHl Hl _ E1). reflexivity.
  - rewrite E1, E2. cbn [app]. cbn [hlit]. rewrite Hh. cbn [map app snd]. rewrite (IHl Hl _ E1), (IHr Hr _ E2). subst l r. reflexivity.
Qed.
Lemma brep_holes {V} (h : gmap addr (bnode V)) (t : bin (addr * V)) : forall par, brep h par t -> holes (hole_of h) t.
Proof.
  induction t as [|[a v] l IHl r IHr]; intros par Hr; [exact I|]. destruct Hr as (Ha & Hl & Hr). split; [|split; [eapply IHl|eapply IHr]; eassumption].
  unfold hole_of. cbn [fst]. rewrite Ha. destruct l as [|[b w] ? ?]; reflexivity.
Qed.
Lemma holes_map {A B} (hole : addr * A -> bool) (hole' : addr * B -> bool) (m : addr * A -> addr * B) (t : bin (addr * A)) :
  (forall x, hole' (m x) = hole x) -> holes hole t -> holes hole' (bin_map m t).
Proof.
  intros Hm. induction t as [|x l IHl r IHr]; [intros; exact I|]. intros (Hx & Hl & Hr). cbn [bin_map holes]. split; [|auto].
  rewrite Hm, Hx. destruct l; reflexivity.
Qed.
Lemma forest_map {A B} (m : A -> B) (t : bin A) : bin_forest (bin_map m t) = map (rose_map m) (bin_forest t).
Proof. induction t as [|x l IHl r IHr]; [reflexivity|]. cbn. rewrite IHl, IHr, map_app. reflexivity. Qed.

Section User.
  Context {V : Type} {EV : EqDecision V}.
  Variable F : nat.
  Variable show : fmt -> V -> string.
  Variable inc d : nat.
  Variable loc : addr -> N.
  Hypothesis Hd : 0 < d.
  Definition marks (a : addr) (f : fmt) (b : addr) : fmt := if decide (b = a) then f else sticky.

  Lemma at_nary (h : gmap addr (nnode V)) t lim f : nary_in h t -> rsize t <= F ->
    exists s, print_tree_at F (nary_impl V) n_right_child show inc d loc h (Some (raddr t)) lim f = Ok (s, if (lim <=? 0)%Z then f else sticky) /\
      printed (value_at show d loc) inc (rose_lit (rose_noted f sticky t)) lim s.
  Proof using All.
    intros Ht HF. pose proof Ht as Hin. assert (Hnd : NoDup (raddrs t)) by (destruct Hin as (? & ? & ? & ? & _ & Hnd); exact Hnd).
    destruct (noted_tree (nary_impl V) n_right_child show inc d loc h (marks (raddr t) f) (fun _ => false) Hd F t lim f (nary_good h t Ht)) as (s & E & Hp);
      [unfold marks; rewrite decide_True by reflexivity; reflexivity|intros a _ Hne; unfold marks; rewrite decide_False by exact Hne; reflexivity|exact Hnd|exact HF|].
    exists s. split; [exact E|]. change (nhole (fun _ : addr * V => false)) with (fun _ : addr * (fmt * (addr * V)) => false) in Hp. rewrite hlit_none in Hp.
    rewrite rose_map_map in Hp. destruct t as [x cs]. cbn [rose_map noted snd] in Hp. unfold marks at 1 in Hp. rewrite decide_True in Hp by reflexivity.
    cbn [rose_noted]. erewrite (map_ext_Forall _ (rose_map (pair sticky))) in Hp; [exact Hp|].
    apply Forall_forall. intros c Hc. apply rose_map_ext. intros y Hy. unfold noted, marks. cbn [snd]. rewrite decide_False; [reflexivity|].
    change (raddr (Rose x cs)) with (fst x). intros Ey. unfold raddrs in Hnd. cbn in Hnd. apply NoDup_cons in Hnd as [Hnd _]. apply Hnd.
    apply elem_of_list_fmap. exists y. split; [congruence|]. apply elem_of_list_In, in_flat_map. exists c. split; apply elem_of_list_In; assumption.
  Qed.

  Lemma at_binary (h : gmap addr (bnode V)) t lim f : bin_in h t -> bin_size t <= F -> t <> BLeaf ->
    exists s, print_tree_at F (binary_impl V) b_right_child show inc d loc h (baddr t) lim f = Ok (s, if (lim <=? 0)%Z then f else sticky) /\
      printed (value_at show d loc) inc (bin_lit (bin_noted f sticky t)) lim s.
  Proof using All.
    intros Ht HF Hne. assert (exists u, bin_forest t = [u]) as [u Hu] by (destruct t; cbn; eauto; congruence).
    assert (Hl : preorder u = bin_labels t) by (rewrite <- forest_labels, Hu; cbn; rewrite app_nil_r; reflexivity).
    assert (Hsz : rsize u = bin_size t) by (rewrite <- length_preorder, Hl, <- length_baddrs; unfold baddrs; rewrite map_length; reflexivity).
    pose proof Ht as (par & Hr & Hnd).
    assert (Hnd' : NoDup (raddrs u)) by (unfold raddrs; rewrite Hl; exact Hnd).
    destruct (noted_tree (binary_impl V) b_right_child show inc d loc h (marks (raddr u) f) (hole_of h) Hd F u lim f (bin_good h t u Ht Hu)) as (s & E & Hp);
      [unfold marks; rewrite decide_True by reflexivity; reflexivity|intros a _ Hna; unfold marks; rewrite decide_False by exact Hna; reflexivity|exact Hnd'|lia|].
    exists s. split; [rewrite (bin_root t u Hu); exact E|].
    set (m := noted (marks (raddr u) f)) in *.
    rewrite (hlit_bin (nhole (hole_of h)) (bin_map m t)) in Hp.
    - rewrite bin_map_map in Hp. destruct t as [|x l r]; [congruence|]. cbn in Hu. injection Hu as <-. change (raddr (Rose x (app (bin_forest l) (bin_forest r)))) with (fst x) in *.
      cbn [bin_noted]. cbn [bin_map] in Hp.
      assert (E0 : snd (m x) = (f, x)) by (unfold m, noted, marks; cbn; rewrite decide_True by reflexivity; reflexivity).
      unfold baddrs in Hnd. cbn in Hnd. apply NoDup_cons in Hnd as [Hnd _].
      assert (Ek : forall y, y ∈ app (bin_labels l) (bin_labels r) -> snd (m y) = (sticky, y)).
      { intros y Hy. unfold m, noted, marks. cbn. rewrite decide_False; [reflexivity|]. intros Ey. apply Hnd. rewrite <- Ey. apply elem_of_list_fmap. eauto. }
      rewrite E0 in Hp. rewrite (bin_map_ext _ (pair sticky) l), (bin_map_ext _ (pair sticky) r) in Hp; [exact Hp| |]; intros y Hy; apply Ek, elem_of_app; auto.
    - eapply holes_map; [|exact (brep_holes h t par Hr)]. reflexivity.
    - rewrite forest_map, Hu. reflexivity.
  Qed.
End User.

(** ** Texts of values changed one by one. *)
Section Mapped.
  Context {A B : Type}.
  Variable k : A -> B.
  Fixpoint litm (l : lit A) : lit B := match l with LEmpty => LEmpty | LNode v cs => LNode (k v) (map litm cs) end.
  Fixpoint itemm (i : item A) : item B := match i with INone => INone | INode v is => INode (k v) (map itemm is) | IDots b => IDots b end.
  Lemma item_ind' (P : item A -> Prop) : P INone -> (forall v is, Forall P is -> P (INode v is)) -> (forall b, P (IDots b)) -> forall i, P i.
  Proof.
    intros H1 H2 H3. fix IH 1. intros [|v is|b]; [exact H1| |exact (H3 b)]. apply H2.
    exact ((fix all (is : list (item A)) : Forall P is := match is with [] => @List.Forall_nil _ P | i :: is => @List.Forall_cons _ P i is (IH i) (all is) end) is).
  Qed.
  Lemma rose_litm (t : rose A) : rose_lit (rose_map k t) = litm (rose_lit t).
  Proof. induction t as [x cs IH] using rose_ind'. cbn. f_equal. rewrite !map_map. apply map_ext_Forall. exact IH. Qed.
  Lemma bin_litm (t : bin A) : bin_lit (bin_map k t) = litm (bin_lit t).
  Proof. induction t as [|x l IHl r IHr]; [reflexivity|]. destruct l, r; cbn in *; rewrite ?IHl, ?IHr; reflexivity. Qed.
  Lemma litm_values (l : lit A) : lit_values (litm l) = map k (lit_values l).
  Proof.
    induction l as [|v cs IH] using lit_ind'; [reflexivity|]. cbn. f_equal. induction IH as [|c cs Hc _ IHc]; [reflexivity|]. cbn. rewrite Hc, IHc, map_app. reflexivity.
  Qed.
  Lemma itemm_values (i : item A) : item_values (itemm i) = map k (item_values i).
  Proof.
    induction i as [|v is IH|b] using item_ind'; [reflexivity| |reflexivity]. cbn. f_equal. induction IH as [|c cs Hc _ IHc]; [reflexivity|]. cbn. rewrite Hc, IHc, map_app. reflexivity.
  Qed.
  Lemma whole_litm (l : lit A) : whole (litm l) = itemm (whole l).
  Proof. induction l as [|v cs IH] using lit_ind'; [reflexivity|]. cbn. f_equal. rewrite !map_map. apply map_ext_Forall. exact IH. Qed.
  Lemma whole_all (l : lit A) : item_values (whole l) = lit_values l.
  Proof.
    induction l as [|v cs IH] using lit_ind'; [reflexivity|]. cbn. f_equal. induction IH as [|c cs Hc _ IHc]; [reflexivity|]. cbn. rewrite Hc, IHc. reflexivity.
  Qed.
  Lemma shown_litm (l : lit A) : forall i, shown l i -> shown (litm l) (itemm i).
  Proof.
    induction l as [|v cs IH] using lit_ind'; intros i Hs.
    - inversion Hs; subst. constructor.
    - assert (Hf : forall cs' is, (forall c, c ∈ cs' -> c ∈ cs) -> Forall2 shown cs' is -> Forall2 shown (map litm cs') (map itemm is)).
      { intros cs' is Hsub Hf. induction Hf as [|c i' cs' is Hc Hf IHf]; [constructor|]. cbn. constructor.
        - rewrite Forall_forall in IH. apply IH; [apply Hsub; left|exact Hc].
        - apply IHf. intros c' Hc'. apply Hsub. right. exact Hc'. }
      remember (LNode v cs) as l eqn:El. destruct Hs as [|v0 cs0 is Hs|v0 cs0 is v' cs' rest Hs]; [discriminate| |].
      + injection El as -> ->. cbn. constructor. apply Hf; [auto|exact Hs].
      + injection El as -> <-. cbn. rewrite !map_app. cbn [map].
        assert (E : forallb (fun i => match i with INode _ _ => false | _ => true end) is = forallb (fun i => match i with INode _ _ => false | _ => true end) (map itemm is)).
        { clear. induction is as [|[] is IHi]; cbn; auto. }
        cbn [itemm litm]. rewrite E. apply shown_cut. apply Hf; [|exact Hs]. intros c Hc. apply elem_of_app. left. exact Hc.
  Qed.
  Variable old : A -> string.
  Variable new : B -> string.
  Variable inc : nat.
  Lemma text_itemm (i : item A) : (forall v, v ∈ item_values i -> old v = new (k v)) -> forall o ind, item_text new inc o ind (itemm i) = item_text old inc o ind i.
  Proof.
    induction i as [|v is IH|b] using item_ind'; intros Hv o ind; [reflexivity| |destruct b; reflexivity].
    cbn [itemm item_text]. rewrite (Hv v) by left. f_equal. f_equal. f_equal. f_equal.
    assert (E : map (item_text new inc ind (ind + inc)) (map itemm is) = map (item_text old inc ind (ind + inc)) is).
    { rewrite map_map. apply map_ext_Forall. rewrite Forall_forall in IH |- *. intros i Hi. apply IH; [exact Hi|]. intros w Hw. apply Hv. right.
      apply elem_of_list_In, in_flat_map. exists i. split; apply elem_of_list_In; assumption. }
    destruct is as [|i is]; [reflexivity|]. rewrite E. reflexivity.
  Qed.
  Lemma printed_map (l : lit A) lim s : (forall v, v ∈ lit_values l -> old v = new (k v)) -> printed old inc l lim s -> printed new inc (litm l) lim s.
  Proof.
    intros Hv (H1 & H2 & H3). split; [exact H1|]. rewrite litm_values, map_length. split.
    - intros Hl. destruct (H2 Hl) as (it & -> & Hs & Hit). exists (itemm it). split; [symmetry; apply text_itemm|].
      + intros v Hin. apply Hv. rewrite Hit in Hin. rewrite <- (firstn_skipn (Z.to_nat lim) (lit_values l)). apply elem_of_app. left. exact Hin.
      + split; [apply shown_litm; exact Hs|]. rewrite itemm_values, Hit, firstn_map. reflexivity.
    - intros Hl Hlen. rewrite (H3 Hl Hlen), whole_litm. symmetry. apply text_itemm. intros v Hin. apply Hv. rewrite <- whole_all. exact Hin.
  Qed.
End Mapped.
