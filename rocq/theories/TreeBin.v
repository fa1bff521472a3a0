(** TreeBin.v: binary trees satisfy what TreeOps.v asks of a node type. *)
From Verif Require Import Base Spec EditSpec StructNode LitFacts BinaryNode NaryNode Nav Policy Tree RoseFacts RowFacts
  NavFacts BranchFacts Orders PolicyFacts BinOrder Rep BinRep BinOps BinLit BinEdit NaryOps NaryOps2 Arity User World Stand
  Kinds Iter IterTrees IterMain NodeFacts TreeOps.

(** *** Contexts of binary trees seen as contexts of ordered trees *)
Section Ctx.
  Context {A : Type}.
  Fixpoint rctx (c : list (bframe A)) : ctx A :=
    match c with
    | [] => []
    | LeftOf a r :: c => ([], a, bin_forest r) :: rctx c
    | RightOf a l :: c => (bin_forest l, a, []) :: rctx c
    end.
  Lemma forest_bplug c : forall s x, bin_forest s = [x] -> bin_forest (bplug c s) = [plug (rctx c) x].
  Proof.
    induction c as [|[a r|a l] c IH]; intros s x Hs; cbn [bplug rctx plug]; [exact Hs| |]; apply IH; cbn; rewrite Hs; reflexivity.
  Qed.
  Lemma forest_cases (s : bin A) : s = BLeaf /\ bin_forest s = [] \/ exists x, bin_forest s = [x].
  Proof. destruct s; [left; auto|right; eauto]. Qed.

  (** What surrounds the hole in post-order. *)
  Lemma post_bplug c : exists l1 l2, forall s : bin A,
    flat_map postorder (bin_forest (bplug c s)) = l1 ++ flat_map postorder (bin_forest s) ++ l2.
  Proof.
    induction c as [|[a r|a l] c (l1 & l2 & IH)].
    - exists [], []. intros s. rewrite app_nil_r. reflexivity.
    - exists l1, (flat_map postorder (bin_forest r) ++ [a] ++ l2). intros s. cbn [bplug]. rewrite IH. cbn.
      rewrite app_nil_r, flat_map_app, <- !app_assoc. reflexivity.
    - exists (l1 ++ flat_map postorder (bin_forest l)), ([a] ++ l2). intros s. cbn [bplug]. rewrite IH. cbn.
      rewrite app_nil_r, flat_map_app, <- !app_assoc. reflexivity.
  Qed.

  Fixpoint ctx_arity (c : ctx A) : nat :=
    match c with
    | [] => 0
    | (ls, _, rs) :: c => max (ctx_arity c) (max (S (length ls + length rs)) (list_max (map rarity (ls ++ rs))))
    end.
  Lemma rarity_plug c : forall s : rose A, rarity (plug c s) = max (rarity s) (ctx_arity c).
  Proof.
    induction c as [|[[ls a] rs] c IH]; intros s; cbn [plug ctx_arity]; [lia|]. rewrite IH. cbn [rarity].
    rewrite !map_app, !list_max_app, app_length. cbn [map length]. 
    change (list_max (rarity s :: map rarity rs)) with (max (rarity s) (list_max (map rarity rs))). lia.
  Qed.
End Ctx.

Lemma labels_map_app {A B} (f : A -> B) (t : bin A) : bin_forest (bin_map f t) = map (rose_map f) (bin_forest t).
Proof. apply bin_forest_map'. Qed.
Lemma rarity_map {A B} (f : A -> B) (t : rose A) : rarity (rose_map f t) = rarity t.
Proof.
  induction t as [a cs IH] using rose_ind'. cbn. rewrite map_length, map_map. f_equal. f_equal. apply map_ext_in.
  rewrite Forall_forall in IH. intros x Hx. apply IH, elem_of_list_In, Hx.
Qed.
Lemma lit_bin_forest {V} (l : lit V) : two_slots l -> bin_forest (lit_bin l) = lit_rose l.
Proof.
  induction l as [|v cs IH] using lit_ind'; [reflexivity|]. intros Ht. apply two_slots_cons in Ht as [Hl Ht].
  destruct cs as [|x [|y [|z cs]]]; cbn in *; try lia; [reflexivity| |].
  - inversion IH; inversion Ht; subst. rewrite !app_nil_r. rewrite H1 by assumption. reflexivity.
  - inversion IH as [|? ? Hx IH']; subst. inversion IH' as [|? ? Hy _]; subst. inversion Ht as [|? ? Tx Ht']; subst. inversion Ht'; subst.
    rewrite Hx, Hy, !app_nil_r by assumption. reflexivity.
Qed.
Lemma bin_size_forest {A} (t : bin A) : bin_size t = list_sum (map rsize (bin_forest t)).
Proof. induction t as [|a l IHl r IHr]; cbn; [reflexivity|]. rewrite map_app, list_sum_app, <- IHl, <- IHr. lia. Qed.

Lemma perm_rot {A} (x y z : list A) : Permutation ((x ++ y) ++ z) ((z ++ y) ++ x).
Proof. rewrite (Permutation_app_comm x y), (Permutation_app_comm z y), <- !app_assoc. apply Permutation_app_head, Permutation_app_comm. Qed.

Lemma list_max_perm (l l' : list nat) : Permutation l l' -> list_max l = list_max l'.
Proof. induction 1 as [|x l l' _ IH|x y l|l1 l2 l3 _ IH1 _ IH2]; unfold list_max in *; cbn [fold_right] in *; [reflexivity|rewrite IH; reflexivity|lia|congruence]. Qed.

Section TreeBin.
  Context {V : Type} `{EqDecision V}.
  Notation heap := (gmap addr (bnode V)).
  Notation btree := (bin (addr * V)).
  Notation bctx := (list (bframe (addr * V))).
  Notation im := (binary_impl V).
  Notation K := (binary_kind V).
  Implicit Types (t l r s u : btree) (c : bctx) (h : heap).
  Variable F : nat.
  Variable al : allocator (bnode V).

  (** The node at an address of the tree. *)
  Lemma bin_find h t a : bin_at h t -> a ∈ baddrs t ->
    exists c v l r, t = bplug c (BNode (a, v) l r) /\ bsub a t = BNode (a, v) l r /\ a ∉ bctx_addrs c /\
      bin_in h (BNode (a, v) l r) /\ (forall u, bsubst a u t = bplug c u) /\ (c = [] <-> baddr t = Some a).
  Proof.
    intros [Hr Hnd] Ha. destruct (baddrs_position a t Ha) as (c & s & -> & Hs).
    pose proof (baddr_root s a Hs) as (v & l & r & ->). exists c, v, l, r.
    destruct (NoDup_bplug _ _ Hnd) as (Hn1 & Hn2 & Hn3).
    assert (Hac : a ∉ bctx_addrs c) by (apply Hn3; rewrite baddrs_node; left).
    split; [reflexivity|]. split; [apply bsub_plug; assumption|]. split; [exact Hac|].
    split; [exists (cpar None c); split; [apply brep_bplug in Hr; apply Hr|exact Hn1]|].
    split; [intros u; apply bsubst_plug; assumption|]. split; [intros ->; exact Hs|].
    intros Hroot. destruct c as [|f c _] using rev_ind; [reflexivity|]. exfalso. rewrite bplug_app in Hroot.
    rewrite bctx_addrs_app in Hac. destruct f as [[b w] x|[b w] x]; cbn in Hroot; injection Hroot as ->; cbn in Hac; set_solver +Hac.
  Qed.
  Lemma root_not_sub h t a u : bin_at h t -> a ∈ baddrs t -> baddr t <> Some a ->
    baddr (bsubst a u t) = baddr t.
  Proof.
    intros Ht Ha Hne. destruct (bin_find h t a Ht Ha) as (c & v & l & r & -> & _ & _ & _ & Hs & Hc). rewrite Hs.
    destruct c as [|f c _] using rev_ind; [destruct Hne; apply Hc; reflexivity|]. rewrite !bplug_app. destruct f as [[b w] x|[b w] x]; reflexivity.
  Qed.
  Lemma bin_nav h t R : bin_in h t -> bin_forest (bin_map fst t) = [R] ->
    nav_ok (tree_nav im h (Some (label R))) R /\ baddr t = Some (label R) /\ rsize R = bin_size t.
  Proof.
    intros Ht HR. assert (Hne : t <> BLeaf) by (intros ->; discriminate).
    destruct (bin_roots h t Ht Hne) as (a & u & Ha & Hu & Hsz & Hra & Hok & _ & _).
    rewrite labels_map_app, Hu in HR. cbn in HR. injection HR as <-. rewrite label_map.
    change (fst (label u)) with (raddr u). rewrite Hra. split; [exact Hok|]. split; [exact Ha|]. rewrite rsize_map. exact Hsz.
  Qed.
  Lemma map_bplug {B} (f : addr * V -> B) (c : bctx) : exists d : list (bframe B), (d = [] <-> c = []) /\ forall s : btree, bin_map f (bplug c s) = bplug d (bin_map f s).
  Proof.
    induction c as [|[a r|a l] c (c' & Hc & IH)].
    - exists []. split; [tauto|reflexivity].
    - exists (LeftOf (f a) (bin_map f r) :: c'). split; [split; discriminate|]. intros s. cbn [bplug]. rewrite IH. reflexivity.
    - exists (RightOf (f a) (bin_map f l) :: c'). split; [split; discriminate|]. intros s. cbn [bplug]. rewrite IH. reflexivity.
  Qed.
  (** The position of a node in the ordered tree of addresses. *)
  Lemma bin_rose_pos h c a v l r : bin_at h (bplug c (BNode (a, v) l r)) ->
    exists (d : ctx addr) x, label x = a /\ x = Rose a (brose l ++ brose r) /\ (d = [] <-> c = []) /\
      (let R := plug d x in nav_ok (tree_nav im h (Some (label R))) R /\ baddr (bplug c (BNode (a, v) l r)) = Some (label R) /\
         rsize R = bin_size (bplug c (BNode (a, v) l r))) /\
      (forall s y, brose s = [y] -> brose (bplug c s) = [plug d y]).
  Proof.
    intros Ht. destruct (map_bplug fst c) as (c' & Hc & Hmap).
    exists (rctx c'), (Rose a (brose l ++ brose r)). split; [reflexivity|]. split; [reflexivity|].
    split; [rewrite <- Hc; destruct c' as [|[]]; cbn; split; intros; congruence|].
    assert (HR : forall s y, brose s = [y] -> brose (bplug c s) = [plug (rctx c') y]).
    { intros s y Hs. unfold brose in *. rewrite Hmap. apply forest_bplug, Hs. }
    split; [|exact HR]. cbn zeta. apply bin_nav; [exists None; exact Ht|]. apply HR. reflexivity.
  Qed.

  Lemma kb_built h h' t : bbuilt h h' t -> built baddrs bin_at h h' t.
  Proof.
    unfold bbuilt, built, bin_at. tauto.
  Qed.

  Lemma carity_forest t R : brose t = [R] -> carity K t = rarity R.
  Proof.
    intros HR. cbn [carity binary_kind]. unfold brose in HR. rewrite labels_map_app in HR.
    destruct (bin_forest t) as [|x [|y l]]; try discriminate. cbn in HR. injection HR as <-. cbn. rewrite rarity_map. lia.
  Qed.
  Lemma carity_map t : carity K t = list_max (map rarity (bin_forest (bin_map snd t))).
  Proof.
    cbn. rewrite labels_map_app, map_map. f_equal. apply map_ext. intros x. rewrite rarity_map. reflexivity.
  Qed.
  Lemma carity_brose t : carity K t = list_max (map rarity (brose t)).
  Proof.
    cbn. unfold brose. rewrite labels_map_app, map_map. f_equal. apply map_ext. intros x. rewrite rarity_map. reflexivity.
  Qed.
  Lemma bdeg h t a : bin_at h t -> a ∈ baddrs t -> forall v l r, bsub a t = BNode (a, v) l r ->
    cdeg K a t = length (brose l ++ brose r).
  Proof.
    intros _ _ v l r Hs. cbn. rewrite Hs. cbn. unfold brose. rewrite !labels_map_app, !app_length, !map_length. lia.
  Qed.
  Lemma brose_len t : length (brose t) = match t with BLeaf => 0 | _ => 1 end.
  Proof. destruct t; reflexivity. Qed.

  Lemma kb_deg h t a : bin_at h t -> a ∈ baddrs t ->
    exists fc, b_first h (Some a) = Ok fc /\ (fc = None <-> cdeg K a t = 0) /\
      (forall b, fc = Some b -> exists n, b_following_siblings h (Some b) = Ok n /\ wadd n 1 = szt (cdeg K a t)).
  Proof.
    intros Ht Ha. destruct (bin_find h t a Ht Ha) as (c & v & l & r & -> & Hs & Hac & Hin & _).
    rewrite (bdeg h _ a Ht Ha v l r Hs), app_length, !brose_len.
    destruct (b_children_queries h a v l r Hin) as (_ & _ & _ & Hf & _). rewrite Hf. eexists. split; [reflexivity|].
    destruct l as [|[x w] ll lr].
    - destruct r as [|[y w] rl rr]; cbn.
      + split; [tauto|]. discriminate.
      + split; [split; discriminate|]. intros b [=<-]. exists 0%N. split; [|reflexivity].
        apply (b_right_child_queries h a v y w rl rr _ Hin).
    - cbn. split; [split; discriminate|]. intros b [=<-].
      destruct (b_left_child_queries h a v x w ll lr r Hin) as (_ & _ & _ & _ & _ & _ & _ & Hfs). eexists. split; [exact Hfs|].
      destruct r as [|[y w'] rl rr]; reflexivity.
  Qed.

  Lemma binary_ok : kind_ok F im al K.
  Proof.
    constructor; cbn [croot caddrs crep csrc cnil cvals lit_vals lit_ok csubst csub cadd crepl cfull binary_kind
      ni_copy ni_from_value ni_from_struct ni_size ni_ops ni_replace_with ni_children ni_following ni_prepend ni_append ni_eq ni_eq_struct
      ni_binary binary_impl op_first bin_ops].
    - intros h t [_ H]. exact H.
    - intros h t a [H _] Ha. eapply brep_dom; eassumption.
    - intros h h' t He [H1 H2]. split; [eapply brep_ext; eassumption|exact H2].
    - repeat split; auto. constructor.
    - intros t. destruct t as [|[a v] l r]; [reflexivity|discriminate].
    - intros t a. apply baddr_in.
    - intros h t H. exists None. exact H.
    - intros h t a (par & H & _) Ha. eapply brep_dom; eassumption.
    - intros h h' t He (par & H1 & H2). exists par. split; [eapply brep_ext; eassumption|exact H2].
    - intros h t (par & _ & H2). exact H2.
    - intros h t [H1 H2] HF. rewrite length_baddrs in HF. eapply b_deallocate_ok; eassumption.
    - intros h t a (par & H1 & H2) Ha HF. rewrite length_baddrs in HF.
      destruct (b_copy_ok al t F h par a H1 Ha HF) as (a' & h' & t' & Hc & Hr & Hv & Hb).
      exists a', h', t'. split; [exact Hc|]. split; [exact Hr|]. split; [exact Hv|].
      rewrite !length_baddrs, !carity_map, Hv. split; [|split; [reflexivity|apply kb_built, Hb]].
      rewrite <- (bin_size_map snd t), <- Hv. symmetry. apply bin_size_map.
    - intros h v. exists (new_addr al h), (<[new_addr al h := BNodeR v None None None]> h), (BNode (new_addr al h, v) BLeaf BLeaf).
      repeat (split; [reflexivity|]). apply kb_built. unfold bbuilt. cbn [brep baddr]. rewrite lookup_insert.
      split; [auto|]. split; [rewrite baddrs_node; apply NoDup_singleton|]. split.
      + intros x Hx. rewrite baddrs_node in Hx. apply elem_of_list_singleton in Hx as ->. apply new_addr_fresh.
      + intros x Hx. rewrite baddrs_node in Hx. rewrite lookup_insert_ne; [reflexivity|]. intros E. apply Hx. rewrite <- E. left.
    - intros h v cs Hl. destruct (b_from_struct_ok al v cs h) as (a & h' & t' & Hc & Hr & Hv & Hb).
      exists a, h', t'. split; [exact Hc|]. split; [exact Hr|]. split; [exact Hv|].
      rewrite length_baddrs, carity_map, Hv, lit_bin_forest by exact Hl.
      rewrite (subtree_size_ok _ _ _ (reads_eval (LNode v cs))), (subtree_arity_ok _ _ _ (reads_eval (LNode v cs))).
      split; [|split; [reflexivity|apply kb_built, Hb]].
      rewrite <- (bin_size_map snd t'), Hv, bin_size_forest, lit_bin_forest by exact Hl. reflexivity.
    - intros h t a (par & H1 & H2) Ha HF. rewrite length_baddrs in *. eapply b_calculate_size_ok; eassumption.
    - intros h t a (par & H1 & H2) Ha HF _. rewrite length_baddrs in *.
      pose proof (b_calculate_arity_ok F h par t a H1 H2 Ha HF) as Har.
      apply baddr_root in Ha as (v & l & r & ->). destruct (b_children_queries h a v l r) as (_ & _ & _ & Hf & _); [exists par; auto|].
      rewrite Hf. eexists. split; [reflexivity|]. split; [|exact Har].
      destruct l as [|[x w] ll lr], r as [|[y w'] rl rr]; cbn; try discriminate. reflexivity.
    - intros t. rewrite length_baddrs. cbn. destruct t as [|a l r]; [cbn; lia|].
      destruct (forest_cases (BNode a l r)) as [[? _]|[x Hx]]; [discriminate|]. rewrite Hx, bin_size_forest, Hx. cbn.
      destruct x as [[b w] cs]. pose proof (rarity_lt_rsize (Rose (b, w) cs)). lia.
    - intros h t a [H1 H2] Ha. apply b_replace_root with (u := BLeaf) (t := t); [exact H1|exact Ha|exact I].
    - intros h t u a Ht [Hu1 Hu2] Hd Ha Hr _ HF. destruct (bin_find h t a Ht Ha) as (c & v & l & r & -> & Hs & Hac & Hin & Hsub & Hc).
      destruct Ht as [H1 H2].
      destruct (b_replace_ok h c (BNode (a, v) l r) a u H1 H2 eq_refl) as (h' & Hrep & R1 & R2 & R3); try assumption.
      { intros E. apply Hr, Hc, E. }
      exists h'. rewrite Hsub, Hs. split; [exact Hrep|]. split; [|split; [split; [exact R2|apply (NoDup_bplug _ _ H2)]|exact R3]].
      split; [exact R1|]. destruct (NoDup_bplug _ _ H2) as (N1 & N2 & N3). rewrite baddrs_bplug. apply NoDup_app. split; [exact Hu2|].
      split; [|exact N2]. intros x Hx Hxc. apply (Hd x Hx). rewrite baddrs_bplug. apply elem_of_app. auto.
    - intros h t u a Ht Ha. destruct (bin_find h t a Ht Ha) as (c & v & l & r & Et & Hs & Hac & Hin & Hsub & Hc).
      split; [rewrite Hs; reflexivity|]. split.
      + intros Hr. apply Hc in Hr. subst c. rewrite Hsub, Hs. auto.
      + intros Hr. split; [eapply root_not_sub; eassumption|]. rewrite Hsub, Hs, Et, !baddrs_bplug.
        apply perm_rot.
    - apply kb_deg.
    - intros h t a Ht Ha. destruct (bin_find h t a Ht Ha) as (c & v & l & r & Et & Hs & Hac & Hin & Hsub & Hc).
      cbn [cdeg binary_kind]. rewrite !Hs. cbn [bsub]. rewrite decide_True by reflexivity. split; [reflexivity|].
      destruct l as [|la ll lr], r as [|ra rl rr]; intros H0; try discriminate H0. reflexivity.
    - intros h t a Ht Ha. destruct (bin_find h t a Ht Ha) as (c & v & l & r & Et & Hs & Hac & Hin & Hsub & Hc).
      destruct (b_children_queries h a v l r Hin) as (_ & _ & _ & _ & _ & Hf & _). rewrite Hf. eexists. split; [reflexivity|].
      unfold bfull. rewrite Hs. destruct l as [|[x w] ll lr], r as [|[y w'] rl rr]; cbn; split; try discriminate; try tauto.
    - intros first h a. destruct first; reflexivity.
    - intros first h t u a b Ht [Hu1 Hu2] Hd Ha Hfull Hb HF. pose proof Ht as Ht0.
      destruct (bin_find h t a Ht Ha) as (c & v & l & r & Et & Hs & Hac & Hin & Hsub & Hc). subst t.
      assert (Hfree : l = BLeaf \/ r = BLeaf).
      { unfold bfull in Hfull. rewrite Hs in Hfull. destruct l, r; auto. destruct Hfull; exact I. }
      destruct Ht as [H1 H2]. rewrite badd_plug by exact Hac.
      set (l' := fst (bslots first u l r)). set (r' := snd (bslots first u l r)).
      assert (Hperm : Permutation (brose l' ++ brose r') (brose l ++ brose r ++ brose u)).
      { unfold l', r', bslots. destruct first; cbn [fst snd].
        - assert (brose (match r with BLeaf => l | _ => r end) = brose l ++ brose r) as ->.
          { destruct Hfree as [-> | ->]; [destruct r; reflexivity|]. cbn. rewrite app_nil_r. reflexivity. }
          rewrite (app_assoc (brose l) (brose r) (brose u)). apply Permutation_app_comm.
        - assert (brose (match l with BLeaf => r | _ => l end) = brose l ++ brose r) as ->.
          { destruct Hfree as [-> | ->]; [reflexivity|]. cbn. rewrite app_nil_r. destruct l; reflexivity. }
          rewrite (app_assoc (brose l) (brose r) (brose u)). reflexivity. }
      assert (Haddrs : Permutation (baddrs (bplug c (BNode (a, v) l' r'))) (baddrs (bplug c (BNode (a, v) l r)) ++ baddrs u)).
      { rewrite !baddrs_bplug, !baddrs_node, <- !(brose_addrs l'), <- (brose_addrs r'), <- (brose_addrs l), <- (brose_addrs r), <- (brose_addrs u).
        rewrite <- flat_map_app, Hperm, !flat_map_app. cbn. constructor. rewrite <- !app_assoc. do 2 apply Permutation_app_head.
        apply Permutation_app_comm. }
      assert (Hlink : exists h', (if first then b_prepend_child h (Some a) (Some b) else b_append_child h (Some a) (Some b)) = Ok (Some b, h') /\
         brep h' None (bplug c (BNode (a, v) l' r')) /\
         (forall x, x ∉ baddrs (bplug c (BNode (a, v) l r)) -> x ∉ baddrs u -> h' !! x = h !! x)).
      { destruct first; [apply b_prepend_ok|apply b_append_ok]; assumption. }
      destruct Hlink as (h' & Hl & Hrep & Hfr). exists h'. split; [exact Hl|].
      assert (Hnd : NoDup (baddrs (bplug c (BNode (a, v) l' r')))).
      { rewrite Haddrs. apply NoDup_app. split; [exact H2|]. split; [|exact Hu2]. intros x Hx Hxu. exact (Hd x Hxu Hx). }
      split; [split; assumption|]. split; [exact Hfr|].
      split. { destruct c as [|f c _] using rev_ind; [reflexivity|]. rewrite !bplug_app. destruct f as [[q w] x|[q w] x]; reflexivity. }
      split; [exact Haddrs|].
      assert (Ha' : a ∈ baddrs (bplug c (BNode (a, v) l' r'))) by (rewrite Haddrs; apply elem_of_app; auto).
      assert (Hs' : bsub a (bplug c (BNode (a, v) l' r')) = BNode (a, v) l' r') by (apply bsub_plug; [reflexivity|exact Hac]).
      rewrite (bdeg h' _ a (conj Hrep Hnd) Ha' v l' r' Hs').
      rewrite (bdeg h _ a Ht0 Ha v l r Hs). rewrite (Permutation_length Hperm).
      assert (Hlu : length (brose u) = 1) by (destruct u; [discriminate|reflexivity]).
      split; [rewrite !app_length, Hlu; lia|].
      destruct (bin_rose_pos h c a v l r Ht0) as (d & x & Hx & Hxc & _ & _ & Hpl).
      rewrite (carity_forest _ _ (Hpl (BNode (a, v) l' r') (Rose a (brose l' ++ brose r')) eq_refl)).
      rewrite (carity_forest _ _ (Hpl (BNode (a, v) l r) (Rose a (brose l ++ brose r)) eq_refl)).
      rewrite !rarity_plug. cbn [rarity]. rewrite (carity_brose u).
      rewrite (Permutation_length Hperm).
      assert (Hmax : list_max (map rarity (brose l' ++ brose r')) = max (list_max (map rarity (brose l ++ brose r))) (list_max (map rarity (brose u)))).
      { rewrite <- list_max_app, <- map_app, <- app_assoc. apply list_max_perm, Permutation_map, Hperm. }
      rewrite Hmax, !app_length, Hlu. lia.
    - intros h t k a r Ht Ha Hr HF. rewrite length_baddrs in HF.
      destruct (bin_find h t a Ht Ha) as (c & v & l & r0 & -> & _).
      destruct (bin_rose_pos h c a v l r0 Ht) as (d & x & Hx & _ & _ & (Hok & Hroot & Hsz) & _).
      destruct (rose_instance F im h _ k d x Hok ltac:(lia) eq_refl) as (it & Hit & H1 & H2 & H3 & _).
      rewrite Hr in Hroot. injection Hroot as ->. rewrite Hx in *. exists it. auto.
    - intros h t u a pos Ht Hu Ha HF Hst. rewrite length_baddrs in HF.
      destruct (bin_find h t a Ht Ha) as (c & v & l & r0 & -> & Hs & Hac & Hin & Hsub & Hc).
      destruct (bin_rose_pos h c a v l r0 Ht) as (d & x & Hx & _ & Hdc & (Hok & Hroot & Hsz) & Hpl).
      rewrite Hroot in Hst. rewrite <- Hx in Hst.
      destruct (forest_cases (bin_map fst u)) as [[Eu _]|[y Hy]].
      + destruct u; [|discriminate].
        destruct (rose_pop F im h _ d x pos None None Hok ltac:(lia) eq_refl Hst) as (pos' & Hup & H1 & H2 & H3 & _); [discriminate|].
        exists pos'. rewrite Hx in Hup. repeat (split; [assumption|]). discriminate.
      + pose proof Hu as [Hu1 Hu2]. pose proof (brep_ops_ok h u None Hu1 Hu2) as Hops. unfold brose in Hops. rewrite Hy in Hops.
        pose proof (Forall_inv Hops) as Hop. destruct y as [b ys]. apply ops_ok_unfold in Hop as (Hf & _).
        assert (Hb : baddr u = Some b).
        { destruct u as [|[b' w] ul ur]; [discriminate|]. cbn in Hy. injection Hy as -> _. reflexivity. }
        destruct (rose_update F im h _ d x (Rose b ys) pos Hok ltac:(lia) eq_refl Hst Hf) as (pos' & Hup & H1 & H2 & H3 & H4).
        cbn [label] in *. rewrite Hb. exists pos'. rewrite Hx in Hup. split; [exact Hup|]. split; [exact H1|]. split; [exact H2|]. split; [exact H3|].
        rewrite Hroot, Hsub. intros Hne b' h' [=<-] Ht' HF'. rewrite length_baddrs in HF'.
        assert (Hcne : c <> []) by (intros E; apply Hne; rewrite <- Hroot; apply Hc, E).
        pose proof (Hpl u (Rose b ys) Hy) as HR. destruct (bin_nav h' (bplug c u) _ (ex_intro _ None Ht') HR) as (Hok' & Hroot' & Hsz').
        assert (Hl : label (plug d (Rose b ys)) = label (plug d x)).
        { destruct d as [|f d _] using rev_ind; [destruct Hcne; apply Hdc; reflexivity|]. rewrite !plug_app. destruct f as [[? ?] ?]. reflexivity. }
        apply H4; [intros E; apply Hcne, Hdc, E| |lia]. rewrite <- Hl. exact Hok'.
    - intros h t l1 x l2 Ht HF Hp. rewrite length_baddrs in HF.
      assert (Hne : t <> BLeaf) by (intros ->; destruct l1; discriminate).
      destruct (bin_roots h t (ex_intro _ None Ht) Hne) as (a & u & Ha & Hu & Hsz & Hra & Hok & _).
      rewrite Ha. cbn [cpost binary_kind] in Hp. rewrite Hu in Hp. cbn [flat_map] in Hp. rewrite app_nil_r, <- postorder_map in Hp.
      eapply post_increment_ok; [exact Hok|rewrite rsize_map; lia|exact Hp].
    - intros t. cbn [cpost binary_kind]. unfold baddrs. apply Permutation_map. rewrite <- forest_labels.
      induction (bin_forest t) as [|x xs IH]; [reflexivity|]. cbn. rewrite IH. apply Permutation_app_tail. symmetry. apply pre_post_perm.
    - intros h t a Ht Ha. destruct (bin_find h t a Ht Ha) as (c & v & l & r & -> & Hs & Hac & Hin & Hsub & Hc).
      destruct (post_bplug c) as (l1 & l2 & Hp). exists (map fst l1), (map fst l2), (map fst (flat_map postorder (bin_forest l ++ bin_forest r))).
      cbn [cpost binary_kind]. rewrite Hs, Hsub, !Hp, !map_app. split; [reflexivity|]. split; [|reflexivity].
      cbn. rewrite app_nil_r, map_app. reflexivity.
    - intros h h' t a pos Ht Ht' Ha HF Hst. rewrite length_baddrs in HF.
      destruct (bin_find h t a Ht Ha) as (c & v & l & r & -> & _).
      destruct (bin_rose_pos h c a v l r Ht) as (d & x & Hx & Hxe & Hdc & (Hok & Hroot & Hsz) & Hpl).
      destruct (bin_nav h' _ (plug d x) (ex_intro _ None Ht')) as (Hok' & _).
      { apply Hpl. rewrite Hxe. reflexivity. }
      rewrite Hroot in *. rewrite <- Hx in *. eapply rose_stands; [exact Hok|exact Hok'|lia|reflexivity|exact Hst].
    - intros t u Hv. rewrite !length_baddrs, !carity_map, Hv. split; [|split; [reflexivity|]].
      + rewrite <- (bin_size_map snd t), Hv. apply bin_size_map.
      + destruct t as [|[? ?] ? ?], u as [|[? ?] ? ?]; try discriminate; [tauto|]. split; discriminate.
    - intros h h' t u a b (p1 & H1 & _) (p2 & H2 & _) Ha Hb HF _ _. rewrite length_baddrs in HF.
      rewrite (b_eq_ok t F h h' u p1 p2 a b H1 H2 Ha Hb HF). eexists. split; [reflexivity|]. apply bool_decide_eq_true.
    - intros t v cs Hl Hv. rewrite length_baddrs, carity_map, Hv, lit_bin_forest by exact Hl.
      rewrite (subtree_size_ok _ _ _ (reads_eval (LNode v cs))), (subtree_arity_ok _ _ _ (reads_eval (LNode v cs))).
      split; [|reflexivity]. rewrite <- (bin_size_map snd t), Hv, bin_size_forest, lit_bin_forest by exact Hl. reflexivity.
    - intros t v cs Hl Hv. destruct t as [|[a w] l r]; [|discriminate]. cbn in Hv. destruct cs as [|? [|? ?]]; discriminate.
    - intros h t a v cs Hl (par & H1 & _) Ha _. rewrite (b_eq_struct_ok v cs h par t a Hl H1 Ha).
      eexists. split; [reflexivity|]. apply bool_decide_eq_true.
  Qed.
End TreeBin.
