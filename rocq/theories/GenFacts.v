(** GenFacts.v: the tree that grows while a breadth-first iterator over a
    generative navigator runs, without memory.  [T] is what was generated so
    far; [comp f P T] is what it will be, given the decisions [f]. *)
From Verif Require Import Base Spec Rep RoseFacts NavFacts.

Section Grow.
  Context {V C : Type}.
  Notation tree := (rose (addr * V)).

  Inductive dec : Type := Skip | Keep | Use (u : C).
  (** A node of the result: the node of the target it stands for, and its value
      or the tree put in its place. *)
  Notation sl := (addr * (V + C))%type.
  Notation gl := (addr * sl)%type.

  Section F.
    Variable f : addr -> dec.
    Fixpoint grow (t : tree) : rose sl :=
      match t with
      | Rose x cs => Rose (fst x, inl (snd x))
          (flat_map (fun c => match f (raddr c) with
                              | Skip => []
                              | Keep => [grow c]
                              | Use u => [Rose (raddr c, inr u) []]
                              end) cs)
      end.
    Definition grow1 (c : tree) : list (rose sl) :=
      match f (raddr c) with Skip => [] | Keep => [grow c] | Use u => [Rose (raddr c, inr u) []] end.
    Definition growl (l : list tree) : list (rose sl) := flat_map grow1 l.
  End F.
  Lemma grow_unfold f x cs : grow f (Rose x cs) = Rose (fst x, inl (snd x)) (growl f cs).
  Proof. reflexivity. Qed.

  (** What is still to come at a generated node: its address, the children of
      the node it stands for, the siblings after it; [e_use]: it was put there. *)
  Record entry : Type := Entry { e_main : addr; e_gen : addr; e_kids : list tree; e_fol : list tree; e_use : bool }.
  Definition pkids (P : list entry) (g : addr) : list tree :=
    flat_map (fun e => if decide (e_gen e = g) then (if e_use e then [] else e_kids e) else []) P.
  Definition pfol (P : list entry) (g : addr) : list tree :=
    flat_map (fun e => if decide (e_gen e = g) then e_fol e else []) P.

  Section Comp.
    Variable f : addr -> dec.
    Variable P : list entry.
    Fixpoint comp (t : rose gl) : list (rose sl) :=
      match t with
      | Rose x ts => Rose (snd x) (flat_map comp ts ++ growl f (pkids P (fst x))) :: growl f (pfol P (fst x))
      end.
  End Comp.
  Definition keys (t : rose gl) : list addr := map fst (preorder t).

  (** The same is to come at [g]. *)
  Definition same (f : addr -> dec) (P P' : list entry) (g : addr) : Prop :=
    growl f (pkids P g) = growl f (pkids P' g) /\ growl f (pfol P g) = growl f (pfol P' g).
  Lemma comp_ext f P P' t : (forall g, g ∈ keys t -> same f P P' g) -> comp f P t = comp f P' t.
  Proof.
    induction t as [x ts IH] using rose_ind'. intros H. cbn. destruct (H (fst x)) as [-> ->]; [left|]. f_equal. f_equal. f_equal.
    assert (Hs : forall t g, t ∈ ts -> g ∈ keys t -> same f P P' g).
    { intros t g Ht Hg. apply H. unfold keys in *. cbn. right. apply elem_of_list_fmap in Hg as (y & -> & Hy).
      apply elem_of_list_fmap. exists y. split; [reflexivity|]. apply elem_of_flat_map. eauto. }
    clear H. induction ts as [|t ts IHts]; [reflexivity|]. cbn. apply Forall_cons in IH as [IH1 IH2]. f_equal.
    - apply IH1. intros g Hg. eapply Hs; [left|exact Hg].
    - apply IHts; [exact IH2|]. intros t' g Ht'. apply Hs. right. exact Ht'.
  Qed.

  Definition ckeys (c : ctx gl) : list addr :=
    flat_map (fun fr => match fr with (ls, a, rs) => fst a :: flat_map keys ls ++ flat_map keys rs end) c.
  Lemma keys_rose x ts : keys (Rose x ts) = fst x :: flat_map keys ts.
  Proof. unfold keys. cbn. f_equal. induction ts as [|t ts IH]; [reflexivity|]. cbn. rewrite map_app, IH. reflexivity. Qed.
  Lemma comp_map_ext f P P' (ts : list (rose gl)) :
    (forall g, g ∈ flat_map keys ts -> same f P P' g) ->
    flat_map (comp f P) ts = flat_map (comp f P') ts.
  Proof.
    intros H. induction ts as [|t ts IH]; [reflexivity|]. cbn in *. f_equal.
    - apply comp_ext. intros g Hg. apply H. set_solver +Hg.
    - apply IH. intros g Hg. apply H. set_solver +Hg.
  Qed.
  Lemma comp_plug f P P' c s s' : (forall g, g ∈ ckeys c -> same f P P' g) ->
    comp f P s = comp f P' s' -> comp f P (plug c s) = comp f P' (plug c s').
  Proof.
    revert s s'. induction c as [|[[ls a] rs] c IH]; intros s s' H Hs; [exact Hs|]. cbn [plug]. apply IH.
    { intros g Hg. apply H. cbn. set_solver +Hg. }
    cbn [comp]. destruct (H (fst a)) as [-> ->]; [cbn; left|]. f_equal. f_equal. f_equal.
    rewrite !flat_map_app. cbn. rewrite Hs.
    rewrite (comp_map_ext f P P' ls), (comp_map_ext f P P' rs); [reflexivity| |]; intros g Hg; apply H; cbn; set_solver +Hg.
  Qed.
  Lemma keys_plug c s : Permutation (keys (plug c s)) (keys s ++ ckeys c).
  Proof.
    revert s. induction c as [|[[ls a] rs] c IH]; intros s; cbn [plug]; [cbn; rewrite app_nil_r; reflexivity|].
    rewrite IH, keys_rose. change (ckeys ((ls, a, rs) :: c)) with ((fst a :: flat_map keys ls ++ flat_map keys rs) ++ ckeys c).
    rewrite flat_map_app. cbn. solve_Permutation.
  Qed.

  (** *** Pending entries *)
  Lemma pkids_out P g : g ∉ map e_gen P -> pkids P g = [] /\ pfol P g = [].
  Proof.
    induction P as [|e P IH]; intros H; [split; reflexivity|]. cbn in *. unfold pkids, pfol in *. cbn.
    rewrite !decide_False by (intros <-; apply H; left). apply IH. intros Hn. apply H. right. exact Hn.
  Qed.
  Lemma pkids_in P e : NoDup (map e_gen P) -> e ∈ P ->
    pkids P (e_gen e) = (if e_use e then [] else e_kids e) /\ pfol P (e_gen e) = e_fol e.
  Proof.
    induction P as [|e' P IH]; intros Hnd He; [apply elem_of_nil in He as []|]. cbn in Hnd. apply NoDup_cons in Hnd as [Hn Hnd].
    unfold pkids, pfol in *. cbn. apply elem_of_cons in He as [->|He].
    - rewrite !decide_True by reflexivity. destruct (pkids_out P (e_gen e') Hn) as [E1 E2]. unfold pkids, pfol in *. rewrite E1, E2.
      rewrite !app_nil_r. split; reflexivity.
    - rewrite !decide_False by (intros E; apply Hn; rewrite E; apply elem_of_list_fmap; eauto). apply IH; assumption.
  Qed.
  Lemma pkids_cons e P g : e_gen e <> g -> pkids (e :: P) g = pkids P g /\ pfol (e :: P) g = pfol P g.
  Proof. intros H. unfold pkids, pfol. cbn. rewrite !decide_False by exact H. split; reflexivity. Qed.

  (** *** Searching the next accepted node *)
  Section Scan.
    Context {St : Type}.
    Variable apr : St -> addr -> St * dec.
    Fixpoint scan (st : St) (l : list tree) : St * list (addr * dec) * option (tree * list tree * dec) :=
      match l with
      | [] => (st, [], None)
      | x :: l' =>
          let '(st1, d) := apr st (raddr x) in
          match d with
          | Skip => let '(st2, tr, r) := scan st1 l' in (st2, (raddr x, Skip) :: tr, r)
          | _ => (st1, [(raddr x, d)], Some (x, l', d))
          end
      end.
    (** The calls of the predicate, in order. *)
    Inductive calls : St -> list (addr * dec) -> St -> Prop :=
    | CNil st : calls st [] st
    | CCons st m st1 d tr st2 : apr st m = (st1, d) -> calls st1 tr st2 -> calls st ((m, d) :: tr) st2.
    Lemma calls_app st tr st1 tr' st2 : calls st tr st1 -> calls st1 tr' st2 -> calls st (tr ++ tr') st2.
    Proof. induction 1; cbn; [auto|]. intros. econstructor; eauto. Qed.
    Lemma scan_calls st l st' tr r : scan st l = (st', tr, r) -> calls st tr st'.
    Proof.
      revert st tr. induction l as [|x l IH]; intros st tr E; cbn in E; [injection E as <- <- _; constructor|].
      destruct (apr st (raddr x)) as [st1 d] eqn:Ea. destruct d.
      - destruct (scan st1 l) as [[st2 tr2] r2] eqn:Es. injection E as <- <- <-. econstructor; [exact Ea|eauto].
      - injection E as <- <- <-. econstructor; [exact Ea|constructor].
      - injection E as <- <- <-. econstructor; [exact Ea|constructor].
    Qed.
    Definition found (r : option (tree * list tree * dec)) : list tree := match r with None => [] | Some (x, l', _) => x :: l' end.
    Definition agree (f : addr -> dec) (tr : list (addr * dec)) : Prop := Forall (fun md => f (fst md) = snd md) tr.
    Lemma scan_split st l st' tr r : scan st l = (st', tr, r) ->
      exists sk, l = sk ++ found r /\ map fst tr = map raddr sk ++ match r with None => [] | Some (x, _, _) => [raddr x] end /\
        match r with None => True | Some (x, _, d) => d <> Skip /\ (raddr x, d) ∈ tr end /\
        (forall f, agree f tr -> growl f l = match r with None => [] | Some (x, l', _) => grow1 f x ++ growl f l' end).
    Proof.
      revert st tr. induction l as [|x l IH]; intros st tr E; cbn in E.
      { injection E as <- <- <-. exists []. repeat split. }
      destruct (apr st (raddr x)) as [st1 d] eqn:Ea. destruct d.
      - destruct (scan st1 l) as [[st2 tr2] r2] eqn:Es. injection E as <- <- <-. destruct (IH _ _ Es) as (sk & -> & Htr & Hr & Hg).
        exists (x :: sk). cbn. rewrite Htr. split; [reflexivity|]. split; [reflexivity|]. split.
        + destruct r2 as [[[y l'] d]|]; [|exact I]. destruct Hr as [Hd Hin]. split; [exact Hd|right; exact Hin].
        + intros f Hf. inversion Hf as [|? ? Hx Hf']; subst. rewrite <- (Hg f Hf'). unfold grow1. cbn in Hx. rewrite Hx. reflexivity.
      - injection E as <- <- <-. exists []. cbn. split; [reflexivity|]. split; [reflexivity|]. split; [split; [discriminate|left]|]. reflexivity.
      - injection E as <- <- <-. exists []. cbn. split; [reflexivity|]. split; [reflexivity|]. split; [split; [discriminate|left]|]. reflexivity.
    Qed.
  End Scan.
  (** Decisions that agree with a list of calls exist. *)
  Definition decided (tr : list (addr * dec)) (m : addr) : dec :=
    match list_find (fun md => fst md = m) tr with Some (_, md) => snd md | None => Skip end.
  Lemma decided_agree tr : NoDup (map fst tr) -> agree (decided tr) tr.
  Proof.
    intros Hnd. apply Forall_forall. intros [m d] Hin. unfold decided. cbn.
    destruct (list_find_elem_of (fun md : addr * dec => fst md = m) tr (m, d) Hin eq_refl) as [[i [m' d']] Hf]. rewrite Hf. cbn.
    apply list_find_Some in Hf as (Hi & Hm & _). cbn in Hm. subst m'.
    apply elem_of_list_lookup in Hin as [j Hj].
    assert (i = j).
    { eapply (NoDup_lookup (map fst tr)); [exact Hnd| |]; rewrite list_lookup_fmap; [rewrite Hi|rewrite Hj]; reflexivity. }
    subst j. rewrite Hi in Hj. injection Hj as ->. reflexivity.
  Qed.
  Lemma agree_app f tr tr' : agree f (tr ++ tr') <-> agree f tr /\ agree f tr'.
  Proof. apply Forall_app. Qed.
End Grow.
Arguments dec C : clear implicits.
Arguments entry V : clear implicits.
