(** StarFailFacts.v: the failing construction of a result, for patterns with [star]. *)
From Verif Require Import Base Spec StructNode BinaryNode NaryNode Nav Policy Tree Fail Matcher Gen Star ResultFail StarFail StarResult.

(** With enough nodes [m] does the same as if nothing could fail. *)
Definition enough {H A} (m : attempt H A) (h : H) (x : A) (h' : H) : Prop :=
  exists n, forall k, m h (n + k) = Made x h' k.

Section Enough.
  Context {H : Type}.
  Lemma enough_give {A} (x : A) (h : H) : enough (give x) h x h.
  Proof. exists 0. reflexivity. Qed.
  Lemma enough_then {A B} (m : attempt H A) (f : A -> attempt H B) h x h1 y h2 : enough m h x h1 -> enough (f x) h1 y h2 -> enough (then_ m f) h y h2.
  Proof.
    intros [n Hn] [k Hk]. exists (n + k). intros j. unfold then_. rewrite <- Nat.add_assoc, Hn. apply Hk.
  Qed.
  Lemma enough_read {A} (r : H -> res A) h x : r h = Ok x -> enough (reading r) h x h.
  Proof. intros E. exists 0. intros k. unfold reading. rewrite E. reflexivity. Qed.
  Lemma enough_write (f : H -> res H) h h' : f h = Ok h' -> enough (writing f) h () h'.
  Proof. intros E. exists 0. intros k. unfold writing. rewrite E. reflexivity. Qed.
  Lemma enough_unwinding {A} f (m : attempt H A) h x h' : enough m h x h' -> enough (unwinding f m) h x h'.
  Proof. intros [n Hn]. exists n. intros k. unfold unwinding. rewrite Hn. reflexivity. Qed.
End Enough.

(** One step of the ordinary call. *)
Tactic Notation "step" hyp(E) "as" simple_intropattern(r) := match type of E with
  | mbind _ ?m = Ok _ => let Em := fresh "Em" in destruct m as [r|] eqn:Em; cbn [mbind res_bind] in E; [|discriminate]
  end.

Section Facts.
  Context {V Nd : Type}.
  Variable F : nat.
  Variable im : node_impl V Nd.
  Variable ti : try_impl V Nd.
  Variable al : allocator Nd.
  Variable late : bool.
  Variable like : gmap addr Nd -> ptr -> ptr -> ptr -> res (gmap addr Nd).
  Notation heap := (gmap addr Nd).
  Hypothesis Hti : forall h v k a h', ni_from_value im al h v = Ok (a, h') -> ti_value ti late al v h (S k) = Made a h' k.
  Notation holding := (holding F im).
  Notation ti_value := (ti_value ti late al).
  Notation xresult := (xresult F im al like).
  Notation xresult_try := (xresult_try F im ti al late like).

  Lemma enough_holding {A} p (m : attempt heap A) h x h' : enough m h x h' -> enough (holding p m) h x h'.
  Proof. intros [n Hn]. exists n. intros k. unfold ResultFail.holding. rewrite Hn. reflexivity. Qed.
  Lemma enough_create h v a h' : ni_from_value im al h v = Ok (a, h') -> enough (ti_value v) h a h'.
  Proof. intros E. exists 1. intros k. apply Hti, E. Qed.

  (** *** The generative navigator *)
  Section Generate.
    Context {St : Type}.
    Variable pred : St -> heap -> mptr -> res (St * mptr * bool).
    Variable back : St -> heap -> res heap.
    Variable root : mptr.
    Lemma navigate_enough nav attach st h node st' h' r : gen_navigate im al nav attach st h node = Ok (st', h', r) ->
      enough (gen_navigate_try im ti al late back nav attach st node) h (st', r) h'.
    Proof.
      unfold gen_navigate, gen_navigate_try. intros E. step E as u0. eapply enough_then; [apply enough_read; first [eassumption|reflexivity]|].
      step E as [st1 r1]. eapply enough_then; [apply enough_read; first [eassumption|reflexivity]|]. cbv beta iota. destruct (mp_bool r1).
      - step E as [r2 h1]. eapply enough_then.
        { destruct (mp_get 1 r1); [injection Em1 as <- <-; apply enough_give|]. step Em1 as v. step Em1 as [a1 h3]. injection Em1 as <- <-.
          eapply enough_then; [apply enough_read; first [eassumption|reflexivity]|]. eapply enough_then; [apply enough_unwinding, enough_create; eassumption|]. apply enough_give. }
        cbv beta. destruct (mp_is_assigned 1 r2); [|injection E as <- <- <-; apply enough_give]. step E as ?. injection E as <- <- <-.
        eapply enough_then; [apply enough_write; first [eassumption|reflexivity]|]. apply enough_give.
      - injection E as <- <- <-. apply enough_give.
    Qed.
    Lemma process_enough st h node open st' h' o : gen_process F im al like pred root st h node open = Ok (st', h', o) ->
      enough (gen_process_try F im ti al late like pred back root st node open) h (st', o) h'.
    Proof.
      unfold gen_process, gen_process_try. intros E. step E as [[st1 h1] fc]. injection E as <- <- <-.
      eapply enough_then; [apply navigate_enough; eassumption|]. apply enough_give.
    Qed.
    Lemma increment_enough st h open st' h' c o : gen_increment F im al like pred root st h open = Ok (st', h', c, o) ->
      enough (gen_increment_try F im ti al late like pred back root st open) h (st', c, o) h'.
    Proof.
      unfold gen_increment, gen_increment_try. intros E. destruct open as [|p open]; [injection E as <- <- <- <-; apply enough_give|].
      step E as [[st1 h1] s]. step E as [[st2 h2] o2]. injection E as <- <- <- <-.
      eapply enough_then; [apply navigate_enough; eassumption|]. eapply enough_then; [apply process_enough; eassumption|]. apply enough_give.
    Qed.
    Lemma loop_enough n : forall st h cur open st' h', gen_loop F im al like pred root n st h cur open = Ok (st', h') ->
      enough (gen_loop_try F im ti al late like pred back root n st cur open) h st' h'.
    Proof.
      induction n as [|n IH]; intros st h cur open st' h' E; [discriminate|]. cbn [gen_loop gen_loop_try] in *. destruct (mp_bool cur).
      - step E as [[[st1 h1] c1] o1]. eapply enough_then; [apply increment_enough; eassumption|]. apply IH, E.
      - injection E as <- <-. apply enough_give.
    Qed.
    Lemma generate_enough st h st' h' : generate F im al like pred root st h = Ok (st', h') ->
      enough (generate_try F im ti al late like pred back root st) h st' h'.
    Proof.
      unfold generate, generate_try, gen_start, gen_start_try. intros E. step E as [[st1 h1] o]. step Em as [[st2 h2] ns].
      apply enough_then with (st1, o) h1; [|apply loop_enough; eassumption]. eapply enough_then; [apply navigate_enough; eassumption|]. apply process_enough. exact Em.
    Qed.
  End Generate.

  (** *** The parts of the result *)
  Lemma keep_enough check n : forall target child h h', keep_assigning im al like n check target child h = Ok h' ->
    enough (keep_assigning_try im ti al late like n check target child) h () h'.
  Proof.
    induction n as [|n IH]; intros target child h h' E; [discriminate|]. cbn [keep_assigning keep_assigning_try] in *.
    destruct child as [c|]; [|injection E as <-; apply enough_give]. step E as v. eapply enough_then; [apply enough_read; first [eassumption|reflexivity]|]. cbv beta.
    destruct (negb (check v)); [apply IH, E|]. step E as [a h1]. do 4 step E as ?.
    eapply enough_then; [apply enough_create; eassumption|]. eapply enough_then; [apply enough_write; first [eassumption|reflexivity]|].
    eapply enough_then; [apply enough_read; first [eassumption|reflexivity]|]. eapply enough_then; [apply IH; eassumption|]. eapply enough_then; [apply enough_read; first [eassumption|reflexivity]|]. apply IH, E.
  Qed.
  Lemma no_children_enough q vm m h x h' : no_children_result F im al like q vm m h = Ok (x, h') -> enough (no_children_try F im ti al late like q vm m) h x h'.
  Proof.
    unfold no_children_result, no_children_try. intros E. destruct q.
    all: try (injection E as <- <-; apply enough_give).
    all: step E as v; step E as [a h1]; eapply enough_then; [apply enough_read; first [eassumption|reflexivity]|]; eapply enough_then; [apply enough_create; eassumption|].
    all: try (injection E as <- <-; apply enough_give).
    all: step E as ?; step E as ?; injection E as <- <-; apply enough_holding; eapply enough_then; [apply enough_read; first [eassumption|reflexivity]|]; eapply enough_then; [apply keep_enough; eassumption|]; apply enough_give.
  Qed.
  Lemma reluctant_enough n : forall cloned ref x h cloned' h', reluctant_attach im al like n cloned ref x h = Ok (cloned', h') ->
    enough (reluctant_attach_try im ti al late like n cloned ref x) h cloned' h'.
  Proof.
    induction n as [|n IH]; intros cloned ref x h cloned' h' E; [discriminate|]. cbn [reluctant_attach reluctant_attach_try] in *.
    step E as r. eapply enough_then; [apply enough_read; first [eassumption|reflexivity]|]. cbv beta. destruct r as [p|]; [|discriminate]. destruct (cloned !! p) as [y|].
    - step E as ?. injection E as <- <-. eapply enough_then; [apply enough_write; first [eassumption|reflexivity]|]. apply enough_give.
    - step E as v. step E as [a h1]. step E as ?. eapply enough_then; [apply enough_read; first [eassumption|reflexivity]|]. eapply enough_then; [apply enough_create; eassumption|].
      eapply enough_then; [apply enough_write; first [eassumption|reflexivity]|]. apply IH, E.
  Qed.

  Section Fixes.
    Variable rt : xpat V -> xstate -> attempt heap ptr.
    Variable m : ptr.
    Fixpoint fattach (c : xpat V) (sc : xstate) (a : addr) : attempt heap unit :=
      match c with
      | XNil => give ()
      | XN _ _ _ cn =>
          then_ (match xs_matched sc with
                 | None => give ()
                 | Some _ => then_ (rt c sc) (fun x => writing (fun h => like h (Some a) x (xs_matched sc)))
                 end) (fun _ =>
          fattach cn (xs_next sc) a)
      end.
    Definition fclone fc sc : attempt heap ptr :=
      then_ (reading (fun h => ni_value im h m)) (fun v =>
      then_ (ti_value v) (fun a =>
      holding (Some a) (then_ (fattach fc sc a) (fun _ => give (Some a))))).
    Fixpoint fstolen (c : xpat V) (sc : xstate) (found : bool) (acc : ptr) : attempt heap (bool * ptr) :=
      match c with
      | XNil => give (found, acc)
      | XN _ _ _ cn =>
          if ptr_eqb (xs_matched sc) m
          then then_ (holding acc (rt c sc)) (fun x =>
               then_ (writing (fun h => deallocate im F h acc)) (fun _ =>
               fstolen cn (xs_next sc) true x))
          else fstolen cn (xs_next sc) found acc
      end.
    Fixpoint fempty (c : xpat V) (sc : xstate) : bool :=
      match c with
      | XNil => true
      | XN _ _ _ cn => is_null (xs_matched sc) && fempty cn (xs_next sc)
      end.
    Fixpoint ftargets (c : xpat V) (sc : xstate) (st : gmap addr ptr * Z) : attempt heap (gmap addr ptr * Z) :=
      match c with
      | XNil => give st
      | XN _ _ _ cn =>
          match xs_matched sc with
          | None => ftargets cn (xs_next sc) st
          | Some t =>
              then_ (unwinding (targets_back F im st) (rt c sc)) (fun x =>
              then_ (writing (fun h => match fst st !! t with Some old => deallocate im F h old | None => Ok h end)) (fun _ =>
              ftargets cn (xs_next sc) (<[t := x]> (fst st), (snd st + 1)%Z)))
          end
      end.
    Fixpoint fpath (c : xpat V) (sc : xstate) (cloned : gmap addr ptr) : attempt heap unit :=
      match c with
      | XNil => give ()
      | XN _ _ _ cn =>
          then_ (rt c sc) (fun x =>
          then_ (reluctant_attach_try im ti al late like F cloned (xs_matched sc) x) (fun cloned' =>
          fpath cn (xs_next sc) cloned'))
      end.
    Definition fpresent (q : quantifier) (vm : V -> bool) (o a : addr) fc sc : attempt heap ptr :=
      match q with
      | QReluctant => then_ (fpath fc sc {[ o := Some a ]}) (fun _ => give (Some a))
      | _ =>
          then_ (ftargets fc sc (∅, 0%Z)) (fun st =>
          then_ (generate_try F im ti al late like (check_target im q vm) (targets_back F im) (mp_make [Some o; Some a]) st) (fun st' =>
          then_ (writing (targets_back F im st')) (fun _ => give (Some a))))
      end.
  End Fixes.
  Lemma try_one vm fc ns m cut sc sn : xresult_try (XN XOne vm fc ns) (XS (Some m) cut sc sn) = fclone xresult_try (Some m) fc sc.
  Proof. reflexivity. Qed.
  Lemma try_cpt vm fc ns m cut sc sn : xresult_try (XN XCapture vm fc ns) (XS (Some m) cut sc sn) = xresult_try fc sc.
  Proof. reflexivity. Qed.
  Lemma try_opt q vm fc ns m cut sc sn : xresult_try (XN (XOpt q) vm fc ns) (XS (Some m) cut sc sn) =
    then_ (if xmay_steal fc then fstolen xresult_try (Some m) fc sc false None else give (false, None)) (fun '(b, x) =>
    if b : bool then give x else fclone xresult_try (Some m) fc sc).
  Proof. reflexivity. Qed.
  Lemma try_star q vm fc ns m cut sc sn : xresult_try (XN (XStar q) vm fc ns) (XS (Some m) cut sc sn) =
    if fempty fc sc then no_children_try F im ti al late like q vm (Some m)
    else
      then_ (if xmay_steal fc then fstolen xresult_try (Some m) fc sc false None else give (false, None)) (fun '(b, x) =>
      if b : bool then give x
      else
        then_ (reading (fun h => ni_value im h (Some m))) (fun v =>
        then_ (ti_value v) (fun a => holding (Some a) (fpresent xresult_try q vm m a fc sc)))).
  Proof. destruct q; reflexivity. Qed.

  (** *** The whole *)
  Notation xattach := (xattach F im al like).
  Notation xstolen := (xstolen F im al like).
  Notation xtargets := (xtargets F im al like).
  Notation xpath := (xpath F im al like).
  Notation xclone := (xclone F im al like).
  Lemma clone_enough m fc sc h x h' : (forall a h h', xattach fc sc a h = Ok h' -> enough (fattach xresult_try fc sc a) h () h') ->
    xclone m fc sc h = Ok (x, h') -> enough (fclone xresult_try m fc sc) h x h'.
  Proof.
    intros Ha E. unfold StarResult.xclone in E. unfold fclone. step E as v. step E as [a h1]. step E as h2. injection E as <- <-.
    eapply enough_then; [apply enough_read; eassumption|]. eapply enough_then; [apply enough_create; eassumption|].
    apply enough_holding. eapply enough_then; [apply Ha; eassumption|]. apply enough_give.
  Qed.
  Lemma result_enough (p : xpat V) :
    (forall s h x h', xresult p s h = Ok (x, h') -> enough (xresult_try p s) h x h') /\
    (forall s a h h', xattach p s a h = Ok h' -> enough (fattach xresult_try p s a) h () h') /\
    (forall own s found acc h b x h', xstolen own p s found acc h = Ok (b, x, h') -> enough (fstolen xresult_try own p s found acc) h (b, x) h') /\
    (forall s st h st' h', xtargets p s st h = Ok (st', h') -> enough (ftargets xresult_try p s st) h st' h') /\
    (forall s cl h h', xpath p s cl h = Ok h' -> enough (fpath xresult_try p s cl) h () h').
  Proof.
    induction p as [|k vm fc (IH1 & IH2 & IH3 & IH4 & IH5) ns (_ & IN2 & IN3 & IN4 & IN5)].
    { split; [intros s h x h' [= <- <-]; apply enough_give|]. split; [intros s a h h' [= <-]; apply enough_give|]. split; [intros ? s ? ? h b x h' [= <- <- <-]; apply enough_give|].
      split; [intros s st h st' h' [= <- <-]; apply enough_give|]. intros s cl h h' [= <-]; apply enough_give. }
    assert (H1 : forall s h x h', xresult (XN k vm fc ns) s h = Ok (x, h') -> enough (xresult_try (XN k vm fc ns) s) h x h').
    { intros s h x h'. destruct s as [|[m|] cut sc sn]; [intros [= <- <-]; apply enough_give| |intros [= <- <-]; apply enough_give].
      assert (Hif : forall h b x h1, (if xmay_steal fc then xstolen (Some m) fc sc false None h else Ok (false, None, h)) = Ok (b, x, h1) ->
        enough (if xmay_steal fc then fstolen xresult_try (Some m) fc sc false None else give (false, None)) h (b, x) h1).
      { intros h0 b y h1. destruct (xmay_steal fc); [apply IH3|]. intros [= <- <- <-]. apply enough_give. }
      destruct k as [|q| |q].
      - rewrite result_one, try_one. apply clone_enough, IH2.
      - rewrite result_opt, try_opt. intros E. step E as [[b y] h1]. eapply enough_then; [apply Hif; eassumption|]. cbv beta iota. destruct b.
        + injection E as <- <-. apply enough_give.
        + eapply clone_enough; [apply IH2|exact E].
      - rewrite result_cpt, try_cpt. apply IH1.
      - rewrite result_star, try_star. change (fempty fc sc) with (xempty fc sc). destruct (xempty fc sc); [apply no_children_enough|].
        intros E. step E as [[b y] h1]. eapply enough_then; [apply Hif; eassumption|]. cbv beta iota. destruct b.
        { injection E as <- <-. apply enough_give. }
        step E as v. step E as [a h2]. eapply enough_then; [apply enough_read; eassumption|]. eapply enough_then; [apply enough_create; eassumption|].
        apply enough_holding. unfold fpresent.
        assert (Hq : q = QReluctant \/ q <> QReluctant) by (destruct q; auto; right; discriminate). destruct Hq as [->|Hq].
        + step E as h3. injection E as <- <-. eapply enough_then; [apply IH5; eassumption|]. apply enough_give.
        + assert (E' : ('(tg, n, h3) ← xtargets fc sc (∅, 0%Z) h2;
            '(tg', _, h4) ← generate F im al like (check_target im q vm) (mp_make [Some m; Some a]) (tg, n) h3;
            h5 ← release_all F im (map_to_list tg') h4; Ok (Some a, h5)) = Ok (x, h')) by (destruct q; [exact E|congruence|exact E..]). clear E.
          step E' as [[tg n] h3]. step E' as [[tg' n'] h4]. step E' as h5. injection E' as <- <-.
          assert (G : enough (then_ (ftargets xresult_try fc sc (∅, 0%Z)) (fun st =>
            then_ (generate_try F im ti al late like (check_target im q vm) (targets_back F im) (mp_make [Some m; Some a]) st) (fun st' =>
            then_ (writing (targets_back F im st')) (fun _ => give (Some a))))) h2 (Some a) h5).
          { eapply enough_then; [apply IH4; eassumption|]. eapply enough_then; [apply generate_enough; eassumption|].
            eapply enough_then; [apply enough_write; eassumption|]. apply enough_give. }
          destruct q; [exact G|congruence|exact G..]. }
    split; [exact H1|]. split; [|split; [|split]].
    - intros s a h h' E. cbn [StarResult.xattach fattach] in *. step E as h1. eapply enough_then; [|apply IN2, E].
      destruct (xs_matched s); [|injection Em as <-; apply enough_give]. step Em as [x h2]. eapply enough_then; [apply H1; eassumption|]. apply enough_write. exact Em.
    - intros own s found acc h b x h' E. cbn [StarResult.xstolen fstolen] in *. destruct (ptr_eqb (xs_matched s) own); [|apply IN3, E].
      step E as [y h1]. step E as h2. eapply enough_then; [apply enough_holding, H1; eassumption|]. eapply enough_then; [apply enough_write; eassumption|]. apply IN3, E.
    - intros s st h st' h' E. cbn [StarResult.xtargets ftargets] in *. destruct (xs_matched s) as [t|]; [|apply IN4, E].
      step E as [y h1]. step E as h2. eapply enough_then; [apply enough_unwinding, H1; eassumption|]. eapply enough_then; [apply enough_write; exact Em0|]. apply IN4, E.
    - intros s cl h h' E. cbn [StarResult.xpath fpath] in *. step E as [y h1]. step E as [cl' h2].
      eapply enough_then; [apply H1; eassumption|]. eapply enough_then; [apply reluctant_enough; eassumption|]. apply IN5, E.
  Qed.
End Facts.
