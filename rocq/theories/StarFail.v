(** StarFail.v: model of pattern::assign_result and assign_mark for patterns with
    [star] (multi_matcher.hpp), when the creation of a node fails (see Fail.v for the
    two ways in which it may).  ResultFail.v is the same for patterns without [star].

    Not modelled: failures of the containers (the unordered_maps of multi_matcher.hpp
    188 and 222, the deque of breadth_first.hpp). *)
From Verif Require Import Base StructNode BinaryNode NaryNode Nav Policy Tree Fail Matcher Gen Star ResultFail.

(** Destructors [f] that run when an exception passes [m]. *)
Definition unwinding {H A} (f : H -> res H) (m : attempt H A) : attempt H A :=
  fun h k => match m h k with
             | Lost h1 => match f h1 with Ok h2 => Lost h2 | Err e => Wrong e end
             | r => r
             end.

(** *** generative_navigator.hpp and breadth_first.hpp over it, see Gen.v *)
Section GenTry.
  Context {V Nd : Type}.
  Variable F : nat.
  Variable im : node_impl V Nd.
  Variable ti : try_impl V Nd.
  Variable al : allocator Nd.
  Variable late : bool.
  Variable like : gmap addr Nd -> ptr -> ptr -> ptr -> res (gmap addr Nd).
  Notation heap := (gmap addr Nd).
  Context {St : Type}.
  Variable pred : St -> heap -> mptr -> res (St * mptr * bool).
  (** What the objects that hold the state of the predicate give back when an
      exception passes (multi_matcher.hpp 222 [children_targets]). *)
  Variable back : St -> heap -> res heap.
  Variable root : mptr.

  (** generative_navigator.hpp 57-75, see [gen_navigate]. *)
  Definition gen_navigate_try (navigate : heap -> St -> mptr -> res (St * mptr))
      (attach : heap -> ptr -> ptr -> ptr -> res heap) (st : St) (node : mptr) : attempt heap (St * mptr) :=
    then_ (reading (fun _ => guard_res (mp_all_valid node))) (fun _ =>
    then_ (reading (fun h => navigate h st node)) (fun '(st1, r) =>
    if mp_bool r then
      then_ (match mp_get 1 r with
             | None => then_ (reading (fun h => ni_value im h (mp_main r))) (fun v =>
                       then_ (unwinding (back st1) (ti_value ti late al v)) (fun a => give (mp_assign 1 (Some a) r)))
             | Some _ => give r
             end) (fun r1 =>
      if mp_is_assigned 1 r1
      then then_ (writing (fun h => attach h (mp_get 1 node) (mp_get 1 r1) (mp_main r1))) (fun _ => give (st1, r1))
      else give (st1, r1))
    else give (st1, r))).
  (** generative_navigator.hpp 87-104 *)
  Definition gen_next_try := gen_navigate_try (m_next F im pred root) (attach_sibling im like).
  Definition gen_first_try := gen_navigate_try (m_first F im pred root) like.
  (** breadth_first.hpp 90-95, 85-119, 30-49 and multi_matcher.hpp 257-261: see
      [gen_process], [gen_start], [gen_increment], [gen_loop], [generate]. *)
  Definition gen_process_try (st : St) (node : mptr) (open : list mptr) : attempt heap (St * list mptr) :=
    then_ (gen_first_try st node) (fun '(st1, fc) => give (st1, if mp_bool fc then open ++ [fc] else open)).
  Definition gen_start_try (st : St) : attempt heap (St * list mptr) :=
    then_ (gen_next_try st root) (fun '(st1, ns) => gen_process_try st1 root (if mp_bool ns then [ns] else [])).
  Definition gen_increment_try (st : St) (open : list mptr) : attempt heap (St * mptr * list mptr) :=
    match open with
    | [] => give (st, mp_null root, [])
    | result :: rest =>
        then_ (gen_next_try st result) (fun '(st1, sibling) =>
        then_ (gen_process_try st1 result (if mp_bool sibling then sibling :: rest else rest)) (fun '(st2, open2) =>
        give (st2, result, open2)))
    end.
  Fixpoint gen_loop_try (n : nat) (st : St) (cur : mptr) (open : list mptr) : attempt heap St :=
    match n with
    | 0 => fun _ _ => Wrong OutOfFuel
    | S n =>
        if mp_bool cur
        then then_ (gen_increment_try st open) (fun '(st1, cur1, open1) => gen_loop_try n st1 cur1 open1)
        else give st
    end.
  Definition generate_try (st : St) : attempt heap St :=
    then_ (gen_start_try st) (fun '(st1, open) => gen_loop_try F st1 root open).
End GenTry.

Section StarTry.
  Context {V Nd : Type}.
  Variable F : nat.
  Variable im : node_impl V Nd.
  Variable ti : try_impl V Nd.
  Variable al : allocator Nd.
  Variable late : bool.
  Variable like : gmap addr Nd -> ptr -> ptr -> ptr -> res (gmap addr Nd).
  Notation heap := (gmap addr Nd).
  Notation holding := (holding F im).

  (** multi_matcher.hpp 136-152, see [keep_assigning]: every new node is attached at
      once. *)
  Fixpoint keep_assigning_try (n : nat) (check : V -> bool) (target child : ptr) : attempt heap unit :=
    match n with
    | 0 => fun _ _ => Wrong OutOfFuel
    | S n =>
        match child with
        | None => give ()
        | Some _ =>
            then_ (reading (fun h => ni_value im h child)) (fun v =>
            if negb (check v) then keep_assigning_try n check target child
            else
              then_ (ti_value ti late al v) (fun a =>
              then_ (writing (fun h => like h target (Some a) child)) (fun _ =>
              then_ (reading (fun h => op_first (ni_ops im h) child)) (fun fc =>
              then_ (keep_assigning_try n check (Some a) fc) (fun _ =>
              then_ (reading (fun h => op_next (ni_ops im h) child)) (fun nx =>
              keep_assigning_try n check target nx))))))
        end
    end.
  (** 154-178, see [no_children_result]: [result] holds the clone. *)
  Definition no_children_try (q : quantifier) (vm : V -> bool) (m : ptr) : attempt heap ptr :=
    match q with
    | QReluctant => give None
    | QGreedy | QPossessive =>
        then_ (reading (fun h => ni_value im h m)) (fun v =>
        then_ (ti_value ti late al v) (fun a =>
        holding (Some a) (
          then_ (reading (fun h => op_first (ni_ops im h) m)) (fun fc =>
          then_ (keep_assigning_try F vm (Some a) fc) (fun _ => give (Some a))))))
    | QDefault =>
        then_ (reading (fun h => ni_value im h m)) (fun v =>
        then_ (ti_value ti late al v) (fun a => give (Some a)))
    end.
  (** 191-204, see [reluctant_attach].  199 [child_head.second.release()] comes before
      the allocation in [allocate_assign_parent] (binary_node.hpp 352, nary_node.hpp
      401): then no one holds [x]. *)
  Fixpoint reluctant_attach_try (n : nat) (cloned : gmap addr ptr) (ref x : ptr) : attempt heap (gmap addr ptr) :=
    match n with
    | 0 => fun _ _ => Wrong OutOfFuel
    | S n =>
        then_ (reading (fun h => op_parent (ni_ops im h) ref)) (fun par =>
        match par with
        | Some p =>
            match cloned !! p with
            | Some y => then_ (writing (fun h => like h y x ref)) (fun _ => give cloned)
            | None =>
                then_ (reading (fun h => ni_value im h par)) (fun v =>
                then_ (ti_value ti late al v) (fun a =>
                then_ (writing (fun h => like h (Some a) x ref)) (fun _ =>
                reluctant_attach_try n (match ref with Some r => <[r := x]> cloned | None => cloned end) par (Some a))))
            end
        | None => fun _ _ => Wrong AssertFail
        end)
    end.
  (** The destructor of [children_targets] (222): what was not released. *)
  Definition targets_back (st : gmap addr ptr * Z) (h : heap) : res heap := release_all F im (map_to_list (fst st)) h.

  (** matcher.hpp 288-294 [result], see [xresult]. *)
  Fixpoint xresult_try (p : xpat V) (s : xstate) {struct p} : attempt heap ptr :=
    match p with
    | XNil => give None
    | XN k vm fc _ =>
        match xs_matched s with
        | None => give None
        | Some m =>
            let fix attach (c : xpat V) (sc : xstate) (a : addr) : attempt heap unit :=
              match c with
              | XNil => give ()
              | XN _ _ _ cn =>
                  then_ (match xs_matched sc with
                         | None => give ()
                         | Some _ => then_ (xresult_try c sc) (fun x => writing (fun h => like h (Some a) x (xs_matched sc)))
                         end) (fun _ =>
                  attach cn (xs_next sc) a)
              end in
            let clone : attempt heap ptr :=
              then_ (reading (fun h => ni_value im h (xs_matched s))) (fun v =>
              then_ (ti_value ti late al v) (fun a =>
              holding (Some a) (then_ (attach fc (xs_first s) a) (fun _ => give (Some a))))) in
            let fix stolen (c : xpat V) (sc : xstate) (found : bool) (acc : ptr) : attempt heap (bool * ptr) :=
              match c with
              | XNil => give (found, acc)
              | XN _ _ _ cn =>
                  if ptr_eqb (xs_matched sc) (xs_matched s)
                  then then_ (holding acc (xresult_try c sc)) (fun x =>
                       then_ (writing (fun h => deallocate im F h acc)) (fun _ =>
                       stolen cn (xs_next sc) true x))
                  else stolen cn (xs_next sc) found acc
              end in
            let stolen_if : attempt heap (bool * ptr) :=
              if xmay_steal fc then stolen fc (xs_first s) false None else give (false, None) in
            let fix all_empty (c : xpat V) (sc : xstate) : bool :=
              match c with
              | XNil => true
              | XN _ _ _ cn => is_null (xs_matched sc) && all_empty cn (xs_next sc)
              end in
            (* [children_targets] holds the results made so far *)
            let fix targets (c : xpat V) (sc : xstate) (st : gmap addr ptr * Z) : attempt heap (gmap addr ptr * Z) :=
              match c with
              | XNil => give st
              | XN _ _ _ cn =>
                  match xs_matched sc with
                  | None => targets cn (xs_next sc) st
                  | Some t =>
                      then_ (unwinding (targets_back st) (xresult_try c sc)) (fun x =>
                      then_ (writing (fun h => match fst st !! t with Some old => deallocate im F h old | None => Ok h end)) (fun _ =>
                      targets cn (xs_next sc) (<[t := x]> (fst st), (snd st + 1)%Z)))
                  end
              end in
            let fix attach_path (c : xpat V) (sc : xstate) (cloned : gmap addr ptr) : attempt heap unit :=
              match c with
              | XNil => give ()
              | XN _ _ _ cn =>
                  then_ (xresult_try c sc) (fun x =>
                  then_ (reluctant_attach_try F cloned (xs_matched sc) x) (fun cloned' =>
                  attach_path cn (xs_next sc) cloned'))
              end in
            match k with
            | XCapture => xresult_try fc (xs_first s)
            | XOne => clone
            | XOpt _ => then_ stolen_if (fun '(b, x) => if b : bool then give x else clone)
            | XStar q =>
                if all_empty fc (xs_first s) then no_children_try q vm (Some m)
                else
                  then_ stolen_if (fun '(b, x) =>
                  if b : bool then give x
                  else
                    then_ (reading (fun h => ni_value im h (Some m))) (fun v =>
                    then_ (ti_value ti late al v) (fun a =>
                    holding (Some a)
                    (match q with
                     | QReluctant => then_ (attach_path fc (xs_first s) {[ m := Some a ]}) (fun _ => give (Some a))
                     | _ =>
                         then_ (targets fc (xs_first s) (∅, 0%Z)) (fun st =>
                         then_ (generate_try F im ti al late like (check_target im q vm) targets_back (mp_make [Some m; Some a]) st) (fun st' =>
                         then_ (writing (targets_back st')) (fun _ => give (Some a))))
                     end))))
            end
        end
    end.

  (** pattern.hpp 61-77, see [xassign_result], [xassign_mark]: [k] nodes can be
      created. *)
  Definition xassign_result_try (k : nat) (x : xpattern) (w : world Nd) (i : tid) : out (world Nd) unit :=
    if negb (xp_found x) then Throw w else assigning F im (xresult_try (xp_pat x) (xp_state x)) k w i.
  Definition xassign_mark_try (k : nat) (x : xpattern) (n : nat) (w : world Nd) (i : tid) : out (world Nd) unit :=
    if negb (xp_found x) then Throw w
    else match nth_error (xcaptures (xp_pat x) (xp_state x)) (n - 1) with
         | None => Bad AssertFail
         | Some (c, s) => assigning F im (xresult_try c s) k w i
         end.
End StarTry.
