(** ResultFail.v: model of pattern::assign_result and assign_mark when the creation
    of a node fails (see Fail.v for the two ways in which it may).

    The nodes made so far are held by std::unique_ptr (unique_ptr_alloc,
    allocator_utility.hpp 73-74), whose deleter gives them back, with those below
    them, when an exception passes. *)
From Verif Require Import Base StructNode BinaryNode NaryNode Nav Policy Tree Fail Matcher.

Section ResultTry.
  Context {V Nd : Type}.
  Variable F : nat.
  Variable im : node_impl V Nd.
  Variable ti : try_impl V Nd.
  Variable al : allocator Nd.
  Variable late : bool.
  Variable assign_like : gmap addr Nd -> ptr -> ptr -> ptr -> res (gmap addr Nd).
  Notation heap := (gmap addr Nd).

  (** A unique_ptr_alloc holds [p] while [m] runs (allocator_utility.hpp 61-74). *)
  Definition holding {A} (p : ptr) (m : attempt heap A) : attempt heap A :=
    fun h k => match m h k with
               | Lost h1 => match deallocate im F h1 p with Ok h2 => Lost h2 | Err e => Wrong e end
               | r => r
               end.

  (** [result] of Matcher.v: matcher.hpp 284-290, 107-125, 164-167;
      one_matcher.hpp 58-71; opt_matcher.hpp 80-97; capture.hpp 54-58. *)
  Fixpoint result_try (p : pat V) (s : mstate) {struct p} : attempt heap ptr :=
    match p with
    | PNil => give None
    | PN k _ fc _ =>
        match ms_matched s with
        | None => give None
        | Some _ =>
            let fix attach (c : pat V) (sc : mstate) (a : addr) : attempt heap unit :=
              match c with
              | PNil => give ()
              | PN _ _ _ cn =>
                  then_ (match ms_matched sc with
                         | None => give ()
                         | Some _ => then_ (result_try c sc) (fun x => writing (fun h => assign_like h (Some a) x (ms_matched sc)))
                         end) (fun _ =>
                  attach cn (ms_next sc) a)
              end in
            (* [node]/[result] holds the clone while its children are made *)
            let clone : attempt heap ptr :=
              then_ (reading (fun h => ni_value im h (ms_matched s))) (fun v =>
              then_ (ti_value ti late al v) (fun a =>
              holding (Some a) (then_ (attach fc (ms_first s) a) (fun _ => give (Some a))))) in
            (* [ptr] holds what was made so far *)
            let fix stolen (c : pat V) (sc : mstate) (found : bool) (acc : ptr) : attempt heap (bool * ptr) :=
              match c with
              | PNil => give (found, acc)
              | PN _ _ _ cn =>
                  if ptr_eqb (ms_matched sc) (ms_matched s)
                  then then_ (holding acc (result_try c sc)) (fun x =>
                       then_ (writing (fun h => deallocate im F h acc)) (fun _ =>
                       stolen cn (ms_next sc) true x))
                  else stolen cn (ms_next sc) found acc
              end in
            match k with
            | MCapture => result_try fc (ms_first s)
            | MOne => clone
            | MOpt _ =>
                then_ (if child_may_steal fc then stolen fc (ms_first s) false None else give (false, None)) (fun '(b, x) =>
                if b : bool then give x else clone)
            end
        end
    end.

  (** pattern.hpp 61-68, see [assign_result]: [k] nodes can be created. *)
  Definition assigning (m : attempt heap ptr) (k : nat) (w : world Nd) (i : tid) : out (world Nd) unit :=
    match m (w_heap w) k with
    | Made p h _ => of_res (w' ← assign F im (set_heap w h) i p 0 0; Ok ((), w'))
    | Lost h => Throw (set_heap w h)
    | Wrong e => Bad e
    end.
  Definition assign_result_try (k : nat) (x : pattern) (w : world Nd) (i : tid) : out (world Nd) unit :=
    if negb (p_found x) then Throw w else assigning (result_try (p_pat x) (p_state x)) k w i.
  (** pattern.hpp 70-77, see [assign_mark]; [n] is the index of the mark. *)
  Definition assign_mark_try (k : nat) (x : pattern) (n : nat) (w : world Nd) (i : tid) : out (world Nd) unit :=
    if negb (p_found x) then Throw w
    else match nth_error (captures (p_pat x) (p_state x)) (n - 1) with
         | None => Bad AssertFail
         | Some (c, s) => assigning (result_try c s) k w i
         end.
End ResultTry.
