(** Matcher.v: model of the pattern matching part of the library
      include/TreeDS/matcher/node/matcher.hpp, one_matcher.hpp, opt_matcher.hpp,
      capture.hpp, matcher/utility.hpp (matcher_info_t), matcher/pattern.hpp
    and of [assign_child_like] (binary_node.hpp 345-347, nary_node.hpp 393-396).
    multi_matcher.hpp ([star]) is modelled in Star.v.

    As for struct_node, the shape of a pattern is a C++ type; here it is data.
    What the value matchers answer (matcher.hpp 127-136 [match_value]; a value,
    [true_matcher] or [having]) is a function from values to booleans. *)
From Verif Require Import Base StructNode BinaryNode NaryNode Nav Policy Tree.

(** matcher/utility.hpp 31-36 *)
Inductive quantifier : Type := QDefault | QReluctant | QGreedy | QPossessive.
(** Which of the three class templates a matcher is an instance of. *)
Inductive mkind : Type := MOne | MOpt (q : quantifier) | MCapture.

Section Patterns.
  Context {V : Type}.

  (** matcher.hpp 17-18, struct_node.hpp 18-37: a matcher with its first child
      and its next sibling; [PNil] is [detail::empty_t]. *)
  Inductive pat : Type :=
  | PNil
  | PN (k : mkind) (vm : V -> bool) (first_child next_sibling : pat).

  (** matcher.hpp 46-47 [matched_node] of a matcher and of those nested in it;
      [MSNil] stands for one that was never assigned or was reset ([nullptr]
      throughout).  [steps] is not used by the code; [captures] are references
      fixed at construction (see [captures] below). *)
  Inductive mstate : Type :=
  | MSNil
  | MS (matched : ptr) (first_child next_sibling : mstate).
  Definition ms_matched (s : mstate) : ptr := match s with MSNil => None | MS m _ _ => m end.
  Definition ms_first (s : mstate) : mstate := match s with MSNil => MSNil | MS _ c _ => c end.
  Definition ms_next (s : mstate) : mstate := match s with MSNil => MSNil | MS _ _ n => n end.
  (** 143-151 [reset] *)
  Definition reset (s : mstate) : mstate := MSNil.

  (** [info.matches_null] of a matcher (one_matcher.hpp 26, opt_matcher.hpp
      23-34, capture.hpp 22); with [whole], of all those of a chain of siblings. *)
  Fixpoint matches_null (whole : bool) (p : pat) : bool :=
    match p with
    | PNil => true
    | PN k _ fc ns =>
        (match k with MOne => false | MOpt _ => matches_null true fc | MCapture => matches_null false fc end)
        && (if whole then matches_null true ns else true)
    end.
  (** opt_matcher.hpp 37-38 [info.prefers_null], 39-40 [info.possessive]. *)
  Definition prefers_null (p : pat) : bool :=
    match p with PN (MOpt QReluctant) _ _ _ => matches_null false p | _ => false end.
  Definition possessive (k : mkind) : bool :=
    match k with MOne => true | MOpt QPossessive => true | _ => false end.
  (** matcher.hpp 96-105 [child_may_steal_node] of an [opt_matcher]: at most one
      child does not match null. *)
  Fixpoint count_needed (p : pat) : nat :=
    match p with
    | PNil => 0
    | PN _ _ _ ns => (if matches_null false p then 0 else 1) + count_needed ns
    end.
  Definition child_may_steal (fc : pat) : bool := count_needed fc <=? 1.

  (** 47, 70-93 the [captures] tuple: this matcher if it is a capture, then those
      of the children, then those of the siblings; each with its state. *)
  Fixpoint captures (p : pat) (s : mstate) : list (pat * mstate) :=
    match p with
    | PNil => []
    | PN k _ fc ns =>
        (match k with MCapture => [(p, s)] | _ => [] end)
        ++ captures fc (ms_first s) ++ captures ns (ms_next s)
    end.
End Patterns.
Arguments pat V : clear implicits.

Section Search.
  Context {V Nd : Type}.
  Variable F : nat.
  Variable im : node_impl V Nd.
  Variable h : gmap addr Nd.
  Notation mknav := (tree_nav im h).

  (** one_matcher.hpp 45-54, opt_matcher.hpp 57-66: an iterator over the children
      of the node at which [it] stands: a copy of the iterator with a fresh
      navigator, moved to the first child, with the siblings policy. *)
  Definition children_iter (it : iter) : res iter :=
    i1 ← get_instance F mknav (it_kind it) (it_cur it) None;
    i2 ← do_move F mknav (fun nav p => nav_first nav p) i1;
    it_other_policy F mknav i2 Siblings.

  (** matcher.hpp 261-275 [search_node], with 170-203 [search_node_this]
      (capture.hpp 35-47 for captures), 205-220 [search_node_child] and 222-259
      [search_node_sibling] inlined.  It returns whether there is a match, the
      assigned [matched_node]s, and the iterator (taken by reference).  On an
      absent matcher ([if constexpr (has_...)]) the answer is [true].  The
      [rematch] and [acknowledge] callbacks are only given by multi_matcher: they
      are [detail::empty_t] here. *)
  Fixpoint search_node (p : pat V) (s : mstate) (it : iter) {struct p} : res (bool * mstate * iter) :=
    match p with
    | PNil => Ok (true, s, it)
    | PN k vm fc ns =>
        (* search_node_child *)
        let child (sc : mstate) (i : iter) : res (bool * mstate) :=
          '(b, sc', _) ← search_node fc sc i; Ok (b, sc') in
        (* search_node_impl *)
        let impl (sc : mstate) (i : iter) : res (bool * mstate) :=
          v ← ni_value im h (it_cur i);
          match k with
          | MOpt _ =>
              if negb (vm v) then
                if child_may_steal fc
                then i' ← it_other_policy F mknav i Fixed; child sc i'
                else Ok (false, sc)
              else
                i' ← children_iter i;
                '(b, sc') ← child sc i';
                if negb (possessive k) && child_may_steal fc && negb b
                then i'' ← it_other_policy F mknav i Fixed; child sc' i''
                else Ok (b, sc')
          | _ =>
              if negb (vm v) then Ok (false, sc)
              else i' ← children_iter i; child sc i'
          end in
        (* search_node_this: [m] is the old matched_node, [begin] the start *)
        let fix loop (n : nat) (m : ptr) (sc : mstate) (begin i : iter) : res (bool * ptr * mstate * iter) :=
          match n with
          | 0 => Err OutOfFuel
          | S n =>
              match it_cur i with
              | None => if matches_null false p then Ok (true, m, sc, begin) else Ok (false, m, sc, i)
              | Some _ =>
                  '(b, sc') ← impl sc i;
                  i' ← it_incr F mknav i;
                  if b : bool then Ok (true, it_cur i, sc', i') else loop n m sc' begin i'
              end
          end in
        '(b, m, sc, i) ←
          (match k with
           | MCapture =>
               '(b, sc, i) ← search_node fc (ms_first s) it;
               Ok (b, if b : bool then ms_matched sc else ms_matched s, sc, i)
           | _ =>
               if prefers_null p then Ok (true, ms_matched s, ms_first s, it)
               else loop F (ms_matched s) (ms_first s) it it
           end);
        if negb b then Ok (false, MS m sc (ms_next s), i)
        else
          (* search_node_sibling *)
          '(b2, sn, i2) ← search_node ns (ms_next s) i;
          if b2 : bool then Ok (true, MS m sc sn, i2)
          else if matches_null false p && negb (is_null m)
               then i3 ← it_other_node F mknav i2 m;
                    '(b3, sn', i4) ← search_node ns MSNil i3;
                    Ok (b3, MS None MSNil sn', i4)
               else Ok (false, MS m sc sn, i2)
    end.
End Search.

Section Result.
  Context {V Nd : Type}.
  Variable F : nat.
  Variable im : node_impl V Nd.
  Variable al : allocator Nd.
  (** [assign_child_like(child, reference_child)]: heap, node, child, reference. *)
  Variable assign_like : gmap addr Nd -> ptr -> ptr -> ptr -> res (gmap addr Nd).
  Notation heap := (gmap addr Nd).

  (** matcher.hpp 284-290 [result], one_matcher.hpp 58-71, opt_matcher.hpp 80-97,
      capture.hpp 54-58 [result_impl]; 107-125 [did_child_steal_node]. *)
  Fixpoint result (p : pat V) (s : mstate) (h : heap) {struct p} : res (ptr * heap) :=
    match p with
    | PNil => Ok (None, h)
    | PN k _ fc _ =>
        match ms_matched s with
        | None => Ok (None, h)
        | Some _ =>
            (* foldl_children: assign the children to the clone [a] *)
            let fix attach (c : pat V) (sc : mstate) (a : addr) (h : heap) : res heap :=
              match c with
              | PNil => Ok h
              | PN _ _ _ cn =>
                  h1 ← (match ms_matched sc with
                        | None => Ok h
                        | Some _ => '(x, h') ← result c sc h; assign_like h' (Some a) x (ms_matched sc)
                        end);
                  attach cn (ms_next sc) a h1
              end in
            let clone (h : heap) : res (ptr * heap) :=
              v ← ni_value im h (ms_matched s);
              '(a, h0) ← ni_from_value im al h v;
              h1 ← attach fc (ms_first s) a h0;
              Ok (Some a, h1) in
            (* did_child_steal_node: the last child that matched the same node *)
            let fix stolen (c : pat V) (sc : mstate) (found : bool) (acc : ptr) (h : heap) : res (bool * ptr * heap) :=
              match c with
              | PNil => Ok (found, acc, h)
              | PN _ _ _ cn =>
                  if ptr_eqb (ms_matched sc) (ms_matched s)
                  then '(x, h1) ← result c sc h;
                       h2 ← deallocate im F h1 acc;
                       stolen cn (ms_next sc) true x h2
                  else stolen cn (ms_next sc) found acc h
              end in
            match k with
            | MCapture => result fc (ms_first s) h
            | MOne => clone h
            | MOpt _ =>
                '(b, x, h1) ← (if child_may_steal fc then stolen fc (ms_first s) false None h else Ok (false, None, h));
                if b : bool then Ok (x, h1) else clone h1
            end
        end
    end.

  (** pattern.hpp 15-94: the pattern with its state; [p_found] is
      [node_type.has_value()].  Pattern and trees have the same node type here:
      the check of 63-66 then only asks whether a search ever succeeded.
      [matched_tree] (32) is compared with a root node but assigned the address
      of a tree object: the shortcut is never taken. *)
  Record pattern : Type := Pattern { p_pat : pat V; p_state : mstate; p_found : bool }.
  Definition make_pattern (p : pat V) : pattern := Pattern p MSNil false.

  (** pattern.hpp 28-41 [do_search]; tree_base.hpp 250-256 [root]. *)
  Definition search (x : pattern) (h : heap) (root : ptr) : res (bool * pattern) :=
    it ← get_instance F (tree_nav im h) Fixed root root;
    '(b, s, _) ← search_node F im h (p_pat x) (reset (p_state x)) it;
    Ok (b, Pattern (p_pat x) s (p_found x || b)).

  (** pattern.hpp 61-68 [assign_result], tree.hpp 226-229 *)
  Definition assign_result (x : pattern) (w : world Nd) (i : tid) : out (world Nd) unit :=
    if negb (p_found x) then Throw w
    else of_res ('(p, h) ← result (p_pat x) (p_state x) (w_heap w);
                 w' ← assign F im (set_heap w h) i p 0 0; Ok ((), w')).

  (** pattern.hpp 70-87 [assign_mark], matcher.hpp 292-310 [marked_result]; the
      index of a mark starts at 1 (a wrong one does not compile: [AssertFail]). *)
  Definition assign_mark (x : pattern) (k : nat) (w : world Nd) (i : tid) : out (world Nd) unit :=
    if negb (p_found x) then Throw w
    else of_res (match nth_error (captures (p_pat x) (p_state x)) (k - 1) with
                 | None => Err AssertFail
                 | Some (c, s) =>
                     '(p, h) ← result c s (w_heap w);
                     w' ← assign F im (set_heap w h) i p 0 0; Ok ((), w')
                 end).
End Result.

(** nary_node.hpp 393-396 [assign_child_like] *)
Definition n_assign_child_like {V} `{EqDecision V} (F : nat) (h : gmap addr (nnode V)) (this child ref : ptr)
  : res (gmap addr (nnode V)) :=
  _ ← guard_res (negb (is_null child));
  '(_, h') ← n_append_child F h this child; Ok h'.

(** The matchers a user writes: [one(v)(...)], [opt(v)(...)], [cpt(...)].
    one_matcher.hpp 80-100, opt_matcher.hpp 99-123, capture.hpp 60-98 and
    struct_node.hpp 256-269: the children are linked as siblings from the right;
    [ns] is the next sibling of the matcher being built. *)
Inductive upat (V : Type) : Type :=
| UOne (vm : V -> bool) (cs : list (upat V))
| UOpt (q : quantifier) (vm : V -> bool) (cs : list (upat V))
| UCpt (p : upat V).
Arguments UOne {V} _ _.
Arguments UOpt {V} _ _ _.
Arguments UCpt {V} _.
Fixpoint build {V} (u : upat V) (ns : pat V) : pat V :=
  match u with
  | UOne vm cs => PN MOne vm (foldr build PNil cs) ns
  | UOpt q vm cs => PN (MOpt q) vm (foldr build PNil cs) ns
  | UCpt p => PN MCapture (fun _ => true) (build p PNil) ns
  end.
