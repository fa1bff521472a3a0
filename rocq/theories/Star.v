(** Star.v: model of include/TreeDS/matcher/node/multi_matcher.hpp ([star]) and,
    for patterns that contain it, of
      matcher.hpp, one_matcher.hpp, opt_matcher.hpp, capture.hpp, pattern.hpp
    (there with the callbacks that only [star] uses), of
      policy/pre_order.hpp 64-90 and of tree_iterator_filter.hpp as [star] uses it.
    Matcher.v is the same for patterns without [star]; StarPlain.v shows that the
    two agree there. *)
From Verif Require Import Base StructNode BinaryNode NaryNode Nav Policy Tree Matcher Gen.

(** Which of the four class templates a matcher is an instance of. *)
Inductive xkind : Type := XOne | XOpt (q : quantifier) | XCapture | XStar (q : quantifier).

Section Patterns.
  Context {V : Type}.

  (** A matcher with its first child and its next sibling (as [pat], Matcher.v). *)
  Inductive xpat : Type :=
  | XNil
  | XN (k : xkind) (vm : V -> bool) (first_child next_sibling : xpat).

  (** matcher.hpp 47 [matched_node] and multi_matcher.hpp 51 [subtree_cut] (only
      used for a star); [XSNil]: null throughout. *)
  Inductive xstate : Type :=
  | XSNil
  | XS (matched cut : ptr) (first_child next_sibling : xstate).
  Definition xs_matched (s : xstate) : ptr := match s with XSNil => None | XS m _ _ _ => m end.
  Definition xs_cut (s : xstate) : ptr := match s with XSNil => None | XS _ c _ _ => c end.
  Definition xs_first (s : xstate) : xstate := match s with XSNil => XSNil | XS _ _ f _ => f end.
  Definition xs_next (s : xstate) : xstate := match s with XSNil => XSNil | XS _ _ _ n => n end.
  (** matcher.hpp 144-152 [reset]: [subtree_cut] is not reset. *)
  Fixpoint xreset (s : xstate) : xstate :=
    match s with XSNil => XSNil | XS _ c f n => XS None c (xreset f) (xreset n) end.

  (** [info.matches_null] (multi_matcher.hpp 33-38, 44; the others as in Matcher.v);
      with [whole], of all those of a chain of siblings. *)
  Fixpoint xmatches_null (whole : bool) (p : xpat) : bool :=
    match p with
    | XNil => true
    | XN k _ fc ns =>
        (match k with XOne => false | XOpt _ | XStar _ => xmatches_null true fc | XCapture => xmatches_null false fc end)
        && (if whole then xmatches_null true ns else true)
    end.
  (** [info.prefers_null] (multi_matcher.hpp 48), [info.possessive] (50) *)
  Definition xprefers_null (p : xpat) : bool :=
    match p with XN (XOpt QReluctant) _ _ _ | XN (XStar QReluctant) _ _ _ => xmatches_null false p | _ => false end.
  Definition is_possessive (q : quantifier) : bool := match q with QPossessive => true | _ => false end.
  (** matcher.hpp 97-106 [child_may_steal_node] of an opt or star matcher *)
  Fixpoint xcount_needed (p : xpat) : nat :=
    match p with
    | XNil => 0
    | XN _ _ _ ns => (if xmatches_null false p then 0 else 1) + xcount_needed ns
    end.
  Definition xmay_steal (fc : xpat) : bool := xcount_needed fc <=? 1.

  (** matcher.hpp 49, 68-94 the [captures] *)
  Fixpoint xcaptures (p : xpat) (s : xstate) : list (xpat * xstate) :=
    match p with
    | XNil => []
    | XN k _ fc ns =>
        (match k with XCapture => [(p, s)] | _ => [] end)
        ++ xcaptures fc (xs_first s) ++ xcaptures ns (xs_next s)
    end.
End Patterns.
Arguments xpat V : clear implicits.

(** pre_order.hpp 69-90 [go_depth_first_ramification]: the new current node. *)
Definition depth_first_ramification (F : nat) (nav : navigator) (cur : ptr) : res ptr :=
  '(r, found) ← keep_calling (S := bool) (pure_call (nav_first nav))
    (fun _ _ child => b ← nav_is_last nav child; Ok (negb b, true))
    (fun s _ child => Ok (child, s))
    F cur false;
  Ok (if found : bool then r else None).

Section Search.
  Context {V Nd : Type}.
  Variable F : nat.
  Variable im : node_impl V Nd.
  Variable h : gmap addr Nd.
  Notation ops := (ni_ops im h).

  (** multi_matcher.hpp 62-69: the predicate of a star's navigator.  [cut] is
      [subtree_cut] at the moment of the call. *)
  Definition star_pred (vm : V -> bool) (poss : bool) (cut : ptr) (q : ptr) : res bool :=
    p ← op_parent ops q;
    if negb poss && ptr_eqb p cut then Ok false
    else v ← ni_value im h p; Ok (vm v).
  (** 70-71 *)
  Definition star_nav (vm : V -> bool) (poss : bool) (cut : ptr) (root : ptr) : navigator :=
    node_pred_navigator ops root (star_pred vm poss cut) F.
  (** 73-75: the predicate of the filter (possessive only), on the value *)
  Definition star_filter (vm : V -> bool) (q : ptr) : res bool := v ← ni_value im h q; Ok (negb (vm v)).

  (** The type of the iterator a matcher is searched with: over the nodes of the
      tree, or over the nodes a star gives to its children. *)
  Inductive origin : Type := Plain | Under (vm : V -> bool) (poss : bool).
  Record sit : Type := SIt { si_it : iter; si_org : origin }.
  Definition si_cur (i : sit) : ptr := it_cur (si_it i).
  Definition si_nav (o : origin) (cut : ptr) : ptr -> navigator :=
    match o with Plain => tree_nav im h | Under vm poss => star_nav vm poss cut end.
  (** [++it], tree_iterator.hpp 257-270, tree_iterator_filter.hpp 117-122 *)
  Definition si_incr (cut : ptr) (i : sit) : res sit :=
    x ← (match si_org i with
         | Under vm true => filter_incr F (si_nav (si_org i) cut) (star_filter vm) (si_it i)
         | _ => it_incr F (si_nav (si_org i) cut) (si_it i)
         end);
    Ok (SIt x (si_org i)).
  (** [it.other_policy(policy::fixed())], tree_iterator.hpp 131-136,
      tree_iterator_filter.hpp 103-107 *)
  Definition si_fixed (cut : ptr) (i : sit) : res sit :=
    x ← it_other_policy F (si_nav (si_org i) cut) (si_it i) Fixed;
    x' ← (match si_org i with
          | Under vm true => filter_make F (si_nav (si_org i) cut) (star_filter vm) x
          | _ => Ok x
          end);
    Ok (SIt x' (si_org i)).
  (** [it.other_node(node)], tree_iterator.hpp 127-129, tree_iterator_filter.hpp 99-101 *)
  Definition si_other_node (cut : ptr) (i : sit) (p : ptr) : res sit :=
    x ← it_other_node F (si_nav (si_org i) cut) (si_it i) p;
    x' ← (match si_org i with
          | Under vm true => filter_make F (si_nav (si_org i) cut) (star_filter vm) x
          | _ => Ok x
          end);
    Ok (SIt x' (si_org i)).
  (** one_matcher.hpp 40-49, opt_matcher.hpp 57-66: the children of the node at
      which the iterator stands, with a fresh [node_navigator]. *)
  Definition si_children (i : sit) : res sit :=
    x ← children_iter F im h (si_it i); Ok (SIt x Plain).
  (** multi_matcher.hpp 59-88 [get_match_iterator] *)
  Definition match_iterator (vm : V -> bool) (poss : bool) (cut : ptr) (i : sit) : res sit :=
    let nav := star_nav vm poss cut in
    if poss then
      x ← get_instance F nav Leaves None (si_cur i);
      x1 ← it_incr F nav x;
      x2 ← filter_make F nav (star_filter vm) x1;
      Ok (SIt x2 (Under vm poss))
    else
      x ← get_instance F nav PreOrder (si_cur i) (si_cur i);
      x1 ← it_incr F nav x;
      Ok (SIt x1 (Under vm poss)).
  (** multi_matcher.hpp 118-132 [do_backtrack], after [subtree_cut] was set to
      null; [m] is the node matched so far. *)
  Definition backtrack (m : ptr) (i : sit) : res sit :=
    x ← get_instance F (si_nav (si_org i) None) PreOrder m (it_root (si_it i));
    p ← depth_first_ramification F (si_nav (si_org i) None (it_root x)) (it_cur x);
    Ok (SIt (it_set x (p, it_open x)) (si_org i)).

  (** The callbacks given to [search_node]: none, only [ackowledge], or
      [ackowledge] and [rematch] (multi_matcher.hpp 277-281). *)
  Inductive callbacks : Type := NoCb | AckCb | RematchCb.
  Definition acknowledge (cb : callbacks) (cut m : ptr) : ptr := match cb with NoCb => cut | _ => m end.

  (** matcher.hpp 271-280 [search_node], with 174-205 [search_node_this]
      (capture.hpp 28-43 for captures), 212-223 [search_node_child], 230-264
      [search_node_sibling] and the [search_node_impl]s inlined.  [cut] is the
      [subtree_cut] of the star that gave the callbacks and whose navigator the
      iterator has.  It returns whether there is a match, the new state, the
      iterator and [cut] (both taken by reference). *)
  Fixpoint xsearch_node (p : xpat V) (s : xstate) (it : sit) (cb : callbacks) (cut : ptr) {struct p}
    : res (bool * xstate * sit * ptr) :=
    match p with
    | XNil => Ok (true, s, it, cut)
    | XN k vm fc ns =>
        (* search_node_child without callbacks *)
        let child (sc : xstate) (i : sit) : res (bool * xstate) :=
          '(b, sc', _, _) ← xsearch_node fc sc i NoCb None; Ok (b, sc') in
        (* search_node_impl; [own] is the matcher's own subtree_cut *)
        let impl (own : ptr) (sc : xstate) (i : sit) : res (bool * ptr * xstate) :=
          v ← ni_value im h (si_cur i);
          match k with
          | XStar q =>
              if negb (vm v) then
                if xmay_steal fc
                then i' ← si_fixed cut i; '(b, sc') ← child sc i'; Ok (b, own, sc')
                else Ok (false, own, sc)
              else
                i' ← match_iterator vm (is_possessive q) own i;
                '(b, sc', _, own') ← xsearch_node fc sc i' (if is_possessive q then AckCb else RematchCb) own;
                if negb (is_possessive q) && xmay_steal fc && negb b
                then i'' ← si_fixed cut i; '(b', sc'') ← child sc' i''; Ok (b', own', sc'')
                else Ok (b, own', sc')
          | XOpt q =>
              if negb (vm v) then
                if xmay_steal fc
                then i' ← si_fixed cut i; '(b, sc') ← child sc i'; Ok (b, own, sc')
                else Ok (false, own, sc)
              else
                i' ← si_children i;
                '(b, sc') ← child sc i';
                if negb (is_possessive q) && xmay_steal fc && negb b
                then i'' ← si_fixed cut i; '(b', sc'') ← child sc' i''; Ok (b', own, sc'')
                else Ok (b, own, sc')
          | _ =>
              if negb (vm v) then Ok (false, own, sc)
              else i' ← si_children i; '(b, sc') ← child sc i'; Ok (b, own, sc')
          end in
        (* the loop of search_node_this: [m] is the old matched_node *)
        let fix loop (n : nat) (m own : ptr) (sc : xstate) (begin i : sit) (cut : ptr)
          : res (bool * ptr * ptr * xstate * sit * ptr) :=
          match n with
          | 0 => Err OutOfFuel
          | S n =>
              match si_cur i with
              | None => if xmatches_null false p then Ok (true, m, own, sc, begin, cut) else Ok (false, m, own, sc, i, cut)
              | Some _ =>
                  '(b, own', sc') ← impl own sc i;
                  if b : bool then
                    let cut' := acknowledge cb cut (si_cur i) in
                    i' ← si_incr cut' i; Ok (true, si_cur i, own', sc', i', cut')
                  else i' ← si_incr cut i; loop n m own' sc' begin i' cut
              end
          end in
        (* search_node_this *)
        let this (m own : ptr) (sc : xstate) (i : sit) (cut : ptr) : res (bool * ptr * ptr * xstate * sit * ptr) :=
          match k with
          | XCapture =>
              (* rematch is not passed (matcher.hpp 246, 276) *)
              '(b, sc', i', cut') ← xsearch_node fc sc i (match cb with NoCb => NoCb | _ => AckCb end) cut;
              Ok (b, if b : bool then xs_matched sc' else m, own, sc', i', cut')
          | _ =>
              if xprefers_null p then Ok (true, m, own, sc, i, cut)
              else loop F m own sc i i cut
          end in
        (* 244-253: the rematch loop; on [None] it was left without success *)
        let fix rematch (n : nat) (m own : ptr) (sc sn : xstate) (i : sit) (cut : ptr)
          : res (bool * ptr * ptr * xstate * xstate * sit * ptr) :=
          match n with
          | 0 => Err OutOfFuel
          | S n =>
              match si_cur i with
              | None => Ok (false, m, own, sc, sn, i, cut)
              | Some _ =>
                  match m with
                  | None => Ok (false, m, own, sc, sn, i, None)
                  | Some _ =>
                      start ← backtrack m i;
                      '(b, m', own', sc', i', cut') ← this m own sc start None;
                      if negb b then rematch n m' own' sc' sn i' cut'
                      else
                        '(b2, sn', i2, cut2) ← xsearch_node ns sn i' cb cut';
                        if b2 : bool then Ok (true, m', own', sc', sn', i2, cut2)
                        else rematch n m' own' sc' sn' start cut2
                  end
              end
          end in
        '(b, m, own, sc, i, cut1) ← this (xs_matched s) (xs_cut s) (xs_first s) it cut;
        if negb b then Ok (false, XS m own sc (xs_next s), i, cut1)
        else
          (* search_node_sibling *)
          match ns with
          | XNil => Ok (true, XS m own sc (xs_next s), i, cut1)
          | XN _ _ _ _ =>
              '(b2, sn, i2, cut2) ← xsearch_node ns (xs_next s) i cb cut1;
              if b2 : bool then Ok (true, XS m own sc sn, i2, cut2)
              else
                '(b3, m3, own3, sc3, sn3, i3, cut3) ←
                  (match cb with
                   | RematchCb => rematch F m own sc sn i cut2
                   | _ => Ok (false, m, own, sc, sn, i2, cut2)
                   end);
                if b3 : bool then Ok (true, XS m3 own3 sc3 sn3, i3, cut3)
                else if xmatches_null false p && negb (is_null m3)
                     then i4 ← si_other_node cut3 i3 m3;
                          '(b5, sn5, i5, cut5) ← xsearch_node ns (xreset sn3) i4 cb cut3;
                          Ok (b5, XS None own3 (xreset sc3) sn5, i5, cut5)
                     else Ok (false, XS m3 own3 sc3 sn3, i3, cut3)
          end
    end.
End Search.

Section Result.
  Context {V Nd : Type}.
  Variable F : nat.
  Variable im : node_impl V Nd.
  Variable al : allocator Nd.
  (** [assign_child_like(child, reference_child)]: heap, node, child, reference;
      [allocate_assign_parent] (binary_node.hpp 350-355, nary_node.hpp 399-404)
      allocates the parent and attaches the node in the same way. *)
  Variable like : gmap addr Nd -> ptr -> ptr -> ptr -> res (gmap addr Nd).
  Notation heap := (gmap addr Nd).

  (** multi_matcher.hpp 136-152 [keep_assigning_children], from the loop on;
      147 [continue] tests the same child again. *)
  Fixpoint keep_assigning (n : nat) (check : V -> bool) (target child : ptr) (h : heap) : res heap :=
    match n with
    | 0 => Err OutOfFuel
    | S n =>
        match child with
        | None => Ok h
        | Some _ =>
            v ← ni_value im h child;
            if negb (check v) then keep_assigning n check target child h
            else
              '(a, h1) ← ni_from_value im al h v;
              h2 ← like h1 target (Some a) child;
              fc ← op_first (ni_ops im h2) child;
              h3 ← keep_assigning n check (Some a) fc h2;
              nx ← op_next (ni_ops im h3) child;
              keep_assigning n check target nx h3
        end
    end.
  (** 154-178 [no_children_set_result]; [m] is the matched node. *)
  Definition no_children_result (q : quantifier) (vm : V -> bool) (m : ptr) (h : heap) : res (ptr * heap) :=
    match q with
    | QReluctant => Ok (None, h)
    | QGreedy | QPossessive =>
        v ← ni_value im h m;
        '(a, h1) ← ni_from_value im al h v;
        fc ← op_first (ni_ops im h1) m;
        h2 ← keep_assigning F vm (Some a) fc h1;
        Ok (Some a, h2)
    | QDefault =>
        v ← ni_value im h m;
        '(a, h1) ← ni_from_value im al h v;
        Ok (Some a, h1)
    end.
  (** 191-204 [attach_child] after the result [x] of the child was computed;
      [cloned] is [cloned_nodes], [ref] the child's target.  [find] of a null
      parent fails and the assertion of [allocate_assign_parent] follows. *)
  Fixpoint reluctant_attach (n : nat) (cloned : gmap addr ptr) (ref x : ptr) (h : heap) : res (gmap addr ptr * heap) :=
    match n with
    | 0 => Err OutOfFuel
    | S n =>
        par ← op_parent (ni_ops im h) ref;
        match par with
        | Some p =>
            match cloned !! p with
            | Some y => h1 ← like h y x ref; Ok (cloned, h1)
            | None =>
                v ← ni_value im h par;
                '(a, h1) ← ni_from_value im al h v;
                h2 ← like h1 (Some a) x ref;
                reluctant_attach n (match ref with Some r => <[r := x]> cloned | None => cloned end) par (Some a) h2
            end
        | None => Err AssertFail
        end
    end.
  (** 238-256 [check_target]; the state is [children_targets] (null: released)
      and [valid_targets]. *)
  Definition check_target (q : quantifier) (vm : V -> bool) (st : gmap addr ptr * Z) (h : heap) (p : mptr)
    : res (gmap addr ptr * Z * mptr * bool) :=
    if (match q with QDefault => true | _ => false end) && (snd st =? 0)%Z then Ok (st, p, false)
    else
      match mp_main p with
      | None => Err NullDeref
      | Some a =>
          match fst st !! a with
          | Some x => Ok (<[a := None]> (fst st), (snd st - 1)%Z, mp_assign 1 x p, true)
          | None =>
              par ← op_parent (ni_ops im h) (Some a);
              if (match par with Some b => match fst st !! b with Some _ => true | None => false end | None => false end)
              then Ok (st, p, false)
              else v ← ni_value im h (Some a); Ok (st, p, vm v)
          end
      end.
  (** The destructor of [children_targets]: what was not released. *)
  Fixpoint release_all (l : list (addr * ptr)) (h : heap) : res heap :=
    match l with
    | [] => Ok h
    | (_, x) :: l => h1 ← deallocate im F h x; release_all l h1
    end.

  (** matcher.hpp 288-294 [result], multi_matcher.hpp 292-315 [result_impl], the
      other [result_impl]s as in Matcher.v; 108-126 [did_child_steal_node]. *)
  Fixpoint xresult (p : xpat V) (s : xstate) (h : heap) {struct p} : res (ptr * heap) :=
    match p with
    | XNil => Ok (None, h)
    | XN k vm fc _ =>
        match xs_matched s with
        | None => Ok (None, h)
        | Some m =>
            let fix attach (c : xpat V) (sc : xstate) (a : addr) (h : heap) : res heap :=
              match c with
              | XNil => Ok h
              | XN _ _ _ cn =>
                  h1 ← (match xs_matched sc with
                        | None => Ok h
                        | Some _ => '(x, h') ← xresult c sc h; like h' (Some a) x (xs_matched sc)
                        end);
                  attach cn (xs_next sc) a h1
              end in
            let clone (h : heap) : res (ptr * heap) :=
              v ← ni_value im h (xs_matched s);
              '(a, h0) ← ni_from_value im al h v;
              h1 ← attach fc (xs_first s) a h0;
              Ok (Some a, h1) in
            let fix stolen (c : xpat V) (sc : xstate) (found : bool) (acc : ptr) (h : heap) : res (bool * ptr * heap) :=
              match c with
              | XNil => Ok (found, acc, h)
              | XN _ _ _ cn =>
                  if ptr_eqb (xs_matched sc) (xs_matched s)
                  then '(x, h1) ← xresult c sc h;
                       h2 ← deallocate im F h1 acc;
                       stolen cn (xs_next sc) true x h2
                  else stolen cn (xs_next sc) found acc h
              end in
            let stolen_if (h : heap) : res (bool * ptr * heap) :=
              if xmay_steal fc then stolen fc (xs_first s) false None h else Ok (false, None, h) in
            (* 294-298 *)
            let fix all_empty (c : xpat V) (sc : xstate) : bool :=
              match c with
              | XNil => true
              | XN _ _ _ cn => is_null (xs_matched sc) && all_empty cn (xs_next sc)
              end in
            (* 223-233: the results of the children, by their target *)
            let fix targets (c : xpat V) (sc : xstate) (st : gmap addr ptr * Z) (h : heap) : res (gmap addr ptr * Z * heap) :=
              match c with
              | XNil => Ok (st, h)
              | XN _ _ _ cn =>
                  match xs_matched sc with
                  | None => targets cn (xs_next sc) st h
                  | Some t =>
                      '(x, h1) ← xresult c sc h;
                      h2 ← (match fst st !! t with Some old => deallocate im F h1 old | None => Ok h1 end);
                      targets cn (xs_next sc) (<[t := x]> (fst st), (snd st + 1)%Z) h2
                  end
              end in
            (* 205-210 *)
            let fix attach_path (c : xpat V) (sc : xstate) (cloned : gmap addr ptr) (h : heap) : res heap :=
              match c with
              | XNil => Ok h
              | XN _ _ _ cn =>
                  '(x, h1) ← xresult c sc h;
                  '(cloned', h2) ← reluctant_attach F cloned (xs_matched sc) x h1;
                  attach_path cn (xs_next sc) cloned' h2
              end in
            match k with
            | XCapture => xresult fc (xs_first s) h
            | XOne => clone h
            | XOpt _ =>
                '(b, x, h1) ← stolen_if h;
                if b : bool then Ok (x, h1) else clone h1
            | XStar q =>
                if all_empty fc (xs_first s) then no_children_result q vm (Some m) h
                else
                  '(b, x, h1) ← stolen_if h;
                  if b : bool then Ok (x, h1)
                  else
                    v ← ni_value im h1 (Some m);
                    '(a, h2) ← ni_from_value im al h1 v;
                    match q with
                    | QReluctant =>
                        (* 181-211 *)
                        h3 ← attach_path fc (xs_first s) {[ m := Some a ]} h2; Ok (Some a, h3)
                    | _ =>
                        (* 214-262 *)
                        '(tg, n, h3) ← targets fc (xs_first s) (∅, 0%Z) h2;
                        '(tg', _, h4) ← generate F im al like (check_target q vm) (mp_make [Some m; Some a]) (tg, n) h3;
                        h5 ← release_all (map_to_list tg') h4;
                        Ok (Some a, h5)
                    end
            end
        end
    end.

  (** pattern.hpp 15-94, as in Matcher.v. *)
  Record xpattern : Type := XPattern { xp_pat : xpat V; xp_state : xstate; xp_found : bool }.
  Definition make_xpattern (p : xpat V) : xpattern := XPattern p XSNil false.
  (** pattern.hpp 28-41 [do_search] *)
  Definition xsearch (x : xpattern) (h : heap) (root : ptr) : res (bool * xpattern) :=
    it ← get_instance F (tree_nav im h) Fixed root root;
    '(b, s, _, _) ← xsearch_node F im h (xp_pat x) (xreset (xp_state x)) (SIt it Plain) NoCb None;
    Ok (b, XPattern (xp_pat x) s (xp_found x || b)).
  (** pattern.hpp 61-68 [assign_result] *)
  Definition xassign_result (x : xpattern) (w : world Nd) (i : tid) : out (world Nd) unit :=
    if negb (xp_found x) then Throw w
    else of_res ('(p, h) ← xresult (xp_pat x) (xp_state x) (w_heap w);
                 w' ← assign F im (set_heap w h) i p 0 0; Ok ((), w')).
  (** pattern.hpp 70-87 [assign_mark] *)
  Definition xassign_mark (x : xpattern) (k : nat) (w : world Nd) (i : tid) : out (world Nd) unit :=
    if negb (xp_found x) then Throw w
    else of_res (match nth_error (xcaptures (xp_pat x) (xp_state x)) (k - 1) with
                 | None => Err AssertFail
                 | Some (c, s) =>
                     '(p, h) ← xresult c s (w_heap w);
                     w' ← assign F im (set_heap w h) i p 0 0; Ok ((), w')
                 end).
End Result.

(** The matchers a user writes, with [star<q>(v)(...)] (multi_matcher.hpp 330-340). *)
Inductive spat (V : Type) : Type :=
| SOne (vm : V -> bool) (cs : list (spat V))
| SOpt (q : quantifier) (vm : V -> bool) (cs : list (spat V))
| SStar (q : quantifier) (vm : V -> bool) (cs : list (spat V))
| SCpt (p : spat V).
Arguments SOne {V} _ _.
Arguments SOpt {V} _ _ _.
Arguments SStar {V} _ _ _.
Arguments SCpt {V} _.
Fixpoint xbuild {V} (u : spat V) (ns : xpat V) : xpat V :=
  match u with
  | SOne vm cs => XN XOne vm (foldr xbuild XNil cs) ns
  | SOpt q vm cs => XN (XOpt q) vm (foldr xbuild XNil cs) ns
  | SStar q vm cs => XN (XStar q) vm (foldr xbuild XNil cs) ns
  | SCpt p => XN XCapture (fun _ => true) (xbuild p XNil) ns
  end.
