(** Policy.v: model of the traversal policies (include/TreeDS/policy/*.hpp) and
    of the iterators over them (include/TreeDS/tree_iterator.hpp,
    tree_iterator_filter.hpp). *)
From Verif Require Import Base Nav.

(** The policy tags. *)
Inductive kind : Type := PreOrder | PostOrder | InOrder | BreadthFirst | Leaves | Siblings | Fixed.
Global Instance kind_eq_dec : EqDecision kind.
Proof. solve_decision. Defined.

(** The state of a policy object.  policy_base.hpp 30-31 [current] and the root
    held by [navigator]; breadth_first.hpp 24 [open_nodes] or leaves.hpp 17
    [ancestors] (top of the stack first); fixed.hpp 12 [initial]. *)
Record iter : Type := Iter {
  it_kind : kind;
  it_cur : ptr;
  it_root : ptr;
  it_open : list ptr;
  it_initial : ptr
}.

Section Policies.
  Variable F : nat.                        (* fuel for every loop *)
  Variable mknav : ptr -> navigator.       (* the navigator type, given its root *)

  Section Impl.
    Variable nav : navigator.

    (** pre_order.hpp 15-37 *)
    Definition pre_increment (cur : ptr) : res ptr :=
      fc ← nav_first nav cur;
      match fc with
      | Some _ => Ok fc
      | None =>
          '(result, _) ←
            keep_calling (S := unit) (pure_call (nav_parent nav))
              (fun s child _ => b ← nav_is_last nav child; Ok (negb b, s))
              (fun s child _ => q ← nav_next nav child; Ok (q, s))
              F cur ();
          Ok (if nav_is_root nav result then None else result)
      end.
    (** pre_order.hpp 39-54 *)
    Definition pre_decrement (cur : ptr) : res ptr :=
      if nav_is_root nav cur then Ok None
      else
        ps ← nav_prev nav cur;
        match ps with
        | None => nav_parent nav cur
        | Some _ => keep_calling1 F ps (nav_last nav)
        end.

    (** post_order.hpp 15-28 *)
    Definition post_increment (cur : ptr) : res ptr :=
      if nav_is_root nav cur then Ok None
      else
        ns ← nav_next nav cur;
        match ns with
        | None => nav_parent nav cur
        | Some _ => keep_calling1 F ns (nav_first nav)
        end.
    (** post_order.hpp 30-50 *)
    Definition post_decrement (cur : ptr) : res ptr :=
      lc ← nav_last nav cur;
      match lc with
      | Some _ => Ok lc
      | None =>
          '(result, _) ←
            keep_calling (S := unit) (pure_call (nav_parent nav))
              (fun s child _ => b ← nav_is_first nav child; Ok (negb b, s))
              (fun s child _ => q ← nav_prev nav child; Ok (q, s))
              F cur ();
          Ok result
      end.

    (** in_order.hpp 31-61; the captured [found] is the state. *)
    Definition in_increment (cur : ptr) : res ptr :=
      r ← nav_right nav cur;
      match r with
      | Some _ => keep_calling1 F r (nav_left nav)
      | None =>
          '(result, found) ←
            keep_calling (S := bool) (pure_call (nav_parent nav))
              (fun s child _ => b ← nav_is_left nav child; Ok (b, s))
              (fun _ _ parent => Ok (parent, true))
              F cur false;
          Ok (if found : bool then result else None)
      end.
    (** in_order.hpp 63-87 *)
    Definition in_decrement (cur : ptr) : res ptr :=
      l ← nav_left nav cur;
      match l with
      | Some _ => keep_calling1 F l (nav_right nav)
      | None =>
          '(result, _) ←
            keep_calling (S := unit) (pure_call (nav_parent nav))
              (fun s child _ => b ← nav_is_right nav child; Ok (b, s))
              (fun s _ parent => Ok (parent, s))
              F cur ();
          Ok result
      end.

    (** std::deque: [front]/[pop_front]/[back]/[pop_back] of an empty deque are
        undefined behaviour ([Dangling]). *)
    Definition front (q : list ptr) : res ptr :=
      match q with [] => Err Dangling | x :: _ => Ok x end.
    Definition pop_front (q : list ptr) : res (list ptr) :=
      match q with [] => Err Dangling | _ :: q => Ok q end.
    Definition back (q : list ptr) : res ptr :=
      match rev q with [] => Err Dangling | x :: _ => Ok x end.
    Definition pop_back (q : list ptr) : res (list ptr) :=
      match q with [] => Err Dangling | _ => Ok (removelast q) end.

    (** breadth_first.hpp 30-49 *)
    Definition bfs_increment (open : list ptr) : res (ptr * list ptr) :=
      match open with
      | [] => Ok (None, open)
      | result :: rest =>
          sibling ← nav_next nav result;
          let open1 := match sibling with Some _ => sibling :: rest | None => rest end in
          fc ← nav_first nav result;
          let open2 := match fc with Some _ => open1 ++ [fc] | None => open1 end in
          Ok (result, open2)
      end.
    (** breadth_first.hpp 51-72 *)
    Definition bfs_decrement (cur : ptr) (open : list ptr) : res (ptr * list ptr) :=
      fc ← nav_first nav cur;
      open1 ← (match fc with
               | Some _ =>
                   b ← back open; p ← nav_parent nav b;
                   _ ← guard_res (ptr_eqb p cur);
                   pop_back open
               | None => Ok open
               end);
      ns ← nav_next nav cur;
      open2 ← (match ns with
               | Some _ =>
                   f ← front open1; p ← nav_prev nav f;
                   _ ← guard_res (ptr_eqb p cur);
                   pop_front open1
               | None => Ok open1
               end);
      lb ← get_other_branch nav F true cur;
      result ← (match lb with
                | Some _ => Ok lb
                | None => par ← nav_parent nav cur; get_row_extremum nav F false par
                end);
      Ok (result, cur :: open2).

    (** breadth_first.hpp 90-95 [process_child] *)
    Definition process_child (node : ptr) (acc : list ptr) : res (list ptr) :=
      fc ← nav_first nav node;
      Ok (match fc with Some _ => acc ++ [fc] | None => acc end).
    (** breadth_first.hpp 105-108 and 111-114: the two while loops ([stop] is
        the node at which the second one stops; null for the first). *)
    Fixpoint scan_right (k : nat) (node stop : ptr) (acc : list ptr) : res (list ptr) :=
      match k with
      | 0 => Err OutOfFuel
      | S k =>
          match node with
          | None => Ok acc
          | Some _ =>
              if ptr_eqb node stop then Ok acc
              else
                acc1 ← process_child node acc;
                node' ← get_other_branch nav F false node;
                scan_right k node' stop acc1
          end
      end.
    (** breadth_first.hpp 85-119 [manage_initial_status] *)
    Definition manage_initial_status (cur : ptr) : res (list ptr) :=
      match cur with
      | None => Ok []
      | Some _ =>
          ns ← nav_next nav cur;
          let acc := match ns with Some _ => [ns] | None => [] end in
          node ← (if nav_is_root nav cur then Ok None
                  else p ← nav_parent nav cur; get_other_branch nav F false p);
          acc1 ← scan_right F node None acc;
          node2 ← get_row_extremum nav F true cur;
          acc2 ← scan_right F node2 cur acc1;
          process_child cur acc2
      end.

    (** leaves.hpp 30-35 / 69-74: the lambda that records the ancestors. *)
    Definition leaves_call (st : list ptr) (node : ptr) : res (ptr * list ptr) :=
      ns ← nav_next nav node;
      let st1 := match ns with Some _ => node :: st | None => st end in
      fc ← nav_first nav node;
      Ok (fc, st1).
    (** leaves.hpp 22-36 *)
    Definition leaves_increment (st : list ptr) : res (ptr * list ptr) :=
      match st with
      | [] => Ok (None, st)
      | top :: st1 =>
          node ← nav_next nav top;
          keep_calling0 leaves_call F node st1
      end.
    (** leaves.hpp 38-64 *)
    Definition leaves_decrement (cur : ptr) (st : list ptr) : res (ptr * list ptr) :=
      '(node, _) ←
        keep_calling (S := unit) (pure_call (nav_parent nav))
          (fun s child _ => b ← nav_is_first nav child; Ok (negb b, s))
          (fun s child _ => q ← nav_prev nav child; Ok (q, s))
          F cur ();
      match node with
      | None => Ok (None, st)
      | Some _ => p ← keep_calling1 F node (nav_last nav); Ok (p, node :: st)
      end.

    (** [increment_impl] of each policy (pre_order.hpp 15, post_order.hpp 15,
        in_order.hpp 31, breadth_first.hpp 30, leaves.hpp 22, siblings.hpp
        21-23, fixed.hpp 17-19): the new current node and auxiliary state. *)
    Definition increment_impl (k : kind) (cur : ptr) (open : list ptr) : res (ptr * list ptr) :=
      match k with
      | PreOrder => p ← pre_increment cur; Ok (p, open)
      | PostOrder => p ← post_increment cur; Ok (p, open)
      | InOrder => p ← in_increment cur; Ok (p, open)
      | BreadthFirst => bfs_increment open
      | Leaves => leaves_increment open
      | Siblings => p ← nav_next nav cur; Ok (p, open)
      | Fixed => Ok (None, open)
      end.
    (** [decrement_impl] of each policy (siblings.hpp 25-27, fixed.hpp 21-23). *)
    Definition decrement_impl (k : kind) (cur : ptr) (open : list ptr) : res (ptr * list ptr) :=
      match k with
      | PreOrder => p ← pre_decrement cur; Ok (p, open)
      | PostOrder => p ← post_decrement cur; Ok (p, open)
      | InOrder => p ← in_decrement cur; Ok (p, open)
      | BreadthFirst => bfs_decrement cur open
      | Leaves => leaves_decrement cur open
      | Siblings => p ← nav_prev nav cur; Ok (p, open)
      | Fixed => Ok (None, open)
      end.
    (** [go_first_impl]: pre_order.hpp 56-58, post_order.hpp 52-54, in_order.hpp
        89-95, breadth_first.hpp 74-78, leaves.hpp 66-75, siblings.hpp 29-31,
        fixed.hpp 25-27. *)
    Definition go_first_impl (k : kind) (initial : ptr) (open : list ptr) : res (ptr * list ptr) :=
      match k with
      | PreOrder => Ok (nav_root nav, open)
      | PostOrder => p ← get_highest_leaf nav F true; Ok (p, open)
      | InOrder => p ← keep_calling1 F (nav_root nav) (nav_left nav); Ok (p, open)
      | BreadthFirst => bfs_increment [nav_root nav]
      | Leaves => keep_calling0 leaves_call F (nav_root nav) open
      | Siblings => p ← nav_first nav (nav_root nav); Ok (p, open)
      | Fixed => Ok (initial, open)
      end.
    (** [go_last_impl]: pre_order.hpp 60-62, post_order.hpp 56-58, in_order.hpp
        97-103, breadth_first.hpp 80-83, leaves.hpp 77-84, siblings.hpp 33-35,
        fixed.hpp 29-31. *)
    Definition go_last_impl (k : kind) (initial : ptr) (open : list ptr) : res (ptr * list ptr) :=
      match k with
      | PreOrder => p ← get_highest_leaf nav F false; Ok (p, open)
      | PostOrder => Ok (nav_root nav, open)
      | InOrder => p ← keep_calling1 F (nav_root nav) (nav_right nav); Ok (p, open)
      | BreadthFirst => p ← get_deepest_extremum_child nav F false; Ok (p, [])
      | Leaves => p ← keep_calling1 F (nav_root nav) (nav_last nav); Ok (p, [])
      | Siblings => p ← nav_last nav (nav_root nav); Ok (p, open)
      | Fixed => Ok (initial, open)
      end.
  End Impl.

  (** policy_base.hpp 82-87 and siblings.hpp 14-19 [fix_navigator_root]: the
      root of the navigator after the constructor. *)
  Definition fix_navigator_root (k : kind) (cur root : ptr) : res ptr :=
    match root with
    | Some _ => Ok root
    | None =>
        match k with
        | Siblings =>
            match cur with
            | None => Ok None
            | Some _ => p ← nav_parent (mknav None) cur;
                        Ok (match p with Some _ => p | None => cur end)
            end
        | _ => Ok cur
        end
    end.

  (** policy_base.hpp 43-54, 156-172 [get_instance(current, navigator, alloc)];
      also the conversions 64-80 (which rebuild the auxiliary state). *)
  Definition get_instance (k : kind) (cur root : ptr) : res iter :=
    root' ← fix_navigator_root k cur root;
    open ← (match k with
            | BreadthFirst => manage_initial_status (mknav root') cur
            | _ => Ok []
            end);
    Ok (Iter k cur root' open cur).

  (** tree_iterator.hpp 73-78: the iterator associated to a tree, at the end;
      [root] is the tree's root node. *)
  Definition it_end (k : kind) (root : ptr) : res iter := get_instance k None root.
  (** tree_iterator.hpp 88-90, 127-143. *)
  Definition it_other_policy (it : iter) (k : kind) : res iter :=
    get_instance k (it_cur it) (it_root it).
  Definition it_other_node (it : iter) (p : ptr) : res iter :=
    get_instance (it_kind it) p (it_root it).

  (** tree_iterator.hpp 220-222 [operator==] *)
  Definition it_eqb (a b : iter) : bool :=
    ptr_eqb (it_cur a) (it_cur b) && ptr_eqb (it_root a) (it_root b).

  Definition it_set (it : iter) (x : ptr * list ptr) : iter :=
    Iter (it_kind it) (fst x) (it_root it) (snd x) (it_initial it).

  (** tree_iterator.hpp 257-270 [operator++], policy_base.hpp 115-119, 127-131 *)
  Definition it_incr (it : iter) : res iter :=
    match it_cur it with
    | Some _ => x ← increment_impl (mknav (it_root it)) (it_kind it) (it_cur it) (it_open it);
                Ok (it_set it x)
    | None =>
        match it_root it with
        | Some _ => x ← go_first_impl (mknav (it_root it)) (it_kind it) (it_initial it) (it_open it);
                    Ok (it_set it x)
        | None => Ok it
        end
    end.
  (** tree_iterator.hpp 278-291 [operator--], policy_base.hpp 121-125, 133-137 *)
  Definition it_decr (it : iter) : res iter :=
    match it_cur it with
    | Some _ => x ← decrement_impl (mknav (it_root it)) (it_kind it) (it_cur it) (it_open it);
                Ok (it_set it x)
    | None =>
        match it_root it with
        | Some _ => x ← go_last_impl (mknav (it_root it)) (it_kind it) (it_initial it) (it_open it);
                    Ok (it_set it x)
        | None => Ok it
        end
    end.

  (** tree_iterator.hpp 162-171 [do_move]; 233-255 [go_parent] ... [go_child]. *)
  Definition do_move (f : navigator -> ptr -> res ptr) (it : iter) : res iter :=
    p ← f (mknav (it_root it)) (it_cur it);
    get_instance (it_kind it) p (it_root it).

  (** tree_base.hpp 151-165 [cbegin], [cend]; [root] is the tree's root node. *)
  Definition tree_begin (k : kind) (root : ptr) : res iter :=
    it ← it_end k root; it_incr it.
  Definition tree_end (k : kind) (root : ptr) : res iter := it_end k root.

  (** The loop a user writes: [for (; it != end; ++it) visit( *it );].  It
      returns the visited node addresses, in order; [vis] reads the element
      through the iterator (tree_iterator.hpp 198-204). *)
  Section Walk.
    Context {A : Type}.
    Variable vis : ptr -> res A.
    Variable step : iter -> res iter.
    Fixpoint walk (fuel : nat) (it e : iter) : res (list A) :=
      match fuel with
      | 0 => Err OutOfFuel
      | S fuel =>
          if it_eqb it e then Ok []
          else x ← vis (it_cur it); it' ← step it; xs ← walk fuel it' e; Ok (x :: xs)
      end.
    (** [for (it = rbegin; it != rend; ++it) visit( *it );] with
        std::reverse_iterator: [*it] is [*--tmp], [++it] is [--base]. *)
    Variable back_step : iter -> res iter.
    Fixpoint rwalk (fuel : nat) (base e : iter) : res (list A) :=
      match fuel with
      | 0 => Err OutOfFuel
      | S fuel =>
          if it_eqb base e then Ok []
          else base' ← back_step base; x ← vis (it_cur base'); xs ← rwalk fuel base' e; Ok (x :: xs)
      end.
  End Walk.

  (** tree_iterator_filter.hpp 117-122, 130-135 [operator++], [operator--];
      [pred] reads the element. *)
  Section Filter.
    Variable pred : ptr -> res bool.
    Fixpoint filter_move (fuel : nat) (move : iter -> res iter) (it : iter) : res iter :=
      match fuel with
      | 0 => Err OutOfFuel
      | S fuel =>
          it1 ← move it;
          match it_cur it1 with
          | None => Ok it1
          | Some _ => b ← pred (it_cur it1);
                      if b : bool then Ok it1 else filter_move fuel move it1
          end
      end.
    Definition filter_incr (it : iter) : res iter := filter_move F it_incr it.
    Definition filter_decr (it : iter) : res iter := filter_move F it_decr it.
    (** tree_iterator_filter.hpp 39-45 the constructor. *)
    Definition filter_make (it : iter) : res iter :=
      match it_cur it with
      | None => Ok it
      | Some _ => b ← pred (it_cur it); if b : bool then Ok it else filter_incr it
      end.
  End Filter.
End Policies.
