(** Tree.v: model of include/TreeDS/tree_base.hpp, tree.hpp,
    allocator_utility.hpp ([deallocate]) and of [calculate_size] /
    [calculate_arity] (utility.hpp).

    [tree<Node, Policy, Allocator>] is a template over the node type: here the
    functions take a record [node_impl] of the node type's operations, which is
    instantiated for binary and for n-ary nodes.

    Several tree objects live in one world: a heap of nodes and a map from tree
    identities to tree objects.  Aliasing ([this == &other]) is equality of
    identities.  The allocator object is not part of the state. *)
From Verif Require Import Base StructNode BinaryNode NaryNode Nav Policy.

(** A mutating operation: it returns a value, throws std::logic_error (the state
    at the throw, after stack unwinding, is kept), or is undefined. *)
Inductive out (W A : Type) : Type :=
| Ret (a : A) (w : W)
| Throw (w : W)
| Bad (e : err).
Arguments Ret {W A} _ _.
Arguments Throw {W A} _.
Arguments Bad {W A} _.

Definition of_res {W A} (m : res (A * W)) : out W A :=
  match m with Ok (a, w) => Ret a w | Err e => Bad e end.
Definition out_bind {W A B} (m : out W A) (f : A -> W -> out W B) : out W B :=
  match m with Ret a w => f a w | Throw w => Throw w | Bad e => Bad e end.
Definition res_out {W A B} (m : res A) (f : A -> out W B) : out W B :=
  match m with Ok a => f a | Err e => Bad e end.

(** The operations of a node type. *)
Record node_impl (V Nd : Type) : Type := NodeImpl {
  ni_ops : gmap addr Nd -> node_ops;
  ni_value : gmap addr Nd -> ptr -> res V;
  ni_children : gmap addr Nd -> ptr -> res N;
  ni_following : gmap addr Nd -> ptr -> res N;
  ni_resources : gmap addr Nd -> ptr -> res (list ptr);
  ni_from_value : allocator Nd -> gmap addr Nd -> V -> res (addr * gmap addr Nd);
  ni_from_struct : allocator Nd -> gmap addr Nd -> snode V -> res (addr * gmap addr Nd);
  ni_copy : nat -> allocator Nd -> gmap addr Nd -> ptr -> res (addr * gmap addr Nd);
  ni_replace_with : nat -> gmap addr Nd -> ptr -> ptr -> res (gmap addr Nd);
  ni_prepend : nat -> gmap addr Nd -> ptr -> ptr -> res (ptr * gmap addr Nd);
  ni_append : nat -> gmap addr Nd -> ptr -> ptr -> res (ptr * gmap addr Nd);
  ni_eq : nat -> gmap addr Nd -> gmap addr Nd -> ptr -> ptr -> res bool;
  ni_eq_struct : gmap addr Nd -> ptr -> snode V -> res bool;
  ni_size : nat -> gmap addr Nd -> ptr -> res N;
  ni_binary : bool       (* is_same_v<node_type, binary_node<value_type>> *)
}.
Arguments ni_ops {V Nd} _ _.
Arguments ni_value {V Nd} _ _ _.
Arguments ni_children {V Nd} _ _ _.
Arguments ni_following {V Nd} _ _ _.
Arguments ni_resources {V Nd} _ _ _.
Arguments ni_from_value {V Nd} _ _ _ _.
Arguments ni_from_struct {V Nd} _ _ _ _.
Arguments ni_copy {V Nd} _ _ _ _ _.
Arguments ni_replace_with {V Nd} _ _ _ _ _.
Arguments ni_prepend {V Nd} _ _ _ _ _.
Arguments ni_append {V Nd} _ _ _ _ _.
Arguments ni_eq {V Nd} _ _ _ _ _ _.
Arguments ni_eq_struct {V Nd} _ _ _ _.
Arguments ni_size {V Nd} _ _ _ _.
Arguments ni_binary {V Nd} _.

(** utility.hpp 185-194 [calculate_size(const binary_node&)]. *)
Fixpoint b_calculate_size {V} (fuel : nat) (h : gmap addr (bnode V)) (p : ptr) : res N :=
  match fuel with
  | 0 => Err OutOfFuel
  | S fuel =>
      n ← deref h p;
      l ← (match bleft n with None => Ok 0%N | Some _ => b_calculate_size fuel h (bleft n) end);
      r ← (match bright n with None => Ok 0%N | Some _ => b_calculate_size fuel h (bright n) end);
      Ok (wadd (wadd 1 l) r)
  end.

(** utility.hpp 196-205 [calculate_size(const nary_node&)]: the while loop over
    the children; the recursive call on a child is the loop over its children
    started with 1. *)
Fixpoint n_size_loop {V} (fuel : nat) (h : gmap addr (nnode V)) (child : ptr) (size : N) : res N :=
  match fuel with
  | 0 => Err OutOfFuel
  | S fuel =>
      match child with
      | None => Ok size
      | Some _ =>
          fc ← n_first h child;
          s ← n_size_loop fuel h fc 1;
          nx ← n_next h child;
          n_size_loop fuel h nx (wadd size s)
      end
  end.
Definition n_calculate_size {V} (fuel : nat) (h : gmap addr (nnode V)) (p : ptr) : res N :=
  fc ← n_first h p; n_size_loop fuel h fc 1.

Definition binary_impl (V : Type) `{EqDecision V} : node_impl V (bnode V) :=
  NodeImpl V (bnode V) bin_ops b_value b_children b_following_siblings b_resources
    (fun al h v => Ok (b_alloc al h v)) b_from_struct b_copy
    (fun _ => b_replace_with) (fun _ => b_prepend_child) (fun _ => b_append_child)
    b_eq b_eq_struct b_calculate_size true.

Definition nary_impl (V : Type) `{EqDecision V} : node_impl V (nnode V) :=
  NodeImpl V (nnode V) nary_ops n_val n_children n_following_siblings n_resources
    n_from_value n_from_struct n_copy
    n_replace_with (fun _ => n_prepend_child) n_append_child
    n_eq n_eq_struct n_calculate_size false.

(** tree_base.hpp 97-103: the attributes of a tree object ([t_nav] is the root
    held by [navigator]). *)
Record tree_rec : Type := TreeRec {
  t_root : ptr;
  t_size : N;
  t_arity : N;
  t_nav : ptr
}.

Definition tid := positive.

Section Tree.
  Context {V Nd : Type}.
  Variable F : nat.                       (* fuel for every loop *)
  Variable im : node_impl V Nd.
  Variable al : allocator Nd.
  Notation heap := (gmap addr Nd).

  Record world : Type := World { w_heap : heap; w_trees : gmap tid tree_rec }.
  Definition set_heap (w : world) (h : heap) : world := World h (w_trees w).
  Definition set_tree (w : world) (i : tid) (t : tree_rec) : world :=
    World (w_heap w) (<[i := t]> (w_trees w)).
  (** Access to a tree object that is not alive is undefined behaviour. *)
  Definition get_tree (w : world) (i : tid) : res tree_rec :=
    match w_trees w !! i with Some t => Ok t | None => Err Dangling end.

  (** tree_base.hpp 74: the iterators of a tree use [node_navigator]. *)
  Definition tree_nav (h : heap) (root : ptr) : navigator := node_navigator (ni_ops im h) root.

  (** allocator_utility.hpp 34-53 [deallocate]. *)
  Fixpoint deallocate (fuel : nat) (h : heap) (p : ptr) : res heap :=
    match fuel with
    | 0 => Err OutOfFuel
    | S fuel =>
        match p with
        | None => Ok h
        | Some a =>
            rs ← ni_resources im h p;
            h1 ← foldl (fun m r => h' ← m; deallocate fuel h' r) (Ok h) rs;
            match h1 !! a with
            | None => Err Dangling
            | Some _ => Ok (delete a h1)
            end
        end
    end.

  (** utility.hpp 207-221 [calculate_arity]: the while loop; the recursive call
      on a child is the loop over its children from their count. *)
  Definition first_count (h : heap) (child : ptr) : res N :=
    match child with
    | None => Ok 0%N
    | Some _ => k ← ni_following im h child; Ok (wadd k 1)
    end.
  Fixpoint arity_loop (fuel : nat) (h : heap) (maxe : N) (child : ptr) (arity : N) : res N :=
    match fuel with
    | 0 => Err OutOfFuel
    | S fuel =>
        match child with
        | None => Ok arity
        | Some _ =>
            if (arity =? maxe)%N then Ok arity
            else
              fc ← op_first (ni_ops im h) child;
              a0 ← first_count h fc;
              a ← arity_loop fuel h maxe fc a0;
              nx ← op_next (ni_ops im h) child;
              arity_loop fuel h maxe nx (N.max arity a)
        end
    end.
  Definition calculate_arity (h : heap) (p : ptr) (maxe : N) : res N :=
    fc ← op_first (ni_ops im h) p;
    a0 ← first_count h fc;
    arity_loop F h maxe fc a0.

  (** tree_base.hpp 200-202 [empty] *)
  Definition tree_empty (t : tree_rec) : bool := is_null (t_root t).
  (** tree_base.hpp 208-213 [size]: the value and the cache (mutable). *)
  Definition size_of (h : heap) (t : tree_rec) : res (N * tree_rec) :=
    if negb (tree_empty t) && (t_size t =? 0)%N
    then s ← ni_size im F h (t_root t); Ok (s, TreeRec (t_root t) s (t_arity t) (t_nav t))
    else Ok (t_size t, t).
  (** tree_base.hpp 215-224 [arity] *)
  Definition max_expected : N := if ni_binary im then 2%N else (W64 - 1)%N.
  Definition arity_of (h : heap) (t : tree_rec) : res (N * tree_rec) :=
    if negb (tree_empty t) && (t_arity t =? 0)%N
    then fc ← op_first (ni_ops im h) (t_root t);
         match fc with
         | None => Ok (t_arity t, t)
         | Some _ => a ← calculate_arity h (t_root t) max_expected;
                     Ok (a, TreeRec (t_root t) (t_size t) a (t_nav t))
         end
    else Ok (t_arity t, t).
  Definition tree_size (w : world) (i : tid) : res (N * world) :=
    t ← get_tree w i; '(s, t') ← size_of (w_heap w) t; Ok (s, set_tree w i t').
  Definition tree_arity (w : world) (i : tid) : res (N * world) :=
    t ← get_tree w i; '(s, t') ← arity_of (w_heap w) t; Ok (s, set_tree w i t').

  (** tree.hpp 400-408 [assign] *)
  Definition assign (w : world) (i : tid) (root : ptr) (size arity : N) : res world :=
    t ← get_tree w i;
    h ← (match t_root t with
         | None => Ok (w_heap w)
         | Some _ => deallocate F (w_heap w) (t_root t)
         end);
    Ok (set_tree (set_heap w h) i (TreeRec root size arity root)).
  (** tree.hpp 410-415 [nullify] *)
  Definition nullify (w : world) (i : tid) : world := set_tree w i (TreeRec None 0 0 None).
  (** tree.hpp 423-425 [clear] *)
  Definition clear (w : world) (i : tid) : res world := assign w i None 0 0.

  (** tree.hpp 71-72 default constructor *)
  Definition construct_empty (w : world) (i : tid) : res world :=
    Ok (set_tree w i (TreeRec None 0 0 None)).
  (** tree.hpp 135-155 construction from a literal *)
  Definition construct_struct (w : world) (i : tid) (s : snode V) : res world :=
    '(a, h) ← ni_from_struct im al (w_heap w) s;
    Ok (set_tree (set_heap w h) i (TreeRec (Some a) (subtree_size s) (subtree_arity s) (Some a))).
  (** tree.hpp 84-108 copy construction *)
  Definition copy_root (h : heap) (t : tree_rec) : res (ptr * heap) :=
    match t_root t with
    | None => Ok (None, h)
    | Some _ => '(a, h') ← ni_copy im F al h (t_root t); Ok (Some a, h')
    end.
  Definition construct_copy (w : world) (i j : tid) : res world :=
    t ← get_tree w j;
    '(p, h) ← copy_root (w_heap w) t;
    Ok (set_tree (set_heap w h) i (TreeRec p (t_size t) (t_arity t) p)).
  (** tree.hpp 110-124 move construction *)
  Definition construct_move (w : world) (i j : tid) : res world :=
    t ← get_tree w j;
    Ok (nullify (set_tree w i (TreeRec (t_root t) (t_size t) (t_arity t) (t_root t))) j).
  (** tree.hpp 160-162 destructor *)
  Definition destroy (w : world) (i : tid) : res world :=
    w1 ← clear w i; Ok (World (w_heap w1) (delete i (w_trees w1))).
  (** tree.hpp 167-185 copy assignment *)
  Definition assign_copy (w : world) (i j : tid) : res world :=
    t ← get_tree w j;
    '(p, h) ← copy_root (w_heap w) t;
    assign (set_heap w h) i p (t_size t) (t_arity t).
  (** tree.hpp 171-185 copy assignment from a view (tree_base), whose attributes
      are [t] (see [view_of] below); the view's nodes live in the same heap. *)
  Definition assign_view (w : world) (i : tid) (t : tree_rec) : res world :=
    '(p, h) ← copy_root (w_heap w) t;
    assign (set_heap w h) i p (t_size t) (t_arity t).
  (** tree.hpp 188-199 move assignment *)
  Definition assign_move (w : world) (i j : tid) : res world :=
    t ← get_tree w j;
    w1 ← assign w i (t_root t) (t_size t) (t_arity t);
    Ok (nullify w1 j).
  (** tree.hpp 201-224 assignment from a literal *)
  Definition assign_struct (w : world) (i : tid) (s : snode V) : res world :=
    '(a, h) ← ni_from_struct im al (w_heap w) s;
    assign (set_heap w h) i (Some a) (subtree_size s) (subtree_arity s).
  (** tree.hpp 434-442, 793-795 [swap] *)
  Definition swap (w : world) (i j : tid) : res world :=
    a ← get_tree w i; b ← get_tree w j;
    Ok (set_tree (set_tree w i b) j a).

  (** tree_base.hpp 278-288 [operator==(tree_base)].  C++'s [||] stops at the
      first true operand; the caches filled so far are kept. *)
  Definition tree_eq (w : world) (i j : tid) : res (bool * world) :=
    a ← get_tree w i; b ← get_tree w j;
    if negb (Bool.eqb (tree_empty a) (tree_empty b)) then Ok (false, w)
    else
      '(s1, w1) ← tree_size w i; '(s2, w2) ← tree_size w1 j;
      if negb (s1 =? s2)%N then Ok (false, w2)
      else
        '(r1, w3) ← tree_arity w2 i; '(r2, w4) ← tree_arity w3 j;
        if negb (r1 =? r2)%N then Ok (false, w4)
        else if is_null (t_root a) && is_null (t_root b) then Ok (true, w4)
        else e ← ni_eq im F (w_heap w4) (w_heap w4) (t_root a) (t_root b); Ok (e, w4).

  (** The same comparison for objects outside the world (views, whose attributes
      are [a] and [b]); the filled caches of the views are dropped. *)
  Definition base_eq (h : heap) (a b : tree_rec) : res bool :=
    if negb (Bool.eqb (tree_empty a) (tree_empty b)) then Ok false
    else
      '(s1, a1) ← size_of h a; '(s2, b1) ← size_of h b;
      if negb (s1 =? s2)%N then Ok false
      else
        '(r1, _) ← arity_of h a1; '(r2, _) ← arity_of h b1;
        if negb (r1 =? r2)%N then Ok false
        else if is_null (t_root a) && is_null (t_root b) then Ok true
        else ni_eq im F h h (t_root a) (t_root b).

  (** tree_base.hpp 290-306 [operator==(struct_node)]: [LEmpty] is 304-306. *)
  Definition tree_eq_struct (w : world) (i : tid) (s : snode V) : res (bool * world) :=
    a ← get_tree w i;
    if is_empty_node s then Ok (tree_empty a, w)
    else
      '(s1, w1) ← tree_size w i;
      if negb (s1 =? subtree_size s)%N then Ok (false, w1)
      else
        '(r1, w2) ← tree_arity w1 i;
        if negb (r1 =? subtree_arity s)%N then Ok (false, w2)
        else match t_root a with
             | None => Ok (false, w2)
             | Some _ => e ← ni_eq_struct im (w_heap w2) (t_root a) s; Ok (e, w2)
             end.

  (** tree_iterator.hpp 299-301, policy_base.hpp 139-145,
      breadth_first.hpp 121-137 [update(current, replacement)]. *)
  Definition it_update (h : heap) (it : iter) (cur replacement : ptr) : res iter :=
    let nav := tree_nav h (it_root it) in
    open ← (match it_kind it with
            | BreadthFirst =>
                fc ← nav_first nav cur;
                open1 ← (match fc with
                         | Some _ => b ← back (it_open it); p ← nav_parent nav b;
                                     _ ← guard_res (ptr_eqb p cur); pop_back (it_open it)
                         | None => Ok (it_open it)
                         end);
                c ← (match replacement with None => Ok None | Some _ => nav_first nav replacement end);
                Ok (match c with Some _ => open1 ++ [c] | None => open1 end)
            | _ => Ok (it_open it)
            end);
    Ok (Iter (it_kind it)
          (if ptr_eqb cur (it_cur it) then replacement else it_cur it)
          (it_root it) open (it_initial it)).

  (** tree.hpp 284-304 [replace_node]; the returned unique_ptr is the first
      component. *)
  Definition replace_node (w : world) (i : tid) (replaced replacement : ptr) (rsize rarity : N)
    : res (ptr * world) :=
    match replaced with
    | None => Ok (None, w)
    | Some _ =>
        t ← get_tree w i;
        _ ← guard_res (negb (is_null (t_root t)));
        h ← ni_replace_with im F (w_heap w) replaced replacement;
        if ptr_eqb replaced (t_root t)
        then Ok (replaced, set_tree (set_heap w h) i (TreeRec (t_root t) rsize rarity (t_nav t)))
        else
          fc ← op_first (ni_ops im h) replaced;
          match fc with
          | None =>
              Ok (replaced, set_tree (set_heap w h) i
                              (TreeRec (t_root t) (wadd (t_size t) (wsub rsize 1)) 0 (t_nav t)))
          | Some _ =>
              Ok (replaced, set_tree (set_heap w h) i (TreeRec (t_root t) 0 0 (t_nav t)))
          end
    end.
  (** A unique_ptr with the deleter of allocator_utility.hpp 62-74 going out of
      scope. *)
  Definition drop (w : world) (p : ptr) : res world :=
    h ← deallocate F (w_heap w) p; Ok (set_heap w h).

  (** tree.hpp 306-339 [modify_subtree]; [node] was released from its
      unique_ptr first (312), so a throw does not free it. *)
  Definition modify_subtree (w : world) (i : tid) (pos : iter) (node : ptr) (rsize rarity : N)
    : out world iter :=
    res_out (get_tree w i) (fun t =>
    match it_cur pos with
    | Some _ =>
        res_out (_ ← guard_res (negb (is_null (t_root t))); it_update (w_heap w) pos (it_cur pos) node) (fun pos' =>
        if ptr_eqb (it_cur pos) (t_root t)
        then of_res (w1 ← assign w i node rsize rarity; Ok (pos', w1))
        else of_res ('(old, w1) ← replace_node w i (it_cur pos) node rsize rarity;
                     w2 ← drop w1 old; Ok (pos', w2)))
    | None =>
        match t_root t with
        | None => of_res (w1 ← assign w i node rsize rarity; Ok (pos, w1))
        | Some _ => Throw w
        end
    end).

  (** tree.hpp 341-375 [add_child]; [node] is still held by a unique_ptr at the
      throws, so it is dropped. *)
  Definition add_child (first : bool) (w : world) (i : tid) (pos : iter) (node : ptr) (rsize rarity : N)
    : out world iter :=
    match it_cur pos with
    | None => res_out (drop w node) Throw
    | Some _ =>
        let target := it_cur pos in
        res_out (ni_children im (w_heap w) target) (fun k =>
        if ni_binary im && (k =? 2)%N then res_out (drop w node) Throw
        else of_res (
          '(_, h) ← (if first then ni_prepend im F (w_heap w) target node
                     else ni_append im F (w_heap w) target node);
          t ← get_tree w i;
          fc ← op_first (ni_ops im h) target;
          local ← (match fc with
                   | Some _ => k ← ni_following im h fc; Ok (wadd k 1)
                   | None => Ok 1%N
                   end);
          let t' := TreeRec (t_root t) (wadd (t_size t) rsize)
                      (N.max rarity (N.max (t_arity t) local)) (t_nav t) in
          it ← get_instance F (tree_nav h) (it_kind pos) target (t_nav t);
          Ok (it, set_tree (set_heap w h) i t')))
    end.

  (** What is inserted: a value, a literal, a copy of a tree, a copy of what a
      view shows, a moved tree. *)
  Inductive source : Type :=
  | SrcValue (v : V)
  | SrcStruct (s : snode V)
  | SrcCopy (j : tid)
  | SrcView (t : tree_rec)
  | SrcMove (j : tid).

  (** tree.hpp 451-559 [insert_over], [emplace_over].  The arguments of
      [modify_subtree] are evaluated left to right here; the value does not
      depend on the order (size() of the moved tree is 0-recomputed or cached). *)
  Definition insert_over (w : world) (i : tid) (pos : iter) (src : source) : out world iter :=
    match src with
    | SrcValue v =>
        res_out (ni_from_value im al (w_heap w) v) (fun '(a, h) =>
        modify_subtree (set_heap w h) i pos (Some a) 1 0)
    | SrcStruct s =>
        res_out (ni_from_struct im al (w_heap w) s) (fun '(a, h) =>
        modify_subtree (set_heap w h) i pos (Some a) (subtree_size s) (subtree_arity s))
    | SrcCopy j =>
        res_out (t ← get_tree w j; copy_root (w_heap w) t) (fun '(p, h) =>
        res_out ('(s, w1) ← tree_size (set_heap w h) j; '(r, w2) ← tree_arity w1 j; Ok (s, r, w2))
          (fun '(s, r, w2) => modify_subtree w2 i pos p s r))
    | SrcView t =>
        res_out (copy_root (w_heap w) t) (fun '(p, h) =>
        res_out ('(s, t1) ← size_of h t; '(r, _) ← arity_of h t1; Ok (s, r))
          (fun '(s, r) => modify_subtree (set_heap w h) i pos p s r))
    | SrcMove j =>
        if decide (i = j) then Throw w
        else
          res_out (t ← get_tree w j; replace_node w j (t_root t) None 0 0) (fun '(p, w1) =>
          res_out ('(s, w2) ← tree_size w1 j; '(r, w3) ← tree_arity w2 j; Ok (s, r, w3))
            (fun '(s, r, w3) =>
               out_bind (modify_subtree w3 i pos p s r) (fun it w4 => Ret it (nullify w4 j))))
    end.

  (** tree.hpp 561-747 [insert_child_front], [insert_child_back],
      [emplace_child_front], [emplace_child_back].  [emplace] selects the
      emplacing overloads, which differ from 575-589 in the size they pass. *)
  Definition insert_child (first emplace : bool) (w : world) (i : tid) (pos : iter) (src : source)
    : out world iter :=
    match src with
    | SrcValue v =>
        res_out (ni_from_value im al (w_heap w) v) (fun '(a, h) =>
        add_child first (set_heap w h) i pos (Some a) 1 0)
    | SrcStruct s =>
        res_out (ni_from_struct im al (w_heap w) s) (fun '(a, h) =>
        if first && negb emplace
        then add_child first (set_heap w h) i pos (Some a) 1 0
        else add_child first (set_heap w h) i pos (Some a) (subtree_size s) (subtree_arity s))
    | SrcCopy j =>
        res_out (t ← get_tree w j; copy_root (w_heap w) t) (fun '(p, h) =>
        add_child first (set_heap w h) i pos p 1 0)
    | SrcView t =>
        res_out (copy_root (w_heap w) t) (fun '(p, h) =>
        add_child first (set_heap w h) i pos p 1 0)
    | SrcMove j =>
        if decide (i = j) then Throw w
        else
          res_out (t ← get_tree w j; replace_node w j (t_root t) None 0 0) (fun '(p, w1) =>
          out_bind (add_child first w1 i pos p 1 0) (fun it w2 => Ret it (nullify w2 j)))
    end.

  (** tree.hpp 377-398 [erase_subtree] *)
  Definition erase_subtree (w : world) (i : tid) (pos : iter) : out world unit :=
    res_out (get_tree w i) (fun t =>
    match it_cur pos with
    | Some _ =>
        res_out (_ ← guard_res (negb (is_null (t_root t))); it_update (w_heap w) pos (it_cur pos) None) (fun _ =>
        if ptr_eqb (it_cur pos) (t_root t)
        then of_res (w1 ← clear w i; Ok ((), w1))
        else of_res ('(old, w1) ← replace_node w i (it_cur pos) None 0 0;
                     w2 ← drop w1 old; Ok ((), w2)))
    | None =>
        match t_root t with Some _ => Throw w | None => Ret () w end
    end).

  (** tree.hpp 749-756 [erase(position)]; the iterator is a post-order one,
      made by [craft_non_constant_iterator] (tree_iterator.hpp 147-160). *)
  Definition erase (w : world) (i : tid) (pos : iter) : out world iter :=
    res_out (get_instance F (tree_nav (w_heap w)) PostOrder (it_cur pos) (it_root pos)) (fun it =>
    res_out (it_incr F (tree_nav (w_heap w)) it) (fun result =>
    out_bind (erase_subtree w i it) (fun _ w1 =>
    of_res (t ← get_tree w1 i;
            if tree_empty t
            then e ← tree_end F (tree_nav (w_heap w1)) PostOrder (t_root t); Ok (e, w1)
            else Ok (result, w1))))).

  (** tree.hpp 758-768 [erase(first, last)]; [k] bounds the while loop. *)
  Fixpoint erase_loop (k : nat) (w : world) (i : tid) (first last : iter) : out world unit :=
    match k with
    | 0 => Bad OutOfFuel
    | S k =>
        if it_eqb first last then Ret () w
        else
          res_out (it_incr F (tree_nav (w_heap w)) first) (fun next =>
          out_bind (erase_subtree w i first) (fun _ w1 => erase_loop k w1 i next last))
    end.
  Definition erase_range (w : world) (i : tid) (first last : iter) : out world iter :=
    out_bind (erase_loop F w i first last) (fun _ w1 =>
    of_res (t ← get_tree w1 i;
            if tree_empty t
            then e ← tree_end F (tree_nav (w_heap w1)) PostOrder (t_root t); Ok (e, w1)
            else r ← get_instance F (tree_nav (w_heap w1)) PostOrder (it_cur last) (it_root last);
                 Ok (r, w1))).
End Tree.
Arguments world Nd : clear implicits.
Arguments World {Nd} _ _.
Arguments source V : clear implicits.

(** nary_tree.hpp 64-74 [operator==(binary_tree)]: an n-ary tree against a
    binary tree (binary and n-ary nodes are different types, hence two heaps).
    viewer/nary_tree_view.hpp 25-34 is the same without the [empty] test, which
    changes nothing: an empty tree has size 0 and a non-empty one does not. *)
Definition nary_eq_binary {V} `{EqDecision V} (F : nat)
    (nh : gmap addr (nnode V)) (t : tree_rec) (bh : gmap addr (bnode V)) (b : tree_rec) : res bool :=
  if negb (Bool.eqb (tree_empty t) (tree_empty b)) then Ok false
  else
    '(s1, t1) ← size_of F (nary_impl V) nh t;
    '(s2, b1) ← size_of F (binary_impl V) bh b;
    if negb (s1 =? s2)%N then Ok false
    else
      '(r1, _) ← arity_of F (nary_impl V) nh t1;
      '(r2, _) ← arity_of F (binary_impl V) bh b1;
      if negb (r1 =? r2)%N then Ok false
      else match t_root t with
           | None => Ok true
           | Some _ => n_eq_binary F nh bh (t_root t) (t_root b)
           end.

(** The new root, size and arity used by the next two functions. *)
Definition nary_copy_binary {V} `{EqDecision V} (F : nat) (al : allocator (nnode V))
    (h : gmap addr (nnode V)) (bh : gmap addr (bnode V)) (b : tree_rec)
  : res (ptr * gmap addr (nnode V) * N * N) :=
  '(p, h1) ← (match t_root b with
              | None => Ok (None, h)
              | Some _ => '(a, h') ← n_from_binary F al bh h (t_root b); Ok (Some a, h')
              end);
  '(s, b1) ← size_of F (binary_impl V) bh b;
  '(r, _) ← arity_of F (binary_impl V) bh b1;
  Ok (p, h1, s, r).
(** nary_tree.hpp 31-42: an n-ary tree constructed from a binary tree. *)
Definition nary_construct_binary {V} `{EqDecision V} (F : nat) (al : allocator (nnode V))
    (w : world (nnode V)) (i : tid) (bh : gmap addr (bnode V)) (b : tree_rec)
  : res (world (nnode V)) :=
  '(p, h, s, r) ← nary_copy_binary F al (w_heap w) bh b;
  Ok (set_tree (set_heap w h) i (TreeRec p s r p)).
(** nary_tree.hpp 47-59: assignment from a binary tree. *)
Definition nary_assign_binary {V} `{EqDecision V} (F : nat) (al : allocator (nnode V))
    (w : world (nnode V)) (i : tid) (bh : gmap addr (bnode V)) (b : tree_rec)
  : res (world (nnode V)) :=
  '(p, h, s, r) ← nary_copy_binary F al (w_heap w) bh b;
  assign F (nary_impl V) (set_heap w h) i p s r.

(** viewer/tree_view.hpp 36-57: the tree_base part of a view made from an
    iterator ([t] is the tree the iterator belongs to); 28-34: of a whole tree
    is the same record. *)
Definition view_of (t : tree_rec) (pos : iter) : tree_rec :=
  match it_cur pos with
  | None => TreeRec None 0 0 None
  | Some _ =>
      if ptr_eqb (it_cur pos) (t_nav t)
      then TreeRec (it_cur pos) (t_size t) (t_arity t) (it_cur pos)
      else TreeRec (it_cur pos) 0 0 (it_cur pos)
  end.
