(** Nav.v: model of the navigators
      include/TreeDS/node/navigator/navigator_base.hpp
      include/TreeDS/node/navigator/node_navigator.hpp
      include/TreeDS/node/navigator/node_pred_navigator.hpp
    and of [keep_calling] (include/TreeDS/utility.hpp).

    A navigator is a class template over the node pointer type whose methods are
    looked up in the most derived class ([cast()]); here it is a record of
    functions.  All loops take explicit fuel. *)
From Verif Require Import Base BinaryNode NaryNode.

(** The methods of a node type that the navigators call. *)
Record node_ops : Type := NodeOps {
  op_parent : ptr -> res ptr;
  op_prev : ptr -> res ptr;
  op_next : ptr -> res ptr;
  op_first : ptr -> res ptr;
  op_last : ptr -> res ptr;
  op_left : ptr -> res ptr;
  op_right : ptr -> res ptr;
  op_child : ptr -> N -> res ptr
}.

Definition bin_ops {V} (h : gmap addr (bnode V)) : node_ops :=
  NodeOps (b_parent h) (b_prev h) (b_next h) (b_first h) (b_last h) (b_left h) (b_right h) (b_child h).

(** N-ary nodes have no left/right child (calling them does not compile). *)
Definition nary_ops {V} (h : gmap addr (nnode V)) : node_ops :=
  NodeOps (n_parent h) (n_prev h) (n_next h) (n_first h) (n_last h)
    (fun _ => Err AssertFail) (fun _ => Err AssertFail) (n_child h).

(** The navigator's interface. *)
Record navigator : Type := Navigator {
  nav_root : ptr;
  nav_is_root : ptr -> bool;
  nav_is_first : ptr -> res bool;
  nav_is_last : ptr -> res bool;
  nav_is_left : ptr -> res bool;
  nav_is_right : ptr -> res bool;
  nav_parent : ptr -> res ptr;
  nav_prev : ptr -> res ptr;
  nav_next : ptr -> res ptr;
  nav_first : ptr -> res ptr;
  nav_last : ptr -> res ptr;
  nav_left : ptr -> res ptr;
  nav_right : ptr -> res ptr;
  nav_child : ptr -> N -> res ptr
}.

(** navigator_base.hpp 224-294: the base-class methods, for root [r]. *)
Section NavigatorBase.
  Variable ops : node_ops.
  Variable r : ptr.

  (** 224-226 *)
  Definition base_is_root (p : ptr) : bool := ptr_eqb p r.
  (** 228-248: [!is_root(node) && node == node->get_parent()->get_XXX_child()] *)
  Definition base_is_child (get : ptr -> res ptr) (p : ptr) : res bool :=
    if base_is_root p then Ok false
    else q ← op_parent ops p; c ← get q; Ok (ptr_eqb p c).
  (** 258-268: [!is_root(node) ? node->get_XXX() : NodePtr()] *)
  Definition base_unless_root (get : ptr -> res ptr) (p : ptr) : res ptr :=
    if base_is_root p then Ok None else get p.

  (** node_navigator.hpp 10-31 overrides nothing. *)
  Definition node_navigator : navigator :=
    Navigator r base_is_root
      (base_is_child (op_first ops)) (base_is_child (op_last ops))
      (base_is_child (op_left ops)) (base_is_child (op_right ops))
      (base_unless_root (op_parent ops))
      (base_unless_root (op_prev ops)) (base_unless_root (op_next ops))
      (op_first ops) (op_last ops) (op_left ops) (op_right ops) (op_child ops).

  (** node_pred_navigator.hpp 58-124.  [pred] reads the node, so it is given
      the pointer.  The loop of 60-68 calls [get_prev_sibling(node)] with the
      original argument each time, as in the code. *)
  Variable pred : ptr -> res bool.
  Variable fuel : nat.

  Fixpoint pred_prev_loop (k : nat) (node result : ptr) : res ptr :=
    match k with
    | 0 => Err OutOfFuel
    | S k =>
        match result with
        | None => Ok result
        | Some _ =>
            b ← pred result;
            if b : bool then Ok result
            else result' ← base_unless_root (op_prev ops) node; pred_prev_loop k node result'
        end
    end.
  Definition pred_prev (node : ptr) : res ptr :=
    result ← base_unless_root (op_prev ops) node; pred_prev_loop fuel node result.

  (** 70-78 *)
  Fixpoint pred_next_loop (k : nat) (result : ptr) : res ptr :=
    match k with
    | 0 => Err OutOfFuel
    | S k =>
        match result with
        | None => Ok result
        | Some _ =>
            b ← pred result;
            if b : bool then Ok result
            else result' ← base_unless_root (op_next ops) result; pred_next_loop k result'
        end
    end.
  Definition pred_next (node : ptr) : res ptr :=
    result ← base_unless_root (op_next ops) node; pred_next_loop fuel result.

  (** 80-87, 89-96 *)
  Definition pred_first (node : ptr) : res ptr :=
    result ← op_first ops node;
    match result with
    | None => Ok None
    | Some _ => b ← pred result; if b : bool then Ok result else pred_next result
    end.
  Definition pred_last (node : ptr) : res ptr :=
    result ← op_last ops node;
    match result with
    | None => Ok None
    | Some _ => b ← pred result; if b : bool then Ok result else pred_prev result
    end.
  (** 98-120 *)
  Definition pred_side (get : ptr -> res ptr) (node : ptr) : res ptr :=
    result ← get node;
    match result with
    | None => Ok None
    | Some _ => b ← pred result; if b : bool then Ok result else Ok None
    end.

  Definition node_pred_navigator : navigator :=
    Navigator r base_is_root
      (base_is_child (op_first ops)) (base_is_child (op_last ops))
      (base_is_child (op_left ops)) (base_is_child (op_right ops))
      (base_unless_root (op_parent ops))
      pred_prev pred_next pred_first pred_last
      (pred_side (op_left ops)) (pred_side (op_right ops)) (op_child ops).
End NavigatorBase.

(** utility.hpp 153-165 [keep_calling(from, call, test, result)].  [S] is the
    state the lambdas capture by reference. *)
Section KeepCalling.
  Context {S : Type}.
  Variable call : S -> ptr -> res (ptr * S).
  Variable test : S -> ptr -> ptr -> res (bool * S).
  Variable result : S -> ptr -> ptr -> res (ptr * S).

  Fixpoint keep_calling_loop (fuel : nat) (prev next : ptr) (s : S) : res (ptr * S) :=
    match fuel with
    | 0 => Err OutOfFuel
    | Datatypes.S fuel =>
        match next with
        | None => Ok (prev, s)
        | Some _ =>
            '(b, s1) ← test s prev next;
            if b : bool then result s1 prev next
            else '(next', s2) ← call s1 next; keep_calling_loop fuel next next' s2
        end
    end.
  Definition keep_calling (fuel : nat) (from : ptr) (s : S) : res (ptr * S) :=
    '(next, s1) ← call s from; keep_calling_loop fuel from next s1.

  (** 174-183 [keep_calling(from, call)]. *)
  Fixpoint keep_calling0_loop (fuel : nat) (prev next : ptr) (s : S) : res (ptr * S) :=
    match fuel with
    | 0 => Err OutOfFuel
    | Datatypes.S fuel =>
        match next with
        | None => Ok (prev, s)
        | Some _ => '(next', s1) ← call s next; keep_calling0_loop fuel next next' s1
        end
    end.
  Definition keep_calling0 (fuel : nat) (from : ptr) (s : S) : res (ptr * S) :=
    '(next, s1) ← call s from; keep_calling0_loop fuel from next s1.
End KeepCalling.

(** A lambda that captures nothing it modifies. *)
Definition pure_call {S} (f : ptr -> res ptr) : S -> ptr -> res (ptr * S) :=
  fun s p => q ← f p; Ok (q, s).
(** [keep_calling(from, call)] for such a lambda. *)
Definition keep_calling1 (fuel : nat) (from : ptr) (f : ptr -> res ptr) : res ptr :=
  '(p, _) ← keep_calling0 (S := unit) (pure_call f) fuel from (); Ok p.

(** navigator_base.hpp 62-217; [left] is the template parameter [Left].
    [relative_level] is an [int] in the code (unbounded here). *)
Section NavigatorAlgorithms.
  Variable nav : navigator.

  (** first/last child, prev/next sibling, is_first/is_last selected by Left. *)
  Definition side_child (left : bool) := if left then nav_first nav else nav_last nav.
  Definition side_sibling (left : bool) := if left then nav_prev nav else nav_next nav.
  Definition side_is_end (left : bool) := if left then nav_is_first nav else nav_is_last nav.

  (** 68-92: climb until a node with a sibling on that side. *)
  Definition climb (F : nat) (left : bool) (from : ptr) (rl : Z) : res (ptr * Z) :=
    keep_calling (pure_call (nav_parent nav))
      (fun rl child _ => b ← side_is_end left child; Ok (negb b, (rl - 1)%Z))
      (fun rl child _ => q ← side_sibling left child; Ok (q, (rl + 1)%Z))
      F from rl.
  (** 98-116 / 145-164: descend until the level is reached or no more children. *)
  Definition descend (F : nat) (first : bool) (from : ptr) (rl : Z) : res (ptr * Z) :=
    keep_calling (pure_call (side_child first))
      (fun rl _ _ => Ok ((0 <=? rl + 1)%Z, (rl + 1)%Z))
      (fun rl _ child => Ok (child, rl))
      F from rl.

  (** 62-119 [get_other_branch]; [k] bounds the do-while loop, [F] each inner
      loop. *)
  Fixpoint other_branch_loop (F k : nat) (left : bool) (deepest : ptr) (rl : Z) : res ptr :=
    match k with
    | 0 => Err OutOfFuel
    | S k =>
        '(crossed, rl1) ← climb F left deepest rl;
        if ptr_eqb crossed (nav_root nav) then Ok None
        else if (rl1 =? 0)%Z then Ok crossed
        else
          '(deepest', rl2) ← descend F (negb left) crossed rl1;
          if (rl2 <? 0)%Z then other_branch_loop F k left deepest' rl2 else Ok deepest'
    end.
  Definition get_other_branch (F : nat) (left : bool) (node : ptr) : res ptr :=
    other_branch_loop F F left node 0.

  (** 121-172 [get_row_extremum]. *)
  Fixpoint row_extremum_loop (F k : nat) (left : bool) (crossed : ptr) (rl : Z) : res ptr :=
    match k with
    | 0 => Err OutOfFuel
    | S k =>
        '(deepest, rl1) ← descend F left crossed rl;
        if (rl1 =? 0)%Z then Ok deepest
        else
          crossed' ← get_other_branch F (negb left) deepest;
          if (rl1 <? 0)%Z then row_extremum_loop F k left crossed' rl1 else Ok deepest
    end.
  Definition get_row_extremum (F : nat) (left : bool) (from : ptr) : res ptr :=
    if ptr_eqb from (nav_root nav) then Ok from
    else
      '(crossed, rl) ←
        keep_calling (pure_call (nav_parent nav))
          (fun rl _ parent => Ok (ptr_eqb parent (nav_root nav), (rl - 1)%Z))
          (fun rl _ root => Ok (root, rl))
          F from 0%Z;
      row_extremum_loop F F left crossed rl.

  (** 174-183 [get_highest_leaf]. *)
  Definition get_highest_leaf (F : nat) (left : bool) : res ptr :=
    keep_calling1 F (nav_root nav) (side_child left).

  (** 185-217 [get_deepest_extremum_child]. *)
  Fixpoint deepest_loop (F k : nat) (left : bool) (cur deepest : ptr) (cl dl : Z) : res ptr :=
    match k with
    | 0 => Err OutOfFuel
    | S k =>
        '(cur1, cl1) ←
          keep_calling (pure_call (side_child left))
            (fun cl _ _ => Ok (false, (cl + 1)%Z))
            (fun cl _ _ => Err NullDeref)   (* empty std::function, never called *)
            F cur cl;
        let '(deepest1, dl1) := if (dl <? cl1)%Z then (cur1, cl1) else (deepest, dl) in
        cur2 ← get_other_branch F (negb left) cur1;
        match cur2 with
        | None => Ok deepest1
        | Some _ => deepest_loop F k left cur2 deepest1 cl1 dl1
        end
    end.
  Definition get_deepest_extremum_child (F : nat) (left : bool) : res ptr :=
    deepest_loop F F left (nav_root nav) (nav_root nav) 0 0.
End NavigatorAlgorithms.
