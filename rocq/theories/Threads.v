(** Threads.v: several threads calling const member functions of the same tree
    objects at the same time (tree_base.hpp).

    [size()] and [arity()] are const but fill the [mutable] members
    [size_value] and [arity_value] on demand (tree_base.hpp 98-101, 208-224), and
    operator== calls both.  Nothing else is written by a const member function:
    nodes, [root_node] and [navigator] keep their value, so they are read once,
    when the call is made, and only the reads and writes of the two mutable
    members are interleaved.  The interleaving is sequentially consistent with
    one access at a time; C++ promises that much only for executions without a
    data race, which is what [race] is about. *)
From Verif Require Import Base Spec StructNode BinaryNode NaryNode Nav Policy Tree User Kinds TreeSpec.

(** The two mutable members of a tree object (tree_base.hpp 98-101). *)
Inductive field : Type := SizeOf (i : tid) | ArityOf (i : tid).

(** What a call returns. *)
Inductive answer (V : Type) : Type :=
| ANum (n : N)
| ABool (b : bool)
| ANodes (l : list (addr * V)).
Arguments ANum {V} _.
Arguments ABool {V} _.
Arguments ANodes {V} _.

(** The const calls: empty(), size(), arity(), == with a tree, == with a
    literal, and a loop over a policy with const iterators. *)
Inductive call (V : Type) : Type :=
| CEmpty (i : tid)
| CSize (i : tid)
| CArity (i : tid)
| CEq (i j : tid)
| CEqLit (i : tid) (l : lit V)
| CLoop (i : tid) (k : kind).
Arguments CEmpty {V} _.
Arguments CSize {V} _.
Arguments CArity {V} _.
Arguments CEq {V} _ _.
Arguments CEqLit {V} _ _.
Arguments CLoop {V} _ _.

(** What is left to do for a thread: the accesses to the mutable members, and
    at the end the answers of its calls. *)
Inductive prog (V : Type) : Type :=
| Done (l : list (answer V))
| Fail (e : err)
| Read (f : field) (k : N -> prog V)
| Write (f : field) (n : N) (p : prog V).
Arguments Done {V} _.
Arguments Fail {V} _.
Arguments Read {V} _ _.
Arguments Write {V} _ _ _.

Definition ok {V A} (r : res A) (k : A -> prog V) : prog V :=
  match r with Ok a => k a | Err e => Fail e end.

Section Calls.
  Context {V Nd : Type}.
  Variable F : nat.
  Variable im : node_impl V Nd.
  Variable w : world Nd.                  (* when the threads start *)
  Notation h := (w_heap w).

  (** tree_base.hpp 208-213 [size]: [size_value] is read (if the tree is not
      empty), perhaps written, and read again to be returned. *)
  Definition p_size (i : tid) (root : ptr) (k : N -> prog V) : prog V :=
    if is_null root then Read (SizeOf i) k
    else Read (SizeOf i) (fun s =>
      if (s =? 0)%N
      then ok (ni_size im F h root) (fun n => Write (SizeOf i) n (Read (SizeOf i) k))
      else Read (SizeOf i) k).
  (** tree_base.hpp 215-224 [arity] *)
  Definition p_arity (i : tid) (root : ptr) (k : N -> prog V) : prog V :=
    if is_null root then Read (ArityOf i) k
    else Read (ArityOf i) (fun r =>
      if (r =? 0)%N
      then ok (op_first (ni_ops im h) root) (fun fc =>
             match fc with
             | None => Read (ArityOf i) k
             | Some _ => ok (calculate_arity F im h root (max_expected im)) (fun n => Write (ArityOf i) n (Read (ArityOf i) k))
             end)
      else Read (ArityOf i) k).
  (** tree_base.hpp 278-288 [operator==(tree_base)] *)
  Definition p_eq (i j : tid) (a b : ptr) (k : bool -> prog V) : prog V :=
    if negb (Bool.eqb (is_null a) (is_null b)) then k false
    else p_size i a (fun s1 => p_size j b (fun s2 =>
      if negb (s1 =? s2)%N then k false
      else p_arity i a (fun r1 => p_arity j b (fun r2 =>
        if negb (r1 =? r2)%N then k false
        else if is_null a && is_null b then k true
        else ok (ni_eq im F h h a b) k)))).
  (** tree_base.hpp 290-306 [operator==(struct_node)] *)
  Definition p_eq_lit (i : tid) (a : ptr) (s : snode V) (k : bool -> prog V) : prog V :=
    if is_empty_node s then k (is_null a)
    else p_size i a (fun s1 =>
      if negb (s1 =? subtree_size s)%N then k false
      else p_arity i a (fun r1 =>
        if negb (r1 =? subtree_arity s)%N then k false
        else match a with
             | None => k false
             | Some _ => ok (ni_eq_struct im h a s) k
             end)).
  Definition p_call (c : call V) (k : answer V -> prog V) : prog V :=
    match c with
    | CEmpty i => ok (get_tree w i) (fun t => k (ABool (is_null (t_root t))))
    | CSize i => ok (get_tree w i) (fun t => p_size i (t_root t) (fun n => k (ANum n)))
    | CArity i => ok (get_tree w i) (fun t => p_arity i (t_root t) (fun n => k (ANum n)))
    | CEq i j => ok (get_tree w i) (fun t => ok (get_tree w j) (fun u => p_eq i j (t_root t) (t_root u) (fun b => k (ABool b))))
    | CEqLit i l => ok (get_tree w i) (fun t => p_eq_lit i (t_root t) (eval_lit l) (fun b => k (ABool b)))
    | CLoop i kd => ok (get_tree w i) (fun t => ok (iterate F im h kd (t_root t)) (fun l => k (ANodes l)))
    end.
  (** The calls of one thread, one after the other. *)
  Fixpoint p_calls (cs : list (call V)) (done : list (answer V)) : prog V :=
    match cs with
    | [] => Done done
    | c :: cs => p_call c (fun a => p_calls cs (done ++ [a]))
    end.
End Calls.

(** *** Interleaving *)
Definition get_field (T : gmap tid tree_rec) (f : field) : option N :=
  match f with SizeOf i => t_size <$> T !! i | ArityOf i => t_arity <$> T !! i end.
Definition put_field (T : gmap tid tree_rec) (f : field) (n : N) : gmap tid tree_rec :=
  match f with
  | SizeOf i => alter (fun t => TreeRec (t_root t) n (t_arity t) (t_nav t)) i T
  | ArityOf i => alter (fun t => TreeRec (t_root t) (t_size t) n (t_nav t)) i T
  end.

Section Run.
  Context {V Nd : Type}.
  Record state : Type := State { s_world : world Nd; s_threads : list (prog V) }.

  (** One access by thread [n]. *)
  Inductive access (n : nat) : state -> state -> Prop :=
  | do_read T H ps f k v : ps !! n = Some (Read f k) -> get_field T f = Some v ->
      access n (State (World H T) ps) (State (World H T) (<[n := k v]> ps))
  | do_write T H ps f v p : ps !! n = Some (Write f v p) -> is_Some (get_field T f) ->
      access n (State (World H T) ps) (State (World H (put_field T f v)) (<[n := p]> ps)).
  Definition step (s s' : state) : Prop := exists n, access n s s'.

  (** The next access of a thread: the member, and whether it is a write. *)
  Definition next (p : prog V) : option (field * bool) :=
    match p with Read f _ => Some (f, false) | Write f _ _ => Some (f, true) | _ => None end.
  (** Two threads are about to access the same member, one of them to write it:
      a data race. *)
  Definition race (s : state) : Prop :=
    exists n m p q f x y, n <> m /\ s_threads s !! n = Some p /\ s_threads s !! m = Some q /\
      next p = Some (f, x) /\ next q = Some (f, y) /\ (x = true \/ y = true).
End Run.
Arguments state : clear implicits.
Arguments State {V Nd} _ _.

Definition start {V Nd} (F : nat) (im : node_impl V Nd) (w : world Nd) (cs : list (list (call V))) : state V Nd :=
  State w (map (fun l => p_calls F im w l []) cs).

(** One thread alone. *)
Fixpoint solo {V} (T : gmap tid tree_rec) (p : prog V) : res (list (answer V) * gmap tid tree_rec) :=
  match p with
  | Done l => Ok (l, T)
  | Fail e => Err e
  | Read f k => match get_field T f with Some v => solo T (k v) | None => Err Dangling end
  | Write f v p => solo (put_field T f v) p
  end.
(** The same calls made with the functions of Tree.v. *)
Section Sequential.
  Context {V Nd : Type}.
  Variable F : nat.
  Variable im : node_impl V Nd.
  Definition plain_call (w : world Nd) (c : call V) : res (answer V * world Nd) :=
    match c with
    | CEmpty i => t ← get_tree w i; Ok (ABool (tree_empty t), w)
    | CSize i => '(n, w') ← tree_size F im w i; Ok (ANum n, w')
    | CArity i => '(n, w') ← tree_arity F im w i; Ok (ANum n, w')
    | CEq i j => '(b, w') ← tree_eq F im w i j; Ok (ABool b, w')
    | CEqLit i l => '(b, w') ← tree_eq_struct F im w i (eval_lit l); Ok (ABool b, w')
    | CLoop i k => t ← get_tree w i; l ← iterate F im (w_heap w) k (t_root t); Ok (ANodes l, w)
    end.
  Fixpoint plain_calls (w : world Nd) (cs : list (call V)) (done : list (answer V)) : res (list (answer V) * world Nd) :=
    match cs with
    | [] => Ok (done, w)
    | c :: cs => '(a, w') ← plain_call w c; plain_calls w' cs (done ++ [a])
    end.
End Sequential.

(** *** What the answers should be: [M] gives the contents of the trees *)
Section Right.
  Context {V Nd : Type}.
  Variable K : kind_data V Nd.
  Variable F : nat.
  Variable im : node_impl V Nd.
  Variable w : world Nd.
  Variable M : gmap tid (C K).

  Definition right (c : call V) (a : answer V) : Prop :=
    match c with
    | CEmpty i => exists x, M !! i = Some x /\ a = ABool (is_null (croot K x))
    | CSize i => exists x, M !! i = Some x /\ a = ANum (N.of_nat (length (caddrs K x)))
    | CArity i => exists x, M !! i = Some x /\ a = ANum (N.of_nat (carity K x))
    | CEq i j => exists x y b, M !! i = Some x /\ M !! j = Some y /\ a = ABool b /\ (b = true <-> cvals K x = cvals K y)
    | CEqLit i LEmpty => exists x b, M !! i = Some x /\ a = ABool b /\ (b = true <-> x = cnil K)
    | CEqLit i l => exists x b, M !! i = Some x /\ a = ABool b /\ (b = true <-> cvals K x = lit_vals K l)
    | CLoop i k => exists x l, M !! i = Some x /\ a = ANodes l /\ iterate F im (w_heap w) k (croot K x) = Ok l
    end.
  (** The calls considered: of live trees, with literals of the kind of tree;
      the policy of a loop must be one that works when nobody else runs. *)
  Definition callable (c : call V) : Prop :=
    match c with
    | CEmpty i | CSize i | CArity i => is_Some (M !! i)
    | CEq i j => is_Some (M !! i) /\ is_Some (M !! j)
    | CEqLit i l => is_Some (M !! i) /\ match l with LEmpty => True | _ => lit_ok K l end
    | CLoop i k => exists x l, M !! i = Some x /\ iterate F im (w_heap w) k (croot K x) = Ok l
    end.
End Right.
(** The trees a call reads. *)
Definition mentions {V} (c : call V) : list tid :=
  match c with
  | CEmpty i | CSize i | CArity i | CEqLit i _ | CLoop i _ => [i]
  | CEq i j => [i; j]
  end.
(** The stored size and arity of tree [i] are the right ones. *)
Definition known {V Nd} (K : kind_data V Nd) (w : world Nd) (M : gmap tid (C K)) (i : tid) : Prop :=
  forall t x, w_trees w !! i = Some t -> M !! i = Some x ->
    t_size t = N.of_nat (length (caddrs K x)) /\ t_arity t = N.of_nat (carity K x).
