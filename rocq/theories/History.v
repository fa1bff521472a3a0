(** History.v: histories of calls on a set of tree objects. *)
From Verif Require Import Base Spec StructNode BinaryNode NaryNode Nav Policy Tree User Rep EditSpec World Kinds TreeSpec.

(** The calls a program can make on tree objects, named by their identities. *)
Inductive call (V : Type) : Type :=
| CEmpty (i : tid)                            (* tree i; *)
| CLiteral (i : tid) (l : lit V)              (* tree i(n(...)(...)); *)
| CCopy (i j : tid)                           (* tree i(j); *)
| CMove (i j : tid)                           (* tree i(std::move(j)); *)
| CDestroy (i : tid)                          (* end of the lifetime of i *)
| CAssignCopy (i j : tid)                     (* i = j; *)
| CAssignMove (i j : tid)                     (* i = std::move(j); *)
| CAssignLiteral (i : tid) (l : lit V)        (* i = n(...)(...); *)
| CAssignView (i : tid) (t : tree_rec)        (* i = view; *)
| CClear (i : tid)                            (* i.clear(); *)
| CSwap (i j : tid)                           (* swap(i, j); *)
| CInsertOver (i : tid) (pos : iter) (src : source V)
| CInsertChild (first emplace : bool) (i : tid) (pos : iter) (src : source V)
| CErase (i : tid) (pos : iter)
| CEraseRange (i : tid) (first last : iter)
| CSize (i : tid)
| CArity (i : tid)
| CEqual (i j : tid)                          (* i == j *)
| CEqualLiteral (i : tid) (l : lit V).        (* i == n(...)(...) *)
Arguments CEmpty {V} _.
Arguments CLiteral {V} _ _.
Arguments CCopy {V} _ _.
Arguments CMove {V} _ _.
Arguments CDestroy {V} _.
Arguments CAssignCopy {V} _ _.
Arguments CAssignMove {V} _ _.
Arguments CAssignLiteral {V} _ _.
Arguments CAssignView {V} _ _.
Arguments CClear {V} _.
Arguments CSwap {V} _ _.
Arguments CInsertOver {V} _ _ _.
Arguments CInsertChild {V} _ _ _ _ _.
Arguments CErase {V} _ _.
Arguments CEraseRange {V} _ _ _.
Arguments CSize {V} _.
Arguments CArity {V} _.
Arguments CEqual {V} _ _.
Arguments CEqualLiteral {V} _ _.

Section History.
  Context {V Nd : Type}.
  Variable F : nat.
  Variable im : node_impl V Nd.
  Variable al : allocator Nd.
  Variable K : kind_data V Nd.

  Definition done (m : res (world Nd)) : out (world Nd) unit :=
    match m with Ok w => Ret () w | Err e => Bad e end.
  Definition forget {A} (o : out (world Nd) A) : out (world Nd) unit :=
    match o with Ret _ w => Ret () w | Throw w => Throw w | Bad e => Bad e end.
  Definition exec (w : world Nd) (c : call V) : out (world Nd) unit :=
    match c with
    | CEmpty i => done (construct_empty w i)
    | CLiteral i l => done (construct_struct im al w i (eval_lit l))
    | CCopy i j => done (construct_copy F im al w i j)
    | CMove i j => done (construct_move w i j)
    | CDestroy i => done (destroy F im w i)
    | CAssignCopy i j => done (assign_copy F im al w i j)
    | CAssignMove i j => done (assign_move F im w i j)
    | CAssignLiteral i l => done (assign_struct F im al w i (eval_lit l))
    | CAssignView i t => done (assign_view F im al w i t)
    | CClear i => done (clear F im w i)
    | CSwap i j => done (swap w i j)
    | CInsertOver i pos src => forget (insert_over F im al w i pos src)
    | CInsertChild first emplace i pos src => forget (insert_child F im al first emplace w i pos src)
    | CErase i pos => forget (erase F im w i pos)
    | CEraseRange i first last => forget (erase_range F im w i first last)
    | CSize i => done ('(_, w') ← tree_size F im w i; Ok w')
    | CArity i => done ('(_, w') ← tree_arity F im w i; Ok w')
    | CEqual i j => done ('(_, w') ← tree_eq F im w i j; Ok w')
    | CEqualLiteral i l => done ('(_, w') ← tree_eq_struct F im w i (eval_lit l); Ok w')
    end.

  Definition live (M : gmap tid (C K)) (i : tid) : Prop := is_Some (M !! i).
  (** A literal that denotes a tree of this kind ([n()] itself is excluded). *)
  Definition good_lit (l : lit V) : Prop := exists v cs, l = LNode v cs /\ lit_ok K l.

  (** The calls the library is meant for, in a world with contents [M]: the tree
      objects are alive (or not yet, for construction), literals denote trees,
      a view shows a subtree that can be copied, an iterator stands at a node of
      the tree or at its end.  Three situations in which the library goes wrong
      are left out: inserting over end() of a non-empty tree (C33), moving a tree
      into a full node or at end() (C34), and removing the first or last child of
      an n-ary node (C30; [crepl] and [erasable] are always true for binary
      trees). *)
  Definition valid (w : world Nd) (M : gmap tid (C K)) (c : call V) : Prop :=
    match c with
    | CEmpty i => M !! i = None
    | CLiteral i l => M !! i = None /\ good_lit l
    | CCopy i j => M !! i = None /\ live M j
    | CMove i j => M !! i = None /\ live M j
    | CDestroy i | CClear i | CSize i | CArity i => live M i
    | CAssignCopy i j | CAssignMove i j | CSwap i j | CEqual i j => live M i /\ live M j
    | CAssignLiteral i l => live M i /\ good_lit l
    | CAssignView i t => live M i /\ exists s, csrc K (w_heap w) s /\ t_root t = croot K s
    | CEqualLiteral i l => live M i /\ (l = LEmpty \/ good_lit l)
    | CInsertOver i pos src =>
        exists c x M1, M !! i = Some c /\ gives K w M i src x M1 /\ fits F w src /\
          ((exists a, a ∈ caddrs K c /\ stands F im (w_heap w) (croot K c) a pos /\
              (croot K c <> Some a -> forall u, cvals K u = x -> crepl K a u c)) \/
           (c = cnil K /\ it_cur pos = None))
    | CInsertChild first emplace i pos src =>
        exists c x M1, M !! i = Some c /\ gives K w M i src x M1 /\ fits F w src /\
          ((exists a, a ∈ caddrs K c /\ it_cur pos = Some a /\ (cfull K a c -> forall j, src <> SrcMove j)) \/
           (it_cur pos = None /\ forall j, src <> SrcMove j))
    | CErase i pos =>
        exists c, M !! i = Some c /\ it_root pos = croot K c /\
          ((exists a, a ∈ caddrs K c /\ it_cur pos = Some a /\ (croot K c <> Some a -> crepl K a (cnil K) c)) \/
           it_cur pos = None)
    | CEraseRange i first last =>
        exists c pre ds post, M !! i = Some c /\ cpost K c = pre ++ ds ++ post /\ it_kind first = PostOrder /\
          it_cur first = head (ds ++ post) /\ it_cur last = head post /\
          it_root first = croot K c /\ it_root last = croot K c /\ erasable K ds c
    end.

  (** size() and arity() of tree [i] are known: they were called since the last
      change of the tree. *)
  Definition measured (w : world Nd) (M : gmap tid (C K)) (i : tid) : Prop :=
    forall t c, w_trees w !! i = Some t -> M !! i = Some c ->
      t_size t = N.of_nat (length (caddrs K c)) /\ t_arity t = N.of_nat (carity K c).
  (** The calls that keep the stored sizes and arities right. *)
  Definition exact (w : world Nd) (M : gmap tid (C K)) (c : call V) : Prop :=
    match c with
    | CAssignView i t => forall s, csrc K (w_heap w) s -> t_root t = croot K s -> cached K t s
    | CInsertOver i pos src => src_cached K w src /\ measured w M i
    | CInsertChild first emplace i pos src => child_exact first emplace src /\ measured w M i
    | CErase i pos => measured w M i
    | CEraseRange i first last => False
    | _ => True
    end.

  Definition empty_world : world Nd := World ∅ ∅.
  (** The worlds reached from the empty one by valid calls, which return or
      throw.  Each call finds fewer than [F] nodes. *)
  Inductive reach : world Nd -> Prop :=
  | reach_start : reach empty_world
  | reach_call w M c w' : reach w -> consistent K w M -> valid w M c -> size (w_heap w) < F ->
      exec w c = Ret () w' \/ exec w c = Throw w' -> reach w'.

  (** Histories of a careful program: size() and arity() are called right before
      each insertion or erasure; children are inserted by value or from a literal
      (not with insert_child_front); ranges are not erased; no view with a wrong
      size is copied. *)
  Definition edit_of (i : tid) (c : call V) : Prop :=
    match c with
    | CInsertOver j pos src => j = i
    | CInsertChild first emplace j pos src => j = i /\ child_exact first emplace src
    | CErase j pos => j = i
    | _ => False
    end.
  Definition plain (c : call V) : Prop :=
    match c with CInsertOver _ _ _ | CInsertChild _ _ _ _ _ | CErase _ _ | CEraseRange _ _ _ => False | _ => True end.
  Definition view_exact (w : world Nd) (c : call V) : Prop :=
    match c with
    | CAssignView i t => forall s, csrc K (w_heap w) s -> t_root t = croot K s -> cached K t s
    | CInsertOver i pos src => src_cached K w src
    | _ => True
    end.
  Inductive careful : world Nd -> Prop :=
  | careful_start : careful empty_world
  | careful_plain w M c w' : careful w -> consistent K w M -> valid w M c -> size (w_heap w) < F ->
      plain c -> view_exact w c -> exec w c = Ret () w' \/ exec w c = Throw w' -> careful w'
  | careful_edit w M i c w1 w2 w' : careful w -> consistent K w M -> live M i -> size (w_heap w) < F ->
      exec w (CSize i) = Ret () w1 -> exec w1 (CArity i) = Ret () w2 ->
      valid w2 M c -> edit_of i c -> view_exact w2 c -> exec w2 c = Ret () w' \/ exec w2 c = Throw w' -> careful w'.
End History.
