(** BinaryNode.v: model of include/TreeDS/node/binary_node.hpp (and of the
    members it inherits from include/TreeDS/node/node.hpp). *)
From Verif Require Import Base StructNode.

Section BinaryNode.
  Context {V : Type} `{EqDecision V}.

  (** node.hpp 24-25 and binary_node.hpp 33-34: the attributes. *)
  Record bnode : Type := BNodeR {
    bval : V;
    bparent : ptr;
    bleft : ptr;
    bright : ptr
  }.
  Notation heap := (gmap addr bnode).

  Definition bset_parent (q : ptr) (n : bnode) := BNodeR (bval n) q (bleft n) (bright n).
  Definition bset_left (q : ptr) (n : bnode) := BNodeR (bval n) (bparent n) q (bright n).
  Definition bset_right (q : ptr) (n : bnode) := BNodeR (bval n) (bparent n) (bleft n) q.

  (** node.hpp 66-72 [get_parent], 116-118 [is_root], 58-64 [get_value]. *)
  Definition b_value (h : heap) (p : ptr) : res V := n ← deref h p; Ok (bval n).
  Definition b_parent (h : heap) (p : ptr) : res ptr := n ← deref h p; Ok (bparent n).
  (** 134-148 [get_left_child], [get_right_child]. *)
  Definition b_left (h : heap) (p : ptr) : res ptr := n ← deref h p; Ok (bleft n).
  Definition b_right (h : heap) (p : ptr) : res ptr := n ← deref h p; Ok (bright n).
  (** 150-160 [get_first_child]. *)
  Definition b_first (h : heap) (p : ptr) : res ptr :=
    n ← deref h p; Ok (match bleft n with Some _ => bleft n | None => bright n end).
  (** 162-172 [get_last_child]. *)
  Definition b_last (h : heap) (p : ptr) : res ptr :=
    n ← deref h p; Ok (match bright n with Some _ => bright n | None => bleft n end).
  (** 174-198 [get_child]. *)
  Definition b_child (h : heap) (p : ptr) (index : N) : res ptr :=
    match index with
    | 0%N => b_first h p
    | 1%N => n ← deref h p;
             Ok (match bleft n, bright n with Some _, Some _ => bright n | _, _ => None end)
    | _ => Ok None
    end.
  (** 289-293 [is_first_child], 295-299 [is_last_child],
      301-305 [is_left_child], 307-311 [is_right_child]. *)
  Definition b_is_first (h : heap) (p : ptr) : res bool :=
    n ← deref h p;
    match bparent n with
    | None => Ok false
    | Some q => c ← b_first h (Some q); Ok (ptr_eqb c p)
    end.
  Definition b_is_last (h : heap) (p : ptr) : res bool :=
    n ← deref h p;
    match bparent n with
    | None => Ok false
    | Some q => c ← b_last h (Some q); Ok (ptr_eqb c p)
    end.
  Definition b_is_left (h : heap) (p : ptr) : res bool :=
    n ← deref h p;
    match bparent n with
    | None => Ok false
    | Some q => c ← b_left h (Some q); Ok (ptr_eqb p c)
    end.
  Definition b_is_right (h : heap) (p : ptr) : res bool :=
    n ← deref h p;
    match bparent n with
    | None => Ok false
    | Some q => c ← b_right h (Some q); Ok (ptr_eqb p c)
    end.
  (** 110-120 [get_prev_sibling], 122-132 [get_next_sibling]. *)
  Definition b_prev (h : heap) (p : ptr) : res ptr :=
    r ← b_is_right h p;
    if r : bool then q ← b_parent h p; b_left h q else Ok None.
  Definition b_next (h : heap) (p : ptr) : res ptr :=
    l ← b_is_left h p;
    if l : bool then q ← b_parent h p; b_right h q else Ok None.
  (** 321-330 [children]. *)
  Definition b_children (h : heap) (p : ptr) : res N :=
    n ← deref h p;
    Ok ((if is_null (bleft n) then 0 else 1) + (if is_null (bright n) then 0 else 1))%N.
  (** 332-338 [following_siblings]. *)
  Definition b_following_siblings (h : heap) (p : ptr) : res N :=
    n ← deref h p;
    match bparent n with
    | None => Ok 0%N
    | Some q => c ← b_last h (Some q); Ok (if ptr_eqb c p then 0 else 1)%N
    end.
  (** 340-342 [get_resources]. *)
  Definition b_resources (h : heap) (p : ptr) : res (list ptr) :=
    n ← deref h p; Ok [bleft n; bright n].

  (** 279-286 [attach_child()] (no argument). *)
  Definition b_attach_children (h : heap) (a : addr) : res heap :=
    n ← deref h (Some a);
    h1 ← (if is_null (bleft n) then Ok h else update h (bleft n) (bset_parent (Some a)));
    (if is_null (bright n) then Ok h1 else update h1 (bright n) (bset_parent (Some a))).

  (** 273-277 [attach_child(node)]. *)
  Definition b_attach_child (h : heap) (this node : ptr) : res heap :=
    _ ← guard_res (negb (is_null node));
    update h node (bset_parent this).

  (** Storage for a new node (allocator_utility.hpp 93-102): the address is
      taken before the constructor runs; the base-class constructor sets the
      value, the other members are still null (33-34, node.hpp 25). *)
  Definition b_alloc (al : allocator bnode) (h : heap) (v : V) : addr * heap :=
    let a := new_addr al h in (a, <[a := BNodeR v None None None]> h).

  (** 57-69 copy constructor through [allocate] (recursive through the heap:
      explicit fuel). *)
  Fixpoint b_copy (fuel : nat) (al : allocator bnode) (h : heap) (src : ptr) : res (addr * heap) :=
    match fuel with
    | 0 => Err OutOfFuel
    | S fuel =>
        o ← deref h src;
        let '(a, h0) := b_alloc al h (bval o) in
        '(l, h1) ← (match bleft o with
                     | None => Ok (None, h0)
                     | Some _ => '(x, h') ← b_copy fuel al h0 (bleft o); Ok (Some x, h')
                     end);
        h1' ← update h1 (Some a) (bset_left l);
        '(r, h2) ← (match bright o with
                     | None => Ok (None, h1')
                     | Some _ => '(x, h') ← b_copy fuel al h1' (bright o); Ok (Some x, h')
                     end);
        h2' ← update h2 (Some a) (bset_right r);
        h3 ← b_attach_children h2' a;
        Ok (a, h3)
    end.

  (** 71-87 / 89-107 constructors from a struct_node, 202-220
      [allocate_left_child] and [allocate_right_child].  The recursion goes
      down the literal; [b_from_chain] is called on the first child with
      [sib = false] (build this chain element) and uses [s_next_sibling] for
      the right child.  A literal without a value cannot be given to these
      constructors (does not compile): [AssertFail]. *)
  Fixpoint b_from_struct (al : allocator bnode) (h : heap) (s : snode V) {struct s} : res (addr * heap) :=
    match s with
    | SN (Some v) _ _ fc _ =>
        let '(a, h0) := b_alloc al h v in
        '(l, h1) ← (if is_valid_node fc
                     then '(x, h') ← b_from_struct al h0 fc; Ok (Some x, h')
                     else Ok (None, h0));
        h1' ← update h1 (Some a) (bset_left l);
        '(r, h2) ← (match fc with
                     | SN _ _ _ _ sib =>
                         if is_valid_node sib
                         then '(x, h') ← b_from_struct al h1' sib; Ok (Some x, h')
                         else Ok (None, h1')
                     | SNil => Ok (None, h1')
                     end);
        h2' ← update h2 (Some a) (bset_right r);
        h3 ← b_attach_children h2' a;
        Ok (a, h3)
    | _ => Err AssertFail
    end.

  (** 224-237 [replace_with]. *)
  Definition b_replace_with (h : heap) (this node : ptr) : res heap :=
    _ ← (match node with
         | None => Ok ()
         | Some _ => q ← b_parent h node; guard_res (is_null q)
         end);
    q ← b_parent h this;
    match q with
    | None => Ok h
    | Some _ =>
        l ← b_is_left h this;
        h1 ← update h q (if l : bool then bset_left node else bset_right node);
        h2 ← (match node with None => Ok h1 | Some _ => b_attach_child h1 q node end);
        update h2 this (bset_parent None)
    end.

  (** 239-250 [prepend_child]: the returned pointer, and the heap. *)
  Definition b_prepend_child (h : heap) (this node : ptr) : res (ptr * heap) :=
    match node with
    | None => Ok (node, h)
    | Some _ =>
        n ← deref h this;
        h1 ← (if is_null (bright n)
               then h' ← update h this (bset_right (bleft n)); update h' this (bset_left None)
               else Ok h);
        n1 ← deref h1 this;
        h2 ← (if is_null (bleft n1)
               then h' ← b_attach_child h1 this node; update h' this (bset_left node)
               else Ok h1);
        Ok (node, h2)
    end.

  (** 252-263 [append_child]. *)
  Definition b_append_child (h : heap) (this node : ptr) : res (ptr * heap) :=
    match node with
    | None => Ok (None, h)
    | Some _ =>
        n ← deref h this;
        h1 ← (if is_null (bleft n)
               then h' ← update h this (bset_left (bright n)); update h' this (bset_right None)
               else Ok h);
        n1 ← deref h1 this;
        if is_null (bright n1)
        then h' ← b_attach_child h1 this node;
             h'' ← update h' this (bset_right node); Ok (node, h'')
        else Ok (None, h1)
    end.

  (** 265-271 [do_assign_child_like]; [ref] is the reference child. *)
  Definition b_assign_child_like (h : heap) (this child ref : ptr) : res heap :=
    _ ← guard_res (negb (is_null child));
    l ← b_is_left h ref;
    n ← deref h this;
    _ ← guard_res (is_null (if l : bool then bleft n else bright n));
    h1 ← update h this (if l : bool then bset_left child else bset_right child);
    b_attach_child h1 this child.

  (** 358-378 [operator==(const binary_node&)]. *)
  Fixpoint b_eq (fuel : nat) (h1 h2 : heap) (p q : ptr) : res bool :=
    match fuel with
    | 0 => Err OutOfFuel
    | S fuel =>
        n ← deref h1 p; m ← deref h2 q;
        if negb (Bool.eqb (is_null (bleft n)) (is_null (bleft m)))
           || negb (Bool.eqb (is_null (bright n)) (is_null (bright m))) then Ok false
        else if negb (bool_decide (bval n = bval m)) then Ok false
        else
          l ← (if is_null (bleft n) then Ok true else b_eq fuel h1 h2 (bleft n) (bleft m));
          if negb l then Ok false
          else
            r ← (if is_null (bright n) then Ok true else b_eq fuel h1 h2 (bright n) (bright m));
            if negb r then Ok false else Ok true
    end.

  (** 380-418 [operator==(const struct_node&)]. *)
  Fixpoint b_eq_struct (h : heap) (p : ptr) (s : snode V) {struct s} : res bool :=
    n ← deref h p;
    if (2 <? subtree_arity s)%N then Ok false
    else match s with
    | SN (Some v) _ _ fc _ =>
        if negb (bool_decide (bval n = v)) then Ok false
        else
          k ← b_children h p;
          if negb (Bool.eqb (is_null (bleft n)) (is_empty fc || is_empty_node fc))
             || negb (k =? s_children s)%N then Ok false
          else match fc with
          | SNil => Ok true
          | SN _ _ _ _ sib =>
              l ← (if is_empty_node fc then Ok true else b_eq_struct h (bleft n) fc);
              if negb l then Ok false
              else
                r ← (match sib with
                     | SNil => Ok true
                     | _ => if is_empty_node sib then Ok true else b_eq_struct h (bright n) sib
                     end);
                if negb r then Ok false else Ok true
          end
    | _ => Err AssertFail   (* comparing a value with n(): does not compile *)
    end.
End BinaryNode.
Arguments bnode V : clear implicits.
