(** NaryNode.v: model of include/TreeDS/node/nary_node.hpp (and of the members
    it inherits from include/TreeDS/node/node.hpp). *)
From Verif Require Import Base StructNode BinaryNode.

Section NaryNode.
  Context {V : Type} `{EqDecision V}.

  (** node.hpp 24-25 and nary_node.hpp 27-31: the attributes. *)
  Record nnode : Type := NNodeR {
    nval : V;
    nparent : ptr;
    nfsize : N;        (* following_size *)
    nprev : ptr;
    nnext : ptr;
    nfirst : ptr;
    nlast : ptr
  }.
  Notation heap := (gmap addr nnode).

  Definition nset_parent (q : ptr) (n : nnode) :=
    NNodeR (nval n) q (nfsize n) (nprev n) (nnext n) (nfirst n) (nlast n).
  Definition nset_fsize (k : N) (n : nnode) :=
    NNodeR (nval n) (nparent n) k (nprev n) (nnext n) (nfirst n) (nlast n).
  Definition nset_prev (q : ptr) (n : nnode) :=
    NNodeR (nval n) (nparent n) (nfsize n) q (nnext n) (nfirst n) (nlast n).
  Definition nset_next (q : ptr) (n : nnode) :=
    NNodeR (nval n) (nparent n) (nfsize n) (nprev n) q (nfirst n) (nlast n).
  Definition nset_first (q : ptr) (n : nnode) :=
    NNodeR (nval n) (nparent n) (nfsize n) (nprev n) (nnext n) q (nlast n).
  Definition nset_last (q : ptr) (n : nnode) :=
    NNodeR (nval n) (nparent n) (nfsize n) (nprev n) (nnext n) (nfirst n) q.

  (** node.hpp 58-72; nary_node.hpp 218-248 getters. *)
  Definition n_val (h : heap) (p : ptr) : res V := n ← deref h p; Ok (nval n).
  Definition n_parent (h : heap) (p : ptr) : res ptr := n ← deref h p; Ok (nparent n).
  Definition n_prev (h : heap) (p : ptr) : res ptr := n ← deref h p; Ok (nprev n).
  Definition n_next (h : heap) (p : ptr) : res ptr := n ← deref h p; Ok (nnext n).
  Definition n_first (h : heap) (p : ptr) : res ptr := n ← deref h p; Ok (nfirst n).
  Definition n_last (h : heap) (p : ptr) : res ptr := n ← deref h p; Ok (nlast n).
  (** 370-374 [is_last_child], 376-380 [is_first_child]. *)
  Definition n_is_last (h : heap) (p : ptr) : res bool :=
    n ← deref h p;
    match nparent n with
    | None => Ok false
    | Some q => c ← n_last h (Some q); Ok (ptr_eqb c p)
    end.
  Definition n_is_first (h : heap) (p : ptr) : res bool :=
    n ← deref h p;
    match nparent n with
    | None => Ok false
    | Some q => c ← n_first h (Some q); Ok (ptr_eqb c p)
    end.
  (** 382-386 [children] (size_t arithmetic), 388-390 [following_siblings]. *)
  Definition n_children (h : heap) (p : ptr) : res N :=
    n ← deref h p;
    match nfirst n with
    | None => Ok 0%N
    | Some _ => c ← deref h (nfirst n); Ok (wadd (nfsize c) 1)
    end.
  Definition n_following_siblings (h : heap) (p : ptr) : res N :=
    n ← deref h p; Ok (nfsize n).
  (** 258-260 [get_resources]. *)
  Definition n_resources (h : heap) (p : ptr) : res (list ptr) :=
    n ← deref h p; Ok [nfirst n; nnext n].

  (** 356-367 [calculate_child], the [for] loop: [steps] is [index - i]. *)
  Fixpoint n_skip (h : heap) (cur : ptr) (steps : nat) : res ptr :=
    match steps with
    | 0 => Ok cur
    | S k => match cur with
             | None => Ok None
             | Some _ => nx ← n_next h cur; n_skip h nx k
             end
    end.
  (** 250-256 [get_child]. *)
  Definition n_child (h : heap) (p : ptr) (index : N) : res ptr :=
    cur ← n_first h p;
    match cur with
    | None => n_skip h None (N.to_nat index)
    | Some _ =>
        c ← deref h cur;
        if (index =? nfsize c)%N then n_last h p else n_skip h cur (N.to_nat index)
    end.

  (** 265-272 [manage_parent_last_child]. *)
  Definition n_manage_parent_last_child (h : heap) (a : addr) : res heap :=
    n ← deref h (Some a);
    h1 ← (match nparent n, nnext n with
          | Some q, None => update h (Some q) (nset_last (Some a))
          | _, _ => Ok h
          end);
    match nfirst n with
    | None => update h1 (Some a) (nset_last None)
    | Some _ => Ok h1
    end.

  (** Storage for a new node (allocator_utility.hpp 93-102) with the members
      that are initialised before the recursive initialisers run: value,
      parent, following_size, prev_sibling (84-86 / 111-113 / 150-152).
      [last_child] has no initialiser (31); it is indeterminate here, never read
      before it is written, and modelled as null. *)
  Definition n_alloc (al : allocator nnode) (h : heap) (v : V) (parent : ptr) (fs : N) (prev : ptr)
    : addr * heap :=
    let a := new_addr al h in (a, <[a := NNodeR v parent fs prev None None None]> h).

  (** 36-47 constructors from a value. *)
  Definition n_from_value (al : allocator nnode) (h : heap) (v : V) : res (addr * heap) :=
    let '(a, h0) := n_alloc al h v None 0 None in
    h1 ← n_manage_parent_last_child h0 a; Ok (a, h1).

  (** 78-96 delegated copy constructor; 71-75 is the call with two nulls. *)
  Fixpoint n_copy_from (fuel : nat) (al : allocator nnode) (h : heap) (src parent prev : ptr)
    : res (addr * heap) :=
    match fuel with
    | 0 => Err OutOfFuel
    | S fuel =>
        o ← deref h src;
        let '(a, h0) := n_alloc al h (nval o) parent (nfsize o) prev in
        '(nx, h1) ← (match nnext o with
                      | None => Ok (None, h0)
                      | Some _ => '(x, h') ← n_copy_from fuel al h0 (nnext o) parent (Some a); Ok (Some x, h')
                      end);
        h1' ← update h1 (Some a) (nset_next nx);
        '(fc, h2) ← (match nfirst o with
                      | None => Ok (None, h1')
                      | Some _ => '(x, h') ← n_copy_from fuel al h1' (nfirst o) (Some a) None; Ok (Some x, h')
                      end);
        h2' ← update h2 (Some a) (nset_first fc);
        h3 ← n_manage_parent_last_child h2' a;
        Ok (a, h3)
    end.
  Definition n_copy (fuel : nat) (al : allocator nnode) (h : heap) (src : ptr) : res (addr * heap) :=
    n_copy_from fuel al h src None None.

  (** 104-123 delegated constructor from a binary_node living in the heap [bh]
      (binary and n-ary nodes are different types, hence different heaps);
      98-102 is the call with two nulls. *)
  Fixpoint n_from_binary_from (fuel : nat) (al : allocator nnode) (bh : gmap addr (bnode V)) (h : heap)
      (src parent prev : ptr) : res (addr * heap) :=
    match fuel with
    | 0 => Err OutOfFuel
    | S fuel =>
        v ← b_value bh src;
        fs ← b_following_siblings bh src;
        let '(a, h0) := n_alloc al h v parent fs prev in
        ns ← b_next bh src;
        '(nx, h1) ← (match ns with
                      | None => Ok (None, h0)
                      | Some _ => '(x, h') ← n_from_binary_from fuel al bh h0 ns parent (Some a); Ok (Some x, h')
                      end);
        h1' ← update h1 (Some a) (nset_next nx);
        fcs ← b_first bh src;
        '(fc, h2) ← (match fcs with
                      | None => Ok (None, h1')
                      | Some _ => '(x, h') ← n_from_binary_from fuel al bh h1' fcs (Some a) None; Ok (Some x, h')
                      end);
        h2' ← update h2 (Some a) (nset_first fc);
        h3 ← n_manage_parent_last_child h2' a;
        Ok (a, h3)
    end.
  Definition n_from_binary (fuel : nat) al bh (h : heap) (src : ptr) : res (addr * heap) :=
    n_from_binary_from fuel al bh h src None None.

  (** 138-169 / 185-215 delegated constructors from a struct_node; 126-136 and
      172-182 are the calls with two nulls.  A literal without value does not
      compile here: [AssertFail].  The number of following siblings is stored in
      a size_t. *)
  Fixpoint n_from_struct_from (al : allocator nnode) (h : heap) (s : snode V) (parent prev : ptr) {struct s}
    : res (addr * heap) :=
    match s with
    | SN (Some v) _ _ fcs ns =>
        let '(a, h0) := n_alloc al h v parent (s_following_siblings s mod W64)%N prev in
        '(nx, h1) ← (match ns with
                      | SNil => Ok (None, h0)
                      | _ => '(x, h') ← n_from_struct_from al h0 ns parent (Some a); Ok (Some x, h')
                      end);
        h1' ← update h1 (Some a) (nset_next nx);
        '(fc, h2) ← (match fcs with
                      | SNil => Ok (None, h1')
                      | _ => '(x, h') ← n_from_struct_from al h1' fcs (Some a) None; Ok (Some x, h')
                      end);
        h2' ← update h2 (Some a) (nset_first fc);
        h3 ← n_manage_parent_last_child h2' a;
        Ok (a, h3)
    | _ => Err AssertFail
    end.
  Definition n_from_struct (al : allocator nnode) (h : heap) (s : snode V) : res (addr * heap) :=
    n_from_struct_from al h s None None.

  (** The pointer-to-pointer [back_link] of 279: null, the [next_sibling] field
      of a node, or the [first_child] field of a node. *)
  Inductive back_link : Type :=
  | BLNull
  | BLNext (a : ptr)
  | BLFirst (a : ptr).
  Definition write_back_link (h : heap) (b : back_link) (target : ptr) : res heap :=
    match b with
    | BLNull => Err NullDeref
    | BLNext a => update h a (nset_next target)
    | BLFirst a => update h a (nset_first target)
    end.

  (** 292-298 the loop that looks for the previous sibling. *)
  Fixpoint n_find_prev (fuel : nat) (h : heap) (child this : ptr) (bl : back_link)
    : res (back_link * heap) :=
    match fuel with
    | 0 => Err OutOfFuel
    | S fuel =>
        match child with
        | None => Ok (bl, h)
        | Some _ =>
            if ptr_eqb child this then Ok (bl, h)
            else
              c ← deref h child;
              h1 ← update h child (nset_fsize (wsub (nfsize c) 1));
              n_find_prev fuel h1 (nnext c) this (BLNext child)
        end
    end.

  (** 275-313 [replace_with]. *)
  Definition n_replace_with (fuel : nat) (h : heap) (this node : ptr) : res heap :=
    _ ← (match node with
         | None => Ok ()
         | Some _ => m ← deref h node; guard_res (is_null (nparent m) && is_null (nnext m))
         end);
    t ← deref h this;
    match nparent t with
    | None => Ok h
    | Some _ =>
        '(bl, target, h1) ←
          (match node with
           | Some _ =>
               h1 ← update h node (nset_parent (nparent t));
               h2 ← update h1 node (nset_fsize (nfsize t));
               h3 ← update h2 node (nset_prev (nprev t));
               h4 ← update h3 node (nset_next (nnext t));
               Ok (match nprev t with
                   | Some _ => BLNext (nprev t)
                   | None => BLFirst (nparent t)
                   end, node, h4)
           | None =>
               fc ← n_first h (nparent t);
               '(bl, h1) ← n_find_prev fuel h fc this BLNull;
               t1 ← deref h1 this;
               Ok (bl, nnext t1, h1)
           end);
        h2 ← write_back_link h1 bl target;
        il ← n_is_last h2 this;
        h3 ← (if il : bool
               then update h2 (nparent t) (nset_last target)
               else t2 ← deref h2 this;
                    update h2 (nnext t2) (nset_prev (match node with Some _ => node | None => nprev t2 end)));
        h4 ← update h3 this (nset_parent None);
        h5 ← update h4 this (nset_fsize 0);
        h6 ← update h5 this (nset_prev None);
        update h6 this (nset_next None)
    end.

  (** 315-331 [prepend_child]. *)
  Definition n_prepend_child (h : heap) (this node : ptr) : res (ptr * heap) :=
    match node with
    | None => Ok (node, h)
    | Some _ =>
        m ← deref h node;
        _ ← guard_res (is_null (nparent m) && is_null (nprev m) && is_null (nnext m));
        h1 ← update h node (nset_parent this);
        t ← deref h1 this;
        h2 ← update h1 node (nset_next (nfirst t));
        h3 ← (match nfirst t with
               | Some _ =>
                   f ← deref h2 (nfirst t);
                   h' ← update h2 node (nset_fsize (wadd (nfsize f) 1));
                   update h' (nfirst t) (nset_prev node)
               | None => update h2 this (nset_last node)
               end);
        h4 ← update h3 this (nset_first node);
        Ok (node, h4)
    end.

  (** 338-342 the loop of [append_child]. *)
  Fixpoint n_bump (fuel : nat) (h : heap) (cur : ptr) : res heap :=
    match fuel with
    | 0 => Err OutOfFuel
    | S fuel =>
        c ← deref h cur;
        h1 ← update h cur (nset_fsize (wadd (nfsize c) 1));
        match nnext c with
        | None => Ok h1
        | Some _ => n_bump fuel h1 (nnext c)
        end
    end.

  (** 333-354 [append_child]. *)
  Definition n_append_child (fuel : nat) (h : heap) (this node : ptr) : res (ptr * heap) :=
    match node with
    | None => Ok (node, h)
    | Some _ =>
        m ← deref h node;
        _ ← guard_res (is_null (nparent m) && is_null (nnext m));
        t ← deref h this;
        h1 ← (match nfirst t with
               | Some _ => n_bump fuel h (nfirst t)
               | None => update h this (nset_first node)
               end);
        h2 ← update h1 node (nset_parent this);
        t2 ← deref h2 this;
        h3 ← (match nlast t2 with
               | Some _ =>
                   h' ← update h2 (nlast t2) (nset_next node);
                   update h' node (nset_prev (nlast t2))
               | None => Ok h2
               end);
        h4 ← update h3 this (nset_last node);
        Ok (node, h4)
    end.

  (** 407-426 [operator==(const nary_node&)]. *)
  Fixpoint n_eq (fuel : nat) (h1 h2 : heap) (p q : ptr) : res bool :=
    match fuel with
    | 0 => Err OutOfFuel
    | S fuel =>
        k1 ← n_children h1 p; k2 ← n_children h2 q;
        if negb (k1 =? k2)%N then Ok false
        else
          n ← deref h1 p; m ← deref h2 q;
          if negb (bool_decide (nval n = nval m)) then Ok false
          else
            c ← (if is_null (nfirst n) then Ok true else n_eq fuel h1 h2 (nfirst n) (nfirst m));
            if negb c then Ok false
            else
              s ← (if is_null (nnext n) then Ok true else n_eq fuel h1 h2 (nnext n) (nnext m));
              if negb s then Ok false else Ok true
    end.

  (** 428-447 [operator==(const binary_node&)]. *)
  Fixpoint n_eq_binary (fuel : nat) (h : heap) (bh : gmap addr (bnode V)) (p q : ptr) : res bool :=
    match fuel with
    | 0 => Err OutOfFuel
    | S fuel =>
        k1 ← n_children h p; k2 ← b_children bh q;
        if negb (k1 =? k2)%N then Ok false
        else
          n ← deref h p; v ← b_value bh q;
          if negb (bool_decide (nval n = v)) then Ok false
          else
            c ← (if is_null (nfirst n) then Ok true
                 else fc ← b_first bh q; n_eq_binary fuel h bh (nfirst n) fc);
            if negb c then Ok false
            else
              s ← (if is_null (nnext n) then Ok true
                   else ns ← b_next bh q; n_eq_binary fuel h bh (nnext n) ns);
              if negb s then Ok false else Ok true
    end.

  (** 454-484 [operator==(const struct_node&)]. *)
  Fixpoint n_eq_struct (h : heap) (p : ptr) (s : snode V) {struct s} : res bool :=
    k ← n_children h p;
    match s with
    | SN (Some v) _ _ fc ns =>
        if negb (k =? s_children s)%N then Ok false
        else
          n ← deref h p;
          if negb (bool_decide (nval n = v)) then Ok false
          else
            c ← (match fc with
                 | SNil => Ok true
                 | _ => if is_empty_node fc then Ok false else n_eq_struct h (nfirst n) fc
                 end);
            if negb c then Ok false
            else
              b ← (match ns with
                   | SNil => Ok true
                   | _ => if is_empty_node ns then Ok false else n_eq_struct h (nnext n) ns
                   end);
              if negb b then Ok false else Ok true
    | _ => Err AssertFail   (* comparing a value with n(): does not compile *)
    end.
End NaryNode.
Arguments nnode V : clear implicits.
