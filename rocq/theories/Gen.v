(** Gen.v: model of
      include/TreeDS/node/multiple_node_pointer.hpp
      include/TreeDS/node/navigator/generative_navigator.hpp
      include/TreeDS/node/navigator/node_pred_navigator.hpp (over such pointers)
    and of policy/breadth_first.hpp over a generative navigator, started at the
    navigator's root (the only way the library uses it: multi_matcher.hpp 257-261). *)
From Verif Require Import Base BinaryNode NaryNode Nav Policy Tree.

(** multiple_node_pointer.hpp 19-22: the master pointer first, then the slaves;
    [assigned_ptrs].  The number of pointers is part of the C++ type; here it is
    the length of the lists. *)
Record mptr : Type := MPtr { mp_ptrs : list ptr; mp_assigned : list bool }.

Section Multi.
  (** 35-37 *)
  Definition mp_make (ps : list ptr) : mptr := MPtr ps (map (fun _ => false) ps).
  (** 39-41: all null; [p] only gives the number of pointers *)
  Definition mp_null (p : mptr) : mptr := mp_make (map (fun _ => None) (mp_ptrs p)).
  (** 123-125 [get_main_pointer] and the other components *)
  Definition mp_get (k : nat) (p : mptr) : ptr := nth k (mp_ptrs p) None.
  Definition mp_main (p : mptr) : ptr := mp_get 0 p.
  (** 51-58 [do_function]: null pointers stay null *)
  Definition mp_do (call : ptr -> res ptr) (p : mptr) : res mptr :=
    ps ← mapM (fun q => match q with None => Ok None | Some _ => call q end) (mp_ptrs p);
    Ok (mp_make ps).
  (** 127-133 [all_valid] *)
  Definition mp_all_valid (p : mptr) : bool := forallb (fun q => negb (is_null q)) (mp_ptrs p).
  (** 135-144 [assign_pointer] *)
  Definition mp_assign (k : nat) (q : ptr) (p : mptr) : mptr :=
    MPtr (<[k := q]> (mp_ptrs p)) (<[k := true]> (mp_assigned p)).
  (** 154-156 [is_pointer_assigned] *)
  Definition mp_is_assigned (k : nat) (p : mptr) : bool := nth k (mp_assigned p) false.
  (** 162-164 [operator bool], 182-184 [operator==] *)
  Definition mp_bool (p : mptr) : bool := negb (is_null (mp_main p)).
  Definition mp_eqb (p q : mptr) : bool := ptr_eqb (mp_main p) (mp_main q).

  (** 65-117: the navigation methods, for node type operations [ops]. *)
  Variable ops : node_ops.
  Definition mp_parent := mp_do (op_parent ops).
  Definition mp_prev := mp_do (op_prev ops).
  Definition mp_next := mp_do (op_next ops).
  Definition mp_left := mp_do (op_left ops).
  Definition mp_right := mp_do (op_right ops).
  Definition mp_first := mp_do (op_first ops).
  Definition mp_last := mp_do (op_last ops).
  Definition mp_child (k : N) := mp_do (fun p => op_child ops p k).
End Multi.

Section Generative.
  Context {V Nd : Type}.
  Variable F : nat.
  Variable im : node_impl V Nd.
  Variable al : allocator Nd.
  (** [assign_child_like(child, reference_child)]: heap, node, child, reference *)
  Variable like : gmap addr Nd -> ptr -> ptr -> ptr -> res (gmap addr Nd).
  Notation heap := (gmap addr Nd).

  (** The predicate may have a state and may assign the pointers of its argument
      (multi_matcher.hpp 237-256). *)
  Context {St : Type}.
  Variable pred : St -> heap -> mptr -> res (St * mptr * bool).
  Variable root : mptr.        (* navigator_base.hpp 20 [root] *)

  (** *** node_pred_navigator over multiple pointers *)
  Section Pred.
    Variable h : heap.
    Notation ops := (ni_ops im h).
    (** navigator_base.hpp 224-226, 258-268 *)
    Definition m_unless_root (get : mptr -> res mptr) (p : mptr) : res mptr :=
      if mp_eqb p root then Ok (mp_null p) else get p.

    (** node_pred_navigator.hpp 60-68; as there, the loop restarts from [node]. *)
    Fixpoint m_prev_loop (k : nat) (st : St) (node result : mptr) : res (St * mptr) :=
      match k with
      | 0 => Err OutOfFuel
      | S k =>
          if mp_bool result then
            '(st1, r1, b) ← pred st h result;
            if b : bool then Ok (st1, r1)
            else r2 ← m_unless_root (mp_prev ops) node; m_prev_loop k st1 node r2
          else Ok (st, result)
      end.
    Definition m_prev (st : St) (node : mptr) : res (St * mptr) :=
      r ← m_unless_root (mp_prev ops) node; m_prev_loop F st node r.
    (** 70-78 *)
    Fixpoint m_next_loop (k : nat) (st : St) (result : mptr) : res (St * mptr) :=
      match k with
      | 0 => Err OutOfFuel
      | S k =>
          if mp_bool result then
            '(st1, r1, b) ← pred st h result;
            if b : bool then Ok (st1, r1)
            else r2 ← m_unless_root (mp_next ops) r1; m_next_loop k st1 r2
          else Ok (st, result)
      end.
    Definition m_next (st : St) (node : mptr) : res (St * mptr) :=
      r ← m_unless_root (mp_next ops) node; m_next_loop F st r.
    (** 80-87, 89-96 *)
    Definition m_first (st : St) (node : mptr) : res (St * mptr) :=
      r ← mp_first ops node;
      if mp_bool r then
        '(st1, r1, b) ← pred st h r;
        if b : bool then Ok (st1, r1) else m_next st1 r1
      else Ok (st, r).
    Definition m_last (st : St) (node : mptr) : res (St * mptr) :=
      r ← mp_last ops node;
      if mp_bool r then
        '(st1, r1, b) ← pred st h r;
        if b : bool then Ok (st1, r1) else m_prev st1 r1
      else Ok (st, r).
    (** 98-120 *)
    Definition m_side (get : mptr -> res mptr) (st : St) (node : mptr) : res (St * mptr) :=
      r ← get node;
      if mp_bool r then
        '(st1, r1, b) ← pred st h r;
        if b : bool then Ok (st1, r1) else Ok (st1, mp_null r)
      else Ok (st, r).
  End Pred.

  (** generative_navigator.hpp 57-75 [do_navigate_generate]: pointer 0 is the
      target, pointer 1 the generated node. *)
  Definition gen_navigate (navigate : heap -> St -> mptr -> res (St * mptr))
      (attach : heap -> ptr -> ptr -> ptr -> res heap) (st : St) (h : heap) (node : mptr)
    : res (St * heap * mptr) :=
    _ ← guard_res (mp_all_valid node);
    '(st1, r) ← navigate h st node;
    if mp_bool r then
      '(r1, h1) ← (match mp_get 1 r with
                   | None => v ← ni_value im h (mp_main r);
                             '(a, h1) ← ni_from_value im al h v;
                             Ok (mp_assign 1 (Some a) r, h1)
                   | Some _ => Ok (r, h)
                   end);
      if mp_is_assigned 1 r1
      then h2 ← attach h1 (mp_get 1 node) (mp_get 1 r1) (mp_main r1); Ok (st1, h2, r1)
      else Ok (st1, h1, r1)
    else Ok (st1, h, r).

  (** 78-94: siblings are attached to the parent of the generated node;
      96-128: children to the generated node. *)
  Definition attach_sibling (h : heap) (g new ref : ptr) : res heap :=
    p ← op_parent (ni_ops im h) g; like h p new ref.
  Definition gen_prev := gen_navigate m_prev attach_sibling.
  Definition gen_next := gen_navigate m_next attach_sibling.
  Definition gen_first := gen_navigate m_first like.
  Definition gen_last := gen_navigate m_last like.
  Definition gen_left := gen_navigate (fun h => m_side h (mp_left (ni_ops im h))) like.
  Definition gen_right := gen_navigate (fun h => m_side h (mp_right (ni_ops im h))) like.
  (** [get_parent] is inherited (navigator_base.hpp 258-260). *)
  Definition gen_parent (h : heap) (p : mptr) : res mptr := m_unless_root (mp_parent (ni_ops im h)) p.

  (** breadth_first.hpp 90-95 [process_child] *)
  Definition gen_process (st : St) (h : heap) (node : mptr) (open : list mptr) : res (St * heap * list mptr) :=
    '(st1, h1, fc) ← gen_first st h node;
    Ok (st1, h1, if mp_bool fc then open ++ [fc] else open).
  (** breadth_first.hpp 85-119 [manage_initial_status] with [current] the root of
      the navigator: 102-108 and 110-114 do nothing then. *)
  Definition gen_start (st : St) (h : heap) : res (St * heap * list mptr) :=
    '(st1, h1, ns) ← gen_next st h root;
    gen_process st1 h1 root (if mp_bool ns then [ns] else []).
  (** breadth_first.hpp 30-49 [increment_impl] *)
  Definition gen_increment (st : St) (h : heap) (open : list mptr) : res (St * heap * mptr * list mptr) :=
    match open with
    | [] => Ok (st, h, mp_null root, [])
    | result :: rest =>
        '(st1, h1, sibling) ← gen_next st h result;
        let open1 := if mp_bool sibling then sibling :: rest else rest in
        '(st2, h2, open2) ← gen_process st1 h1 result open1;
        Ok (st2, h2, result, open2)
    end.
  (** multi_matcher.hpp 257-261: [while (iterator) iterator.increment();] *)
  Fixpoint gen_loop (k : nat) (st : St) (h : heap) (cur : mptr) (open : list mptr) : res (St * heap) :=
    match k with
    | 0 => Err OutOfFuel
    | S k =>
        if mp_bool cur then
          '(st1, h1, cur1, open1) ← gen_increment st h open;
          gen_loop k st1 h1 cur1 open1
        else Ok (st, h)
    end.
  Definition generate (st : St) (h : heap) : res (St * heap) :=
    '(st1, h1, open) ← gen_start st h; gen_loop F st1 h1 root open.
End Generative.
