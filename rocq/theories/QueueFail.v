(** QueueFail.v: model of insert_over and insert_child_* when the memory for the queue
    of a breadth-first iterator runs out: std::bad_alloc out of [push_back] in
    [manage_initial_status] (policy/breadth_first.hpp 85-119) and in [update]
    (121-137).

    [room] pushes succeed, the next one throws.  The copies of the position the calls
    make for their arguments and results (deques are copied, too) are not modelled. *)
From Verif Require Import Base Spec StructNode BinaryNode NaryNode Nav Policy Tree User.

Section Instance.
  Variable F : nat.
  Section Impl.
    Variable nav : navigator.
    (** [push_back]: the deque and how many more pushes succeed; nothing if it throws
        (the deque is a local variable, which is lost). *)
    Definition push_try (x : ptr) (s : list ptr * nat) : option (list ptr * nat) :=
      match snd s with
      | 0 => None
      | S room => Some (fst s ++ [x], room)
      end.
    (** breadth_first.hpp 90-95 *)
    Definition process_child_try (node : ptr) (s : list ptr * nat) : res (option (list ptr * nat)) :=
      fc ← nav_first nav node;
      Ok (match fc with Some _ => push_try fc s | None => Some s end).
    (** breadth_first.hpp 105-108, 111-114 *)
    Fixpoint scan_right_try (k : nat) (node stop : ptr) (s : list ptr * nat) : res (option (list ptr * nat)) :=
      match k with
      | 0 => Err OutOfFuel
      | S k =>
          match node with
          | None => Ok (Some s)
          | Some _ =>
              if ptr_eqb node stop then Ok (Some s)
              else
                x ← process_child_try node s;
                match x with
                | None => Ok None
                | Some s1 => node' ← get_other_branch nav F false node; scan_right_try k node' stop s1
                end
          end
      end.
    (** breadth_first.hpp 85-119 *)
    Definition manage_try (room : nat) (cur : ptr) : res (option (list ptr)) :=
      match cur with
      | None => Ok (Some [])
      | Some _ =>
          ns ← nav_next nav cur;
          match (match ns with Some _ => push_try ns ([], room) | None => Some ([], room) end) with
          | None => Ok None
          | Some s =>
              node ← (if nav_is_root nav cur then Ok None
                      else p ← nav_parent nav cur; get_other_branch nav F false p);
              x1 ← scan_right_try F node None s;
              match x1 with
              | None => Ok None
              | Some s1 =>
                  node2 ← get_row_extremum nav F true cur;
                  x2 ← scan_right_try F node2 cur s1;
                  match x2 with
                  | None => Ok None
                  | Some s2 => x3 ← process_child_try cur s2; Ok (match x3 with None => None | Some s3 => Some (fst s3) end)
                  end
              end
          end
      end.
  End Impl.

  Variable mknav : ptr -> navigator.
  (** policy_base.hpp 43-54, 156-172; as [get_instance] *)
  Definition get_instance_try (room : nat) (k : kind) (cur root : ptr) : res (option iter) :=
    root' ← fix_navigator_root mknav k cur root;
    open ← (match k with
            | BreadthFirst => manage_try (mknav root') room cur
            | _ => Ok (Some [])
            end);
    Ok (match open with None => None | Some open => Some (Iter k cur root' open cur) end).
End Instance.

Section Insert.
  Context {V Nd : Type}.
  Variable F : nat.
  Variable im : node_impl V Nd.
  Variable al : allocator Nd.
  Variable room : nat.

  (** tree.hpp 341-375 [add_child]: the iterator is made last, when the child has been
      linked and the size has been changed; making it changes nothing. *)
  Definition add_child_try (first : bool) (w : world Nd) (i : tid) (pos : iter) (node : ptr) (rsize rarity : N)
    : out (world Nd) iter :=
    out_bind (add_child F im first w i pos node rsize rarity) (fun _ w' =>
    res_out (t ← get_tree w' i; get_instance_try F (tree_nav im (w_heap w')) room (it_kind pos) (it_cur pos) (t_nav t)) (fun o =>
    match o with
    | Some it => Ret it w'
    | None => Throw w'
    end)).
  (** tree.hpp 561-747; as [insert_child] *)
  Definition insert_child_try (first emplace : bool) (w : world Nd) (i : tid) (pos : iter) (src : source V)
    : out (world Nd) iter :=
    match src with
    | SrcValue v =>
        res_out (ni_from_value im al (w_heap w) v) (fun '(a, h) =>
        add_child_try first (set_heap w h) i pos (Some a) 1 0)
    | SrcStruct s =>
        res_out (ni_from_struct im al (w_heap w) s) (fun '(a, h) =>
        if first && negb emplace
        then add_child_try first (set_heap w h) i pos (Some a) 1 0
        else add_child_try first (set_heap w h) i pos (Some a) (subtree_size s) (subtree_arity s))
    | SrcCopy j =>
        res_out (t ← get_tree w j; copy_root F im al (w_heap w) t) (fun '(p, h) =>
        add_child_try first (set_heap w h) i pos p 1 0)
    | SrcView t =>
        res_out (copy_root F im al (w_heap w) t) (fun '(p, h) =>
        add_child_try first (set_heap w h) i pos p 1 0)
    | SrcMove j =>
        if decide (i = j) then Throw w
        else
          res_out (t ← get_tree w j; replace_node F im w j (t_root t) None 0 0) (fun '(p, w1) =>
          out_bind (add_child_try first w1 i pos p 1 0) (fun it w2 => Ret it (nullify w2 j)))
    end.

  (** breadth_first.hpp 121-137; as [it_update] *)
  Definition it_update_try (h : gmap addr Nd) (it : iter) (cur replacement : ptr) : res (option iter) :=
    let nav := tree_nav im h (it_root it) in
    open ← (match it_kind it with
            | BreadthFirst =>
                fc ← nav_first nav cur;
                open1 ← (match fc with
                         | Some _ => b ← back (it_open it); p ← nav_parent nav b;
                                     _ ← guard_res (ptr_eqb p cur); pop_back (it_open it)
                         | None => Ok (it_open it)
                         end);
                c ← (match replacement with None => Ok None | Some _ => nav_first nav replacement end);
                Ok (match c, room with
                    | Some _, 0 => None
                    | Some _, S _ => Some (open1 ++ [c])
                    | None, _ => Some open1
                    end)
            | _ => Ok (Some (it_open it))
            end);
    Ok (match open with
        | None => None
        | Some open =>
            Some (Iter (it_kind it) (if ptr_eqb cur (it_cur it) then replacement else it_cur it)
                    (it_root it) open (it_initial it))
        end).
  (** tree.hpp 306-339 [modify_subtree]: [node] was released from its unique_ptr first
      (312), so nobody frees it if [update] throws. *)
  Definition modify_subtree_try (w : world Nd) (i : tid) (pos : iter) (node : ptr) (rsize rarity : N)
    : out (world Nd) iter :=
    res_out (get_tree w i) (fun t =>
    match it_cur pos with
    | Some _ =>
        res_out (_ ← guard_res (negb (is_null (t_root t))); it_update_try (w_heap w) pos (it_cur pos) node) (fun o =>
        match o with
        | None => Throw w
        | Some pos' =>
            if ptr_eqb (it_cur pos) (t_root t)
            then of_res (w1 ← assign F im w i node rsize rarity; Ok (pos', w1))
            else of_res ('(old, w1) ← replace_node F im w i (it_cur pos) node rsize rarity;
                         w2 ← drop F im w1 old; Ok (pos', w2))
        end)
    | None =>
        match t_root t with
        | None => of_res (w1 ← assign F im w i node rsize rarity; Ok (pos, w1))
        | Some _ => Throw w
        end
    end).
  (** tree.hpp 451-559; as [insert_over] *)
  Definition insert_over_try (w : world Nd) (i : tid) (pos : iter) (src : source V) : out (world Nd) iter :=
    match src with
    | SrcValue v =>
        res_out (ni_from_value im al (w_heap w) v) (fun '(a, h) =>
        modify_subtree_try (set_heap w h) i pos (Some a) 1 0)
    | SrcStruct s =>
        res_out (ni_from_struct im al (w_heap w) s) (fun '(a, h) =>
        modify_subtree_try (set_heap w h) i pos (Some a) (subtree_size s) (subtree_arity s))
    | SrcCopy j =>
        res_out (t ← get_tree w j; copy_root F im al (w_heap w) t) (fun '(p, h) =>
        res_out ('(s, w1) ← tree_size F im (set_heap w h) j; '(r, w2) ← tree_arity F im w1 j; Ok (s, r, w2))
          (fun '(s, r, w2) => modify_subtree_try w2 i pos p s r))
    | SrcView t =>
        res_out (copy_root F im al (w_heap w) t) (fun '(p, h) =>
        res_out ('(s, t1) ← size_of F im h t; '(r, _) ← arity_of F im h t1; Ok (s, r))
          (fun '(s, r) => modify_subtree_try (set_heap w h) i pos p s r))
    | SrcMove j =>
        if decide (i = j) then Throw w
        else
          res_out (t ← get_tree w j; replace_node F im w j (t_root t) None 0 0) (fun '(p, w1) =>
          res_out ('(s, w2) ← tree_size F im w1 j; '(r, w3) ← tree_arity F im w2 j; Ok (s, r, w3))
            (fun '(s, r, w3) =>
               out_bind (modify_subtree_try w3 i pos p s r) (fun it w4 => Ret it (nullify w4 j))))
    end.
End Insert.
