(** Names.v: model of the names of captures (include/TreeDS/matcher/utility.hpp
    38-126, matcher.hpp 26-45, 298-310, capture.hpp 83-96).  All of this is computed
    on types, when the pattern is compiled: [ntype] is what the types of the
    matchers say about names. *)
From Verif Require Import Base StructNode BinaryNode NaryNode Nav Policy Tree Matcher Gen Star.
From Coq Require Import String.

(** matcher<Derived, ValueMatcher, FirstChild, NextSibling>: the name if it is a
    capture ([const_name<>], the empty name, for [cpt(x)]), the type of the first
    child and of the next sibling; [NTNil] is [detail::empty_t]. *)
Inductive ntype : Type :=
| NTNil
| NT (name : option string) (first_child next_sibling : ntype).

(** matcher/utility.hpp 38-64 [matcher_traits]: [children_captures] and
    [siblings_captures], given those of the first child and the next sibling; the
    third specialization (52-56) has them the wrong way round.  matcher.hpp 26-32
    [captures_t], here the list of the names. *)
Fixpoint captures_t (p : ntype) : list string :=
  match p with
  | NTNil => []
  | NT o fc ns =>
      let '(children_captures, siblings_captures) :=
        match fc, ns with
        | NTNil, NTNil => ([], [])
        | NTNil, _ => ([], captures_t ns)
        | _, NTNil => ([], captures_t fc)
        | _, _ => (captures_t fc, captures_t ns)
        end in
      (match o with Some n => [n] | None => [] end) ++ children_captures ++ siblings_captures
  end.
Definition children_captures (fc ns : ntype) : list string :=
  match fc, ns with
  | NTNil, _ | _, NTNil => []
  | _, _ => captures_t fc
  end.

(** matcher/utility.hpp 100-122 [index_of_capture], 124-125 [is_valid_name] *)
Fixpoint index_of_capture (n : string) (tuple : list string) : nat :=
  match tuple with
  | [] => 1
  | m :: rest => if decide (n = m) then 0 else 1 + index_of_capture n rest
  end.
Definition is_valid_name (n : string) (tuple : list string) : bool := index_of_capture n tuple <? List.length tuple.

(** matcher.hpp 34-42: the assertion, in the class of every matcher of the
    pattern. *)
Fixpoint compiles (p : ntype) : bool :=
  match p with
  | NTNil => true
  | NT o fc ns =>
      negb (match o with
            | Some n => negb (bool_decide (n = EmptyString)) && is_valid_name n (children_captures fc ns)
            | None => false
            end)
      && compiles fc && compiles ns
  end.

(** pattern.hpp 79-87 [assign_mark(name)], matcher.hpp 298-310 [marked_result]; if
    the call does not compile, [AssertFail]. *)
Definition assign_name {V Nd} (F : nat) (im : node_impl V Nd) (al : allocator Nd) like
    (ty : ntype) (x : xpattern) (n : string) (w : world Nd) (i : tid) : out (world Nd) unit :=
  if bool_decide (n = EmptyString) || negb (is_valid_name n (captures_t ty)) then Bad AssertFail
  else xassign_mark F im al like x (S (index_of_capture n (captures_t ty))) w i.

(** The matchers a user writes, with [cpt(name, ...)] ([cpt(...)]: the empty name). *)
Inductive wpat (V : Type) : Type :=
| WOne (vm : V -> bool) (cs : list (wpat V))
| WOpt (q : quantifier) (vm : V -> bool) (cs : list (wpat V))
| WStar (q : quantifier) (vm : V -> bool) (cs : list (wpat V))
| WCpt (n : string) (p : wpat V).
Arguments WOne {V} _ _.
Arguments WOpt {V} _ _ _.
Arguments WStar {V} _ _ _.
Arguments WCpt {V} _ _.
(** The pattern without the names, and its type ([ns]: of the next sibling). *)
Fixpoint unname {V} (u : wpat V) : spat V :=
  match u with
  | WOne vm cs => SOne vm (map unname cs)
  | WOpt q vm cs => SOpt q vm (map unname cs)
  | WStar q vm cs => SStar q vm (map unname cs)
  | WCpt _ p => SCpt (unname p)
  end.
Fixpoint wtype {V} (u : wpat V) (ns : ntype) : ntype :=
  match u with
  | WOne _ cs | WOpt _ _ cs | WStar _ _ cs => NT None (foldr wtype NTNil cs) ns
  | WCpt n p => NT (Some n) (wtype p NTNil) ns
  end.
