(** Base.v: pointers, heaps, outcomes, machine words.  No code of /repo is
    modelled here; these are the conventions every model file uses.

    - An address is a [positive]; a pointer is [option addr], [None] = nullptr.
    - A heap is a finite map from addresses to node records; an address that is
      not in the map is not allocated (never allocated, or already released).
    - [res] is the outcome of code: a value, or an error.  Undefined behaviour
      (null dereference, use after free), a failed assert and exhausted fuel are
      distinct errors, so "no error" in a theorem excludes all of them. *)
From Coq Require Export List NArith ZArith Lia.
From stdpp Require Export numbers gmap list.

Notation addr := positive.
Notation ptr := (option positive).

Inductive err : Type :=
| NullDeref     (* *nullptr *)
| Dangling      (* dereference or release of an address that is not allocated *)
| AssertFail    (* assert(...) of the code fails *)
| OutOfFuel.    (* the loop did not end within the given number of steps *)

Inductive res (A : Type) : Type :=
| Ok (a : A)
| Err (e : err).
Arguments Ok {A} _.
Arguments Err {A} _.

Global Instance res_ret : MRet res := fun A a => Ok a.
Global Instance res_bind : MBind res := fun A B f m =>
  match m with Ok a => f a | Err e => Err e end.
Global Instance res_fmap : FMap res := fun A B f m =>
  match m with Ok a => Ok (f a) | Err e => Err e end.

Global Instance err_eq_dec : EqDecision err.
Proof. solve_decision. Defined.
Global Instance res_eq_dec A `{EqDecision A} : EqDecision (res A).
Proof. solve_decision. Defined.

Lemma bind_Ok {A B} (m : res A) (f : A -> res B) b :
  (m ≫= f) = Ok b <-> exists a, m = Ok a /\ f a = Ok b.
Proof.
  split.
  - destruct m as [a|e]; cbn; intros H; [eauto|discriminate].
  - intros (a & -> & H); exact H.
Qed.

(** [assert(b)] *)
Definition guard_res (b : bool) : res unit := if b then Ok () else Err AssertFail.

(** Reading through a pointer. *)
Definition deref {N} (h : gmap addr N) (p : ptr) : res N :=
  match p with
  | None => Err NullDeref
  | Some a => match h !! a with Some n => Ok n | None => Err Dangling end
  end.

(** Writing through a pointer: [p->field = x]. *)
Definition update {N} (h : gmap addr N) (p : ptr) (f : N -> N) : res (gmap addr N) :=
  match p with
  | None => Err NullDeref
  | Some a => match h !! a with Some n => Ok (<[a := f n]> h) | None => Err Dangling end
  end.

(** Pointer comparison. *)
Definition ptr_eqb (p q : ptr) : bool := bool_decide (p = q).
Definition is_null (p : ptr) : bool := match p with None => true | Some _ => false end.

(** [std::size_t]: a 64-bit word, arithmetic wraps. *)
Definition W64 : N := (2 ^ 64)%N.
Definition wadd (a b : N) : N := ((a + b) mod W64)%N.
Definition wsub (a b : N) : N := ((a + (W64 - b mod W64)) mod W64)%N.
Arguments W64 : simpl never.
Arguments wadd : simpl never.
Arguments wsub : simpl never.

Lemma wadd_small a b : (a + b < W64)%N -> wadd a b = (a + b)%N.
Proof. intros; unfold wadd; apply N.mod_small; assumption. Qed.
Lemma wsub_small a b : (b <= a)%N -> (a < W64)%N -> wsub a b = (a - b)%N.
Proof.
  intros H1 H2. assert (Hb : (b < W64)%N) by lia.
  unfold wsub. rewrite (N.mod_small b) by assumption.
  replace (a + (W64 - b))%N with ((a - b) + 1 * W64)%N by lia.
  rewrite N.mod_add by (unfold W64; lia). apply N.mod_small; lia.
Qed.

(** The allocator: any function that picks an address that is not in use.
    Theorems quantify over all of them, so re-use of released addresses is
    covered.  Allocation failure is not modelled here. *)
Record allocator (N : Type) : Type := Allocator {
  new_addr : gmap addr N -> addr;
  new_addr_fresh : forall h, h !! new_addr h = None
}.
Arguments new_addr {N} _ _.
Arguments new_addr_fresh {N} _ _.

(** An allocator exists (used by the non-vacuity examples). *)
Definition first_fit (N : Type) : allocator N :=
  Allocator N (fun h => fresh (dom h))
    (fun h => proj1 (not_elem_of_dom h _) (is_fresh (dom h))).
