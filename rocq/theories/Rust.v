(** Rust result/panic model and small list utilities shared by all model files.

    Models: src/error.rs:1-60 (AnalysisError; the message text carried by each
    variant is not modelled) and the language-level notions used throughout
    the crate: [Result], [panic!], slice indexing. *)
From Coq Require Export List Arith ZArith Lia Bool.
From Coq Require Export Permutation.
Export ListNotations.
Set Implicit Arguments.

(** src/error.rs: AnalysisError (payload strings dropped). *)
Inductive error :=
| InvalidInput | DecodingError | ProcessingError | NotImplemented | NumericalError.

(** A Rust computation of type [Result<A, AnalysisError>] that may also panic.
    Functions that cannot fail in Rust but can panic also use this type. *)
Inductive outcome (A : Type) :=
| Ok (a : A)
| Err (e : error)
| Panic.
Arguments Ok {A} a. Arguments Err {A} e. Arguments Panic {A}.

Definition obind {A B} (x : outcome A) (f : A -> outcome B) : outcome B :=
  match x with Ok a => f a | Err e => Err e | Panic => Panic end.
Notation "'let!' x ':=' c1 'in' c2" := (obind c1 (fun x => c2))
  (at level 61, x pattern, c1 at next level, right associativity).

Definition omap {A B} (f : A -> B) (x : outcome A) : outcome B :=
  match x with Ok a => Ok (f a) | Err e => Err e | Panic => Panic end.

(** Slice indexing [l[i]]: panics when out of range. *)
Definition get {A} (l : list A) (i : nat) : outcome A :=
  match nth_error l i with Some a => Ok a | None => Panic end.

(** Sub-slice [l[a..b]] for in-range bounds; panics otherwise. *)
Definition slice {A} (l : list A) (a b : nat) : list A := firstn (b - a) (skipn a l).
Definition slice_chk {A} (l : list A) (a b : nat) : outcome (list A) :=
  if (a <=? b) && (b <=? length l) then Ok (slice l a b) else Panic.

(** [iter().collect::<Result<..>>()]-style sequencing of per-element steps. *)
Fixpoint oseq {A} (l : list (outcome A)) : outcome (list A) :=
  match l with
  | [] => Ok []
  | x :: r => let! a := x in let! b := oseq r in Ok (a :: b)
  end.

(** The panic-free predicate used by statements. *)
Definition no_panic {A} (x : outcome A) : Prop := x <> Panic.

(** Stable sort (slice::sort_by). [leb a b = false] means [cmp a b = Greater].
    Rust's [sort_by] is stable, so for a comparator that is a total preorder
    on the elements its result is the unique stable sorted permutation, which
    is what this insertion sort computes. *)
Section Sort.
  Context {A : Type} (leb : A -> A -> bool).
  Fixpoint insert_by (x : A) (l : list A) : list A :=
    match l with
    | [] => [x]
    | y :: r => if leb x y then x :: y :: r else y :: insert_by x r
    end.
  Fixpoint sort_by (l : list A) : list A :=
    match l with
    | [] => []
    | x :: r => insert_by x (sort_by r)
    end.
End Sort.

(** Vec::dedup for a boolean equality: drops an element equal to the last kept. *)
Fixpoint dedup_from {A} (eqb : A -> A -> bool) (prev : A) (l : list A) : list A :=
  match l with
  | [] => []
  | x :: r => if eqb prev x then dedup_from eqb prev r else x :: dedup_from eqb x r
  end.
Definition dedup {A} (eqb : A -> A -> bool) (l : list A) : list A :=
  match l with [] => [] | x :: r => x :: dedup_from eqb x r end.

(** [x as i32] on a 64-bit unsigned value: keep the low 32 bits, two's complement. *)
Definition as_i32 (x : Z) : Z := ((x + 2147483648) mod 4294967296 - 2147483648)%Z.
