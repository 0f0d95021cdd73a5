(** IEEE-754 binary32 ("f32") with Rust's semantics.

    Type and arithmetic are Flocq's computable [binary_float 24 128] with a
    single NaN and round-to-nearest, ties-to-even (the only mode Rust uses).
    Rust methods modelled here: + - * / , abs, sqrt, comparisons, max, min,
    clamp, floor, ceil, round, is_nan, is_finite, [as] casts, Iterator::sum. *)
From Coq Require Import ZArith Bool List.
From Flocq Require Import Core.
From Flocq Require Export IEEE754.BinarySingleNaN.
From Verif Require Import Rust.

Notation fprec := 24%Z.
Notation femax := 128%Z.
Definition f32 : Type := binary_float fprec femax.

Definition prec_gt_0_32 : Prec_gt_0 fprec := eq_refl.
Definition prec_lt_emax_32 : Prec_lt_emax fprec femax := eq_refl.
#[global] Existing Instance prec_gt_0_32.
#[global] Existing Instance prec_lt_emax_32.

Definition fnan : f32 := B754_nan.
Definition finf : f32 := B754_infinity false.
Definition fninf : f32 := B754_infinity true.
Definition f0 : f32 := B754_zero false.
Definition fm0 : f32 := B754_zero true.

(** Integer scaled by a power of two, rounded to nearest even. *)
Definition lit (m e : Z) : f32 := binary_normalize fprec femax _ _ mode_NE m e false.
(** [n as f32] for an integer n. *)
Definition z2f (z : Z) : f32 := lit z 0.
Definition n2f (n : nat) : f32 := z2f (Z.of_nat n).

Definition fadd (x y : f32) : f32 := Bplus mode_NE x y.
Definition fsub (x y : f32) : f32 := Bminus mode_NE x y.
Definition fmul (x y : f32) : f32 := Bmult mode_NE x y.
Definition fdiv (x y : f32) : f32 := Bdiv mode_NE x y.
Definition fsqrt (x : f32) : f32 := Bsqrt mode_NE x.
Definition fneg (x : f32) : f32 := Bopp x.
Definition fabs (x : f32) : f32 := Babs x.

(** IEEE comparisons: every comparison with NaN is false. *)
Definition fle (x y : f32) : bool := Bleb x y.
Definition flt (x y : f32) : bool := Bltb x y.
Definition fge (x y : f32) : bool := Bleb y x.
Definition fgt (x y : f32) : bool := Bltb y x.
Definition feq (x y : f32) : bool := Beqb x y.
(** partial_cmp *)
Definition fcmp (x y : f32) : option comparison := Bcompare x y.

Definition fisnan (x : f32) : bool := is_nan x.
Definition fisfin (x : f32) : bool := is_finite x.

(** f32::max / f32::min ignore a NaN operand.  For operands that compare equal
    (i.e. +0/-0) Rust leaves the choice open; the model returns the first. *)
Definition fmax (x y : f32) : f32 :=
  if fisnan x then y else if fisnan y then x else if flt x y then y else x.
Definition fmin (x y : f32) : f32 :=
  if fisnan x then y else if fisnan y then x else if flt y x then y else x.

(** f32::clamp: asserts min <= max (false for NaN bounds), keeps NaN self. *)
Definition fclamp_val (x lo hi : f32) : f32 :=
  if flt x lo then lo else if flt hi x then hi else x.
Definition fclamp (x lo hi : f32) : outcome f32 :=
  if fle lo hi then Ok (fclamp_val x lo hi) else Panic.

Definition ffloor (x : f32) : f32 := Bnearbyint mode_DN x.
Definition fceil (x : f32) : f32 := Bnearbyint mode_UP x.
Definition fround (x : f32) : f32 := Bnearbyint mode_NA x.

(** Saturating float-to-integer cast ([as]); NaN becomes 0. *)
Definition f2int (lo hi : Z) (x : f32) : Z :=
  match x with
  | B754_nan => 0
  | B754_infinity false => hi
  | B754_infinity true => lo
  | _ => Z.max lo (Z.min hi (Btrunc x))
  end.
Definition usize_max : Z := 2 ^ 64 - 1.
Definition f2usize (x : f32) : Z := f2int 0 usize_max x.
Definition f2isize (x : f32) : Z := f2int (- 2 ^ 63) (2 ^ 63 - 1) x.
Definition f2i32 (x : f32) : Z := f2int (- 2 ^ 31) (2 ^ 31 - 1) x.

(** Iterator::sum::<f32>: left fold from +0.0.  (Recent standard libraries start
    from -0.0; the two differ only in the sign of an all-zero sum.) *)
Definition fsum (l : list f32) : f32 := fold_left fadd l f0.

(** Frequently used constants. *)
Definition f1 : f32 := lit 1 0.
Definition f2 : f32 := lit 2 0.
Definition fhalf : f32 := lit 1 (-1).

(** Data equality (bit pattern up to NaN payload). *)
Definition fsame (x y : f32) : bool :=
  match x, y with
  | B754_zero a, B754_zero b => Bool.eqb a b
  | B754_infinity a, B754_infinity b => Bool.eqb a b
  | B754_nan, B754_nan => true
  | B754_finite a m e _, B754_finite b n g _ => Bool.eqb a b && Pos.eqb m n && Z.eqb e g
  | _, _ => false
  end.
