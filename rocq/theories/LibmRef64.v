(** * LibmRef64: the concrete libm of [LibmRef], rounded to double precision instead.

    Used by examples only ([B64Examples]); no theorem about the code depends on it.  96 fractional bits are
    enough for 53 correct bits of results down to about 2^-40. *)
From Coq Require Import ZArith List Bool.
From Flocq Require Import Core IEEE754.BinarySingleNaN.
From Verif Require Import Num NumB32 LibmRef NumB64.
Local Open Scope Z_scope.
Local Open Scope bool_scope.

Definition fix64 (x : b64) : Z :=
  match x with
  | B754_finite s m e _ => let z := Z.shiftl (Zpos m) (e + fbits) in if s then - z else z
  | _ => 0
  end.
Definition of_fix64 (z : Z) : b64 := binary_normalize 53 1024 _ _ mode_NE z (- fbits) false.
Definition lit64 (p : Z) (q : positive) : b64 := of_fix64 (p * fone / Zpos q).

Definition on_finite64 (f : Z -> Z) (x : b64) : b64 :=
  match x with B754_finite _ _ _ _ => of_fix64 (f (fix64 x)) | _ => B754_nan end.
Definition odd_fun64 (f : Z -> Z) (x : b64) : b64 :=
  match x with B754_zero s => B754_zero s | _ => on_finite64 f x end.
Definition at_zero64 (v : Z) (f : Z -> Z) (x : b64) : b64 :=
  match x with B754_zero _ => of_fix64 v | _ => on_finite64 f x end.

Definition ref_libm64 : libm64 := {|
  d_cbrt := odd_fun64 fcbrt;
  d_sin := odd_fun64 fsin;
  d_cos := at_zero64 fone fcos;
  d_sinh := odd_fun64 fsinh;
  d_cosh := at_zero64 fone fcosh;
  d_log := fun x => if 0 <? fix64 x then on_finite64 flog x else B754_nan;
  d_arccos := fun x =>
    let z := fix64 x in
    match x with
    | B754_zero _ => of_fix64 (fpi / 2)
    | _ => if fone <? Z.abs z then B754_nan
           else on_finite64 (fun z => fatan2 (fsqrt (fone - fmul z z)) z) x
    end;
  d_arctan2 := fun y x =>
    match y, x with
    | B754_zero _, B754_finite true _ _ _ => of_fix64 fpi
    | B754_zero _, B754_zero true => of_fix64 fpi
    | B754_zero s, _ => B754_zero s
    | B754_finite _ _ _ _, B754_finite _ _ _ _ => of_fix64 (fatan2 (fix64 y) (fix64 x))
    | B754_finite s _ _ _, B754_zero _ => of_fix64 (if s then - fpi / 2 else fpi / 2)
    | _, _ => B754_nan
    end
|}.

(** The number lies within [tol] (in units of 2^-96) of [p/q], all exact. *)
Definition near64 (x : b64) (p : Z) (q : positive) (tol : Z) : bool :=
  is_finite x && (Z.abs (fix64 x * Zpos q - p * fone) <=? tol * Zpos q).
