(** * LibmRef: one concrete libm, so that the single precision model can be run.

    Used by examples only ([B32Examples], [DocExamples]); no theorem about the code
    depends on it.  Numbers are converted to integers with 96 fractional bits,
    the function is computed there by its series, and the result is rounded to
    nearest even. *)
From Coq Require Import ZArith List Bool.
From Flocq Require Import Core IEEE754.BinarySingleNaN.
From Verif Require Import Num NumB32.
Local Open Scope Z_scope.
Local Open Scope bool_scope.

Definition fbits : Z := 96.
Definition fone : Z := Z.shiftl 1 fbits.

(** the value of a finite number, rounded down to 96 fractional bits *)
Definition fix_of (x : b32) : Z :=
  match x with
  | B754_finite s m e _ => let z := Z.shiftl (Zpos m) (e + fbits) in if s then - z else z
  | _ => 0
  end.
Definition of_fix (z : Z) : b32 := binary_normalize 24 128 _ _ mode_NE z (- fbits) false.

(** p/q, cut to 96 fractional bits and then rounded to nearest even *)
Definition lit (p : Z) (q : positive) : b32 := of_fix (p * fone / Zpos q).

Definition fmul (x y : Z) : Z := Z.shiftr (x * y) fbits.
Definition fdiv (x y : Z) : Z := Z.shiftl x fbits / y.
Definition fsqrt (x : Z) : Z := Z.sqrt (Z.shiftl x fbits).

(** atan 1/n for an integer n, by its series *)
Fixpoint atan_inv (fuel : nat) (t n2 k : Z) : Z :=
  match fuel with
  | O => 0
  | S f => t / k - atan_inv f (t / n2) n2 (k + 2)
  end.
(** Machin: pi = 16 atan(1/5) - 4 atan(1/239), with 160 bits *)
Definition pi160 : Z :=
  let one := Z.shiftl 1 160 in
  16 * atan_inv 80 (one / 5) 25 1 - 4 * atan_inv 30 (one / 239) 57121 1.
Definition fpi : Z := Z.shiftr pi160 64.

(** reduction to [-pi, pi] *)
Definition reduce (x : Z) : Z :=
  let k := (Z.shiftl x 64 + pi160) / (2 * pi160) in
  x - Z.shiftr (2 * pi160 * k) 64.

(** sum of t, t y^2/((a)(a+1)), ... with alternating sign when [alt] *)
Fixpoint series (fuel : nat) (alt : bool) (t y2 a : Z) : Z :=
  match fuel with
  | O => 0
  | S f =>
      let t' := fmul t y2 / (a * (a + 1)) in
      t + series f alt (if alt then - t' else t') y2 (a + 2)
  end.
Definition fsin (x : Z) : Z := let y := reduce x in series 40 true y (fmul y y) 2.
Definition fcos (x : Z) : Z := let y := reduce x in series 40 true fone (fmul y y) 1.

Fixpoint exp_series (fuel : nat) (t y k : Z) : Z :=
  match fuel with
  | O => 0
  | S f => t + exp_series f (fmul t y / k) y (k + 1)
  end.
Fixpoint squares (n : nat) (x : Z) : Z :=
  match n with O => x | S m => squares m (fmul x x) end.
(** exp x = (exp (x/2^8))^(2^8) *)
Definition fexp (x : Z) : Z :=
  let y := Z.shiftr x 8 in squares 8 (exp_series 40 fone y 1).
Definition fsinh (x : Z) : Z :=
  if Z.abs x <? fone then series 30 false x (fmul x x) 2
  else let a := fexp (Z.abs x) in
       let s := (a - fdiv fone a) / 2 in if x <? 0 then - s else s.
Definition fcosh (x : Z) : Z :=
  let a := fexp (Z.abs x) in (a + fdiv fone a) / 2.

Fixpoint atan_series (fuel : nat) (t y2 k : Z) : Z :=
  match fuel with
  | O => 0
  | S f => t / k - atan_series f (fmul t y2) y2 (k + 2)
  end.
(** atan t = 2 atan (t / (1 + sqrt (1 + t^2))) *)
Definition halve (t : Z) : Z := fdiv t (fone + fsqrt (fone + fmul t t)).
Definition fatan (t : Z) : Z :=
  let y := halve (halve (halve t)) in 8 * atan_series 30 y (fmul y y) 1.
Definition fatan2 (y x : Z) : Z :=
  if (x =? 0) && (y =? 0) then 0
  else if Z.abs y <=? Z.abs x then
    let a := fatan (fdiv y x) in
    if x <? 0 then (if y <? 0 then a - fpi else a + fpi) else a
  else
    let a := fatan (fdiv x y) in
    if y <? 0 then - fpi / 2 - a else fpi / 2 - a.

(** log m for m in [1, 2): 2 atanh ((m-1)/(m+1)) *)
Fixpoint atanh_series (fuel : nat) (t y2 k : Z) : Z :=
  match fuel with
  | O => 0
  | S f => t / k + atanh_series f (fmul t y2) y2 (k + 2)
  end.
Definition flog1 (m : Z) : Z :=
  let y := fdiv (m - fone) (m + fone) in 2 * atanh_series 40 y (fmul y y) 1.
Definition flog (x : Z) : Z :=
  let e := Z.log2 x - fbits in
  let m := if 0 <=? e then Z.shiftr x e else Z.shiftl x (- e) in
  e * flog1 (2 * fone) + flog1 m.

(** integer cube root by bisection on the bits *)
Fixpoint icbrt (n : nat) (x r : Z) : Z :=
  match n with
  | O => r
  | S k => let b := r + Z.shiftl 1 (Z.of_nat k) in
           icbrt k x (if b * b * b <=? x then b else r)
  end.
Definition fcbrt (x : Z) : Z :=
  let r := icbrt 140 (Z.shiftl (Z.abs x) (2 * fbits)) 0 in if x <? 0 then - r else r.

(** lift to single precision: NaN outside the domain, the argument's zero kept *)
Definition on_finite (f : Z -> Z) (x : b32) : b32 :=
  match x with B754_finite _ _ _ _ => of_fix (f (fix_of x)) | _ => B754_nan end.
Definition odd_fun (f : Z -> Z) (x : b32) : b32 :=
  match x with B754_zero s => B754_zero s | _ => on_finite f x end.
Definition at_zero (v : Z) (f : Z -> Z) (x : b32) : b32 :=
  match x with B754_zero _ => of_fix v | _ => on_finite f x end.

Definition ref_libm : libm := {|
  m_cbrt := odd_fun fcbrt;
  m_sin := odd_fun fsin;
  m_cos := at_zero fone fcos;
  m_sinh := odd_fun fsinh;
  m_cosh := at_zero fone fcosh;
  m_log := fun x => if 0 <? fix_of x then on_finite flog x else B754_nan;
  m_arccos := fun x =>
    let z := fix_of x in
    match x with
    | B754_zero _ => of_fix (fpi / 2)
    | _ => if fone <? Z.abs z then B754_nan
           else on_finite (fun z => fatan2 (fsqrt (fone - fmul z z)) z) x
    end;
  m_arctan2 := fun y x =>
    match y, x with
    | B754_zero _, B754_finite true _ _ _ => of_fix fpi
    | B754_zero _, B754_zero true => of_fix fpi
    | B754_zero s, _ => B754_zero s
    | B754_finite _ _ _ _, B754_finite _ _ _ _ => of_fix (fatan2 (fix_of y) (fix_of x))
    | B754_finite s _ _ _, B754_zero _ => of_fix (if s then - fpi / 2 else fpi / 2)
    | _, _ => B754_nan
    end
|}.

(** The number lies within [tol] of [p/q], all exact. *)
Definition near (x : b32) (p : Z) (q : positive) (tol : Z) : bool :=
  is_finite x && (Z.abs (fix_of x * Zpos q - p * fone) <=? tol * Zpos q).
(** printed as [p/q...]: the decimal digits shown, truncated *)
Definition shows (x : b32) (p : Z) (q : positive) : bool :=
  let z := fix_of x in
  is_finite x
  && (if p <? 0 then (z <? 0) else 0 <=? z)
  && (Z.abs p * fone <=? Z.abs z * Zpos q) && (Z.abs z * Zpos q <? (Z.abs p + 1) * fone).
(** [jnp.allclose(x, p/q, rtol=1e-5, atol=1/at)] for one element *)
Definition close (x : b32) (p : Z) (q : positive) (at_ : positive) : bool :=
  is_finite x &&
  (Z.abs (fix_of x * Zpos q - p * fone) * 100000 * Zpos at_
     <=? fone * (Zpos q * 100000 + Z.abs p * Zpos at_)).
