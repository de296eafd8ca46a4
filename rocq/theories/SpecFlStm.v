(** * SpecFlStm: the blocks of the two-body transition matrix, for the rounding properties.

    The formulas are those of Battin, An Introduction to the Mathematics and Methods of Astrodynamics, section 9.7. *)
From Coq Require Import ZArith Reals.
From Verif Require Import Num NumB32 NumB64 Spec SpecFl SpecFl32 SpecFl64 SpecFlV.
Local Open Scope R_scope.

(** the matrix a b^T *)
Definition tensor (a b : vec) : mat := mk3 (smul (c0 a) b) (smul (c1 a) b) (smul (c2 a) b).
Definition mplus (A B : mat) : mat := mk3 (vplus (c0 A) (c0 B)) (vplus (c1 A) (c1 B)) (vplus (c2 A) (c2 B)).
Definition mtimes (k : R) (A : mat) : mat := mk3 (smul k (c0 A)) (smul k (c1 A)) (smul k (c2 A)).

(** every entry of a computed matrix within [C] units of [m] of the entry of [A] *)
Definition off32m (C m : R) (g : M3 b32) (A : mat) : Prop :=
  off32v C m (c0 g) (c0 A) /\ off32v C m (c1 g) (c1 A) /\ off32v C m (c2 g) (c2 A).
Definition off64m (C m : R) (g : M3 b64) (A : mat) : Prop :=
  off64v C m (c0 g) (c0 A) /\ off64v C m (c1 g) (c1 A) /\ off64v C m (c2 g) (c2 A).

Section Blocks.
  Variables (mu : R) (r v r0 v0 : vec).
  Let q := vnorm r.
  Let q0 := vnorm r0.
  Let dr := vminus r r0.
  Let dv := vminus v v0.
  (** (r/mu) dv dv^T + (1/r0^3) (r0 (1-F) r r0^T + C v r0^T) + F I *)
  Definition stm_rr (F C : R) : mat :=
    mplus (mplus (mtimes (q / mu) (tensor dv dv))
                 (mtimes (/ q0 ^ 3) (mplus (mtimes (q0 * (1 - F)) (tensor r r0)) (mtimes C (tensor v r0)))))
          (mtimes F ident).
  (** (r0/mu) (1-F) (dr v0^T - dv r0^T) + (C/mu) v v0^T + G I *)
  Definition stm_rv (F G C : R) : mat :=
    mplus (mplus (mtimes (q0 / mu * (1 - F)) (mplus (tensor dr v0) (mtimes (-1) (tensor dv r0))))
                 (mtimes (C / mu) (tensor v v0)))
          (mtimes G ident).
  (** - (1/r0^2) dv r0^T - (1/r^2) r dv^T + Ft (I - (1/r^2) r r^T + (1/(mu r)) (r v^T - v r^T) r dv^T) - (mu C/(r^3 r0^3)) r r0^T *)
  Definition stm_vr (Ft C : R) : mat :=
    mplus (mplus (mplus (mtimes (- / q0 ^ 2) (tensor dv r0)) (mtimes (- / q ^ 2) (tensor r dv)))
                 (mtimes Ft (mplus (mplus ident (mtimes (- / q ^ 2) (tensor r r)))
                   (mtimes (/ (mu * q)) (mprod (mplus (tensor r v) (mtimes (-1) (tensor v r))) (tensor r dv))))))
          (mtimes (- (mu * C / (q ^ 3 * q0 ^ 3))) (tensor r r0)).
  (** (r0/mu) dv dv^T + (1/r^3) (r0 (1-F) r r0^T - C r v0^T) + Gt I *)
  Definition stm_vv (F Gt C : R) : mat :=
    mplus (mplus (mtimes (q0 / mu) (tensor dv dv))
                 (mtimes (/ q ^ 3) (mplus (mtimes (q0 * (1 - F)) (tensor r r0)) (mtimes (- C) (tensor r v0)))))
          (mtimes Gt ident).
End Blocks.

(** the sums of the sizes of the terms: [q v q0 v0] are the lengths of the four vectors, the coefficients' sizes follow *)
Definition stm_rr_size (mu q v q0 v0 F C : R) : R := q / mu * (v + v0) ^ 2 + (1 + F) * (q / q0) + C / q0 ^ 2 * v + F.
Definition stm_rv_size (mu q v q0 v0 F G C : R) : R :=
  q0 / mu * (1 + F) * ((q + q0) * v0 + (v + v0) * q0) + C / mu * (v * v0) + G.
Definition stm_vr_size (mu q v q0 v0 Ft C : R) : R :=
  (v + v0) / q0 + (v + v0) / q + Ft * (2 + 6 * (q * v) / mu * (v + v0)) + mu * C / (q ^ 2 * q0 ^ 2).
Definition stm_vv_size (mu q v q0 v0 F Gt C : R) : R :=
  q0 / mu * (v + v0) ^ 2 + (1 + F) * (q0 / q) ^ 2 + C / q ^ 2 * v0 + Gt.

(** the scales of the rounding errors of the fourth and fifth universal functions and of the coefficient C *)
Definition uf4_size (chi alpha : R) : R :=
  let a := Rabs alpha in let th := sqrt a * Rabs chi in (th ^ 2 + 2 + 2 * spread chi alpha) / (2 * a ^ 2).
Definition uf5_size (chi alpha : R) : R :=
  let a := Rabs alpha in let th := sqrt a * Rabs chi in sqrt a * (th ^ 3 + 6 * th + 6 * spread chi alpha) / (6 * a ^ 3).
Definition c_size (chi alpha dt mu : R) : R :=
  (3 * uf5_size chi alpha + Rabs chi * uf4_size chi alpha + sqrt mu * Rabs dt * uf_size 2 chi alpha) / sqrt mu.
