(** * StmSym: scalar algebra behind the symplectic property (for C20) *)
From Coq Require Import Reals Lra.
Local Open Scope R_scope.

Section Sym.
  Variables (n0 s0 al u0 u1 u2 u3 TT : R).
  Hypothesis H0 : u0 = 1 - al * u2.
  Hypothesis HP : u1 * u1 = u2 * (2 - al * u2).
  Hypothesis Hn : n0 <> 0.
  Let r := n0 * u0 + s0 * u1 + u2.
  Hypothesis Hr : r <> 0.
  Let F := 1 - u2 / n0.
  Let G := n0 * u1 + s0 * u2.
  Let Ft := - u1 / (r * n0).
  Let Gt := 1 - u2 / r.
  Variables (d0 d1 d2 : R).
  Hypothesis E0 : d0 = - (u1 + al * u3) * u1 / 2.
  Hypothesis E1 : d1 = (u0 * u3 - u1 * u2) / 2.
  Hypothesis E2 : d2 = (u1 * u3 - u2 ^ 2) / 2.
  Definition xdc (dn ds da : R) := - (dn * u1 + ds * u2 + TT * da) / r.
  Definition xdu0 dn ds da := - al * u1 * xdc dn ds da + d0 * da.
  Definition xdu1 dn ds da := u0 * xdc dn ds da + d1 * da.
  Definition xdu2 dn ds da := u1 * xdc dn ds da + d2 * da.
  Definition xdr dn ds da := dn * u0 + n0 * xdu0 dn ds da + ds * u1 + s0 * xdu1 dn ds da + xdu2 dn ds da.
  Definition xF dn ds da := - (xdu2 dn ds da / n0 - u2 * dn / n0 ^ 2).
  Definition xG dn ds da := dn * u1 + n0 * xdu1 dn ds da + ds * u2 + s0 * xdu2 dn ds da.
  Definition xFt dn ds da := - (xdu1 dn ds da / (r * n0) - u1 * xdr dn ds da / (r ^ 2 * n0) - u1 * dn / (r * n0 ^ 2)).
  Definition xGt dn ds da := - (xdu2 dn ds da / r - u2 * xdr dn ds da / r ^ 2).

  (** variation of the determinant *)
  Lemma det_var dn ds da : Gt * xF dn ds da + F * xGt dn ds da - Ft * xG dn ds da - G * xFt dn ds da = 0.
  Proof.
    unfold xF, xG, xFt, xGt, xdr, xdu0, xdu1, xdu2, xdc, F, G, Ft, Gt, r. rewrite E0, E1, E2, H0.
    unfold r in Hr. rewrite H0 in Hr.
    field_simplify_eq; [|auto]. ring [HP].
  Qed.

  (** the antisymmetric form in the variations, [b = 0] *)
  Definition half (dn1 ds1 da1 dn2 ds2 da2 : R) :=
    let a1 := n0 * dn1 in let c1 := ds1 in let e1 := - (da1 / 2 + dn1 / n0 ^ 2) in
    (F * a1 + G * c1) * xFt dn2 ds2 da2 + G * e1 * xGt dn2 ds2 da2
    - (Ft * a1 + Gt * c1) * xF dn2 ds2 da2 - Gt * e1 * xG dn2 ds2 da2.
  Definition gram (dn1 ds1 da1 dn2 ds2 da2 : R) :=
    let f := xF dn1 ds1 da1 in let g := xG dn1 ds1 da1 in
    let f' := xFt dn2 ds2 da2 in let g' := xGt dn2 ds2 da2 in
    f * f' * n0 ^ 2 + (f * g' + g * f') * s0 + g * g' * (2 / n0 - al).
  Definition anti dn1 ds1 da1 dn2 ds2 da2 :=
    half dn1 ds1 da1 dn2 ds2 da2 - half dn2 ds2 da2 dn1 ds1 da1
    + gram dn1 ds1 da1 dn2 ds2 da2 - gram dn2 ds2 da2 dn1 ds1 da1.
  Ltac brute :=
    unfold anti, half, gram, xF, xG, xFt, xGt, xdr, xdu0, xdu1, xdu2, xdc, F, G, Ft, Gt, r; cbv zeta;
    unfold r in Hr; rewrite H0 in Hr; rewrite E0, E1, E2, H0;
    field_simplify_eq; [|auto]; ring [HP].
  Lemma anti_ns : anti 1 0 0 0 1 0 = 0.
  Proof. brute. Qed.
  Lemma anti_na : anti 1 0 0 0 0 1 = 0.
  Proof. brute. Qed.
  Lemma anti_sa : anti 0 1 0 0 0 1 = 0.
  Proof. brute. Qed.

  Lemma lin_c dn ds da : xdc dn ds da = dn * xdc 1 0 0 + ds * xdc 0 1 0 + da * xdc 0 0 1.
  Proof. unfold xdc. field. auto. Qed.
  Lemma lin_F dn ds da : xF dn ds da = dn * xF 1 0 0 + ds * xF 0 1 0 + da * xF 0 0 1.
  Proof. unfold xF, xdu2. rewrite (lin_c dn ds da). field. auto. Qed.
  Lemma lin_G dn ds da : xG dn ds da = dn * xG 1 0 0 + ds * xG 0 1 0 + da * xG 0 0 1.
  Proof. unfold xG, xdu1, xdu2. rewrite (lin_c dn ds da). ring. Qed.
  Lemma lin_r dn ds da : xdr dn ds da = dn * xdr 1 0 0 + ds * xdr 0 1 0 + da * xdr 0 0 1.
  Proof. unfold xdr, xdu0, xdu1, xdu2. rewrite (lin_c dn ds da). ring. Qed.
  Lemma lin_Ft dn ds da : xFt dn ds da = dn * xFt 1 0 0 + ds * xFt 0 1 0 + da * xFt 0 0 1.
  Proof. unfold xFt, xdu1. rewrite (lin_r dn ds da), (lin_c dn ds da). clearbody r. field. auto. Qed.
  Lemma lin_Gt dn ds da : xGt dn ds da = dn * xGt 1 0 0 + ds * xGt 0 1 0 + da * xGt 0 0 1.
  Proof. unfold xGt, xdu2. rewrite (lin_r dn ds da), (lin_c dn ds da). clearbody r. field. auto. Qed.
  Lemma anti_zero dn1 ds1 da1 dn2 ds2 da2 : anti dn1 ds1 da1 dn2 ds2 da2 = 0.
  Proof.
    transitivity ((dn1 * ds2 - ds1 * dn2) * anti 1 0 0 0 1 0 + (dn1 * da2 - da1 * dn2) * anti 1 0 0 0 0 1
                  + (ds1 * da2 - da1 * ds2) * anti 0 1 0 0 0 1).
    - unfold anti, half, gram. cbv zeta.
      rewrite (lin_F dn1 ds1 da1), (lin_F dn2 ds2 da2), (lin_G dn1 ds1 da1), (lin_G dn2 ds2 da2),
        (lin_Ft dn1 ds1 da1), (lin_Ft dn2 ds2 da2), (lin_Gt dn1 ds1 da1), (lin_Gt dn2 ds2 da2).
      generalize (xF 1 0 0) (xF 0 1 0) (xF 0 0 1) (xG 1 0 0) (xG 0 1 0) (xG 0 0 1)
        (xFt 1 0 0) (xFt 0 1 0) (xFt 0 0 1) (xGt 1 0 0) (xGt 0 1 0) (xGt 0 0 1). intros.
      clearbody F G Ft Gt. field. auto.
    - rewrite anti_ns, anti_na, anti_sa. ring.
  Qed.

  (** the full form *)
  Lemma symp_scalar (dn1 b1 c1 da1 dn2 b2 c2 da2 : R) :
    let a1 := n0 * dn1 in let e1 := - (da1 / 2 + dn1 / n0 ^ 2) in
    let a2 := n0 * dn2 in let e2 := - (da2 / 2 + dn2 / n0 ^ 2) in
    let f1 := xF dn1 (b1 + c1) da1 in let g1 := xG dn1 (b1 + c1) da1 in
    let f1' := xFt dn1 (b1 + c1) da1 in let g1' := xGt dn1 (b1 + c1) da1 in
    let f2 := xF dn2 (b2 + c2) da2 in let g2 := xG dn2 (b2 + c2) da2 in
    let f2' := xFt dn2 (b2 + c2) da2 in let g2' := xGt dn2 (b2 + c2) da2 in
    (F * a1 + G * c1) * f2' + (F * b1 + G * e1) * g2' - (Ft * a1 + Gt * c1) * f2 - (Ft * b1 + Gt * e1) * g2
    - ((F * a2 + G * c2) * f1' + (F * b2 + G * e2) * g1' - (Ft * a2 + Gt * c2) * f1 - (Ft * b2 + Gt * e2) * g1)
    + (f1 * f2' - f1' * f2) * n0 ^ 2 + (f1 * g2' + g1 * f2' - f1' * g2 - g1' * f2) * s0
    + (g1 * g2' - g1' * g2) * (2 / n0 - al) = 0.
  Proof.
    cbv zeta.
    pose proof (anti_zero dn1 (b1 + c1) da1 dn2 (b2 + c2) da2) as A.
    pose proof (det_var dn1 (b1 + c1) da1) as D1. pose proof (det_var dn2 (b2 + c2) da2) as D2.
    unfold anti, half, gram in A. cbv zeta in A.
    revert A D1 D2.
    generalize (xF dn1 (b1 + c1) da1) (xG dn1 (b1 + c1) da1) (xFt dn1 (b1 + c1) da1) (xGt dn1 (b1 + c1) da1)
      (xF dn2 (b2 + c2) da2) (xG dn2 (b2 + c2) da2) (xFt dn2 (b2 + c2) da2) (xGt dn2 (b2 + c2) da2).
    intros f1 g1 f1' g1' f2 g2 f2' g2' A D1 D2.
    rewrite <- (Rplus_0_l 0), <- A at 1.
    match goal with |- ?x = ?y => cut (x - y = b1 * (Gt * f2 + F * g2' - Ft * g2 - G * f2')
       - b2 * (Gt * f1 + F * g1' - Ft * g1 - G * f1')); [rewrite D1, D2; lra|] end.
    clearbody F G Ft Gt. field. auto.
  Qed.
End Sym.
