(** * StmAlg: scalar algebra behind the state transition matrix (for C18-C20) *)
From Coq Require Import Reals Lra.
Local Open Scope R_scope.

Section Alg.
  (** [n0] initial radius, [s0] initial sigma, [al] alpha, [u1..u5] universal functions at [chi]. *)
  Variables (n0 s0 al chi u0 u1 u2 u3 u4 u5 : R).
  Hypothesis H0 : u0 = 1 - al * u2.
  Hypothesis H1 : chi = u1 + al * u3.
  Hypothesis H4 : u4 = (chi * u3 + u1 * u3 - u2 ^ 2) / 2.
  Hypothesis HP : u1 * u1 = u2 * (2 - al * u2).
  Let r := n0 * u0 + s0 * u1 + u2.
  Let sg := s0 * u0 + (1 - al * n0) * u1.
  Let G := n0 * u1 + s0 * u2.
  Let tau := n0 * u1 + s0 * u2 + u3.
  Let C := 3 * u5 - chi * u4 - tau * u2.
  (** derivatives with respect to alpha *)
  Let d0 := - chi * u1 / 2.
  Let d1 := (u3 - chi * u2) / 2.
  Let d2 := (2 * u4 - chi * u3) / 2.
  Let d3 := (3 * u5 - chi * u4) / 2.
  Let TT := n0 * d1 + s0 * d2 + d3.
  Let SS := n0 * d0 + s0 * d1 + d2.
  (** variations of the initial state: a = r0.dr, b = w0.dr, c = r0.dw, d = w0.dw *)
  Variables (a b c d : R).
  Hypothesis Hn : n0 <> 0.
  Hypothesis Hr : r <> 0.
  Let dn := a / n0.
  Let ds := b + c.
  Let da := - 2 * a / n0 ^ 3 - 2 * d.
  Let dc := - (dn * u1 + ds * u2 + TT * da) / r.
  Let du0 := - al * u1 * dc + d0 * da.
  Let du1 := u0 * dc + d1 * da.
  Let du2 := u1 * dc + d2 * da.
  Let du3 := u2 * dc + d3 * da.
  Let dr := dn * u0 + n0 * du0 + ds * u1 + s0 * du1 + du2.
  Variables (x y : R).   (* one component of r0 and of w0 = v0 / sqrt mu *)
  Let X := (1 - u2 / n0) * x + G * y.
  Let w := - u1 / (r * n0) * x + (1 - u2 / r) * y.
  Let k := - u1 / (r * n0) * a - u2 / r * b.    (* (w - w0) . dr *)
  Let l := - u1 / (r * n0) * c - u2 / r * d.    (* (w - w0) . dw *)

  Lemma TT_eq : 2 * TT = C + u3 * r.
  Proof. unfold TT, C, r, tau, d1, d2, d3. rewrite H4, H1, H0. field. Qed.
  Lemma SS_eq : 2 * SS = sg * u3 - n0 * u2 - u2 * r.
  Proof.
    transitivity (sg * u3 - n0 * u2 - u2 * r + n0 * (u2 * (2 - al * u2) - u1 * u1)).
    - unfold SS, sg, r, d0, d1, d2. rewrite H4, H1, H0. field.
    - rewrite HP. ring.
  Qed.

  (* V1 *)
  Lemma w_diff : r * n0 * (w - y) = - u1 * x - u2 * n0 * y.
  Proof. unfold w. field. auto. Qed.
  Lemma U0r : u0 * r - u1 * sg = n0 - u2.
  Proof. unfold r, sg. rewrite H0. ring [HP]. Qed.
  Lemma U1r : u1 * r - u2 * sg = G.
  Proof. unfold r, sg, G. rewrite H0. ring [HP]. Qed.
  (* V3 *)
  Lemma X_form : X = - r * (sg * (y - w) - u0 / n0 * x - u1 * y).
  Proof.
    unfold X, w. replace G with (u1 * r - u2 * sg) by apply U1r.
    transitivity ((1 - u2 / n0) * x + (u1 * r - u2 * sg) * y); [ring|].
    replace (1 - u2 / n0) with ((n0 - u2) / n0) by (field; auto). rewrite <- U0r.
    field. auto.
  Qed.

  Lemma pos_variation :
    - (du2 / n0 - u2 * dn / n0 ^ 2) * x + (dn * u1 + n0 * du1 + ds * u2 + s0 * du2) * y
    = r * k * (w - y) + u2 / n0 ^ 3 * a * X + C / n0 ^ 3 * a * w
      + (u2 * ((X - x) * d - (w - y) * c) + C * d * w).
  Proof.
    assert (E : dn * u1 + n0 * du1 + ds * u2 + s0 * du2 = - du3).
    { unfold du1, du2, du3.
      assert (D : r * dc = - (dn * u1 + ds * u2 + TT * da)) by (unfold dc; field; auto).
      transitivity (r * dc + dn * u1 + ds * u2 + TT * da - du3); [|rewrite D; unfold du3; ring].
      unfold du3, TT, r. ring. }
    rewrite E. unfold du2, du3, dc, da, dn, ds, k, X.
    pose proof w_diff as W. pose proof TT_eq as T.
    assert (D : w = y + (- u1 * x - u2 * n0 * y) / (r * n0)) by (unfold w; field; auto).
    rewrite D. clear D W. clear E.
    replace TT with ((C + u3 * r) / 2) by lra.
    replace G with (tau - u3) by (unfold tau, G; ring).
    replace d3 with ((C + tau * u2) / 2) by (unfold d3, C; field).
    replace d2 with ((u1 * u3 - u2 ^ 2) / 2) by (unfold d2; rewrite H4; field).
    clearbody r C tau. clear T H0 H1 H4 HP. field. auto.
  Qed.

  Let z := y - w.
  Let q := a / n0 ^ 3 + d.

  (* V2 *)
  Lemma V2 : n0 * z = u1 / r * X - u2 * w.
  Proof.
    assert (A : n0 * (u1 / (r * n0)) = u1 / r * (1 - u2 / n0) + u2 * u1 / (r * n0)) by (field; auto).
    assert (B : n0 * u2 = u1 * G - u2 * (r - u2)) by (unfold G, r; rewrite H0; ring [HP]).
    unfold z, X, w.
    transitivity (n0 * (u1 / (r * n0)) * x + (n0 * u2) / r * y); [field; auto|].
    rewrite A, B. field. auto.
  Qed.
  (* V3 *)
  Lemma V3 : X / r = - sg * z + u0 / n0 * x + u1 * y.
  Proof. rewrite X_form. unfold z. field. auto. Qed.
  (* V3 reversed *)
  Lemma V3' : x / n0 = s0 * z + u0 / r * X - u1 * w.
  Proof.
    assert (A : s0 * u1 + u0 * (n0 - u2) + u1 * u1 = r) by (unfold r; rewrite H0; ring [HP]).
    assert (B : s0 * u2 + u0 * G - u1 * (r - u2) = 0) by (unfold G, r; rewrite H0; ring [HP]).
    unfold z, X, w.
    transitivity ((s0 * u1 + u0 * (n0 - u2) + u1 * u1) / (r * n0) * x
                  + (s0 * u2 + u0 * G - u1 * (r - u2)) / r * y).
    - rewrite A, B. field. auto.
    - field. auto.
  Qed.
  Lemma QQ : 2 * (SS * z - d1 / n0 * x - d2 * y) = - n0 * u2 * z - u3 / r * X.
  Proof.
    pose proof SS_eq as S. pose proof V3 as V.
    assert (D1 : 2 * d1 = u0 * u3 - u1 * u2) by (unfold d1; rewrite H0, H1; field).
    assert (D2 : 2 * d2 = u1 * u3 - u2 ^ 2) by (unfold d2; rewrite H4; field).
    assert (W : u2 * (u1 / n0 * x + u2 * y) = u2 * r * z) by (unfold z, w; field; auto).
    transitivity ((2 * SS) * z - (2 * d1) / n0 * x - (2 * d2) * y); [field; auto|].
    rewrite S, D1, D2. replace (u3 / r * X) with (u3 * (X / r)) by (field; auto). rewrite V.
    transitivity (sg * u3 * z - n0 * u2 * z - u2 * r * z - u0 * u3 / n0 * x - u1 * u3 * y
                  + u2 * (u1 / n0 * x + u2 * y)); [field; auto|]. rewrite W. field. auto.
  Qed.

  Lemma velL :
    r * (- (du1 / (r * n0) - u1 * dr / (r ^ 2 * n0) - u1 * dn / (r * n0 ^ 2)) * x
         + - (du2 / r - u2 * dr / r ^ 2) * y)
    = X / r ^ 2 * (a * u1 / n0 + (b + c) * u2 - q * C)
      + (a * u0 / n0 + (b + c) * u1 + q * n0 * u2) * z + u1 * a / n0 ^ 3 * x.
  Proof.
    assert (Edr : dr = sg * dc + dn * u0 + ds * u1 + SS * da).
    { unfold dr, du0, du1, du2, SS, sg. rewrite H0. ring. }
    transitivity (dr * z + u1 * dn / n0 ^ 2 * x - du1 / n0 * x - du2 * y).
    { unfold z, w. clearbody dr du1 du2 dn r. field. auto. }
    rewrite Edr. unfold du1, du2.
    transitivity (- dc * (- sg * z + u0 / n0 * x + u1 * y) + (dn * u0 + ds * u1) * z + u1 * dn / n0 ^ 2 * x
                  + da / 2 * (2 * (SS * z - d1 / n0 * x - d2 * y))).
    { clearbody z dn ds da dc r. field. auto. }
    rewrite QQ, <- V3. unfold dc.
    replace TT with ((C + u3 * r) / 2) by (pose proof TT_eq; lra).
    unfold dn, ds, da, q. clearbody z X r C. field. auto.
  Qed.
  Lemma velR :
    r * (- (w - y) * a / n0 ^ 2 - X / r ^ 2 * k
      + - u1 / (r * n0) * (- X * ((1 - u2 / n0) * a + G * b) / r ^ 2 + (sg * X - r ^ 2 * w) / r * k)
      - C / (r ^ 3 * n0 ^ 3) * a * X
      + (n0 * (w - y) * l + u2 / r ^ 3 * c * X - C * d * X / r ^ 3))
    = X / r ^ 2 * (a * u1 / n0 + (b + c) * u2 - q * C)
      + (a * u0 / n0 + (b + c) * u1 + q * n0 * u2) * z + u1 * a / n0 ^ 3 * x.
  Proof.
    assert (E : (u1 / n0) * (X * ((1 - u2 / n0) * a + G * b) / r ^ 2
                  + (sg * X - r ^ 2 * w) / r ^ 2 * (u1 * a / n0 + u2 * b))
                = u1 * b * z + u1 / n0 ^ 2 * a * (x / n0 - s0 * z)).
    { pose proof U0r as A. pose proof U1r as B. pose proof V2 as V. pose proof V3' as V'.
      transitivity ((u1 / n0) * (b * (X * (G + u2 * sg) / r ^ 2 - u2 * w)
                                 + a / n0 * (X * (n0 - u2 + u1 * sg) / r ^ 2 - u1 * w))).
      { clearbody X r sg G w. field. auto. }
      replace (G + u2 * sg) with (u1 * r) by lra. replace (n0 - u2 + u1 * sg) with (u0 * r) by lra.
      transitivity ((u1 / n0) * (b * (u1 / r * X - u2 * w) + a / n0 * (u0 / r * X - u1 * w))).
      { clearbody X r w. field. auto. }
      rewrite <- V. replace (u0 / r * X - u1 * w) with (x / n0 - s0 * z) by lra.
      clearbody z. field. auto. }
    assert (R : r = n0 * u0 + s0 * u1 + u2) by reflexivity.
    transitivity (z * a * (n0 * u0 + s0 * u1 + u2) / n0 ^ 2 + X / r ^ 2 * (u1 * a / n0 + u2 * b)
      + (u1 / n0) * (X * ((1 - u2 / n0) * a + G * b) / r ^ 2
                  + (sg * X - r ^ 2 * w) / r ^ 2 * (u1 * a / n0 + u2 * b))
      - C / (r ^ 2 * n0 ^ 3) * a * X + (u1 * c + n0 * u2 * d) * z + u2 * c * X / r ^ 2 - C * d * X / r ^ 2).
    { rewrite <- R. unfold k, l, z. clear R E. clearbody X r sg G w C. field. auto. }
    rewrite E. unfold q. clear R E. clearbody z X r C. field. auto.
  Qed.

  Lemma vel_variation :
    - (du1 / (r * n0) - u1 * dr / (r ^ 2 * n0) - u1 * dn / (r * n0 ^ 2)) * x
    + - (du2 / r - u2 * dr / r ^ 2) * y
    = - (w - y) * a / n0 ^ 2 - X / r ^ 2 * k
      + - u1 / (r * n0) * (- X * ((1 - u2 / n0) * a + G * b) / r ^ 2 + (sg * X - r ^ 2 * w) / r * k)
      - C / (r ^ 3 * n0 ^ 3) * a * X
      + (n0 * (w - y) * l + u2 / r ^ 3 * c * X - C * d * X / r ^ 3).
  Proof. apply (Rmult_eq_reg_l r); auto. rewrite velL, velR. reflexivity. Qed.
End Alg.

(** From the scaled velocity [w = v / m], [m = sqrt mu], to the velocity itself. *)
Section Glue.
  Variables (m mu n r u1 u2 sg Gh Ch a b c d x v x' v' : R).
  Hypothesis Hm : m <> 0.
  Hypothesis Hn : n <> 0.
  Hypothesis Hr : r <> 0.
  Hypothesis Hmu : mu = m * m.
  Let y := v / m.
  Let X := (1 - u2 / n) * x + Gh * y.
  Let w := - u1 / (r * n) * x + (1 - u2 / r) * y.
  Let k := - u1 / (r * n) * a - u2 / r * b.
  Let l := - u1 / (r * n) * c - u2 / r * d.
  Let F := 1 - u2 / n.
  Let G := Gh / m.
  Let Ft := - m / r * u1 / n.
  Let Gt := 1 - u2 / r.
  Let Ri := F * x + G * v.
  Let Vi := Ft * x + Gt * v.
  Let C := Ch / m.
  Variables (P Q : R).

  Lemma pos_glue :
    P * x + Q * y = r * k * (w - y) + u2 / n ^ 3 * a * X + Ch / n ^ 3 * a * w
                    + (u2 * ((X - x) * d - (w - y) * c) + Ch * d * w) ->
    P * x + F * x' + (Q / m * v + G * v')
    = r / mu * (Ft * a + (Gt - 1) * (m * b)) * (Vi - v) + (1 - F) * a / n ^ 2 * Ri + C / n ^ 3 * a * Vi + F * x'
      + (n / mu * (1 - F) * (mu * d * (Ri - x) - m * c * (Vi - v)) + C / mu * (mu * d) * Vi + G * v').
  Proof.
    intros H. replace (P * x + F * x' + (Q / m * v + G * v')) with (P * x + Q * y + F * x' + G * v')
      by (unfold y; field; auto).
    rewrite H, Hmu. unfold k, w, X, y, Vi, Ri, C, F, G, Ft, Gt. field. auto.
  Qed.
  Lemma vel_glue :
    P * x + Q * y
    = - (w - y) * a / n ^ 2 - X / r ^ 2 * k
      + - u1 / (r * n) * (- X * ((1 - u2 / n) * a + Gh * b) / r ^ 2 + (sg * X - r ^ 2 * w) / r * k)
      - Ch / (r ^ 3 * n ^ 3) * a * X
      + (n * (w - y) * l + u2 / r ^ 3 * c * X - Ch * d * X / r ^ 3) ->
    m * P * x + Ft * x' + (Q * v + Gt * v')
    = - (a / n ^ 2) * (Vi - v) - (Ft * a + (Gt - 1) * (m * b)) / r ^ 2 * Ri
      + Ft * (x' - (F * a + G * (m * b)) / r ^ 2 * Ri
              + (Ft * a + (Gt - 1) * (m * b)) / (mu * r) * (m * sg * Ri - r ^ 2 * Vi))
      - mu / r ^ 2 * C / n ^ 2 * (a / n) / r * Ri
      + (n / mu * (Ft * (m * c) + (Gt - 1) * (mu * d)) * (Vi - v) + (1 - F) * n / r ^ 3 * (m * c) * Ri
         - C / r ^ 3 * (mu * d) * Ri + Gt * v').
  Proof.
    intros H. replace (m * P * x + Ft * x' + (Q * v + Gt * v')) with (m * (P * x + Q * y) + Ft * x' + Gt * v')
      by (unfold y; field; auto).
    rewrite H, Hmu. unfold k, l, w, X, y, Vi, Ri, C, F, G, Ft, Gt. field. auto.
  Qed.
End Glue.
