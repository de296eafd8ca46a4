(** * EccNear: the eccentricity of a state and the one of its rounded alpha, r0 and sigma0 *)
From Coq Require Import Reals Lra Psatz.
From Coquelicot Require Import Coquelicot.
From Verif Require Import Num NumR Spec SpecFlV RLib OrbFacts.
Local Open Scope R_scope.

Lemma laplace_sq (mu : R) (r v : vec) : 0 < mu -> 0 < vnorm r ->
  vnorm (laplace mu r v) ^ 2 = (1 - (2 / vnorm r - vnorm v ^ 2 / mu) * vnorm r) ^ 2 + (2 / vnorm r - vnorm v ^ 2 / mu) * (dot r v / sqrt mu) ^ 2.
Proof.
  intros Pm Px. set (X := vnorm r) in *. set (d := dot r v). set (k := dot v v / mu - / X).
  assert (E : laplace mu r v = vminus (smul k r) (smul (d / mu) v)).
  { unfold laplace. fold X. unfold k, d, vminus, smul, cross, dot, Rdiv. cbn [c0 c1 c2]. f_equal; ring. }
  rewrite E, vnorm_sq2.
  assert (D : dot (vminus (smul k r) (smul (d / mu) v)) (vminus (smul k r) (smul (d / mu) v)) = k ^ 2 * dot r r - 2 * k * (d / mu) * d + (d / mu) ^ 2 * dot v v).
  { generalize (d / mu) as q. intro q. unfold d, vminus, smul, dot. cbn [c0 c1 c2]. ring. }
  rewrite D. unfold k. rewrite <- !vnorm_sq2. fold X.
  assert (S : (d / sqrt mu) ^ 2 = d ^ 2 / mu).
  { assert (0 < sqrt mu) by (apply sqrt_lt_R0; exact Pm). rewrite <- (sqrt_sqrt mu) at 2 by lra. field. lra. }
  rewrite S. field. lra.
Qed.

Lemma abs_prod (x y a b : R) : Rabs x <= a -> Rabs y <= b -> Rabs (x * y) <= a * b.
Proof. intros H K. rewrite Rabs_mult. apply Rmult_le_compat; auto using Rabs_pos. Qed.

Lemma ecc_num (e w b rho g h s : R) : 0 < e <= / 1000000 -> let a := 2 - w in
  0 <= s -> s ^ 2 = w -> Rabs (b - a) <= 16 * e * (2 + w) -> Rabs (rho - 1) <= 4 * e -> Rabs g <= s -> Rabs (h - g) <= 8 * e * s ->
  (1 - a) ^ 2 + a * g ^ 2 <= 358801 / 1000000 -> (1 - b * rho) ^ 2 + b * h ^ 2 <= 9 / 25 /\ 39 / 100 <= b <= 161 / 100.
Proof.
  intros He a S0 Sw Hb Hr Hg Hh H.
  assert (W0 : 0 <= w) by (rewrite <- Sw; apply pow2_ge_0).
  assert (G2 : 0 <= g ^ 2 <= w) by (split; [apply pow2_ge_0|rewrite <- Sw, <- (pow2_abs g); apply pow_incr; split; [apply Rabs_pos|exact Hg]]).
  assert (A0 : 0 < a).
  { destruct (Rlt_le_dec 0 a) as [K|K]; [exact K|exfalso]. assert (a * w <= a * g ^ 2) by nra. replace w with (2 - a) in H0 by (unfold a; ring). nra. }
  assert (A1 : (1 - a) ^ 2 <= 358801 / 1000000) by (assert (0 <= a * g ^ 2) by (apply Rmult_le_pos; lra); lra).
  assert (A2 : 4 / 10 <= a <= 16 / 10) by (split; nra). assert (W1 : w <= 16 / 10) by (unfold a in A2; lra).
  assert (S1 : s <= 127 / 100) by nra.
  assert (Hb' : Rabs (b - a) <= 58 * e) by (apply Rle_trans with (1 := Hb); nra).
  assert (Hh' : Rabs (h - g) <= 11 * e) by (apply Rle_trans with (1 := Hh); nra).
  assert (Hg' : Rabs g <= 127 / 100) by lra.
  assert (T1 : Rabs ((b - a) * rho) <= 58 * e * 2) by (apply abs_prod; [exact Hb'|apply Rabs_le_between in Hr; apply Rabs_le; lra]).
  assert (T2 : Rabs (a * (rho - 1)) <= 16 / 10 * (4 * e)) by (apply abs_prod; [rewrite Rabs_pos_eq; lra|exact Hr]).
  set (z := b * rho - a). assert (Z : Rabs z <= 123 * e).
  { replace z with ((b - a) * rho + a * (rho - 1)) by (unfold z; ring). apply Rle_trans with (1 := Rabs_triang _ _). lra. }
  assert (Q1 : (1 - b * rho) ^ 2 <= (1 - a) ^ 2 + 200 * e).
  { replace ((1 - b * rho) ^ 2) with ((1 - a) ^ 2 - 2 * ((1 - a) * z) + z * z) by (unfold z; ring).
    assert (Rabs ((1 - a) * z) <= 6 / 10 * (123 * e)) by (apply abs_prod; [apply Rabs_le; lra|exact Z]).
    assert (Rabs (z * z) <= 1 / 1000 * (123 * e)) by (apply abs_prod; [apply Rle_trans with (1 := Z); lra|exact Z]).
    apply Rabs_le_between in H0. apply Rabs_le_between in H1. lra. }
  assert (Q2 : b * h ^ 2 <= a * g ^ 2 + 200 * e).
  { replace (b * h ^ 2) with (a * g ^ 2 + (b - a) * g ^ 2 + b * ((h - g) * (h + g))) by ring.
    assert (Rabs ((b - a) * g ^ 2) <= 58 * e * (16 / 10)) by (apply abs_prod; [exact Hb'|rewrite Rabs_pos_eq; lra]).
    apply Rabs_le_between in Hg'. assert (HH := Hh'). apply Rabs_le_between in HH. assert (HB := Hb'). apply Rabs_le_between in HB.
    assert (Rabs (b * ((h - g) * (h + g))) <= 17 / 10 * (11 * e * (26 / 10))).
    { apply abs_prod; [apply Rabs_le; lra|]. apply abs_prod; [exact Hh'|apply Rabs_le; lra]. }
    apply Rabs_le_between in H0. apply Rabs_le_between in H1. lra. }
  apply Rabs_le_between in Hb'. split; lra.
Qed.

Lemma ecc_near (mu e rh ah sh : R) (x v : vec) : 0 < mu -> 0 < vnorm x -> 0 < e <= / 1000000 ->
  Rabs (rh - vnorm x) <= 4 * e * vnorm x -> Rabs (sh - dot x v / sqrt mu) <= 8 * e * (vnorm x * vnorm v / sqrt mu) ->
  Rabs (ah - (2 / vnorm x - vnorm v ^ 2 / mu)) <= 16 * e * (2 / vnorm x + vnorm v ^ 2 / mu) ->
  Rabs (dot x v) <= vnorm x * vnorm v ->
  vnorm (laplace mu x v) <= 599 / 1000 -> (1 - ah * rh) ^ 2 + ah * sh ^ 2 <= 9 / 25 /\ 39 / 100 <= ah * vnorm x <= 161 / 100.
Proof.
  intros Pm Px He Er Es Ea CS Hl.
  assert (L2 : vnorm (laplace mu x v) ^ 2 <= 358801 / 1000000).
  { replace (358801 / 1000000) with ((599 / 1000) ^ 2) by field. apply pow_incr. split; [apply sqrt_pos|exact Hl]. }
  rewrite (laplace_sq mu x v Pm Px) in L2. set (X := vnorm x) in *. set (V := vnorm v) in *. assert (V0 : 0 <= V) by apply sqrt_pos.
  assert (Sm : 0 < sqrt mu) by (apply sqrt_lt_R0; exact Pm). assert (Sx : 0 < sqrt X) by (apply sqrt_lt_R0; exact Px).
  pose proof (sqrt_sqrt X ltac:(lra)) as SX. pose proof (sqrt_sqrt mu ltac:(lra)) as SM.
  set (u := sqrt X) in *. set (n := sqrt mu) in *. set (d := dot x v) in *.
  assert (iX : 0 < / u) by (apply Rinv_0_lt_compat; lra).
  set (sg := d / n) in *. set (w := V ^ 2 * X / mu). set (s := u * V / n).
  assert (K : (1 - ah * X * (rh / X)) ^ 2 + ah * X * (sh / u) ^ 2 <= 9 / 25 /\ 39 / 100 <= ah * X <= 161 / 100).
  { apply (ecc_num e w (ah * X) (rh / X) (sg / u) (sh / u) s He).
    - unfold s, Rdiv. apply Rmult_le_pos; [apply Rmult_le_pos; lra|left; apply Rinv_0_lt_compat; exact Sm].
    - unfold s, w. rewrite <- SM, <- SX. field. lra.
    - replace (ah * X - (2 - w)) with ((ah - (2 / X - V ^ 2 / mu)) * X) by (unfold w; field; lra). rewrite Rabs_mult, (Rabs_pos_eq X) by lra.
      apply Rle_trans with (16 * e * (2 / X + V ^ 2 / mu) * X); [apply Rmult_le_compat_r; [lra|exact Ea]|]. right. unfold w. field. lra.
    - replace (rh / X - 1) with ((rh - X) * / X) by (field; lra). rewrite Rabs_mult, (Rabs_pos_eq (/ X)) by (left; apply Rinv_0_lt_compat; lra).
      apply Rle_trans with (4 * e * X * / X); [apply Rmult_le_compat_r; [left; apply Rinv_0_lt_compat; lra|exact Er]|]. right. field. lra.
    - unfold sg, s, Rdiv. rewrite !Rabs_mult, (Rabs_pos_eq (/ n)), (Rabs_pos_eq (/ u)) by (left; apply Rinv_0_lt_compat; lra).
      apply Rle_trans with (X * V * / n * / u).
      + apply Rmult_le_compat_r; [lra|]. apply Rmult_le_compat_r; [left; apply Rinv_0_lt_compat; lra|exact CS].
      + right. rewrite <- SX. field. lra.
    - replace (sh / u - sg / u) with ((sh - sg) * / u) by (unfold Rdiv; ring). rewrite Rabs_mult, (Rabs_pos_eq (/ u)) by lra.
      apply Rle_trans with (8 * e * (X * V / n) * / u); [apply Rmult_le_compat_r; [lra|exact Es]|]. right. unfold s. rewrite <- SX. field. lra.
    - apply Rle_trans with (2 := L2). right. unfold w. rewrite <- SX. field. lra. }
  destruct K as [K B]. split; [|exact B]. apply Rle_trans with (2 := K). right. rewrite <- SX. field. lra.
Qed.

(** such a state is far from a straight line through the centre *)
Lemma ecc_wide (mu e : R) (x v : vec) : 0 < mu -> 0 < vnorm x -> 0 < e <= / 1000000 -> vnorm (laplace mu x v) <= 599 / 1000 ->
  50 * e * (2 * mu / vnorm x + vnorm v ^ 2) * vnorm x ^ 2 < vnorm (cross x v) ^ 2.
Proof.
  intros Pm Px He Hl.
  assert (L2 : vnorm (laplace mu x v) ^ 2 <= 358801 / 1000000).
  { replace (358801 / 1000000) with ((599 / 1000) ^ 2) by field. apply pow_incr. split; [apply sqrt_pos|exact Hl]. }
  rewrite (laplace_sq mu x v Pm Px) in L2.
  assert (LI : vnorm (cross x v) ^ 2 = vnorm x ^ 2 * vnorm v ^ 2 - dot x v ^ 2) by (rewrite !vnorm_sq2; unfold dot, cross; cbn [c0 c1 c2]; ring).
  assert (Sm : 0 < sqrt mu) by (apply sqrt_lt_R0; exact Pm). pose proof (sqrt_sqrt mu ltac:(lra)) as SM.
  assert (SQ : (dot x v / sqrt mu) ^ 2 = dot x v ^ 2 / mu) by (rewrite <- SM at 2; field; lra). rewrite SQ in L2. rewrite LI.
  assert (H2 : 0 <= vnorm x ^ 2 * vnorm v ^ 2 - dot x v ^ 2) by (rewrite <- LI; apply pow2_ge_0).
  set (X := vnorm x) in *. set (V := vnorm v) in *. set (d := dot x v) in *.
  assert (MX : 0 < mu * X) by (apply Rmult_lt_0_compat; lra).
  set (w := V ^ 2 * X / mu). set (y := (X ^ 2 * V ^ 2 - d ^ 2) / (mu * X)).
  assert (W0 : 0 <= w) by (unfold w, Rdiv; apply Rmult_le_pos; [apply Rmult_le_pos; [apply pow2_ge_0|lra]|left; apply Rinv_0_lt_compat; lra]).
  assert (Y0 : 0 <= y) by (unfold y, Rdiv; apply Rmult_le_pos; [exact H2|left; apply Rinv_0_lt_compat; exact MX]).
  assert (Yw : y <= w).
  { assert (w - y = d ^ 2 / (mu * X)) by (unfold w, y; field; lra). assert (0 <= d ^ 2 / (mu * X)) by (apply Rmult_le_pos; [apply pow2_ge_0|left; apply Rinv_0_lt_compat; exact MX]). lra. }
  assert (K : 1 - (2 - w) * y <= 358801 / 1000000) by (apply Rle_trans with (2 := L2); right; unfold w, y; field; lra).
  assert (w2 : w <= 2) by (destruct (Rle_lt_dec w 2) as [Q|Q]; [exact Q|exfalso; nra]).
  assert (Y1 : 1 / 4 <= y) by nra.
  assert (B : 50 * e * (2 + w) < y) by nra.
  replace (50 * e * (2 * mu / X + V ^ 2) * X ^ 2) with (50 * e * (2 + w) * (mu * X)) by (unfold w; field; lra).
  replace (X ^ 2 * V ^ 2 - d ^ 2) with (y * (mu * X)) by (unfold y; field; lra). apply Rmult_lt_compat_r; assumption.
Qed.
