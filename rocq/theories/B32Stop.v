(** * B32Stop: what it means that a Kepler solver stopped before its iteration limit, in single precision (proofs for C82) *)
From Coq Require Import ZArith Reals Lra Lia Psatz Bool List.
From Coquelicot Require Import Coquelicot.
From Flocq Require Import Core IEEE754.BinarySingleNaN.
From Verif Require Import Num NumB32 NumR Spec SpecFl SpecFl32 SpecFlV RLib RelLib RoundAn RoundFn B32Lib B32Acc B32Rel B32An B32Geo B32Uf B32Uvi.
From Verif Require Import OrbIntegrals Uniformulas UFacts UfReal KepEqu LoopFacts PropKepler.
Local Open Scope R_scope.

Lemma some3 (T : Type) (a b : Z) (x y p q : T) : Some (a, x, p) = Some (b, y, q) -> a = b /\ x = y.
Proof. intro H. injection H. auto. Qed.

Section Stop.
  Variable L : libm.
  Let N : Num b32 := Num_B32 L.
  Lemma not_exceeds (x tol : b32) (C m v : R) : off C m x v -> is_finite tol = true -> @exceeds _ N x tol = false ->
    Rabs v <= B2R tol + C * / IZR (2 ^ 24) * m.
  Proof using.
    intros [F E] Ft H. change (Bltb tol (Babs x) = false) in H. rewrite lt_exact in H by (rewrite ?is_finite_Babs; assumption).
    rewrite B2R_Babs in H. destruct (Rlt_bool_spec (B2R tol) (Rabs (B2R x))) as [Q | Q]; [discriminate H |].
    replace v with (B2R x - (B2R x - v)) by ring. apply Rle_trans with (1 := Rabs_triang _ _). rewrite Rabs_Ropp. lra.
  Qed.
  Lemma uni_early (dt al r0 s0 mu tol chi prev : b32) (mi i : Z) : @uni_run _ N dt al r0 s0 mu tol mi = Some (i, chi, prev) -> (i < mi)%Z ->
    @exceeds _ N (@kepler_equ_uni _ N chi al r0 s0 dt mu) tol = false.
  Proof using.
    intros H I. destruct (@uni_run_char _ N dt al r0 s0 mu tol mi) as [k [_ [E [_ D]]]]. cbv zeta in E, D. rewrite E in H.
    destruct (some3 _ _ _ _ _ _ _ H) as [Hi Hx]. destruct D as [D | D]; [exfalso; lia |]. rewrite Hx in D. exact D.
  Qed.
  Lemma hypb_early (Nm e tol H prev : b32) (mi i : Z) : @hypb_run _ N Nm e tol mi = Some (i, H, prev) -> (i < mi)%Z ->
    @exceeds _ N (@kepler_equ_hypb _ N H e Nm) tol = false.
  Proof using.
    intros G I. destruct (@hypb_run_char _ N Nm e tol mi) as [k [_ [E [_ D]]]]. cbv zeta in E, D. rewrite E in G.
    destruct (some3 _ _ _ _ _ _ _ G) as [Hi Hx]. destruct D as [D | D]; [exfalso; lia |]. rewrite Hx in D. exact D.
  Qed.
End Stop.

Lemma uni_solved (L : libm) (chi alpha : b32) (c : nat) : (c <= 8)%nat -> good32 17 alpha -> good32 12 chi ->
  trig32 L c (2 * IZR (2 ^ 10)) (2 * 10) ->
  let th := sqrt (Rabs (B2R alpha)) * Rabs (B2R chi) in
  (0 < B2R alpha -> th <= IZR (2 ^ 10)) -> (B2R alpha < 0 -> th <= 10) ->
  forall r0 s0 dt mu tol prev : b32, good32 17 r0 -> 0 < B2R r0 -> good32 17 s0 -> good32 40 dt -> good32 20 mu -> 0 < B2R mu -> is_finite tol = true ->
  forall mi i : Z, @uni_run _ (Num_B32 L) dt alpha r0 s0 mu tol mi = Some (i, chi, prev) -> (i < mi)%Z ->
  let U n := universal n (B2R chi) (B2R alpha) in let S n := uf_size n (B2R chi) (B2R alpha) in
  let b := B2R tol + (INR c + 16) * / IZR (2 ^ 24) * (B2R r0 * S 1%nat + Rabs (B2R s0) * S 2%nat + S 3%nat + sqrt (B2R mu) * Rabs (B2R dt)) in
  Rabs (B2R r0 * U 1%nat + B2R s0 * U 2%nat + U 3%nat - sqrt (B2R mu) * B2R dt) <= b /\
  forall x p : R, B2R r0 * universal 1 x (B2R alpha) + B2R s0 * universal 2 x (B2R alpha) + universal 3 x (B2R alpha) = sqrt (B2R mu) * B2R dt ->
    (forall z : R, Rmin (B2R chi) x <= z <= Rmax (B2R chi) x ->
       p <= B2R r0 * universal 0 z (B2R alpha) + B2R s0 * universal 1 z (B2R alpha) + universal 2 z (B2R alpha)) ->
    p * Rabs (B2R chi - x) <= b.
Proof.
  intros Hc Ga Gx Trig th Bt Bh r0 s0 dt mu tol prev Gr Pr Gs Gt Gm Pm Ft mi i Run I U S b.
  pose proof (kep_ok L chi alpha c Hc Ga Gx Trig Bt Bh r0 s0 dt mu Gr Pr Gs Gt Gm Pm) as E.
  assert (O : off (INR c + 16) (B2R r0 * S 1%nat + Rabs (B2R s0) * S 2%nat + S 3%nat + sqrt (B2R mu) * Rabs (B2R dt)) (@kepler_equ_uni _ (Num_B32 L) chi alpha r0 s0 dt mu)
    (B2R r0 * U 1%nat + B2R s0 * U 2%nat + U 3%nat - sqrt (B2R mu) * B2R dt)).
  { apply (An_final L (INR c + 16) _ _ _ _ _ _ _ E); [lia | rewrite plus_INR; simpl; lra | right; reflexivity | reflexivity]. }
  pose proof (not_exceeds L _ _ _ _ _ O Ft (uni_early L _ _ _ _ _ _ _ _ _ _ Run I)) as Q. fold b in Q.
  split; [exact Q |]. intros x p Hx Hp. apply Rle_trans with (2 := Q).
  pose proof (slope_gap (uni_lhs (B2R alpha) (B2R r0) (B2R s0)) _ (B2R chi) x p (uni_lhs_d _ _ _) Hp) as G.
  unfold uni_lhs at 2 in G. rewrite Hx in G. exact G.
Qed.

Lemma hypb_ok (L : libm) (H e : b32) (c : nat) : (c <= 8)%nat -> good32 12 H -> Rabs (B2R H) <= 10 -> good32 17 e -> 0 < B2R e ->
  trig32 L c (2 * IZR (2 ^ 10)) (2 * 10) -> forall Nm : b32, good32 40 Nm ->
  off (INR c + 4) (B2R e * cosh (B2R H) + Rabs (B2R H) + Rabs (B2R Nm)) (@kepler_equ_hypb _ (Num_B32 L) H e Nm) (B2R e * sinh (B2R H) - B2R H - B2R Nm).
Proof.
  intros Hc GH BH Ge Pe [_ Trig] Nm GN.
  destruct (Trig H (proj1 GH) ltac:(lra)) as [[Fs Es] _]. destruct (cosh_ge_sinh (B2R H)) as [S1 [_ C1]].
  assert (C2 : in_range 20 (cosh (B2R H))).
  { apply range_between; [| lia]. split; [apply Rle_trans with 1; [simpl; lra | exact C1] |].
    apply Rabs_le_inv in BH. assert (E2 : forall x, x <= 10 -> exp x <= IZR (3 ^ 10)).
    { intros x Hx. apply Rle_trans with (exp (INR 10)); [apply exp_le'; rewrite INR_IZR_INZ; exact Hx |]. apply Rle_trans with (1 := exp_nat 10). right. rewrite pow_IZR. reflexivity. }
    pose proof (E2 (B2R H) ltac:(lra)). pose proof (E2 (- B2R H) ltac:(lra)). apply Rle_trans with (IZR (3 ^ 10)); [unfold cosh; lra |].
    apply IZR_le. apply Z.leb_le. vm_compute. reflexivity. }
  assert (Hs : Er32 20 c (cosh (B2R H)) (m_sinh L H) (sinh (B2R H))).
  { split; [exact Fs |]. split; [| split; [exact S1 | split; [exact C2 | lia]]].
    apply Rle_trans with (1 := Es). apply Rmult_le_compat_r; [lra |].
    assert (0 <= u32) by (unfold u32, eps; lra). apply Rle_trans with (2 := gam_ge' u32 ltac:(assumption) c).
    apply Rmult_le_compat_l; [apply pos_INR |]. change (/ IZR (2 ^ 24)) with eps. unfold u32, eps. lra. }
  pose proof (An_good L 17 e ltac:(lia) Ge) as Ee. rewrite Rabs_pos_eq in Ee by lra.
  pose proof (An_mul L _ _ _ _ _ _ _ _ _ _ Ee Hs ltac:(lia) ltac:(lia)) as A1.
  pose proof (An_sub L _ _ _ _ _ _ _ _ _ _ A1 (An_good L 12 H ltac:(lia) GH) ltac:(lia) ltac:(lia)) as A2.
  pose proof (An_sub L _ _ _ _ _ _ _ _ _ _ A2 (An_good L 40 Nm ltac:(lia) GN) ltac:(lia) ltac:(lia)) as A3.
  apply (An_final L (INR c + 4) _ _ _ _ _ _ _ A3); [lia | | right; reflexivity | reflexivity].
    match goal with |- INR ?k + 1 <= _ => replace k with (c + 3)%nat by lia end. rewrite plus_INR. simpl. lra.
Qed.
Lemma hypb_solved (L : libm) (H e : b32) (c : nat) : (c <= 8)%nat -> good32 12 H -> Rabs (B2R H) <= 10 -> good32 17 e -> 0 < B2R e ->
  trig32 L c (2 * IZR (2 ^ 10)) (2 * 10) ->
  forall Nm tol prev : b32, good32 40 Nm -> is_finite tol = true ->
  forall mi i : Z, @hypb_run _ (Num_B32 L) Nm e tol mi = Some (i, H, prev) -> (i < mi)%Z ->
  let b := B2R tol + (INR c + 4) * / IZR (2 ^ 24) * (B2R e * cosh (B2R H) + Rabs (B2R H) + Rabs (B2R Nm)) in
  Rabs (B2R e * sinh (B2R H) - B2R H - B2R Nm) <= b /\
  forall x : R, B2R e * sinh x - x = B2R Nm -> (B2R e - 1) * Rabs (B2R H - x) <= b.
Proof.
  intros Hc GH BH Ge Pe Trig Nm tol prev GN Ft mi i Run I b.
  pose proof (hypb_ok L H e c Hc GH BH Ge Pe Trig Nm GN) as O.
  pose proof (not_exceeds L _ _ _ _ _ O Ft (hypb_early L _ _ _ _ _ _ _ Run I)) as Q. fold b in Q.
  split; [exact Q |]. intros x Hx. apply Rle_trans with (2 := Q).
  pose proof (slope_gap (fun x => B2R e * sinh x - x) _ (B2R H) x (B2R e - 1) (hyp_lhs_d (B2R e))) as G.
  cbv beta in G. rewrite Hx in G. apply G. intros z _. destruct (cosh_ge_sinh z) as [_ [_ C3]].
  assert (B2R e * 1 <= B2R e * cosh z) by (apply Rmult_le_compat_l; lra). lra.
Qed.

Lemma uf_off (L : libm) (chi alpha : b32) (c : nat) : (c <= 8)%nat -> good32 17 alpha -> good32 12 chi ->
  trig32 L c (2 * IZR (2 ^ 10)) (2 * 10) ->
  let th := sqrt (Rabs (B2R alpha)) * Rabs (B2R chi) in
  (0 < B2R alpha -> th <= IZR (2 ^ 10)) -> (B2R alpha < 0 -> th <= 10) ->
  let N := Num_B32 L in let U n := universal n (B2R chi) (B2R alpha) in let S n := uf_size n (B2R chi) (B2R alpha) in
  off (INR c + 12) (S 0%nat) (@ufunc0 _ N chi alpha) (U 0%nat) /\ off (INR c + 12) (S 1%nat) (@ufunc1 _ N chi alpha) (U 1%nat) /\
  off (INR c + 12) (S 2%nat) (@ufunc2 _ N chi alpha) (U 2%nat) /\ off (INR c + 12) (S 3%nat) (@ufunc3 _ N chi alpha) (U 3%nat).
Proof.
  intros Hc Ga Gx Trig th Bt Bh N U S. destruct (uf_any L chi alpha c Hc Ga Gx Trig Bt Bh) as [E0 [E1 [E2 E3]]].
  assert (K : INR (c + 11) + 1 <= INR c + 12) by (rewrite plus_INR; simpl; lra).
  split; [| split; [| split]]; [apply (An_final L _ _ _ _ _ _ _ _ E0) | apply (An_final L _ _ _ _ _ _ _ _ E1) | apply (An_final L _ _ _ _ _ _ _ _ E2) | apply (An_final L _ _ _ _ _ _ _ _ E3)];
    first [lia | exact K | right; reflexivity | reflexivity].
Qed.
Lemma uf_off45 (L : libm) (chi alpha : b32) (c : nat) : (c <= 8)%nat -> good32 17 alpha -> good32 12 chi ->
  trig32 L c (2 * IZR (2 ^ 10)) (2 * 10) ->
  let a := Rabs (B2R alpha) in let q := sqrt a in let th := q * Rabs (B2R chi) in
  (0 < B2R alpha -> th <= IZR (2 ^ 10)) -> (B2R alpha < 0 -> th <= 10) -> B2R alpha <> 0 ->
  let N := Num_B32 L in let M := spread (B2R chi) (B2R alpha) in
  off (INR c + 12) ((th ^ 2 + 2 + 2 * M) / (2 * a ^ 2)) (@ufunc4 _ N chi alpha) (universal 4 (B2R chi) (B2R alpha)) /\
  off (INR c + 15) (q * (th ^ 3 + 6 * th + 6 * M) / (6 * a ^ 3)) (@ufunc5 _ N chi alpha) (universal 5 (B2R chi) (B2R alpha)).
Proof.
  intros Hc Ga Gx Trig a q th Bt Bh Nz N M. destruct (all_nz L chi alpha c Hc Ga Gx Trig Bt Bh Nz) as [_ [_ [_ [_ [E4 E5]]]]].
  assert (0 < a) by (apply Rabs_pos_lt; exact Nz). simpl pow. rewrite !Rmult_1_r.
  split; [apply (An_final L _ _ _ _ _ _ _ _ E4) | apply (An_final L _ _ _ _ _ _ _ _ E5)];
    first [lia | rewrite plus_INR; simpl; lra | right; reflexivity | reflexivity].
Qed.
Lemma kep_off (L : libm) (chi alpha : b32) (c : nat) : (c <= 8)%nat -> good32 17 alpha -> good32 12 chi ->
  trig32 L c (2 * IZR (2 ^ 10)) (2 * 10) ->
  let th := sqrt (Rabs (B2R alpha)) * Rabs (B2R chi) in
  (0 < B2R alpha -> th <= IZR (2 ^ 10)) -> (B2R alpha < 0 -> th <= 10) ->
  forall r0 s0 dt mu : b32, good32 17 r0 -> 0 < B2R r0 -> good32 17 s0 -> good32 40 dt -> good32 20 mu -> 0 < B2R mu ->
  let N := Num_B32 L in let U n := universal n (B2R chi) (B2R alpha) in let S n := uf_size n (B2R chi) (B2R alpha) in
  off (INR c + 16) (B2R r0 * S 1%nat + Rabs (B2R s0) * S 2%nat + S 3%nat + sqrt (B2R mu) * Rabs (B2R dt)) (@kepler_equ_uni _ N chi alpha r0 s0 dt mu)
    (B2R r0 * U 1%nat + B2R s0 * U 2%nat + U 3%nat - sqrt (B2R mu) * B2R dt) /\
  off (INR c + 15) (B2R r0 * S 0%nat + Rabs (B2R s0) * S 1%nat + S 2%nat) (@dchi _ N chi alpha r0 s0) (B2R r0 * U 0%nat + B2R s0 * U 1%nat + U 2%nat).
Proof.
  intros Hc Ga Gx Trig th Bt Bh r0 s0 dt mu Gr Pr Gs Gt Gm Pm N U S.
  pose proof (kep_ok L chi alpha c Hc Ga Gx Trig Bt Bh r0 s0 dt mu Gr Pr Gs Gt Gm Pm) as E1.
  pose proof (rad_ok L chi alpha c Hc Ga Gx Trig Bt Bh r0 s0 dt mu Gr Pr Gs Gt Gm Pm) as E2.
  split; [apply (An_final L _ _ _ _ _ _ _ _ E1) | apply (An_final L _ _ _ _ _ _ _ _ E2)];
    first [lia | rewrite plus_INR; simpl; lra | right; reflexivity | reflexivity].
Qed.
Lemma state_off (L : libm) (chi alpha : b32) (c : nat) : (c <= 8)%nat -> good32 17 alpha -> good32 12 chi ->
  trig32 L c (2 * IZR (2 ^ 10)) (2 * 10) ->
  let th := sqrt (Rabs (B2R alpha)) * Rabs (B2R chi) in
  (0 < B2R alpha -> th <= IZR (2 ^ 10)) -> (B2R alpha < 0 -> th <= 10) ->
  forall r0 s0 mu : b32, good32 17 r0 -> 0 < B2R r0 -> good32 17 s0 -> good32 20 mu -> 0 < B2R mu ->
  let U n := universal n (B2R chi) (B2R alpha) in let S n := uf_size n (B2R chi) (B2R alpha) in
  let rad := B2R r0 * U 0%nat + B2R s0 * U 1%nat + U 2%nat in
  in_range 17 rad -> 0 < rad -> 3000 * / IZR (2 ^ 24) * (B2R r0 * S 0%nat + Rabs (B2R s0) * S 1%nat + S 2%nat) <= rad ->
  forall x v : V3 b32, good32v 17 x -> good32v 8 v ->
  let s := @state_at_chi _ (Num_B32 L) chi alpha s0 r0 x v mu in
  let t := lagrange_state (B2R chi) (B2R alpha) (B2R s0) (B2R r0) (B2R mu) (real32 x) (real32 v) in
  let RB := B2R r0 * S 0%nat + Rabs (B2R s0) * S 1%nat + S 2%nat in
  off32v (INR c + 21) ((1 + S 2%nat / B2R r0) * vnorm (real32 x) + (B2R r0 * S 1%nat + Rabs (B2R s0) * S 2%nat) / sqrt (B2R mu) * vnorm (real32 v)) (fst s) (fst t) /\
  off32v (2 * INR c + 36) ((sqrt (B2R mu) * RB / rad ^ 2 * S 1%nat / B2R r0) * vnorm (real32 x) + (1 + S 2%nat * RB / rad ^ 2) * vnorm (real32 v)) (snd s) (snd t).
Proof.
  intros Hc Ga Gx Trig th Bt Bh r0 s0 mu Gr Pr Gs Gm Pm U S rad Ir Rp Cr x v Gxv Gvv.
  assert (G1 : good32 40 r0) by (split; [apply Gr | apply (range_mono 17); [lia | apply Gr]]).
  exact (state_ok L chi alpha c Hc Ga Gx Trig Bt Bh r0 s0 r0 mu Gr Pr Gs G1 Gm Pm Ir Rp Cr x v Gxv Gvv).
Qed.
