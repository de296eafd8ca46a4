(** * B32Back: the rows of [kepler] in single precision are exact for a nearby initial state and time (proofs for C86) *)
From Coq Require Import ZArith Reals Lra Lia Psatz Bool List.
From Coquelicot Require Import Coquelicot.
From Flocq Require Import Core IEEE754.BinarySingleNaN.
From Verif Require Import Num NumB32 NumR Spec SpecFl SpecFl32 SpecFlV RLib RelLib RoundAn RoundFn B32Lib B32Acc B32Rel B32An B32Geo B32Uf B32Uvi B32Stop B32Newton.
From Verif Require Import OrbIntegrals Uniformulas UFacts UfReal KepEqu LoopFacts StateTrans PropKepler BackReal.
Local Open Scope R_scope.

Section Back.
  Variable L : libm.
  Let N : Num b32 := Num_B32 L.

  Lemma dec_one : b32_dec 1 1 = b32_Z 1.
  Proof using. apply B2SF_inj. vm_compute. reflexivity. Qed.
  (** 1 / (1 / d), also where it goes through an infinity *)
  Lemma twice_inverse (d : b32) : good32 44 d -> Er32 44 4 (Rabs (B2R d)) (@n_div _ N (@n_dec _ N 1 1) (@n_div _ N (@n_Z _ N 1) d)) (B2R d).
  Proof using.
    intro G. destruct (Req_dec (B2R d) 0) as [Z | Z].
    - assert (K : is_finite (b32_div (b32_dec 1 1) (b32_div (b32_Z 1) d)) = true /\ B2R (b32_div (b32_dec 1 1) (b32_div (b32_Z 1) d)) = 0).
      { destruct d as [s | s | | s m e B]; try (destruct G as [G _]; discriminate G).
        - destruct s; split; vm_compute; reflexivity.
        - exfalso. apply (F2R_neq_0 radix2 (Float radix2 (cond_Zopp s (Z.pos m)) e)); [destruct s; discriminate | exact Z]. }
      destruct K as [F K]. split; [exact F |]. cbn [n_div n_dec n_Z N Num_B32]. rewrite K, Z. unfold Rminus. rewrite Rplus_opp_r, Rabs_R0, Rmult_0_r.
      repeat split; try lra; try lia. left. reflexivity.
    - pose proof (An_good L 44 d ltac:(lia) G) as E.
      pose proof (An_Z L 0 1 ltac:(lia) ltac:(lia) ltac:(lia)) as O. rewrite Rabs_R1 in O.
      pose proof (An_div1 L _ _ _ _ _ _ _ _ _ O E Z ltac:(lia) ltac:(lia)) as I. cbn [Z.add] in I.
      pose proof (Rabs_pos_lt _ Z) as Za.
      assert (I' : Er32 44 2 (Rabs (1 / B2R d)) (@n_div _ N (@n_Z _ N 1) d) (1 / B2R d)).
      { apply (An_v L _ _ _ _ _ _ _ I); [| reflexivity]. unfold Rdiv. rewrite Rabs_mult, Rabs_R1, Rabs_inv. reflexivity. }
      assert (Nz : 1 / B2R d <> 0) by (unfold Rdiv; rewrite Rmult_1_l; apply Rinv_neq_0_compat; exact Z).
      pose proof (An_div1 L _ _ _ _ _ _ _ _ _ O I' Nz ltac:(lia) ltac:(lia)) as J. cbn [Z.add] in J.
      replace (@n_dec _ N 1 1) with (@n_Z _ N 1) by (symmetry; exact dec_one).
      apply (An_v L _ _ _ _ _ _ _ J); [| field; exact Z]. unfold Rdiv. rewrite !Rmult_1_l, Rabs_inv, Rinv_inv. reflexivity.
  Qed.

  Variables (x v : V3 b32) (mu : b32).
  Hypotheses (Gx : good32v 17 x) (Gv : good32v 8 v) (Gm : good32 20 mu) (Pm : 0 < B2R mu).
  Hypotheses (Nx : real32 x <> vzero) (Nv : real32 v <> vzero).
  Let X : R := vnorm (real32 x).
  Let V : R := vnorm (real32 v).
  Let M : R := B2R mu.
  Let r0 := @vector_norm _ N x.
  Let v0 := @vector_norm _ N v.
  Let qa := @n_div _ N (@n_Z _ N 2) r0.
  Let qb := @n_div _ N (@n_mul _ N v0 v0) mu.
  Let d := @n_sub _ N qa qb.

  Lemma X_pos : 0 < X. Proof using All. apply vnorm_pos. exact Nx. Qed.
  Lemma V_pos : 0 < V. Proof using All. apply vnorm_pos. exact Nv. Qed.
  Lemma qa_ok : Er32 18 5 (2 / X) qa (2 / X).
  Proof using All.
    pose proof X_pos as P. pose proof (Ev_norm0 L 17 x Gx Nx ltac:(lia) ltac:(lia)) as E.
    assert (E' : Er32 17 3 (Rabs X) r0 X) by (rewrite Rabs_pos_eq by lra; exact E).
    pose proof (An_Z L 1 2 ltac:(lia) ltac:(lia) ltac:(lia)) as O. rewrite (Rabs_pos_eq 2) in O by lra.
    pose proof (An_div1 L _ _ _ _ _ _ _ _ _ O E' ltac:(lra) ltac:(lia) ltac:(lia)) as Q. rewrite (Rabs_pos_eq X) in Q by lra. exact Q.
  Qed.
  Lemma qb_ok : Er32 36 9 (V * V / M) qb (V * V / M).
  Proof using All.
    pose proof V_pos as P. assert (PM : 0 < M) by exact Pm. pose proof (Ev_norm0 L 8 v Gv Nv ltac:(lia) ltac:(lia)) as E.
    pose proof (An_mul L _ _ _ _ _ _ _ _ _ _ E E ltac:(lia) ltac:(lia)) as E2.
    pose proof (An_good L 20 mu ltac:(lia) Gm) as Em.
    pose proof (An_div1 L _ _ _ _ _ _ _ _ _ E2 Em ltac:(fold M; lra) ltac:(lia) ltac:(lia)) as Q. fold M in Q. rewrite (Rabs_pos_eq M) in Q by lra. exact Q.
  Qed.
  Lemma d_ok : Er32 37 10 (2 / X + V * V / M) d (2 / X - V * V / M).
  Proof using All. exact (An_sub L _ _ _ _ _ _ _ _ _ _ qa_ok qb_ok ltac:(lia) ltac:(lia)). Qed.
  Lemma d_good : good32 44 d.
  Proof using All.
    pose proof X_pos as PX. pose proof V_pos as PV. assert (PM : 0 < M) by exact Pm.
    destruct qa_ok as [Fa [Ea [_ [Ra _]]]]. destruct qb_ok as [Fb [Eb [_ [Rb _]]]]. destruct d_ok as [Fd [Ed [Bd [Rd _]]]].
    split; [exact Fd |]. destruct (Req_dec (B2R qa) (B2R qb)) as [Q | Q].
    - left. assert (Ov : Rabs (B2R qa - B2R qb) <= 2 * IZR (2 ^ 109)) by (rewrite Q; unfold Rminus; rewrite Rplus_opp_r, Rabs_R0; simpl; lra).
      destruct (f_sub' L qa qb Fa Fb Ov) as [W _]. unfold d, N. rewrite W, Q. unfold Rminus. rewrite Rplus_opp_r. exact rd_0'.
    - assert (PA : 0 < 2 / X) by (apply Rdiv_lt_0_compat; lra).
      assert (PB : 0 < V * V / M) by (apply Rdiv_lt_0_compat; [apply Rmult_lt_0_compat; lra | lra]).
      assert (Hg : gam u32 10 <= / 1000) by (unfold gam, u32, eps; simpl; lra).
      assert (Hg5 : gam u32 5 <= / 1000) by (unfold gam, u32, eps; simpl; lra).
      assert (Hg9 : gam u32 9 <= / 1000) by (unfold gam, u32, eps; simpl; lra).
      assert (Qa : 999 / 1000 * (2 / X) <= B2R qa <= 1001 / 1000 * (2 / X)).
      { assert (gam u32 5 * (2 / X) <= / 1000 * (2 / X)) by (apply Rmult_le_compat_r; lra). apply Rabs_le_between in Ea. lra. }
      assert (Qb : 999 / 1000 * (V * V / M) <= B2R qb <= 1001 / 1000 * (V * V / M)).
      { assert (gam u32 9 * (V * V / M) <= / 1000 * (V * V / M)) by (apply Rmult_le_compat_r; lra). apply Rabs_le_between in Eb. lra. }
      assert (Lo : / IZR (2 ^ 18) <= 2 / X) by (destruct Ra as [Z | Ra]; [lra | rewrite Rabs_pos_eq in Ra; lra]).
      assert (Up : 2 / X + V * V / M <= IZR (2 ^ 37)) by (destruct Rd as [Z | Rd]; [lra | rewrite Rabs_pos_eq in Rd; lra]).
      pose proof (apart_rel (B2R qa) (B2R qb) (F32_B2R qa) (F32_B2R qb) Q) as Ap. rewrite (Rabs_pos_eq (B2R qa)) in Ap by lra.
      assert (Ov : Rabs (B2R qa - B2R qb) <= 2 * IZR (2 ^ 109)).
      { apply Rle_trans with (2 * IZR (2 ^ 37)); [apply Rabs_le; lra | apply Rmult_le_compat_l; [lra | apply IZR_le; lia]]. }
      destruct (f_sub' L qa qb Fa Fb Ov) as [W _]. fold d in W. fold N in W.
      assert (Sm : eps * (999 / 1000 * / IZR (2 ^ 18)) <= Rabs (B2R qa - B2R qb)).
      { apply Rle_trans with (2 := Ap). apply Rmult_le_compat_l; [unfold eps; lra | lra]. }
      pose proof (rnd_abs (B2R qa - B2R qb)) as Rn. rewrite <- W in Rn. change (B2R (@n_sub _ N qa qb)) with (B2R d) in Rn.
      assert (T : / IZR (2 ^ 149) <= eps * (999 / 1000 * / IZR (2 ^ 18)) / 100) by (unfold eps; simpl; lra).
      assert (E2 : eps <= / 100) by (unfold eps; lra).
      pose proof (Rabs_pos (B2R qa - B2R qb)) as Pz.
      assert (eps * Rabs (B2R qa - B2R qb) <= / 100 * Rabs (B2R qa - B2R qb)) by (apply Rmult_le_compat_r; lra).
      right. pose proof (Rabs_triang_inv (B2R qa - B2R qb) (B2R qa - B2R qb - B2R d)) as T1.
      replace (B2R qa - B2R qb - (B2R qa - B2R qb - B2R d)) with (B2R d) in T1 by ring. rewrite (Rabs_minus_sym (B2R qa - B2R qb) (B2R d)) in T1.
      pose proof (Rabs_triang (B2R qa - B2R qb) (B2R d - (B2R qa - B2R qb))) as T2. replace (B2R qa - B2R qb + (B2R d - (B2R qa - B2R qb))) with (B2R d) in T2 by ring.
      assert (U1 : Rabs (B2R qa - B2R qb) <= 1001 / 1000 * IZR (2 ^ 37)) by (apply Rabs_le; lra).
      split.
      + apply Rle_trans with (9 / 10 * Rabs (B2R qa - B2R qb)); [| lra]. apply Rle_trans with (9 / 10 * (eps * (999 / 1000 * / IZR (2 ^ 18)))); [| lra]. unfold eps. simpl. lra.
      + apply Rle_trans with (2 * IZR (2 ^ 37)); [| rewrite <- mult_IZR; apply IZR_le; lia]. assert (0 < IZR (2 ^ 37)) by (apply IZR_lt; lia). lra.
  Qed.
  Lemma alpha_off : off 16 (2 / X + V ^ 2 / M) (@alpha_of _ N r0 v0 mu) (2 / X - V ^ 2 / M).
  Proof using All.
    destruct d_ok as [_ [Ed [Bd [Rd R0]]]]. pose proof (twice_inverse d d_good) as T. destruct T as [Ft [Et _]].
    assert (E : Er32 37 14 (2 / X + V * V / M) (@alpha_of _ N r0 v0 mu) (2 / X - V * V / M)).
    { split; [exact Ft |]. split; [| split; [exact Bd | split; [exact Rd | exact R0]]].
      change (@alpha_of _ N r0 v0 mu) with (@n_div _ N (@n_dec _ N 1 1) (@n_div _ N (@n_Z _ N 1) d)).
      set (al := @n_div _ N (@n_dec _ N 1 1) (@n_div _ N (@n_Z _ N 1) d)) in *.
      replace (B2R al - (2 / X - V * V / M)) with ((B2R al - B2R d) + (B2R d - (2 / X - V * V / M))) by ring.
      apply Rle_trans with (1 := Rabs_triang _ _). set (m := 2 / X + V * V / M) in *.
      assert (Bdd : Rabs (B2R d) <= (1 + gam u32 10) * m).
      { replace (B2R d) with (B2R d - (2 / X - V * V / M) + (2 / X - V * V / M)) by ring. apply Rle_trans with (1 := Rabs_triang _ _). lra. }
      assert (G4 : 0 <= gam u32 4) by (apply gam_pos'; pose proof u32_ok; lra).
      assert (gam u32 4 * Rabs (B2R d) <= gam u32 4 * ((1 + gam u32 10) * m)) by (apply Rmult_le_compat_l; lra).
      replace (gam u32 14) with (gam u32 4 + gam u32 10 + gam u32 4 * gam u32 10) by (unfold gam; ring). lra. }
    replace (V ^ 2) with (V * V) by ring. apply (An_final L 16 _ _ _ _ _ _ _ E); [lia | simpl; lra | lra | reflexivity].
  Qed.
End Back.

Lemma off_moved (C C' m m' p dx : R) (g : b32) : off C m g p -> forall p' : R, Rabs (p - p') <= dx -> C * / IZR (2 ^ 24) * m + dx <= C' * / IZR (2 ^ 24) * m' -> off C' m' g p'.
Proof.
  intros [F E] p' D Le. split; [exact F |]. replace (B2R g - p') with ((B2R g - p) + (p - p')) by ring. apply Rle_trans with (1 := Rabs_triang _ _). lra.
Qed.

Lemma final_le (a b e f g x v w : R) : 0 <= e -> 0 <= f -> 0 <= g -> 0 <= x -> 0 <= v -> 0 <= w -> a + 13 <= b -> 50 <= b ->
  a * e * (f * x + g * v) + (f * (4 * e * x) + g * (e * (13 * v + 50 * w))) <= b * e * (f * x + g * (v + w)).
Proof.
  intros He Hf Hg Hx Hv Hw A B. pose proof (Rmult_le_pos _ _ He (Rmult_le_pos _ _ Hf Hx)) as P1. pose proof (Rmult_le_pos _ _ He (Rmult_le_pos _ _ Hg Hv)) as P2.
  pose proof (Rmult_le_pos _ _ He (Rmult_le_pos _ _ Hg Hw)) as P3. set (p := e * (f * x)) in *. set (q := e * (g * v)) in *. set (r := e * (g * w)) in *.
  replace (a * e * (f * x + g * v) + (f * (4 * e * x) + g * (e * (13 * v + 50 * w)))) with ((a + 4) * p + (a + 13) * q + 50 * r) by (unfold p, q, r; ring).
  replace (b * e * (f * x + g * (v + w))) with (b * p + b * q + b * r) by (unfold p, q, r; ring).
  apply Rplus_le_compat; [apply Rplus_le_compat |]; apply Rmult_le_compat_r; lra.
Qed.
Lemma kepler_row (T : Type) (NT : Num T) (ts : list T) (i : nat) (t : T) (x v : V3 T) (mu : T) (n : Z) (chi prev : T) :
  nth_error ts i = Some t -> let al := alpha_of (vector_norm x) (vector_norm v) mu in let s0 := sigma_fn x v mu in
  uni_run t al (vector_norm x) s0 mu default_tol uni_max_iter = Some (n, chi, prev) ->
  nth_error (kepler ts x v mu) i = Some (state_at_chi chi al s0 (vector_norm x) x v mu).
Proof.
  intros Ht al s0 Run. unfold kepler. rewrite vmap_solve_eq. fold al s0. rewrite !nth_error_map, Ht. cbn [option_map].
  unfold solve_kepler_uni. change (n_dec 1 1000000) with (@default_tol T NT). change 50%Z with uni_max_iter. rewrite Run. reflexivity.
Qed.

(** with any bound [b] on the residual, whether the loop stopped early or not *)
Lemma kepler_back_any (L : libm) (c : nat) : (c <= 8)%nat -> trig32 L c (2 * IZR (2 ^ 10)) (2 * 10) ->
  forall (x v : V3 b32) (mu t : b32), good32v 17 x -> good32v 8 v -> good32 20 mu -> 0 < B2R mu -> good32 40 t ->
  let X := vnorm (real32 x) in let V := vnorm (real32 v) in let H := vnorm (cross (real32 x) (real32 v)) in
  50 * / IZR (2 ^ 24) * (2 * B2R mu / X + V ^ 2) * X ^ 2 < H ^ 2 ->
  let N := Num_B32 L in let r0 := @vector_norm _ N x in let s0 := @sigma_fn _ N x v mu in let al := @alpha_of _ N r0 (@vector_norm _ N v) mu in
  forall (n : Z) (chi prev : b32), @uni_run _ N t al r0 s0 mu (@default_tol _ N) uni_max_iter = Some (n, chi, prev) ->
  good32 17 al -> good32 17 r0 -> good32 17 s0 -> good32 12 chi ->
  let th := sqrt (Rabs (B2R al)) * Rabs (B2R chi) in (0 < B2R al -> th <= IZR (2 ^ 10)) -> (B2R al < 0 -> th <= 10) ->
  let U k := universal k (B2R chi) (B2R al) in let S k := uf_size k (B2R chi) (B2R al) in
  let rad := B2R r0 * U 0%nat + B2R s0 * U 1%nat + U 2%nat in let RB := B2R r0 * S 0%nat + Rabs (B2R s0) * S 1%nat + S 2%nat in
  in_range 17 rad -> 3000 * / IZR (2 ^ 24) * RB <= rad ->
  forall b : R, (0 < B2R r0 -> Rabs (B2R r0 * U 1%nat + B2R s0 * U 2%nat + U 3%nat - sqrt (B2R mu) * B2R t) <= b) ->
  let W := (2 * B2R mu / X + V ^ 2) * X / H in
  exists (t' : R) (x' v' p q : vec), flows_to (B2R mu) t' (x', v') (p, q) /\ vnorm p = rad /\
    sqrt (B2R mu) * Rabs (t' - B2R t) <= b /\
    vnorm (vminus x' (real32 x)) <= 4 * / IZR (2 ^ 24) * X /\
    vnorm (vminus v' (real32 v)) <= / IZR (2 ^ 24) * (13 * V + 50 * W) /\
    forall (ts : list b32) (i : nat), nth_error ts i = Some t -> exists P Q : V3 b32, nth_error (@kepler _ N ts x v mu) i = Some (P, Q) /\
      off32v (INR c + 50) ((1 + S 2%nat / B2R r0) * X + (B2R r0 * S 1%nat + Rabs (B2R s0) * S 2%nat) / sqrt (B2R mu) * (V + W)) P p /\
      off32v (2 * INR c + 50) (sqrt (B2R mu) * RB / rad ^ 2 * S 1%nat / B2R r0 * X + (1 + S 2%nat * RB / rad ^ 2) * (V + W)) Q q.
Proof.
  intros Hc Trig x v mu t Gx Gv Gm Pm Gt X V H Wide N r0 s0 al n chi prev Run Ga Gr Gs Gc th Bt Bh U S rad RB Ir Cr b K W.
  set (e := / IZR (2 ^ 24)) in *. assert (Pe : 0 < e <= / 1000000) by (unfold e; simpl; lra).
  assert (PX0 : 0 <= X) by apply sqrt_pos. assert (PV0 : 0 <= V) by apply sqrt_pos. assert (PH0 : 0 <= H) by apply sqrt_pos.
  assert (PH : 0 < H).
  { destruct PH0 as [Q | Q]; [exact Q |]. exfalso. rewrite <- Q in Wide. replace (0 ^ 2) with 0 in Wide by ring.
    assert (D0 : 0 <= 2 * B2R mu / X).
    { unfold Rdiv. destruct PX0 as [P0 | P0]; [apply Rmult_le_pos; [lra | left; apply Rinv_0_lt_compat; exact P0] | rewrite <- P0, Rinv_0; lra]. }
    assert (0 <= 50 * e * (2 * B2R mu / X + V ^ 2) * X ^ 2); [| lra].
    apply Rmult_le_pos; [apply Rmult_le_pos; [lra | pose proof (pow2_ge_0 V); lra] | apply pow2_ge_0]. }
  assert (Nz : forall a : vec, cross vzero a = vzero /\ cross a vzero = vzero) by (intro a; unfold cross, vzero; cbn [c0 c1 c2]; split; f_equal; ring).
  assert (N0 : vnorm vzero = 0) by (unfold vnorm, dot, vzero; cbn [c0 c1 c2]; rewrite Rmult_0_l, !Rplus_0_r; apply sqrt_0).
  assert (Nx : real32 x <> vzero) by (intro Z; unfold H in PH; rewrite Z, (proj1 (Nz _)), N0 in PH; lra).
  assert (Nv : real32 v <> vzero) by (intro Z; unfold H in PH; rewrite Z, (proj2 (Nz _)), N0 in PH; lra).
  assert (PX : 0 < X) by (apply vnorm_pos; exact Nx). assert (PV : 0 < V) by (apply vnorm_pos; exact Nv).
  destruct (geo_norm L x Gx) as [_ Er]. fold N r0 X e in Er. destruct (geo_sigma L x v Gx Gv mu Gm Pm) as [_ Es]. fold N s0 X V e in Es.
  destruct (alpha_off L x v mu Gx Gv Gm Pm Nx Nv) as [_ Ea]. fold N r0 al X V e in Ea.
  assert (Ea' : Rabs (B2R mu * B2R al - (2 * B2R mu / X - V ^ 2)) <= 16 * e * (2 * B2R mu / X + V ^ 2)).
  { replace (B2R mu * B2R al - (2 * B2R mu / X - V ^ 2)) with (B2R mu * (B2R al - (2 / X - V ^ 2 / B2R mu))) by (field; lra).
    rewrite Rabs_mult, (Rabs_pos_eq (B2R mu)) by lra. replace (16 * e * (2 * B2R mu / X + V ^ 2)) with (B2R mu * (16 * e * (2 / X + V ^ 2 / B2R mu))) by (field; lra).
    apply Rmult_le_compat_l; [lra | exact Ea]. }
  destruct (nearby (B2R mu) e (B2R r0) (B2R al) (B2R s0) (real32 x) (real32 v) Pm Nx Pe Er Es Ea' Wide) as [x' [v' [Hr [Hs [Ha [Ho [Dx Dv]]]]]]].
  fold X V H in Dx, Dv. fold W in Dv.
  set (lhs := uni_lhs (B2R al) (B2R r0) (B2R s0) (B2R chi)). pose proof (sqrt_lt_R0 _ Pm) as Sm.
  destruct (lagrange_flow (B2R mu) (B2R chi) (lhs / sqrt (B2R mu)) x' v' Pm Ho) as [Fl [Rd Rp]].
  { rewrite Ha, Hr, Hs. fold lhs. field. lra. }
  rewrite Ha, Hr, Hs in Fl, Rd, Rp.
  set (st := lagrange_state (B2R chi) (B2R al) (B2R s0) (B2R r0) (B2R mu) x' v') in *.
  assert (Pr : 0 < B2R r0) by (rewrite <- Hr; apply vnorm_pos; intro Z; apply Ho; rewrite Z; apply Nz).
  exists (lhs / sqrt (B2R mu)), x', v', (fst st), (snd st). split; [destruct st; exact Fl |]. split; [symmetry; exact Rd |]. split; [| split; [exact Dx | split; [exact Dv |]]].
  - apply Rle_trans with (2 := K Pr). apply Req_le.
    rewrite <- (Rabs_pos_eq (sqrt (B2R mu))) at 1 by lra. rewrite <- Rabs_mult. f_equal. unfold lhs, uni_lhs, U. field. lra.
  - intros ts i Ht. pose proof (kepler_row _ N ts i t x v mu n chi prev Ht Run) as Row. fold r0 s0 al in Row.
    set (s := @state_at_chi _ N chi al s0 r0 x v mu) in *. exists (fst s), (snd s). split; [destruct s; exact Row |].
    change (uni_rad (B2R al) (B2R r0) (B2R s0) (B2R chi)) with rad in Rp.
    destruct (state_off L chi al c Hc Ga Gc Trig Bt Bh r0 s0 mu Gr Pr Gs Gm Pm Ir Rp Cr x v Gx Gv) as [O1 O2].
    fold N s e in O1, O2. fold X V in O1, O2. fold (U 0%nat) (U 1%nat) (U 2%nat) in O1, O2. fold rad in O2.
    pose proof (uf_le (B2R chi) (B2R al) 0 ltac:(lia)) as L0. pose proof (uf_le (B2R chi) (B2R al) 1 ltac:(lia)) as L1. pose proof (uf_le (B2R chi) (B2R al) 2 ltac:(lia)) as L2.
    fold (S 0%nat) (U 0%nat) in L0. fold (S 1%nat) (U 1%nat) in L1. fold (S 2%nat) (U 2%nat) in L2. unfold RB in *. fold (S 0%nat) (S 1%nat) (S 2%nat) in O1, O2.
    set (U0 := U 0%nat) in *. set (U1 := U 1%nat) in *. set (U2 := U 2%nat) in *.
    set (S0 := S 0%nat) in *. set (S1 := S 1%nat) in *. set (S2 := S 2%nat) in *.
    assert (P0 : 0 <= S0) by (pose proof (Rabs_pos U0); lra). assert (P1 : 0 <= S1) by (pose proof (Rabs_pos U1); lra). assert (P2 : 0 <= S2) by (pose proof (Rabs_pos U2); lra).
    set (RB' := B2R r0 * S0 + Rabs (B2R s0) * S1 + S2) in *.
    assert (HRB : rad <= RB').
    { apply Rle_trans with (1 := Rle_abs _). unfold rad. apply Rle_trans with (1 := Rabs_triang _ _). unfold RB'. apply Rplus_le_compat; [| exact L2].
      apply Rle_trans with (1 := Rabs_triang _ _). apply Rplus_le_compat; apply abs_mul_le; try assumption; [rewrite Rabs_pos_eq; lra | apply Rle_refl]. }
    assert (Pc : 0 <= INR c) by apply pos_INR.
    assert (PW : 0 <= W). { unfold W. apply Rmult_le_pos; [apply Rmult_le_pos; [| lra] | left; apply Rinv_0_lt_compat; exact PH]. pose proof (pow2_ge_0 V). assert (0 < 2 * B2R mu / X) by (apply Rdiv_lt_0_compat; lra). lra. }
    assert (BF : Rabs (1 - U2 / B2R r0) <= 1 + S2 / B2R r0).
    { unfold Rminus. apply Rle_trans with (1 := Rabs_triang _ _). rewrite Rabs_R1, Rabs_Ropp. unfold Rdiv. rewrite Rabs_mult, (Rabs_pos_eq (/ B2R r0)) by (left; apply Rinv_0_lt_compat; lra).
      apply Rplus_le_compat_l, Rmult_le_compat_r; [left; apply Rinv_0_lt_compat; lra | exact L2]. }
    assert (BG : Rabs ((B2R r0 * U1 + B2R s0 * U2) / sqrt (B2R mu)) <= (B2R r0 * S1 + Rabs (B2R s0) * S2) / sqrt (B2R mu)).
    { unfold Rdiv. rewrite Rabs_mult, (Rabs_pos_eq (/ sqrt (B2R mu))) by (left; apply Rinv_0_lt_compat; lra). apply Rmult_le_compat_r; [left; apply Rinv_0_lt_compat; lra |].
      apply Rle_trans with (1 := Rabs_triang _ _). apply Rplus_le_compat; apply abs_mul_le; try assumption; [rewrite Rabs_pos_eq; lra | apply Rle_refl]. }
    assert (Ri : 0 < / rad) by (apply Rinv_0_lt_compat; exact Rp). assert (Rq : 1 <= RB' * / rad).
    { apply Rmult_le_reg_r with rad; [exact Rp |]. rewrite Rmult_assoc, Rinv_l by lra. lra. }
    assert (BFt : Rabs (- (sqrt (B2R mu) * U1 / (rad * B2R r0))) <= sqrt (B2R mu) * RB' / rad ^ 2 * S1 / B2R r0).
    { rewrite Rabs_Ropp. replace (sqrt (B2R mu) * U1 / (rad * B2R r0)) with (sqrt (B2R mu) * / rad * / B2R r0 * U1) by (field; lra).
      replace (sqrt (B2R mu) * RB' / rad ^ 2 * S1 / B2R r0) with (sqrt (B2R mu) * / rad * / B2R r0 * (RB' * / rad) * S1) by (field; lra).
      assert (K0 : 0 < sqrt (B2R mu) * / rad * / B2R r0) by (apply Rmult_lt_0_compat; [apply Rmult_lt_0_compat; lra | apply Rinv_0_lt_compat; lra]).
      apply abs_mul_le; [| exact L1]. rewrite Rabs_pos_eq by lra. rewrite <- (Rmult_1_r (sqrt (B2R mu) * / rad * / B2R r0)) at 1. apply Rmult_le_compat_l; lra. }
    assert (BGt : Rabs (1 - U2 / rad) <= 1 + S2 * RB' / rad ^ 2).
    { unfold Rminus. apply Rle_trans with (1 := Rabs_triang _ _). rewrite Rabs_R1, Rabs_Ropp. apply Rplus_le_compat_l.
      replace (U2 / rad) with (U2 * / rad) by reflexivity. replace (S2 * RB' / rad ^ 2) with (S2 * (/ rad * (RB' * / rad))) by (field; lra).
      apply abs_mul_le; [exact L2 |]. rewrite Rabs_pos_eq by lra. rewrite <- (Rmult_1_r (/ rad)) at 1. apply Rmult_le_compat_l; lra. }
    split.
    + destruct (lin_moved _ _ _ _ _ _ (real32 x) (real32 v) x' v' BF BG Dx Dv) as [M0 [M1 M2]].
      set (mF := 1 + S2 / B2R r0) in *. set (mG := (B2R r0 * S1 + Rabs (B2R s0) * S2) / sqrt (B2R mu)) in *.
      assert (0 <= mF) by (pose proof (Rabs_pos (1 - U2 / B2R r0)); lra). assert (0 <= mG) by (pose proof (Rabs_pos ((B2R r0 * U1 + B2R s0 * U2) / sqrt (B2R mu))); lra).
      assert (Le : (INR c + 21) * e * (mF * X + mG * V) + (mF * (4 * e * X) + mG * (e * (13 * V + 50 * W))) <= (INR c + 50) * e * (mF * X + mG * (V + W)))
        by (apply final_le; lra).
      destruct O1 as [A0 [A1 A2]]. split; [| split]; eapply off_moved; try eassumption.
    + destruct (lin_moved _ _ _ _ _ _ (real32 x) (real32 v) x' v' BFt BGt Dx Dv) as [M0 [M1 M2]].
      set (mF := sqrt (B2R mu) * RB' / rad ^ 2 * S1 / B2R r0) in *. set (mG := 1 + S2 * RB' / rad ^ 2) in *.
      assert (0 <= mF) by (pose proof (Rabs_pos (- (sqrt (B2R mu) * U1 / (rad * B2R r0)))); lra). assert (0 <= mG) by (pose proof (Rabs_pos (1 - U2 / rad)); lra).
      assert (Le : (2 * INR c + 36) * e * (mF * X + mG * V) + (mF * (4 * e * X) + mG * (e * (13 * V + 50 * W))) <= (2 * INR c + 50) * e * (mF * X + mG * (V + W)))
        by (apply final_le; lra).
      destruct O2 as [A0 [A1 A2]]. split; [| split]; eapply off_moved; try eassumption.
Qed.
Lemma kepler_back (L : libm) (c : nat) : (c <= 8)%nat -> trig32 L c (2 * IZR (2 ^ 10)) (2 * 10) ->
  forall (x v : V3 b32) (mu t : b32), good32v 17 x -> good32v 8 v -> good32 20 mu -> 0 < B2R mu -> good32 40 t ->
  let X := vnorm (real32 x) in let V := vnorm (real32 v) in let H := vnorm (cross (real32 x) (real32 v)) in
  50 * / IZR (2 ^ 24) * (2 * B2R mu / X + V ^ 2) * X ^ 2 < H ^ 2 ->
  let N := Num_B32 L in let r0 := @vector_norm _ N x in let s0 := @sigma_fn _ N x v mu in let al := @alpha_of _ N r0 (@vector_norm _ N v) mu in
  forall (n : Z) (chi prev : b32), @uni_run _ N t al r0 s0 mu (@default_tol _ N) uni_max_iter = Some (n, chi, prev) -> (n < uni_max_iter)%Z ->
  good32 17 al -> good32 17 r0 -> good32 17 s0 -> good32 12 chi ->
  let th := sqrt (Rabs (B2R al)) * Rabs (B2R chi) in (0 < B2R al -> th <= IZR (2 ^ 10)) -> (B2R al < 0 -> th <= 10) ->
  let U k := universal k (B2R chi) (B2R al) in let S k := uf_size k (B2R chi) (B2R al) in
  let rad := B2R r0 * U 0%nat + B2R s0 * U 1%nat + U 2%nat in let RB := B2R r0 * S 0%nat + Rabs (B2R s0) * S 1%nat + S 2%nat in
  in_range 17 rad -> 3000 * / IZR (2 ^ 24) * RB <= rad ->
  let W := (2 * B2R mu / X + V ^ 2) * X / H in
  exists (t' : R) (x' v' p q : vec), flows_to (B2R mu) t' (x', v') (p, q) /\ vnorm p = rad /\
    sqrt (B2R mu) * Rabs (t' - B2R t) <= B2R (@default_tol _ N) + (INR c + 16) * / IZR (2 ^ 24) * (B2R r0 * S 1%nat + Rabs (B2R s0) * S 2%nat + S 3%nat + sqrt (B2R mu) * Rabs (B2R t)) /\
    vnorm (vminus x' (real32 x)) <= 4 * / IZR (2 ^ 24) * X /\
    vnorm (vminus v' (real32 v)) <= / IZR (2 ^ 24) * (13 * V + 50 * W) /\
    forall (ts : list b32) (i : nat), nth_error ts i = Some t -> exists P Q : V3 b32, nth_error (@kepler _ N ts x v mu) i = Some (P, Q) /\
      off32v (INR c + 50) ((1 + S 2%nat / B2R r0) * X + (B2R r0 * S 1%nat + Rabs (B2R s0) * S 2%nat) / sqrt (B2R mu) * (V + W)) P p /\
      off32v (2 * INR c + 50) (sqrt (B2R mu) * RB / rad ^ 2 * S 1%nat / B2R r0 * X + (1 + S 2%nat * RB / rad ^ 2) * (V + W)) Q q.
Proof.
  intros Hc Trig x v mu t Gx Gv Gm Pm Gt X V H Wide N r0 s0 al n chi prev Run In Ga Gr Gs Gc th Bt Bh U S rad RB Ir Cr W.
  assert (Tf : is_finite (@default_tol _ N) = true) by apply (tol_small L).
  refine (kepler_back_any L c Hc Trig x v mu t Gx Gv Gm Pm Gt Wide n chi prev Run Ga Gr Gs Gc Bt Bh Ir Cr _ _). intro Pr.
  exact (proj1 (uni_solved L chi al c Hc Ga Gc Trig Bt Bh r0 s0 t mu (@default_tol _ N) prev Gr Pr Gs Gt Gm Pm Tf _ _ Run In)).
Qed.
