(** * B32Ev: the rotation matrices and the radius event in single precision (proofs for C93) *)
From Coq Require Import ZArith Reals Lra Lia Psatz Bool List String.
From Flocq Require Import Core IEEE754.BinarySingleNaN.
Require Import Flocq.Prop.Plus_error Flocq.Prop.Relative.
From Verif Require Import Num NumB32 Spec SpecGrav SpecFl SpecFl32 SpecFlV SpecFlStm RelLib RotMat Gravity B32Lib B32Acc B32Rel B32Closed B32Geo.
Import ListNotations.
Local Open Scope R_scope.

Lemma sub_rel (x y : b32) : is_finite x = true -> is_finite y = true -> Rabs (B2R x - B2R y) <= IZR (2 ^ 127) ->
  is_finite (b32_sub x y) = true /\
  Rabs (B2R (b32_sub x y) - (B2R x - B2R y)) <= eps * Rabs (B2R x - B2R y) /\
  (B2R x < B2R y -> B2R (b32_sub x y) < 0) /\ (B2R y < B2R x -> 0 < B2R (b32_sub x y)).
Proof.
  intros Fx Fy O. destruct (sub_exact x y Fx Fy O) as [V F]. split; [exact F |]. rewrite V.
  assert (Gx : generic_format radix2 (FLT_exp (-149) 24) (B2R x)) by exact (generic_format_B2R 24 128 x).
  assert (Gy : generic_format radix2 (FLT_exp (-149) 24) (- B2R y)) by (apply generic_format_opp; exact (generic_format_B2R 24 128 y)).
  assert (Nz : B2R x - B2R y <> 0 -> rnd (B2R x - B2R y) <> 0).
  { intro D. apply (@round_plus_neq_0 radix2 (FLT_exp (-149) 24) _ _ ZnearestE _ (B2R x) (- B2R y) Gx Gy D). }
  split; [| split].
  - destruct (FLT_plus_error_N_ex radix2 (-149) 24 (fun z => negb (Z.even z)) (B2R x) (- B2R y) Gx Gy) as [d [D E]].
    change (round radix2 (FLT_exp (-149) 24) (Znearest (fun z => negb (Z.even z))) (B2R x + - B2R y)) with (rnd (B2R x - B2R y)) in E.
    rewrite E. replace ((B2R x + - B2R y) * (1 + d) - (B2R x - B2R y)) with (d * (B2R x - B2R y)) by ring.
    rewrite Rabs_mult. apply Rmult_le_compat_r; [apply Rabs_pos |].
    apply Rle_trans with (1 := D). unfold u_ro. simpl bpow. unfold eps.
    apply Rmult_le_reg_r with (1 + / 2 * / 8388608); [lra |]. unfold Rdiv. rewrite Rmult_assoc, Rinv_l by lra. lra.
  - intro D. assert (K : rnd (B2R x - B2R y) <= 0) by (apply rnd_le; [apply F32_0 | lra]). pose proof (Nz ltac:(lra)). lra.
  - intro D. assert (K : 0 <= rnd (B2R x - B2R y)) by (apply rnd_ge; [apply F32_0 | lra]). pose proof (Nz ltac:(lra)). lra.
Qed.

Lemma event_ok (L : libm) (t : b32) (r : V3 b32) (rest : list b32) (args : list (string * b32)) (rmin : b32) :
  good32v 17 r -> good32 17 rmin -> get "rmin" args = Some rmin ->
  exists d, @radius_islow _ (Num_B32 L) t (c0 r :: c1 r :: c2 r :: rest) args = Ok d /\
    let q := vnorm (real32 r) in let m := B2R rmin in let u := / IZR (2 ^ 24) in
    off 6 (q + Rabs m) d (q - m) /\ (q + 4 * u * q < m -> B2R d < 0) /\ (m < q - 4 * u * q -> 0 < B2R d).
Proof.
  intros Gr [Fm Rm] Ga. unfold radius_islow.
  assert (Lk : lookup "rmin" args = Ok rmin).
  { revert Ga. clear. unfold get. induction args as [| [k w] l IH]; cbn [find option_map fst lookup]; [discriminate |].
    destruct (String.eqb "rmin" k); [cbn; congruence | exact IH]. }
  rewrite Lk. cbn [bind]. eexists. split; [reflexivity |].
  change (@norm_first3 _ (Num_B32 L) (c0 r :: c1 r :: c2 r :: rest)) with (@vector_norm _ (Num_B32 L) r).
  change (@n_sub _ (Num_B32 L)) with b32_sub.
  destruct (geo_norm L r Gr) as [Fn En]. set (n := @vector_norm _ (Num_B32 L) r) in *. clearbody n.
  destruct Gr as [_ Rq]. set (q := vnorm (real32 r)) in *.
  assert (Q : 0 <= q) by (unfold q, vnorm; apply sqrt_pos).
  assert (B : forall z, in_range 17 z -> Rabs z <= IZR (2 ^ 17)).
  { intros z [Z | Z]; [rewrite Z, Rabs_R0; apply IZR_le; lia | apply Z]. }
  pose proof (B _ Rm) as Bm. pose proof (B _ Rq) as Bq. clear B. cbv zeta. change (/ IZR (2 ^ 24)) with eps in *.
  pose proof eps_range as Ev. clearbody q.
  assert (Nq : Rabs (B2R n) <= 2 * q).
  { apply Rabs_le_inv in En. apply Rabs_le. nra. }
  rewrite (Rabs_pos_eq q) in Bq by exact Q.
  assert (O : Rabs (B2R n - B2R rmin) <= IZR (2 ^ 127)).
  { apply Rle_trans with (IZR (4 * 2 ^ 17)); [| apply IZR_le; lia]. rewrite mult_IZR.
    unfold Rminus. eapply Rle_trans; [apply Rabs_triang |]. rewrite Rabs_Ropp.
    assert (0 <= IZR (2 ^ 17)) by (apply IZR_le; lia). lra. }
  destruct (sub_rel n rmin Fn Fm O) as [Fd [Ed [Ng Ps]]]. set (d := b32_sub n rmin) in *. clearbody d. clear O Bq Bm.
  split; [| split].
  - split; [exact Fd |]. change (/ IZR (2 ^ 24)) with eps in *.
    replace (B2R d - (q - B2R rmin)) with ((B2R d - (B2R n - B2R rmin)) + (B2R n - q)) by ring.
    eapply Rle_trans; [apply Rabs_triang |].
    assert (T : Rabs (B2R n - B2R rmin) <= 2 * q + Rabs (B2R rmin)).
    { unfold Rminus. eapply Rle_trans; [apply Rabs_triang |]. rewrite Rabs_Ropp. lra. }
    assert (T2 : eps * Rabs (B2R n - B2R rmin) <= eps * (2 * q + Rabs (B2R rmin))) by (apply Rmult_le_compat_l; lra).
    pose proof (Rabs_pos (B2R rmin)). assert (0 <= eps * Rabs (B2R rmin)) by (apply Rmult_le_pos; lra). lra.
  - intro H. apply Ng. apply Rabs_le_inv in En. lra.
  - intro H. apply Ps. apply Rabs_le_inv in En. lra.
Qed.

Lemma rot_ok (L : libm) (c : nat) (T S : R) : trig32 L c T S -> forall a : b32, is_finite a = true -> Rabs (B2R a) <= T ->
  let C := cos (B2R a) in let s := sin (B2R a) in
  off32m (INR c) 1 (@rotmat3dx _ (Num_B32 L) a) (mk3 (mk3 1 0 0) (mk3 0 C (- s)) (mk3 0 s C)) /\
  off32m (INR c) 1 (@rotmat3dy _ (Num_B32 L) a) (mk3 (mk3 C 0 s) (mk3 0 1 0) (mk3 (- s) 0 C)) /\
  off32m (INR c) 1 (@rotmat3dz _ (Num_B32 L) a) (mk3 (mk3 C (- s) 0) (mk3 s C 0) (mk3 0 0 1)).
Proof.
  intros [H _] a Fa Ba. cbv zeta. destruct (H a Fa Ba) as [Hs Hc].
  assert (P : 0 <= INR c * / IZR (2 ^ 24) * 1).
  { rewrite Rmult_1_r. apply Rmult_le_pos; [apply pos_INR | left; apply Rinv_0_lt_compat, IZR_lt; lia]. }
  assert (H0 : off (INR c) 1 (b32_Z 0) 0).
  { destruct (Fl_int 0 ltac:(lia)) as [F0 _]. split; [exact F0 |]. replace (B2R (b32_Z 0)) with 0 by (symmetry; vm_compute; lra). rewrite Rminus_0_r, Rabs_R0. exact P. }
  assert (H1 : off (INR c) 1 (b32_Z 1) 1).
  { destruct (Fl_int 1 ltac:(lia)) as [F1 [t [E [T1 T2]]]]. rewrite Rmult_1_l in E. simpl in T1, T2. rewrite Rinv_1 in T1.
    assert (Et : t = 1) by lra. rewrite Et in E. split; [exact F1 |]. rewrite E, Rminus_diag_eq, Rabs_R0 by reflexivity. exact P. }
  assert (Hn : off (INR c) 1 (Bopp (m_sin L a)) (- sin (B2R a))).
  { destruct Hs as [Fs Es]. split; [rewrite is_finite_Bopp; exact Fs |]. rewrite B2R_Bopp.
    replace (- B2R (m_sin L a) - - sin (B2R a)) with (- (B2R (m_sin L a) - sin (B2R a))) by ring. rewrite Rabs_Ropp. exact Es. }
  repeat split; first [apply H0 | apply H1 | apply Hn | apply Hs | apply Hc].
Qed.
