(** * OrdFloat: rounding to nearest keeps order, through overflow and underflow. *)
From Coq Require Import ZArith Reals Bool Lia Lra.
From Flocq Require Import Core IEEE754.BinarySingleNaN Plus_error.
From Verif Require Import SpecOrd.
Local Open Scope R_scope.

Section Generic.
  Context (prec emax : Z) (Hp : FLX.Prec_gt_0 prec) (Hm : Prec_lt_emax prec emax).
  Notation bf := (binary_float prec emax).
  Notation fx := (SpecFloat.fexp prec emax).
  Notation rnd := (round radix2 fx ZnearestE).
  Notation top := (bpow radix2 emax).

  (** value with the infinities at the ends *)
  Definition vR (x : bf) : R := match x with B754_infinity s => if s then - top else top | _ => B2R x end.
  Definition clamp (z : R) : R := if Rle_dec top z then top else if Rle_dec z (- top) then - top else z.

  Lemma top_pos : 0 < top. Proof using. apply bpow_gt_0. Qed.
  Lemma clamp_le (a b : R) : a <= b -> clamp a <= clamp b.
  Proof using. pose proof top_pos. unfold clamp. intros. repeat destruct Rle_dec; lra. Qed.
  Lemma clamp_id (a : R) : Rabs a < top -> clamp a = a.
  Proof using. intros H. apply Rabs_def2 in H. unfold clamp. repeat destruct Rle_dec; lra. Qed.
  Lemma fin_lt (x : bf) : Rabs (B2R x) < top. Proof using. apply abs_B2R_lt_emax. Qed.
  Lemma fin_val (x : bf) : is_finite x = true -> vR x = B2R x. Proof using. destruct x; try discriminate; reflexivity. Qed.
  Lemma val_bounds (x : bf) : - top <= vR x <= top.
  Proof using. pose proof top_pos. destruct x as [s|[]| |s m e Hb]; cbn [vR]; try lra; try (simpl; lra). pose proof (fin_lt (B754_finite s m e Hb)) as A. apply Rabs_def2 in A. lra. Qed.

  Lemma leq_val (x y : bf) : leq x y <-> number x /\ number y /\ vR x <= vR y.
  Proof using.
    unfold leq, number. pose proof top_pos as T.
    destruct (is_finite x) eqn:Fx, (is_finite y) eqn:Fy.
    - rewrite (Bleb_correct _ _ x y Fx Fy), !fin_val by assumption. split.
      + intros H. repeat split; [now destruct x|now destruct y|]. destruct (Rle_bool_spec (B2R x) (B2R y)); [assumption|discriminate].
      + intros (_ & _ & H). now apply Rle_bool_true.
    - destruct y as [s|s| |s m e Hb]; try discriminate.
      + pose proof (fin_lt x) as A. apply Rabs_def2 in A. rewrite (fin_val x Fx). destruct s; cbn [vR]; destruct x as [s'|s'| |s' m e Hb]; try discriminate; split;
          try (intros H; discriminate H); try (intros _; repeat split; lra); try reflexivity; intros (_ & _ & H); exfalso; lra.
      + destruct x; split; try discriminate; intros (_ & ? & _); discriminate.
    - destruct x as [s|s| |s m e Hb]; try discriminate.
      + pose proof (fin_lt y) as A. apply Rabs_def2 in A. rewrite (fin_val y Fy). destruct s; cbn [vR]; destruct y as [s'|s'| |s' m e Hb]; try discriminate; split;
          try (intros H; discriminate H); try (intros _; repeat split; lra); try reflexivity; intros (_ & _ & H); exfalso; lra.
      + split; try discriminate. intros (? & _); discriminate.
    - destruct x as [s|s| |s m e Hb], y as [s'|s'| |s' m' e' Hb']; try discriminate; try (split; [discriminate|intros (? & ? & _); discriminate]).
      destruct s, s'; cbn [vR]; split; intros H; try discriminate; try reflexivity; try (repeat split; lra).
  Qed.
  Lemma less_val (x y : bf) : less x y <-> number x /\ number y /\ vR x < vR y.
  Proof using.
    pose proof (leq_val y x) as L. unfold less, leq, number, Bltb, Bleb, SpecFloat.SFltb, SpecFloat.SFleb in *. 
    pose proof (Bcompare_swap _ _ x y) as S. unfold Bcompare in S. rewrite S in L. clear S.
    fold (Bcompare x y) in *. destruct (Bcompare x y) as [[]|] eqn:C; cbn [CompOpp] in *.
    - split; [discriminate|]. intros (A & B & H). destruct L as [L _]. specialize (L eq_refl). lra.
    - split; [intros _|reflexivity]. assert (A : is_nan x = false /\ is_nan y = false) by (destruct x, y; try discriminate; now split). destruct A as [A B].
      repeat split; try assumption. apply Rnot_le_lt. intros H. destruct L as [_ L]. discriminate L. now repeat split.
    - split; [discriminate|]. intros (A & B & H). destruct L as [L _]. specialize (L eq_refl). lra.
    - split; [discriminate|]. intros (A & B & H). destruct x as [|[]| |], y as [|[]| |]; discriminate.
  Qed.
  Lemma leq_refl (x : bf) : number x -> leq x x. Proof using. intros. apply leq_val. repeat split; try assumption. lra. Qed.
  Lemma leq_trans (x y z : bf) : leq x y -> leq y z -> leq x z.
  Proof using. rewrite !leq_val. intros (A & B & C) (D & E & F). repeat split; try assumption. lra. Qed.
  Lemma less_leq_trans (x y z : bf) : less x y -> leq y z -> less x z.
  Proof using. rewrite !leq_val, !less_val. intros (A & B & C) (D & E & F). repeat split; try assumption. lra. Qed.
  Lemma leq_less_trans (x y z : bf) : leq x y -> less y z -> less x z.
  Proof using. rewrite !leq_val, !less_val. intros (A & B & C) (D & E & F). repeat split; try assumption. lra. Qed.
  Lemma less_leq (x y : bf) : less x y -> leq x y.
  Proof using. rewrite leq_val, less_val. intros (A & B & C). repeat split; try assumption. lra. Qed.
  Lemma leq_num (x y : bf) : leq x y -> number x /\ number y. Proof using. rewrite leq_val. tauto. Qed.
  Lemma fin_num (x : bf) : is_finite x = true -> number x. Proof using. now destruct x. Qed.

  Lemma rnd_le (a b : R) : a <= b -> rnd a <= rnd b.
  Proof using Hp Hm. intros H. apply round_le; [apply fexp_correct; exact Hp|apply valid_rnd_N|exact H]. Qed.
  Lemma rnd_B2R (x : bf) : rnd (B2R x) = B2R x.
  Proof using Hp Hm. apply round_generic; [apply valid_rnd_N|apply generic_format_B2R]. Qed.
  Lemma rnd_0 : rnd 0 = 0. Proof using Hp Hm. apply round_0. apply valid_rnd_N. Qed.
  Lemma ovf_val (x : bf) (s : bool) (z : R) : B2SF x = binary_overflow prec emax mode_NE s -> top <= Rabs (rnd z) -> (if s then z <= 0 else 0 <= z) ->
    number x /\ vR x = clamp (rnd z).
  Proof using Hp Hm.
    intros E O S. cbn in E. destruct x as [|s'| |]; try discriminate. injection E as ->. split; [reflexivity|].
    pose proof top_pos. cbn [vR]. unfold clamp. destruct s.
    - pose proof (rnd_le z 0 S) as L. rewrite rnd_0 in L. rewrite Rabs_left1 in O by exact L. repeat destruct Rle_dec; lra.
    - pose proof (rnd_le 0 z S) as L. rewrite rnd_0 in L. rewrite Rabs_pos_eq in O by exact L. repeat destruct Rle_dec; lra.
  Qed.
  Lemma sign_R (x : bf) : if Bsign x then B2R x <= 0 else 0 <= B2R x.
  Proof using.
    destruct x as [[]|[]| |[] m e Hb]; cbn [Bsign B2R]; try lra; [apply F2R_le_0|apply F2R_ge_0]; cbn; lia.
  Qed.
  Lemma done_val (x : bf) (z : R) : B2R x = rnd z -> Rabs (rnd z) < top -> is_finite x = true -> number x /\ vR x = clamp (rnd z).
  Proof using. intros A B C. split; [now apply fin_num|]. rewrite (fin_val x C), A. symmetry. now apply clamp_id. Qed.
  Lemma mul_val (x y : bf) : is_finite x = true -> is_finite y = true -> number (Bmult mode_NE x y) /\ vR (Bmult mode_NE x y) = clamp (rnd (B2R x * B2R y)).
  Proof using Hp Hm.
    intros Fx Fy. pose proof (Bmult_correct _ _ Hp Hm mode_NE x y) as C. cbn [round_mode] in C.
    destruct (Rlt_bool_spec (Rabs (rnd (B2R x * B2R y))) top) as [H|H].
    - destruct C as (C & D & _). apply done_val; try assumption. rewrite D, Fx, Fy. reflexivity.
    - eapply ovf_val; [exact C|exact H|]. pose proof (sign_R x). pose proof (sign_R y). destruct (Bsign x), (Bsign y); cbn [xorb]; nra.
  Qed.
  Lemma div_val (x y : bf) : is_finite x = true -> is_finite y = true -> B2R y <> 0 -> number (Bdiv mode_NE x y) /\ vR (Bdiv mode_NE x y) = clamp (rnd (B2R x / B2R y)).
  Proof using Hp Hm.
    intros Fx Fy Ny. pose proof (Bdiv_correct _ _ Hp Hm mode_NE x y Ny) as C. cbn [round_mode] in C.
    destruct (Rlt_bool_spec (Rabs (rnd (B2R x / B2R y))) top) as [H|H].
    - destruct C as (C & D & _). apply done_val; try assumption. now rewrite D.
    - eapply ovf_val; [exact C|exact H|]. pose proof (sign_R x) as Sx. pose proof (sign_R y) as Sy.
      assert (P : forall z, 0 <= z -> z <> 0 -> 0 < / z) by (intros; apply Rinv_0_lt_compat; lra).
      assert (Q : forall z, z <= 0 -> z <> 0 -> / z < 0) by (intros; apply Rinv_lt_0_compat; lra). unfold Rdiv.
      destruct (Bsign x), (Bsign y); cbn [xorb]; try (specialize (P _ Sy Ny)); try (specialize (Q _ Sy Ny)); nra.
  Qed.
  Lemma add_val (x y : bf) : is_finite x = true -> is_finite y = true -> number (Bplus mode_NE x y) /\ vR (Bplus mode_NE x y) = clamp (rnd (B2R x + B2R y)).
  Proof using Hp Hm.
    intros Fx Fy. pose proof (Bplus_correct _ _ Hp Hm mode_NE x y Fx Fy) as C. cbn [round_mode] in C.
    destruct (Rlt_bool_spec (Rabs (rnd (B2R x + B2R y))) top) as [H|H].
    - destruct C as (C & D & _). now apply done_val.
    - destruct C as [C D]. eapply ovf_val; [exact C|exact H|]. pose proof (sign_R x). pose proof (sign_R y). rewrite <- D in *. destruct (Bsign x); lra.
  Qed.
  Lemma sub_val (x y : bf) : is_finite x = true -> is_finite y = true -> number (Bminus mode_NE x y) /\ vR (Bminus mode_NE x y) = clamp (rnd (B2R x - B2R y)).
  Proof using Hp Hm.
    intros Fx Fy. pose proof (Bminus_correct _ _ Hp Hm mode_NE x y Fx Fy) as C. cbn [round_mode] in C.
    destruct (Rlt_bool_spec (Rabs (rnd (B2R x - B2R y))) top) as [H|H].
    - destruct C as (C & D & _). now apply done_val.
    - destruct C as [C D]. eapply ovf_val; [exact C|exact H|]. pose proof (sign_R x). pose proof (sign_R y). rewrite D in *. destruct (Bsign y); cbn [negb] in *; lra.
  Qed.

  (** numbers with a positive sign bit, infinity included *)
  Definition up (x : bf) : Prop := number x /\ Bsign x = false.
  Lemma up_ge (x : bf) : up x -> 0 <= vR x.
  Proof using. intros [A B]. pose proof top_pos. pose proof (sign_R x) as S. rewrite B in S. destruct x as [|[]| |]; cbn [vR] in *; try discriminate; lra. Qed.
  Lemma up_leq (x y : bf) : up x -> up y -> vR x <= vR y -> leq x y. Proof using. intros [A _] [B _] C. apply leq_val. now repeat split. Qed.
  Lemma up_le0 (x : bf) : up x -> leq zero x.
  Proof using. intros U. apply leq_val. destruct (U) as [A _]. repeat split; [assumption|]. apply up_ge in U. exact U. Qed.
  Lemma inf_up (x : bf) : up x -> is_finite x = false -> x = B754_infinity false.
  Proof using. intros [A B]. destruct x as [| [] | |]; try discriminate; reflexivity. Qed.
  Lemma leq_inf (x : bf) : number x -> leq x (B754_infinity false).
  Proof using. intros N. apply leq_val. repeat split; [assumption|]. apply val_bounds. Qed.
  Lemma below_fin (x y : bf) : up x -> leq x y -> is_finite y = true -> is_finite x = true.
  Proof using.
    intros U L F. destruct (is_finite x) eqn:E; [reflexivity|]. rewrite (inf_up x U E) in L. apply leq_val in L. destruct L as (_ & _ & L).
    rewrite (fin_val y F) in L. cbn [vR] in L. pose proof (fin_lt y) as A. apply Rabs_def2 in A. lra.
  Qed.
  Lemma up_R (x : bf) : up x -> 0 <= B2R x. Proof using. intros [_ S]. pose proof (sign_R x) as A. now rewrite S in A. Qed.
  Lemma pos_up (x : bf) : less zero x -> up x.
  Proof using.
    intros H. apply less_val in H. destruct H as (_ & N & H). split; [assumption|]. pose proof (sign_R x) as S. destruct (Bsign x) eqn:E; [|reflexivity].
    pose proof top_pos. destruct x as [|[]| |]; cbn [vR zero B2R Bsign] in *; try discriminate; subst; lra.
  Qed.
  Lemma up_fin_leq (x y : bf) : is_finite x = true -> is_finite y = true -> (leq x y <-> B2R x <= B2R y).
  Proof using. intros A B. rewrite leq_val, !fin_val by assumption. pose proof (fin_num x A). pose proof (fin_num y B). tauto. Qed.

  Lemma mul_up (x y : bf) : up x -> up y -> number (Bmult mode_NE x y) -> up (Bmult mode_NE x y).
  Proof using Hp Hm.
    intros [A B] [C D] N. split; [assumption|].
    destruct (is_finite x) eqn:Fx, (is_finite y) eqn:Fy; try (rewrite ?(inf_up x (conj A B) Fx), ?(inf_up y (conj C D) Fy) in *; destruct x as [[]|[]| |[]], y as [[]|[]| |[]]; try discriminate; reflexivity).
    pose proof (Bmult_correct _ _ Hp Hm mode_NE x y) as K. cbn [round_mode] in K. destruct (Rlt_bool _ _).
    - destruct K as (_ & _ & S). rewrite S by exact N. now rewrite B, D.
    - rewrite B, D in K. cbn in K. destruct (Bmult mode_NE x y); try discriminate. now injection K as ->.
  Qed.
  Lemma mul_leq (x y x' y' : bf) : up x -> up y -> up x' -> up y' -> leq x x' -> leq y y' -> number (Bmult mode_NE x y) -> number (Bmult mode_NE x' y') ->
    leq (Bmult mode_NE x y) (Bmult mode_NE x' y').
  Proof using Hp Hm.
    intros Ux Uy Ux' Uy' Lx Ly N N'.
    destruct (is_finite x') eqn:Fx'; [destruct (is_finite y') eqn:Fy'|].
    - assert (Fx := below_fin _ _ Ux Lx Fx'). assert (Fy := below_fin _ _ Uy Ly Fy'). apply leq_val. repeat split; try assumption.
      rewrite (proj2 (mul_val x y Fx Fy)), (proj2 (mul_val x' y' Fx' Fy')). apply clamp_le, rnd_le.
      apply Rmult_le_compat; try (now apply up_R); now apply up_fin_leq.
    - assert (E : Bmult mode_NE x' y' = B754_infinity false).
      { rewrite (inf_up y' Uy' Fy') in *. destruct x' as [[]|[]| |[]]; try discriminate; try (now destruct Ux'); reflexivity. }
      rewrite E. now apply leq_inf.
    - assert (E : Bmult mode_NE x' y' = B754_infinity false).
      { rewrite (inf_up x' Ux' Fx') in *. destruct y' as [[]|[]| |[]]; try discriminate; try (now destruct Uy'); reflexivity. }
      rewrite E. now apply leq_inf.
  Qed.
  Lemma div_up (x y : bf) : up x -> up y -> number (Bdiv mode_NE x y) -> up (Bdiv mode_NE x y).
  Proof using Hp Hm.
    intros [A B] [C D] N. split; [assumption|].
    destruct x as [[]|[]| |[] mx ex Hx], y as [[]|[]| |[] my ey Hy]; try discriminate; try reflexivity.
    pose proof (Bdiv_correct _ _ Hp Hm mode_NE (B754_finite false mx ex Hx) (B754_finite false my ey Hy)) as K. cbn [round_mode] in K.
    assert (Q : B2R (B754_finite false my ey Hy) <> 0). { cbn. apply Rgt_not_eq. apply F2R_gt_0. reflexivity. } specialize (K Q). destruct (Rlt_bool _ _).
    - destruct K as (_ & _ & S). rewrite S by exact N. reflexivity.
    - cbn [Bsign xorb] in K. cbn [binary_overflow overflow_to_inf] in K. destruct (Bdiv _ _ _); try discriminate. now injection K as ->.
  Qed.
  Lemma div_leq (x y x' y' : bf) : up x -> up y -> up x' -> up y' -> leq x x' -> leq y' y -> number (Bdiv mode_NE x y) -> number (Bdiv mode_NE x' y') ->
    leq (Bdiv mode_NE x y) (Bdiv mode_NE x' y').
  Proof using Hp Hm.
    intros Ux Uy Ux' Uy' Lx Ly N N'.
    destruct (is_finite x') eqn:Fx'; [destruct (is_finite y) eqn:Fy|].
    - assert (Fx := below_fin _ _ Ux Lx Fx'). assert (Fy' := below_fin _ _ Uy' Ly Fy). destruct (Req_dec (B2R y') 0) as [Z|Z].
      + assert (E : Bdiv mode_NE x' y' = B754_infinity false).
        { destruct Uy' as [Ny' Sy']. destruct y' as [s|s| |s m e Hb]; try discriminate; [|exfalso; revert Z; apply Rgt_not_eq; cbn in Sy'; subst s; apply F2R_gt_0; reflexivity].
          cbn in Sy'; subst s. destruct x' as [[]|[]| |[]]; try discriminate; try (now destruct Ux'); reflexivity. }
        rewrite E. now apply leq_inf.
      + assert (0 < B2R y') by (pose proof (up_R y' Uy'); lra). assert (B2R y' <= B2R y) by now apply up_fin_leq.
        apply leq_val. repeat split; try assumption. rewrite (proj2 (div_val x y Fx Fy ltac:(lra))), (proj2 (div_val x' y' Fx' Fy' Z)). apply clamp_le, rnd_le.
        unfold Rdiv. apply Rmult_le_compat; [now apply up_R|apply Rlt_le, Rinv_0_lt_compat; lra|now apply up_fin_leq|apply Rinv_le; lra].
    - assert (Fx := below_fin _ _ Ux Lx Fx'). apply leq_trans with zero; [|apply up_le0, div_up; assumption].
      rewrite (inf_up y Uy Fy) in *. destruct x as [[]|[]| |[]]; try discriminate; try (now destruct Ux); reflexivity.
    - assert (E : Bdiv mode_NE x' y' = B754_infinity false).
      { rewrite (inf_up x' Ux' Fx') in *. destruct y' as [[]|[]| |[]]; try discriminate; try (now destruct Uy'); reflexivity. }
      rewrite E. now apply leq_inf.
  Qed.
  Lemma add_leq (x y x' y' : bf) : leq x x' -> leq y y' -> number (Bplus mode_NE x y) -> number (Bplus mode_NE x' y') -> leq (Bplus mode_NE x y) (Bplus mode_NE x' y').
  Proof using Hp Hm.
    intros Lx Ly N N'. pose proof (leq_num _ _ Lx) as [A A']. pose proof (leq_num _ _ Ly) as [B B'].
    destruct (is_finite x) eqn:Fx, (is_finite x') eqn:Fx', (is_finite y) eqn:Fy, (is_finite y') eqn:Fy';
      try (apply leq_val; repeat split; try assumption; rewrite (proj2 (add_val x y Fx Fy)), (proj2 (add_val x' y' Fx' Fy')); apply clamp_le, rnd_le; apply Rplus_le_compat; now apply up_fin_leq);
      destruct x as [[]|[]| |[]]; try discriminate; destruct x' as [[]|[]| |[]]; try discriminate; destruct y as [[]|[]| |[]]; try discriminate; destruct y' as [[]|[]| |[]]; try discriminate;
      try (apply leq_inf; exact N); try reflexivity; apply leq_val; repeat split; try assumption; apply val_bounds.
  Qed.
  Lemma opp_leq (x y : bf) : leq x y -> leq (Bopp y) (Bopp x).
  Proof using.
    rewrite !leq_val. unfold number. intros (A & B & C). rewrite !is_nan_Bopp. repeat split; try assumption.
    assert (V : forall z : bf, vR (Bopp z) = - vR z). { intros [|[]| |s m e Hb]; cbn [vR Bopp negb B2R]; try lra. now rewrite <- F2R_Zopp, <- cond_Zopp_negb. }
    rewrite !V. lra.
  Qed.
  Lemma sub_leq (x y x' y' : bf) : leq x x' -> leq y' y -> number (Bminus mode_NE x y) -> number (Bminus mode_NE x' y') -> leq (Bminus mode_NE x y) (Bminus mode_NE x' y').
  Proof using Hp Hm.
    intros Lx Ly N N'. pose proof (leq_num _ _ Lx) as [A A']. pose proof (leq_num _ _ Ly) as [B B'].
    destruct (is_finite x) eqn:Fx, (is_finite x') eqn:Fx', (is_finite y) eqn:Fy, (is_finite y') eqn:Fy';
      try (apply leq_val; repeat split; try assumption; rewrite (proj2 (sub_val x y Fx Fy)), (proj2 (sub_val x' y' Fx' Fy')); apply clamp_le, rnd_le; apply Rplus_le_compat; [|apply Ropp_le_contravar]; now apply up_fin_leq);
      destruct x as [[]|[]| |[]]; try discriminate; destruct x' as [[]|[]| |[]]; try discriminate; destruct y as [[]|[]| |[]]; try discriminate; destruct y' as [[]|[]| |[]]; try discriminate;
      try (apply leq_inf; exact N); try reflexivity; apply leq_val; repeat split; try assumption; apply val_bounds.
  Qed.
  Lemma sqrt_up (x : bf) : up x -> up (Bsqrt mode_NE x).
  Proof using Hp Hm.
    intros [A B]. destruct x as [[]|[]| |[] m e Hb]; try discriminate; try (now split).
    pose proof (Bsqrt_correct _ _ Hp Hm mode_NE (B754_finite false m e Hb)) as (_ & F & S). cbn in F.
    assert (N : number (Bsqrt mode_NE (B754_finite false m e Hb))) by now apply fin_num. split; [exact N|]. now apply S.
  Qed.
  Lemma sqrt_leq (x y : bf) : up x -> up y -> leq x y -> leq (Bsqrt mode_NE x) (Bsqrt mode_NE y).
  Proof using Hp Hm.
    intros Ux Uy L. pose proof (sqrt_up x Ux) as Vx. pose proof (sqrt_up y Uy) as Vy. destruct (is_finite y) eqn:Fy.
    - assert (Fx := below_fin _ _ Ux L Fy).
      assert (S : forall z : bf, up z -> is_finite z = true -> is_finite (Bsqrt mode_NE z) = true /\ B2R (Bsqrt mode_NE z) = rnd (sqrt (B2R z))).
      { intros z [Nz Sz] Fz. pose proof (Bsqrt_correct _ _ Hp Hm mode_NE z) as (C & F & _). split; [|exact C]. rewrite F. destruct z as [[]|[]| |[]]; try discriminate; reflexivity. }
      destruct (S x Ux Fx) as [Gx Ex]. destruct (S y Uy Fy) as [Gy Ey]. apply up_fin_leq; try assumption. rewrite Ex, Ey. apply rnd_le. apply sqrt_le_1_alt. now apply up_fin_leq.
    - rewrite (inf_up y Uy Fy). apply leq_inf. apply Vx.
  Qed.
  Lemma floor_leq (x y : bf) : leq x y -> leq (Bnearbyint mode_DN x) (Bnearbyint mode_DN y).
  Proof using Hp Hm.
    intros L. pose proof (leq_num _ _ L) as [A B].
    assert (NN : forall z : bf, number z -> number (Bnearbyint mode_DN z)).
    { intros z Z. unfold number in *. pose proof (Bnearbyint_correct _ _ Hm mode_DN z) as (_ & F & _). destruct z; try discriminate; try reflexivity. apply fin_num. now rewrite F. }
    assert (V : forall z : bf, is_finite z = true -> is_finite (Bnearbyint mode_DN z) = true /\ B2R (Bnearbyint mode_DN z) = IZR (Zfloor (B2R z))).
    { intros z Z. pose proof (Bnearbyint_correct _ _ Hm mode_DN z) as (C & F & _). split; [now rewrite F|]. rewrite C. unfold round, scaled_mantissa, cexp, FIX_exp, F2R; cbn [Fnum Fexp round_mode]. simpl. rewrite !Rmult_1_r. reflexivity. }
    destruct (is_finite x) eqn:Fx, (is_finite y) eqn:Fy.
    - destruct (V x Fx) as [Gx Ex], (V y Fy) as [Gy Ey]. apply up_fin_leq; try assumption. rewrite Ex, Ey. apply IZR_le. apply Zfloor_le. now apply up_fin_leq.
    - destruct y as [|[]| |]; try discriminate; [|apply leq_inf; now apply NN]. destruct x as [[]|[]| |[]]; discriminate.
    - destruct x as [|[]| |]; try discriminate; [|destruct y as [[]|[]| |[]]; discriminate]. apply leq_val. repeat split; [now apply NN|]. apply val_bounds.
    - destruct x as [|[]| |], y as [|[]| |]; try discriminate; reflexivity.
  Qed.

  Lemma pos_R (x : bf) : positive x -> 0 < B2R x.
  Proof using. intros [A F]. apply less_val in A. destruct A as (_ & _ & A). rewrite (fin_val x F) in A. exact A. Qed.
  Lemma nonneg_R (x : bf) : nonneg x -> 0 <= B2R x.
  Proof using. intros [A F]. apply leq_val in A. destruct A as (_ & _ & A). rewrite (fin_val x F) in A. exact A. Qed.
  Lemma add_ge (x y z : bf) : is_finite x = true -> is_finite y = true -> is_finite z = true -> B2R z <= B2R x + B2R y -> leq z (Bplus mode_NE x y).
  Proof using Hp Hm.
    intros A B C D. destruct (add_val x y A B) as [E F]. apply leq_val. repeat split; [now apply fin_num|exact E|]. rewrite F, (fin_val z C).
    rewrite <- (clamp_id (B2R z)) by apply fin_lt. apply clamp_le. rewrite <- rnd_B2R. now apply rnd_le.
  Qed.
  Lemma sub_le (x y z : bf) : is_finite x = true -> is_finite y = true -> is_finite z = true -> B2R x - B2R y <= B2R z -> leq (Bminus mode_NE x y) z.
  Proof using Hp Hm.
    intros A B C D. destruct (sub_val x y A B) as [E F]. apply leq_val. repeat split; [exact E|now apply fin_num|]. rewrite F, (fin_val z C).
    rewrite <- (clamp_id (B2R z)) by apply fin_lt. apply clamp_le. rewrite <- (rnd_B2R z). now apply rnd_le.
  Qed.
  Lemma mul_le (x y z : bf) : is_finite x = true -> is_finite y = true -> is_finite z = true -> B2R x * B2R y <= B2R z -> leq (Bmult mode_NE x y) z.
  Proof using Hp Hm.
    intros A B C D. destruct (mul_val x y A B) as [E F]. apply leq_val. repeat split; [exact E|now apply fin_num|]. rewrite F, (fin_val z C).
    rewrite <- (clamp_id (B2R z)) by apply fin_lt. apply clamp_le. rewrite <- (rnd_B2R z). now apply rnd_le.
  Qed.
  Lemma mul_ge (x y z : bf) : is_finite x = true -> is_finite y = true -> is_finite z = true -> B2R z <= B2R x * B2R y -> leq z (Bmult mode_NE x y).
  Proof using Hp Hm.
    intros A B C D. destruct (mul_val x y A B) as [E F]. apply leq_val. repeat split; [now apply fin_num|exact E|]. rewrite F, (fin_val z C).
    rewrite <- (clamp_id (B2R z)) by apply fin_lt. apply clamp_le. rewrite <- (rnd_B2R z). now apply rnd_le.
  Qed.
  Lemma fin_between (a x b : bf) : is_finite a = true -> is_finite b = true -> leq a x -> leq x b -> is_finite x = true.
  Proof using.
    intros A B C D. apply leq_val in C. apply leq_val in D. destruct C as (_ & N & C), D as (_ & _ & D). rewrite (fin_val a A) in C. rewrite (fin_val b B) in D.
    pose proof (fin_lt a) as Ta. pose proof (fin_lt b) as Tb. apply Rabs_def2 in Ta. apply Rabs_def2 in Tb. destruct x as [|[]| |]; try discriminate; try reflexivity; cbn [vR] in *; lra.
  Qed.
  Lemma div_one (x o : bf) : up x -> is_finite x = true -> is_finite o = true -> B2R o = 1 -> leq x (Bdiv mode_NE x o) /\ leq (Bdiv mode_NE x o) x.
  Proof using Hp Hm.
    intros U F Fo O. destruct (div_val x o F Fo ltac:(lra)) as [N V]. unfold Rdiv in V. rewrite O, Rinv_1, Rmult_1_r, rnd_B2R, (clamp_id _ (fin_lt x)) in V.
    split; apply leq_val; repeat split; try exact N; try (now apply fin_num); rewrite V, (fin_val x F); lra.
  Qed.
  Lemma up_zero_or (x : bf) : up x -> x = B754_zero false \/ x = B754_infinity false \/ (is_finite x = true /\ 0 < B2R x).
  Proof using.
    intros [A B]. destruct x as [[]|[]| |[] m e Hb]; try discriminate; auto. right; right. split; [reflexivity|]. cbn. apply F2R_gt_0. reflexivity.
  Qed.
  Lemma div_number (x y : bf) : positive x -> up y -> number (Bdiv mode_NE x y).
  Proof using Hp Hm.
    intros P U. pose proof (pos_R x P) as X. destruct P as [P F]. pose proof (pos_up x P) as Ux. destruct (up_zero_or y U) as [->|[->|[G Y]]].
    - destruct (up_zero_or x Ux) as [->|[->|_]]; [cbn in X; lra|discriminate|]. destruct x as [[]|[]| |[]]; try discriminate; try reflexivity; cbn in X; lra.
    - destruct x as [[]|[]| |[]]; try discriminate; try reflexivity.
    - apply div_val; try assumption. lra.
  Qed.
  Lemma div_number' (x y : bf) : up x -> positive y -> number (Bdiv mode_NE x y).
  Proof using Hp Hm.
    intros U P. pose proof (pos_R y P) as Y. destruct P as [P F]. destruct (is_finite x) eqn:G; [apply div_val; try assumption; lra|].
    rewrite (inf_up x U G). destruct y as [[]|[]| |[]]; try discriminate; try reflexivity; cbn in Y; lra.
  Qed.
  Lemma mul_number (x y : bf) : up x -> positive y -> number (Bmult mode_NE x y).
  Proof using Hp Hm.
    intros U P. pose proof (pos_R y P) as Y. destruct P as [P F]. destruct (is_finite x) eqn:G; [apply mul_val; assumption|].
    rewrite (inf_up x U G). destruct y as [[]|[]| |[]]; try discriminate; try reflexivity; cbn in Y; lra.
  Qed.
  Lemma mul_number' (x y : bf) : positive x -> up y -> number (Bmult mode_NE x y).
  Proof using Hp Hm.
    intros P U. pose proof (pos_R x P) as Y. destruct P as [P F]. destruct (is_finite y) eqn:G; [apply mul_val; assumption|].
    rewrite (inf_up y U G). destruct x as [[]|[]| |[]]; try discriminate; try reflexivity; cbn in Y; lra.
  Qed.
  Lemma div_neg (x y : bf) : up x -> number y -> Bsign y = true -> number (Bdiv mode_NE x y) -> Bsign (Bdiv mode_NE x y) = true.
  Proof using Hp Hm.
    intros [A B] C D N.
    destruct x as [[]|[]| |[] mx ex Hx], y as [[]|[]| |[] my ey Hy]; try discriminate; try reflexivity.
    pose proof (Bdiv_correct _ _ Hp Hm mode_NE (B754_finite false mx ex Hx) (B754_finite true my ey Hy)) as K. cbn [round_mode] in K.
    assert (Q : B2R (B754_finite true my ey Hy) <> 0). { cbn. apply Rlt_not_eq. apply F2R_lt_0. reflexivity. } specialize (K Q). destruct (Rlt_bool _ _).
    - destruct K as (_ & _ & S). rewrite S by exact N. reflexivity.
    - cbn [Bsign xorb] in K. cbn [binary_overflow overflow_to_inf] in K. destruct (Bdiv _ _ _); try discriminate. now injection K as ->.
  Qed.
  Lemma add_up (x y : bf) : up x -> is_finite x = true -> is_finite y = true -> 0 <= B2R x + B2R y -> up (Bplus mode_NE x y).
  Proof using Hp Hm.
    intros [A B] F G H. destruct (add_val x y F G) as [N V]. split; [exact N|].
    pose proof (Bplus_correct _ _ Hp Hm mode_NE x y F G) as K. cbn [round_mode] in K. destruct (Rlt_bool _ _).
    - destruct K as (_ & _ & S). rewrite S. rewrite B. cbn [andb]. destruct (Rcompare_spec (B2R x + B2R y) 0); try reflexivity. lra.
    - destruct K as [K _]. rewrite B in K. cbn [binary_overflow overflow_to_inf] in K. destruct (Bplus _ _ _); try discriminate. now injection K as ->.
  Qed.
  Lemma sub_up (x y : bf) : up x -> number y -> number (Bminus mode_NE x y) -> 0 <= vR (Bminus mode_NE x y) -> up (Bminus mode_NE x y).
  Proof using Hp Hm.
    intros [A B] C N H. split; [exact N|]. pose proof top_pos as T. destruct (is_finite x) eqn:F; [destruct (is_finite y) eqn:G|].
    - pose proof (Bminus_correct _ _ Hp Hm mode_NE x y F G) as K. cbn [round_mode] in K. destruct (Rlt_bool _ _) eqn:O.
      + destruct K as (E & Fi & S). rewrite (fin_val _ Fi) in H. rewrite S, B. cbn [andb]. destruct (Rcompare_spec (B2R x - B2R y) 0) as [L|L|L]; try reflexivity.
        exfalso. destruct (Req_dec (rnd (B2R x - B2R y)) 0) as [Z|Z].
        * revert Z. apply (round_plus_neq_0 radix2 fx ZnearestE (B2R x) (- B2R y)); [apply generic_format_B2R|apply generic_format_opp, generic_format_B2R|]. lra.
        * assert (rnd (B2R x - B2R y) <= 0). { rewrite <- rnd_0. apply rnd_le. lra. } lra.
      + destruct K as [K _]. rewrite B in K. cbn [binary_overflow overflow_to_inf] in K. destruct (Bminus _ _ _); try discriminate. now injection K as ->.
    - destruct x as [[]|[]| |[]], y as [[]|[]| |[]]; try discriminate; try reflexivity; exfalso; change (0 <= - top) in H; lra.
    - destruct x as [[]|[]| |[]], y as [[]|[]| |[]]; try discriminate; try reflexivity; exfalso; change (0 <= - top) in H; lra.
  Qed.
  Lemma sub_up_le (x y : bf) : up x -> is_finite x = true -> is_finite y = true -> B2R y <= B2R x -> up (Bminus mode_NE x y).
  Proof using Hp Hm.
    intros U F G H. destruct (sub_val x y F G) as [N V]. apply sub_up; try assumption; [now apply fin_num|]. rewrite V. rewrite <- (clamp_id 0), <- rnd_0 at 1; [|rewrite Rabs_R0; apply top_pos].
    apply clamp_le, rnd_le. lra.
  Qed.
  Lemma sqr_number (x : bf) : number x -> number (Bmult mode_NE x x).
  Proof using Hp Hm.
    intros N. destruct (is_finite x) eqn:F; [now apply mul_val|]. destruct x as [[]|[]| |[]]; try discriminate; reflexivity.
  Qed.
  Lemma sqr_up (x : bf) : number x -> up (Bmult mode_NE x x).
  Proof using Hp Hm.
    intros N. split; [now apply sqr_number|]. pose proof (Bmult_correct _ _ Hp Hm mode_NE x x) as K. cbn [round_mode] in K. destruct (is_finite x) eqn:F.
    - destruct (Rlt_bool _ _).
      + destruct K as (_ & _ & S). rewrite S by now apply sqr_number. apply xorb_nilpotent.
      + rewrite xorb_nilpotent in K. cbn [binary_overflow overflow_to_inf] in K. destruct (Bmult _ _ _); try discriminate. now injection K as ->.
    - destruct x as [[]|[]| |[]]; try discriminate; reflexivity.
  Qed.
  Lemma cube_up (x : bf) : up x -> up (Bmult mode_NE x (Bmult mode_NE x x)).
  Proof using Hp Hm.
    intros U. pose proof (sqr_up x (proj1 U)) as V. apply mul_up; try assumption.
    destruct (up_zero_or x U) as [->|[->|[F X]]]; try reflexivity. apply mul_number'; [|exact V]. split; [|exact F]. apply less_val. repeat split; [apply U|]. rewrite (fin_val x F). exact X.
  Qed.
  Lemma sqr_leq (x y : bf) : up x -> up y -> leq x y -> leq (Bmult mode_NE x x) (Bmult mode_NE y y).
  Proof using Hp Hm. intros U V L. apply mul_leq; try assumption; apply sqr_number; [apply U|apply V]. Qed.
  Lemma cube_leq (x y : bf) : up x -> up y -> leq x y -> leq (Bmult mode_NE x (Bmult mode_NE x x)) (Bmult mode_NE y (Bmult mode_NE y y)).
  Proof using Hp Hm.
    intros U V L. apply mul_leq; try assumption; try (apply sqr_up; apply U); try (apply sqr_up; apply V); try (now apply sqr_leq); apply cube_up; assumption.
  Qed.
  Lemma up_pos (x : bf) : positive x -> up x. Proof using. intros [A _]. now apply pos_up. Qed.
End Generic.
