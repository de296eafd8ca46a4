(** * SgnFloat: the laws of [SgnCalc] hold in rounded arithmetic (round to nearest even). *)
From Coq Require Import ZArith Bool Lia.
From Flocq Require Import Core IEEE754.BinarySingleNaN.
From Verif Require Import Num NumB32 NumB64 SgnCalc.

Section Generic.
  Context (prec emax : Z) (Hp : FLX.Prec_gt_0 prec) (Hm : Prec_lt_emax prec emax).
  Notation bf := (binary_float prec emax).
  Definition fz (a : bf) : Prop := exists s, a = B754_zero s.

  Lemma opp_sf (x : bf) : B2SF (Bopp x) = SpecFloat.SFopp (B2SF x). Proof using. destruct x; reflexivity. Qed.
  Lemma round_opp (s : bool) (m e : Z) (l : SpecFloat.location) :
    SpecFloat.SFopp (binary_round_aux prec emax mode_NE s m e l) = binary_round_aux prec emax mode_NE (negb s) m e l.
  Proof using.
    unfold binary_round_aux. destruct (SpecFloat.shr_fexp prec emax m e l) as [r1 e1].
    change (choice_mode mode_NE (negb s) (SpecFloat.shr_m r1) (SpecFloat.loc_of_shr_record r1)) with (choice_mode mode_NE s (SpecFloat.shr_m r1) (SpecFloat.loc_of_shr_record r1)).
    destruct (SpecFloat.shr_fexp prec emax (choice_mode mode_NE s (SpecFloat.shr_m r1) (SpecFloat.loc_of_shr_record r1)) e1 SpecFloat.loc_Exact) as [r2 e2].
    destruct (SpecFloat.shr_m r2); try reflexivity. unfold binary_fit_aux. destruct (e2 <=? emax - prec)%Z; reflexivity.
  Qed.
  Lemma mul_opp_l (a b : bf) : Bmult mode_NE (Bopp a) b = Bopp (Bmult mode_NE a b).
  Proof using.
    apply B2SF_inj. rewrite opp_sf.
    destruct a as [sa|sa| |sa ma ea Ha], b as [sb|sb| |sb mb eb Hb]; cbn [Bopp Bmult B2SF SpecFloat.SFopp]; rewrite ?negb_xorb_l; try reflexivity.
    rewrite !B2SF_SF2B, round_opp, negb_xorb_l. reflexivity.
  Qed.
  Lemma mul_comm (a b : bf) : Bmult mode_NE a b = Bmult mode_NE b a.
  Proof using.
    apply B2SF_inj. destruct a as [sa|sa| |sa ma ea Ha], b as [sb|sb| |sb mb eb Hb]; cbn [Bmult B2SF]; rewrite ?(xorb_comm sb); try reflexivity.
    rewrite !B2SF_SF2B. rewrite (Pos.mul_comm mb ma), (Z.add_comm eb ea), (xorb_comm sb sa). reflexivity.
  Qed.
  Lemma mul_opp_r (a b : bf) : Bmult mode_NE a (Bopp b) = Bopp (Bmult mode_NE a b).
  Proof using. now rewrite mul_comm, mul_opp_l, (mul_comm b a). Qed.
  Lemma div_opp_l (a b : bf) : Bdiv mode_NE (Bopp a) b = Bopp (Bdiv mode_NE a b).
  Proof using.
    apply B2SF_inj. rewrite opp_sf.
    destruct a as [sa|sa| |sa ma ea Ha], b as [sb|sb| |sb mb eb Hb]; cbn [Bopp Bdiv B2SF SpecFloat.SFopp]; rewrite ?negb_xorb_l; try reflexivity.
    rewrite !B2SF_SF2B. destruct (SpecFloat.SFdiv_core_binary prec emax (Z.pos ma) ea (Z.pos mb) eb) as [[m e] l].
    rewrite round_opp, negb_xorb_l. reflexivity.
  Qed.
  Lemma bround_opp (s : bool) (m : positive) (e : Z) : SpecFloat.SFopp (binary_round prec emax mode_NE s m e) = binary_round prec emax mode_NE (negb s) m e.
  Proof using. unfold binary_round. destruct (shl_align_fexp prec emax m e) as [m' e']. apply round_opp. Qed.
  Lemma norm_opp (m e : Z) : m <> 0%Z ->
    binary_normalize prec emax Hp Hm mode_NE (- m) e false = Bopp (binary_normalize prec emax Hp Hm mode_NE m e false).
  Proof using.
    intros H. apply B2SF_inj. rewrite opp_sf. destruct m as [|p|p]; [congruence| |]; cbn [Z.opp binary_normalize]; rewrite !B2SF_SF2B, bround_opp; reflexivity.
  Qed.
  Lemma opp_opp (a : bf) : Bopp (Bopp a) = a. Proof using. destruct a as [s|s| |s m e H]; cbn [Bopp]; rewrite ?negb_involutive; reflexivity. Qed.
  Lemma add_opp (a b : bf) : Bplus mode_NE (Bopp a) (Bopp b) = Bopp (Bplus mode_NE a b) \/ (fz (Bplus mode_NE a b) /\ fz (Bplus mode_NE (Bopp a) (Bopp b))).
  Proof using.
    destruct a as [[]|[]| |sa ma ea Ha], b as [[]|[]| |sb mb eb Hb]; cbn [Bopp Bplus negb eqb];
      try (left; reflexivity); try (right; split; eexists; reflexivity).
    cbv zeta. set (e := Z.min ea eb).
    replace (Fplus_naive (negb sa) ma ea (negb sb) mb eb e) with (- Fplus_naive sa ma ea sb mb eb e)%Z
      by (unfold Fplus_naive; destruct sa, sb; cbn [SpecFloat.cond_Zopp negb]; lia).
    set (m := Fplus_naive sa ma ea sb mb eb e).
    destruct (Z.eq_dec m 0) as [E|E].
    - right. rewrite E. split; eexists; reflexivity.
    - left. now apply norm_opp.
  Qed.
  Lemma sub_add (a b : bf) : Bminus mode_NE a b = Bplus mode_NE a (Bopp b).
  Proof using. destruct a as [[]|[]| |sa ma ea Ha], b as [[]|[]| |sb mb eb Hb]; try reflexivity. Qed.

  Definition Flp (s : bool) (a : bf) : bf := if s then Bopp a else a.
  Definition FR (s : bool) (a a' : bf) : Prop := a' = Flp s a \/ (fz a /\ fz a').
  Lemma Flp_mul (s t : bool) (a b : bf) : Bmult mode_NE (Flp s a) (Flp t b) = Flp (xorb s t) (Bmult mode_NE a b).
  Proof using. destruct s, t; cbn [Flp xorb]; rewrite ?mul_opp_l, ?mul_opp_r, ?opp_opp; reflexivity. Qed.
  Lemma mul_zz (s t : bool) (b : bf) : Bmult mode_NE (B754_zero s) b = B754_nan /\ Bmult mode_NE (B754_zero t) b = B754_nan \/
     fz (Bmult mode_NE (B754_zero s) b) /\ fz (Bmult mode_NE (B754_zero t) b).
  Proof using. destruct b; cbn [Bmult]; first [left; split; reflexivity|right; split; eexists; reflexivity]. Qed.
  Lemma fz_flp (s : bool) (a : bf) : fz a -> fz (Flp s a). Proof using. intros [t ->]. destruct s; eexists; reflexivity. Qed.
  Lemma FR_flp (s : bool) (a b c : bf) : FR s a b -> c = b \/ (fz b /\ fz c) -> FR s a c.
  Proof using.
    intros [E|[Z1 Z2]] [H|[Z3 Z4]]; subst.
    - left. reflexivity.
    - right. split; [|exact Z4]. destruct s; cbn [Flp] in Z3; [destruct Z3 as [u E]; destruct a; try discriminate; eexists; reflexivity|exact Z3].
    - right. split; assumption.
    - right. split; assumption.
  Qed.
  Lemma FR_mul (s t : bool) (a a' b b' : bf) : FR s a a' -> FR t b b' -> FR (xorb s t) (Bmult mode_NE a b) (Bmult mode_NE a' b').
  Proof using.
    intros HA HB. apply FR_flp with (Bmult mode_NE (Flp s a) b').
    - destruct HB as [->|[[u ->] [u' ->]]]; [left; apply Flp_mul|].
      apply FR_flp with (Bmult mode_NE (Flp s a) (Flp t (B754_zero u))); [left; apply Flp_mul|].
      destruct (Flp t (B754_zero u)) eqn:E; try (destruct t; discriminate).
      rewrite !(mul_comm (Flp s a)). destruct (mul_zz s0 u' (Flp s a)) as [[-> ->]|H]; [left; reflexivity|right; exact H].
    - destruct HA as [->|[[u ->] [u' ->]]]; [left; reflexivity|].
      destruct (Flp s (B754_zero u)) eqn:E; try (destruct s; discriminate).
      destruct (mul_zz s0 u' b') as [[-> ->]|H]; [left; reflexivity|right; exact H].
  Qed.
  Lemma add_z (z z' a b : bf) : fz z -> fz z' -> b = a \/ (fz a /\ fz b) -> Bplus mode_NE z' b = Bplus mode_NE z a \/ (fz (Bplus mode_NE z a) /\ fz (Bplus mode_NE z' b)).
  Proof using.
    intros [s ->] [s' ->] [->|[[u ->] [u' ->]]].
    - destruct a as [t|t| |t m e H]; cbn [Bplus]; [right; destruct (eqb s t), (eqb s' t); split; eexists; reflexivity|left; reflexivity..].
    - right. cbn [Bplus]. destruct (eqb s u), (eqb s' u'); split; eexists; reflexivity.
  Qed.
  Lemma add_z' (z z' a b : bf) : fz z -> fz z' -> b = a \/ (fz a /\ fz b) -> Bplus mode_NE b z' = Bplus mode_NE a z \/ (fz (Bplus mode_NE a z) /\ fz (Bplus mode_NE b z')).
  Proof using.
    intros [s ->] [s' ->] [->|[[u ->] [u' ->]]].
    - destruct a as [t|t| |t m e H]; cbn [Bplus]; [right; destruct (eqb t s), (eqb t s'); split; eexists; reflexivity|left; reflexivity..].
    - right. cbn [Bplus]. destruct (eqb u s), (eqb u' s'); split; eexists; reflexivity.
  Qed.
  Lemma FR_add (s : bool) (a a' b b' : bf) : FR s a a' -> FR s b b' -> FR s (Bplus mode_NE a b) (Bplus mode_NE a' b').
  Proof using.
    intros HA HB. apply FR_flp with (Bplus mode_NE (Flp s a) (Flp s b)).
    - destruct s; cbn [Flp]; [|left; reflexivity]. destruct (add_opp a b) as [E|H]; [left; exact E|right; exact H].
    - destruct HA as [->|[ZA ZA']].
      + destruct HB as [->|[ZB ZB']]; [left; reflexivity|]. apply add_z'; [now apply fz_flp|exact ZB'|left; reflexivity].
      + apply add_z; [now apply fz_flp|exact ZA'|]. destruct HB as [->|[ZB ZB']]; [left; reflexivity|right; split; [now apply fz_flp|exact ZB']].
  Qed.
  Lemma FR_neg (s : bool) (a a' : bf) : FR s a a' -> FR s (Bopp a) (Bopp a').
  Proof using. intros [->|[[u ->] [u' ->]]]; [left; destruct s; reflexivity|right; split; eexists; reflexivity]. Qed.
  Lemma FR_sub (s : bool) (a a' b b' : bf) : FR s a a' -> FR s b b' -> FR s (Bminus mode_NE a b) (Bminus mode_NE a' b').
  Proof using. intros HA HB. rewrite !sub_add. apply FR_add; [exact HA|now apply FR_neg]. Qed.
  Lemma FR_div (s : bool) (a a' b : bf) : FR s a a' -> FR s (Bdiv mode_NE a b) (Bdiv mode_NE a' b).
  Proof using.
    intros [->|[[u ->] [u' ->]]]; [left; destruct s; cbn [Flp]; [apply div_opp_l|reflexivity]|].
    destruct b; cbn [Bdiv]; first [left; destruct s; reflexivity|right; split; eexists; reflexivity].
  Qed.
  Lemma FR_sqr (s : bool) (a a' : bf) : FR s a a' -> Bmult mode_NE a' a' = Bmult mode_NE a a.
  Proof using. intros [->|[[u ->] [u' ->]]]; [destruct s; cbn [Flp]; rewrite ?mul_opp_l, ?mul_opp_r, ?opp_opp; reflexivity|cbn [Bmult]; now rewrite !xorb_nilpotent]. Qed.
  Lemma FR_abs (s : bool) (a a' : bf) : FR s a a' -> Babs a' = Babs a.
  Proof using. intros [->|[[u ->] [u' ->]]]; [destruct s, a; reflexivity|reflexivity]. Qed.
  Lemma FR_lt (a a' b b' : bf) : FR false a a' -> FR false b b' -> Bltb a' b' = Bltb a b.
  Proof using. intros [->|[[u ->] [u' ->]]] [->|[[w ->] [w' ->]]]; reflexivity. Qed.
  Lemma keep_l (a z z' : bf) : fz z -> fz z' -> ~ fz a -> Bplus mode_NE a z' = Bplus mode_NE a z.
  Proof using. intros [u ->] [u' ->] H. destruct a as [s| | |]; try reflexivity. exfalso. apply H. eexists; reflexivity. Qed.
  Lemma keep_r (a z z' : bf) : fz z -> fz z' -> ~ fz a -> Bplus mode_NE z' a = Bplus mode_NE z a.
  Proof using. intros [u ->] [u' ->] H. destruct a as [s| | |]; try reflexivity. exfalso. apply H. eexists; reflexivity. Qed.
  Lemma add_zz (z z' : bf) : fz z -> fz z' -> fz (Bplus mode_NE z z').
  Proof using. intros [u ->] [u' ->]. cbn [Bplus]. destruct (eqb u u'); eexists; reflexivity. Qed.
End Generic.

Lemma laws64 (L : libm64) : @sgn_laws _ (Num_B64 L) (fz 53 1024).
Proof.
  constructor.
  - apply Flp_mul.
  - apply FR_mul.
  - apply FR_add.
  - apply FR_sub.
  - apply FR_neg.
  - intros s a a' b. apply FR_div.
  - apply FR_sqr.
  - apply FR_abs.
  - apply FR_lt.
  - eexists; reflexivity.
  - apply opp_opp.
  - apply keep_l.
  - apply keep_r.
Qed.
Lemma laws32 (L : libm) : @sgn_laws _ (Num_B32 L) (fz 24 128).
Proof.
  constructor.
  - apply Flp_mul.
  - apply FR_mul.
  - apply FR_add.
  - apply FR_sub.
  - apply FR_neg.
  - intros s a a' b. apply FR_div.
  - apply FR_sqr.
  - apply FR_abs.
  - apply FR_lt.
  - eexists; reflexivity.
  - apply opp_opp.
  - apply keep_l.
  - apply keep_r.
Qed.
