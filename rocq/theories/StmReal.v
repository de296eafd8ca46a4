(** * StmReal: the four blocks over the real numbers are Battin's formulas (lemmas for C90) *)
From Coq Require Import ZArith Reals Lra Lia.
From Verif Require Import Num NumR Spec SpecFl SpecFlV SpecFlStm RelLib RoundAn StateTrans.
Local Open Scope R_scope.

Lemma mk3_eq {A : Type} (a b c a' b' c' : A) : a = a' -> b = b' -> c = c' -> mk3 a b c = mk3 a' b' c'.
Proof. intros -> -> ->. reflexivity. Qed.

Section Real.
  Variables (mu : R) (r v r0 v0 : vec).
  Hypotheses (Nr : r <> vzero) (Nr0 : r0 <> vzero) (Pm : 0 < mu).
  Let q := vnorm r.
  Let q0 := vnorm r0.
  Lemma q_nz : q <> 0. Proof using Nr. pose proof (sqrt_lt_R0 _ (dot_pos_nz _ Nr)) as H. unfold q, vnorm. lra. Qed.
  Lemma q0_nz : q0 <> 0. Proof using Nr0. pose proof (sqrt_lt_R0 _ (dot_pos_nz _ Nr0)) as H. unfold q0, vnorm. lra. Qed.

  Lemma norm_q : @vector_norm R _ r = q. Proof using. reflexivity. Qed.
  Lemma norm_q0 : @vector_norm R _ r0 = q0. Proof using. reflexivity. Qed.

  Ltac ent := repeat apply mk3_eq; unfold mprod, row_col, trans; cbn; unfold dot; cbn; field; repeat split; auto; lra.
  Lemma prpr0_real (F C : R) : prpr0 r v r0 v0 F C mu = stm_rr mu r v r0 v0 F C.
  Proof using Nr Nr0 Pm.
    pose proof q_nz as H. pose proof q0_nz as H0. unfold prpr0, stm_rr. rewrite norm_q, norm_q0. fold q q0. clearbody q q0.
    ent.
  Qed.
  Lemma prpv0_real (F G C : R) : prpv0 r v r0 v0 F G C mu = stm_rv mu r v r0 v0 F G C.
  Proof using Pm.
    unfold prpv0, stm_rv. rewrite norm_q0. fold q0. clearbody q0. ent.
  Qed.
  Lemma pvpr0_real (Ft C : R) : pvpr0 r v r0 v0 Ft C mu = stm_vr mu r v r0 v0 Ft C.
  Proof using Nr Nr0 Pm.
    pose proof q_nz as H. pose proof q0_nz as H0. unfold pvpr0, stm_vr. rewrite norm_q, norm_q0. fold q q0. clearbody q q0.
    ent.
  Qed.
  Lemma pvpv0_real (F Gt C : R) : pvpv0 r v r0 v0 F Gt C mu = stm_vv mu r v r0 v0 F Gt C.
  Proof using Nr Nr0 Pm.
    pose proof q_nz as H. pose proof q0_nz as H0. unfold pvpv0, stm_vv. rewrite norm_q, norm_q0. fold q q0. clearbody q q0.
    ent.
  Qed.
End Real.
