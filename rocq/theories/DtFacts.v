(** * DtFacts: which dtypes the universal functions, the solvers and the propagator accept. *)
From Coq Require Import Bool List String.
From Verif Require Import Dt DtModel SpecDt.

Ltac picked P :=
  unfold d_kepler, d_solve_uni, d_solve_elps, d_solve_hypb, d_kepler_equ, d_dchi, while1, keeps;
  repeat (cbn; match goal with |- context [?p ?a ?b] =>
  match type of P with picks p => destruct (P a b) as [-> | ->] end end); cbn.

Section Facts.
Variable pick : dt -> dt -> dt.
Hypothesis P : picks pick.

Lemma default_ufuncs (chi alpha : dt) : exists_in false chi = true -> exists_in false alpha = true ->
  (accepted (d_ufunc0 false pick chi alpha) = is_float chi /\ accepted (d_ufunc1 false pick chi alpha) = is_float chi) /\
  gives false (d_ufunc2 false pick chi alpha) Float32 /\ gives false (d_ufunc3 false pick chi alpha) Float32 /\
  gives false (d_ufunc4 false pick chi alpha) Float32 /\ gives false (d_ufunc5 false pick chi alpha) Float32.
Proof using P.
  intros C A. destruct chi; try discriminate C; destruct alpha; try discriminate A;
  (split; [split; picked P; reflexivity | repeat split; picked P; eexists; (split; [reflexivity | reflexivity])]).
Qed.

Lemma x64_ufuncs (chi alpha : dt) :
  let ok := match chi with Float32 => negb (wide alpha) | Float64 => true | _ => negb (narrow alpha) end in
  let ok' := match chi with Int32 => narrow alpha | _ => ok end in
  (accepted (d_ufunc0 true pick chi alpha) = is_float chi && ok /\
   accepted (d_ufunc1 true pick chi alpha) = is_float chi && ok) /\
  accepted (d_ufunc2 true pick chi alpha) = ok' /\ accepted (d_ufunc3 true pick chi alpha) = ok' /\
  accepted (d_ufunc4 true pick chi alpha) = ok' /\ accepted (d_ufunc5 true pick chi alpha) = ok'.
Proof using P.
  destruct chi; destruct alpha; (split; [split; picked P; reflexivity | repeat split; picked P; reflexivity]).
Qed.

(** ** Closure: a set of dtypes closed under the operations stays closed through the programs *)
Definition good (x64 : bool) (d : dt) : bool := if x64 then negb (narrow d) else negb (wide d).

Lemma good_join x64 a b : good x64 a = true -> good x64 b = true -> good x64 (join a b) = true.
Proof. destruct x64, a, b; auto. Qed.
Lemma good_inexact x64 a : good x64 a = true -> good x64 (inexact a) = true.
Proof. destruct x64, a; auto. Qed.
Lemma good_over x64 a b : good x64 a = true -> good x64 b = true -> good x64 (over a b) = true.
Proof. intros A B. apply good_inexact, good_join; assumption. Qed.
Lemma float_inexact a : is_float (inexact a) = true.
Proof. destruct a; reflexivity. Qed.
Lemma float_join a b : is_float a = true -> is_float (join a b) = true.
Proof. destruct a, b; auto. Qed.
Lemma float_join_r a b : is_float b = true -> is_float (join a b) = true.
Proof. destruct a, b; auto. Qed.
Lemma good_stored x64 a b : good x64 a = true -> good x64 b = true -> is_float a = true -> is_float b = true ->
  dt_eqb (stored x64 a) (stored x64 b) = true.
Proof. destruct x64, a, b; try discriminate; reflexivity. Qed.
Lemma good_float x64 a : good x64 a = true -> is_float a = true -> stored x64 a = if x64 then Float64 else Float32.
Proof. destruct x64, a; try discriminate; reflexivity. Qed.

Definition fine (x64 : bool) (a : answer) : Prop := exists d, a = Typed d /\ good x64 d = true /\ is_float d = true.

Lemma fine_typed x64 d : good x64 d = true -> is_float d = true -> fine x64 (Typed d).
Proof. intros A B. exists d. auto. Qed.

Lemma fine_cond x64 a b : fine x64 a -> fine x64 b -> fine x64 (cond x64 pick a b).
Proof using P.
  intros [x [-> [A1 A2]]] [y [-> [B1 B2]]]. unfold cond, and_then. rewrite (good_stored x64 x y A1 B1 A2 B2).
  destruct (P x y) as [-> | ->]; apply fine_typed; assumption.
Qed.

Lemma fine_while x64 c body : good x64 c = true -> is_float c = true -> fine x64 (body c) ->
  fine x64 (while1 x64 pick c body).
Proof using P.
  intros A B [o [E [A1 A2]]]. unfold while1, and_then. rewrite E, (good_stored x64 c o A A1 B A2).
  destruct (P c o) as [-> | ->]; apply fine_typed; assumption.
Qed.

Lemma fine_then x64 a k : fine x64 a -> (forall d, good x64 d = true -> is_float d = true -> fine x64 (k d)) ->
  fine x64 (and_then a k).
Proof. intros [d [-> [A B]]] H. apply H; assumption. Qed.

Ltac gd := match goal with
  | |- good _ (join _ _) = true => apply good_join; gd
  | |- good _ (inexact _) = true => apply good_inexact; gd
  | |- good _ (over _ _) = true => apply good_over; gd
  | |- good true _ = true => first [assumption | reflexivity]
  | |- good ?x _ = true => first [assumption | destruct x; reflexivity]
  end.
Ltac ft := match goal with
  | |- is_float (over _ _) = true => apply float_inexact
  | |- is_float (inexact _) = true => apply float_inexact
  | |- is_float (join _ _) = true => first [apply float_join; ft | apply float_join_r; ft]
  | |- is_float _ = true => first [assumption | reflexivity]
  end.
Ltac fn := repeat apply fine_cond; (apply fine_typed; [gd | ft]).

Section Fine.
Variable x64 : bool.
Variables chi alpha : dt.
Hypothesis G : good x64 chi = true.
Hypothesis F : is_float chi = true.
Hypothesis A : good x64 alpha = true.
Lemma fine_u0 : fine x64 (d_ufunc0 x64 pick chi alpha).
Proof using P G F A. unfold d_ufunc0. fn. Qed.
Lemma fine_u1 : fine x64 (d_ufunc1 x64 pick chi alpha).
Proof using P G F A. unfold d_ufunc1. fn. Qed.
Lemma fine_u2 : fine x64 (d_ufunc2 x64 pick chi alpha).
Proof using P G F A. unfold d_ufunc2. fn. Qed.
Lemma fine_u3 : fine x64 (d_ufunc3 x64 pick chi alpha).
Proof using P G F A. unfold d_ufunc3. fn. Qed.
End Fine.

Lemma fine_solve x64 deltat alpha r0 sigma0 mu tol :
  Forall (fun d => good x64 d = true) (deltat :: alpha :: r0 :: sigma0 :: mu :: tol :: nil) ->
  fine x64 (d_solve_uni x64 pick deltat alpha r0 sigma0 mu tol).
Proof using P.
  intro L. inversion_clear L as [| ? ? H1 T]. inversion_clear T as [| ? ? H2 U]. inversion_clear U as [| ? ? H3 T].
  inversion_clear T as [| ? ? H4 U]. inversion_clear U as [| ? ? H5 T]. inversion_clear T as [| ? ? H6 U].
  unfold d_solve_uni. cbv zeta.
  assert (C1 : good x64 (join (join (inexact mu) alpha) deltat) = true) by gd.
  assert (C2 : is_float (join (join (inexact mu) alpha) deltat) = true) by ft.
  apply fine_then.
  - apply fine_while; [exact C1 | exact C2 |].
    apply fine_then; [| intros f F1 F2; apply fine_then].
    + unfold d_kepler_equ. apply fine_then; [apply fine_u1; assumption | intros u1 A1 B1].
      apply fine_then; [apply fine_u2; assumption | intros u2 A2 B2].
      apply fine_then; [apply fine_u3; assumption | intros u3 A3 B3].
      apply fine_typed; [gd | ft].
    + unfold d_dchi. apply fine_then; [apply fine_u0; assumption | intros u0 A0 B0].
      apply fine_then; [apply fine_u1; assumption | intros u1 A1 B1].
      apply fine_then; [apply fine_u2; assumption | intros u2 A2 B2].
      unfold d_uvi. apply fine_typed; [gd | ft].
    + intros d D1 D2. apply fine_typed; [gd | ft].
  - intros c G1 G2. apply fine_then.
    + apply fine_while; [gd | ft | apply fine_typed; assumption].
    + intros _ _ _. apply fine_typed; assumption.
Qed.

Lemma fine_kepler x64 ts r v mu : Forall (fun d => good x64 d = true) (ts :: r :: v :: mu :: nil) ->
  fine x64 (d_kepler x64 pick ts r v mu).
Proof using P.
  intro L. inversion_clear L as [| ? ? H1 T]. inversion_clear T as [| ? ? H2 U]. inversion_clear U as [| ? ? H3 T].
  inversion_clear T as [| ? ? H4 U].
  unfold d_kepler, d_semimajor, d_sigma, d_F, d_G. cbv zeta.
  assert (W : good x64 FloatW = true) by (destruct x64; reflexivity).
  apply fine_then; [apply fine_solve; repeat constructor; assumption | intros c G1 G2].
  match goal with |- fine _ (let* _ := d_ufunc0 _ _ _ ?al in _) =>
    assert (Ga : good x64 al = true) by gd; set (alpha := al) in * end.
  apply fine_then; [apply fine_u0; assumption | intros u0 A0 B0].
  apply fine_then; [apply fine_u1; assumption | intros u1 A1 B1].
  apply fine_then; [apply fine_u2; assumption | intros u2 A2 B2].
  apply fine_typed; [gd | ft].
Qed.

Lemma fine_gives x64 a : fine x64 a -> gives x64 a (if x64 then Float64 else Float32).
Proof. intros [d [-> [A B]]]. exists d. split; [reflexivity | exact (good_float x64 d A B)]. Qed.

Lemma default_kepler (ts r v mu : dt) :
  Forall (fun d => wide d = false) (ts :: r :: v :: mu :: nil) ->
  gives false (d_kepler false pick ts r v mu) Float32.
Proof using P.
  intro L. apply (fine_gives false), fine_kepler. eapply Forall_impl; [| exact L]. intros d H. cbn. rewrite H. reflexivity.
Qed.

Lemma x64_all_wide (ts r v mu : dt) :
  Forall (fun d => narrow d = false) (ts :: r :: v :: mu :: nil) ->
  gives true (d_kepler true pick ts r v mu) Float64.
Proof using P.
  intro L. apply (fine_gives true), fine_kepler. eapply Forall_impl; [| exact L]. intros d H. cbn. rewrite H. reflexivity.
Qed.

(** ** The mixed cases *)
Lemma uni_chi (ts mu : dt) : weak mu = true ->
  let c := match ts with Float32 => Float32 | Float64 => Float64 | _ => FloatW end in
  d_solve_uni true pick ts FloatW FloatW FloatW mu FloatW = Typed c.
Proof using P. intro W. destruct mu; try discriminate W; destruct ts; picked P; reflexivity. Qed.

Lemma accepted_then a k : accepted (and_then a k) = match a with Typed d => accepted (k d) | TypeError _ => false end.
Proof. destruct a; reflexivity. Qed.

Lemma accepted_chain a k ok rest : accepted a = ok -> (forall d, accepted (k d) = rest) ->
  accepted (and_then a k) = ok && rest.
Proof. intros A K. destruct a as [d | m]; cbn in *; rewrite <- A; [apply K | reflexivity]. Qed.

Lemma x64_kepler (ts r v mu : dt) : weak mu = true ->
  accepted (d_kepler true pick ts r v mu) =
  match ts with
  | Float32 => negb (wide r || wide v)
  | Float64 => true
  | _ => negb (narrow r || narrow v) || wide r || wide v
  end.
Proof using P.
  intro W. unfold d_kepler. cbv zeta. rewrite (uni_chi ts mu W). cbn [and_then].
  match goal with |- context [d_ufunc0 _ _ ?c ?al] => pose proof (x64_ufuncs c al) as [[U0 U1] [U2 _]] end.
  eapply eq_trans; [eapply accepted_chain; [exact U0 | intro u0; eapply accepted_chain; [exact U1 | intro u1;
    eapply (accepted_chain _ _ _ true); [exact U2 | intro u2; reflexivity]]] |].
  clear U0 U1 U2.
  destruct mu; try discriminate W; destruct ts, r, v; reflexivity.
Qed.

Lemma solvers_any (x64 : bool) (M e tol : dt) : weak tol = true ->
  Forall (fun d => exists_in x64 d = true) (M :: e :: nil) ->
  (exists d, d_solve_elps x64 pick M e tol = Typed d /\ is_float d = true) /\
  (exists d, d_solve_hypb x64 pick M e tol = Typed d /\ is_float d = true).
Proof using P.
  intros W F. inversion_clear F as [| ? ? H1 T]. inversion_clear T as [| ? ? H2 U].
  destruct tol; try discriminate W; destruct x64; destruct M; try discriminate H1; destruct e; try discriminate H2;
  (split; cbv; repeat (match goal with |- context [pick ?a ?b] => destruct (P a b) as [-> | ->] end; cbv);
   eexists; (split; [reflexivity | reflexivity])).
Qed.

Lemma integers_rejected (x64 : bool) (chi alpha : dt) :
  is_float chi = false -> exists_in x64 chi = true -> exists_in x64 alpha = true ->
  accepted (d_ufunc0 x64 pick chi alpha) = false /\ accepted (d_ufunc1 x64 pick chi alpha) = false.
Proof using P.
  intros F C A. destruct x64.
  - destruct (x64_ufuncs chi alpha) as [[H0 H1] _]. rewrite H0, H1, F. split; reflexivity.
  - destruct (default_ufuncs chi alpha C A) as [[H0 H1] _]. rewrite H0, H1, F. split; reflexivity.
Qed.

Lemma kepler_mixed_rejected (mu : dt) : weak mu = true ->
  accepted (d_kepler true pick Float32 Float64 Float64 mu) = false /\
  accepted (d_kepler true pick FloatW Float32 Float32 mu) = false /\
  accepted (d_kepler true pick Int32 Float32 Float32 mu) = false /\
  accepted (d_kepler true pick Float32 Float32 Float32 mu) = true /\
  accepted (d_kepler true pick Float64 Float32 Float32 mu) = true.
Proof using P. intro W. rewrite !(x64_kepler _ _ _ _ W). repeat split. Qed.

Lemma array_tol :
  accepted (d_solve_elps true pick Float32 Float32 Float64) = false /\
  accepted (d_solve_hypb true pick Float32 Float32 Float64) = false /\
  accepted (d_solve_elps true pick Float64 Float64 Float32) = true /\
  accepted (d_solve_hypb true pick Float64 Float64 Float32) = true.
Proof using P.
  repeat split; cbv; repeat (match goal with |- context [pick ?a ?b] => destruct (P a b) as [-> | ->] end; cbv);
  reflexivity.
Qed.
End Facts.
