(** * Properties C18-C20: the state transition matrix

    Theorems only; proofs are in [StmAlg], [Stm], [StmFacts], [StmMore], [StmSym], [StmSymp].
    A 6x6 matrix is the record of its four 3x3 blocks; it acts on a pair
    (position variation, velocity variation). Exact real arithmetic. *)
From Coq Require Import Reals Lra.
From Coquelicot Require Import Coquelicot.
From Verif Require Import Num NumR Spec StateTrans StmFacts StmMore StmSymp StmExamples.
Local Open Scope R_scope.

(** ** C18 *)
Theorem C18_stm_is_derivative_of_flow :
  forall (mu t s : R) (r0 v0 r v : R -> vec) (dr dv : vec),
  0 < mu -> cross (r0 s) (v0 s) <> vzero -> vderive r0 s dr -> vderive v0 s dv ->
  locally s (fun u => flows_to mu t (r0 u, v0 u) (r u, v u)) ->
  let Phi := dxdx0 (r s) (v s) (r0 s) (v0 s) t mu in
  vderive r s (vplus (row_col (b_rr Phi) dr) (row_col (b_rv Phi) dv)) /\
  vderive v s (vplus (row_col (b_vr Phi) dr) (row_col (b_vv Phi) dv)).
Proof. exact stm_derivative. Qed.
Print Assumptions C18_stm_is_derivative_of_flow.

(** Unit circular orbit, initial radius varied along the family of circular orbits:
    the position error grows with (3/2) t. *)
Example C18_example : forall t : R,
  let Phi := dxdx0 (mk3 (cos t) (sin t) 0) (mk3 (- sin t) (cos t) 0) (mk3 1 0 0) (mk3 0 1 0) t 1 in
  let dr := mk3 1 0 0 in let dv := mk3 0 (- (1 / 2)) 0 in
  vplus (row_col (b_rr Phi) dr) (row_col (b_rv Phi) dv)
    = mk3 (cos t + 3 / 2 * t * sin t) (sin t - 3 / 2 * t * cos t) 0 /\
  vplus (row_col (b_vr Phi) dr) (row_col (b_vv Phi) dv)
    = mk3 (sin t / 2 + 3 / 2 * t * cos t) (- (cos t / 2) + 3 / 2 * t * sin t) 0.
Proof. exact stm_circle. Qed.

(** ** C19 *)
Theorem C19_identity_at_start : forall (r0 v0 : vec) (mu : R), 0 < mu -> r0 <> vzero ->
  dxdx0 r0 v0 r0 v0 0 mu
  = mkM6 ident (mk3 vzero vzero vzero) (mk3 vzero vzero vzero) ident.
Proof. exact stm_identity. Qed.
Print Assumptions C19_identity_at_start.

Theorem C19_flow_field : forall (mu t : R) (r0 v0 r v : vec),
  0 < mu -> cross r0 v0 <> vzero -> flows_to mu t (r0, v0) (r, v) ->
  let Phi := dxdx0 r v r0 v0 t mu in
  vplus (row_col (b_rr Phi) v0) (row_col (b_rv Phi) (gravity mu r0)) = v /\
  vplus (row_col (b_vr Phi) v0) (row_col (b_vv Phi) (gravity mu r0)) = gravity mu r.
Proof. exact stm_flow_field. Qed.
Print Assumptions C19_flow_field.

(** Transition matrices of consecutive arcs multiply. *)
Theorem C19_chain_rule : forall (mu t1 t2 : R) (r0 v0 r1 v1 r2 v2 : vec),
  0 < mu -> cross r0 v0 <> vzero ->
  flows_to mu t1 (r0, v0) (r1, v1) -> flows_to mu t2 (r1, v1) (r2, v2) ->
  let P1 := dxdx0 r1 v1 r0 v0 t1 mu in let P2 := dxdx0 r2 v2 r1 v1 t2 mu in
  let P := dxdx0 r2 v2 r0 v0 (t1 + t2) mu in
  forall dr dv : vec,
  let dr1 := vplus (row_col (b_rr P1) dr) (row_col (b_rv P1) dv) in
  let dv1 := vplus (row_col (b_vr P1) dr) (row_col (b_vv P1) dv) in
  vplus (row_col (b_rr P) dr) (row_col (b_rv P) dv) = vplus (row_col (b_rr P2) dr1) (row_col (b_rv P2) dv1) /\
  vplus (row_col (b_vr P) dr) (row_col (b_vv P) dv) = vplus (row_col (b_vr P2) dr1) (row_col (b_vv P2) dv1).
Proof. exact stm_chain. Qed.
Print Assumptions C19_chain_rule.

Example C19_example : let Phi := dxdx0 (mk3 0 1 0) (mk3 (-1) 0 0) (mk3 1 0 0) (mk3 0 1 0) (PI / 2) 1 in
  vplus (row_col (b_rr Phi) (mk3 0 1 0)) (row_col (b_rv Phi) (mk3 (-1) 0 0)) = mk3 (-1) 0 0.
Proof. exact stm_quarter_turn. Qed.

(** ** C20 *)
Theorem C20_symplectic : forall (r0 v0 r v : vec) (mu t : R),
  0 < mu -> cross r0 v0 <> vzero -> flows_to mu t (r0, v0) (r, v) ->
  let Phi := dxdx0 r v r0 v0 t mu in
  forall x1 y1 x2 y2 : vec,
  omega (vplus (row_col (b_rr Phi) x1) (row_col (b_rv Phi) y1))
        (vplus (row_col (b_vr Phi) x1) (row_col (b_vv Phi) y1))
        (vplus (row_col (b_rr Phi) x2) (row_col (b_rv Phi) y2))
        (vplus (row_col (b_vr Phi) x2) (row_col (b_vv Phi) y2))
  = omega x1 y1 x2 y2.
Proof. exact symplectic. Qed.
Print Assumptions C20_symplectic.

(** The matrix of the reversed arc is the inverse. *)
Theorem C20_inverse_is_reversed_arc : forall (mu t : R) (r0 v0 r v : vec),
  0 < mu -> cross r0 v0 <> vzero -> flows_to mu t (r0, v0) (r, v) ->
  let P := dxdx0 r v r0 v0 t mu in let Q := dxdx0 r0 v0 r v (- t) mu in
  forall dr dv : vec,
  let dr1 := vplus (row_col (b_rr P) dr) (row_col (b_rv P) dv) in
  let dv1 := vplus (row_col (b_vr P) dr) (row_col (b_vv P) dv) in
  vplus (row_col (b_rr Q) dr1) (row_col (b_rv Q) dv1) = dr /\
  vplus (row_col (b_vr Q) dr1) (row_col (b_vv Q) dv1) = dv.
Proof. exact stm_inverse. Qed.
Print Assumptions C20_inverse_is_reversed_arc.

(** The hypotheses are met by the quarter turn of the unit circular orbit. *)
Example C20_example : 0 < 1 /\ cross (mk3 1 0 0) (mk3 0 1 0) <> vzero /\
  flows_to 1 (PI / 2) (mk3 1 0 0, mk3 0 1 0) (mk3 0 1 0, mk3 (-1) 0 0).
Proof. exact quarter_turn. Qed.
