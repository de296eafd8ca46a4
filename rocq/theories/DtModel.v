(** * DtModel: the dtypes of the universal functions, the Kepler solvers and the Kepler propagator.

    The functions of /repo/src/astrodynx/twobody/_uniformulas.py, _kep_equ.py, _orb_integrals.py, _lagrange.py
    and prop/_kepler.py, with every value replaced by its dtype.  Literals are weak ([IntW], [FloatW]); a power
    with a literal exponent, a negation and an absolute value keep the dtype. *)
From Coq Require Import Bool List String.
From Verif Require Import Dt.

Section Model.
  Variable x64 : bool.
  Variable pick : dt -> dt -> dt.
  Notation cond := (cond x64 pick).

  (** _uniformulas.py:94-102 *)
  Definition d_ufunc0 (chi alpha : dt) : answer :=
    cond (Typed (inexact (join (inexact alpha) chi)))
      (cond (Typed (inexact (join (inexact alpha) chi))) (Typed chi)).

  (** _uniformulas.py:146-154 *)
  Definition d_ufunc1 (chi alpha : dt) : answer :=
    let b := over (inexact (join (inexact alpha) chi)) (inexact alpha) in
    cond (Typed b) (cond (Typed b) (Typed chi)).

  (** _uniformulas.py:198-206 *)
  Definition d_ufunc2 (chi alpha : dt) : answer :=
    let b := over (join IntW (inexact (join (inexact alpha) chi))) alpha in
    cond (Typed b) (cond (Typed b) (Typed (over chi IntW))).

  (** _uniformulas.py:250-262 *)
  Definition d_ufunc3 (chi alpha : dt) : answer :=
    let z := join (inexact alpha) chi in
    let b := over (over (join z (inexact z)) alpha) (inexact alpha) in
    cond (Typed b) (cond (Typed b) (Typed (over chi IntW))).

  (** _uniformulas.py:306-316 *)
  Definition d_ufunc4 (chi alpha : dt) : answer :=
    let z := join (inexact alpha) chi in
    let b := over (join (join (join alpha chi) IntW) (join IntW (inexact z))) (join IntW alpha) in
    cond (Typed b) (cond (Typed b) (Typed (over chi IntW))).

  (** _uniformulas.py:360-378 *)
  Definition d_ufunc5 (chi alpha : dt) : answer :=
    let z := join (inexact alpha) chi in
    let b := over (join (join (join alpha chi) (join (join IntW alpha) chi))
                        (join (join IntW (inexact alpha)) (inexact z))) (join IntW alpha) in
    cond (Typed b) (cond (Typed b) (Typed (over chi IntW))).

  (** _uniformulas.py:50 *)
  Definition d_sigma (pos vel mu : dt) : dt := over (join pos vel) (inexact mu).

  (** _orb_integrals.py:169, :393 *)
  Definition d_semimajor (r v mu : dt) : dt := over IntW (join (over IntW r) (over v mu)).
  Definition d_uvi (U0 U1 U2 r0 sigma0 : dt) : dt := join (join (join r0 U0) (join sigma0 U1)) U2.

  (** _kep_equ.py:279-284 *)
  Definition d_kepler_equ (chi alpha r0 sigma0 deltat mu : dt) : answer :=
    let* U1 := d_ufunc1 chi alpha in let* U2 := d_ufunc2 chi alpha in let* U3 := d_ufunc3 chi alpha in
    Typed (join (join (join (join r0 U1) (join sigma0 U2)) U3) (join (inexact mu) deltat)).

  (** _kep_equ.py:288-290 *)
  Definition d_dchi (chi alpha r0 sigma0 : dt) : answer :=
    let* U0 := d_ufunc0 chi alpha in let* U1 := d_ufunc1 chi alpha in let* U2 := d_ufunc2 chi alpha in
    Typed (d_uvi U0 U1 U2 r0 sigma0).

  (** _kep_equ.py:501-519.  The third carried value starts as [chi0 + 2 * tol] and becomes [chi]. *)
  Definition d_solve_uni (deltat alpha r0 sigma0 mu tol : dt) : answer :=
    let chi0 := join (join (inexact mu) alpha) deltat in
    let* chi := while1 x64 pick chi0 (fun chi =>
      let* f := d_kepler_equ chi alpha r0 sigma0 deltat mu in let* d := d_dchi chi alpha r0 sigma0 in
      Typed (join chi (over f d))) in
    let* prev := while1 x64 pick (join chi0 (join IntW tol)) (fun _ => Typed chi) in
    Typed chi.

  (** _lagrange.py:45, :100, :148, :188 *)
  Definition d_F (U2 r0 : dt) : dt := join IntW (over U2 r0).
  Definition d_G (U1 U2 sigma0 r0 mu : dt) : dt := over (join (join r0 U1) (join sigma0 U2)) (inexact mu).
  Definition d_Ft (U1 r r0 mu : dt) : dt := over (join (over (inexact mu) r) U1) r0.

  (** prop/_kepler.py:97-124 (the dtype of the position).  [.item()] turns an array into a Python float; [ts]
      becomes an array of the same dtype. *)
  Definition d_kepler (ts r0_vec v0_vec mu : dt) : answer :=
    let r0 := inexact r0_vec in let v0 := inexact v0_vec in
    let alpha := over FloatW (d_semimajor r0 v0 mu) in
    let sigma0 := d_sigma r0_vec v0_vec mu in
    let* chi := d_solve_uni ts FloatW FloatW FloatW mu FloatW in
    let* U0 := d_ufunc0 chi alpha in let* U1 := d_ufunc1 chi alpha in let* U2 := d_ufunc2 chi alpha in
    Typed (join (join (d_F U2 r0) r0_vec) (join (d_G U1 U2 sigma0 r0 mu) v0_vec)).

  (** _kep_equ.py:382-397 *)
  Definition d_solve_elps (M e tol : dt) : answer :=
    let E0 := join (join M (join e (inexact M))) (over (join e (inexact (join IntW M))) IntW) in
    let* E := while1 x64 pick E0 (fun E =>
      Typed (join E (over (join (join E (join e (inexact E))) M) (join IntW (join e (inexact E)))))) in
    let* prev := while1 x64 pick (join E0 (join IntW tol)) (fun _ => Typed E) in
    Typed E.

  (** _kep_equ.py:434-448 *)
  Definition d_solve_hypb (N e tol : dt) : answer :=
    let q := over (join IntW N) e in
    let H0 := inexact (join q (inexact (join q IntW))) in
    let* H := while1 x64 pick H0 (fun H =>
      Typed (join H (over (join (join (join e (inexact H)) H) N) (join (join e (inexact H)) IntW)))) in
    let* prev := while1 x64 pick (join H0 (join IntW tol)) (fun _ => Typed H) in
    Typed H.
End Model.
