(** * Mutants7: a wrong array formula and wrong default arguments, and the properties that are false of
    them (see [Mutants]) *)
From Coq Require Import Reals Lra ZArith List String.
From Verif Require Import Num NumR Nd NdModel SpecNd NdLib NdElem RLib Spec Gravity Cowell Uniformulas SpecInteg CowellFacts UFacts.
Import ListNotations.
Local Open Scope R_scope.

Section Wrong.
  Context {T : Type} {N : Num T}.
  Local Instance Num_arrays : Num (nd T) := Num_nd.
  Local Open Scope num_scope.
  Local Open Scope string_scope.
  Definition m085_ufunc3_nd (chi alpha : nd T) : nd T :=
    lax_cond (nd_lt #0 alpha)
      ((n_sqrt alpha * chi - n_sin (n_sqrt alpha * chi)) / alpha / n_sqrt alpha)
      (lax_cond (nd_lt alpha #0)
        ((n_sqrt (- alpha) * chi - n_sinh (n_sqrt (- alpha) * chi)) / alpha / n_sqrt (- alpha))
        (chi ** 3 / #3)).
  Definition m101_OrbDynx (terms : field) (args : option (dict (T := T)))
    (event : option (option event_fn)) : orbdynx :=
    mkOrb terms (given args []) (given event None).
End Wrong.

Lemma m085_C53_universal_functions : ~ (forall (T : Type) (N : Num T) (chi al : arr T),
  (dims al = [] -> forall (U : nd T -> nd T -> nd T) (u : T -> T -> T),
     In (U, u) [(ufunc0_nd, ufunc0); (ufunc1_nd, ufunc1); (ufunc2_nd, ufunc2); (m085_ufunc3_nd, ufunc3); (ufunc4_nd, ufunc4); (ufunc5_nd, ufunc5)] ->
     elementwise [chi] (U (Some chi) (Some al)) (fun x => u (x chi) (at_ al []))) /\
  (dims al <> [] -> forall U : nd T -> nd T -> nd T,
     In U [ufunc0_nd; ufunc1_nd; ufunc2_nd; m085_ufunc3_nd; ufunc4_nd; ufunc5_nd] -> U (Some chi) (Some al) = None)).
Proof.
  intro H. destruct (H R Num_R (mkArr [] (fun _ => 1)) (mkArr [] (fun _ => 0))) as [A _].
  specialize (A eq_refl m085_ufunc3_nd ufunc3 ltac:(cbn; tauto)).
  unfold m085_ufunc3_nd, lax_cond, nd_lt, lift2, lift1, obind in A. cbn in A. unfold lift2, lift1, obind in A. cbn in A.
  assert (F : ltb 0 0 = false) by (unfold ltb; destruct (Rlt_dec 0 0); [lra|reflexivity]).
  rewrite F in A. cbn in A. destruct A as [_ A]. specialize (A [] (Forall2_nil _)). revert A.
  unfold ufunc3, read. cbn. rewrite F. unfold where_. lra.
Qed.

Lemma m101_C44_default_args : ~ (forall (t : R) (r v : vec) (ev : option (option (@event_fn R))) (d : @dict R),
  od_args (m101_OrbDynx j2_field None ev) = d -> j2_field t (six (r, v)) d = Raise (KeyError "J2")).
Proof. intro H. specialize (H 0 vzero vzero None [] eq_refl). discriminate. Qed.
