(** * GravFacts: gravity models and the radius event (proofs for C39-C43) *)
From Coq Require Import Reals Lra Lia Psatz List String ZArith.
From Coquelicot Require Import Coquelicot.
From Verif Require Import Num NumR Spec SpecGrav RLib Ana TwoBody RotMat RotFacts Gravity.
Import ListNotations.
Local Open Scope R_scope.

(** ** Any arithmetic: which inputs matter (C42) *)
Section Reads.
  Context {T : Type} {N : Num T}.
  Lemma lookup_get k (d : list (string * T)) :
    lookup k d = match get k d with Some v => Ok v | None => Raise (KeyError k) end.
  Proof.
    unfold get. induction d as [|[k' v] d IH]; [reflexivity|]. cbn.
    destruct (String.eqb k k'); [reflexivity|exact IH].
  Qed.
  Definition ok_or_missing {A} (keys : list string) (args : list (string * T)) (r : res A) : Prop :=
    match find (missing args) keys with
    | Some k => r = Raise (KeyError k)
    | None => exists a, r = Ok a
    end.
  Lemma three x : (3 <= List.length x)%nat -> exists (a b c : T) r, x = a :: b :: c :: r.
  Proof. destruct x as [|a [|b [|c r]]]; simpl; intros; try lia. eauto. Qed.
  Ltac crack := unfold ok_or_missing, missing; cbn [find]; rewrite ?lookup_get;
    repeat (match goal with |- context [get ?k ?d] => destruct (get k d) eqn:? end; cbn; eauto).

  Lemma pm_errors t x args : x <> [] ->
    ok_or_missing ["mu"%string] args (point_mass_grav t x args).
  Proof. intros H. destruct x as [|a [|b [|c r]]]; [contradiction|..]; unfold point_mass_grav; crack. Qed.
  Lemma j2_errors t x args : x <> [] ->
    ok_or_missing ["mu"; "J2"; "R_eq"]%string args (j2_acc t x args).
  Proof. intros H. destruct x as [|a [|b [|c r]]]; [contradiction|..]; unfold j2_acc; crack. Qed.
  Lemma j3_errors t x args : x <> [] ->
    ok_or_missing ["mu"; "J3"; "R_eq"]%string args (j3_acc t x args).
  Proof. intros H. destruct x as [|a [|b [|c r]]]; [contradiction|..]; unfold j3_acc; crack. Qed.
  Lemma j4_errors t x args : x <> [] ->
    ok_or_missing ["mu"; "J4"; "R_eq"]%string args (j4_acc t x args).
  Proof. intros H. destruct x as [|a [|b [|c r]]]; [contradiction|..]; unfold j4_acc; crack. Qed.
  Lemma radius_errors t x args : ok_or_missing ["rmin"]%string args (radius_islow t x args).
  Proof. unfold radius_islow. crack. Qed.

  Definition same_on (keys : list string) (d d' : list (string * T)) : Prop :=
    forall k, In k keys -> get k d = get k d'.
  Lemma same_lookup keys d d' k : same_on keys d d' -> In k keys -> lookup k d = lookup k d'.
  Proof. intros H I. now rewrite !lookup_get, (H k I). Qed.
  Lemma same_three (x x' : list T) : (3 <= List.length x)%nat -> firstn 3 x = firstn 3 x' ->
    exists a b c r r', x = a :: b :: c :: r /\ x' = a :: b :: c :: r'.
  Proof.
    intros H E. destruct (three x H) as (a & b & c & r & ->).
    destruct x' as [|a' [|b' [|c' r']]]; simpl in E; try discriminate.
    injection E as -> -> ->. eauto 10.
  Qed.
  Ltac indep H E S :=
    destruct (same_three _ _ H E) as (a & b & c & r & r' & -> & ->);
    rewrite ?(same_lookup _ _ _ _ S) by (simpl; tauto); reflexivity.
  Lemma pm_indep t t' x x' args args' : (3 <= List.length x)%nat -> firstn 3 x = firstn 3 x' ->
    same_on ["mu"%string] args args' -> point_mass_grav t x args = point_mass_grav t' x' args'.
  Proof. intros H E S. unfold point_mass_grav. indep H E S. Qed.
  Lemma j2_indep t t' x x' args args' : (3 <= List.length x)%nat -> firstn 3 x = firstn 3 x' ->
    same_on ["mu"; "J2"; "R_eq"]%string args args' -> j2_acc t x args = j2_acc t' x' args'.
  Proof. intros H E S. unfold j2_acc. indep H E S. Qed.
  Lemma j3_indep t t' x x' args args' : (3 <= List.length x)%nat -> firstn 3 x = firstn 3 x' ->
    same_on ["mu"; "J3"; "R_eq"]%string args args' -> j3_acc t x args = j3_acc t' x' args'.
  Proof. intros H E S. unfold j3_acc. indep H E S. Qed.
  Lemma j4_indep t t' x x' args args' : (3 <= List.length x)%nat -> firstn 3 x = firstn 3 x' ->
    same_on ["mu"; "J4"; "R_eq"]%string args args' -> j4_acc t x args = j4_acc t' x' args'.
  Proof. intros H E S. unfold j4_acc. indep H E S. Qed.
  Lemma radius_indep t t' x x' args args' : (3 <= List.length x)%nat -> firstn 3 x = firstn 3 x' ->
    same_on ["rmin"]%string args args' -> radius_islow t x args = radius_islow t' x' args'.
  Proof. intros H E S. unfold radius_islow. indep H E S. Qed.
End Reads.

(** ** Plain forms over the reals *)
Lemma norm_state q rest : norm_first3 (state q rest) = vnorm q.
Proof. reflexivity. Qed.

Definition j2R (mu J Req : R) (q : vec) : vec :=
  let n := vnorm q in let u := (c2 q / n) ^ 2 in let k := - (3 / 2) * mu * J * Req ^ 2 / n ^ 5 in
  mk3 (k * c0 q * (1 - 5 * u)) (k * c1 q * (1 - 5 * u)) (k * c2 q * (3 - 5 * u)).
Definition j3R (mu J Req : R) (q : vec) : vec :=
  let n := vnorm q in let w := c2 q ^ 3 / n ^ 2 in let k := - (5 / 2) * mu * J * Req ^ 3 / n ^ 7 in
  mk3 (k * c0 q * (3 * c2 q - 7 * w)) (k * c1 q * (3 * c2 q - 7 * w))
      (k * (6 * c2 q ^ 2 - 7 * w * c2 q - 3 / 5 * n ^ 2)).
Definition j4R (mu J Req : R) (q : vec) : vec :=
  let n := vnorm q in let u := (c2 q / n) ^ 2 in let k := 15 / 8 * mu * J * Req ^ 4 / n ^ 7 in
  mk3 (k * c0 q * (1 - 14 * u + 21 * u ^ 2)) (k * c1 q * (1 - 14 * u + 21 * u ^ 2))
      (k * c2 q * (5 - 70 * u / 3 + 21 * u ^ 2)).

Ltac getall := rewrite ?lookup_get;
  repeat match goal with H : get _ _ = Some _ |- _ => rewrite H; clear H end; cbn [bind].
Lemma p2 x : npow x 2 = x ^ 2. Proof. unnum. ring. Qed.
Lemma p3 x : npow x 3 = x ^ 3. Proof. unnum. ring. Qed.
Lemma p4 x : npow x 4 = x ^ 4. Proof. unnum. ring. Qed.
Lemma p5 x : npow x 5 = x ^ 5. Proof. unnum. ring. Qed.
Lemma p7 x : npow x 7 = x ^ 7. Proof. unnum. ring. Qed.

Lemma pm_R t q rest args mu : get "mu" args = Some mu ->
  point_mass_grav t (state q rest) args = Ok (gravity mu q).
Proof.
  intros. unfold point_mass_grav. getall. rewrite norm_state, p3. reflexivity.
Qed.
Lemma j2_R t q rest args mu J Req :
  get "mu" args = Some mu -> get "J2" args = Some J -> get "R_eq" args = Some Req ->
  j2_acc t (state q rest) args = Ok (j2R mu J Req q).
Proof.
  intros. unfold j2_acc. getall. rewrite norm_state. cbn [jget state nth_error List.length Nat.min Nat.sub bind]. rewrite ?p7, ?p5, ?p4, ?p3, ?p2.
  f_equal. unfold j2R. set (n := vnorm q). unfold n_dec; cbn [Num_R].
  replace (-3 / 2) with (- (3 / 2)) by field. reflexivity.
Qed.
Lemma j3_R t q rest args mu J Req :
  get "mu" args = Some mu -> get "J3" args = Some J -> get "R_eq" args = Some Req ->
  j3_acc t (state q rest) args = Ok (j3R mu J Req q).
Proof.
  intros. unfold j3_acc. getall. rewrite norm_state. cbn [jget state nth_error List.length Nat.min Nat.sub bind]. rewrite ?p7, ?p5, ?p4, ?p3, ?p2.
  f_equal. unfold j3R. set (n := vnorm q). unfold n_dec; cbn [Num_R].
  replace (-5 / 2) with (- (5 / 2)) by field. reflexivity.
Qed.
Lemma j4_R t q rest args mu J Req :
  get "mu" args = Some mu -> get "J4" args = Some J -> get "R_eq" args = Some Req ->
  j4_acc t (state q rest) args = Ok (j4R mu J Req q).
Proof.
  intros. unfold j4_acc. getall. rewrite norm_state. cbn [jget state nth_error List.length Nat.min Nat.sub bind]. rewrite ?p7, ?p5, ?p4, ?p3, ?p2.
  reflexivity.
Qed.
Lemma radius_R t q rest args rmin : get "rmin" args = Some rmin ->
  radius_islow t (state q rest) args = Ok (vnorm q - rmin).
Proof. intros. unfold radius_islow. getall. reflexivity. Qed.

(** ** Potentials *)
Lemma legendre_2 u : legendre 2 u = (3 * u ^ 2 - 1) / 2.
Proof. unfold legendre. cbn. field. Qed.
Lemma legendre_3 u : legendre 3 u = (5 * u ^ 3 - 3 * u) / 2.
Proof. unfold legendre. cbn. field. Qed.
Lemma legendre_4 u : legendre 4 u = (35 * u ^ 4 - 30 * u ^ 2 + 3) / 8.
Proof. unfold legendre. cbn. field. Qed.

Section Grad.
  Variables (q : vec) (Hq : q <> vzero).
  Let n := vnorm q.
  Lemma n_pos : 0 < n. Proof. now apply vnorm_pos. Qed.
  Variables (c : R -> vec) (t : R) (w : vec).
  Hypothesis (Hc : c t = q) (Hw : vderive c t w).
  Lemma dz : is_derive (fun s => c2 (c s)) t (c2 w).
  Proof. apply Hw. Qed.
  Lemma dn : is_derive (fun s => vnorm (c s)) t (dot q w / n).
  Proof. unfold n. rewrite <- Hc. apply vnorm_der; [exact Hw|]. now rewrite Hc. Qed.
  Lemma dpow k : is_derive (fun s => / vnorm (c s) ^ k) t (- INR k * (dot q w / n) / n ^ (k + 1)).
  Proof.
    pose proof n_pos as Hn.
    eapply der_eq.
    - apply (der_inv (fun s => vnorm (c s) ^ k)).
      + apply (der_pow (fun s => vnorm (c s))). apply dn.
      + rewrite Hc. apply pow_nonzero. fold n. lra.
    - cbv beta. rewrite Hc. fold n. destruct k as [|k].
      + simpl. field. lra.
      + simpl pred. replace (n ^ (S k + 1)) with (n ^ k * n ^ 2)
          by (replace (S k + 1)%nat with (k + 2)%nat by lia; now rewrite <- pow_add).
        replace (n ^ S k) with (n ^ k * n) by (simpl; ring).
        assert (n ^ k <> 0) by (apply pow_nonzero; lra). field. split; lra.
  Qed.
  Lemma dzpow j : is_derive (fun s => c2 (c s) ^ j) t (INR j * c2 w * c2 q ^ pred j).
  Proof.
    eapply der_eq; [apply (der_pow (fun s => c2 (c s))), dz|]. cbv beta. now rewrite Hc.
  Qed.
  Lemma dzr j k : is_derive (fun s => c2 (c s) ^ j * / vnorm (c s) ^ k) t
    (INR j * c2 w * c2 q ^ pred j * / n ^ k + c2 q ^ j * (- INR k * (dot q w / n) / n ^ (k + 1))).
  Proof.
    eapply der_eq; [apply (der_mult (fun s => c2 (c s) ^ j) (fun s => / vnorm (c s) ^ k));
      [apply dzpow|apply dpow]|]. cbv beta. rewrite Hc. reflexivity.
  Qed.
End Grad.

Lemma zonal_2 mu J Req q : q <> vzero -> zonal 2 mu J Req q =
  - (mu * J * Req ^ 2 / 2) * (3 * (c2 q ^ 2 * / vnorm q ^ 5) - c2 q ^ 0 * / vnorm q ^ 3).
Proof. intros H. pose proof (vnorm_pos q H). unfold zonal. rewrite legendre_2. simpl Nat.add. field. lra. Qed.
Lemma zonal_3 mu J Req q : q <> vzero -> zonal 3 mu J Req q =
  - (mu * J * Req ^ 3 / 2) * (5 * (c2 q ^ 3 * / vnorm q ^ 7) - 3 * (c2 q ^ 1 * / vnorm q ^ 5)).
Proof. intros H. pose proof (vnorm_pos q H). unfold zonal. rewrite legendre_3. simpl Nat.add. field. lra. Qed.
Lemma zonal_4 mu J Req q : q <> vzero -> zonal 4 mu J Req q =
  - (mu * J * Req ^ 4 / 8) * (35 * (c2 q ^ 4 * / vnorm q ^ 9) - 30 * (c2 q ^ 2 * / vnorm q ^ 7)
     + 3 * (c2 q ^ 0 * / vnorm q ^ 5)).
Proof. intros H. pose proof (vnorm_pos q H). unfold zonal. rewrite legendre_4. simpl Nat.add. field. lra. Qed.

(** A curve through a non-zero point stays non-zero nearby. *)
Lemma near_nonzero (c : R -> vec) t w : vderive c t w -> c t <> vzero ->
  locally t (fun s => c s <> vzero).
Proof.
  intros Hw Hc. pose proof (vnorm_der c t w Hw Hc) as D.
  assert (C : continuous (fun s => vnorm (c s)) t) by (apply (ex_derive_continuous (fun s => vnorm (c s)) t); eexists; exact D).
  pose proof (vnorm_pos _ Hc) as P.
  assert (L : locally (vnorm (c t)) (fun y => 0 < y)) by (apply (open_gt 0); exact P).
  specialize (C _ L). unfold filtermap in C. eapply filter_imp; [|exact C].
  intros s Hs. apply vnorm_neq. lra.
Qed.
Lemma gradient_near (U V : vec -> R) q g : q <> vzero -> (forall x, x <> vzero -> U x = V x) ->
  gradient V q g -> gradient U q g.
Proof.
  intros Hq E G c t w Hc Hw. eapply is_derive_ext_loc; [|exact (G c t w Hc Hw)].
  assert (N : c t <> vzero) by (rewrite Hc; exact Hq).
  eapply filter_imp; [|exact (near_nonzero c t w Hw N)]. intros s Hs. symmetry. now apply E.
Qed.
Ltac inrs := cbn [INR Nat.add pred].
Lemma grad_pm mu q : q <> vzero -> gradient (kepler_potential mu) q (gravity mu q).
Proof.
  intros Hq c t w Hc Hw. pose proof (vnorm_pos q Hq) as Hn.
  apply (der_ext (fun s => mu * / vnorm (c s) ^ 1)).
  { intros s. unfold kepler_potential. simpl pow. rewrite Rmult_1_r. reflexivity. }
  eapply der_eq; [apply der_scal; apply (dpow q Hq c t w Hc Hw 1)|].
  unfold gravity. rewrite dot_smul_l. simpl. field. lra.
Qed.
Lemma grad_j2 mu J Req q : q <> vzero -> gradient (zonal 2 mu J Req) q (j2R mu J Req q).
Proof.
  intros Hq. apply (gradient_near _ (fun q => - (mu * J * Req ^ 2 / 2) *
      (3 * (c2 q ^ 2 * / vnorm q ^ 5) - c2 q ^ 0 * / vnorm q ^ 3))); auto.
  { intros x Hx. now apply zonal_2. }
  intros c t w Hc Hw. pose proof (vnorm_pos q Hq) as Hn.
  eapply der_eq.
  - apply der_scal. apply der_minus.
    + apply der_scal. apply (dzr q Hq c t w Hc Hw 2 5).
    + apply (dzr q Hq c t w Hc Hw 0 3).
  - unfold j2R, dot; inrs; cbn [c0 c1 c2]. set (n := vnorm q) in *. clearbody n. field. lra.
Qed.
Lemma grad_j3 mu J Req q : q <> vzero -> gradient (zonal 3 mu J Req) q (j3R mu J Req q).
Proof.
  intros Hq. apply (gradient_near _ (fun q => - (mu * J * Req ^ 3 / 2) *
      (5 * (c2 q ^ 3 * / vnorm q ^ 7) - 3 * (c2 q ^ 1 * / vnorm q ^ 5)))); auto.
  { intros x Hx. now apply zonal_3. }
  intros c t w Hc Hw. pose proof (vnorm_pos q Hq) as Hn.
  eapply der_eq.
  - apply der_scal. apply der_minus.
    + apply der_scal. apply (dzr q Hq c t w Hc Hw 3 7).
    + apply der_scal. apply (dzr q Hq c t w Hc Hw 1 5).
  - unfold j3R, dot; inrs; cbn [c0 c1 c2]. set (n := vnorm q) in *. clearbody n. field. lra.
Qed.
Lemma grad_j4 mu J Req q : q <> vzero -> gradient (zonal 4 mu J Req) q (j4R mu J Req q).
Proof.
  intros Hq. apply (gradient_near _ (fun q => - (mu * J * Req ^ 4 / 8) *
     (35 * (c2 q ^ 4 * / vnorm q ^ 9) - 30 * (c2 q ^ 2 * / vnorm q ^ 7)
     + 3 * (c2 q ^ 0 * / vnorm q ^ 5)))); auto.
  { intros x Hx. now apply zonal_4. }
  intros c t w Hc Hw. pose proof (vnorm_pos q Hq) as Hn.
  eapply der_eq.
  - apply der_scal. apply der_plus; [apply der_minus|].
    + apply der_scal. apply (dzr q Hq c t w Hc Hw 4 9).
    + apply der_scal. apply (dzr q Hq c t w Hc Hw 2 7).
    + apply der_scal. apply (dzr q Hq c t w Hc Hw 0 5).
  - unfold j4R, dot; inrs; cbn [c0 c1 c2]. set (n := vnorm q) in *. clearbody n. field. lra.
Qed.
