(** * NdRv: orbital elements of batches (proofs for C54) *)
From Coq Require Import List Arith Lia ZArith Bool.
Import ListNotations.
From Verif Require Import Num Nd NdModel SpecNd NdLib NdElem NdVec OrbIntegrals Uniformulas KepEqu OrbElements.

Section Rv.
  Context {T : Type} {N : Num T}.
  Definition ub (ss : list (list nat)) (S : list nat) : Prop := forall s, In s ss -> fits s S.
  Lemma rowwise (ss : list (list nat)) (r : nd T) f :
    (forall S, ub ss S -> rel S r f) -> (forall s, In s ss -> cov s r) -> compatible ss ->
    exists o, r = Some o /\ common ss (dims o) /\ forall S i, ub ss S -> inb S i -> read o i = f i.
  Proof using.
    intros H C [S0 H0]. destruct (H S0 H0) as (o & E & _ & _). exists o. split; [exact E|]. split; [split|].
    - intros s Hs. exact (C s Hs o E).
    - intros S' H'. destruct (H S' H') as (q & E' & F & _). congruence.
    - intros S i HS Hi. destruct (H S HS) as (q & E' & F & V). assert (q = o) as -> by congruence. now apply V.
  Qed.
  Lemma vrowwise (ss : list (list nat)) (r : nd T) f :
    (forall S, ub ss S -> vrel S r f) -> (forall s, In s ss -> bcov s r) -> compatible ss ->
    exists o u, r = Some o /\ vectors o u /\ common ss u /\ forall S i, ub ss S -> inb S i -> row o i = f i.
  Proof using.
    intros H C [S0 H0]. destruct (H S0 H0) as (o & u & E & D & _). exists o, u. split; [exact E|]. split; [exact D|]. split; [split|].
    - intros s Hs. destruct (C s Hs o E) as (n & w & D' & F). rewrite D in D'. now injection D' as <- <-.
    - intros S' H'. destruct (H S' H') as (q & w & E' & D' & F & _). assert (q = o) as -> by congruence. rewrite D in D'. now injection D' as <-.
    - intros S i HS Hi. destruct (H S HS) as (q & w & E' & D' & F & V). assert (q = o) as -> by congruence. now apply V.
  Qed.

  Variables (pos vel mu : arr T) (s t m : list nat).
  Hypotheses (Hp : vectors pos s) (Hv : vectors vel t) (Hm : column mu m).
  Notation P := (Some pos). Notation V := (Some vel). Notation M := (Some mu).

  Section Up.
    Variable S : list nat.
    Hypotheses (Fp : fits s S) (Fv : fits t S) (Fm : fits m S).
    Lemma h_v : vrel S (angular_momentum_nd P V) (fun i => angular_momentum (row pos i) (row vel i)).
    Proof using Hp Hv Fp Fv. apply (v_cross S); eapply v_leaf; eauto. Qed.
    Lemma e_v : vrel S (eccentricity_vector_nd P V M) (fun i => eccentricity_vector (row pos i) (row vel i) (cell mu i)).
    Proof using Hp Hv Hm Fp Fv Fm.
      unfold eccentricity_vector_nd, eccentricity_vector. unnd. apply (v_lift2 S n_sub).
      - apply (v_lift2c S n_div); [|eapply c_leaf; eauto]. apply (v_cross S); [eapply v_leaf; eauto|apply h_v].
      - apply (v_lift2c S n_div _ _ (row pos) (fun i => vector_norm (row pos i))); [eapply v_leaf; eauto|apply c_norm; eapply v_leaf; eauto].
    Qed.
    Lemma sig_c : crel S (sigma_fn_nd P V M) (fun i => sigma_fn (row pos i) (row vel i) (cell mu i)).
    Proof using Hp Hv Hm Fp Fv Fm.
      unfold sigma_fn_nd, sigma_fn. unnd. apply (c_lift2 S n_div); [apply c_inner; eapply v_leaf; eauto|].
      apply (c_lift1 S n_sqrt). eapply c_leaf; eauto.
    Qed.
    Lemma incl_c h f : vrel S h f -> crel S (inclination_nd h) (fun i => inclination (f i)).
    Proof using.
      intros H. unfold inclination_nd, inclination. unnd. apply (c_lift1 S n_arccos), (c_lift2 S n_div); [|now apply c_norm].
      exact (c_slice S h f 2 ltac:(lia) H).
    Qed.
    Lemma node_v h f : vrel S h f -> vrel S (node_vec_nd h) (fun i => node_vec (f i)).
    Proof using.
      intros H. unfold node_vec_nd, node_vec. apply (v_cross S unit_z h (fun _ => mk3 (n_Z 0) (n_Z 0) (n_Z 1)) f); [|exact H].
      eexists. exists []. split; [reflexivity|]. split; [reflexivity|]. split; [exact I|]. reflexivity.
    Qed.
    Lemma raan_c h f : vrel S h f -> crel S (right_ascension_nd h) (fun i => right_ascension (f i)).
    Proof using.
      intros H. unfold right_ascension_nd, right_ascension. unnd.
      apply (c_angle S _ (fun i => n_arctan2 (c1 (f i)) (c0 (f i)))), (c_lift2 S n_arctan2);
        [exact (c_slice S h f 1 ltac:(lia) H)|exact (c_slice S h f 0 ltac:(lia) H)].
    Qed.
    Lemma argp_c x y f g : vrel S x f -> vrel S y g ->
      crel S (argument_of_periapsis_nd x y) (fun i => argument_of_periapsis (f i) (g i)).
    Proof using.
      intros H H'. unfold argument_of_periapsis_nd, argument_of_periapsis. unnd.
      apply (c_angle S _ (fun i => n_arctan2 (vector_norm (vcross (f i) (g i))) (vinner (f i) (g i)))), (c_lift2 S n_arctan2);
        [apply c_norm; now apply v_cross|now apply c_inner].
    Qed.
    Lemma f_c x y f g : vrel S x f -> vrel S y g ->
      crel S (true_anomaly_nd x y) (fun i => true_anomaly (f i) (g i)).
    Proof using.
      intros H H'. unfold true_anomaly_nd, true_anomaly. unnd.
      apply (c_angle S _ (fun i => n_arctan2 (vector_norm (vcross (g i) (f i))) (vinner (g i) (f i)))), (c_lift2 S n_arctan2);
        [apply c_norm; now apply v_cross|now apply c_inner].
    Qed.
    Lemma p_c x f : crel S x f -> crel S (@semiparameter _ Num_nd x M) (fun i => semiparameter (f i) (cell mu i)).
    Proof using Hm Fm.
      intros H. unfold semiparameter. unnd. apply (c_lift2 S n_div); [|eapply c_leaf; eauto]. now apply c_pow.
    Qed.
  End Up.

  (** Lower bounds. *)
  Lemma b_h_p : bcov s (angular_momentum_nd P V). Proof using Hp. eapply b_crossl, b_leaf; eauto. Qed.
  Lemma b_h_v : bcov t (angular_momentum_nd P V). Proof using Hv. eapply b_crossr, b_leaf; eauto. Qed.
  Lemma b_e_p : bcov s (eccentricity_vector_nd P V M). Proof using Hp. unfold eccentricity_vector_nd. unnd. eapply b_lift2r, b_lift2l, b_leaf; eauto. Qed.
  Lemma b_e_v : bcov t (eccentricity_vector_nd P V M). Proof using Hv. unfold eccentricity_vector_nd. unnd. eapply b_lift2l, b_lift2l, b_crossl, b_leaf; eauto. Qed.
  Lemma bcov0 u (x : nd T) : bcov u x -> bcov [] x.
  Proof using. intros H o E. destruct (H o E) as (n & w & D & _). exists n, w. now split. Qed.
  Lemma b_e_m : bcov m (eccentricity_vector_nd P V M).
  Proof using Hm Hv. unfold eccentricity_vector_nd. unnd. eapply b_lift2l, b_mu; [exact Hm|]. eapply bcov0, b_crossl, b_leaf; eauto. Qed.
  Lemma b_incl w h : bcov w h -> bcov w (inclination_nd h).
  Proof using. intros H. unfold inclination_nd. unnd. now apply b_lift1, b_lift2l, b_slice. Qed.
  Lemma b_node w h : bcov w h -> bcov w (node_vec_nd h). Proof using. apply b_crossr. Qed.
  Lemma b_raan w h : bcov w h -> bcov w (right_ascension_nd h).
  Proof using. intros H. unfold right_ascension_nd. unnd. now apply b_angle, b_lift2l, b_slice. Qed.
  Lemma b_argp w x y : bcov w x \/ bcov w y -> bcov w (argument_of_periapsis_nd x y).
  Proof using.
    intros [H|H]; unfold argument_of_periapsis_nd; unnd; apply b_angle, b_lift2r, b_sum; [now apply b_lift2l|now apply b_lift2r].
  Qed.
  Lemma b_f w x y : bcov w x \/ bcov w y -> bcov w (true_anomaly_nd x y).
  Proof using.
    intros [H|H]; unfold true_anomaly_nd; unnd; apply b_angle, b_lift2r, b_sum; [now apply b_lift2r|now apply b_lift2l].
  Qed.
  Lemma b_p w x : bcov w x -> bcov w (@semiparameter _ Num_nd x M).
  Proof using. intros H. unfold semiparameter. unnd. now apply b_lift2l, b_pow. Qed.
  Lemma b_p_m w x : bcov w x -> bcov m (@semiparameter _ Num_nd x M).
  Proof using Hm. intros H. unfold semiparameter. unnd. apply b_mu; [exact Hm|]. now apply b_pow, (bcov0 w). Qed.
  Lemma b_sig : bcov s (sigma_fn_nd P V M) /\ bcov t (sigma_fn_nd P V M) /\ bcov m (sigma_fn_nd P V M).
  Proof using Hp Hv Hm.
    unfold sigma_fn_nd. unnd. split; [|split].
    - eapply b_lift2l, b_sum, b_lift2l, b_leaf; eauto.
    - eapply b_lift2l, b_sum, b_lift2r, b_leaf; eauto.
    - destruct Hm as [H|[H ->]]; [eapply b_lift2r, b_lift1, b_leaf; eauto|]. apply (bcov0 s). eapply b_lift2l, b_sum, b_lift2l, b_leaf; eauto.
  Qed.

  Lemma in2 (Q : list nat -> Prop) : Q s -> Q t -> forall x, In x [s; t] -> Q x.
  Proof using. intros ? ? x [<-|[<-|[]]]; auto. Qed.
  Lemma in3 (Q : list nat -> Prop) : Q s -> Q t -> Q m -> forall x, In x [s; t; m] -> Q x.
  Proof using. intros ? ? ? x [<-|[<-|[<-|[]]]]; auto. Qed.
  Lemma ub3 S : ub [s; t; m] S -> fits s S /\ fits t S /\ fits m S.
  Proof using. intros H. repeat split; apply H; cbn; tauto. Qed.
  Lemma ub2 S : ub [s; t] S -> fits s S /\ fits t S.
  Proof using. intros H. repeat split; apply H; cbn; tauto. Qed.

  Lemma angular_momentum_rows : compatible [s; t] -> exists o u, angular_momentum_nd P V = Some o /\ vectors o u /\
    common [s; t] u /\ forall S i, ub [s; t] S -> inb S i -> row o i = angular_momentum (row pos i) (row vel i).
  Proof using Hp Hv.
    intros C. apply (vrowwise [s; t]); [|apply (in2 (fun x => bcov x _)); [apply b_h_p|apply b_h_v]|exact C].
    intros S HS. apply ub2 in HS. destruct HS. now apply h_v.
  Qed.
  Lemma eccentricity_vector_rows : compatible [s; t; m] -> exists o u, eccentricity_vector_nd P V M = Some o /\ vectors o u /\
    common [s; t; m] u /\ forall S i, ub [s; t; m] S -> inb S i -> row o i = eccentricity_vector (row pos i) (row vel i) (cell mu i).
  Proof using Hp Hv Hm.
    intros C. apply (vrowwise [s; t; m]); [|apply (in3 (fun x => bcov x _)); [apply b_e_p|apply b_e_v|apply b_e_m]|exact C].
    intros S HS. apply ub3 in HS. destruct HS as (? & ? & ?). now apply e_v.
  Qed.
  Lemma sq_c S (o : arr T) f : crel S (Some o) f -> bcov [] (Some o) -> exists u, dims o = 1 :: u /\ fits u S /\ forall i, inb S i -> cell o i = f i.
  Proof using.
    intros (q & E & F & W) B. injection E as <-. destruct (B o eq_refl) as (n & u & D & _). rewrite D in F. destruct F as [E F].
    assert (n = 1) as -> by (destruct E; auto). exists u. split; [exact D|]. split; [exact F|]. intros i Hi.
    change (f i) with (f (tl (0 :: i))). rewrite <- W by (apply inb_cons; auto). reflexivity.
  Qed.
  Lemma sigma_rows : compatible [s; t; m] -> exists o u, sigma_fn_nd P V M = Some o /\ dims o = 1 :: u /\
    common [s; t; m] u /\ forall S i, ub [s; t; m] S -> inb S i -> cell o i = sigma_fn (row pos i) (row vel i) (cell mu i).
  Proof using Hp Hv Hm.
    intros [S0 C]. destruct b_sig as (B1 & B2 & B3).
    assert (G : forall S, ub [s; t; m] S -> exists o u, sigma_fn_nd P V M = Some o /\ dims o = 1 :: u /\ fits u S /\
      forall i, inb S i -> cell o i = sigma_fn (row pos i) (row vel i) (cell mu i)).
    { intros S HS. apply ub3 in HS. destruct HS as (H1 & H2 & H3). pose proof (sig_c S H1 H2 H3) as K.
      pose proof (bcov0 _ _ B1) as B0. destruct (sigma_fn_nd P V M) as [o|]; [|now destruct K as (? & ? & _)].
      destruct (sq_c S o _ K B0) as (u & D & F & W). exists o, u. auto. }
    destruct (G S0 C) as (o & u & E & D & _). exists o, u. split; [exact E|]. split; [exact D|]. split; [split|].
    - apply in3.
      + destruct (B1 o E) as (n & w & D' & F). rewrite D in D'. now injection D' as <- <-.
      + destruct (B2 o E) as (n & w & D' & F). rewrite D in D'. now injection D' as <- <-.
      + destruct (B3 o E) as (n & w & D' & F). rewrite D in D'. now injection D' as <- <-.
    - intros S' H'. destruct (G S' H') as (q & w & E' & D' & F & _). rewrite E in E'. injection E' as <-. rewrite D in D'. now injection D' as <-.
    - intros S i HS Hi. destruct (G S HS) as (q & w & E' & D' & F & W). rewrite E in E'. injection E' as <-. now apply W.
  Qed.

  Lemma common_unique ss S S' : common ss S -> common ss S' -> S = S'.
  Proof using. intros [H1 H2] [H3 H4]. apply fits_antisym; auto. Qed.
  Lemma compat_sub ss ss' : compatible ss -> incl ss' ss -> compatible ss'.
  Proof using. intros [S H] I. exists S. intros x Hx. apply H, I, Hx. Qed.

  Lemma rv2coe_rows S : common [s; t; m] S -> exists U c, common [s; t] U /\ rv2coe_nd P V M = Some c /\
    dims (nd_p c) = S /\ dims (nd_e c) = S /\ dims (nd_incl c) = U /\ dims (nd_raan c) = U /\ dims (nd_argp c) = S /\ dims (nd_f c) = S /\
    forall i, inb S i -> mkcoe (at_ (nd_p c) i) (at_ (nd_e c) i) (read (nd_incl c) i) (read (nd_raan c) i) (at_ (nd_argp c) i) (at_ (nd_f c) i)
      = rv2coe (row pos i) (row vel i) (cell mu i).
  Proof using Hp Hv Hm.
    intros C. assert (Cm : compatible [s; t; m]) by (exists S; apply C).
    assert (C2 : compatible [s; t]) by (apply (compat_sub _ _ Cm); intros x; cbn; tauto).
    assert (HS : ub [s; t; m] S) by exact (proj1 C). assert (HS2 : ub [s; t] S) by (intros x Hx; apply HS; cbn in *; tauto).
    destruct (rowwise [s; t; m] (squeeze_last (@semiparameter _ Num_nd (norm_last (angular_momentum_nd P V)) M))
      (fun i => semiparameter (vector_norm (angular_momentum (row pos i) (row vel i))) (cell mu i))) as (op & Ep & Kp & Vp); [|apply (in3 (fun x => cov x _)); apply sq_cov|exact Cm|].
    { intros W H. apply ub3 in H. destruct H as (? & ? & ?). apply sq_rel; [|eapply bcov0, b_p, b_norm, b_h_p].
      apply (p_c W) with (f := fun i => vector_norm (angular_momentum (row pos i) (row vel i))); [assumption|]. apply c_norm. now apply h_v. }
    { apply b_p, b_norm, b_h_p. } { apply b_p, b_norm, b_h_v. } { eapply b_p_m, b_norm, b_h_p. }
    destruct (rowwise [s; t; m] (squeeze_last (norm_last (eccentricity_vector_nd P V M)))
      (fun i => vector_norm (eccentricity_vector (row pos i) (row vel i) (cell mu i)))) as (oe & Ee & Ke & Ve); [|apply (in3 (fun x => cov x _)); apply sq_cov|exact Cm|].
    { intros W H. apply ub3 in H. destruct H as (? & ? & ?). apply sq_rel; [|eapply bcov0, b_norm, b_e_p].
      apply c_norm. now apply e_v. }
    { apply b_norm, b_e_p. } { apply b_norm, b_e_v. } { apply b_norm, b_e_m. }
    destruct (rowwise [s; t] (squeeze_last (inclination_nd (angular_momentum_nd P V)))
      (fun i => inclination (angular_momentum (row pos i) (row vel i)))) as (oi & Ei & Ki & Vi); [|apply (in2 (fun x => cov x _)); apply sq_cov|exact C2|].
    { intros W H. apply ub2 in H. destruct H as (? & ?). apply sq_rel; [|eapply bcov0, b_incl, b_h_p]. apply incl_c. now apply h_v. }
    { apply b_incl, b_h_p. } { apply b_incl, b_h_v. }
    destruct (rowwise [s; t] (squeeze_last (right_ascension_nd (node_vec_nd (angular_momentum_nd P V))))
      (fun i => right_ascension (node_vec (angular_momentum (row pos i) (row vel i))))) as (oo & Eo & Ko & Vo); [|apply (in2 (fun x => cov x _)); apply sq_cov|exact C2|].
    { intros W H. apply ub2 in H. destruct H as (? & ?). apply sq_rel; [|eapply bcov0, b_raan, b_node, b_h_p].
      apply (raan_c W _ (fun i => node_vec (angular_momentum (row pos i) (row vel i)))). apply (node_v W). now apply h_v. }
    { apply b_raan, b_node, b_h_p. } { apply b_raan, b_node, b_h_v. }
    destruct (rowwise [s; t; m] (squeeze_last (argument_of_periapsis_nd (node_vec_nd (angular_momentum_nd P V)) (eccentricity_vector_nd P V M)))
      (fun i => argument_of_periapsis (node_vec (angular_momentum (row pos i) (row vel i))) (eccentricity_vector (row pos i) (row vel i) (cell mu i)))) as (ow & Ew & Kw & Vw); [|apply (in3 (fun x => cov x _)); apply sq_cov|exact Cm|].
    { intros W H. apply ub3 in H. destruct H as (? & ? & ?). apply sq_rel; [|eapply bcov0, b_argp; right; apply b_e_p].
      apply (argp_c W _ _ (fun i => node_vec (angular_momentum (row pos i) (row vel i)))); [apply (node_v W); now apply h_v|now apply e_v]. }
    { apply b_argp; right; apply b_e_p. } { apply b_argp; right; apply b_e_v. } { apply b_argp; right; apply b_e_m. }
    destruct (rowwise [s; t; m] (squeeze_last (true_anomaly_nd P (eccentricity_vector_nd P V M)))
      (fun i => true_anomaly (row pos i) (eccentricity_vector (row pos i) (row vel i) (cell mu i)))) as (of & Ef & Kf & Vf); [|apply (in3 (fun x => cov x _)); apply sq_cov|exact Cm|].
    { intros W H. apply ub3 in H. destruct H as (? & ? & ?). apply sq_rel; [|eapply bcov0, b_f; right; apply b_e_p].
      apply (f_c W); [now apply (v_leaf W pos s)|now apply e_v]. }
    { apply b_f; right; apply b_e_p. } { apply b_f; right; apply b_e_v. } { apply b_f; right; apply b_e_m. }
    exists (dims oi), (mkcoe_nd op oe oi oo ow of). split; [exact Ki|].
    unfold rv2coe_nd, Num_arrays. cbv zeta. rewrite Ep, Ee, Ei, Eo, Ew, Ef. cbn [obind]. split; [reflexivity|]. cbn [nd_p nd_e nd_incl nd_raan nd_argp nd_f].
    pose proof (common_unique _ _ _ Kp C) as Dp. pose proof (common_unique _ _ _ Ke C) as De. pose proof (common_unique _ _ _ Kw C) as Dw.
    pose proof (common_unique _ _ _ Kf C) as Df. pose proof (common_unique _ _ _ Ko Ki) as Do.
    split; [exact Dp|]. split; [exact De|]. split; [reflexivity|]. split; [exact Do|]. split; [exact Dw|]. split; [exact Df|].
    intros i Hi. unfold rv2coe. cbv zeta.
    assert (R : forall o, dims o = S -> at_ o i = read o i :> T) by (intros o D; unfold read; rewrite D, pick_id; auto).
    rewrite !R by assumption. now rewrite (Vp S i), (Ve S i), (Vi S i), (Vo S i), (Vw S i), (Vf S i) by assumption.
  Qed.
End Rv.

Section Only.
  Context {T : Type} {N : Num T}.
  Variables (pos vel mu : arr T).
  Lemma rv2coe_only c : rv2coe_nd (Some pos) (Some vel) (Some mu) = Some c ->
    exists s t m, vectors pos s /\ vectors vel t /\ column mu m /\ compatible [s; t; m].
  Proof using.
    unfold rv2coe_nd. cbv zeta. destruct (squeeze_last (@semiparameter _ Num_arrays _ _)) as [p|] eqn:E; [|easy]. intros _.
    apply sq_some in E. destruct E as (o & E & D). unfold semiparameter in E. unnd. cbn [n_div Num_arrays Num_nd] in E.
    pose proof (lift2_some _ _ _ _ E) as (x & y & Ex & Ey & Fx & Fy). injection Ey as <-.
    assert (HH : exists h, angular_momentum_nd (Some pos) (Some vel) = Some h).
    { destruct (angular_momentum_nd (Some pos) (Some vel)) as [h|]; [eauto|]. discriminate Ex. }
    destruct HH as [h Eh]. pose proof (cross_some _ _ _ Eh) as (a & b & s & t & u & Ea & Eb & Da & Db & Dh & Fs & Ft).
    injection Ea as <-. injection Eb as <-. exists s, t.
    assert (B : forall w, bcov w (Some h) -> fits w (dims p)).
    { intros w Hw. assert (B : bcov w (Some o)).
      { rewrite <- E. apply b_lift2l, b_pow, b_norm. now rewrite Eh. }
      destruct (B o eq_refl) as (n & w' & D' & F'). rewrite D in D'. now injection D' as <- <-. }
    assert (Bs : fits s (dims p)) by (apply B; intros q [= <-]; exists 3, u; auto).
    assert (Bt : fits t (dims p)) by (apply B; intros q [= <-]; exists 3, u; auto).
    rewrite D in Fy. destruct (dims mu) as [|n m] eqn:Dm.
    - exists []. split; [exact Da|]. split; [exact Db|]. split; [now right|]. exists (dims p). apply in3; auto; exact I.
    - destruct Fy as [G F]. assert (n = 1) as -> by (destruct G; auto). exists m. split; [exact Da|]. split; [exact Db|]. split; [now left|].
      exists (dims p). now apply in3.
  Qed.
End Only.
