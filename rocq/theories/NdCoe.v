(** * NdCoe: batches of matrices and [coe2rv] (proofs for C48) *)
From Coq Require Import List Arith Lia ZArith Bool.
Import ListNotations.
From Verif Require Import Num Nd NdModel SpecNd NdLib NdElem NdVec NdRv RotMat OrbElements.

Section Mat.
  Context {T : Type} {N : Num T}.
  Definition mrel (S : list nat) (r : nd T) (f : list nat -> M3 T) : Prop :=
    exists o s, r = Some o /\ dims o = 3 :: 3 :: s /\ fits s S /\ forall i, inb S i -> matrix o i = f i.
  Definition entry (k l : nat) (A : M3 T) : T := comp l (sel3 k (c0 A) (c1 A) (c2 A)).
  Lemma matrix_at (o : arr T) s i : dims o = 3 :: 3 :: s -> matrix o i =
    let e k l := at_ o (l :: k :: pick s i) in
    mk3 (mk3 (e 0 0) (e 0 1) (e 0 2)) (mk3 (e 1 0) (e 1 1) (e 1 2)) (mk3 (e 2 0) (e 2 1) (e 2 2)).
  Proof using. intros H. unfold matrix, read. rewrite H. reflexivity. Qed.
  Lemma entry_at (o : arr T) s i k l : dims o = 3 :: 3 :: s -> k < 3 -> l < 3 -> at_ o (l :: k :: pick s i) = entry k l (matrix o i).
  Proof using.
    intros H Hk Hl. rewrite (matrix_at o s i H). unfold entry, comp.
    destruct k as [|[|[|]]]; [| | |lia]; (destruct l as [|[|[|]]]; [reflexivity..|lia]).
  Qed.
  Lemma mk_mrel S s (f : list nat -> M3 T) F : fits s S ->
    (forall i k l, inb S i -> k < 3 -> l < 3 -> F (l :: k :: pick s i) = entry k l (f i)) -> mrel S (Some (mkArr (3 :: 3 :: s) F)) f.
  Proof using.
    intros Fs H. exists (mkArr (3 :: 3 :: s) F), s. split; [reflexivity|]. split; [reflexivity|]. split; [exact Fs|].
    intros i Hi. rewrite (matrix_at _ s) by reflexivity. cbv zeta. cbn [at_]. rewrite !H by (auto; lia). unfold entry, comp. cbn [sel3].
    destruct (f i) as [[] [] []]; reflexivity.
  Qed.
  Lemma m_mul S x y f g : mrel S x f -> mrel S y g -> mrel S (matmul x y) (fun i => mmul (f i) (g i)).
  Proof using.
    intros (o & s & -> & D & F & V) (q & t & -> & D' & F' & V'). unfold matmul, obind. rewrite D, D'. cbn [Nat.eqb].
    destruct (bcast_some _ _ _ F F') as [u U]. rewrite U. apply mk_mrel; [eapply bcast_lub; eauto|].
    intros i k l Hi Hk Hl. cbn [hd tl]. rewrite (pick_pick s u), (pick_pick t u) by (eauto using bcast_l, bcast_r).
    cbn [sum_n sum_from]. rewrite !(entry_at o s), !(entry_at q t), V, V' by (auto; lia).
    unfold entry, comp, mmul, vmap3, mcol, vinner. cbn [c0 c1 c2]. 
    destruct k as [|[|[|]]]; [| | |lia]; (destruct l as [|[|[|]]]; [reflexivity..|lia]).
  Qed.
  Lemma m_vec S x y f g : mrel S x f -> vrel S y g -> vrel S (squeeze_last (matmul x (expand_last y))) (fun i => mvec (f i) (g i)).
  Proof using.
    intros (o & s & -> & D & F & V) (q & t & -> & D' & F' & V'). unfold squeeze_last, matmul, expand_last, obind. rewrite D. cbn [dims]. rewrite D'. cbn [Nat.eqb].
    destruct (bcast_some _ _ _ F F') as [u U]. rewrite U. cbn [dims]. apply mk_vrel; [eapply bcast_lub; eauto|].
    intros i k Hi Hk. cbn [hd tl at_]. rewrite (pick_pick s u), (pick_pick t u) by (eauto using bcast_l, bcast_r).
    cbn [sum_n sum_from]. rewrite !(entry_at o s), !(row_comp q t), V, V' by (auto; lia).
    unfold entry, comp, mvec, vmap3, vinner. cbn [c0 c1 c2]. destruct k as [|[|[|]]]; [reflexivity..|lia].
  Qed.
  Lemma stack3_same (a b c : arr T) : dims b = dims a -> dims c = dims a ->
    stack3 (Some a) (Some b) (Some c) = Some (mkArr (3 :: dims a) (fun i => at_ (sel3 (hd 0 i) a b c) (tl i))).
  Proof using. intros H H'. unfold stack3, obind. now rewrite H, H', same_dims_refl. Qed.
  Lemma v_stack3 S s (x y z : nd T) f g h : fits s S -> is s x f -> is s y g -> is s z h ->
    vrel S (stack3 x y z) (fun i => mk3 (f (pick s i)) (g (pick s i)) (h (pick s i))).
  Proof using.
    intros Fs (a & -> & D & V) (b & -> & D' & V') (c & -> & D'' & V''). rewrite stack3_same by congruence.
    rewrite D. apply mk_vrel; [exact Fs|]. intros i k Hi Hk. cbn [hd tl]. pose proof (pick_inb s S i Fs Hi) as Hp.
    destruct k as [|[|[|]]]; cbn [sel3 comp c0 c1 c2]; [now apply V|now apply V'|now apply V''|lia].
  Qed.
  Lemma stack3_is s (x y z : nd T) f g h : is s x f -> is s y g -> is s z h ->
    is (3 :: s) (stack3 x y z) (fun i => sel3 (hd 0 i) (f (tl i)) (g (tl i)) (h (tl i))).
  Proof using.
    intros (a & -> & D & V) (b & -> & D' & V') (c & -> & D'' & V''). rewrite stack3_same by congruence.
    eexists. split; [reflexivity|]. cbn [dims]. rewrite D. split; [reflexivity|]. intros i Hi. inversion Hi; subst. cbn [at_ hd tl].
    match goal with H : ?k < 3 |- _ => destruct k as [|[|[|]]]; [| | |lia] end; cbn [sel3]; auto.
  Qed.
  Lemma m_stack S s (x y z : nd T) f g h : fits s S -> is (3 :: s) x f -> is (3 :: s) y g -> is (3 :: s) z h ->
    mrel S (stack3_2 x y z) (fun i => let e F := mk3 (F (0 :: pick s i)) (F (1 :: pick s i)) (F (2 :: pick s i)) in mk3 (e f) (e g) (e h)).
  Proof using.
    intros Fs (a & -> & D & V) (b & -> & D' & V') (c & -> & D'' & V''). unfold stack3_2, obind. rewrite D, D', D'', same_dims_refl. cbn [andb].
    apply mk_mrel; [exact Fs|]. intros i k l Hi Hk Hl. pose proof (pick_inb s S i Fs Hi) as Hp. cbn [hd tl].
    assert (Hl' : forall l, l < 3 -> inb (3 :: s) (l :: pick s i)) by (intros; now apply inb_cons).
    unfold entry, comp. destruct k as [|[|[|]]]; [| | |lia]; (destruct l as [|[|[|]]]; [| | |lia]); cbn [sel3 c0 c1 c2]; [apply V|apply V|apply V|apply V'|apply V'|apply V'|apply V''|apply V''|apply V'']; apply Hl'; lia.
  Qed.
  Lemma is_leaf1 (a : arr T) (op : T -> T) : is (dims a) (lift1 op (Some a)) (fun i => op (at_ a i)).
  Proof using. eexists. split; [reflexivity|]. split; [reflexivity|]. reflexivity. Qed.
  Lemma is_neg s x f (op : T -> T) : is s x f -> is s (lift1 op x) (fun i => op (f i)).
  Proof using. intros (o & -> & D & V). eexists. split; [reflexivity|]. split; [exact D|]. intros i Hi. cbn. now rewrite V. Qed.
  Lemma m_rotz S (a : arr T) : fits (dims a) S -> mrel S (rotmat3dz_nd (Some a)) (fun i => rotmat3dz (read a i)).
  Proof using.
    intros H. unfold rotmat3dz_nd. unnd. unfold full_like.
    pose proof (m_stack S (dims a) _ _ _ _ _ _ H
      (stack3_is _ _ _ _ _ _ _ (is_leaf1 a n_cos) (is_neg _ _ _ n_neg (is_leaf1 a n_sin)) (is_leaf1 a (fun _ => n_Z 0)))
      (stack3_is _ _ _ _ _ _ _ (is_leaf1 a n_sin) (is_leaf1 a n_cos) (is_leaf1 a (fun _ => n_Z 0)))
      (stack3_is _ _ _ _ _ _ _ (is_leaf1 a (fun _ => n_Z 0)) (is_leaf1 a (fun _ => n_Z 0)) (is_leaf1 a (fun _ => n_Z 1)))) as K.
    exact K.
  Qed.
  Lemma m_rotx S (a : arr T) : fits (dims a) S -> mrel S (rotmat3dx_nd (Some a)) (fun i => rotmat3dx (read a i)).
  Proof using.
    intros H. unfold rotmat3dx_nd. unnd. unfold full_like.
    pose proof (m_stack S (dims a) _ _ _ _ _ _ H
      (stack3_is _ _ _ _ _ _ _ (is_leaf1 a (fun _ => n_Z 1)) (is_leaf1 a (fun _ => n_Z 0)) (is_leaf1 a (fun _ => n_Z 0)))
      (stack3_is _ _ _ _ _ _ _ (is_leaf1 a (fun _ => n_Z 0)) (is_leaf1 a n_cos) (is_neg _ _ _ n_neg (is_leaf1 a n_sin)))
      (stack3_is _ _ _ _ _ _ _ (is_leaf1 a (fun _ => n_Z 0)) (is_leaf1 a n_sin) (is_leaf1 a n_cos))) as K.
    exact K.
  Qed.
  Lemma m_roty S (a : arr T) : fits (dims a) S -> mrel S (rotmat3dy_nd (Some a)) (fun i => rotmat3dy (read a i)).
  Proof using.
    intros H. unfold rotmat3dy_nd. unnd. unfold full_like.
    pose proof (m_stack S (dims a) _ _ _ _ _ _ H
      (stack3_is _ _ _ _ _ _ _ (is_leaf1 a n_cos) (is_leaf1 a (fun _ => n_Z 0)) (is_leaf1 a n_sin))
      (stack3_is _ _ _ _ _ _ _ (is_leaf1 a (fun _ => n_Z 0)) (is_leaf1 a (fun _ => n_Z 1)) (is_leaf1 a (fun _ => n_Z 0)))
      (stack3_is _ _ _ _ _ _ _ (is_neg _ _ _ n_neg (is_leaf1 a n_sin)) (is_leaf1 a (fun _ => n_Z 0)) (is_leaf1 a n_cos))) as K.
    exact K.
  Qed.
  Lemma m_dims S (r : nd T) f o : mrel S r f -> r = Some o -> cov (3 :: 3 :: S) r -> matrices o S /\ forall i, inb S i -> matrix o i = f i.
  Proof using.
    intros (q & s & E & D & F & V) E' C. rewrite E in E'. injection E' as <-. pose proof (C _ E) as K. rewrite D in K. destruct K as [_ [_ K]].
    pose proof (fits_antisym _ _ F K) as ->. auto.
  Qed.
  Lemma rot_dims (a : arr T) : exists x y z, rotmat3dx_nd (Some a) = Some x /\ rotmat3dy_nd (Some a) = Some y /\ rotmat3dz_nd (Some a) = Some z /\
    matrices x (dims a) /\ matrices y (dims a) /\ matrices z (dims a).
  Proof using.
    unfold rotmat3dx_nd, rotmat3dy_nd, rotmat3dz_nd. unnd. unfold full_like, lift1, obind.
    rewrite !stack3_same by reflexivity. unfold stack3_2, obind. cbn [dims]. rewrite same_dims_refl. cbn [andb].
    do 3 eexists. repeat (split; [reflexivity|]). reflexivity.
  Qed.
  Lemma rot_rows (a : arr T) : exists x y z, rotmat3dx_nd (Some a) = Some x /\ rotmat3dy_nd (Some a) = Some y /\ rotmat3dz_nd (Some a) = Some z /\
    matrices x (dims a) /\ matrices y (dims a) /\ matrices z (dims a) /\
    forall i, inb (dims a) i -> matrix x i = rotmat3dx (at_ a i) /\ matrix y i = rotmat3dy (at_ a i) /\ matrix z i = rotmat3dz (at_ a i).
  Proof using.
    destruct (rot_dims a) as (x & y & z & X & Y & Z & Dx & Dy & Dz). exists x, y, z. repeat (split; [assumption|]).
    intros i Hi. pose proof (fits_refl (dims a)) as F.
    destruct (m_rotx _ a F) as (x' & ? & X' & _ & _ & Vx). destruct (m_roty _ a F) as (y' & ? & Y' & _ & _ & Vy). destruct (m_rotz _ a F) as (z' & ? & Z' & _ & _ & Vz).
    rewrite X in X'. injection X' as <-. rewrite Y in Y'. injection Y' as <-. rewrite Z in Z'. injection Z' as <-.
    assert (R : read a i = at_ a i) by (unfold read; now rewrite pick_id). rewrite <- R. auto.
  Qed.

  (** Lower bounds. *)
  Definition mcov (s : list nat) (r : nd T) : Prop := forall o, r = Some o -> exists n k u, dims o = n :: k :: u /\ fits s u.
  Lemma mb_matmul s x y : mcov s x \/ mcov s y -> mcov s (matmul x y).
  Proof using.
    intros H o. destruct x as [a|]; [|easy]. destruct y as [b|]; [|easy]. unfold matmul, obind.
    destruct (dims a) as [|k [|l v]] eqn:D; try easy. destruct (dims b) as [|n [|k' w]] eqn:D'; try easy.
    destruct (k =? k'); [|easy]. destruct (bcast v w) as [u|] eqn:U; [|easy]. intros [= <-]. cbn. exists n, l, u. split; [reflexivity|].
    destruct H as [H|H].
    - destruct (H a eq_refl) as (n' & l' & u' & D2 & F). rewrite D in D2. injection D2 as <- <- <-. eapply fits_trans; [exact F|]. now apply bcast_l in U.
    - destruct (H b eq_refl) as (n' & l' & u' & D2 & F). rewrite D' in D2. injection D2 as <- <- <-. eapply fits_trans; [exact F|]. now apply bcast_r in U.
  Qed.
  Lemma mb_rot (a : arr T) : mcov (dims a) (rotmat3dx_nd (Some a)) /\ mcov (dims a) (rotmat3dz_nd (Some a)).
  Proof using.
    destruct (rot_dims a) as (x & y & z & X & Y & Z & Dx & Dy & Dz). rewrite X, Z. split; intros o [= <-]; exists 3, 3, (dims a); split; auto using fits_refl.
  Qed.
  Lemma mb_expand s x : bcov s x -> mcov s (expand_last x).
  Proof using. intros H o. destruct x as [a|]; [|easy]. intros [= <-]. destruct (H a eq_refl) as (n & u & D & F). exists 1, n, u. cbn. now rewrite D. Qed.
  Lemma b_squeeze s x : mcov s x -> bcov s (squeeze_last x).
  Proof using.
    intros H o. destruct x as [a|]; [|easy]. destruct (H a eq_refl) as (n & k & u & D & F). unfold squeeze_last, obind. rewrite D.
    destruct n as [|[|n]]; try easy. intros [= <-]. cbn. eauto.
  Qed.
  Lemma b_expand s (x : nd T) : cov s x -> bcov s (expand_last x).
  Proof using. intros H o. destruct x as [a|]; [|easy]. intros [= <-]. exists 1, (dims a). cbn. split; [reflexivity|]. now apply H. Qed.
  Lemma c_expand S (x : nd T) f : rel S x f -> crel S (expand_last x) f.
  Proof using.
    intros (o & -> & F & V). eexists. split; [reflexivity|]. cbn [dims]. split; [cbn; auto|]. intros i Hi. apply inb1 in Hi. destruct Hi as (j & -> & Hj).
    unfold read. cbn. rewrite <- V by auto. reflexivity.
  Qed.
  Lemma b_stack3 (x y z : nd T) a : x = Some a -> bcov (dims a) (stack3 x y z).
  Proof using.
    intros -> o. destruct y as [b|]; [|easy]. destruct z as [c|]; [|easy]. unfold stack3, obind. destruct (same_dims _ _ && same_dims _ _); [|easy].
    intros [= <-]. exists 3, (dims a). split; [reflexivity|apply fits_refl].
  Qed.
  Lemma stack3_some (x y z : nd T) o : stack3 x y z = Some o -> exists a b c, x = Some a /\ y = Some b /\ z = Some c /\ dims b = dims a /\ dims c = dims a.
  Proof using.
    destruct x as [a|]; [|easy]. destruct y as [b|]; [|easy]. destruct z as [c|]; [|easy]. unfold stack3, obind.
    destruct (same_dims (dims a) (dims b)) eqn:E; [|easy]. destruct (same_dims (dims a) (dims c)) eqn:E'; [|easy]. intros _.
    apply same_dims_eq in E, E'. exists a, b, c. auto.
  Qed.
End Mat.

Section Coe.
  Context {T : Type} {N : Num T}.
  Variables p e incl raan argp f mu : arr T.
  Notation P := (Some p). Notation E := (Some e). Notation I := (Some incl). Notation O := (Some raan). Notation W := (Some argp). Notation F := (Some f). Notation M := (Some mu).
  Definition r_pf : nd T := lift2 n_mul (expand_last (lift2 n_div P (lift2 n_add (scalar (n_Z 1)) (lift2 n_mul E (lift1 n_cos F)))))
    (stack3 (lift1 n_cos F) (lift1 n_sin F) (full_like (n_Z 0) F)).
  Definition v_pf : nd T := lift2 n_mul (expand_last (lift1 n_sqrt (lift2 n_div M P)))
    (stack3 (lift1 n_neg (lift1 n_sin F)) (lift2 n_add E (lift1 n_cos F)) (full_like (n_Z 0) F)).
  Definition rot : nd T := matmul (matmul (rotmat3dz_nd O) (rotmat3dx_nd I)) (rotmat3dz_nd W).
  Lemma coe2rv_eq : coe2rv_nd P E I O W F M = obind (squeeze_last (matmul rot (expand_last r_pf)))
    (fun r => obind (squeeze_last (matmul rot (expand_last v_pf))) (fun v => Some (r, v))).
  Proof using. reflexivity. Qed.
  Notation shapes := (map dims [p; e; incl; raan; argp; f; mu]).
  Notation shapes_r := (map dims [p; e; incl; raan; argp; f]).
  Lemma upr S : ub shapes_r S -> fits (dims p) S /\ fits (dims e) S /\ fits (dims incl) S /\ fits (dims raan) S /\ fits (dims argp) S /\ fits (dims f) S.
  Proof using. intros H. repeat split; apply H; cbn; tauto. Qed.
  Lemma rot_m S : fits (dims incl) S -> fits (dims raan) S -> fits (dims argp) S ->
    mrel S rot (fun i => mmul (mmul (rotmat3dz (read raan i)) (rotmat3dx (read incl i))) (rotmat3dz (read argp i))).
  Proof using.
    intros H1 H2 H3. apply (m_mul S _ _ (fun i => mmul (rotmat3dz (read raan i)) (rotmat3dx (read incl i)))); [|now apply m_rotz].
    apply (m_mul S _ _ (fun i => rotmat3dz (read raan i)) (fun i => rotmat3dx (read incl i))); [now apply m_rotz|now apply m_rotx].
  Qed.
  Definition at7 i := coe2rv (read p i) (read e i) (read incl i) (read raan i) (read argp i) (read f i) (read mu i).
  Lemma r_up S : ub shapes_r S -> vrel S (squeeze_last (matmul rot (expand_last r_pf))) (fun i => fst (at7 i)).
  Proof using.
    intros H. apply upr in H. destruct H as (Hp & He & Hi & HO & Hw & Hf). apply (m_vec S); [now apply rot_m|].
    apply (v_lift2c' S n_mul _ _ (fun i => mk3 (n_cos (read f i)) (n_sin (read f i)) (n_Z 0))
      (fun i => n_div (read p i) (n_add (n_Z 1) (n_mul (read e i) (n_cos (read f i)))))).
    - apply c_expand. rels; auto.
    - exact (v_stack3 S (dims f) _ _ _ _ _ _ Hf (is_leaf1 f n_cos) (is_leaf1 f n_sin) (is_leaf1 f (fun _ => n_Z 0))).
  Qed.
  Lemma v_up S : ub shapes S -> fits (dims e) (dims f) -> vrel S (squeeze_last (matmul rot (expand_last v_pf))) (fun i => snd (at7 i)).
  Proof using.
    intros H Hef. assert (H' : ub shapes_r S) by (intros x Hx; apply H; cbn in *; tauto).
    apply upr in H'. destruct H' as (Hp & He & Hi & HO & Hw & Hf). assert (Hm : fits (dims mu) S) by (apply H; cbn; tauto).
    apply (m_vec S); [now apply rot_m|].
    apply (v_lift2c' S n_mul _ _ (fun i => mk3 (n_neg (n_sin (read f i))) (n_add (read e i) (n_cos (read f i))) (n_Z 0))
      (fun i => n_sqrt (n_div (read mu i) (read p i)))).
    - apply c_expand. rels; auto.
    - assert (K : is (dims f) (lift2 n_add E (lift1 n_cos F)) (fun i => n_add (read e i) (n_cos (read f i)))).
      { apply rel_is; [|apply cov_lift2r, cov_lift1, cov_leaf]. rels; [exact Hef|apply fits_refl]. }
      destruct (v_stack3 S (dims f) _ _ _ _ _ _ Hf (is_neg _ _ _ n_neg (is_leaf1 f n_sin)) K (is_leaf1 f (fun _ => n_Z 0))) as (o & s & Eo & D & Fo & V).
      exists o, s. split; [exact Eo|]. split; [exact D|]. split; [exact Fo|]. intros i Hx. rewrite V by exact Hx. unfold read.
      now rewrite (pick_pick (dims e)), (pick_pick (dims f)) by (auto using fits_refl).
  Qed.
  Lemma b_rot s : s = dims incl \/ s = dims raan \/ s = dims argp -> mcov s rot.
  Proof using.
    intros [-> | [-> | ->]]; apply mb_matmul.
    - left. apply mb_matmul. right. apply mb_rot.
    - left. apply mb_matmul. left. apply mb_rot.
    - right. apply mb_rot.
  Qed.
  Lemma b_out s (v : nd T) : mcov s rot \/ bcov s v -> bcov s (squeeze_last (matmul rot (expand_last v))).
  Proof using. intros [H|H]; apply b_squeeze, mb_matmul; [now left|right; now apply mb_expand]. Qed.
  Lemma b_r s : In s shapes_r -> bcov s (squeeze_last (matmul rot (expand_last r_pf))).
  Proof using.
    intros H. cbn in H. apply b_out. destruct H as [<-|[<-|[<-|[<-|[<-|[<-|[]]]]]]].
    - right. apply b_lift2l, b_expand. covs.
    - right. apply b_lift2l, b_expand. covs.
    - left. apply b_rot. auto.
    - left. apply b_rot. auto.
    - left. apply b_rot. auto.
    - right. apply b_lift2l, b_expand. covs.
  Qed.
  Lemma b_v s : fits (dims e) (dims f) -> In s shapes -> bcov s (squeeze_last (matmul rot (expand_last v_pf))).
  Proof using.
    intros Hef H. cbn in H. apply b_out.
    assert (Bf : bcov (dims f) v_pf).
    { apply b_lift2r. exact (b_stack3 (lift1 n_neg (lift1 n_sin F)) _ _ (mkArr (dims f) (fun i => n_neg (n_sin (at_ f i)))) eq_refl). }
    destruct H as [<-|[<-|[<-|[<-|[<-|[<-|[<-|[]]]]]]]].
    - right. apply b_lift2l, b_expand. covs.
    - right. intros o Eo. destruct (Bf o Eo) as (n & u & D & Fu). exists n, u. split; [exact D|]. eapply fits_trans; eauto.
    - left. apply b_rot. auto.
    - left. apply b_rot. auto.
    - left. apply b_rot. auto.
    - right. exact Bf.
    - right. apply b_lift2l, b_expand. covs.
  Qed.
  Lemma coe2rv_rows : compatible shapes -> fits (dims e) (dims f) -> exists r v U S, coe2rv_nd P E I O W F M = Some (r, v) /\
    vectors r U /\ common shapes_r U /\ vectors v S /\ common shapes S /\
    forall i, inb S i -> (row r i, row v i) = at7 i.
  Proof using.
    intros C Hef. assert (Cr : compatible shapes_r) by (apply (compat_sub _ _ C); intros x; cbn; tauto).
    destruct (vrowwise shapes_r _ _ r_up b_r Cr) as (r & U & Er & Dr & Kr & Vr).
    destruct (vrowwise shapes _ _ (fun S H => v_up S H Hef) (fun s => b_v s Hef) C) as (v & S & Ev & Dv & Kv & Vv).
    exists r, v, U, S. rewrite coe2rv_eq, Er, Ev. cbn [obind]. repeat (split; [solve [auto]|]).
    intros i Hi. assert (H : ub shapes S) by exact (proj1 Kv). assert (H' : ub shapes_r S) by (intros x Hx; apply H; cbn in *; tauto).
    rewrite (Vr S i H' Hi), (Vv S i H Hi). symmetry. apply surjective_pairing.
  Qed.
  Lemma coe2rv_only o : coe2rv_nd P E I O W F M = Some o -> compatible shapes /\ fits (dims e) (dims f).
  Proof using.
    rewrite coe2rv_eq. destruct (squeeze_last (matmul rot (expand_last r_pf))) as [r|] eqn:Er; [|easy]. cbn [obind].
    destruct (squeeze_last (matmul rot (expand_last v_pf))) as [v|] eqn:Ev; [|easy]. intros _.
    assert (Hef : fits (dims e) (dims f)).
    { assert (X : exists q, v_pf = Some q). { destruct v_pf as [q|]; [eauto|]. exfalso. revert Ev. unfold expand_last, obind. now destruct rot. }
      destruct X as [q Eq]. apply lift2_some in Eq. destruct Eq as (_ & y & _ & Ey & _). apply stack3_some in Ey.
      destruct Ey as (a & b & c & Ea & Eb & _ & Dab & _). injection Ea as <-. cbn [dims] in Dab.
      apply lift2_some in Eb. destruct Eb as (a' & b' & Ea' & Eb' & Fa & _). injection Ea' as <-. now rewrite Dab in Fa. }
    split; [|exact Hef]. destruct (b_v (dims f) Hef ltac:(cbn; tauto) v Ev) as (n & u & D & _). exists u.
    intros s Hs. destruct (b_v s Hef Hs v Ev) as (n' & u' & D' & Fs). rewrite D in D'. now injection D' as <- <-.
  Qed.
End Coe.
