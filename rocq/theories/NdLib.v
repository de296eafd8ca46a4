(** * NdLib: lemmas about broadcasting *)
From Coq Require Import List Arith Lia ZArith Bool.
Import ListNotations.
From Verif Require Import Num Nd SpecNd.

(** ** The order [fits] *)
Lemma fits_refl s : fits s s.
Proof. induction s; cbn; auto. Qed.
Lemma fits_trans s t u : fits s t -> fits t u -> fits s u.
Proof.
  revert t u. induction s as [|a s IH]; intros t u; [easy|]. destruct t as [|b t]; [easy|]. destruct u as [|c u]; [easy|].
  cbn. intros [H1 H2] [H3 H4]. split; [|eauto]. destruct H1 as [-> | ->]; auto.
Qed.
Lemma fits_antisym s t : fits s t -> fits t s -> s = t.
Proof.
  revert t. induction s as [|a s IH]; intros [|b t]; cbn; auto; try easy.
  intros [H1 H2] [H3 H4]. f_equal; auto. destruct H1, H3; congruence.
Qed.
Lemma bcast1_ok a b c : bcast1 a b = Some c -> (a = c \/ a = 1) /\ (b = c \/ b = 1) /\ (c = a \/ c = b).
Proof.
  unfold bcast1. destruct (Nat.eqb_spec a b); [intros [= <-]; auto|].
  destruct (Nat.eqb_spec a 1); [intros [= <-]; auto|]. destruct (Nat.eqb_spec b 1); [intros [= <-]; auto|easy].
Qed.
Lemma bcast1_some a b c : (a = c \/ a = 1) -> (b = c \/ b = 1) -> exists d, bcast1 a b = Some d.
Proof.
  unfold bcast1. destruct (Nat.eqb_spec a b); [eauto|]. destruct (Nat.eqb_spec a 1); [eauto|].
  destruct (Nat.eqb_spec b 1); [eauto|]. intros [|] [|]; lia.
Qed.
Lemma bcast_nil_r s : bcast s [] = Some s.
Proof. destruct s; reflexivity. Qed.
Lemma bcast_l s t u : bcast s t = Some u -> fits s u.
Proof.
  revert t u. induction s as [|a s IH]; intros t u; [easy|]. destruct t as [|b t]; cbn [bcast].
  - intros [= <-]. apply fits_refl.
  - destruct (bcast1 a b) as [c|] eqn:E; [|easy]. destruct (bcast s t) as [w|] eqn:F; [|easy]. intros [= <-].
    cbn. apply bcast1_ok in E. split; [tauto|eauto].
Qed.
Lemma bcast_r s t u : bcast s t = Some u -> fits t u.
Proof.
  revert t u. induction s as [|a s IH]; intros t u.
  - cbn. intros [= <-]. apply fits_refl.
  - destruct t as [|b t]; [easy|]. cbn [bcast].
    destruct (bcast1 a b) as [c|] eqn:E; [|easy]. destruct (bcast s t) as [w|] eqn:F; [|easy]. intros [= <-].
    cbn. apply bcast1_ok in E. split; [tauto|eauto].
Qed.
Lemma bcast_lub s t u S : bcast s t = Some u -> fits s S -> fits t S -> fits u S.
Proof.
  revert t u S. induction s as [|a s IH]; intros t u S.
  - cbn. intros [= <-]. auto.
  - destruct t as [|b t]; [cbn; intros [= <-]; auto|]. cbn [bcast].
    destruct (bcast1 a b) as [c|] eqn:E; [|easy]. destruct (bcast s t) as [w|] eqn:F; [|easy]. intros [= <-].
    destruct S as [|d S]; [easy|]. cbn. intros [H1 H2] [H3 H4]. apply bcast1_ok in E. destruct E as (_ & _ & [-> | ->]); split; eauto.
Qed.
Lemma bcast_some s t S : fits s S -> fits t S -> exists u, bcast s t = Some u.
Proof.
  revert t S. induction s as [|a s IH]; intros t S; [cbn; eauto|]. destruct t as [|b t]; [cbn; eauto|].
  destruct S as [|d S]; [easy|]. cbn. intros [H1 H2] [H3 H4]. destruct (bcast1_some a b d H1 H3) as [c ->].
  destruct (IH t S H2 H4) as [u ->]. eauto.
Qed.
(** Compatibility is a pairwise matter. *)
Lemma bcast1_lub_some a b c d x : bcast1 a b = Some x -> (exists u, bcast1 a d = Some u) -> (exists u, bcast1 b d = Some u) ->
  c = x -> exists u, bcast1 c d = Some u.
Proof.
  intros E [u Hu] [w Hw] ->. apply bcast1_ok in E, Hu, Hw. destruct E as (A & B & [C|C]).
  - subst x. destruct Hu as (H1 & H2 & _). eapply bcast1_some; eauto.
  - subst x. destruct Hw as (H1 & H2 & _). eapply bcast1_some; eauto.
Qed.
Lemma bcast_lub_some s t x w : bcast s t = Some x -> (exists u, bcast s w = Some u) -> (exists u, bcast t w = Some u) ->
  exists u, bcast x w = Some u.
Proof.
  revert t x w. induction s as [|a s IH]; intros t x w.
  - cbn. intros [= <-]. auto.
  - destruct t as [|b t]; [cbn [bcast]; intros [= <-]; auto|]. destruct w as [|d w]; [intros _ _ _; exists x; apply bcast_nil_r|]. cbn [bcast].
    destruct (bcast1 a b) as [c|] eqn:E; [|easy]. destruct (bcast s t) as [y|] eqn:F; [|easy]. intros [= <-] [u Hu] [v Hv].
    destruct (bcast1 a d) as [e|] eqn:G; [|easy]. destruct (bcast s w) as [s'|] eqn:H; [|easy].
    destruct (bcast1 b d) as [e'|] eqn:G'; [|easy]. destruct (bcast t w) as [t'|] eqn:H'; [|easy].
    cbn [bcast]. destruct (bcast1_lub_some a b c d c E (ex_intro _ _ G) (ex_intro _ _ G') eq_refl) as [z ->].
    destruct (IH t y w F (ex_intro _ _ H) (ex_intro _ _ H')) as [q ->]. eauto.
Qed.
Lemma fits_some s t w : fits s t -> (exists u, bcast t w = Some u) -> exists u, bcast s w = Some u.
Proof. intros H [u E]. apply (bcast_some s w u); [|now apply bcast_r in E]. eapply fits_trans; [exact H|]. now apply bcast_l in E. Qed.

(** ** Indices *)
Lemma pick_pick s u i : fits s u -> pick s (pick u i) = pick s i.
Proof.
  revert u i. induction s as [|a s IH]; intros u i; [easy|]. destruct u as [|b u]; [easy|]. cbn. intros [H H'].
  f_equal; [|now apply IH]. destruct (Nat.eqb_spec a 1); auto. destruct (Nat.eqb_spec b 1); auto. destruct H; lia.
Qed.
Lemma pick_id s i : inb s i -> pick s i = i.
Proof.
  intros H. induction H as [|n k s i L H IH]; [reflexivity|]. cbn. rewrite IH. f_equal. destruct (Nat.eqb_spec n 1); lia.
Qed.
Lemma pick_inb s S i : fits s S -> inb S i -> inb s (pick s i).
Proof.
  revert S i. induction s as [|a s IH]; intros S i; [constructor|]. destruct S as [|b S]; [easy|]. cbn. intros [H H'] Hi.
  inversion Hi; subst. constructor; [|eapply IH; eauto]. cbn. destruct (Nat.eqb_spec a 1); [lia|]. destruct H; lia.
Qed.

(** ** Relation with a pointwise function, inside a fixed shape *)
Definition rel {A : Type} (S : list nat) (r : nd A) (f : list nat -> A) : Prop :=
  exists o, r = Some o /\ fits (dims o) S /\ forall i, inb S i -> read o i = f i.
Lemma rel_leaf {A} S (a : arr A) : fits (dims a) S -> rel S (Some a) (read a).
Proof. intros H. exists a. auto. Qed.
Lemma rel_scalar {A} S (c : A) : rel S (scalar c) (fun _ => c).
Proof. exists (mkArr [] (fun _ => c)). now split; [|split]. Qed.
Lemma rel_lift1 {A B} S (g : A -> B) x f : rel S x f -> rel S (lift1 g x) (fun i => g (f i)).
Proof.
  intros (o & -> & H & E). exists (mkArr (dims o) (fun i => g (at_ o i))). split; [reflexivity|]. split; [exact H|].
  intros i Hi. unfold read at 1. cbn [dims at_]. now rewrite <- E.
Qed.
Lemma rel_lift2 {A B C} S (g : A -> B -> C) x y f h : rel S x f -> rel S y h -> rel S (lift2 g x y) (fun i => g (f i) (h i)).
Proof.
  intros (o & -> & H & E) (q & -> & H' & E'). destruct (bcast_some _ _ _ H H') as [u U].
  unfold lift2, obind. rewrite U. eexists. split; [reflexivity|]. cbn [dims]. split; [eapply bcast_lub; eauto|].
  intros i Hi. unfold read at 1. cbn [dims at_]. rewrite <- E, <- E' by auto. unfold read.
  rewrite !pick_pick; [reflexivity| |]; [now apply bcast_r in U|now apply bcast_l in U].
Qed.
Lemma rel_ext {A} S r (f g : list nat -> A) : rel S r f -> (forall i, inb S i -> f i = g i) -> rel S r g.
Proof. intros (o & -> & H & E) X. exists o. split; [reflexivity|]. split; [exact H|]. intros. rewrite E, X; auto. Qed.
Lemma rel_where {A} S c x y (fc : list nat -> bool) (f g : list nat -> A) : rel S c fc -> rel S x f -> rel S y g ->
  rel S (nd_where c x y) (fun i => if fc i then f i else g i).
Proof. intros Hc Hx Hy. exact (rel_lift2 S _ _ _ _ _ Hc (rel_lift2 S _ _ _ _ _ Hx Hy)). Qed.

(** ** Lower bounds on the shape of a result *)
Definition cov {A : Type} (s : list nat) (r : nd A) : Prop := forall o, r = Some o -> fits s (dims o).
Lemma cov_leaf {A} (a : arr A) : cov (dims a) (Some a).
Proof. intros o [= <-]. apply fits_refl. Qed.
Lemma cov_lift1 {A B} s (g : A -> B) x : cov s x -> cov s (lift1 g x).
Proof. intros H o. destruct x as [a|]; [|easy]. intros [= <-]. cbn. now apply H. Qed.
Lemma cov_lift2l {A B C} s (g : A -> B -> C) x y : cov s x -> cov s (lift2 g x y).
Proof.
  intros H o. destruct x as [a|]; [|easy]. destruct y as [b|]; [|easy]. unfold lift2, obind.
  destruct (bcast (dims a) (dims b)) as [u|] eqn:U; [|easy]. intros [= <-]. cbn. eapply fits_trans; [now apply H|]. now apply bcast_l in U.
Qed.
Lemma cov_lift2r {A B C} s (g : A -> B -> C) x y : cov s y -> cov s (lift2 g x y).
Proof.
  intros H o. destruct x as [a|]; [|easy]. destruct y as [b|]; [|easy]. unfold lift2, obind.
  destruct (bcast (dims a) (dims b)) as [u|] eqn:U; [|easy]. intros [= <-]. cbn. eapply fits_trans; [now apply H|]. now apply bcast_r in U.
Qed.
Lemma rel_cov_dims {A} S (r : nd A) f o : rel S r f -> cov S r -> r = Some o -> dims o = S /\ forall i, inb S i -> at_ o i = f i.
Proof.
  intros (q & E & H & V) C ->. injection E as ->. pose proof (fits_antisym _ _ H (C _ eq_refl)) as D. split; [exact D|].
  intros i Hi. rewrite <- V by auto. unfold read. now rewrite D, pick_id.
Qed.

(** ** Elementwise functions *)
Section Elementwise.
  Context {T : Type} {N : Num T}.
  Lemma ew (xs : list (arr T)) (r : nd T) (f : (arr T -> T) -> T) :
    (forall S, (forall x, In x xs -> fits (dims x) S) -> rel S r (fun i => f (fun a => read a i))) ->
    (forall x, In x xs -> cov (dims x) r) -> elementwise xs r f.
  Proof.
    intros H C. unfold elementwise. destruct r as [o|].
    - assert (U : forall x, In x xs -> fits (dims x) (dims o)) by (intros; now apply C).
      split; [split|].
      + intros s Hs. apply in_map_iff in Hs. destruct Hs as [x [<- Hx]]. auto.
      + intros S' HS. destruct (H S') as (q & E & F & _); [|congruence]. intros x Hx. apply HS. now apply in_map.
      + intros i Hi. destruct (H _ U) as (q & E & F & V). injection E as <-. rewrite <- V by auto. unfold read. now rewrite pick_id.
    - intros [S HS]. destruct (H S) as (q & E & _); [|discriminate]. intros x Hx. apply HS. now apply in_map.
  Qed.
  Lemma rel_pow S (x : nd T) f n : rel S x f -> rel S (@npow (nd T) Num_nd x n) (fun i => npow (f i) n).
  Proof.
    unfold npow. intros H.
    assert (G : forall n x f, rel S x f -> (rel S (@npow_aux (nd T) Num_nd None x n) (fun i => npow_aux None (f i) n)) /\
      forall a g, rel S a g -> rel S (@npow_aux (nd T) Num_nd (Some a) x n) (fun i => npow_aux (Some (g i)) (f i) n)).
    { clear. induction n as [n IH|n IH|]; intros x f H; cbn [npow_aux mul_opt].
      - destruct (IH _ _ (rel_lift2 S n_mul x x f f H H)) as [_ B]. split.
        + exact (B x f H).
        + intros a g Ha. exact (B _ _ (rel_lift2 S n_mul a x g f Ha H)).
      - destruct (IH _ _ (rel_lift2 S n_mul x x f f H H)) as [A B]. split; [exact A|exact B].
      - split; [exact H|]. intros a g Ha. exact (rel_lift2 S n_mul a x g f Ha H). }
    apply G. exact H.
  Qed.
  Lemma cov_pow s (x : nd T) n : cov s x -> cov s (@npow (nd T) Num_nd x n).
  Proof.
    unfold npow. intros H.
    assert (G : forall n x, cov s x -> cov s (@npow_aux (nd T) Num_nd None x n) /\
      forall a, cov s a -> cov s (@npow_aux (nd T) Num_nd (Some a) x n)).
    { clear. induction n as [n IH|n IH|]; intros x H; cbn [npow_aux mul_opt].
      - destruct (IH _ (cov_lift2l s n_mul x x H)) as [_ B]. split; [now apply B|].
        intros a Ha. apply B. exact (cov_lift2l s n_mul a x Ha).
      - apply IH. exact (cov_lift2l s n_mul x x H).
      - split; [exact H|]. intros a Ha. exact (cov_lift2l s n_mul a x Ha). }
    apply G. exact H.
  Qed.
End Elementwise.
