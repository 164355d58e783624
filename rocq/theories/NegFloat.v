(** * NegFloat: binary64 is symmetric about zero (lemmas). *)
From Flocq Require Import Core BinarySingleNaN.
From Coq Require Import Reals Lra.
From Verif Require Import PyFacts Emd Spec Float64 Float64Proofs EmdSym NegGen NegEmd NegSpec.
From Coq Require Import ZifyBool ZifyNat Lia.
From Coq Require Import List Lra.
Import ListNotations.
Open Scope Z_scope.

Notation mult64 := (Bmult mode_NE : f64 -> f64 -> f64).
Notation div64 := (Bdiv mode_NE : f64 -> f64 -> f64).
Notation plus64 := (Bplus mode_NE : f64 -> f64 -> f64).
Notation minus64 := (Bminus mode_NE : f64 -> f64 -> f64).

Lemma inf_of (z : f64) s : B2SF z = binary_overflow 53 1024 mode_NE s -> z = B754_infinity s.
Proof. cbn. destruct z; cbn; congruence. Qed.
Lemma neg_fin (x y : f64) : is_finite x = true -> is_finite y = true -> (B2R y = - B2R x)%R -> negative x y.
Proof.
  intros Fx Fy E. destruct (Req_dec (B2R x) 0) as [Z|Z].
  - right. rewrite Z, Ropp_0 in E. 
    assert (G : forall u : f64, is_finite u = true -> B2R u = 0%R -> exists s, u = B754_zero s).
    { intros [s|s| |s m e b] F; try discriminate; eauto. cbn [B2R]. intros X. apply eq_0_F2R in X. destruct s; discriminate. }
    destruct (G x Fx Z) as (s & ->). destruct (G y Fy E) as (t & ->). eauto.
  - left. apply B2R_Bsign_inj; auto.
    + rewrite is_finite_Bopp. auto.
    + rewrite B2R_Bopp. auto.
    + rewrite Bsign_Bopp by (destruct x; auto; discriminate).
      destruct (Bsign x) eqn:Sx, (Bsign y) eqn:Sy; auto; exfalso.
      * pose proof (bsign_neg x Fx Sx). pose proof (bsign_neg y Fy Sy). lra.
      * pose proof (bsign_pos x Fx Sx). pose proof (bsign_pos y Fy Sy). lra.
Qed.
Lemma mult_opp_l (x y : f64) : mult64 (Bopp x) y = Bopp (mult64 x y).
Proof.
  destruct x as [sx|sx| |sx mx ex bx], y as [sy|sy| |sy my ey by']; try (cbn; destruct sx, sy; reflexivity); try reflexivity.
  set (x := B754_finite sx mx ex bx : f64). set (y := B754_finite sy my ey by' : f64).
  pose proof (Bmult_correct 53 1024 _ _ mode_NE x y) as H1. pose proof (Bmult_correct 53 1024 _ _ mode_NE (Bopp x) y) as H2.
  rewrite B2R_Bopp, <- Ropp_mult_distr_l in H2. cbn [round_mode] in *. rewrite round_NE_opp, Rabs_Ropp in H2.
  destruct (Rlt_bool _ _).
  - destruct H1 as (V1 & F1 & S1). destruct H2 as (V2 & F2 & S2).
    assert (G1 : is_finite (mult64 x y) = true) by (rewrite F1; reflexivity). assert (G2 : is_finite (mult64 (Bopp x) y) = true) by (rewrite F2; reflexivity).
    assert (N : forall z : f64, is_finite z = true -> is_nan z = false) by (intros []; auto; discriminate).
    apply B2R_Bsign_inj; auto.
    + rewrite is_finite_Bopp. auto.
    + rewrite B2R_Bopp. etransitivity; [exact V2|]. f_equal. symmetry. exact V1.
    + rewrite Bsign_Bopp by auto. rewrite S1, S2 by auto. cbn. destruct sx, sy; reflexivity.
  - apply inf_of in H1, H2. rewrite H2. transitivity (Bopp (B754_infinity (xorb (Bsign x) (Bsign y)) : f64)); [cbn; destruct sx, sy; reflexivity|]. f_equal. symmetry. exact H1.
Qed.
Lemma mult_comm64 (x y : f64) : mult64 x y = mult64 y x.
Proof.
  destruct x as [sx|sx| |sx mx ex bx], y as [sy|sy| |sy my ey by']; try (cbn; destruct sx, sy; reflexivity); try reflexivity.
  set (x := B754_finite sx mx ex bx : f64). set (y := B754_finite sy my ey by' : f64).
  pose proof (Bmult_correct 53 1024 _ _ mode_NE x y) as H1. pose proof (Bmult_correct 53 1024 _ _ mode_NE y x) as H2.
  rewrite (Rmult_comm (B2R y)) in H2. destruct (Rlt_bool _ _).
  - destruct H1 as (V1 & F1 & S1). destruct H2 as (V2 & F2 & S2).
    assert (G1 : is_finite (mult64 x y) = true) by (rewrite F1; reflexivity). assert (G2 : is_finite (mult64 y x) = true) by (rewrite F2; reflexivity).
    assert (N : forall z : f64, is_finite z = true -> is_nan z = false) by (intros []; auto; discriminate).
    apply B2R_Bsign_inj; auto.
    + etransitivity; [exact V1|]. symmetry. exact V2.
    + rewrite S1, S2 by auto. apply xorb_comm.
  - apply inf_of in H1, H2. rewrite H1, H2, xorb_comm. reflexivity.
Qed.
Lemma div_opp_l (x y : f64) : div64 (Bopp x) y = Bopp (div64 x y).
Proof.
  destruct x as [sx|sx| |sx mx ex bx], y as [sy|sy| |sy my ey by']; try (cbn; destruct sx, sy; reflexivity); try reflexivity.
  set (x := B754_finite sx mx ex bx : f64). set (y := B754_finite sy my ey by' : f64).
  assert (Hy : B2R y <> 0%R) by (cbn [y B2R]; intros X; apply eq_0_F2R in X; destruct sy; discriminate).
  pose proof (Bdiv_correct 53 1024 _ _ mode_NE x y Hy) as H1. pose proof (Bdiv_correct 53 1024 _ _ mode_NE (Bopp x) y Hy) as H2.
  rewrite B2R_Bopp in H2. replace (- B2R x / B2R y)%R with (- (B2R x / B2R y))%R in H2 by (field; auto).
  cbn [round_mode] in *. rewrite round_NE_opp, Rabs_Ropp in H2.
  destruct (Rlt_bool _ _).
  - destruct H1 as (V1 & F1 & S1). destruct H2 as (V2 & F2 & S2).
    assert (G1 : is_finite (div64 x y) = true) by (rewrite F1; reflexivity). assert (G2 : is_finite (div64 (Bopp x) y) = true) by (rewrite F2; reflexivity).
    assert (N : forall z : f64, is_finite z = true -> is_nan z = false) by (intros []; auto; discriminate).
    apply B2R_Bsign_inj; auto.
    + rewrite is_finite_Bopp. auto.
    + rewrite B2R_Bopp. etransitivity; [exact V2|]. f_equal. symmetry. exact V1.
    + rewrite Bsign_Bopp by auto. rewrite S1, S2 by auto. cbn. destruct sx, sy; reflexivity.
  - apply inf_of in H1, H2. rewrite H2. transitivity (Bopp (B754_infinity (xorb (Bsign x) (Bsign y)) : f64)); [cbn; destruct sx, sy; reflexivity|]. f_equal. symmetry. exact H1.
Qed.
Lemma div_opp_r (x y : f64) : div64 x (Bopp y) = Bopp (div64 x y).
Proof.
  destruct x as [sx|sx| |sx mx ex bx], y as [sy|sy| |sy my ey by']; try (cbn; destruct sx, sy; reflexivity); try reflexivity.
  set (x := B754_finite sx mx ex bx : f64). set (y := B754_finite sy my ey by' : f64).
  assert (Hy : B2R y <> 0%R) by (cbn [y B2R]; intros X; apply eq_0_F2R in X; destruct sy; discriminate).
  assert (Hy' : B2R (Bopp y) <> 0%R) by (rewrite B2R_Bopp; lra).
  pose proof (Bdiv_correct 53 1024 _ _ mode_NE x y Hy) as H1. pose proof (Bdiv_correct 53 1024 _ _ mode_NE x (Bopp y) Hy') as H2.
  rewrite B2R_Bopp in H2. replace (B2R x / - B2R y)%R with (- (B2R x / B2R y))%R in H2 by (field; auto).
  cbn [round_mode] in *. rewrite round_NE_opp, Rabs_Ropp in H2.
  destruct (Rlt_bool _ _).
  - destruct H1 as (V1 & F1 & S1). destruct H2 as (V2 & F2 & S2).
    assert (G1 : is_finite (div64 x y) = true) by (rewrite F1; reflexivity). assert (G2 : is_finite (div64 x (Bopp y)) = true) by (rewrite F2; reflexivity).
    assert (N : forall z : f64, is_finite z = true -> is_nan z = false) by (intros []; auto; discriminate).
    apply B2R_Bsign_inj; auto.
    + rewrite is_finite_Bopp. auto.
    + rewrite B2R_Bopp. etransitivity; [exact V2|]. f_equal. symmetry. exact V1.
    + rewrite Bsign_Bopp by auto. rewrite S1, S2 by auto. cbn. destruct sx, sy; reflexivity.
  - apply inf_of in H1, H2. rewrite H2. transitivity (Bopp (B754_infinity (xorb (Bsign x) (Bsign y)) : f64)); [cbn; destruct sx, sy; reflexivity|]. f_equal. symmetry. exact H1.
Qed.
Lemma plus_comm64 (x y : f64) : plus64 x y = plus64 y x.
Proof.
  destruct x as [sx|sx| |sx mx ex bx], y as [sy|sy| |sy my ey by']; try (cbn; destruct sx, sy; reflexivity); try reflexivity.
  cbn. unfold Fplus_naive. rewrite (Z.min_comm ex), Z.add_comm. reflexivity.
Qed.
Lemma plus_opp (x y : f64) : negative (plus64 x y) (plus64 (Bopp x) (Bopp y)).
Proof.
  destruct x as [sx|sx| |sx mx ex bx], y as [sy|sy| |sy my ey by']; try (left; reflexivity); try (right; cbn; destruct sx, sy; cbn; eauto; fail).
  - cbn. destruct sx, sy; cbn; left; reflexivity.
  - set (x := B754_finite sx mx ex bx : f64). set (y := B754_finite sy my ey by' : f64).
    pose proof (Bplus_correct 53 1024 _ _ mode_NE x y eq_refl eq_refl) as H1. pose proof (Bplus_correct 53 1024 _ _ mode_NE (Bopp x) (Bopp y) eq_refl eq_refl) as H2.
    rewrite !B2R_Bopp, <- Ropp_plus_distr in H2. cbn [round_mode] in *. rewrite round_NE_opp, Rabs_Ropp in H2.
    destruct (Rlt_bool _ _).
    + destruct H1 as (V1 & F1 & _). destruct H2 as (V2 & F2 & _). apply neg_fin; auto. etransitivity; [exact V2|]. f_equal. symmetry. exact V1.
    + destruct H1 as [H1 _]. destruct H2 as [H2 _]. apply inf_of in H1, H2. left. etransitivity; [exact H2|]. symmetry. transitivity (Bopp (B754_infinity (Bsign x) : f64)); [f_equal; exact H1|reflexivity].
Qed.
Lemma minus_plus (x y : f64) : minus64 x y = plus64 x (Bopp y).
Proof. destruct x, y; reflexivity. Qed.
Lemma opp_opp (x : f64) : Bopp (Bopp x) = x.
Proof. apply Bopp_involutive. Qed.

Lemma negative_sym x y : negative x y -> negative y x.
Proof. intros [->|(s & t & -> & ->)]; [left; symmetry; apply opp_opp|right; eauto]. Qed.
(** Equal up to the sign of zero. *)
Definition eqz (x y : f64) : Prop := y = x \/ (exists s t, x = B754_zero s /\ y = B754_zero t).
Lemma neg_neg x y z : negative x y -> negative y z -> eqz x z.
Proof.
  intros [->|(s & t & -> & ->)] [->|(s' & t' & E & ->)].
  - left. apply opp_opp.
  - right. destruct x as [sx|sx| |sx mx ex bx]; try discriminate. eauto.
  - right. cbn. eauto.
  - right. eauto.
Qed.
Lemma eqz_neg x y z : eqz x y -> negative y z -> negative x z.
Proof.
  intros [->|(s & t & -> & ->)]; auto. intros [->|(s' & t' & E & ->)]; right; cbn; eauto.
Qed.
Lemma neg_eqz x y z : negative x y -> eqz y z -> negative x z.
Proof. intros H1 [->|(s & t & -> & ->)]; auto. destruct H1 as [E|(s' & t' & -> & E)]; right; eauto. destruct x as [sx|sx| |sx mx ex bx]; try discriminate. eauto. Qed.

(** Zeros do not matter. *)
Lemma plus_zero s (x : f64) : eqz x (plus64 x (B754_zero s)).
Proof. destruct x as [sx|sx| |sx mx ex bx]; try (left; reflexivity). right. cbn. destruct sx, s; cbn; eauto. Qed.
Lemma plus_neg x x' y y' : negative x x' -> negative y y' -> negative (plus64 x y) (plus64 x' y').
Proof.
  intros [->|(s & t & -> & ->)] [->|(s' & t' & -> & ->)].
  - apply plus_opp.
  - apply (eqz_neg _ x).
    + destruct (plus_zero s' x) as [E|(a & b & E1 & E2)]; [left; auto|right; rewrite E2; eauto].
    + apply (neg_eqz _ (Bopp x)); [left; reflexivity|apply plus_zero].
  - rewrite (plus_comm64 (B754_zero s)), (plus_comm64 (B754_zero t)). apply (eqz_neg _ y).
    + destruct (plus_zero s y) as [E|(a & b & E1 & E2)]; [left; auto|right; rewrite E2; eauto].
    + apply (neg_eqz _ (Bopp y)); [left; reflexivity|apply plus_zero].
  - right. cbn. destruct s, s', t, t'; cbn; eauto.
Qed.
Lemma opp_neg x x' : negative x x' -> negative (Bopp x) (Bopp x').
Proof. intros [->|(s & t & -> & ->)]; [left; reflexivity|right; cbn; eauto]. Qed.
Lemma minus_neg x x' y y' : negative x x' -> negative y y' -> negative (minus64 x y) (minus64 x' y').
Proof. intros H1 H2. rewrite !minus_plus. apply plus_neg; auto. apply opp_neg. auto. Qed.
Lemma minus_anti (x y : f64) : negative (minus64 x y) (minus64 y x).
Proof. rewrite !minus_plus, (plus_comm64 y). pose proof (plus_opp x (Bopp y)) as G. rewrite opp_opp in G. exact G. Qed.

Lemma mult_neg_l c x x' : negative x x' -> negative (mult64 x c) (mult64 x' c).
Proof.
  intros [->|(s & t & -> & ->)]; [left; apply mult_opp_l|]. destruct c as [sc|sc| |sc mc ec bc]; cbn; try (right; eauto; fail); left; reflexivity.
Qed.
Lemma mult_neg_r c x x' : negative x x' -> negative (mult64 c x) (mult64 c x').
Proof. rewrite !(mult_comm64 c). apply mult_neg_l. Qed.
Lemma div_neg c x x' : negative x x' -> negative (div64 x c) (div64 x' c).
Proof.
  intros [->|(s & t & -> & ->)]; [left; apply div_opp_l|]. destruct c as [sc|sc| |sc mc ec bc]; cbn; try (right; eauto; fail); left; reflexivity.
Qed.

Lemma ltb_neg (x x' y y' : f64) : negative x x' -> negative y y' -> Bltb x' y' = Bltb y x.
Proof.
  intros [->|(s & t & -> & ->)] [->|(s' & t' & -> & ->)]; try reflexivity;
    try (destruct x as [sx|[]| |[] mx ex bx]; reflexivity); try (destruct y as [sy|[]| |[] my ey by']; reflexivity).
  destruct x as [sx|[]| |sx mx ex bx], y as [sy|[]| |sy my ey by']; try reflexivity; try (destruct sx; reflexivity); try (destruct sy; reflexivity).
  rewrite !Bltb_correct by reflexivity. rewrite !B2R_Bopp. apply eq_true_iff_eq.
  split; intros X; [apply Rlt_bool_true|apply Rlt_bool_true]; revert X; case Rlt_bool_spec; intros; try discriminate; lra.
Qed.
Lemma is0_64 (x : f64) : is0 x = true -> exists s, x = B754_zero s.
Proof. destruct x as [s|[]| |[] m e b]; cbn; intros X; try discriminate. eauto. Qed.
Lemma is0_neg x x' : negative x x' -> is0 x' = is0 x.
Proof. intros [->|(s & t & -> & ->)]; [|reflexivity]. destruct x as [sx|[]| |[] mx ex bx]; reflexivity. Qed.

Lemma symmetric64 : symmetric negative.
Proof.
  constructor.
  - apply negative_sym.
  - right. exists false, false. auto.
  - apply ltb_neg.
  - apply is0_neg.
  - intros x x' HN. unfold not_a_number. f_equal. cbn [nleb F64Num].
    destruct HN as [->|(s & t & -> & ->)]; [|reflexivity]. destruct x as [sx|[]| |sx mx ex bx]; try reflexivity.
    rewrite !Bleb_correct by reflexivity. rewrite !Rle_bool_true by apply Rle_refl. reflexivity.
  - apply plus_neg.
  - apply minus_neg.
  - apply plus_comm64.
  - intros. apply mult_neg_r. auto.
  - intros. apply mult_neg_l. auto.
  - intros. apply div_neg. auto.
  - apply opp_neg.
  - intros x x' y y' H1 H2. cbn [nltb nmul F64Num].
    destruct (neg_neg (mult64 x y) (mult64 x' y) (mult64 x' y') (mult_neg_l _ _ _ H1) (mult_neg_r _ _ _ H2)) as [->|(s & t & -> & ->)]; reflexivity.
  - intros x x' H1. cbn [nmul F64Num]. destruct H1 as [->|(s & t & -> & ->)].
    + rewrite mult_opp_l, mult_comm64, mult_opp_l. apply opp_opp.
    + cbn. destruct s, t; reflexivity.
  - intros x x' y y' H1 H2. cbn [nmul ndiv F64Num].
    assert (SQ : forall u : f64, mult64 (Bopp u) (Bopp u) = mult64 u u) by (intros u; rewrite mult_opp_l, mult_comm64, mult_opp_l; apply opp_opp).
    destruct H1 as [->|(s & t & -> & ->)], H2 as [->|(s' & t' & -> & ->)].
    + rewrite div_opp_l, div_opp_r, opp_opp. reflexivity.
    + destruct x as [sx|sx| |sx mx ex bx]; cbn; try reflexivity; destruct sx, s', t'; reflexivity.
    + destruct y as [sy|sy| |sy my ey by']; cbn; try reflexivity; destruct sy, s, t; reflexivity.
    + reflexivity.
  - intros x x' [->|(s & t & -> & ->)]; [apply Babs_Bopp|reflexivity].
  - intros x x' y y' H1 H2.
    assert (G : eqz (minus64 x y) (minus64 x' y')).
    { apply (neg_neg _ (minus64 y' x')); [apply minus_neg; auto|apply minus_anti]. }
    cbn [nsub F64Num nltb]. destruct G as [->|(s & t & -> & ->)]; [auto|]. split; [intros u; destruct u as [su|[]| |[] mu eu bu]; reflexivity|]. split; [reflexivity|].
    cbn. discriminate.
  - intros [s|[]| |[] m e b]; cbn; discriminate.
  - intros x y E. cbn [nltb nmul F64Num] in E. split; apply not_true_is_false; intros X; apply is0_64 in X as (s & ->).
    + destruct y as [sy|sy| |sy my ey by']; cbn in E; discriminate.
    + destruct x as [sx|sx| |sx mx ex bx]; cbn in E; discriminate.
Qed.
