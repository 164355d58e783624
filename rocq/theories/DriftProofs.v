(** * DriftProofs: sifting an oscillation on top of a slow trend. *)
From Verif Require Import PyFacts QcFacts Emd Spec Demo EmdProofs EmdExact EmdTop EmdSimple DemoFacts EmdSym.
From Verif Require Import Runs ExtremaProofs ExtremaSpec PrepareProofs SplineProofs ReverseLin ReverseEmd Envelope.
From Verif Require Import RevSpec SymSpec Kinds KindsSpec KindsProofs KindsRules KindsCubic KindsOnly KindsMono KindsAll KindsExact ParabolProofs.
From Verif Require Import LocalSpec LocalProofs DriftSpec.
From Coq Require Import ZifyBool ZifyNat QArith Qcanon Lia.
Open Scope Z_scope.
Local Notation pt := (Qc * Qc)%type.

Lemma increasing_app_r (A B : list Qc) : increasing (A ++ B) -> increasing B.
Proof. induction A as [|a A IH]; intros HI; auto. apply IH. cbn [app] in HI. eapply SplineProofs.increasing_tl; eauto. Qed.

(** ** Interpolation of a followed trend *)
Lemma seg_on F p q u : k2 F = 0%Qc -> k3 F = 0%Qc -> (fst p < fst q)%Qc -> snd p = value F (fst p) -> snd q = value F (fst q) ->
  seg (fst p) (snd p) (fst q) (snd q) u = value F u.
Proof.
  intros H2 H3 Hx Ep Eq. unfold seg. rewrite Ep, Eq. unfold value. rewrite H2, H3. field. apply gap_ne. auto.
Qed.
Lemma pchip3_on F p q r : k2 F = 0%Qc -> k3 F = 0%Qc -> snd p = value F (fst p) -> snd q = value F (fst q) -> snd r = value F (fst r) ->
  (fst p < fst q)%Qc -> (fst q < fst r)%Qc -> pchip3 (p, q, r) = slope F (fst q).
Proof.
  intros H2 H3 Ep Eq Er G1 G2. unfold pchip3. rewrite !(chord_on F) by auto. unfold slope. rewrite H2, H3.
  replace (k1 F + 0 * (fst p + fst q))%Qc with (k1 F) by ring. replace (k1 F + 0 * (fst q + fst r))%Qc with (k1 F) by ring.
  replace (k1 F + (1 + 1) * 0 * fst q + (1 + 1 + 1) * 0 * fst q * fst q)%Qc with (k1 F) by ring.
  rewrite Z.eqb_refl. cbn [negb orb]. num_qc.
  destruct (Qc_eqb (k1 F) (Q2Qc 0)) eqn:EK; cbn [orb].
  - apply Qc_eqb_eq in EK. rewrite EK. reflexivity.
  - assert (K0 : k1 F <> 0%Qc) by (intros C; rewrite C in EK; discriminate EK).
    assert (g1 : (0 < gap p q)%Qc) by (unfold gap; num_qc; qclra). assert (g2 : (0 < gap q r)%Qc) by (unfold gap; num_qc; qclra).
    rewrite !two_qc. change (Q2Qc 1) with 1%Qc. generalize dependent (gap p q). generalize dependent (gap q r). intros h2 g2 h1 g1.
    assert (W : ((1 + 1) * h2 + h1 + (h2 + (1 + 1) * h1) <> 0)%Qc).
    { replace ((1 + 1) * h2 + h1 + (h2 + (1 + 1) * h1))%Qc with (h2 + h2 + h2 + h1 + h1 + h1)%Qc by ring. intros C. qclra. }
    field. repeat split; auto; discriminate.
Qed.

Lemma interpolation_on k F A L B t v i u : followed k F ->
  increasing (map fst (A ++ L ++ B)) -> increasing (map fst L) -> (forall p, In p L -> snd p = value F (fst p)) ->
  enough k L u -> scipy_spl k (A ++ L ++ B) t = Ok v -> nth_error t i = Some u -> nth_error v i = Some (value F u).
Proof.
  intros HFo HI HF HO HE E Hi.
  destruct (in_dec Qc_eq_dec u (map fst L)) as [HK|HK].
  { apply in_map_iff in HK as (p & <- & Hp). rewrite <- (HO p Hp).
    apply (kinds_pass k _ _ _ HI E); auto; apply in_or_app; right; apply in_or_app; auto. }
  destruct (split_at u L HF) as (M & R & EF & HL & HR).
  { intros p Hp C. apply HK. rewrite <- C. apply in_map; auto. }
  assert (InL : forall p, In p L -> (fst p <= u)%Qc -> In p M).
  { intros p Hp Hu. rewrite EF in Hp. apply in_app_or in Hp as [?|Hp]; auto. apply HR in Hp. exfalso. qclra. }
  assert (InR : forall p, In p L -> (u <= fst p)%Qc -> In p R).
  { intros p Hp Hu. rewrite EF in Hp. apply in_app_or in Hp as [Hp|?]; auto. apply HL in Hp. exfalso. qclra. }
  subst L.
  assert (TL : forall k, k = Linear \/ k = Slinear -> k2 F = 0%Qc -> k3 F = 0%Qc -> enough k (M ++ R) u -> lin_spl Linear (A ++ (M ++ R) ++ B) t = Ok v ->
     nth_error v i = Some (value F u)).
  { clear k HFo HE E. intros k Hk F2 F3 HE E.
    assert (HE' : exists p q, In p (M ++ R) /\ In q (M ++ R) /\ (fst p <= u)%Qc /\ (u <= fst q)%Qc) by (destruct Hk as [->| ->]; exact HE).
    destruct HE' as (p0 & q0 & I1 & I2 & U1 & U2).
    destruct (last_one M p0 (InL _ I1 U1)) as (L' & p & ->). pose proof (InR _ I2 U2) as I3. destruct R as [|q R]; [destruct I3|].
    assert (EE : forall A B : list pt, A ++ ((L' ++ [p]) ++ q :: R) ++ B = (A ++ L') ++ p :: q :: (R ++ B)) by (intros; rewrite <- !app_assoc; reflexivity).
    rewrite EE in E, HI.
    assert (Ip : In p (L' ++ [p])) by (apply in_or_app; right; left; auto). assert (Iq : In q (q :: R)) by (left; auto).
    assert (V1 : (fst p < u)%Qc) by (apply HL; auto). assert (V2 : (u < fst q)%Qc) by (apply HR; auto).
    rewrite (linear_local _ _ _ _ _ _ HI E i u) by (auto; qclra). f_equal.
    apply seg_on; auto; try qclra; apply HO, in_or_app; auto. }
  assert (TH : forall k slopes f, k = Pchip \/ k = CubicHermite -> rule slopes ->
     (forall a o p q b ds, slopes (a ++ o :: p :: q :: b) = Ok ds -> nth_error ds (Datatypes.S (length a)) = Some (f (o, p, q))) ->
     (forall p q r, snd p = value F (fst p) -> snd q = value F (fst q) -> snd r = value F (fst r) ->
        (fst p < fst q)%Qc -> (fst q < fst r)%Qc -> f (p, q, r) = slope F (fst q)) ->
     enough k (M ++ R) u -> draw slopes (A ++ (M ++ R) ++ B) t = Ok v -> nth_error v i = Some (value F u)).
  { clear k HFo HE E. intros k slopes f Hk HRu HN Hf HE E.
    assert (HE' : exists o p q r, In o (M ++ R) /\ In p (M ++ R) /\ In q (M ++ R) /\ In r (M ++ R) /\
      (fst o < fst p)%Qc /\ (fst p <= u)%Qc /\ (u <= fst q)%Qc /\ (fst q < fst r)%Qc) by (destruct Hk as [->| ->]; exact HE).
    destruct HE' as (o0 & p0 & q0 & r0 & I0 & I1 & I2 & I3 & U0 & U1 & U2 & U3).
    destruct (last_two M o0 p0) as (L' & o & p & ->); [apply InL; auto; qclra|apply InL; auto|intros ->; qclra|].
    destruct (first_two R q0 r0) as (q & r & R' & ->); [apply InR; auto|apply InR; auto; qclra|intros ->; qclra|].
    assert (EE : forall A B : list pt, A ++ ((L' ++ [o; p]) ++ q :: r :: R') ++ B = (A ++ L') ++ o :: p :: q :: r :: (R' ++ B)) by (intros; rewrite <- !app_assoc; reflexivity).
    rewrite EE in E, HI.
    assert (Io : In o (L' ++ [o; p])) by (apply in_or_app; right; left; auto).
    assert (Ip : In p (L' ++ [o; p])) by (apply in_or_app; right; right; left; auto).
    assert (Iq : In q (q :: r :: R')) by (left; auto). assert (Ir : In r (q :: r :: R')) by (right; left; auto).
    assert (V1 : (fst p < u)%Qc) by (apply HL; auto). assert (V2 : (u < fst q)%Qc) by (apply HR; auto).
    assert (OP : (fst o < fst p)%Qc /\ (fst q < fst r)%Qc).
    { rewrite map_app in HI. cbn [map] in HI. apply increasing_app_r in HI.
      pose proof (SplineProofs.increasing_head _ _ (fst p) HI (or_introl eq_refl)).
      apply SplineProofs.increasing_tl in HI. apply SplineProofs.increasing_tl in HI.
      pose proof (SplineProofs.increasing_head _ _ (fst r) HI (or_introl eq_refl)). auto. }
    destruct OP as [OP QR].
    assert (Eo : snd o = value F (fst o)) by (apply HO, in_or_app; auto).
    assert (Ep : snd p = value F (fst p)) by (apply HO, in_or_app; auto).
    assert (Eq : snd q = value F (fst q)) by (apply HO, in_or_app; auto).
    assert (Er : snd r = value F (fst r)) by (apply HO, in_or_app; auto).
    assert (PQ : (fst p < fst q)%Qc) by qclra.
    rewrite (draw_local _ f _ _ _ _ _ _ _ _ HRu HN E i u) by (auto; qclra). f_equal.
    rewrite !Hf by auto. rewrite Ep, Eq. apply hermite_exact. auto. }
  destruct k; try (destruct HE; fail); cbn [scipy_spl followed] in *.
  - exact (TH Pchip _ pchip3 (or_introl eq_refl) pchip_rule pchip_nth (fun p q r => pchip3_on F p q r (proj1 HFo) (proj2 HFo)) HE E).
  - exact (TH CubicHermite _ grad3 (or_intror eq_refl) gradient_rule gradient_nth (fun p q r => grad3_on F p q r HFo) HE E).
  - exact (TL Slinear (or_intror eq_refl) (proj1 HFo) (proj2 HFo) HE E).
  - exact (TL Linear (or_introl eq_refl) (proj1 HFo) (proj2 HFo) HE E).
Qed.

Lemma envelope_on k kind n S M cl cr P v lo hi i G : followed k G ->
  env_ok n S M cl cr P -> In lo M -> In hi M ->
  (forall m, In m M -> lo <= m <= hi -> sample S m = value G (Qc_ofZ m)) ->
  framed k (fun m => In m M) (lo - 1) (hi + 1) i -> parse_kind kind = Some k ->
  spline_points scipy_spl kind (tz n) P = Ok v -> 0 <= i < Z.of_nat n -> sample v i = value G (Qc_ofZ i).
Proof.
  intros HG HE L1 L2 HS HF K E Hi.
  pose proof (window_all _ _ _ _ _ _ HE) as HW. pose proof (env_inc _ _ _ _ _ _ HE) as HI.
  unfold spline_points in E. rewrite HW in E. cbn [bind] in E. rewrite K in E.
  assert (HN : enough k (filter (inside (Qc_ofZ lo) (Qc_ofZ hi)) P) (Qc_ofZ i)).
  { assert (Q : forall m, In m M -> lo <= m <= hi -> In (Qc_ofZ m, sample S m) (filter (inside (Qc_ofZ lo) (Qc_ofZ hi)) P)).
    { intros m Hm Hr. apply (inside_points _ _ _ _ _ _ _ _ HE L1 L2). eauto. }
    destruct k; cbn [framed enough] in *; auto.
    - destruct HF as (o & p & q & r & ? & ? & ? & ? & ? & ? & ?).
      exists (Qc_ofZ o, sample S o), (Qc_ofZ p, sample S p), (Qc_ofZ q, sample S q), (Qc_ofZ r, sample S r). cbn [fst].
      repeat split; try (apply Q; auto; lia); try (apply Qc_ofZ_lt; lia); try (apply Qc_ofZ_le; lia).
    - destruct HF as (o & p & q & r & ? & ? & ? & ? & ? & ? & ?).
      exists (Qc_ofZ o, sample S o), (Qc_ofZ p, sample S p), (Qc_ofZ q, sample S q), (Qc_ofZ r, sample S r). cbn [fst].
      repeat split; try (apply Q; auto; lia); try (apply Qc_ofZ_lt; lia); try (apply Qc_ofZ_le; lia).
    - destruct HF as (p & q & ? & ? & ? & ?). exists (Qc_ofZ p, sample S p), (Qc_ofZ q, sample S q). cbn [fst].
      repeat split; try (apply Q; auto; lia); apply Qc_ofZ_le; lia.
    - destruct HF as (p & q & ? & ? & ? & ?). exists (Qc_ofZ p, sample S p), (Qc_ofZ q, sample S q). cbn [fst].
      repeat split; try (apply Q; auto; lia); apply Qc_ofZ_le; lia. }
  assert (HO : forall p, In p (filter (inside (Qc_ofZ lo) (Qc_ofZ hi)) P) -> snd p = value G (fst p)).
  { intros p Hp. apply (inside_points _ _ _ _ _ _ _ _ HE L1 L2) in Hp as (m & Hm & Hr & ->). cbn [fst snd]. auto. }
  destruct (inside_block (Qc_ofZ lo) (Qc_ofZ hi) P HI) as (A & B & EP).
  pose proof (increasing_filt (inside (Qc_ofZ lo) (Qc_ofZ hi)) P HI) as HIF.
  set (F := filter (inside (Qc_ofZ lo) (Qc_ofZ hi)) P) in *. clearbody F.
  assert (E0 : scipy_spl k P (tz n) = Ok v) by (destruct k; auto; destruct HF).
  rewrite EP in E0, HI.
  assert (Q : nth_error v (Z.to_nat i) = Some (value G (Qc_ofZ i))).
  { apply (interpolation_on k G A F B (tz n) v); auto. apply tz_nth. lia. }
  unfold sample. apply nth_error_nth. exact Q.
Qed.

(** ** One sift *)
Lemma steeper_step x w F a b j : rides x w F a b -> steeper w F a b -> a <= j < b ->
  ((sample x j < sample x (j + 1))%Qc <-> (sample w j < sample w (j + 1))%Qc) /\
  ((sample x (j + 1) < sample x j)%Qc <-> (sample w (j + 1) < sample w j)%Qc) /\ sample x j <> sample x (j + 1).
Proof.
  intros HR HS Hj. pose proof (HS j Hj) as H. cbv zeta in H. rewrite (HR j), (HR (j + 1)) by lia.
  destruct H as [[H1 H2]|[H1 H2]]; repeat split; intros G; qclra.
Qed.
Lemma rides_peak x w F a b j : rides x w F a b -> steeper w F a b -> a < j < b -> (peak x j <-> peak w j).
Proof.
  intros HR HS Hj. destruct (steeper_step x w F a b j HR HS ltac:(lia)) as (_ & E & _).
  destruct (steeper_step x w F a b (j - 1) HR HS ltac:(lia)) as (E' & _ & _). replace (j - 1 + 1) with j in E' by lia. unfold peak. tauto.
Qed.
Lemma rides_trough x w F a b j : rides x w F a b -> steeper w F a b -> a < j < b -> (trough x j <-> trough w j).
Proof.
  intros HR HS Hj. destruct (steeper_step x w F a b j HR HS ltac:(lia)) as (E & _ & _).
  destruct (steeper_step x w F a b (j - 1) HR HS ltac:(lia)) as (_ & E' & _). replace (j - 1 + 1) with j in E' by lia. unfold trough. tauto.
Qed.
Definition lifted (h : Qc) (F : piece) : piece := Piece (k0 F + h)%Qc (k1 F) (k2 F) (k3 F).
Lemma lifted_value h F u : value (lifted h F) u = (value F u + h)%Qc.
Proof. unfold value, lifted. cbn [k0 k1 k2 k3]. ring. Qed.
Lemma lifted_followed k h F : followed k F -> followed k (lifted h F).
Proof. destruct k; auto. Qed.

Lemma drift_sift k c x w F h a b i y :
  extrema_detection c = Simple -> 1 <= nbsym c -> parse_kind (spline_kind c) = Some k ->
  0 <= a -> b < zlen x -> followed k F -> rides x w F a b -> swings w h a b -> steeper w F a b ->
  framed k (peak w) a b i -> framed k (trough w) a b i ->
  one_sift scipy_spl c (arange (length x)) x y -> sample y i = sample w i.
Proof.
  intros D N K Ha Hb HFo HR HW HS FM Fm H1.
  destruct (sift_at_extrema _ kinds_pass _ _ _ D N H1) as (up & lo & P & Q & E & _ & G & _).
  assert (Hi : a < i < b).
  { destruct (framed_ends _ _ _ _ _ FM) as (l & h' & ? & ? & _). lia. }
  rewrite G by lia. rewrite (HR i) by lia.
  assert (HF : no_flat x a b) by (intros j Hj; apply (steeper_step x w F a b j HR HS Hj)).
  enough (sample up i = (value F (Qc_ofZ i) + h)%Qc /\ sample lo i = (value F (Qc_ofZ i) + - h)%Qc) as [-> ->].
  { rewrite two_qc. field. discriminate. }
  clear G H1. rewrite arange_tz in E. unfold extract_max_min_spline in E. rewrite D in E.
  destruct (detect_prepare x (nbsym c) N) as (e & M & m & Ee & E1 & E2 & R1 & R2 & HP).
  rewrite Ee in E. cbn [bind] in E. rewrite E1, E2, !zlen_map in E.
  destruct (Z.ltb_spec (zlen M + zlen m) 3) as [C|C]; [discriminate E|].
  destruct (HP ltac:(lia)) as (P0 & Q0 & cl & cr & EP & O1 & O2 & _). rewrite EP in E. cbn [bind] in E.
  apply bind_ok in E as (u & F3 & E). apply bind_ok in E as (v & F4 & E). injection E as -> -> -> ->.
  assert (IM : forall p, a < p < b -> (In p M <-> peak w p)).
  { intros p Hp. rewrite R1, (rep_peak x a b) by auto. eapply rides_peak; eauto. }
  assert (Im : forall p, a < p < b -> (In p m <-> trough w p)).
  { intros p Hp. rewrite R2, (rep_trough x a b) by auto. eapply rides_trough; eauto. }
  unfold zlen in Hb. split.
  - destruct (framed_ends _ _ _ _ _ FM) as (l & h' & B1 & B2 & X1 & X2 & FM'). rewrite <- lifted_value.
    apply (envelope_on k (spline_kind c) _ _ _ _ _ _ _ l h' i (lifted h F) (lifted_followed k h F HFo) O1); auto; try (apply IM; auto; lia); try lia.
    + intros p Hp Hlh. rewrite lifted_value, (HR p) by lia. rewrite (proj1 (HW p ltac:(lia))) by (apply IM; auto; lia). ring.
    + eapply framed_sub; [|exact FM']. intros p Hp. apply IM. lia.
  - destruct (framed_ends _ _ _ _ _ Fm) as (l & h' & B1 & B2 & X1 & X2 & FM'). rewrite <- lifted_value.
    apply (envelope_on k (spline_kind c) _ _ _ _ _ _ _ l h' i (lifted (- h)%Qc F) (lifted_followed k _ F HFo) O2); auto; try (apply Im; auto; lia); try lia.
    + intros p Hp Hlh. rewrite lifted_value, (HR p) by lia. rewrite (proj2 (HW p ltac:(lia))) by (apply Im; auto; lia). ring.
    + eapply framed_sub; [|exact FM']. intros p Hp. apply Im. lia.
Qed.

(** ** Several sifts *)
Definition no_trend : piece := Piece 0 0 0 0.
Lemma no_trend_value u : value no_trend u = 0%Qc.
Proof. unfold value, no_trend. cbn [k0 k1 k2 k3]. ring. Qed.

Lemma drift_sifts k c n : forall x w F h a b i l,
  extrema_detection c = Simple -> 1 <= nbsym c -> parse_kind (spline_kind c) = Some k ->
  0 <= a -> b < zlen x -> followed k F -> rides x w F a b -> swings w h a b -> steeper w F a b ->
  deep k n w a b i -> iterates (one_sift scipy_spl c (arange (length x))) (x :: l) -> length l = n ->
  sample (last l x) i = (sample w i + match n with O => value F (Qc_ofZ i) | _ => 0 end)%Qc.
Proof.
  induction n as [|n IH]; intros x w F h a b i l D N K Ha Hb HFo HR HW HS HD HI Ll.
  - destruct l; try discriminate. cbn [last deep] in *. apply HR. auto.
  - destruct l as [|y l]; try discriminate. inversion HI as [|? ? ? H1 H2]; subst.
    cbn [deep] in HD. destruct HD as (a' & b' & Hab & Hfr & HD).
    destruct (one_sift_mean _ _ _ _ _ H1) as (_ & _ & _ & _ & _ & _ & _ & _ & _ & _ & Ly & _).
    assert (Hin : forall j, a' <= j <= b' -> a < j < b).
    { intros j Hj. destruct (framed_ends _ _ _ _ _ (proj1 (Hfr j Hj))) as (lo & hi & ? & ? & _). lia. }
    pose proof (Hin a' ltac:(lia)). pose proof (Hin b' ltac:(lia)).
    assert (EL : forall (z d d' : list Qc) m, last (z :: m) d = last (z :: m) d').
    { intros z d d' m. revert z. induction m as [|w0 m IHm]; intros z; [reflexivity|]. apply (IHm w0). }
    assert (EC : forall (z d : list Qc) m, last (z :: m) d = last m z).
    { intros z d [|w0 m]; [reflexivity|]. apply (EL w0 d z m). }
    rewrite EC. rewrite <- Ly in H2. unfold zlen in *.
    rewrite (IH y w no_trend h a' b' i l); auto; try lia.
    + destruct n; rewrite ?no_trend_value; reflexivity.
    + destruct k; cbn; auto.
    + intros j Hj. rewrite no_trend_value. destruct (Hfr j Hj) as [Q1 Q2].
      rewrite (drift_sift k c x w F h a b j y); auto. ring.
    + intros j Hj. apply HW. lia.
    + intros j Hj. rewrite !no_trend_value. pose proof (HS j ltac:(lia)) as G. cbv zeta in *.
      destruct G as [[G1 G2]|[G1 G2]]; [left|right]; split; qclra.
Qed.

Lemma drift_first k c n fuel x w F h mi o a b i :
  extrema_detection c = Simple -> 1 <= nbsym c -> parse_kind (spline_kind c) = Some k ->
  FIXE c = Z.of_nat n -> (0 < n)%nat -> FIXE c < MAX_ITERATION c ->
  0 <= a -> b < zlen x -> followed k F -> rides x w F a b -> swings w h a b -> steeper w F a b ->
  deep k n w a b i -> emd scipy_spl fuel c x None mi = Ok o -> imfs o <> [] ->
  sample (nth 0 (imfs o) []) i = sample w i.
Proof.
  intros D N K Fx Hn M1 Ha Hb HFo HR HW HS HD E O.
  pose proof (fixe_peels c n fuel x mi o D Fx Hn M1 E) as HP.
  inversion HP as [? EI|? l rest HI Ll HRe EI]; [congruence|]. cbn [nth].
  rewrite (drift_sifts k c n x w F h a b i l); auto. destruct n; [lia|]. ring.
Qed.

(** ** The fastest oscillation *)
Lemma flip_next h i : flip h (i + 1) = (- flip h i)%Qc.
Proof. unfold flip. rewrite Z.even_add. change (Z.even 1) with false. destruct (Z.even i); cbn [Bool.eqb]; ring. Qed.

Section Flip.
Variable w : list Qc.
Variable h : Qc.
Hypothesis Hh : (0 < h)%Qc.
Hypothesis Hw : forall i, 0 <= i < zlen w -> sample w i = flip h i.

Lemma flip_peak j : 0 < j < zlen w - 1 -> Z.even j = true -> peak w j.
Proof.
  intros Hj E. pose proof (flip_next h (j - 1)) as G. replace (j - 1 + 1) with j in G by lia. pose proof (flip_next h j) as G'.
  unfold peak. rewrite !Hw by lia. unfold flip in *. rewrite E in *. rewrite G'. destruct (Z.even (j - 1)); split; qclra.
Qed.
Lemma flip_trough j : 0 < j < zlen w - 1 -> Z.even j = false -> trough w j.
Proof.
  intros Hj E. pose proof (flip_next h (j - 1)) as G. replace (j - 1 + 1) with j in G by lia. pose proof (flip_next h j) as G'.
  unfold trough. rewrite !Hw by lia. unfold flip in *. rewrite E in *. rewrite G'. destruct (Z.even (j - 1)); split; qclra.
Qed.
Lemma flip_swings : swings w h 0 (zlen w - 1).
Proof.
  intros j Hj. destruct (Z.even j) eqn:E; split; intros G.
  - rewrite Hw by lia. unfold flip. rewrite E. reflexivity.
  - destruct G as [G _]. pose proof (flip_peak j Hj E) as [Q _]. exfalso. qclra.
  - destruct G as [G _]. pose proof (flip_trough j Hj E) as [Q _]. exfalso. qclra.
  - rewrite Hw by lia. unfold flip. rewrite E. reflexivity.
Qed.
Lemma flip_framed k F a b j : followed k F ->
  0 <= a -> b < zlen w -> a + margin k <= j <= b - margin k -> framed k (peak w) a b j /\ framed k (trough w) a b j.
Proof.
  intros Hk Ha Hb Hj.
  assert (EN : Z.even (j - 1) = negb (Z.even j)) by (rewrite Z.even_sub; destruct (Z.even j); reflexivity).
  assert (EP : Z.even (j + 1) = negb (Z.even j)) by (rewrite Z.even_add; destruct (Z.even j); reflexivity).
  assert (E2 : forall z, Z.even (z - 2) = Z.even z) by (intros z; rewrite Z.even_sub; destruct (Z.even z); reflexivity).
  assert (E2' : forall z, Z.even (z + 2) = Z.even z) by (intros z; rewrite Z.even_add; destruct (Z.even z); reflexivity).
  assert (G1 : forall (e : bool) (ext : Z -> Prop), (forall m, 0 < m < zlen w - 1 -> Z.even m = e -> ext m) -> margin k = 2 -> framed1 ext a b j).
  { intros e ext He Em. rewrite Em in Hj. destruct (Bool.bool_dec (Z.even j) e) as [Ej|Ej].
    - exists j, j. split; [lia|]. split; [lia|]. split; apply He; auto; lia.
    - exists (j - 1), (j + 1). split; [lia|]. split; [lia|]. split; apply He; try lia; rewrite ?EN, ?EP; destruct (Z.even j), e; cbn; congruence. }
  assert (G2 : forall (e : bool) (ext : Z -> Prop), (forall m, 0 < m < zlen w - 1 -> Z.even m = e -> ext m) -> margin k = 4 -> framed2 ext a b j).
  { intros e ext He Em. rewrite Em in Hj. destruct (Bool.bool_dec (Z.even j) e) as [Ej|Ej].
    - exists (j - 2), j, j, (j + 2). split; [lia|]. split; [lia|]. split; [lia|].
      split; [|split; [|split]]; apply He; rewrite ?E2, ?E2'; auto; lia.
    - exists (j - 1 - 2), (j - 1), (j + 1), (j + 1 + 2). split; [lia|]. split; [lia|]. split; [lia|].
      split; [|split; [|split]]; apply He; rewrite ?E2, ?E2', ?EN, ?EP; try lia; destruct (Z.even j), e; cbn; congruence. }
  destruct k; try (destruct Hk; fail); cbn [framed margin] in *; split;
    ((eapply G1 + eapply G2); [|reflexivity]; (exact flip_peak || exact flip_trough)).
Qed.
Lemma flip_deep k F n : followed k F ->
  forall a b i, 0 <= a -> b < zlen w -> a + Z.of_nat n * margin k <= i <= b - Z.of_nat n * margin k -> deep k n w a b i.
Proof.
  intros Hk. assert (Hm : 0 < margin k) by (destruct k; cbn; lia).
  induction n as [|n IH]; intros a b i Ha Hb Hi; cbn [deep]; [lia|].
  exists (a + margin k), (b - margin k). split; [lia|]. split.
  - intros j Hj. apply (flip_framed k F); auto.
  - apply IH; lia.
Qed.
End Flip.

Lemma flip_first k c n fuel x F h mi o i :
  extrema_detection c = Simple -> 1 <= nbsym c -> parse_kind (spline_kind c) = Some k ->
  FIXE c = Z.of_nat n -> (0 < n)%nat -> FIXE c < MAX_ITERATION c ->
  followed k F -> (0 < h)%Qc ->
  (forall j, 0 <= j < zlen x -> sample x j = (flip h j + value F (Qc_ofZ j))%Qc) ->
  (forall j, 0 <= j < zlen x - 1 -> let r := (value F (Qc_ofZ (j + 1)) - value F (Qc_ofZ j))%Qc in (- (h + h) < r /\ r < h + h)%Qc) ->
  Z.of_nat n * margin k <= i < zlen x - Z.of_nat n * margin k ->
  emd scipy_spl fuel c x None mi = Ok o -> imfs o <> [] ->
  sample (nth 0 (imfs o) []) i = flip h i.
Proof.
  intros D N K Fx Hn M1 HFo Hh Hx Hs Hi E O.
  assert (Hm : 0 < margin k) by (destruct k; cbn; lia).
  set (w := map (fun j => flip h (Z.of_nat j)) (seq 0 (length x))).
  assert (Lw : zlen w = zlen x) by (unfold w, zlen; rewrite map_length, seq_length; reflexivity).
  assert (Hw : forall j, 0 <= j < zlen w -> sample w j = flip h j).
  { intros j Hj. rewrite Lw in Hj. unfold zlen in Hj. unfold sample. apply nth_error_nth. unfold w. rewrite nth_error_map.
    rewrite (nth_error_nth' (seq 0 (length x)) 0%nat) by (rewrite seq_length; lia). rewrite seq_nth by lia. cbn [option_map]. do 2 f_equal. lia. }
  rewrite <- (Hw i) by lia.
  apply (drift_first k c n fuel x w F h mi o 0 (zlen x - 1) i); auto; try lia.
  - intros j Hj. rewrite Hw by lia. apply Hx. lia.
  - rewrite <- Lw. apply flip_swings; auto.
  - intros j Hj. cbv zeta. rewrite !Hw by lia. rewrite flip_next. destruct (Hs j ltac:(lia)) as [S1 S2]. cbv zeta in *.
    unfold flip. destruct (Z.even j); [right|left]; split; qclra.
  - apply (flip_deep w h Hh Hw k F n HFo); lia.
Qed.
Lemma peeled_rest (x y : list Qc) i u v : length x = length y -> sample x i = (u + v)%Qc -> sample y i = u -> sample (vsub x y) i = v.
Proof. intros HL E1 E2. rewrite sample_vsub by auto. rewrite E1, E2. ring. Qed.
