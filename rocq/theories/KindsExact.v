(** * KindsExact: polynomials that the curves reproduce. *)
From Verif Require Import PyFacts QcFacts Emd Spec Demo EmdProofs EmdSimple ReverseLin RevSpec SymSpec Envelope.
From Verif Require Import Runs EmdSym Kinds KindsSpec KindsProofs KindsRules KindsCubic KindsOnly KindsMono KindsAll.
From Coq Require Import ZifyBool ZifyNat QArith Qcanon Lia.
Open Scope Z_scope.

Lemma hermite_exact F x0 x1 u : (x0 < x1)%Qc ->
  hermite_at x0 (value F x0) (slope F x0) x1 (value F x1) (slope F x1) u = value F u.
Proof.
  intros Hx. unfold hermite_at, value, slope. num_qc. rewrite two_qc. cbv zeta. field. apply gap_ne. auto.
Qed.
Lemma draw_exact sl F pts t v ds : rule sl -> draw sl pts t = Ok v -> sl pts = Ok ds -> on F pts ->
  ds = map (fun p => slope F (fst p)) pts -> v = map (value F) t.
Proof.
  intros R E Ed HF Hd. destruct (draw_inv _ R _ _ _ E) as (ds' & Ed' & Ld & HI & Ev). rewrite Ed in Ed'. apply ok_inv in Ed'. subst ds'.
  assert (HI' : increasing (map fst (map fst (combine pts ds)))) by (rewrite combine_fst; auto).
  assert (K : forall x, In x (combine pts ds) -> snd (fst x) = value F (fst (fst x)) /\ snd x = slope F (fst (fst x))).
  { subst ds. clear - HF. intros [p d] Hx. induction pts as [|p0 pts IH]; [destruct Hx|]. cbn [combine map] in Hx. destruct Hx as [Hx|Hx].
    - injection Hx as <- <-. cbn. split; auto. apply HF. left. auto.
    - apply IH; auto. intros q Hq. apply HF. right. auto. }
  clear - Ev HI' K. revert v Ev. induction t as [|u t IH]; intros v Ev; cbn [mapM map] in *; [apply ok_inv in Ev; auto|].
  apply bind_ok in Ev as (y & E1 & E). apply bind_ok in E as (ys & E2 & E). apply ok_inv in E. subst v. f_equal; auto.
  destruct (ppoly_seg _ _ _ E1) as (a & x0 & y0 & d0 & x1 & y1 & d1 & b & Ec & U0 & U1 & ->). rewrite Ec in *.
  destruct (K (x0, y0, d0)) as [A1 A2]; [apply in_or_app; right; left; auto|].
  destruct (K (x1, y1, d1)) as [B1 B2]; [apply in_or_app; right; right; left; auto|]. cbn [fst snd] in *. subst.
  apply hermite_exact. apply (proj1 (increasing_pair _) HI' (map fst (map fst a)) _ _ (map fst (map fst b))).
  rewrite !map_app. reflexivity.
Qed.

(** ** Cubics by the cubic spline *)
Definition shifted (F : piece) (x : Qc) : piece :=
  Piece (value F x) (slope F x) (k2 F + (1 + 1 + 1) * k3 F * x)%Qc (k3 F).
Lemma shifted_value F x v : value (shifted F x) v = value F (x + v)%Qc.
Proof. unfold value, shifted, slope, value. cbn. ring. Qed.
Lemma shifted_slope F x v : slope (shifted F x) v = slope F (x + v)%Qc.
Proof. unfold shifted, slope, value. cbn. ring. Qed.
Lemma shifted_bend F x v : bend (shifted F x) v = bend F (x + v)%Qc.
Proof. unfold shifted, bend, slope, value. cbn. ring. Qed.
Fixpoint shifts (F : piece) (pts : list (Qc * Qc)) : list piece :=
  match pts with
  | p :: ((_ :: _) as pts') => shifted F (fst p) :: shifts F pts'
  | _ => []
  end.
Lemma shifts_cons F p q l : shifts F (p :: q :: l) = shifted F (fst p) :: shifts F (q :: l).
Proof. reflexivity. Qed.
Lemma shifts_curve F pts : pts <> [] -> on F pts -> curve pts (shifts F pts).
Proof.
  induction pts as [|p pts IH]; [contradiction|]. intros _ HF. destruct pts as [|q pts]; [exact I|].
  rewrite shifts_cons. cbn [curve]. rewrite !shifted_value. split; [|split].
  - rewrite (HF p) by (left; auto). f_equal. ring.
  - rewrite (HF q) by (right; left; auto). f_equal. ring.
  - apply IH; [discriminate|]. intros r Hr. apply HF. right. auto.
Qed.
Lemma shifts_joined F f pts : (forall x v, f (shifted F x) v = f F (x + v)%Qc) -> joined f pts (shifts F pts).
Proof.
  intros Hf. induction pts as [|p pts IH]; [exact I|]. destruct pts as [|q [|r pts]]; try exact I.
  rewrite !shifts_cons in *. cbn [joined]. split; [|exact IH]. rewrite !Hf. f_equal. ring.
Qed.
Lemma shifts_k3 F pts P : In P (shifts F pts) -> k3 P = k3 F.
Proof.
  induction pts as [|p pts IH]; [intros []|]. destruct pts as [|q pts]; [intros []|]. rewrite shifts_cons.
  intros [<-|Hp]; [reflexivity|auto].
Qed.
Lemma shifts_nth F pts i p P : nth_error pts i = Some p -> nth_error (shifts F pts) i = Some P -> P = shifted F (fst p).
Proof.
  revert i. induction pts as [|p0 pts IH]; intros i Hp HP; [destruct i; discriminate|]. destruct pts as [|q pts]; [destruct i; discriminate|].
  rewrite shifts_cons in HP. destruct i as [|i]; cbn [nth_error] in *; [congruence|eauto].
Qed.
Lemma cubic_exact F pts t v : (4 <= length pts)%nat -> scipy_spl Cubic pts t = Ok v -> on F pts -> v = map (value F) t.
Proof.
  intros H4 E HF. destruct (cubic_only pts t v H4 E) as (ps & _ & _ & _ & _ & HH & HU).
  assert (EP : shifts F pts = ps).
  { apply HU.
    - apply shifts_curve; auto. intros ->. cbn in H4. lia.
    - apply shifts_joined. apply shifted_slope.
    - apply shifts_joined. apply shifted_bend.
    - split; intros P Q ps' EE.
      + transitivity (k3 F); [|symmetry]; apply (shifts_k3 F pts); rewrite EE; [left|right; left]; reflexivity.
      + transitivity (k3 F); [|symmetry]; apply (shifts_k3 F pts); rewrite EE; apply in_or_app; right; [left|right; left]; reflexivity. }
  clear - HH EP. induction HH as [|u y t v HQ HH IH]; cbn [map]; auto. f_equal; auto.
  destruct HQ as (i & p & q & P & N1 & _ & N2 & _ & _ & ->). rewrite <- EP in N2. rewrite (shifts_nth F pts i p P N1 N2).
  rewrite shifted_value. f_equal. ring.
Qed.

(** ** Parabolas *)
Lemma chord_on F p q : k3 F = 0%Qc -> snd p = value F (fst p) -> snd q = value F (fst q) -> (fst p < fst q)%Qc ->
  chord p q = (k1 F + k2 F * (fst p + fst q))%Qc.
Proof.
  intros H3 Ep Eq Hx. unfold chord, gap. num_qc. rewrite Ep, Eq. unfold value. rewrite H3. field. apply gap_ne. auto.
Qed.
Lemma grad3_on F p q r : k3 F = 0%Qc -> snd p = value F (fst p) -> snd q = value F (fst q) -> snd r = value F (fst r) ->
  (fst p < fst q)%Qc -> (fst q < fst r)%Qc -> grad3 (p, q, r) = slope F (fst q).
Proof.
  intros H3 Ep Eq Er H1 H2. unfold grad3. rewrite !(chord_on F) by auto. unfold gap, slope. num_qc. rewrite H3. field.
  intros C. qclra.
Qed.
Lemma cubic_exact3 F p q r t v : k3 F = 0%Qc -> scipy_spl Cubic [p; q; r] t = Ok v -> on F [p; q; r] -> v = map (value F) t.
Proof.
  intros H3 E HF. cbn [scipy_spl] in E. destruct (draw_inv _ cubic_rule _ _ _ E) as (ds & Ed & _ & HI & _).
  pose proof (ReverseLin.increasing_hd _ _ _ HI) as G1. pose proof (ReverseLin.increasing_hd _ _ _ (ReverseLin.increasing_tl _ _ HI)) as G2.
  apply (draw_exact _ F _ _ _ ds cubic_rule E Ed HF). cbn [cubic_slopes] in Ed. apply ok_inv in Ed. subst ds.
  assert (Ep : snd p = value F (fst p)) by (apply HF; left; auto). assert (Eq : snd q = value F (fst q)) by (apply HF; right; left; auto).
  assert (Er : snd r = value F (fst r)) by (apply HF; right; right; left; auto).
  cbn [map]. rewrite (grad3_on F) by auto. rewrite !(chord_on F) by auto. unfold slope. num_qc. rewrite two_qc, H3.
  f_equal; [ring|]. f_equal. f_equal. ring.
Qed.
Lemma triples_nth {X} (a : list X) o p q b : nth_error (triples (a ++ o :: p :: q :: b)) (length a) = Some (o, p, q).
Proof.
  induction a as [|x a IH]; [reflexivity|]. destruct a as [|y a].
  - cbn [app length] in *. rewrite triples_cons. exact IH.
  - destruct a as [|z a]; cbn [app length] in *; rewrite triples_cons; exact IH.
Qed.
Lemma gradient_nth a o p q b : forall ds, gradient_slopes (a ++ o :: p :: q :: b) = Ok ds -> nth_error ds (Datatypes.S (length a)) = Some (grad3 (o, p, q)).
Proof.
  intros ds E. pose proof (triples_nth a o p q b) as HT. set (pts := a ++ o :: p :: q :: b) in *.
  assert (H3 : (3 <= length pts)%nat) by (unfold pts; rewrite app_length; cbn [length]; lia). clearbody pts.
  destruct (ends_ex pts H3) as (p0 & p1 & p2 & r0 & r1 & r2 & l & m & EP & ER).
  subst pts. unfold gradient_slopes in E. cbv beta iota in E. rewrite ER in E. apply ok_inv in E. subst ds. cbn [nth_error].
  rewrite nth_error_app1.
  - rewrite nth_error_map, HT. reflexivity.
  - rewrite map_length. apply nth_error_Some. rewrite HT. discriminate.
Qed.
Lemma gradient_exact F a o p q r b t v : k3 F = 0%Qc -> scipy_spl CubicHermite (a ++ o :: p :: q :: r :: b) t = Ok v ->
  on F (a ++ o :: p :: q :: r :: b) ->
  forall i u w, nth_error t i = Some u -> nth_error v i = Some w -> (fst p <= u)%Qc -> (u <= fst q)%Qc -> w = value F u.
Proof.
  intros H3 E HF i u w Hi Hw U0 U1. cbn [scipy_spl] in E. destruct (draw_inv _ gradient_rule _ _ _ E) as (ds & Ed & Ld & HI & Ev).
  pose proof (gradient_nth a o p q (r :: b) ds Ed) as N1.
  assert (EA : a ++ o :: p :: q :: r :: b = (a ++ [o]) ++ p :: q :: r :: b) by (rewrite <- app_assoc; reflexivity).
  assert (N2 : nth_error ds (Datatypes.S (length (a ++ [o]))) = Some (grad3 (p, q, r))).
  { rewrite EA in Ed. apply (gradient_nth (a ++ [o]) p q r b). exact Ed. }
  rewrite app_length in N2. cbn [length] in N2. replace (length a + 1)%nat with (Datatypes.S (length a)) in N2 by lia.
  pose proof (proj1 (increasing_pair _) HI) as HP.
  assert (G1 : (fst o < fst p)%Qc) by (apply (HP (map fst a) _ _ (map fst (q :: r :: b))); rewrite map_app; reflexivity).
  assert (G2 : (fst p < fst q)%Qc) by (apply (HP (map fst (a ++ [o])) _ _ (map fst (r :: b))); rewrite EA, map_app; reflexivity).
  assert (G3 : (fst q < fst r)%Qc).
  { apply (HP (map fst (a ++ [o; p])) _ _ (map fst b)). rewrite !map_app, <- app_assoc. reflexivity. }
  assert (HIn : forall x, In x [o; p; q; r] -> snd x = value F (fst x)).
  { intros x Hx. apply HF. apply in_or_app. right. cbn [In] in *. tauto. }
  rewrite (grad3_on F) in N1, N2; auto; try (apply HIn; cbn [In]; tauto).
  assert (EC : exists a' b', combine (a ++ o :: p :: q :: r :: b) ds = a' ++ (p, slope F (fst p)) :: (q, slope F (fst q)) :: b').
  { clear - EA Ld N1 N2. rewrite EA in *. set (c := a ++ [o]) in *. assert (Lc : length c = Datatypes.S (length a)) by (unfold c; rewrite app_length; cbn; lia).
    rewrite <- Lc in *. clearbody c. clear Lc EA. revert ds Ld N1 N2. induction c as [|x c IH]; intros ds Ld N1 N2.
    - destruct ds as [|d [|d' ds]]; try discriminate. cbn [nth_error length] in *. injection N1 as ->. injection N2 as ->.
      exists [], (combine (r :: b) ds). reflexivity.
    - destruct ds as [|d ds]; [discriminate|]. cbn [length app] in *. destruct (IH ds) as (a' & b' & EC); auto; try lia.
      exists ((x, d) :: a'), b'. cbn [combine]. rewrite EC. reflexivity. }
  destruct EC as (a' & b' & EC). assert (HI' : increasing (map fst (map fst (combine (a ++ o :: p :: q :: r :: b) ds)))) by (rewrite combine_fst; auto).
  rewrite EC in Ev, HI'. destruct (mapM_nth _ _ _ Ev i _ Hi) as (z & Ez & Fz). rewrite Hw in Ez. injection Ez as <-.
  assert (Ep : snd p = value F (fst p)) by (apply HIn; cbn; tauto). assert (Eq : snd q = value F (fst q)) by (apply HIn; cbn; tauto).
  destruct p as [x0 y0], q as [x1 y1]. cbn [fst snd] in *. rewrite seg_ppoly in Fz; auto. apply ok_inv in Fz. subst w y0 y1. apply hermite_exact; auto.
Qed.

(** ** Akima on equally spaced knots *)
Lemma akima_step thr x c : (0 <= thr)%Qc -> akima4 thr (x, x + c, x + c + c, x + c + c + c)%Qc = (x + c + c / (1 + 1))%Qc.
Proof.
  intros Ht. unfold akima4, nhalf. num_qc. replace (x + c + c + c - (x + c + c))%Qc with c by ring. replace (x + c - x)%Qc with c by ring.
  destruct (Qc_ltb thr (Qc_abs c + Qc_abs c)) eqn:Et.
  - assert (Hc : (0 < Qc_abs c)%Qc) by (qc_bool; set (z := Qc_abs c) in *; clearbody z; qclra).
    set (z := Qc_abs c) in *. clearbody z. field. split; intros C; [discriminate|qclra].
  - change (nlit 1 2) with (/ (1 + 1))%Qc. field. discriminate.
Qed.

Fixpoint ap (n : nat) (x h : Qc) : list Qc := match n with O => [] | Datatypes.S n => x :: ap n (x + h)%Qc h end.
Definition nh (n : nat) (h : Qc) : Qc := (Qc_ofZ (Z.of_nat n) * h)%Qc.
Lemma nh_S n h : nh (Datatypes.S n) h = (nh n h + h)%Qc.
Proof. unfold nh. rewrite Nat2Z.inj_succ, <- Z.add_1_r, Qc_ofZ_add. change (Qc_ofZ 1) with 1%Qc. ring. Qed.
Lemma nh_0 h : nh 0 h = 0%Qc.
Proof. unfold nh. change (Qc_ofZ (Z.of_nat 0)) with 0%Qc. ring. Qed.
Lemma ap_snoc n : forall x h, ap (Datatypes.S n) x h = ap n x h ++ [x + nh n h]%Qc.
Proof.
  induction n as [|n IH]; intros x h; [cbn; rewrite nh_0, Qcplus_0_r; reflexivity|].
  change (ap (Datatypes.S (Datatypes.S n)) x h) with (x :: ap (Datatypes.S n) (x + h)%Qc h). rewrite IH. cbn [ap app]. f_equal. f_equal.
  rewrite nh_S. f_equal. ring.
Qed.
Lemma ap_length n x h : length (ap n x h) = n.
Proof. revert x. induction n as [|n IH]; intros x; cbn; auto. Qed.
Lemma quads_ap {X} (g : Qc -> X) n : forall y h, quads (map g (ap (n + 3) y h)) =
  map (fun y => (g y, g (y + h), g (y + h + h), g (y + h + h + h))%Qc) (ap n y h).
Proof.
  induction n as [|n IH]; intros y h; [reflexivity|].
  specialize (IH (y + h)%Qc h). replace (Datatypes.S n + 3)%nat with (Datatypes.S (n + 3)) by lia.
  replace (n + 3)%nat with (Datatypes.S (Datatypes.S (Datatypes.S n))) in * by lia. cbn [ap map] in *. rewrite quads_cons, IH. reflexivity.
Qed.

Lemma evenly_tl h p pts : evenly h (p :: pts) -> evenly h pts.
Proof. intros He a x y b E. apply (He (p :: a) x y b). cbn [app]. rewrite E. reflexivity. Qed.
Lemma evenly_ap h pts : forall p, evenly h (p :: pts) -> map fst (p :: pts) = ap (length (p :: pts)) (fst p) h.
Proof.
  induction pts as [|q pts IH]; intros p He; [reflexivity|]. cbn [map length] in *.
  change (fst p :: map fst (q :: pts) = fst p :: ap (length (q :: pts)) (fst p + h)%Qc h). f_equal.
  cbn [map]. rewrite (IH q (evenly_tl _ _ _ He)). cbn [length]. f_equal. rewrite <- (He [] p q pts eq_refl). ring.
Qed.
Definition step (F : piece) (h x : Qc) : Qc := (k1 F + k2 F * (x + x + h))%Qc.
Lemma chords_ap F h pts : k3 F = 0%Qc -> (0 < h)%Qc -> forall p, on F (p :: pts) -> evenly h (p :: pts) ->
  chords (p :: pts) = map (step F h) (ap (length pts) (fst p) h).
Proof.
  intros H3 Hh. induction pts as [|q pts IH]; intros p HF He; [reflexivity|].
  change (chords (p :: q :: pts)) with (chord p q :: chords (q :: pts)). cbn [length ap map].
  pose proof (He [] p q pts eq_refl) as Hq. assert (Eq : fst q = (fst p + h)%Qc) by (rewrite <- Hq; ring).
  rewrite (IH q (fun r Hr => HF r (or_intror Hr)) (evenly_tl _ _ _ He)), Eq. f_equal.
  rewrite (chord_on F); auto.
  - rewrite Eq. unfold step. ring.
  - apply HF. left. auto.
  - apply HF. right. left. auto.
  - rewrite Eq. qclra.
Qed.
Lemma akima_chords_ap F h n x : akima_chords (map (step F h) (ap (Datatypes.S (Datatypes.S n)) x h)) =
  map (step F h) (ap (n + 6) (x - h - h)%Qc h).
Proof.
  set (ms := map (step F h) (ap (Datatypes.S (Datatypes.S n)) x h)).
  assert (ER : rev ms = step F h (x + nh (Datatypes.S n) h)%Qc :: step F h (x + nh n h)%Qc :: rev (map (step F h) (ap n x h))).
  { unfold ms. rewrite !ap_snoc, !map_app, !rev_app_distr. reflexivity. }
  rewrite (akima_chords_eq ms (step F h x) (step F h (x + h)%Qc) (map (step F h) (ap n (x + h + h)%Qc h)) _ _ _ eq_refl ER).
  replace (n + 6)%nat with (Datatypes.S (Datatypes.S (Datatypes.S (Datatypes.S (Datatypes.S (Datatypes.S n)))))) by lia.
  assert (E : forall l y, l = ap (Datatypes.S (Datatypes.S (Datatypes.S (Datatypes.S n)))) y h ->
     ap (Datatypes.S (Datatypes.S (Datatypes.S (Datatypes.S (Datatypes.S (Datatypes.S n)))))) (y - h - h)%Qc h = (y - h - h)%Qc :: (y - h)%Qc :: l).
  { intros l y ->. cbn [ap]. replace (y - h - h + h)%Qc with (y - h)%Qc by ring. replace (y - h + h)%Qc with y by ring. reflexivity. }
  rewrite (E _ x eq_refl). cbn [map]. rewrite 2!(ap_snoc (Datatypes.S _)), !map_app. cbn [map]. fold ms. rewrite <- app_assoc. cbn [app].
  f_equal; [unfold step; ring|]. f_equal; [unfold step; ring|]. apply f_equal. rewrite !nh_S. unfold step.
  f_equal; [ring|]. f_equal. ring.
Qed.
Lemma akima_exact F h pts t v : k3 F = 0%Qc -> (0 < h)%Qc -> evenly h pts -> scipy_spl Akima pts t = Ok v -> on F pts ->
  v = map (value F) t.
Proof.
  intros H3 Hh He E HF. cbn [scipy_spl] in E. destruct (draw_inv _ akima_rule _ _ _ E) as (ds & Ed & Ld & HI & _).
  apply (draw_exact _ F _ _ _ ds akima_rule E Ed HF).
  assert (Hl : (3 <= length pts)%nat) by (destruct pts as [|p0 [|p1 [|p2 l]]]; try discriminate; cbn; lia).
  rewrite akima_ok in Ed by auto. apply ok_inv in Ed. subst ds. destruct pts as [|p pts]; [cbn in Hl; lia|].
  rewrite (chords_ap F h) by auto. cbn [length] in Hl. replace (length pts) with (Datatypes.S (Datatypes.S (length pts - 2))) by lia.
  rewrite akima_chords_ap. replace (length pts - 2 + 6)%nat with (length (p :: pts) + 3)%nat by (cbn [length]; lia).
  rewrite quads_ap. unfold akima_of.
  set (ws := map (fun y => (step F h y, step F h (y + h), step F h (y + h + h), step F h (y + h + h + h))%Qc) (ap (length (p :: pts)) (fst p - h - h)%Qc h)).
  assert (T0 : (0 <= nlit 1 1000000000 * top (map akima_weight ws))%Qc).
  { apply mul_nonneg; [discriminate|]. apply (proj1 (top_from _ 0%Qc)). }
  set (thr := (nlit 1 1000000000 * top (map akima_weight ws))%Qc) in *. change (nmul (nlit 1 1000000000) (top (map akima_weight ws))) with thr. clearbody thr. unfold ws.
  rewrite map_map. rewrite <- (map_map fst (slope F)), (evenly_ap h) by auto.
  assert (G : forall n y, map (fun x => akima4 thr (step F h x, step F h (x + h), step F h (x + h + h), step F h (x + h + h + h)))%Qc (ap n (y - h - h)%Qc h)
    = map (slope F) (ap n y h)).
  { induction n as [|n IH]; intros y; [reflexivity|]. cbn [ap map]. f_equal.
    - set (x := (y - h - h)%Qc). set (c := (k2 F * (h + h))%Qc).
      replace (step F h (x + h)%Qc) with (step F h x + c)%Qc by (unfold step, c; ring).
      replace (step F h (x + h + h)%Qc) with (step F h x + c + c)%Qc by (unfold step, c; ring).
      replace (step F h (x + h + h + h)%Qc) with (step F h x + c + c + c)%Qc by (unfold step, c; ring).
      rewrite akima_step by auto. unfold step, c, x, slope. rewrite H3. field. discriminate.
    - replace (y - h - h + h)%Qc with (y + h - h - h)%Qc by ring. apply IH. }
  apply G.
Qed.

(** ** Straight lines *)
Lemma flat_slopes sl pts ds a b : rule sl -> increasing (map fst pts) -> sl pts = Ok ds ->
  sl (map (fun p => (fst p, fst p)) pts) = Ok (map (fun _ => 1%Qc) pts) ->
  (forall p, In p pts -> snd p = (a * fst p + b)%Qc) -> ds = map (fun _ => a) pts.
Proof.
  intros R HI Ed E1 HL. pose proof (rule_affine _ R a b _ _ E1) as E2. rewrite map_map in E2.
  assert (EP : map (fun x : Qc * Qc => (fst (fst x, fst x), a * snd (fst x, fst x) + b)%Qc) pts = pts).
  { rewrite <- (map_id pts) at 2. apply map_ext_in. intros [x y] Hp. pose proof (HL _ Hp) as K. cbn [fst snd] in *. rewrite <- K. reflexivity. }
  rewrite EP, Ed in E2. apply ok_inv in E2. rewrite <- E2, map_map. apply map_ext. intros _. ring.
Qed.

Lemma triples_in {X} (l : list X) p q r : In (p, q, r) (triples l) -> exists a b, l = a ++ p :: q :: r :: b.
Proof.
  induction l as [|x l IH]; [intros []|]. destruct l as [|y [|z l]]; [intros []|intros []|]. rewrite triples_cons.
  intros [E|Hi]; [injection E as <- <- <-; exists [], l; reflexivity|].
  destruct (IH Hi) as (a & b & E). exists (x :: a), b. cbn [app]. rewrite <- E. reflexivity.
Qed.
Definition diag (p : Qc * Qc) : Qc * Qc := (fst p, fst p).
Lemma diag_fst pts : map fst (map diag pts) = map fst pts.
Proof. rewrite map_map. reflexivity. Qed.
Lemma chord_diag p q : (fst p < fst q)%Qc -> snd p = fst p -> snd q = fst q -> chord p q = 1%Qc.
Proof. intros Hx Ep Eq. unfold chord, gap. num_qc. rewrite Ep, Eq. field. apply gap_ne. auto. Qed.
Lemma all_ones {X} (pts : list X) (l : list Qc) : length l = length pts -> (forall x, In x l -> x = 1%Qc) -> l = map (fun _ => 1%Qc) pts.
Proof.
  revert l. induction pts as [|p pts IH]; intros [|x l] HL H1; try discriminate; auto. cbn [map]. f_equal; [apply H1; left; auto|].
  apply IH; [cbn in HL; lia|]. intros y Hy. apply H1. right. auto.
Qed.
Lemma chords_in pts x : In x (chords pts) -> exists a p q b, pts = a ++ p :: q :: b /\ x = chord p q.
Proof.
  induction pts as [|p pts IH]; [intros []|]. destruct pts as [|q pts]; [intros []|].
  change (chords (p :: q :: pts)) with (chord p q :: chords (q :: pts)).
  intros [<-|Hi]; [exists [], p, q, pts; auto|]. destruct (IH Hi) as (a & p' & q' & b & E & ->). exists (p :: a), p', q', b.
  split; auto. cbn [app]. rewrite <- E. reflexivity.
Qed.
Lemma gradient_form pts p0 p1 p2 r0 r1 r2 l m : pts = p0 :: p1 :: p2 :: l -> rev pts = r0 :: r1 :: r2 :: m ->
  gradient_slopes pts = Ok (chord p0 p1 :: map grad3 (triples pts) ++ [chord r1 r0]).
Proof. intros EP ER. unfold gradient_slopes. subst pts. cbv beta iota. rewrite ER. reflexivity. Qed.
Lemma pchip_form pts p0 p1 p2 r0 r1 r2 l m : pts = p0 :: p1 :: p2 :: l -> rev pts = r0 :: r1 :: r2 :: m ->
  pchip_slopes pts = Ok (pchip_edge (gap p0 p1) (gap p1 p2) (chord p0 p1) (chord p1 p2) :: map pchip3 (triples pts) ++
    [pchip_edge (gap r1 r0) (gap r2 r1) (chord r1 r0) (chord r2 r1)]).
Proof. intros EP ER. unfold pchip_slopes. subst pts. cbv beta iota. rewrite ER. reflexivity. Qed.
Section Diag.
Variable pts : list (Qc * Qc).
Hypothesis HI : increasing (map fst pts).
Hypothesis Hd : forall p, In p pts -> snd p = fst p.
Lemma diag_pair a p q b : pts = a ++ p :: q :: b -> chord p q = 1%Qc /\ (0 < gap p q)%Qc.
Proof.
  intros E. assert (Hx : (fst p < fst q)%Qc).
  { apply (proj1 (increasing_pair _) HI (map fst a) _ _ (map fst b)). rewrite E, map_app. reflexivity. }
  split; [|unfold gap; num_qc; qclra]. apply chord_diag; auto; apply Hd; rewrite E; apply in_or_app; right; [left|right; left]; auto.
Qed.
Lemma diag_gradient ds : gradient_slopes pts = Ok ds -> forall x, In x ds -> x = 1%Qc.
Proof.
  intros E x Hx. assert (H3 : (3 <= length pts)%nat) by (destruct pts as [|p0 [|p1 [|p2 l]]]; try discriminate; cbn; lia).
  destruct (ends_ex pts H3) as (p0 & p1 & p2 & r0 & r1 & r2 & l & m & EP & ER).
  assert (EL : pts = (rev m ++ [r2]) ++ r1 :: r0 :: []).
  { rewrite <- (rev_involutive pts), ER. cbn [rev]. rewrite <- !app_assoc. reflexivity. }
  rewrite (gradient_form _ _ _ _ _ _ _ _ _ EP ER) in E. apply ok_inv in E. subst ds.
  destruct Hx as [<-|Hx]; [apply (diag_pair [] p0 p1 (p2 :: l)); auto|]. apply in_app_or in Hx as [Hx|[<-|[]]].
  2:{ apply (diag_pair _ r1 r0 [] EL). }
  apply in_map_iff in Hx as ([[p q] r] & <- & Hw). apply triples_in in Hw as (a & b & EE).
  destruct (diag_pair a p q (r :: b) EE) as [C1 G1]. destruct (diag_pair (a ++ [p]) q r b) as [C2 G2]; [rewrite EE, <- app_assoc; reflexivity|].
  unfold grad3. rewrite C1, C2. num_qc. set (h1 := gap p q) in *. set (h2 := gap q r) in *. clearbody h1 h2. field. intros C. qclra.
Qed.
Lemma edge_one h0 h1 : (0 < h0)%Qc -> (0 < h1)%Qc -> pchip_edge h0 h1 1%Qc 1%Qc = 1%Qc.
Proof.
  intros P0 P1. unfold pchip_edge. num_qc. rewrite two_qc. replace ((((1 + 1) * h0 + h1) * 1 - h0 * 1) / (h0 + h1))%Qc with 1%Qc; [reflexivity|].
  field. intros C. qclra.
Qed.
Lemma diag_pchip ds : pchip_slopes pts = Ok ds -> forall x, In x ds -> x = 1%Qc.
Proof.
  intros E x Hx. assert (H3 : (3 <= length pts)%nat) by (destruct pts as [|p0 [|p1 [|p2 l]]]; try discriminate; cbn; lia).
  destruct (ends_ex pts H3) as (p0 & p1 & p2 & r0 & r1 & r2 & l & m & EP & ER).
  assert (EL : pts = rev m ++ r2 :: r1 :: r0 :: []).
  { rewrite <- (rev_involutive pts), ER. cbn [rev]. rewrite <- !app_assoc. reflexivity. }
  rewrite (pchip_form _ _ _ _ _ _ _ _ _ EP ER) in E. apply ok_inv in E. subst ds.
  destruct Hx as [<-|Hx].
  { destruct (diag_pair [] p0 p1 (p2 :: l) EP) as [-> G1]. destruct (diag_pair [p0] p1 p2 l EP) as [-> G2]. apply edge_one; auto. }
  apply in_app_or in Hx as [Hx|[<-|[]]].
  2:{ destruct (diag_pair (rev m) r2 r1 [r0] EL) as [-> G1]. destruct (diag_pair (rev m ++ [r2]) r1 r0 []) as [-> G2]; [rewrite EL, <- app_assoc; reflexivity|].
      apply edge_one; auto. }
  apply in_map_iff in Hx as ([[p q] r] & <- & Hw). apply triples_in in Hw as (a & b & EE).
  destruct (diag_pair a p q (r :: b) EE) as [C1 G1]. destruct (diag_pair (a ++ [p]) q r b) as [C2 G2]; [rewrite EE, <- app_assoc; reflexivity|].
  unfold pchip3. rewrite C1, C2. cbn [negb orb]. change (nsign 1%Qc =? nsign 1%Qc) with true. num_qc.
  change (Qc_eqb 1 (Q2Qc 0)) with false. cbn [negb orb]. cbv zeta. rewrite two_qc. change (Q2Qc 1) with 1%Qc.
  set (h1 := gap p q) in *. set (h2 := gap q r) in *. clearbody h1 h2. field. split; [discriminate|]. intros C.
  match type of C with context [(?k * h2 + h1)%Qc] => change k with (1 + 1)%Qc in C end. rewrite !dbl in C. qclra.
Qed.
Lemma diag_akima ds : akima_slopes pts = Ok ds -> forall x, In x ds -> x = 1%Qc.
Proof.
  intros E x Hx. assert (H3 : (3 <= length pts)%nat) by (destruct pts as [|p0 [|p1 [|p2 l]]]; try discriminate; cbn; lia).
  rewrite akima_ok in E by auto. apply ok_inv in E. subst ds.
  assert (HC : chords pts = repeat 1%Qc (length pts - 1)).
  { rewrite <- chords_length. generalize (fun x Hx => chords_in pts x Hx). intros K.
    assert (K1 : forall x, In x (chords pts) -> x = 1%Qc).
    { intros y Hy. destruct (K y Hy) as (a & p & q & b & EE & ->). apply (diag_pair a p q b EE). }
    clear - K1. induction (chords pts) as [|y l IH]; auto. cbn [length repeat]. rewrite (K1 y) by (left; auto). f_equal. apply IH. intros z Hz. apply K1. right. auto. }
  rewrite HC in Hx. replace (length pts - 1)%nat with (Datatypes.S (Datatypes.S (length pts - 3))) in Hx by lia.
  set (n := (length pts - 3)%nat) in *. assert (EK : akima_chords (repeat 1%Qc (Datatypes.S (Datatypes.S n))) = map (fun _ => 1%Qc) (ap (n + 6) 0%Qc 0%Qc)).
  { pose proof (akima_chords_ap (Piece 0 1 0 0)%Qc 1%Qc n 0%Qc) as G.
    assert (R1 : forall m x h, map (step (Piece 0 1 0 0)%Qc 1%Qc) (ap m x h) = repeat 1%Qc m).
    { induction m as [|m IH]; intros x' h; [reflexivity|]. cbn [ap map repeat]. rewrite IH. f_equal. all: unfold step; cbn; ring. }
    assert (R2 : forall m x h, map (fun _ : Qc => 1%Qc) (ap m x h) = repeat 1%Qc m).
    { induction m as [|m IH]; intros x' h; [reflexivity|]. cbn [ap map repeat]. f_equal. apply IH. }
    rewrite !R1 in G. rewrite R2. exact G. }
  rewrite EK in Hx. replace (n + 6)%nat with (n + 3 + 3)%nat in Hx by lia. rewrite quads_ap in Hx. unfold akima_of in Hx.
  apply in_map_iff in Hx as (w & <- & Hw). apply in_map_iff in Hw as (y & <- & _).
  match goal with |- akima4 ?t _ = _ => set (thr := t) end.
  assert (T0 : (0 <= thr)%Qc).
  { unfold thr. apply mul_nonneg; [discriminate|]. apply (proj1 (top_from _ 0%Qc)). }
  pose proof (akima_step thr 1%Qc 0%Qc T0) as G. replace (1 + 0 + 0 + 0)%Qc with 1%Qc in G by ring. replace (1 + 0 + 0)%Qc with 1%Qc in G by ring.
  replace (1 + 0)%Qc with 1%Qc in G by ring. rewrite G. unfold Qcdiv. ring.
Qed.
End Diag.

Lemma line_exact_but k pts t v a b : k <> Quadratic -> increasing (map fst pts) -> scipy_spl k pts t = Ok v ->
  (forall p, In p pts -> snd p = (a * fst p + b)%Qc) -> v = map (fun u => a * u + b)%Qc t.
Proof.
  intros NQ HI E HL. set (F := Piece b a 0%Qc 0%Qc).
  assert (HF : on F pts) by (intros p Hp; rewrite (HL p Hp); unfold value, F; cbn; ring).
  assert (EF : map (value F) t = map (fun u => a * u + b)%Qc t) by (apply map_ext; intros u; unfold value, F; cbn; ring).
  rewrite <- EF.
  assert (HID : increasing (map fst (map diag pts))) by (rewrite diag_fst; auto).
  assert (Hdg : forall p, In p (map diag pts) -> snd p = fst p) by (intros p Hp; apply in_map_iff in Hp as (q & <- & _); reflexivity).
  assert (G : forall sl, rule sl -> (forall ds, sl (map diag pts) = Ok ds -> forall x, In x ds -> x = 1%Qc) ->
     (forall ds, sl pts = Ok ds -> (3 <= length pts)%nat) -> draw sl pts t = Ok v -> v = map (value F) t).
  { intros sl R H1 H3 E'. destruct (draw_inv _ R _ _ _ E') as (ds & Ed & Ld & _ & _).
    apply (draw_exact sl F pts t v ds R E' Ed HF). assert (HZ : 3 <= zlen (map diag pts)).
    { pose proof (H3 _ Ed). unfold zlen. rewrite map_length. lia. }
    destruct (rule_total _ R _ HID HZ) as (ds' & Ed').
    assert (EO : ds' = map (fun _ => 1%Qc) pts).
    { apply all_ones; [rewrite (rule_length _ R _ _ Ed'); apply map_length|]. apply (H1 _ Ed'). }
    rewrite (flat_slopes sl pts ds a b R HI Ed); auto.
    - apply map_ext. intros p. unfold slope, F. cbn. ring.
    - rewrite EO in Ed'. exact Ed'. }
  assert (GL : forall k, lin_spl k pts t = Ok v -> v = map (value F) t).
  { intros k' E'. unfold lin_spl in E'. rewrite EF. clear - E' HL HI. revert v E'. induction t as [|u t IH]; intros v E'; cbn [mapM map] in *; [apply ok_inv in E'; auto|].
    apply bind_ok in E' as (y & E1 & E). apply bind_ok in E as (ys & E2 & E). apply ok_inv in E. subst v. f_equal; auto.
    destruct (lin_at_seg _ _ _ E1) as (a0 & x0 & y0 & x1 & y1 & b0 & Ep & U0 & U1 & ->).
    assert (Hpq : (x0 < x1)%Qc).
    { apply (proj1 (increasing_pair _) HI (map fst a0) _ _ (map fst b0)). rewrite Ep, map_app. reflexivity. }
    pose proof (HL (x0, y0)) as K0. pose proof (HL (x1, y1)) as K1. cbn [fst snd] in *.
    rewrite K0, K1 by (rewrite Ep; apply in_or_app; right; cbn [In]; auto). unfold seg. field. apply gap_ne. auto. }
  destruct k; try congruence; cbn [scipy_spl] in E; eauto.
  - apply (G _ akima_rule); auto; [apply diag_akima; auto|]. intros ds. destruct pts as [|p0 [|p1 [|p2 l]]]; try discriminate; cbn; lia.
  - destruct (le_lt_dec 4 (length pts)) as [H4|H4]; [apply (cubic_exact F pts t v H4); auto|].
    destruct (draw_inv _ cubic_rule _ _ _ E) as (ds & Ed & _ & _ & _). pose proof (cubic_len _ _ Ed) as H3.
    destruct pts as [|p [|q [|r [|? l]]]]; cbn [length] in *; try lia. apply (cubic_exact3 F p q r t v); auto.
  - apply (G _ pchip_rule); auto; [apply diag_pchip; auto|]. intros ds. destruct pts as [|p0 [|p1 [|p2 l]]]; try discriminate; cbn; lia.
  - apply (G _ gradient_rule); auto; [apply diag_gradient; auto|]. intros ds. destruct pts as [|p0 [|p1 [|p2 l]]]; try discriminate; cbn; lia.
Qed.

(** ** Akima and three knots in a line *)
Lemma draw_gap sl c p q b t v ds dp dq : rule sl -> draw sl (c ++ p :: q :: b) t = Ok v -> sl (c ++ p :: q :: b) = Ok ds ->
  nth_error ds (length c) = Some dp -> nth_error ds (Datatypes.S (length c)) = Some dq ->
  forall i u w, nth_error t i = Some u -> nth_error v i = Some w -> (fst p <= u)%Qc -> (u <= fst q)%Qc ->
  w = hermite_at (fst p) (snd p) dp (fst q) (snd q) dq u.
Proof.
  intros R E Ed N1 N2 i u w Hi Hw U0 U1. destruct (draw_inv _ R _ _ _ E) as (ds' & Ed' & Ld & HI & Ev).
  rewrite Ed in Ed'. apply ok_inv in Ed'. subst ds'.
  assert (EC : exists a' b', combine (c ++ p :: q :: b) ds = a' ++ (p, dp) :: (q, dq) :: b').
  { clear - Ld N1 N2. revert ds Ld N1 N2. induction c as [|x c IH]; intros ds Ld N1 N2.
    - destruct ds as [|d [|d' ds]]; try discriminate. cbn [nth_error length] in *. injection N1 as ->. injection N2 as ->.
      exists [], (combine b ds). reflexivity.
    - destruct ds as [|d ds]; [discriminate|]. cbn [length app] in *. destruct (IH ds) as (a' & b' & EC); auto; try lia.
      exists ((x, d) :: a'), b'. cbn [combine]. rewrite EC. reflexivity. }
  destruct EC as (a' & b' & EC). assert (HI' : increasing (map fst (map fst (combine (c ++ p :: q :: b) ds)))) by (rewrite combine_fst; auto).
  rewrite EC in Ev, HI'. destruct (mapM_nth _ _ _ Ev i _ Hi) as (z & Ez & Fz). rewrite Hw in Ez. injection Ez as <-.
  destruct p as [x0 y0], q as [x1 y1]. cbn [fst snd] in *. rewrite seg_ppoly in Fz; auto. apply ok_inv in Fz. auto.
Qed.
Lemma quads_nth {X} (a : list X) o p q r b : nth_error (quads (a ++ o :: p :: q :: r :: b)) (length a) = Some (o, p, q, r).
Proof.
  induction a as [|x a IH]; [reflexivity|]. destruct a as [|y [|z [|z' a]]]; cbn [app length] in *; rewrite quads_cons; exact IH.
Qed.
Lemma chords_app c p l : chords (c ++ p :: l) = chords (c ++ [p]) ++ chords (p :: l).
Proof.
  induction c as [|x c IH]; [reflexivity|]. destruct c as [|y c]; [reflexivity|].
  cbn [app] in *. change (chords (x :: y :: c ++ p :: l)) with (chord x y :: chords (y :: c ++ p :: l)). rewrite IH. reflexivity.
Qed.
(** Neighbouring chords, continued at either end, differ by no more than [M] if the chords do. *)
Definition tame_steps (M : Qc) (ms : list Qc) : Prop := forall a x y b, ms = a ++ x :: y :: b -> (Qc_abs (y - x) <= M)%Qc.
Lemma tame_cons M x y ms : (Qc_abs (y - x) <= M)%Qc -> tame_steps M (y :: ms) -> tame_steps M (x :: y :: ms).
Proof. intros H1 H2 [|z a] x' y' b E; cbn [app] in E; [injection E as <- <- _; auto|]. injection E as _ E. eapply H2; eauto. Qed.
Lemma tame_snoc M ms x y : (Qc_abs (y - x) <= M)%Qc -> tame_steps M (ms ++ [x]) -> tame_steps M (ms ++ [x; y]).
Proof.
  intros H1 H2 a x' y' b E. destruct b as [|z0 b0] eqn:Eb.
  - change [x; y] with ([x] ++ [y]) in E. rewrite app_assoc in E. change (a ++ [x'; y']) with (a ++ ([x'] ++ [y'])) in E. rewrite (app_assoc a) in E.
    apply app_inj_tail in E as [E <-]. apply app_inj_tail in E as [_ <-]. auto.
  - assert (NE : b <> []) by (rewrite Eb; discriminate). rewrite <- Eb in E. clear Eb. destruct (exists_last NE) as (b' & z & ->).
    change [x; y] with ([x] ++ [y]) in E. rewrite app_assoc in E. change (a ++ x' :: y' :: b' ++ [z]) with (a ++ (x' :: y' :: b') ++ [z]) in E.
    rewrite (app_assoc a) in E. apply app_inj_tail in E as [E _]. eapply H2; eauto.
Qed.
Lemma abs_same (x y : Qc) : (x = y \/ x = - y)%Qc -> Qc_abs x = Qc_abs y.
Proof. intros [->| ->]; auto. unfold Qc_abs. destruct (Qc_ltb (- y) 0) eqn:E1, (Qc_ltb y 0) eqn:E2; qc_bool; qclra. Qed.
Lemma akima_chords_tame M ms : tame_steps M ms -> tame_steps M (akima_chords ms).
Proof.
  intros HM. unfold akima_chords. destruct ms as [|m2 [|m3 l]]; try (intros [|? ?] ? ? ? E; discriminate).
  destruct (rev (m2 :: m3 :: l)) as [|k2 [|k3 m]] eqn:ER; try (intros [|? ?] ? ? ? E; discriminate).
  assert (EL : m2 :: m3 :: l = rev m ++ [k3; k2]).
  { rewrite <- (rev_involutive (m2 :: m3 :: l)), ER. cbn [rev]. rewrite <- app_assoc. reflexivity. }
  assert (A1 : (Qc_abs (m3 - m2) <= M)%Qc) by (apply (HM [] m2 m3 l); reflexivity).
  assert (A2 : (Qc_abs (k2 - k3) <= M)%Qc) by (apply (HM (rev m) k3 k2 []); auto).
  num_qc. rewrite two_qc. cbn [app]. apply tame_cons; [|apply tame_cons].
  - rewrite (abs_same _ (m3 - m2)%Qc); auto. left. ring.
  - rewrite (abs_same _ (m3 - m2)%Qc); auto. left. ring.
  - change (m2 :: m3 :: l ++ [(1 + 1) * k2 - k3; (1 + 1) * ((1 + 1) * k2 - k3) - k2]%Qc) with
      ((m2 :: m3 :: l) ++ [(1 + 1) * k2 - k3; (1 + 1) * ((1 + 1) * k2 - k3) - k2]%Qc).
    apply tame_snoc; [rewrite (abs_same _ (k2 - k3)%Qc); auto; left; ring|].
    rewrite EL in *. rewrite <- app_assoc. cbn [app].
    change (rev m ++ [k3; k2; (1 + 1) * k2 - k3]%Qc) with (rev m ++ ([k3] ++ [k2; (1 + 1) * k2 - k3]%Qc)). rewrite app_assoc.
    apply tame_snoc; [rewrite (abs_same _ (k2 - k3)%Qc); auto; left; ring|]. rewrite <- app_assoc. exact HM.
Qed.
Lemma quads_in {X} (l : list X) o p q r : In (o, p, q, r) (quads l) -> exists a b, l = a ++ o :: p :: q :: r :: b.
Proof.
  induction l as [|x l IH]; [intros []|]. destruct l as [|y [|z [|z' l]]]; [intros []|intros []|intros []|]. rewrite quads_cons.
  intros [E|Hi]; [injection E as <- <- <- <-; exists [], l; reflexivity|].
  destruct (IH Hi) as (a & b & E). exists (x :: a), b. cbn [app]. rewrite <- E. reflexivity.
Qed.
Lemma chord_rise p q : chord p q = rise p q. Proof. reflexivity. Qed.
Lemma chords_tame M pts : (forall a x y z b, pts = a ++ x :: y :: z :: b -> (Qc_abs (rise y z - rise x y) <= M)%Qc) -> tame_steps M (chords pts).
Proof.
  induction pts as [|x pts IH]; intros H; [intros [|? ?] ? ? ? E; discriminate|]. destruct pts as [|y [|z pts]]; try (intros [|? [|? ?]] ? ? ? E; discriminate).
  change (chords (x :: y :: z :: pts)) with (chord x y :: chord y z :: chords (z :: pts)). apply tame_cons; [apply (H [] x y z pts); reflexivity|].
  change (chord y z :: chords (z :: pts)) with (chords (y :: z :: pts)). apply IH. intros a x' y' z' b E. apply (H (x :: a) x' y' z' b). rewrite E. reflexivity.
Qed.
Lemma akima_kept thr m c d : (0 <= thr)%Qc -> (thr < Qc_abs (d - c))%Qc -> akima4 thr (m, m, c, d) = m.
Proof.
  intros H0 H. unfold akima4. num_qc. replace (Qc_abs (m - m)) with 0%Qc by (replace (m - m)%Qc with 0%Qc by ring; reflexivity).
  set (f := Qc_abs (d - c)) in *. clearbody f. replace (Qc_ltb thr (f + 0)) with true; [field; intros C; qclra|].
  symmetry. replace (f + 0)%Qc with f by ring. destruct (Qc_ltb thr f) eqn:E; auto. qc_bool. qclra.
Qed.
Lemma akima_kept2 thr z m c : (0 <= thr)%Qc -> (thr < Qc_abs (c - m))%Qc -> akima4 thr (z, m, m, c) = m.
Proof.
  intros H0 H. unfold akima4. num_qc. assert (Hz : (0 <= Qc_abs (m - z))%Qc) by (unfold Qc_abs; destruct (Qc_ltb (m - z) 0) eqn:E; qc_bool; qclra).
  set (f := Qc_abs (c - m)) in *. set (g := Qc_abs (m - z)) in *. clearbody f g.
  replace (Qc_ltb thr (f + g)) with true; [field; intros C; qclra|].
  symmetry. destruct (Qc_ltb thr (f + g)) eqn:E; auto. qc_bool. qclra.
Qed.
Definition nano : Qc := nlit 1 1000000000.
Lemma akima_straight M l a b c d e r t v : scipy_spl Akima (l ++ a :: b :: c :: d :: e :: r) t = Ok v ->
  (forall l' x y z r', l ++ a :: b :: c :: d :: e :: r = l' ++ x :: y :: z :: r' -> (Qc_abs (rise y z - rise x y) <= M)%Qc) ->
  rise a b = rise b c ->
  ((M + M) * nano < Qc_abs (rise c d - rise b c))%Qc ->
  ((M + M) * nano < Qc_abs (rise d e - rise c d))%Qc ->
  forall i u w, nth_error t i = Some u -> nth_error v i = Some w -> (fst b <= u)%Qc -> (u <= fst c)%Qc ->
  w = (snd b + rise b c * (u - fst b))%Qc.
Proof.
  intros E HM Hm Hc Hd i u w Hi Hw U0 U1. cbn [scipy_spl] in E. set (pts := l ++ a :: b :: c :: d :: e :: r) in *.
  destruct (draw_inv _ akima_rule _ _ _ E) as (ds & Ed & Ld & HI & Ev).
  assert (H3 : (3 <= length pts)%nat) by (unfold pts; rewrite app_length; cbn [length]; lia).
  pose proof Ed as Ed0. rewrite akima_ok in Ed by auto. apply ok_inv in Ed.
  set (ms := chords pts) in *. assert (EM : ms = chords (l ++ [a]) ++ chord a b :: chord b c :: chord c d :: chord d e :: chords (e :: r)).
  { unfold ms, pts. rewrite chords_app. reflexivity. }
  set (cs := chords (l ++ [a])) in *. assert (Lcs : length cs = length l) by (unfold cs; rewrite chords_length, app_length; cbn; lia).
  assert (HT : tame_steps M (akima_chords ms)) by (apply akima_chords_tame, chords_tame; exact HM).
  assert (EX : exists x0 x1 y0, akima_chords ms = (x0 :: x1 :: cs) ++ chord a b :: chord b c :: chord c d :: chord d e :: y0).
  { destruct ms as [|m2 [|m3 ms']] eqn:EQ; try (apply (f_equal (@length _)) in EM; rewrite app_length in EM; cbn in EM; lia).
    assert (L2 : (2 <= length (rev (m2 :: m3 :: ms')))%nat) by (rewrite rev_length; cbn; lia).
    unfold akima_chords. destruct (rev (m2 :: m3 :: ms')) as [|k2 [|k3 kk]]; cbn [length] in L2; try lia. rewrite EM.
    eexists _, _, _. cbn [app]. rewrite <- !app_assoc. cbn [app]. reflexivity. }
  destruct EX as (x0 & x1 & y0 & EX). unfold akima_of in Ed.
  match type of Ed with ds = map (akima4 ?t) _ => set (thr := t) in * end.
  assert (T0 : (0 <= thr)%Qc).
  { unfold thr. apply mul_nonneg; [discriminate|]. apply (proj1 (top_from _ 0%Qc)). }
  assert (M0 : (0 <= M)%Qc).
  { eapply Qcle_trans; [|apply (HM l a b c (d :: e :: r)); reflexivity]. unfold Qc_abs. destruct (Qc_ltb _ 0) eqn:E1; qc_bool; qclra. }
  assert (T1 : (thr <= (M + M) * nano)%Qc).
  { unfold thr. 
    assert (TT : (top (map akima_weight (quads (akima_chords ms))) <= M + M)%Qc).
    { destruct (top_from (map akima_weight (quads (akima_chords ms))) 0%Qc) as (_ & _ & [G|G]).
      - unfold top. rewrite G. qclra.
      - unfold top. apply in_map_iff in G as ([[[o p] q] s] & <- & G). apply quads_in in G as (aa & bb & G). unfold akima_weight. num_qc.
        pose proof (HT aa o p (q :: s :: bb) G) as G1. pose proof (HT (aa ++ [o; p]) q s bb) as G2.
        rewrite G, <- app_assoc in G2. specialize (G2 eq_refl). set (z1 := Qc_abs (s - q)) in *. set (z2 := Qc_abs (p - o)) in *. clearbody z1 z2. qclra. }
    fold nano. rewrite Qcmult_comm. apply Qcmult_le_compat_r; [exact TT|discriminate]. }
  assert (Hab : chord a b = chord b c) by exact Hm. change (rise b c) with (chord b c) in *. change (rise c d) with (chord c d) in *. change (rise d e) with (chord d e) in *.
  assert (N2 : nth_error ds (Datatypes.S (Datatypes.S (length l))) = Some (chord b c)).
  { rewrite Ed, nth_error_map. pose proof (quads_nth (x0 :: x1 :: cs) (chord a b) (chord b c) (chord c d) (chord d e) y0) as G.
    rewrite <- EX in G. cbn [length] in G. rewrite Lcs in G. rewrite G. cbn [option_map]. rewrite Hab, akima_kept; auto. eapply Qcle_lt_trans; eauto. }
  assert (N1 : nth_error ds (Datatypes.S (length l)) = Some (chord b c)).
  { assert (EX2 : exists z pre, length pre = Datatypes.S (length l) /\ x0 :: x1 :: cs = pre ++ [z]).
    { destruct (@exists_last _ (x0 :: x1 :: cs) ltac:(discriminate)) as (pre & z & EZ). exists z, pre. split; auto.
      apply (f_equal (@length _)) in EZ. rewrite app_length in EZ. cbn [length] in EZ. lia. }
    destruct EX2 as (z & pre & Lp & EZ). rewrite EZ, <- app_assoc in EX. cbn [app] in EX.
    pose proof (quads_nth pre z (chord a b) (chord b c) (chord c d) (chord d e :: y0)) as G. rewrite <- EX, Lp in G.
    rewrite Ed, nth_error_map, G. cbn [option_map]. rewrite Hab, akima_kept2; auto. eapply Qcle_lt_trans; eauto. }
  assert (EP : pts = (l ++ [a]) ++ b :: c :: d :: e :: r) by (unfold pts; rewrite <- app_assoc; reflexivity).
  assert (HX : (fst b < fst c)%Qc).
  { apply (proj1 (increasing_pair _) HI (map fst (l ++ [a])) _ _ (map fst (d :: e :: r))). rewrite EP, map_app. reflexivity. }
  clear EM EX HT Ed. rewrite EP in E, Ed0. rewrite (draw_gap _ (l ++ [a]) b c (d :: e :: r) t v ds (chord b c) (chord b c) akima_rule E Ed0) with (i := i) (u := u) (w := w); auto;
    try (rewrite app_length; cbn [length]; replace (length l + 1)%nat with (Datatypes.S (length l)) by lia; assumption).
  unfold hermite_at, chord, gap. num_qc. rewrite two_qc. field. apply gap_ne. auto.
Qed.
Lemma nano_scale (x y : Qc) : (x < Qc_ofZ 1000000000 * y)%Qc -> (x * nano < y)%Qc.
Proof.
  intros H. assert (E : (y = Qc_ofZ 1000000000 * y * nano)%Qc).
  { assert (G : (Qc_ofZ 1000000000 * nano = 1)%Qc) by (apply Qc_is_canon; reflexivity). transitivity (Qc_ofZ 1000000000 * nano * y)%Qc; [rewrite G; ring|ring]. }
  rewrite E. apply Qcmult_lt_compat_r; [reflexivity|exact H].
Qed.
Lemma cubic_exact_few F pts t v : (length pts < 4)%nat -> k3 F = 0%Qc -> scipy_spl Cubic pts t = Ok v -> on F pts -> v = map (value F) t.
Proof.
  intros H4 H3 E HF. destruct (draw_inv _ cubic_rule _ _ _ E) as (ds & Ed & _ & _ & _). pose proof (cubic_len _ _ Ed) as HL.
  destruct pts as [|p [|q [|r [|? l]]]]; cbn [length] in *; try lia. apply (cubic_exact3 F p q r t v); auto.
Qed.
