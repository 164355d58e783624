(** * KindsArcs: the quadratic spline is the only one with parabolas that join halfway between the knots. *)
From Verif Require Import PyFacts QcFacts Emd Spec Demo EmdProofs EmdSimple ReverseLin RevSpec SymSpec Envelope.
From Verif Require Import Runs EmdSym Kinds KindsSpec KindsProofs KindsRules KindsCubic KindsOnly KindsMono KindsQuad KindsAll KindsExact.
From Coq Require Import ZifyBool ZifyNat QArith Qcanon Lia.
Open Scope Z_scope.

(** Second-order coefficients at the ends of a gap. *)
Definition cr (P Q : knot) : Qc := (((1 + 1 + 1 + 1) * chord (fst P) (fst Q) - (1 + 1 + 1) * snd P - snd Q) / ((1 + 1) * gap (fst P) (fst Q)))%Qc.
Definition cl (P Q : knot) : Qc := ((snd P + (1 + 1 + 1) * snd Q - (1 + 1 + 1 + 1) * chord (fst P) (fst Q)) / ((1 + 1) * gap (fst P) (fst Q)))%Qc.
Definition arc (w : knot * knot * knot) : piece := let '(P, Q, R) := w in Piece (snd (fst Q)) (snd Q) (cr Q R) 0%Qc.
Definition arcs_of (ks : list knot) : list piece := map arc (triples ks).

Lemma two_ne (h : Qc) : (0 < h)%Qc -> ((1 + 1) * h <> 0)%Qc.
Proof. intros H C. assert (E : ((1 + 1) * h = h + h)%Qc) by ring. rewrite E in C. qclra. Qed.
Lemma qeq3_iff P Q R : (0 < gap (fst P) (fst Q))%Qc -> (0 < gap (fst Q) (fst R))%Qc -> (qeq3 (P, Q, R) <-> cl P Q = cr Q R).
Proof.
  intros H1 H2. unfold qeq3, cl, cr. set (h1 := gap (fst P) (fst Q)) in *. set (h2 := gap (fst Q) (fst R)) in *.
  set (m1 := chord (fst P) (fst Q)). set (m2 := chord (fst Q) (fst R)). set (a := snd P). set (b := snd Q). set (c := snd R).
  clearbody h1 h2 m1 m2 a b c. pose proof (two_ne _ H1) as N1. pose proof (two_ne _ H2) as N2.
  assert (h1 <> 0)%Qc by (intros C; qclra). assert (h2 <> 0)%Qc by (intros C; qclra).
  assert (K : ((h2 * a + (1 + 1 + 1) * (h1 + h2) * b + h1 * c - (1 + 1 + 1 + 1) * (h2 * m1 + h1 * m2)) =
     ((a + (1 + 1 + 1) * b - (1 + 1 + 1 + 1) * m1) / ((1 + 1) * h1) - ((1 + 1 + 1 + 1) * m2 - (1 + 1 + 1) * b - c) / ((1 + 1) * h2)) * ((1 + 1) * (h1 * h2)))%Qc).
  { field. split; [|split]; auto; discriminate. }
  split; intros E.
  - set (X := ((a + _ - _) / _)%Qc) in *. set (Y := ((_ - _ - c) / _)%Qc) in *.
    assert (Z : ((X - Y) * ((1 + 1) * (h1 * h2)) = 0)%Qc) by (rewrite <- K, E; ring).
    apply Qcmult_integral in Z as [Z|Z]; [qclra|]. exfalso. apply Qcmult_integral in Z as [Z|Z]; [discriminate|]. apply Qcmult_integral in Z as [Z|Z]; auto.
  - rewrite E in K. set (Y := ((_ - _ - c) / _)%Qc) in K. replace (Y - Y)%Qc with 0%Qc in K by ring. rewrite Qcmult_0_l in K.
    set (A := (h2 * a + _ + _)%Qc) in *. set (B := (_ * (h2 * m1 + _))%Qc) in *. clearbody A B. qclra.
Qed.
Lemma combine_split pts ds l (o p : Qc * Qc) r : length ds = length pts -> pts = l ++ o :: p :: r ->
  exists (L : list knot) d e R, combine pts ds = L ++ (o, d) :: (p, e) :: combine r R /\ length L = length l /\ length R = length r.
Proof.
  intros Ld ->. revert ds Ld. induction l as [|x l IH]; intros ds Ld.
  - destruct ds as [|d [|e ds]]; try discriminate. exists [], d, e, ds. cbn in Ld |- *. repeat split; auto; lia.
  - destruct ds as [|d0 ds]; [discriminate|]. cbn [length app] in Ld. destruct (IH ds ltac:(lia)) as (L & d & e & R & E1 & E2 & E3).
    exists ((x, d0) :: L), d, e, R. cbn [app combine length]. rewrite E1, E2. repeat split; auto.
Qed.

Section Drawn.
Variables (pts : list (Qc * Qc)) (ds : list Qc).
Hypothesis HI : increasing (map fst pts).
Hypothesis Ed : quad_slopes pts = Ok ds.
Let H3 : (3 <= length pts)%nat := quad_len _ _ Ed.
Let ks := combine pts ds.
Let Ld : length ds = length pts := proj1 (proj1 (quad_iff pts ds H3 HI) Ed).
Let HQ : quad_eqs ks := proj2 (proj1 (quad_iff pts ds H3 HI) Ed).
Lemma ks_fst : map fst ks = pts. Proof. apply combine_fst. exact Ld. Qed.
Lemma ks_gap L P Q R : ks = L ++ P :: Q :: R -> (0 < gap (fst P) (fst Q))%Qc.
Proof.
  intros E. assert (G : (fst (fst P) < fst (fst Q))%Qc).
  { apply (proj1 (increasing_pair _) HI (map fst (map fst L)) _ _ (map fst (map fst R))). rewrite <- ks_fst, E, !map_app. reflexivity. }
  unfold gap. num_qc. qclra.
Qed.
Lemma ks_curv L P Q R M : ks = L ++ P :: Q :: R :: M -> cl P Q = cr Q R.
Proof.
  intros E. apply qeq3_iff.
  - apply (ks_gap L P Q (R :: M) E).
  - apply (ks_gap (L ++ [P]) Q R M). rewrite E, <- app_assoc. reflexivity.
  - pose proof (proj1 HQ) as F. rewrite Forall_forall in F. apply F. apply (nth_error_In _ (length L)). rewrite E. apply triples_nth.
Qed.
Lemma ks_split l o p q r : pts = l ++ o :: p :: q :: r -> exists L O P Q R, ks = L ++ O :: P :: Q :: R /\ fst O = o /\ fst P = p /\ fst Q = q /\
  length L = length l /\ length R = length r.
Proof.
  intros E. destruct (combine_split pts ds l o p (q :: r) Ld E) as (L & d & e & R & E1 & LL & LR).
  destruct R as [|f R]; [discriminate|]. exists L, (o, d), (p, e), (q, f), (combine r R). split; [exact E1|]. repeat split; auto.
  rewrite combine_length. cbn [length] in LR. lia.
Qed.
Lemma arc_nth L O P Q R : ks = L ++ O :: P :: Q :: R -> nth_error (arcs_of ks) (length L) = Some (arc (O, P, Q)).
Proof. intros E. unfold arcs_of. rewrite nth_error_map, E, triples_nth. reflexivity. Qed.
Lemma value_arc O P Q v : value (arc (O, P, Q)) v = (snd (fst P) + v * (snd P + v * cr P Q))%Qc.
Proof. unfold value, arc. cbn [k0 k1 k2 k3]. ring. Qed.
Lemma even_cl P Q : (0 < gap (fst P) (fst Q))%Qc -> even P Q -> forall u,
  (snd (fst Q) + (u - fst (fst Q)) * (snd Q + (u - fst (fst Q)) * cl P Q) = snd (fst P) + (u - fst (fst P)) * (snd P + (u - fst (fst P)) * cr P Q))%Qc.
Proof.
  intros HG HE u. unfold even in HE. assert (ES : snd Q = ((1 + 1) * chord (fst P) (fst Q) - snd P)%Qc) by (rewrite <- HE; ring).
  unfold cl, cr. rewrite ES. unfold chord, gap in *. num_qc. set (x0 := fst (fst P)) in *. set (x1 := fst (fst Q)) in *. field. split; [intros C; qclra|discriminate].
Qed.
Lemma arcs_drawn : arcs pts (arcs_of ks).
Proof.
  split.
  - unfold arcs_of. rewrite map_length, triples_length. unfold ks. rewrite combine_length, Ld, Nat.min_id. lia.
  - intros l o p q r A E EA. destruct (ks_split l o p q r E) as (L & O & P & Q & R & EK & <- & <- & <- & LL & LR).
    rewrite <- LL in EA. rewrite (arc_nth _ _ _ _ _ EK) in EA. assert (EA' : A = arc (O, P, Q)) by congruence. subst A. clear EA.
    pose proof (ks_gap _ _ _ _ EK) as G1. assert (EK' : ks = (L ++ [O]) ++ P :: Q :: R) by (rewrite EK, <- app_assoc; reflexivity).
    pose proof (ks_gap _ _ _ _ EK') as G2.
    split; [reflexivity|]. split; [rewrite value_arc; ring|]. split; [|split].
    + intros ->. destruct L; [|discriminate]. pose proof (proj1 (proj2 HQ) _ _ _ EK) as HE.
      rewrite value_arc, <- (ks_curv _ _ _ _ _ EK), (even_cl O P G1 HE (fst (fst O))). ring.
    + intros ->. destruct R; [|discriminate]. assert (HE : even P Q).
      { apply (proj2 (proj2 HQ) _ _ (rev (L ++ [O]))). rewrite EK', rev_app_distr. reflexivity. }
      rewrite value_arc, <- (even_cl P Q G2 HE (fst (fst Q))). ring.
    + intros B EB. destruct R as [|S R].
      { exfalso. assert (N : nth_error (arcs_of ks) (Datatypes.S (length l)) <> None) by (rewrite EB; discriminate). apply nth_error_Some in N.
        unfold arcs_of in N. rewrite map_length, triples_length, EK, app_length in N. cbn [length] in N. lia. }
      assert (EK2 : ks = (L ++ [O]) ++ P :: Q :: S :: R) by (rewrite EK, <- app_assoc; reflexivity).
      pose proof (arc_nth _ _ _ _ _ EK2) as EN. rewrite app_length in EN. cbn [length] in EN. rewrite LL in EN.
      replace (length l + 1)%nat with (Datatypes.S (length l)) in EN by lia. rewrite EB in EN. assert (EN' : B = arc (P, Q, S)) by congruence. subst B. clear EN EB.
      rewrite !value_arc, <- (ks_curv _ _ _ _ _ EK2). unfold slope, arc. cbn [k0 k1 k2 k3]. rewrite <- (ks_curv _ _ _ _ _ EK2).
      unfold cl, cr, chord, gap in *. num_qc. set (x0 := fst (fst P)) in *. set (x1 := fst (fst Q)) in *.
      split; field; (split; [|try discriminate]; try discriminate; intros C; qclra).
Qed.

Lemma half_up (x y u : Qc) : (x <= y)%Qc -> (y <= u)%Qc -> ((x + y) / (1 + 1) <= u)%Qc.
Proof. intros H1 H2. assert (E : ((x + y) / (1 + 1) * (1 + 1) = x + y)%Qc) by (field; discriminate). set (z := ((x + y) / (1 + 1))%Qc) in *. clearbody z.
  assert (E' : (z * (1 + 1) = z + z)%Qc) by ring. rewrite E' in E. qclra. Qed.
Lemma half_down (x y u : Qc) : (x <= y)%Qc -> (u <= x)%Qc -> (u <= (x + y) / (1 + 1))%Qc.
Proof. intros H1 H2. assert (E : ((x + y) / (1 + 1) * (1 + 1) = x + y)%Qc) by (field; discriminate). set (z := ((x + y) / (1 + 1))%Qc) in *. clearbody z.
  assert (E' : (z * (1 + 1) = z + z)%Qc) by ring. rewrite E' in E. qclra. Qed.
Lemma half_le (x y u : Qc) : (u - x + (u - x) <= y - x)%Qc <-> (u <= (x + y) / (1 + 1))%Qc.
Proof. assert (E : ((x + y) / (1 + 1) * (1 + 1) = x + y)%Qc) by (field; discriminate). set (z := ((x + y) / (1 + 1))%Qc) in *. clearbody z.
  assert (E' : (z * (1 + 1) = z + z)%Qc) by ring. rewrite E' in E. split; intros; qclra. Qed.
Lemma quad_at_cases P Q u : quad_at (fst (fst P)) (snd (fst P)) (snd P) (fst (fst Q)) (snd (fst Q)) (snd Q) u =
  if Qc_leb (u - fst (fst P) + (u - fst (fst P))) (fst (fst Q) - fst (fst P))
  then (snd (fst P) + (u - fst (fst P)) * (snd P + (u - fst (fst P)) * cr P Q))%Qc
  else (snd (fst Q) + (u - fst (fst Q)) * (snd Q + (u - fst (fst Q)) * cl P Q))%Qc.
Proof.
  unfold quad_at, cr, cl, chord, gap. num_qc. rewrite two_qc, three_qc, four_qc. cbv zeta.
  replace ((1 + 1) * (u - fst (fst P)))%Qc with (u - fst (fst P) + (u - fst (fst P)))%Qc by ring. reflexivity.
Qed.
Lemma quad_height u v : qpoly ks u = Ok v -> arc_height pts (arcs_of ks) u v.
Proof.
  intros E. destruct (qpoly_seg _ _ _ E) as (L & x0 & y0 & d0 & x1 & y1 & d1 & R & EK & U0 & U1 & ->).
  set (P := (x0, y0, d0)) in *. set (Q := (x1, y1, d1)) in *.
  change (quad_at x0 y0 d0 x1 y1 d1 u) with (quad_at (fst (fst P)) (snd (fst P)) (snd P) (fst (fst Q)) (snd (fst Q)) (snd Q) u). rewrite quad_at_cases.
  change x0 with (fst (fst P)) in U0. change x1 with (fst (fst Q)) in U1. clear E. clearbody P Q. clear x0 y0 d0 x1 y1 d1.
  pose proof (ks_gap _ _ _ _ EK) as G1. assert (Hx : (fst (fst P) < fst (fst Q))%Qc) by (unfold gap in G1; num_qc; qclra).
  assert (EP : forall L O P Q R, ks = L ++ O :: P :: Q :: R -> pts = map fst L ++ fst O :: fst P :: fst Q :: map fst R).
  { intros L' O P' Q' R' EE. rewrite <- ks_fst, EE, map_app. reflexivity. }
  (* the arc of P and the arc of Q *)
  assert (AP : forall L' O, L = L' ++ [O] -> (R = [] \/ (u <= (fst (fst P) + fst (fst Q)) / (1 + 1))%Qc) ->
     arc_height pts (arcs_of ks) u (snd (fst P) + (u - fst (fst P)) * (snd P + (u - fst (fst P)) * cr P Q))%Qc).
  { intros L' O EL HU. rewrite EL, <- app_assoc in EK. cbn [app] in EK. exists (map fst L'), (fst O), (fst P), (fst Q), (map fst R), (arc (O, P, Q)).
    split; [apply EP; exact EK|]. split; [rewrite map_length; apply (arc_nth _ _ _ _ _ EK)|].
    pose proof (ks_gap _ _ _ _ EK) as G0. unfold gap in G0. num_qc.
    split; [right; apply half_up; auto; qclra|]. split; [destruct HU as [->|HU]; auto|]. rewrite value_arc. reflexivity. }
  assert (AQ : forall S R', R = S :: R' -> (L = [] \/ ((fst (fst P) + fst (fst Q)) / (1 + 1) <= u)%Qc) ->
     arc_height pts (arcs_of ks) u (snd (fst Q) + (u - fst (fst Q)) * (snd Q + (u - fst (fst Q)) * cl P Q))%Qc).
  { intros S R' -> HU. exists (map fst L), (fst P), (fst Q), (fst S), (map fst R'), (arc (P, Q, S)).
    split; [apply EP; exact EK|]. split; [rewrite map_length; apply (arc_nth _ _ _ _ _ EK)|].
    assert (EK' : ks = (L ++ [P]) ++ Q :: S :: R') by (rewrite EK, <- app_assoc; reflexivity).
    pose proof (ks_gap _ _ _ _ EK') as G0. unfold gap in G0. num_qc.
    split; [destruct HU as [->|HU]; auto|]. split; [right; apply half_down; auto; qclra|]. rewrite value_arc, <- (ks_curv _ _ _ _ _ EK). reflexivity. }
  assert (ONE : L = [] -> R = [] -> False).
  { intros -> ->. assert (LL : length ks = length pts) by (unfold ks; rewrite combine_length, Ld, Nat.min_id; auto). rewrite EK in LL. cbn [app length] in LL. lia. }
  destruct (Qc_leb _ _) eqn:EB; qc_bool.
  - apply half_le in EB. destruct L as [|l0 L0] eqn:EL0.
    + destruct R as [|S R']; [exfalso; auto|]. pose proof (proj1 (proj2 HQ) _ _ _ EK) as HE. rewrite <- (even_cl P Q G1 HE u). eapply AQ; eauto.
    + destruct (@exists_last _ (l0 :: L0) ltac:(discriminate)) as (L' & O & EL). eapply AP; [exact EL|right; exact EB].
  - assert (EB' : ((fst (fst P) + fst (fst Q)) / (1 + 1) <= u)%Qc).
    { apply Qcnot_lt_le. intros C. assert (C' : (u <= (fst (fst P) + fst (fst Q)) / (1 + 1))%Qc) by qclra. apply half_le in C'. qclra. }
    destruct R as [|S R'] eqn:ER0.
    + destruct L as [|l0 L0]; [exfalso; auto|]. destruct (@exists_last _ (l0 :: L0) ltac:(discriminate)) as (L' & O & EL).
      assert (HE : even P Q). { apply (proj2 (proj2 HQ) _ _ (rev (l0 :: L0))). rewrite EK, rev_app_distr. reflexivity. }
      rewrite (even_cl P Q G1 HE u). eapply AP; [exact EL|left; reflexivity].
    + eapply AQ; [reflexivity|right; exact EB'].
Qed.
End Drawn.

(** ** The only such curve *)
Lemma same_nth {X} (a b : list X) : length a = length b -> (forall i x y, nth_error a i = Some x -> nth_error b i = Some y -> x = y) -> a = b.
Proof.
  revert b. induction a as [|x a IH]; intros [|y b] HL H; try discriminate; auto. f_equal; [apply (H O); reflexivity|].
  apply IH; [cbn in HL; lia|]. intros i. apply (H (Datatypes.S i)).
Qed.
Lemma window {X} (pts : list X) i : (i + 3 <= length pts)%nat -> exists l o p q r, pts = l ++ o :: p :: q :: r /\ length l = i.
Proof.
  revert i. induction pts as [|x pts IH]; intros i Hi; [cbn in Hi; lia|]. destruct i as [|i].
  - destruct pts as [|y [|z pts]]; cbn [length] in Hi; try lia. exists [], x, y, z, pts. auto.
  - cbn [length] in Hi. destruct (IH i ltac:(lia)) as (l & o & p & q & r & -> & <-). exists (x :: l), o, p, q, r. auto.
Qed.
Lemma nth_at {X} (l : list X) x r : nth_error (l ++ x :: r) (length l) = Some x.
Proof. rewrite nth_error_app2, Nat.sub_diag; auto. Qed.
Section Only.
Variables (pts : list (Qc * Qc)) (ps : list piece).
Hypothesis HI : increasing (map fst pts).
Hypothesis HA : arcs pts ps.
Variables (p0 p1 r1 r0 : Qc * Qc) (l0 m0 : list (Qc * Qc)) (A0 Al : piece) (ps0 ps1 : list piece).
Hypothesis E0 : pts = p0 :: p1 :: l0.
Hypothesis El : pts = m0 ++ [r1; r0].
Hypothesis EA0 : ps = A0 :: ps0.
Hypothesis EAl : ps = ps1 ++ [Al].
Let es := slope A0 (fst p0 - fst p1)%Qc :: map k1 ps ++ [slope Al (fst r0 - fst r1)%Qc].
Lemma es_length : length es = length pts.
Proof. unfold es. cbn [length]. rewrite app_length, map_length, (proj1 HA). cbn [length]. lia. Qed.
Lemma win_gap l (o p : Qc * Qc) r : pts = l ++ o :: p :: r -> (fst o < fst p)%Qc.
Proof. intros E. apply (proj1 (increasing_pair _) HI (map fst l) _ _ (map fst r)). rewrite E, map_app. reflexivity. Qed.
Lemma es_mid i P : nth_error ps i = Some P -> nth_error es (Datatypes.S i) = Some (k1 P).
Proof.
  intros E. unfold es. cbn [nth_error]. rewrite nth_error_app1 by (rewrite map_length; apply nth_error_Some; congruence).
  rewrite nth_error_map, E. reflexivity.
Qed.
Lemma k0_value P v : value P 0%Qc = v -> k0 P = v.
Proof. intros <-. unfold value. ring. Qed.
Lemma half_of h : (h = h / (1 + 1) + h / (1 + 1))%Qc.
Proof. field. discriminate. Qed.
(** Two parabolas that join halfway: the one on the left, then the one on the right. *)
Lemma join_right (yo yp d e a b g : Qc) : g <> 0%Qc ->
  (yo + d * g + a * g * g + 0 * g * g * g = yp + e * - g + b * - g * - g + 0 * - g * - g * - g)%Qc ->
  (d + (1 + 1) * a * g + (1 + 1 + 1) * 0 * g * g = e + (1 + 1) * b * - g + (1 + 1 + 1) * 0 * - g * - g)%Qc ->
  b = ((d + (1 + 1 + 1) * e - (1 + 1 + 1 + 1) * ((yp - yo) / (g + g))) / ((1 + 1) * (g + g)))%Qc.
Proof.
  intros Hg E1 E2.
  assert (X : ((1 + 1 + 1 + 1) * (b * (g * g)) = (1 + 1) * yo - (1 + 1) * yp + d * g + (1 + 1 + 1) * e * g)%Qc).
  { match type of E1 with ?l = ?r => match type of E2 with ?l' = ?r' =>
      transitivity ((1 + 1) * yo - (1 + 1) * yp + d * g + (1 + 1 + 1) * e * g + (1 + 1) * (r - l) - g * (r' - l'))%Qc; [ring|]; rewrite E1, E2; ring end end. }
  assert (Y : (b = ((1 + 1) * yo - (1 + 1) * yp + d * g + (1 + 1 + 1) * e * g) / ((1 + 1 + 1 + 1) * (g * g)))%Qc) by (rewrite <- X; field; repeat split; auto; discriminate).
  rewrite Y. field. repeat split; auto; try discriminate. intros C. apply Hg. qclra.
Qed.
Lemma join_left (yo yp d e a b g : Qc) : g <> 0%Qc ->
  (yo + d * g + a * g * g + 0 * g * g * g = yp + e * - g + b * - g * - g + 0 * - g * - g * - g)%Qc ->
  (d + (1 + 1) * a * g + (1 + 1 + 1) * 0 * g * g = e + (1 + 1) * b * - g + (1 + 1 + 1) * 0 * - g * - g)%Qc ->
  a = (((1 + 1 + 1 + 1) * ((yp - yo) / (g + g)) - (1 + 1 + 1) * d - e) / ((1 + 1) * (g + g)))%Qc.
Proof.
  intros Hg E1 E2.
  assert (X : ((1 + 1 + 1 + 1) * (a * (g * g)) = (1 + 1) * yp - (1 + 1) * yo - e * g - (1 + 1 + 1) * d * g)%Qc).
  { match type of E1 with ?l = ?r => match type of E2 with ?l' = ?r' =>
      transitivity ((1 + 1) * yp - (1 + 1) * yo - e * g - (1 + 1 + 1) * d * g + (1 + 1) * (l - r) + g * (l' - r'))%Qc; [ring|]; rewrite E1, E2; ring end end. }
  assert (Y : (a = ((1 + 1) * yp - (1 + 1) * yo - e * g - (1 + 1 + 1) * d * g) / ((1 + 1 + 1 + 1) * (g * g)))%Qc) by (rewrite <- X; field; repeat split; auto; discriminate).
  rewrite Y. field. repeat split; auto; try discriminate. intros C. apply Hg. qclra.
Qed.
Lemma half_ne (h : Qc) : h <> 0%Qc -> (h / (1 + 1) <> 0)%Qc.
Proof. intros H C. apply H. rewrite (half_of h), C. ring. Qed.
Lemma left_curv l o p q r P d : pts = l ++ o :: p :: q :: r -> nth_error ps (length l) = Some P -> nth_error es (length l) = Some d ->
  k2 P = cl (o, d) (p, k1 P).
Proof.
  intros E EP Ee. destruct (proj2 HA l o p q r P E EP) as (K3 & V0 & VL & _ & _). apply k0_value in V0.
  pose proof (win_gap l o p (q :: r) E) as G. assert (HN : (fst p - fst o <> 0)%Qc) by (apply gap_ne; auto).
  unfold cl, chord, gap. cbn [fst snd]. num_qc.
  assert (HL : l = [] \/ exists l' o', l = l' ++ [o']).
  { destruct l as [|x l]; [auto|]. right. destruct (@exists_last _ (x :: l) ltac:(discriminate)) as (l' & o' & EL). eauto. }
  destruct HL as [->|(l' & o' & ->)].
  - cbn [length nth_error es] in Ee. injection Ee as <-. rewrite E0 in E. cbn [app] in E. injection E as -> -> _.
    rewrite EA0 in EP. cbn [length nth_error] in EP. injection EP as ->.
    specialize (VL eq_refl). unfold slope, value in *. rewrite V0, K3 in *. set (h := (fst p - fst o)%Qc) in *. replace (fst o - fst p)%Qc with (- h)%Qc in * by (unfold h; ring).
    rewrite <- VL. clearbody h. field. repeat split; auto; discriminate.
  - rewrite <- app_assoc in E. cbn [app] in E. rewrite app_length in EP, Ee. cbn [length] in EP, Ee.
    replace (length l' + 1)%nat with (Datatypes.S (length l')) in EP, Ee by lia.
    destruct (nth_error ps (length l')) as [P'|] eqn:EP'; [|exfalso; apply nth_error_None in EP'; assert (nth_error ps (Datatypes.S (length l')) <> None) by congruence; apply nth_error_Some in H; lia].
    rewrite (es_mid _ _ EP') in Ee. injection Ee as <-.
    destruct (proj2 HA l' o' o p (q :: r) P' E EP') as (K3' & V0' & _ & _ & VM). apply k0_value in V0'. destruct (VM P EP) as [J1 J2].
    unfold value, slope in J1, J2. rewrite V0, V0', K3, K3' in *. set (h := (fst p - fst o)%Qc) in *. rewrite (half_of h).
    apply (join_right (snd o) (snd p) (k1 P') (k1 P) (k2 P') (k2 P) (h / (1 + 1))%Qc); auto. apply half_ne. auto.
Qed.
Lemma right_curv l o p q r P d : pts = l ++ o :: p :: q :: r -> nth_error ps (length l) = Some P -> nth_error es (Datatypes.S (Datatypes.S (length l))) = Some d ->
  k2 P = cr (p, k1 P) (q, d).
Proof.
  intros E EP Ee. destruct (proj2 HA l o p q r P E EP) as (K3 & V0 & _ & VR & VM). apply k0_value in V0.
  assert (E' : pts = (l ++ [o]) ++ p :: q :: r) by (rewrite E, <- app_assoc; reflexivity).
  pose proof (win_gap _ p q r E') as G. assert (HN : (fst q - fst p <> 0)%Qc) by (apply gap_ne; auto).
  unfold cr, chord, gap. cbn [fst snd]. num_qc. pose proof (proj1 HA) as HLN.
  destruct r as [|s r].
  - specialize (VR eq_refl). rewrite E, app_length in HLN. cbn [length] in HLN.
    assert (EPL : ps = ps1 ++ [P] /\ length ps1 = length l).
    { rewrite EAl in *. rewrite app_length in HLN. cbn [length] in HLN. assert (LL : length ps1 = length l) by lia. split; auto.
      rewrite nth_error_app2 in EP by lia. rewrite LL, Nat.sub_diag in EP. cbn in EP. injection EP as <-. reflexivity. }
    destruct EPL as [EPL LP]. rewrite EAl in EPL. apply app_inj_tail in EPL as [_ EPL]. subst P.
    assert (ER : r1 = p /\ r0 = q).
    { rewrite El in E'. change [r1; r0] with ([r1] ++ [r0]) in E'. rewrite app_assoc in E'. change ((l ++ [o]) ++ [p; q]) with ((l ++ [o]) ++ ([p] ++ [q])) in E'. rewrite (app_assoc (l ++ [o])) in E'.
      apply app_inj_tail in E' as [E' ->]. apply app_inj_tail in E' as [_ ->]. auto. }
    destruct ER as [-> ->]. change (nth_error (map k1 ps ++ [slope Al (fst q - fst p)%Qc]) (Datatypes.S (length l)) = Some d) in Ee. rewrite nth_error_app2 in Ee by (rewrite map_length, EAl, app_length; cbn [length]; lia).
    replace (Datatypes.S (length l) - length (map k1 ps))%nat with O in Ee by (rewrite map_length, EAl, app_length; cbn [length]; lia). cbn in Ee. injection Ee as <-.
    unfold slope, value in *. rewrite V0, K3 in *. set (h := (fst q - fst p)%Qc) in *. rewrite <- VR. clearbody h. field. repeat split; auto; discriminate.
  - rewrite E, app_length in HLN. cbn [length] in HLN.
    destruct (nth_error ps (Datatypes.S (length l))) as [Q|] eqn:EQ; [|exfalso; apply nth_error_None in EQ; lia].
    rewrite (es_mid _ _ EQ) in Ee. injection Ee as <-. destruct (VM Q eq_refl) as [J1 J2].
    assert (E2 : pts = (l ++ [o]) ++ p :: q :: s :: r) by (rewrite E, <- app_assoc; reflexivity).
    assert (EQ' : nth_error ps (length (l ++ [o])) = Some Q) by (rewrite app_length; cbn [length]; rewrite Nat.add_1_r; exact EQ).
    destruct (proj2 HA _ _ _ _ _ _ E2 EQ') as (K3' & V0' & _). apply k0_value in V0'.
    unfold value, slope in J1, J2. rewrite V0, V0', K3, K3' in *. set (h := (fst q - fst p)%Qc) in *. rewrite (half_of h).
    apply (join_left (snd p) (snd q) (k1 P) (k1 Q) (k2 P) (k2 Q) (h / (1 + 1))%Qc); auto. apply half_ne. auto.
Qed.
Lemma es_nth L (P : knot) R : combine pts es = L ++ P :: R -> nth_error es (length L) = Some (snd P).
Proof.
  intros E. assert (G : nth_error (combine pts es) (length L) = Some P) by (rewrite E; apply nth_at). destruct P as [p d].
  apply combine_nth_error in G. apply G.
Qed.
Lemma es_split L (P Q S : knot) R : combine pts es = L ++ P :: Q :: S :: R -> pts = map fst L ++ fst P :: fst Q :: fst S :: map fst R.
Proof. intros E. rewrite <- (combine_fst pts es es_length), E, map_app. reflexivity. Qed.
Lemma ps_at L (P Q S : knot) R : combine pts es = L ++ P :: Q :: S :: R -> exists A, nth_error ps (length (map fst L)) = Some A /\ snd Q = k1 A.
Proof.
  intros E. pose proof (es_split _ _ _ _ _ E) as EP. pose proof (proj1 HA) as HL. rewrite EP, app_length in HL. cbn [length] in HL.
  destruct (nth_error ps (length (map fst L))) as [A|] eqn:EA; [|exfalso; apply nth_error_None in EA; lia]. exists A. split; auto.
  apply es_mid in EA. rewrite map_length in EA. assert (E' : combine pts es = (L ++ [P]) ++ Q :: S :: R) by (rewrite E, <- app_assoc; reflexivity).
  apply es_nth in E'. rewrite app_length in E'. cbn [length] in E'. rewrite Nat.add_1_r in E'. congruence.
Qed.
Lemma es_eqs : quad_eqs (combine pts es).
Proof.
  assert (KEY : forall L P Q S R, combine pts es = L ++ P :: Q :: S :: R -> exists A, nth_error ps (length (map fst L)) = Some A /\ snd Q = k1 A /\ k2 A = cl P Q /\ k2 A = cr Q S).
  { intros L P Q S R E. destruct (ps_at _ _ _ _ _ E) as (A & EA & EQ). exists A. split; auto. split; auto.
    pose proof (es_split _ _ _ _ _ E) as EP.
    assert (N1 : nth_error es (length (map fst L)) = Some (snd P)) by (rewrite map_length; eapply es_nth; eauto).
    assert (N3 : nth_error es (Datatypes.S (Datatypes.S (length (map fst L)))) = Some (snd S)).
    { rewrite map_length. replace (Datatypes.S (Datatypes.S (length L))) with (length (L ++ [P; Q])) by (rewrite app_length; cbn; lia).
      apply (es_nth _ _ R). rewrite E, <- app_assoc. reflexivity. }
    pose proof (left_curv _ _ _ _ _ _ _ EP EA N1) as C1. pose proof (right_curv _ _ _ _ _ _ _ EP EA N3) as C2. rewrite <- EQ in C1, C2.
    destruct P, Q, S. auto. }
  pose proof es_length as EL. pose proof (proj1 HA) as HLN.
  assert (L3 : (3 <= length (combine pts es))%nat) by (rewrite combine_length, EL, Nat.min_id, HLN, EA0; cbn [length]; lia).
  assert (GP : forall L P Q R, combine pts es = L ++ P :: Q :: R -> (fst (fst P) < fst (fst Q))%Qc).
  { intros L P Q R E. apply (win_gap (map fst L) (fst P) (fst Q) (map fst R)). rewrite <- (combine_fst pts es EL), E, map_app. reflexivity. }
  split; [|split].
  - rewrite Forall_forall. intros [[P Q] S] Hin. apply triples_in in Hin as (L & R & E). destruct (KEY _ _ _ _ _ E) as (A & _ & _ & C1 & C2).
    assert (E' : combine pts es = (L ++ [P]) ++ Q :: S :: R) by (rewrite E, <- app_assoc; reflexivity).
    apply qeq3_iff; [unfold gap; num_qc; pose proof (GP _ _ _ _ E); qclra|unfold gap; num_qc; pose proof (GP _ _ _ _ E'); qclra|congruence].
  - intros P Q l E. destruct l as [|S l]; [rewrite E in L3; cbn in L3; lia|].
    destruct (KEY [] _ _ _ _ E) as (A & EA & EQ & C1 & _). rewrite EA0 in EA. cbn in EA. injection EA as <-.
    pose proof (es_split [] _ _ _ _ E) as EP. cbn [map app] in EP. assert (EP' := EP). rewrite E0 in EP'. injection EP' as X0 X1 _.
    destruct (proj2 HA [] _ _ _ _ A0 EP ltac:(rewrite EA0; reflexivity)) as (K3 & V0 & VL & _). apply k0_value in V0. specialize (VL eq_refl).
    assert (EP0 : snd P = slope A0 (fst (fst P) - fst (fst Q))%Qc).
    { assert (G := es_nth [] P (Q :: S :: l) E). unfold es in G. cbn [length nth_error] in G. injection G as G. rewrite <- G, X0, X1. reflexivity. }
    pose proof (GP [] _ _ _ E) as HX. unfold even. rewrite EP0, EQ. unfold slope, value, chord, gap in *. num_qc. rewrite V0, K3 in *. rewrite <- VL.
    set (x := fst (fst P)) in *. set (y := fst (fst Q)) in *. field. intros C. qclra.
  - intros P Q m E. assert (EC : combine pts es = rev m ++ [P; Q]) by (rewrite <- (rev_involutive (combine pts es)), E; cbn [rev]; rewrite <- app_assoc; reflexivity).
    destruct (rev m) as [|z0 m'] eqn:Em; [rewrite EC in L3; cbn in L3; lia|]. destruct (@exists_last _ (z0 :: m') ltac:(discriminate)) as (L & O & EO).
    rewrite EO, <- app_assoc in EC. cbn [app] in EC. destruct (KEY _ _ _ _ _ EC) as (A & EA & EQ & _ & C2).
    pose proof (es_split _ _ _ _ _ EC) as EP. cbn [map] in EP.
    destruct (proj2 HA _ _ _ _ _ _ EP EA) as (K3 & V0 & _ & VR & _). apply k0_value in V0. specialize (VR eq_refl).
    assert (EC' : combine pts es = (L ++ [O]) ++ P :: Q :: []) by (rewrite EC, <- app_assoc; reflexivity).
    pose proof (GP _ _ _ _ EC') as HX.
    (* the slope at the last knot follows from the parabola's curvature *)
    unfold cr in C2. rewrite EQ in C2. unfold even. rewrite EQ. unfold value, chord, gap in *. num_qc. rewrite V0, K3 in *.
    set (x := fst (fst P)) in *. set (y := fst (fst Q)) in *. assert (HN : (y - x <> 0)%Qc) by (intros C; qclra). set (h := (y - x)%Qc) in *. clearbody h.
    set (d := snd Q) in *. clearbody d. rewrite <- VR in *.
    assert (ED : (d = (1 + 1 + 1 + 1) * ((snd (fst P) + k1 A * h + k2 A * h * h + 0 * h * h * h - snd (fst P)) / h) - (1 + 1 + 1) * k1 A - k2 A * ((1 + 1) * h))%Qc).
    { rewrite C2 at 2. field. repeat split; auto; discriminate. }
    rewrite ED. field. auto.
Qed.
End Only.
Lemma two_ends {X} (l : list X) : (2 <= length l)%nat -> (exists x y r, l = x :: y :: r) /\ (exists m x y, l = m ++ [x; y]).
Proof.
  intros H. split; [destruct l as [|x [|y r]]; cbn in H; try lia; eauto|].
  destruct l as [|x l]; [cbn in H; lia|]. destruct (@exists_last _ (x :: l) ltac:(discriminate)) as (m & y & E). rewrite E in *.
  destruct m as [|z m]; [cbn in H; lia|]. destruct (@exists_last _ (z :: m) ltac:(discriminate)) as (m' & w & E'). rewrite E'.
  exists m', w, y. rewrite <- app_assoc. reflexivity.
Qed.
Lemma arcs_only pts ds ps : increasing (map fst pts) -> quad_slopes pts = Ok ds -> arcs pts ps -> ps = arcs_of (combine pts ds).
Proof.
  intros HI Ed HA. pose proof (quad_len _ _ Ed) as H3. pose proof (proj1 HA) as HL.
  destruct (two_ends pts ltac:(lia)) as [(p0 & p1 & l0 & E0) (m0 & r1 & r0 & El)].
  destruct ps as [|A0 ps0] eqn:EA0; [cbn in HL; lia|]. destruct (@exists_last _ (A0 :: ps0) ltac:(discriminate)) as (ps1 & Al & EAl).
  rewrite <- EA0 in *. set (es := slope A0 (fst p0 - fst p1)%Qc :: map k1 ps ++ [slope Al (fst r0 - fst r1)%Qc]).
  assert (Ee : quad_slopes pts = Ok es).
  { apply quad_iff; auto. split; [apply (es_length pts ps HA)|]. apply (es_eqs pts ps HI HA p0 p1 r1 r0 l0 m0 A0 Al ps0 ps1); auto. }
  assert (EE : ds = es) by (rewrite Ed in Ee; apply ok_inv in Ee; auto). subst ds.
  apply same_nth.
  - unfold arcs_of. rewrite map_length, triples_length, combine_length. pose proof (es_length pts ps HA p0 p1 r1 r0 A0 Al) as LE. fold es in LE. rewrite LE, Nat.min_id. lia.
  - intros i P Q HP HQ. assert (Hi : (i < length ps)%nat) by (apply nth_error_Some; congruence).
    assert (LE : length es = length pts) by apply (es_length pts ps HA).
    destruct (window (combine pts es) i) as (L & A & B & C & R & EW & Lw); [rewrite combine_length, LE, Nat.min_id; lia|]. subst i.
    assert (EQ : Q = arc (A, B, C)).
    { unfold arcs_of in HQ. rewrite nth_error_map, EW, triples_nth in HQ. cbn [option_map] in HQ. congruence. }
    subst Q. pose proof (es_split pts ps HA p0 p1 r1 r0 A0 Al L A B C R EW) as EP.
    destruct (ps_at pts ps HA p0 p1 r1 r0 A0 Al L A B C R EW) as (P' & EP' & EB). rewrite map_length, HP in EP'. injection EP' as <-.
    assert (HP' : nth_error ps (length (map fst L)) = Some P) by (rewrite map_length; exact HP).
    destruct (proj2 HA _ _ _ _ _ P EP HP') as (K3 & V0 & _). apply k0_value in V0.
    assert (EW' : combine pts es = (L ++ [A; B]) ++ C :: R) by (rewrite EW, <- app_assoc; reflexivity).
    pose proof (es_nth pts ps p0 p1 r1 r0 A0 Al (L ++ [A; B]) C R EW') as N3. rewrite app_length in N3. cbn [length] in N3.
    pose proof (right_curv pts ps HI HA p0 p1 r1 r0 m0 A0 Al ps0 ps1 El EA0 EAl (map fst L) (fst A) (fst B) (fst C) (map fst R) P (snd C) EP HP') as K2.
    rewrite map_length in K2. replace (length L + 2)%nat with (Datatypes.S (Datatypes.S (length L))) in N3 by lia. specialize (K2 N3).
    unfold arc. destruct A as [a da], B as [b db], C as [c dc]. cbn [fst snd] in *. rewrite EB, <- K2. destruct P. cbn in *. congruence.
Qed.
Lemma qdraw_height pts ds t v : increasing (map fst pts) -> quad_slopes pts = Ok ds -> mapM (qpoly (combine pts ds)) t = Ok v ->
  Forall2 (arc_height pts (arcs_of (combine pts ds))) t v.
Proof.
  intros HI Ed. revert v. induction t as [|u t IH]; intros v E; cbn [mapM] in E; [apply ok_inv in E; subst; constructor|].
  apply bind_ok in E as (y & E1 & E). apply bind_ok in E as (ys & E2 & E). apply ok_inv in E. subst v. constructor; auto.
  apply (quad_height pts ds); auto.
Qed.
Lemma quad_only pts t v : scipy_spl Quadratic pts t = Ok v ->
  exists ps, arcs pts ps /\ Forall2 (arc_height pts ps) t v /\ forall ps', arcs pts ps' -> ps' = ps.
Proof.
  intros E. cbn [scipy_spl] in E. destruct (qdraw_inv _ quad_rule _ _ _ E) as (ds & Ed & Ld & HI & Ev).
  exists (arcs_of (combine pts ds)). split; [|split].
  - apply arcs_drawn; auto.
  - apply qdraw_height; auto.
  - intros ps' H. apply arcs_only; auto.
Qed.
(** ** Parabolas *)
Definition inner_shifts (F : piece) (pts : list (Qc * Qc)) : list piece := map (fun w => shifted F (fst (snd (fst w)))) (triples pts).
Lemma inner_nth F l o p q r P : nth_error (inner_shifts F (l ++ o :: p :: q :: r)) (length l) = Some P -> P = shifted F (fst p).
Proof. unfold inner_shifts. rewrite nth_error_map, triples_nth. cbn. congruence. Qed.
Lemma inner_arcs F pts : (3 <= length pts)%nat -> k3 F = 0%Qc -> on F pts -> arcs pts (inner_shifts F pts).
Proof.
  intros H3 K HF. split; [unfold inner_shifts; rewrite map_length, triples_length; lia|].
  intros l o p q r P E HP. rewrite E in HP. apply inner_nth in HP. subst P.
  assert (Ho : snd o = value F (fst o)) by (apply HF; rewrite E; apply in_or_app; right; cbn [In]; auto).
  assert (Hp : snd p = value F (fst p)) by (apply HF; rewrite E; apply in_or_app; right; cbn [In]; auto).
  assert (Hq : snd q = value F (fst q)) by (apply HF; rewrite E; apply in_or_app; right; cbn [In]; auto).
  rewrite !shifted_value, ?shifted_slope. split; [exact K|]. split; [|split; [|split]].
  - rewrite Hp. f_equal. ring.
  - intros _. rewrite Ho. f_equal. ring.
  - intros _. rewrite Hq. f_equal. ring.
  - intros Q HQ. destruct r as [|s r].
    + exfalso. assert (HN : nth_error (inner_shifts F pts) (Datatypes.S (length l)) <> None) by congruence. apply nth_error_Some in HN.
      unfold inner_shifts in HN. rewrite map_length, triples_length, E, app_length in HN. cbn [length] in HN. lia.
    + assert (E' : pts = (l ++ [o]) ++ p :: q :: s :: r) by (rewrite E, <- app_assoc; reflexivity).
      replace (Datatypes.S (length l)) with (length (l ++ [o])) in HQ by (rewrite app_length; cbn; lia). rewrite E' in HQ. apply inner_nth in HQ. subst Q.
      rewrite ?shifted_value, !shifted_slope. split; f_equal; field; discriminate.
Qed.
Lemma quad_exact F pts t v : k3 F = 0%Qc -> scipy_spl Quadratic pts t = Ok v -> on F pts -> v = map (value F) t.
Proof.
  intros K E HF. assert (H3 : (3 <= length pts)%nat).
  { cbn [scipy_spl] in E. destruct (qdraw_inv _ quad_rule _ _ _ E) as (ds & Ed & _). eapply quad_len; eauto. }
  destruct (quad_only _ _ _ E) as (ps & HA & HH & HU). rewrite <- (HU _ (inner_arcs F pts H3 K HF)) in HH.
  clear - HH. induction HH as [|u w t v H _ IH]; [reflexivity|]. cbn [map]. rewrite IH. f_equal.
  destruct H as (l & o & p & q & r & P & E & HP & _ & _ & ->). rewrite E in HP. apply inner_nth in HP. subst P. rewrite shifted_value. f_equal. ring.
Qed.
Lemma line_exact k pts t v a b : increasing (map fst pts) -> scipy_spl k pts t = Ok v ->
  (forall p, In p pts -> snd p = (a * fst p + b)%Qc) -> v = map (fun u => a * u + b)%Qc t.
Proof.
  intros HI E HL. assert (D : k = Quadratic \/ k <> Quadratic) by (destruct k; auto; right; discriminate). destruct D as [->|NQ]; [|eapply line_exact_but; eauto].
  rewrite (quad_exact (Piece b a 0%Qc 0%Qc) pts t v eq_refl E).
  - apply map_ext. intros u. unfold value. cbn. ring.
  - intros p Hp. rewrite (HL p Hp). unfold value. cbn. ring.
Qed.
