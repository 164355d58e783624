(** * Props_Kinds: property C90, the curves drawn for each spline kind.

    [scipy_spl] (Kinds.v) models the routines behind splines.py:46-64 and "linear"/"slinear"/"quadratic" of
    EMD.spline_points: SciPy's documented formulas in exact arithmetic (Qc).  [curve], [joined],
    [not_a_knot], [height], [on], [evenly], [rise], [arcs], [arc_height], [monotone_kind] and [smooth_kind] are defined in KindsSpec.v, [increasing]
    in Spec.v, [sifted] and [turned] in RevSpec.v, [rescaled] in SymSpec.v. *)
From Verif Require Import PyFacts QcFacts Emd Spec EmdProofs Demo EmdSimple Envelope SymSpec RevSpec Props_Sym Props_Reverse Props_Prepare.
From Verif Require Import Kinds KindsSpec KindsAll KindsExact KindsArcs.
From Coq Require Import String.
From Coq Require Import QArith Qcanon Lia.
From Coq Require Import List.
Import ListNotations.
Local Notation length := List.length.
Local Notation rev := List.rev.
Open Scope Z_scope.

(** ** C90 *)
(** Every kind answers every instant between the first and the last of three or more increasing knots,
    and answers a knot with its own value. *)
Theorem C90_knots :
  forall k pts t, increasing (map fst pts) -> 3 <= zlen pts ->
  (forall u, In u t -> exists p q, nth_error pts 0 = Some p /\ nth_error pts (length pts - 1) = Some q /\
                       (fst p <= u)%Qc /\ (u <= fst q)%Qc) ->
  exists v, scipy_spl k pts t = Ok v /\ length v = length t /\
    forall i p, In p pts -> nth_error t i = Some (fst p) -> nth_error v i = Some (snd p).
Proof.
  intros k pts t HI H3 Ht. destruct (kinds_interpolate k pts t HI H3 Ht) as (v & E & L). exists v.
  split; auto. split; auto. exact (proj2 (kinds_pass k pts t v HI E)).
Qed.
Print Assumptions C90_knots.

(** akima, cubic, pchip and cubic_hermite draw one curve, whatever instants are asked for: a cubic
    polynomial per gap, through both knots, with the same slope on both sides of every knot. *)
Theorem C90_curve :
  forall k pts t v, smooth_kind k -> pts <> [] -> scipy_spl k pts t = Ok v ->
  exists ps, curve pts ps /\ joined slope pts ps /\ Forall2 (height pts ps) t v.
Proof. exact kinds_curve. Qed.
Print Assumptions C90_curve.

(** cubic, on four or more knots, draws the one and only curve whose first and second derivatives are
    continuous and whose third derivative is at the second and the last but one knot. *)
Theorem C90_cubic :
  forall pts t v, (4 <= length pts)%nat -> scipy_spl Cubic pts t = Ok v ->
  exists ps, curve pts ps /\ joined slope pts ps /\ joined bend pts ps /\ not_a_knot ps /\ Forall2 (height pts ps) t v /\
    forall ps', curve pts ps' -> joined slope pts ps' -> joined bend pts ps' -> not_a_knot ps' -> ps' = ps.
Proof. exact cubic_only. Qed.
Print Assumptions C90_cubic.

(** quadratic draws the one and only curve of parabolas, one per inner knot, that join with a common slope
    halfway between the knots and run through the first and the last knot. *)
Theorem C90_quadratic :
  forall pts t v, scipy_spl Quadratic pts t = Ok v ->
  exists ps, arcs pts ps /\ Forall2 (arc_height pts ps) t v /\ forall ps', arcs pts ps' -> ps' = ps.
Proof. exact quad_only. Qed.
Print Assumptions C90_quadratic.

(** pchip and straight lines run from one knot to the next without turning back. *)
Theorem C90_monotone :
  forall k pts t v, monotone_kind k -> increasing (map fst pts) -> scipy_spl k pts t = Ok v ->
  forall a p q b, pts = a ++ p :: q :: b ->
  forall i j u u' w w', nth_error t i = Some u -> nth_error t j = Some u' -> nth_error v i = Some w -> nth_error v j = Some w' ->
  (fst p <= u)%Qc -> (u <= u')%Qc -> (u' <= fst q)%Qc ->
  ((snd p <= snd q)%Qc -> (w <= w')%Qc) /\ ((snd q <= snd p)%Qc -> (w' <= w)%Qc).
Proof. exact kinds_monotone. Qed.
Print Assumptions C90_monotone.

(** With these kinds both envelopes of a signal stay between its smallest and its largest sample. *)
Theorem C90_envelopes :
  forall k c S up lo P Q a b, parse_kind (spline_kind c) = Some k -> monotone_kind k ->
  extrema_detection c = Simple -> 1 <= nbsym c ->
  extract_max_min_spline scipy_spl c (arange (length S)) S = Ok (up, lo, P, Q) ->
  (forall x, In x S -> (a <= x)%Qc /\ (x <= b)%Qc) ->
  (forall x, In x up -> (a <= x)%Qc /\ (x <= b)%Qc) /\ (forall x, In x lo -> (a <= x)%Qc /\ (x <= b)%Qc).
Proof. exact envelopes_within. Qed.
Print Assumptions C90_envelopes.

(** So sifting cannot blow a signal up: [n] sifts at most double its amplitude [n] times. *)
Theorem C90_sift :
  forall k c n x y B, parse_kind (spline_kind c) = Some k -> monotone_kind k ->
  extrema_detection c = Simple -> 1 <= nbsym c -> sifted scipy_spl c n x y ->
  (forall u, In u x -> (Qc_abs u <= B)%Qc) ->
  forall u, In u y -> (Qc_abs u <= Qc_ofZ (2 ^ Z.of_nat n) * B)%Qc.
Proof. exact sifted_within. Qed.
Print Assumptions C90_sift.

(** The other kinds do overshoot: all samples lie between 0 and 9, and the upper envelope reaches
    above 9. *)
Definition bumps : list Qc := qs [0; 1; 0; 1; 0; 9; 8; 9; 0; 1; 0].
Definition C90_cfg (kind : String.string) : emd_config Qc := @demo_cfg Qc _ kind Simple 0 0 1000.
Definition overshoots (kind : String.string) : bool :=
  match extract_max_min_spline scipy_spl (C90_cfg kind) (arange (length bumps)) bumps with
  | Ok (up, _, _, _) => Qc_ltb (q 9) (sample up 6)
  | _ => false
  end.
Theorem C90_overshoot_refuted :
  forall k, ~ monotone_kind k ->
  exists c S up lo P Q i, parse_kind (spline_kind c) = Some k /\ extrema_detection c = Simple /\ 1 <= nbsym c /\
    extract_max_min_spline scipy_spl c (arange (length S)) S = Ok (up, lo, P, Q) /\ 0 <= i < zlen S /\
    (forall x, In x S -> (q 0 <= x)%Qc /\ (x <= q 9)%Qc) /\ (q 9 < sample up i)%Qc.
Proof.
  assert (HB : forall x, In x bumps -> (q 0 <= x)%Qc /\ (x <= q 9)%Qc).
  { intros x Hx. apply in_map_iff in Hx as (z & <- & Hz). unfold q. rewrite !Qc_ofZ_le. cbn in Hz. lia. }
  assert (G : forall kind k, parse_kind kind = Some k -> overshoots kind = true ->
    exists c S up lo P Q i, parse_kind (spline_kind c) = Some k /\ extrema_detection c = Simple /\ 1 <= nbsym c /\
    extract_max_min_spline scipy_spl c (arange (length S)) S = Ok (up, lo, P, Q) /\ 0 <= i < zlen S /\
    (forall x, In x S -> (q 0 <= x)%Qc /\ (x <= q 9)%Qc) /\ (q 9 < sample up i)%Qc).
  { intros kind k Hp HO. unfold overshoots in HO.
    destruct (extract_max_min_spline scipy_spl (C90_cfg kind) (arange (length bumps)) bumps) as [[[[up lo] P] Q]|] eqn:E; [|discriminate].
    exists (C90_cfg kind), bumps, up, lo, P, Q, 6. split; [exact Hp|]. split; [reflexivity|]. split; [cbn; lia|]. split; [exact E|].
    split; [cbn; lia|]. split; [exact HB|]. apply Qc_ltb_lt. exact HO. }
  intros k Hn. destruct k; try (exfalso; apply Hn; unfold monotone_kind; auto; fail).
  - apply (G "akima"%string); vm_compute; reflexivity.
  - apply (G "cubic"%string); vm_compute; reflexivity.
  - apply (G "cubic_hermite"%string); vm_compute; reflexivity.
  - apply (G "quadratic"%string); vm_compute; reflexivity.
Qed.
Print Assumptions C90_overshoot_refuted.

Example C90_nonvacuous :
  match extract_max_min_spline scipy_spl (C90_cfg "pchip") (arange (length bumps)) bumps with
  | Ok (up, lo, _, _) => map this up = [1; 1; 1; 1; 5; 9; 9; 9; 5; 1; 1]%Q /\ map this lo = [0; 0; 0; 0; 0; 4; 8; 4; 0; 0; 0]%Q
  | _ => False
  end.
Proof. vm_compute. split; reflexivity. Qed.
Example C90_curve_nonvacuous :
  match scipy_spl Cubic (combine (qs [0; 2; 3; 6]) (qs [1; 5; 4; 4])) (qs [0; 1; 2; 4; 6]),
        scipy_spl Akima (combine (qs [0; 2; 3; 6]) (qs [1; 5; 4; 4])) (qs [0; 1; 2; 4; 6]) with
  | Ok u, Ok v => nth 2 u 0%Qc = q 5 /\ nth 2 v 0%Qc = q 5 /\ nth 1 u 0%Qc <> nth 1 v 0%Qc
  | _, _ => False
  end.
Proof. vm_compute. split; [|split]; [apply Qc_is_canon; reflexivity|apply Qc_is_canon; reflexivity|discriminate]. Qed.

(** ** C90: what each kind reproduces *)
(** Knots on a straight line: every kind answers with that line. *)
Theorem C90_lines :
  forall k pts t v a b, increasing (map fst pts) -> scipy_spl k pts t = Ok v ->
  (forall p, In p pts -> snd p = (a * fst p + b)%Qc) -> v = map (fun u => a * u + b)%Qc t.
Proof. exact line_exact. Qed.
Print Assumptions C90_lines.

(** Four or more knots on one polynomial of degree three at most: cubic answers with that polynomial;
    three knots on a parabola: with that parabola. *)
Theorem C90_cubic_exact :
  forall F pts t v, scipy_spl Cubic pts t = Ok v -> on F pts ->
  ((4 <= length pts)%nat \/ k3 F = 0%Qc) -> v = map (value F) t.
Proof.
  intros F pts t v E HF H. destruct (Compare_dec.le_lt_dec 4 (length pts)) as [H4|H4]; [apply (cubic_exact F pts t v H4 E HF)|].
  destruct H as [H|H]; [lia|]. exact (cubic_exact_few F pts t v H4 H E HF).
Qed.
Print Assumptions C90_cubic_exact.

(** Knots on a parabola: quadratic answers with that parabola. *)
Theorem C90_quadratic_exact :
  forall F pts t v, k3 F = 0%Qc -> scipy_spl Quadratic pts t = Ok v -> on F pts -> v = map (value F) t.
Proof. exact quad_exact. Qed.
Print Assumptions C90_quadratic_exact.
(** At 7/8 the curve is above 1, the largest of its knots; the knots 0, 1, 9 are on the parabola u * u. *)
Example C90_quadratic_nonvacuous :
  match scipy_spl Quadratic (combine (qs [0; 1; 2; 3]) (qs [0; 1; 0; 1])) [Q2Qc (1 # 2); Q2Qc (7 # 8); Q2Qc (3 # 2); Q2Qc (5 # 2)],
        scipy_spl Quadratic (combine (qs [0; 1; 3]) (qs [0; 1; 9])) [Q2Qc (5 # 2)] with
  | Ok a, Ok b => map this a = [5 # 6; 49 # 48; 1 # 2; 1 # 6]%Q /\ map this b = [25 # 4]%Q
  | _, _ => False
  end.
Proof. vm_compute. split; reflexivity. Qed.

(** Knots on a parabola: cubic_hermite answers with it between two inner knots. *)
Theorem C90_hermite_exact :
  forall F a o p q r b t v, k3 F = 0%Qc -> scipy_spl CubicHermite (a ++ o :: p :: q :: r :: b) t = Ok v ->
  on F (a ++ o :: p :: q :: r :: b) ->
  forall i u w, nth_error t i = Some u -> nth_error v i = Some w -> (fst p <= u)%Qc -> (u <= fst q)%Qc -> w = value F u.
Proof. exact gradient_exact. Qed.
Print Assumptions C90_hermite_exact.

(** Equally spaced knots on a parabola: akima answers with it everywhere. *)
Theorem C90_akima_exact :
  forall F h pts t v, k3 F = 0%Qc -> (0 < h)%Qc -> evenly h pts -> scipy_spl Akima pts t = Ok v -> on F pts -> v = map (value F) t.
Proof. exact akima_exact. Qed.
Print Assumptions C90_akima_exact.

(** Three knots in a line, followed by two bends that are not dwarfed (a billionth or less) by another
    bend of the curve: akima draws a straight line up to the first bend. *)
Theorem C90_akima_straight :
  forall M l a b c d e r t v, scipy_spl Akima (l ++ a :: b :: c :: d :: e :: r) t = Ok v ->
  (forall l' x y z r', l ++ a :: b :: c :: d :: e :: r = l' ++ x :: y :: z :: r' -> (Qc_abs (rise y z - rise x y) <= M)%Qc) ->
  rise a b = rise b c ->
  (M + M < Qc_ofZ 1000000000 * Qc_abs (rise c d - rise b c))%Qc ->
  (M + M < Qc_ofZ 1000000000 * Qc_abs (rise d e - rise c d))%Qc ->
  forall i u w, nth_error t i = Some u -> nth_error v i = Some w -> (fst b <= u)%Qc -> (u <= fst c)%Qc ->
  w = (snd b + rise b c * (u - fst b))%Qc.
Proof.
  intros M l a b c d e r t v E HM Hm Hc Hd. exact (akima_straight M l a b c d e r t v E HM Hm (nano_scale _ _ Hc) (nano_scale _ _ Hd)).
Qed.
Print Assumptions C90_akima_straight.

(** The knots 0, 1, 8, 27, 64 are on a cubic, which cubic answers with and the others do not; 0, 1, 4, 9, 16
    are on a parabola, which pchip does not answer with; akima draws the line of -1, 0, 1 straight. *)
Example C90_exact_nonvacuous :
  match scipy_spl Cubic (combine (qs [0; 1; 2; 3; 4]) (qs [0; 1; 8; 27; 64])) [Q2Qc (5 # 2)],
        scipy_spl Akima (combine (qs [0; 1; 2; 3; 4]) (qs [0; 1; 8; 27; 64])) [Q2Qc (5 # 2)],
        scipy_spl Akima (combine (qs [0; 1; 2; 3; 4]) (qs [0; 1; 4; 9; 16])) [Q2Qc (5 # 2)],
        scipy_spl CubicHermite (combine (qs [0; 1; 2; 3; 4]) (qs [0; 1; 4; 9; 16])) [Q2Qc (5 # 2)],
        scipy_spl Pchip (combine (qs [0; 1; 2; 3; 4]) (qs [0; 1; 4; 9; 16])) [Q2Qc (5 # 2)],
        scipy_spl Akima (combine (qs [0; 1; 2; 3; 4]) (qs [-1; 0; 1; 0; 2])) [Q2Qc (3 # 2)] with
  | Ok [a], Ok [b], Ok [c], Ok [d], Ok [e], Ok [f] =>
      a = Q2Qc (125 # 8) /\ b <> a /\ c = Q2Qc (25 # 4) /\ d = c /\ e <> c /\ f = Q2Qc (1 # 2)
  | _, _, _, _, _, _ => False
  end.
Proof. vm_compute. repeat split; try (apply Qc_is_canon; reflexivity); discriminate. Qed.

(** ** C90: EMD.emd with these curves, no hypothesis left on the interpolation *)
(** A component limit makes EMD.emd return, for every kind and every signal of two samples or more. *)
Theorem C90_returns :
  forall c, extrema_detection c = Simple -> 1 <= nbsym c -> parse_kind (spline_kind c) <> None ->
  forall fuel S T k, (2 <= length S)%nat -> (forall t, T = Some t -> length t = length S) ->
  0 < k -> (Z.to_nat k <= fuel)%nat -> exists o, emd scipy_spl fuel c S T k = Ok o.
Proof.
  intros c H1 H2 H3 fuel S T k. exact (C22_simple_returns scipy_spl kinds_interpolate c H1 H2 H3 fuel S T k kinds_no_fuel).
Qed.
Print Assumptions C90_returns.

(** The negated signal has the negated decomposition. *)
Theorem C90_negated :
  forall fuel c S T max_imf o, extrema_detection c = Simple -> (2 <= length S)%nat ->
  emd scipy_spl fuel c S T max_imf = Ok o ->
  exists o', emd scipy_spl fuel c (map Qcopp S) T max_imf = Ok o' /\
    out o' = map (map Qcopp) (out o) /\ imfs o' = map (map Qcopp) (imfs o) /\ residue o' = map Qcopp (residue o).
Proof.
  intros fuel c S T max_imf o. apply C66_emd. apply (responds_ext (fun x => - (1) * x + 0)%Qc); [intros; ring|]. apply kinds_respond.
Qed.
Print Assumptions C90_negated.

(** Another unit for the signal and its two thresholds: the same decomposition in that unit. *)
Theorem C90_unit :
  forall fuel c S T max_imf k r o, (0 < r)%Qc -> k = r \/ k = (- r)%Qc -> extrema_detection c = Simple ->
  FIXE c <> 0 \/ FIXE_H c <> 0 -> (2 <= length S)%nat -> emd scipy_spl fuel c S T max_imf = Ok o ->
  exists o', emd scipy_spl fuel (rescaled r c) (map (Qcmult k) S) T max_imf = Ok o' /\
    imfs o' = map (map (Qcmult k)) (imfs o) /\ residue o' = map (Qcmult k) (residue o).
Proof.
  intros fuel c S T max_imf k r o Hr Hk. apply C67_unit; auto. apply (responds_ext (fun x => k * x + 0)%Qc); [intros; ring|]. apply kinds_respond.
Qed.
Print Assumptions C90_unit.

(** A constant added to the signal ends up in the residue. *)
Theorem C90_offset :
  forall fuel c S T max_imf a o, extrema_detection c = Simple ->
  FIXE c <> 0 \/ FIXE_H c <> 0 -> 1 < MAX_ITERATION c -> (total_power_thr c <= 0)%Qc ->
  (2 <= length S)%nat -> emd scipy_spl fuel c S T max_imf = Ok o ->
  exists o', emd scipy_spl fuel c (map (fun y => y + a)%Qc S) T max_imf = Ok o' /\
    imfs o' = imfs o /\ residue o' = map (fun y => y + a)%Qc (residue o).
Proof.
  intros fuel c S T max_imf a o. apply C68_offset. apply (responds_ext (fun x => 1 * x + a)%Qc); [intros; ring|]. apply kinds_respond.
Qed.
Print Assumptions C90_offset.

(** The reversed signal has the reversed decomposition, if no signal met on the way has a flat top or
    a flat end. *)
Theorem C90_reversed :
  forall fuel c S T max_imf o, extrema_detection c = Simple -> 1 <= nbsym c -> (2 <= length S)%nat ->
  emd scipy_spl fuel c S T max_imf = Ok o ->
  (forall j z, (j <= length (imfs o))%nat ->
     sifted scipy_spl c (Z.to_nat (MAX_ITERATION c)) (minus_first j (imfs o) S) z -> pointed z) ->
  exists o', emd scipy_spl fuel c (rev S) T max_imf = Ok o' /\
    out o' = map (@rev Qc) (out o) /\ imfs o' = map (@rev Qc) (imfs o) /\ residue o' = rev (residue o).
Proof. intros fuel c S T max_imf o. exact (C77_emd scipy_spl fuel c S T max_imf o kinds_turn). Qed.
Print Assumptions C90_reversed.

(** A run with the default kind, Hermite splines and two sifts. *)
Definition C90_run (kind : String.string) : emd_config Qc := @demo_cfg Qc _ kind Simple 2 0 1000.
Example C90_emd_nonvacuous :
  match emd scipy_spl 9 (C90_run "cubic") (qs [0; 3; 0; 4; 1; 5; 0]) None 1 with Ok o => length (imfs o) = 1%nat | _ => False end.
Proof. vm_compute. reflexivity. Qed.
