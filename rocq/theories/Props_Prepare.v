(** * Props_Prepare: properties C20-C22 and C25: mirroring, absence of exceptions in 'simple'
    mode, three-point spline (exact arithmetic).

    [covers], [reflected], [natural_spline], [arange] are defined in Spec.v. *)
From Verif Require Import PyFacts QcFacts Emd Spec Demo DemoFacts.
From Verif Require Import ExtremaSpec PrepareProofs PreparePlan SplineProofs EmdSimple.
From Coq Require Import QArith Qcanon.
Open Scope Z_scope.

(** ** C20 *)
Theorem C20_mirroring_covers :
  forall S nb e, 1 <= nb ->
  find_extrema Simple (arange (length S)) S = Ok e ->
  2 < zlen (max_pos e) + zlen (min_pos e) ->
  exists P Q, prepare_points Simple nb (arange (length S)) S e = Ok (P, Q) /\
    covers (sample (arange (length S)) 0) (sample (arange (length S)) (zlen S - 1))
           (combine (max_pos e) (max_val e)) P /\
    covers (sample (arange (length S)) 0) (sample (arange (length S)) (zlen S - 1))
           (combine (min_pos e) (min_val e)) Q.
Proof. exact mirroring_covers. Qed.
Print Assumptions C20_mirroring_covers.
Example C20_nonvacuous :
  exists e, find_extrema Simple (arange (length demo_S)) demo_S = Ok e /\
    zlen (max_pos e) + zlen (min_pos e) = 7.
Proof. eexists. vm_compute. split; reflexivity. Qed.

(** With nbsym = 0 the extended positions can go backwards. *)
Theorem C20_nbsym_zero_refuted :
  exists S e P Q,
    find_extrema Simple (arange (length S)) S = Ok e /\
    2 < zlen (max_pos e) + zlen (min_pos e) /\
    prepare_points Simple 0 (arange (length S)) S e = Ok (P, Q) /\
    ~ increasing (map fst P).
Proof.
  exists demo_S. do 3 eexists. split; [vm_compute; reflexivity|]. split; [vm_compute; reflexivity|].
  split; [vm_compute; reflexivity|]. intros HI. specialize (HI 0%nat). cbn [map length] in HI.
  specialize (HI ltac:(lia)). vm_compute in HI. discriminate.
Qed.
Print Assumptions C20_nbsym_zero_refuted.

(** ** C21 *)
Theorem C21_reflections :
  forall S nb e P Q, 1 <= nb ->
  find_extrema Simple (arange (length S)) S = Ok e ->
  2 < zlen (max_pos e) + zlen (min_pos e) ->
  prepare_points Simple nb (arange (length S)) S e = Ok (P, Q) ->
  exists cl cr,
    (cl = Qc_ofZ 0 \/ In cl (max_pos e) \/ In cl (min_pos e)) /\
    (cr = Qc_ofZ (zlen S - 1) \/ In cr (max_pos e) \/ In cr (min_pos e)) /\
    reflected S cl cr (max_pos e) P /\ reflected S cl cr (min_pos e) Q.
Proof. exact mirroring_reflects. Qed.
Print Assumptions C21_reflections.
Example C21_nonvacuous :
  match find_extrema Simple (arange (length demo_S)) demo_S with
  | Ok e => match prepare_points Simple 2 (arange (length demo_S)) demo_S e with
            | Ok (P, Q) => map this (map fst P) = map inject_Z [-7; -1; 3; 9; 14; 20; 25] /\
                           map this (map snd P) = map inject_Z [2; 4; 4; 2; 5; 5; 2]
            | Raise _ => False
            end
  | Raise _ => False
  end.
Proof. vm_compute. repeat split. Qed.

(** Exactly which extrema are reflected, and about which instants: [left_plan] and [right_plan].
    Increasing positions and membership determine the two lists of points. *)
Theorem C21_exact_points :
  forall S nb e, 1 <= nb ->
  find_extrema Simple (arange (length S)) S = Ok e ->
  max_pos e <> [] -> min_pos e <> [] ->
  exists M m P Q, max_pos e = map Qc_ofZ M /\ min_pos e = map Qc_ofZ m /\
    prepare_points Simple nb (arange (length S)) S e = Ok (P, Q) /\
    let '(cl, LM, Lm) := left_plan (Z.to_nat nb) S M m in
    let '(cr, RM, Rm) := right_plan (Z.to_nat nb) S M m in
    (increasing (map fst P) /\ forall p, In p P <-> planned S M cl LM cr RM p) /\
    (increasing (map fst Q) /\ forall p, In p Q <-> planned S m cl Lm cr Rm p).
Proof. exact mirroring_exact. Qed.
Print Assumptions C21_exact_points.
(** The plans of the demonstration signal (maxima at 3, 9, 14; minima at 1, 6, 11, 17). *)
Example C21_exact_nonvacuous :
  match find_extrema Simple (arange (length demo_S)) demo_S with
  | Ok e => map Qc_trunc (max_pos e) = [3; 9; 14] /\ map Qc_trunc (min_pos e) = [1; 6; 11; 17] /\
            left_plan 2 demo_S [3; 9; 14] [1; 6; 11; 17] = (1, [3; 9], [6; 11]) /\
            right_plan 2 demo_S [3; 9; 14] [1; 6; 11; 17] = (17, [9; 14], [6; 11])
  | Raise _ => False
  end.
Proof. vm_compute. repeat split. Qed.

(** ** C22 *)
Theorem C22_simple_no_exception :
  forall spl, interpolates spl ->
  forall c, extrema_detection c = Simple -> 1 <= nbsym c -> parse_kind (spline_kind c) <> None ->
  forall fuel S T k e,
  (2 <= length S)%nat -> (forall t, T = Some t -> length t = length S) ->
  emd spl fuel c S T k = Raise e -> e = OutOfFuel.
Proof. exact emd_simple_no_exception. Qed.
Print Assumptions C22_simple_no_exception.

(** With a component limit EMD.emd therefore returns a decomposition. *)
Theorem C22_simple_returns :
  forall spl, interpolates spl ->
  forall c, extrema_detection c = Simple -> 1 <= nbsym c -> parse_kind (spline_kind c) <> None ->
  forall fuel S T k,
  (forall kind pts t, spl kind pts t <> Raise OutOfFuel) ->
  (2 <= length S)%nat -> (forall t, T = Some t -> length t = length S) ->
  0 < k -> (Z.to_nat k <= fuel)%nat -> exists o, emd spl fuel c S T k = Ok o.
Proof. exact emd_simple_returns. Qed.
Print Assumptions C22_simple_returns.
(** Piecewise linear interpolation meets the hypotheses, for every signal. *)
Example C22_nonvacuous :
  interpolates lin_spl /\ (forall kind pts (t : list Qc), lin_spl kind pts t <> Raise OutOfFuel) /\
  extrema_detection demo_cubic = Simple /\ 1 <= nbsym demo_cubic /\
  parse_kind (spline_kind demo_cubic) <> None.
Proof.
  split; [exact lin_interpolates|]. split; [exact lin_no_fuel|].
  split; [reflexivity|]. split; discriminate.
Qed.

(** A signal with fewer than two samples does raise. *)
Theorem C22_one_sample_refuted :
  forall fuel (s : Qc), emd lin_spl fuel demo_default [s] None (-1) = Raise ValueError /\
  emd lin_spl fuel demo_default [] None (-1) = Raise IndexError.
Proof. intros fuel s. split; reflexivity. Qed.
Print Assumptions C22_one_sample_refuted.

(** ** C25 *)
Theorem C25_natural_spline :
  forall x0 y0 x1 y1 x2 y2 T,
  (x0 < x1)%Qc -> (x1 < x2)%Qc -> increasing T ->
  exists p q v, natural_spline x0 x1 x2 y0 y1 y2 p q /\
    cubic_spline_3pts [(x0, y0); (x1, y1); (x2, y2)] T =
      Ok (filter (fun u => Qc_leb x0 u && Qc_leb u x2) T, v) /\
    v = map (fun u => if Qc_ltb u x1 then peval p u else peval q u)
            (filter (fun u => Qc_leb x0 u && Qc_leb u x2) T).
Proof. exact cubic3_spec. Qed.
Print Assumptions C25_natural_spline.
(** [natural_spline] determines the two polynomials. *)
Theorem C25_unique :
  forall x0 x1 x2 y0 y1 y2 p q p' q', (x0 < x1)%Qc -> (x1 < x2)%Qc ->
  natural_spline x0 x1 x2 y0 y1 y2 p q -> natural_spline x0 x1 x2 y0 y1 y2 p' q' ->
  forall u, peval p u = peval p' u /\ peval q u = peval q' u.
Proof. exact natural_unique. Qed.
Print Assumptions C25_unique.
(** The values checked by the repository's own unit test (test_splines.py). *)
Example C25_nonvacuous :
  exists t v, cubic_spline_3pts [(q 0, q 0); (q 1, q 1); (q 2, q (-1))]
    [q 0; Q2Qc (1 # 2); q 1; Q2Qc (3 # 2); q 2] = Ok (t, v) /\
  map this v = [0 # 1; 25 # 32; 1 # 1; 9 # 32; -1 # 1]%Q.
Proof. do 2 eexists. vm_compute. split; reflexivity. Qed.
