(** * Props_Names: property C91, the spline kind by name.

    [kind_names] and [spelled] are defined in NamesSpec.v. *)
From Verif Require Import PyFacts QcFacts Emd Spec Demo EmdSimple Envelope PrepareProofs Jit Matlab MatlabInt NamesSpec NamesProofs NamesEmd.
From Coq Require Import String Ascii.
From Coq Require Import QArith Qcanon Lia.
From Coq Require Import List.
Import ListNotations.
Local Notation length := List.length.
Open Scope Z_scope.

(** ** C91 *)
(** Each of the seven names, in any mixture of capitals, selects its interpolation: it is asked for
    exactly the given instants between the first and the last knot. *)
Theorem C91_selects :
  forall (A : Type) (N : Num A) (spl : spline_oracle A) n k s T p l,
  In (n, k) kind_names -> spelled n s -> (k <> Cubic \/ 3 < zlen (p :: l)) ->
  spline_points spl s T (p :: l) =
  spl k (p :: l) (filter (fun u => nleb (fst p) u && nleb u (fst (last (p :: l) p)))%bool T).
Proof. intros A N spl n k s T p l H1 H2 H3. exact (points_named spl s k T p l (parse_spelled n k s H1 H2) H3). Qed.
Print Assumptions C91_selects.

(** Capitals in the name do not change a decomposition. *)
Theorem C91_capitals :
  forall (A : Type) (N : Num A) (spl : spline_oracle A) fuel a b d e f g s det fixe fixeh m S T k n kd,
  In (n, kd) kind_names -> spelled n s ->
  emd spl fuel (MkCfg a b d e f g s det fixe fixeh m) S T k = emd spl fuel (MkCfg a b d e f g n det fixe fixeh m) S T k.
Proof. intros. exact (renamed_emd spl (MkCfg a b d e f g s det fixe fixeh m) n (parse_same n kd s H H0) fuel S T k). Qed.
Print Assumptions C91_capitals.

(** Nor the envelopes of JitEMD and EMD_matlab, on floats and on integers. *)
Theorem C91_capitals_variants :
  forall (A : Type) (N : Num A) (spl : spline_oracle A) n kd s T pts,
  In (n, kd) kind_names -> spelled n s ->
  jit_spline_points spl s T pts = jit_spline_points spl n T pts /\
  splinePoints spl s T pts = splinePoints spl n T pts /\
  splinePoints_int spl s T pts = splinePoints_int spl n T pts.
Proof. intros. unfold jit_spline_points, splinePoints, splinePoints_int. rewrite (parse_same n kd s H H0). auto. Qed.
Print Assumptions C91_capitals_variants.

(** Any other name raises ValueError as soon as the signal has three extrema. *)
Theorem C91_unknown :
  forall (spl : spline_oracle Qc) fuel c S T k e,
  (forall n kd, In (n, kd) kind_names -> ~ spelled n (spline_kind c)) ->
  (0 < fuel)%nat -> 2 <= MAX_ITERATION c -> extrema_detection c = Simple -> 1 <= nbsym c ->
  (2 <= length S)%nat -> (forall t, T = Some t -> length t = length S) ->
  find_extrema Simple (arange (length S)) S = Ok e -> 3 <= zlen (max_pos e) + zlen (min_pos e) ->
  emd spl fuel c S T k = Raise ValueError.
Proof. intros. rewrite arange_tz in H6. eapply emd_unknown; eauto. apply parse_none. auto. Qed.
Print Assumptions C91_unknown.

(** "CuBiC" is cubic; "spline", "" and "cubic " are nothing. *)
Example C91_nonvacuous :
  spelled "cubic" "CuBiC" /\
  (forall n kd, In (n, kd) kind_names -> ~ spelled n "spline" /\ ~ spelled n "" /\ ~ spelled n "cubic ") /\
  (exists e, find_extrema Simple (arange 7) (qs [0; 2; 1; 3; 0; 1; 0]) = Ok e /\ 3 <= zlen (max_pos e) + zlen (min_pos e)).
Proof.
  split; [|split].
  - cbn [spelled]. repeat split; try (left; reflexivity); right; [exists 2%nat|exists 1%nat|exists 2%nat]; split; reflexivity.
  - intros n kd Hn. assert (G : forall s, parse_kind s = None -> ~ spelled n s).
    { intros s E C. rewrite (parse_spelled n kd s Hn C) in E. discriminate. }
    repeat split; apply G; reflexivity.
  - eexists. split; [vm_compute; reflexivity|vm_compute; discriminate].
Qed.
