(** * Props_MatlabInt: property C89, EMD_matlab on arrays of integers.

    [m_emd_int] (MatlabInt.v) is the [emd] of EMD_matlab.py called with an integer signal and
    integer (or no) times, [m_emd] (Matlab.v) the same call with floating point arrays.
    [shaped], [adds_up] are defined in Spec.v; [remainder], [tiny], [whole], [halves] in
    MatlabSpec.v; [cutting], [linearly] in MatlabIntSpec.v; [finite], [real_sum], [real_size] in
    Float64.v. *)
From Flocq Require Import Core BinarySingleNaN.
From Coq Require Import Reals Lra.
From Verif Require Import PyFacts QcFacts Emd Matlab MatlabInt Spec MatlabSpec MatlabIntSpec Float64 MatlabRun MatlabIntProofs MatlabIntCut FloatMatlabInt MatlabDemo Demo DemoFacts.
From Coq Require Import QArith Qcanon.
From Coq Require String.
Open Scope Z_scope.

(** ** C89 *)
Theorem C89_rows :
  forall {A} `{Num A} (spl : spline_oracle A) c fuel S T k rows no,
  m_emd_int spl fuel c S T k = Ok (rows, no) ->
  shaped (length S) (map row_imf rows) /\ no = zlen rows.
Proof. exact @m_int_shaped. Qed.
Print Assumptions C89_rows.

(** Whatever the settings: the rows add up to the signal, up to a rest of total size at most
    1e-10. *)
Theorem C89_sum :
  forall spl c fuel S T k rows no,
  m_emd_int spl fuel c S T k = Ok (rows, no) ->
  adds_up (map row_imf rows) (map Qc_ofZ S) \/
  exists R, remainder (map Qc_ofZ S) (map row_imf rows) R /\ tiny R.
Proof. exact m_int_sum. Qed.
Print Assumptions C89_sum.

(** Unless the spline kind is akima, every sample of every row is a multiple of one half and the
    rows add up to the signal exactly. *)
Theorem C89_exact :
  forall spl c fuel S T k rows no,
  parse_kind (m_splineKind c) <> Some Akima -> whole (reduceScale c) ->
  m_emd_int spl fuel c S T k = Ok (rows, no) ->
  adds_up (map row_imf rows) (map Qc_ofZ S) /\ (forall r, In r rows -> Forall halves (row_imf r)).
Proof. exact m_int_exact. Qed.
Print Assumptions C89_exact.

(** The same in double precision, for signals in the range of int64: finite samples are multiples
    of one half, and the rows add up without any rounding error where the numbers involved are
    below 2^52. *)
Theorem C89_float :
  forall (spl : spline_oracle f64) c,
  parse_kind (m_splineKind c) <> Some Akima ->
  finite (reduceScale c) /\ (exists z, B2R (reduceScale c) = IZR z) ->
  forall fuel S T k rows no, m_emd_int spl fuel c S T k = Ok (rows, no) ->
  Forall (fun z => Z.abs z < 2 ^ 63) S -> (forall r, In r rows -> Forall finite (row_imf r)) ->
  (forall r x, In r rows -> In x (row_imf r) -> exists z, (B2R x = IZR z / 2)%R) /\
  forall i, (i < length S)%nat ->
  (Rabs (IZR (nth i S 0%Z)) + real_size (map row_imf rows) i < 2 ^ 52)%R ->
  real_sum (map row_imf rows) i = IZR (nth i S 0).
Proof. exact m_int_float. Qed.
Print Assumptions C89_float.

(** What the integer type changes: the knots and the values of the envelopes are cut to whole
    numbers, and nothing else. *)
Theorem C89_cut :
  forall spl fuel c S T k kd,
  parse_kind (m_splineKind c) = Some kd -> kd <> Pchip -> kd <> CubicHermite ->
  let t := match T with Some t => t | None => zseq 0 (length S) end in
  m_emd_int spl fuel c S T k =
  m_emd (cutting spl kd (map Qc_ofZ t)) fuel (linearly c) (map Qc_ofZ S) (Some (map Qc_ofZ t)) k.
Proof. exact m_int_cut. Qed.
Print Assumptions C89_cut.

(** A run on integers, with two rows. *)
Definition int_S : list Z := [0; 3; -2; 4; -1; 2].
Definition shown (r : res (list (m_row Qc) * Z)) : list (list Q) :=
  match r with Ok (rows, _) => map (fun r => map this (row_imf r)) rows | Raise _ => [] end.
Example C89_nonvacuous :
  shown (m_emd_int lin_spl 9 mat_fixe int_S None None) =
    [[-1 # 2; 5 # 2; -5 # 2; 5 # 2; -5 # 2; 1 # 2]; [1 # 2; 1 # 2; 1 # 2; 3 # 2; 3 # 2; 3 # 2]]%Q /\
  parse_kind (m_splineKind mat_fixe) = Some Linear /\ whole (reduceScale mat_fixe).
Proof. split; [vm_compute; reflexivity|]. split; [reflexivity|]. exists 1. reflexivity. Qed.
Import String.
Local Notation length := List.length.
Definition int_f : m_config f64 := MkMCfg "linear"%string 2 (nofZ 1) 500 1 0 (nlit 5 100) (nlit 5 10) (nlit 5 100) 1000.
Example C89_float_nonvacuous :
  match m_emd_int lin_spl 9 int_f int_S None None with
  | Ok (rows, no) => (no, forallb (fun r => forallb is_finite (row_imf r)) rows, map (fun r => map (fun x => this (value x)) (row_imf r)) rows)
  | Raise _ => (0, false, []) end =
  (2, true, [[-1 # 2; 5 # 2; -5 # 2; 5 # 2; -5 # 2; 1 # 2]; [1 # 2; 1 # 2; 1 # 2; 3 # 2; 3 # 2; 3 # 2]]%Q).
Proof. vm_compute. reflexivity. Qed.

(** The same numbers as integers and as floating point numbers are decomposed differently. *)
Theorem C89_same_rows_refuted :
  exists spl fuel c S rows rows' n n',
  m_emd_int spl fuel c S None None = Ok (rows, n) /\ m_emd spl fuel c (map Qc_ofZ S) None None = Ok (rows', n') /\
  length rows = length rows' /\ map row_imf rows <> map row_imf rows'.
Proof.
  exists lin_spl, 9%nat, mat_fixe, int_S.
  assert (X : match m_emd_int lin_spl 9 mat_fixe int_S None None, m_emd lin_spl 9 mat_fixe (map Qc_ofZ int_S) None None with
    | Ok (r, n), Ok (r', n') => Nat.eqb (length r) (length r') &&
        negb (Qc_eqb (nth 0 (nth 0 (map row_imf r) []) 0%Qc) (nth 0 (nth 0 (map row_imf r') []) 0%Qc))
    | _, _ => false end = true) by (vm_compute; reflexivity).
  destruct (m_emd_int _ _ _ _ _ _) as [[r n]|]; [|discriminate]. destruct (m_emd _ _ _ _ _ _) as [[r' n']|]; [|discriminate].
  apply andb_prop in X as [X1 X2]. exists r, r', n, n'. split; [reflexivity|]. split; [reflexivity|].
  split; [apply Nat.eqb_eq; exact X1|]. intros E. rewrite E in X2. apply negb_true_iff in X2.
  assert (Y : forall x, Qc_eqb x x = true) by (intros x; apply Qc_eqb_eq; reflexivity). rewrite Y in X2. discriminate.
Qed.
Print Assumptions C89_same_rows_refuted.

(** With akima the envelopes are not cut, and samples need not be multiples of one half. *)
Theorem C89_akima_refuted :
  exists spl fuel c S rows n, parse_kind (m_splineKind c) = Some Akima /\ whole (reduceScale c) /\
  m_emd_int spl fuel c S None None = Ok (rows, n) /\ ~ (forall r, In r rows -> Forall halves (row_imf r)).
Proof.
  exists lin_spl, 9%nat, (mat_cfg "akima" 2 0), int_S.
  assert (X : match m_emd_int lin_spl 9 (mat_cfg "akima" 2 0) int_S None None with
    | Ok (r :: _, _) => match map (fun x => (x + x)%Qc) (row_imf r) with x :: _ => negb (Qc_eqb x (Qc_ofZ (Qc_trunc x))) | _ => false end
    | _ => false end = true) by (vm_compute; reflexivity).
  destruct (m_emd_int _ _ _ _ _ _) as [[[|r rows] n]|]; try discriminate. exists (r :: rows), n.
  split; [reflexivity|]. split; [exists 1; reflexivity|]. split; [reflexivity|]. intros G. specialize (G r (or_introl eq_refl)).
  destruct (row_imf r) as [|x l]; [discriminate|]. cbn [map] in X. inversion G as [|? ? Hx _]; subst. apply cut_whole in Hx.
  unfold to_int in Hx. cbn [nofZ ntrunc QcNum] in Hx. rewrite Hx in X.
  assert (Y : forall x, Qc_eqb x x = true) by (intros y; apply Qc_eqb_eq; reflexivity). rewrite Y in X. discriminate.
Qed.
Print Assumptions C89_akima_refuted.
