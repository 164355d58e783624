(** * Props_Typed: properties C71 and C72, integer arrays.

    [emd_typed] (Typed.v) is EMD.emd on arrays of NumPy integers or doubles; [emd] at [f64]
    (Emd.v, Float64.v) is EMD.emd on doubles.  [to_doubles a] is the array converted beforehand by
    the caller. *)
From Verif Require Import Py PyFacts QcFacts Extrema Emd Utils UtilsSpec Spec Float64 Typed TypedSpec TypedProofs IntExtrema
  Demo Props_Utils.
From Coq Require Import QArith Qcanon.
From Coq Require String.
Import String.
Local Notation length := List.length.
Open Scope Z_scope.

(** ** C71: integer signals are decomposed in double precision. *)
(** The decomposition is computed in a floating-point type, whatever the types of signal and times;
    in double precision unless both are narrower; and the returned array is double precision. *)
Theorem C71_types : forall dS dT : dtype, dS <> OtherType -> dT <> OtherType ->
  is_floating (working_type dS dT) /\ returned_type (working_type dS dT) = Float64 /\
  (working_type dS dT = Float64 <->
   dS = Float64 \/ is_integer dT \/ dT = Float64 \/ (is_integer dS /\ 32 <= bits dS)).
Proof. exact working_floating. Qed.
Print Assumptions C71_types.
(** Without times, or in 'simple' mode, decomposing an integer signal gives the same result (or
    exception) as converting it to doubles first. *)
Theorem C71_integers :
  forall (differs : dtype -> option Z -> Z -> bool) (spl : spline_oracle f64) fuel (c : emd_config f64)
         (d : dtype) (zs : list Z) (T : option array) (max_imf : Z),
  comparison_ok differs -> is_integer d -> Forall (fits d) zs -> zlen zs <= 2 ^ 53 ->
  T = None \/ extrema_detection c = Simple ->
  emd_typed differs spl fuel c (Ints d zs) T max_imf =
  emd spl fuel c (map f64_ofZ zs) (option_map to_doubles T) max_imf.
Proof. intros; apply (emd_typed_default differs spl fuel c (Ints d zs)); cbn; auto. Qed.
Print Assumptions C71_integers.
(** On doubles the typed timeline makes no difference. *)
Theorem C71_doubles :
  forall (differs : dtype -> option Z -> Z -> bool) (spl : spline_oracle f64) fuel (c : emd_config f64)
         (S : list f64) (T : option array) (max_imf : Z),
  comparison_ok differs -> zlen S <= 2 ^ 53 -> T = None \/ extrema_detection c = Simple ->
  emd_typed differs spl fuel c (Doubles S) T max_imf = emd spl fuel c S (option_map to_doubles T) max_imf.
Proof. intros; apply (emd_typed_default differs spl fuel c (Doubles S)); cbn; auto. Qed.
Print Assumptions C71_doubles.
(** Integer times, used in 'parabol' mode: they may be integers as long as the whole range of times
    fits their type (and 2^53). *)
Theorem C71_integer_times :
  forall (differs : dtype -> option Z -> Z -> bool) (spl : spline_oracle f64) fuel (c : emd_config f64)
         (S : array) (d : dtype) (t : list Z) (max_imf : Z),
  array_ok S -> is_integer d -> Forall (fits d) t -> zincreasing t ->
  (forall x y, In x t -> In y t -> y - x <= largest_of d) ->
  (forall x y, In x t -> In y t -> Z.abs x <= 2 ^ 53 /\ y - x <= 2 ^ 53) ->
  extrema_detection c = Parabol ->
  emd_typed differs spl fuel c S (Some (Ints d t)) max_imf =
  emd spl fuel c (to_doubles S) (Some (map f64_ofZ t)) max_imf.
Proof. exact emd_typed_times. Qed.
Print Assumptions C71_integer_times.
(** If the range does not fit, [t - t[0]] wraps around: int8 times from -120 to 120 make 'parabol'
    mode raise although the same times as doubles are fine. *)
Definition wide_T : list Z := [-120; -80; -40; 0; 40; 80; 120].
Definition wide_S : list Z := [0; 5; -4; 6; -5; 4; 0].
Definition typed_cfg (m : detection) := @demo_cfg f64 _ "linear"%string m 1 0 1000.
Theorem C71_narrow_times_refuted :
  exists (d : dtype) (t zs : list Z) (c : emd_config f64) (spl : spline_oracle f64),
  is_integer d /\ Forall (fits d) t /\ zincreasing t /\ length t = length zs /\ extrema_detection c = Parabol /\
  (forall differs, emd_typed differs spl 10 c (Ints Int64 zs) (Some (Ints d t)) 1 = Raise ValueError) /\
  is_ok (emd spl 10 c (map f64_ofZ zs) (Some (map f64_ofZ t)) 1) = true.
Proof.
  exists Int8, wide_T, wide_S, (typed_cfg Parabol), lin_spl. split; [exact I|].
  split. { repeat constructor; unfold fits; cbn; lia. }
  split. { cbn. repeat (split; [intros y H; repeat (destruct H as [<-|H]; [lia|]); destruct H|]). exact I. }
  split; [reflexivity|]. split; [reflexivity|]. split; [intros differs|]; vm_compute; reflexivity.
Qed.
Print Assumptions C71_narrow_times_refuted.
Example C71_nonvacuous :
  comparison_ok exact_compare /\ Forall (fits Int16) wide_S /\ zincreasing wide_T /\
  (forall x y, In x wide_T -> In y wide_T -> y - x <= largest_of Int16) /\
  match emd_typed exact_compare lin_spl 10 (typed_cfg Simple) (Ints Int16 wide_S) None 1 with
  | Ok o => (zlen (out o), zlen (imfs o)) | _ => (0, 0) end = (2, 1) /\
  is_ok (emd_typed exact_compare lin_spl 10 (typed_cfg Parabol) (Ints Int16 wide_S) (Some (Ints Int16 wide_T)) 1) = true.
Proof.
  split. { split; intros; unfold exact_compare; [rewrite Z.eqb_refl; auto|]. destruct (Z.eqb_spec z k); [contradiction|auto]. }
  split. { repeat constructor; unfold fits; cbn; lia. }
  split. { cbn. repeat (split; [intros y H; repeat (destruct H as [<-|H]; [lia|]); destruct H|]). exact I. }
  split. { unfold wide_T. cbn [In]. change (largest_of Int16) with 32767. intros x y Hx Hy. lia. }
  split; vm_compute; reflexivity.
Qed.

(** ** C72: extrema of integer arrays. *)
(** Called directly on integers, extrema detection is exact if no difference of neighbours and no
    product of two neighbouring differences exceeds the range of the type. *)
Theorem C72_extrema : forall (d : dtype) (T S : list Z), is_integer d -> length T = length S ->
  (forall i, 0 <= i < zlen S - 1 -> fits d (zat S (i + 1) - zat S i)) ->
  (forall i, 0 <= i < zlen S - 2 -> fits d ((zat S (i + 1) - zat S i) * (zat S (i + 2) - zat S (i + 1)))) ->
  exists e M m, find_extrema_ints d T S = Ok e /\
    max_pos e = map (zat T) M /\ max_val e = map (zat S) M /\
    min_pos e = map (zat T) m /\ min_val e = map (zat S) m /\
    zincreasing M /\ zincreasing m /\
    (forall i, In i M <-> reported_max (map Qc_ofZ S) i) /\ (forall i, In i m <-> reported_min (map Qc_ofZ S) i).
Proof. exact int_extrema. Qed.
Print Assumptions C72_extrema.
Theorem C72_zero_crossings : forall (d : dtype) (T S : list Z) e, is_integer d ->
  (forall i, 0 <= i < zlen S - 1 -> fits d (zat S i * zat S (i + 1))) ->
  find_extrema_ints d T S = Ok e ->
  forall i, In i (indzer e) <->
    (0 <= i < zlen S - 1 /\ opposite (sample (map Qc_ofZ S) i) (sample (map Qc_ofZ S) (i + 1))) \/
    (exists a b, zero_run (map Qc_ofZ S) a b /\ rounded_mid a b i).
Proof. exact int_crossings. Qed.
Print Assumptions C72_zero_crossings.
(** Unsigned arrays have no extrema as far as the code can see: their differences are never
    negative. *)
Theorem C72_unsigned : forall (d : dtype) (T S : list Z) e, is_unsigned d -> find_extrema_ints d T S = Ok e ->
  max_pos e = [] /\ max_val e = [] /\ min_pos e = [] /\ min_val e = [].
Proof. exact unsigned_blind. Qed.
Print Assumptions C72_unsigned.
(** Signed 16-bit arrays of moderate size: a hill of height 256 is missed, and a point on a straight
    line of slope 200 is reported as a maximum. *)
Theorem C72_overflow_refuted :
  (exists T S e, Forall (fits Int16) S /\ hill (map Qc_ofZ S) 1 1 /\ find_extrema_ints Int16 T S = Ok e /\ max_pos e = []) /\
  (exists T S e, Forall (fits Int16) S /\ zincreasing S /\ find_extrema_ints Int16 T S = Ok e /\ max_pos e = [1]).
Proof.
  split.
  - exists [0; 1; 2], [0; 256; 0]. eexists. split; [repeat constructor; unfold fits; cbn; lia|].
    split; [|split; [vm_compute; reflexivity|reflexivity]].
    split; [lia|]. split; [cbn; lia|]. split; [intros i Hi; replace i with 1 by lia; reflexivity|]. split; vm_compute; reflexivity.
  - exists [0; 1; 2], [0; 200; 400]. eexists. split; [repeat constructor; unfold fits; cbn; lia|].
    split. { cbn. repeat (split; [intros y H; repeat (destruct H as [<-|H]; [lia|]); destruct H|]). exact I. }
    split; [vm_compute; reflexivity|reflexivity].
Qed.
Print Assumptions C72_overflow_refuted.
(** The signal of test_extrema.py, as 16-bit integers, and a pixel row as unsigned bytes. *)
Definition row16 : list Z := [0; -3; 1; 4; 3; 2; -2; 0; 1; 2; 1; 0; 1; 2; 5; 4; 0; -2; -1].
Example C72_nonvacuous :
  forallb (fun p => Z.leb (lowest_of Int16) p && Z.leb p (largest_of Int16))
    (zdiff row16 ++ adj Z.mul (zdiff row16) ++ adj Z.mul row16) = true /\
  match find_extrema_ints Int16 (zseq 0 19) row16 with
  | Ok e => (max_pos e, max_val e, min_pos e, min_val e) | _ => ([], [], [], []) end
  = ([3; 9; 14], [4; 2; 5], [1; 6; 11; 17], [-3; -2; 0; -2]) /\
  match find_extrema_ints UInt8 (zseq 0 7) [10; 90; 20; 20; 70; 30; 200] with
  | Ok e => (max_pos e, min_pos e) | _ => ([1], [1]) end = ([], []).
Proof. repeat split; vm_compute; reflexivity. Qed.
