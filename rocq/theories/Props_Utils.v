(** * Props_Utils: properties C26 and C27, timelines and common types. *)
From Verif Require Import PyFacts Emd Utils UtilsSpec UtilsProofs UtilsMore UtilsRound Demo.
From Coq Require Import QArith Qcanon Qabs.
Open Scope Z_scope.

(** ** C26: get_timeline counts 0, 1, ..., n-1. *)
(** Integer types: for every length that fits a 64-bit counter. *)
Theorem C26_integers : forall (differs : dtype -> option Z -> Z -> bool) (d : dtype) (n : nat),
  comparison_ok differs -> is_integer d -> (1 <= n)%nat -> Z.of_nat n < 2 ^ 64 - 1 ->
  exists d' l, get_timeline differs n (Some d) = Ok (d', l) /\
    is_integer d' /\ bits d <= bits d' /\ counts n l.
Proof. exact timeline_integers. Qed.
Print Assumptions C26_integers.
(** Floating types: only up to two to the power of their precision. *)
Theorem C26_floats : forall (differs : dtype -> option Z -> Z -> bool) (d : dtype) (n : nat),
  comparison_ok differs -> is_floating d -> (1 <= n)%nat -> Z.of_nat n <= 2 ^ precision d + 1 ->
  exists l, get_timeline differs n (Some d) = Ok (d, l) /\ counts n l.
Proof. exact timeline_floats. Qed.
Print Assumptions C26_floats.
(** Beyond that the timeline of half and single precision repeats values (it is returned all the
    same, whatever the comparison at utils.py:24 says), and EMD.emd without T stops with an
    AssertionError when it normalises it. *)
Theorem C26_floats_repeat : forall (differs : dtype -> option Z -> Z -> bool) (d : dtype) (n : nat),
  d = Float16 \/ d = Float32 -> 2 ^ precision d + 2 <= Z.of_nat n < largest_of d ->
  exists vs, get_timeline differs n (Some d) = Ok (d, map Some vs) /\ length vs = n /\
    normalize_time (map Qc_ofZ vs) = Raise AssertionError.
Proof. exact timeline_repeats. Qed.
Print Assumptions C26_floats_repeat.
(** Whatever the length, each instant of a floating timeline is the number of its type nearest to the
    count, as long as the count does not exceed the largest number of the type. *)
Theorem C26_floats_nearest : forall (differs : dtype -> option Z -> Z -> bool) (d : dtype) (n : nat) d' l,
  is_floating d -> get_timeline differs n (Some d) = Ok (d', l) ->
  is_floating d' /\ length l = n /\
  forall i, (i < n)%nat -> Z.of_nat i <= largest_of d' ->
  exists v, nth_error l i = Some (Some v) /\ holds d' (inject_Z v) /\
    forall w, holds d' w -> (inject_Z (Z.abs (v - Z.of_nat i)) <= Qabs (w - inject_Z (Z.of_nat i)))%Q.
Proof. exact timeline_nearest. Qed.
Print Assumptions C26_floats_nearest.
Theorem C26_every_dtype_refuted : forall differs : dtype -> option Z -> Z -> bool,
  exists (d : dtype) (n : nat), is_floating d /\ (1 <= n)%nat /\ Z.of_nat n = 2050 /\
    forall d' l, get_timeline differs n (Some d) = Ok (d', l) -> ~ counts n l.
Proof. exact timeline_refuted. Qed.
Print Assumptions C26_every_dtype_refuted.
(** The comparison of NumPy 1 (exact) meets the hypothesis; an int8 timeline of 130 samples becomes
    unsigned 16 bit (as test_utils.py expects), 128 samples stay int8. *)
Definition exact_compare (_ : dtype) (x : option Z) (k : Z) : bool :=
  match x with Some z => negb (z =? k) | None => true end.
Example C26_nonvacuous :
  comparison_ok exact_compare /\
  (exists l, get_timeline exact_compare 130 (Some Int8) = Ok (UInt16, l) /\ counts 130 l) /\
  (exists l, get_timeline exact_compare 128 (Some Int8) = Ok (Int8, l)) /\
  (exists l, get_timeline exact_compare 257 (Some UInt8) = Ok (UInt16, l)) /\
  (exists l, get_timeline exact_compare 256 (Some UInt8) = Ok (UInt8, l)) /\
  store Float16 2049 = Some 2048 /\ store Float16 2050 = Some 2050 /\ store Float16 65520 = None.
Proof.
  assert (C : comparison_ok exact_compare).
  { split; intros; unfold exact_compare; [rewrite Z.eqb_refl; auto|]. destruct (Z.eqb_spec z k); [contradiction|auto]. }
  split; [exact C|].
  split. { destruct (C26_integers exact_compare Int8 130 C I ltac:(lia) ltac:(reflexivity)) as (d' & l & E & _ & _ & K).
    exists l. split; [|exact K].
    assert (match get_timeline exact_compare 130 (Some Int8) with Ok (d, _) => d = UInt16 | _ => False end) as T by (vm_compute; reflexivity).
    rewrite E in T |- *. rewrite T. reflexivity. }
  repeat split; try (eexists; vm_compute; reflexivity).
Qed.

(** ** C27: a common type that holds every value of both arrays. *)
Theorem C27_symmetric : forall (cast : dtype -> Q -> Q) (x y : dtype * list Q),
  deduce_common_type (fst y) (fst x) = deduce_common_type (fst x) (fst y) /\
  unify_types cast y x = (snd (unify_types cast x y), fst (unify_types cast x y)).
Proof. intros. split; [apply common_symmetric|apply unify_symmetric]. Qed.
Print Assumptions C27_symmetric.
Theorem C27_lossless : forall (cast : dtype -> Q -> Q) (x y : dtype) (xs ys : list Q),
  cast_ok cast -> x <> OtherType -> y <> OtherType ->
  Forall (holds x) xs -> Forall (holds y) ys ->
  Forall (convertible x (deduce_common_type x y)) xs -> Forall (convertible y (deduce_common_type x y)) ys ->
  exists d xs' ys', unify_types cast (x, xs) (y, ys) = ((d, xs'), (d, ys')) /\
    Forall2 Qeq xs xs' /\ Forall2 Qeq ys ys'.
Proof. exact unify_spec. Qed.
Print Assumptions C27_lossless.
(** It is no wider than needed: no smaller type holds every value of both arrays, and it is a
    floating type only if no integer type does. *)
Theorem C27_smallest : forall x y d : dtype, x <> OtherType -> y <> OtherType ->
  (forall q, holds x q \/ holds y q -> holds d q) ->
  bits (deduce_common_type x y) <= bits d /\ (is_floating (deduce_common_type x y) -> is_floating d).
Proof. exact common_smallest. Qed.
Print Assumptions C27_smallest.
Example C27_smallest_nonvacuous : (forall q, holds UInt8 q \/ holds UInt16 q -> holds UInt64 q) /\ deduce_common_type UInt8 UInt16 = UInt16.
Proof.
  split; [|reflexivity]. intros q [(z & E & Hz)|(z & E & Hz)]; exists z; (split; [exact E|]); cbn in *; lia.
Qed.
(** Without the proviso it fails: int64 with float64, and int64 with uint64, meet in float64,
    which cannot hold 2^53 + 1. *)
Theorem C27_wide_refuted : exists q : Q, holds Int64 q /\ holds UInt64 q /\
  deduce_common_type Int64 Float64 = Float64 /\ deduce_common_type Int64 UInt64 = Float64 /\
  deduce_common_type Int64 Float16 = Float64 /\ ~ holds Float64 q.
Proof. exact wide_refuted. Qed.
Print Assumptions C27_wide_refuted.
Example C27_nonvacuous :
  cast_ok (fun _ q => q) /\ holds Float32 (-3 # 8) /\ holds Int16 (inject_Z (-32768)) /\ ~ holds Int16 (-3 # 8) /\
  deduce_common_type Int16 Float16 = Float32 /\ deduce_common_type Int8 UInt8 = Int16 /\
  unify_types (fun _ q => q) (Int16, [inject_Z 7]) (Float16, [1 # 2]) = ((Float32, [inject_Z 7]), (Float32, [1 # 2])).
Proof.
  split; [intros d q _; reflexivity|].
  split. { exists (-3), (-3). split; [reflexivity|]. vm_compute. intuition discriminate. }
  split. { exists (-32768). split; [reflexivity|]. vm_compute. intuition discriminate. }
  split. { intros (z & E & _). unfold Qeq in E. cbn in E. lia. }
  repeat split.
Qed.
