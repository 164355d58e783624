(** * Props_Narrow: property C97, signals in single or half precision.

    [emd_n up down draw] (Narrow.v) is EMD.emd on an array of a type [N] narrower than the type [W]
    of the arrays it returns; [draw] is any interpolation.  [f32], [f16], [widen], [bvalue],
    [apart_by], [entry] are in Float32.v; [library_sum], [real_sum], [real_size] in Float64.v. *)
From Verif Require Import Py PyFacts Emd Spec ExtremaSpec EmdControl Float64 Narrow NarrowProofs Float32 Float32Proofs FloatAnyProofs Demo.
From Flocq Require Import Core BinarySingleNaN.
From Coq Require Import Reals QArith Qcanon.
From Coq Require String.
Import String.
Local Notation length := List.length.
Open Scope Z_scope.

(** ** What holds whatever the two types and the interpolation *)
(** Every row has the signal's length; each component consists of numbers of the narrow type; the
    returned rows are the components and, unless it is negligible, the residue. *)
Theorem C97_rows :
  forall (N W : Type) (HN : Num N) (HW : Num W) (up : N -> W) (down : W -> N) draw fuel c cw
         (S : list N) (T : option (list N)) (max_imf : Z) (o : emd_out W),
  emd_n up down draw fuel c cw S T max_imf = Ok o ->
  (forall r, In r (imfs o) -> exists v : list N, r = map up v /\ length v = length S) /\
  (forall r, In r (out o) -> length r = length S) /\ length (residue o) = length S /\
  (out o = imfs o \/ out o = imfs o ++ [residue o]).
Proof.
  intros N W HN HW up down draw fuel c cw S T k o E. split; [|split; [|split]].
  - apply Forall_forall. exact (emd_n_rows _ _ _ _ _ _ _ _ _ _ E).
  - apply Forall_forall. apply (emd_n_shape _ _ _ _ _ _ _ _ _ _ E).
  - apply (emd_n_shape _ _ _ _ _ _ _ _ _ _ E).
  - rewrite (emd_n_out _ _ _ _ _ _ _ _ _ _ E). destruct (allclose0 _); auto.
Qed.
Print Assumptions C97_rows.

(** A limit bounds the number of components, and with it the decomposition ends. *)
Theorem C97_limit :
  forall (N W : Type) (HN : Num N) (HW : Num W) (up : N -> W) (down : W -> N) draw fuel c cw
         (S : list N) (T : option (list N)) (max_imf : Z),
  0 < max_imf ->
  (forall o, emd_n up down draw fuel c cw S T max_imf = Ok o -> zlen (imfs o) <= max_imf /\ zlen (out o) <= max_imf + 1) /\
  ((forall t e, draw t e <> Raise OutOfFuel) -> max_imf <= Z.of_nat fuel ->
   emd_n up down draw fuel c cw S T max_imf <> Raise OutOfFuel).
Proof.
  intros N W HN HW up down draw fuel c cw S T k Hk. split.
  - intros o E. exact (emd_n_max_imf _ _ _ _ _ _ _ _ _ _ E Hk).
  - intros Hd Hf. apply emd_n_total; auto. lia.
Qed.
Print Assumptions C97_limit.

(** With exact wide arithmetic, components and residue add up to the signal, however the narrow
    arithmetic rounds. *)
Theorem C97_adds_up :
  forall (N : Type) (HN : Num N) (up : N -> Qc) (down : Qc -> N) draw fuel c cw
         (S : list N) (T : option (list N)) (max_imf : Z) (o : emd_out Qc),
  emd_n up down draw fuel c cw S T max_imf = Ok o -> adds_up (imfs o ++ [residue o]) (map up S).
Proof. intros. eapply qc_residue; eauto. Qed.
Print Assumptions C97_adds_up.

(** For a signal already in the wide type this is the EMD of Emd.v. *)
Theorem C97_same_type :
  forall (A : Type) (HA : Num A) (spl : spline_oracle A) (draw : list A -> list (A * A) -> res (@arr A A))
         fuel (c : emd_config A) S T max_imf,
  (forall t e, bind (draw t e) (fun a => Ok (wide (fun x => x) a)) = spline_points spl (spline_kind c) t e) ->
  emd_n (fun x => x) (fun x => x) draw fuel c c S T max_imf = emd spl fuel c S T max_imf.
Proof. intros. apply emd_n_same. auto. Qed.
Print Assumptions C97_same_type.

(** ** Single and half precision, float64 results *)
(** Going to float64 loses nothing: the value is the same, and coming back gives the sample again. *)
Theorem C97_widening :
  (forall x : f32, narrow32 (widen x) = x) /\ (forall x : f16, narrow16 (widen x) = x) /\
  (forall x : f32, is_finite x = true -> finite (widen x) /\ B2R (widen x) = B2R x) /\
  (forall x : f16, is_finite x = true -> finite (widen x) /\ B2R (widen x) = B2R x).
Proof.
  split; [|split; [|split]].
  - intros x. apply (convert_back 24 128 53 1024); lia.
  - intros x. apply (convert_back 11 16 53 1024); lia.
  - intros x F. destruct (widen_ok 24 128 53 1024 f64_prec f64_emax) with (x := x) as (H1 & H2 & _); try split; auto; lia.
  - intros x F. destruct (widen_ok 11 16 53 1024 f64_prec f64_emax) with (x := x) as (H1 & H2 & _); try split; auto; lia.
Qed.
Print Assumptions C97_widening.

(** The signal is rebuilt as accurately as a float64 signal is (C49), not just to the accuracy of
    its own type: against the library's sum, and against the exact sum of the components. *)
Theorem C97_residue32 :
  forall (down : f64 -> f32) draw fuel c cw (S : list f32) T max_imf (o : emd_out f64) i x,
  emd_n widen down draw fuel c cw S T max_imf = Ok o -> nth_error S i = Some x -> finite (nth i (residue o) n0) ->
  is_finite x = true /\ finite (library_sum (imfs o) i) /\
  (Rabs (B2R x - (B2R (library_sum (imfs o) i) + B2R (nth i (residue o) n0)))
    <= bpow radix2 (-53) * Rabs (B2R x - B2R (library_sum (imfs o) i)))%R /\
  (Rabs (B2R x - (real_sum (imfs o) i + B2R (nth i (residue o) n0)))
    <= bpow radix2 (-53) * Rabs (B2R x - B2R (library_sum (imfs o) i))
       + ((1 + bpow radix2 (-53)) ^ Nat.pred (length (imfs o)) - 1) * real_size (imfs o) i)%R.
Proof.
  intros down draw fuel c cw S T k o i x E Hx F.
  assert (Hi : (i < length S)%nat) by (apply nth_error_Some; rewrite Hx; discriminate).
  exact (narrow_residue 24 128 _ _ _ _ _ _ S T k o i ltac:(lia) ltac:(lia) ltac:(lia) E Hi F x Hx).
Qed.
Print Assumptions C97_residue32.
Theorem C97_residue16 :
  forall (down : f64 -> f16) draw fuel c cw (S : list f16) T max_imf (o : emd_out f64) i x,
  emd_n widen down draw fuel c cw S T max_imf = Ok o -> nth_error S i = Some x -> finite (nth i (residue o) n0) ->
  is_finite x = true /\ finite (library_sum (imfs o) i) /\
  (Rabs (B2R x - (B2R (library_sum (imfs o) i) + B2R (nth i (residue o) n0)))
    <= bpow radix2 (-53) * Rabs (B2R x - B2R (library_sum (imfs o) i)))%R /\
  (Rabs (B2R x - (real_sum (imfs o) i + B2R (nth i (residue o) n0)))
    <= bpow radix2 (-53) * Rabs (B2R x - B2R (library_sum (imfs o) i))
       + ((1 + bpow radix2 (-53)) ^ Nat.pred (length (imfs o)) - 1) * real_size (imfs o) i)%R.
Proof.
  intros down draw fuel c cw S T k o i x E Hx F.
  assert (Hi : (i < length S)%nat) by (apply nth_error_Some; rewrite Hx; discriminate).
  exact (narrow_residue 11 16 _ _ _ _ _ _ S T k o i ltac:(lia) ltac:(lia) ltac:(lia) E Hi F x Hx).
Qed.
Print Assumptions C97_residue16.

(** ** Extrema *)
(** In single precision the extrema are those of the numbers the samples stand for unless two
    neighbours differ by less than 2^-74. *)
Theorem C97_extrema32 :
  forall T S : list f32,
  length T = length S -> (forall x, In x S -> is_finite x = true) ->
  (forall i, 0 <= i < zlen S - 1 -> apart_by tiny32 (sample (map bvalue S) i) (sample (map bvalue S) (i + 1))) ->
  exists e M m, find_extrema Simple T S = Ok e /\
    max_pos e = map (entry T) M /\ max_val e = map (entry S) M /\
    min_pos e = map (entry T) m /\ min_val e = map (entry S) m /\
    zincreasing M /\ zincreasing m /\
    (forall i, In i M <-> reported_max (map bvalue S) i) /\ (forall i, In i m <-> reported_min (map bvalue S) i).
Proof.
  intros T S HL HF HA. apply Forall_forall in HF.
  destruct (F_extrema 24 128 f32_prec f32_emax (-74) tiny32) with (T := T) (S := S) as (e & M & m & H); auto; try lia.
  - exact (pow_R 74 ltac:(lia)).
  - exists e, M, m. intuition.
Qed.
Print Assumptions C97_extrema32.
(** In half precision the bound is 2^-12, about 0.00024. *)
Theorem C97_extrema16 :
  forall T S : list f16,
  length T = length S -> (forall x, In x S -> is_finite x = true) ->
  (forall i, 0 <= i < zlen S - 1 -> apart_by tiny16 (sample (map bvalue S) i) (sample (map bvalue S) (i + 1))) ->
  exists e M m, find_extrema Simple T S = Ok e /\
    max_pos e = map (entry T) M /\ max_val e = map (entry S) M /\
    min_pos e = map (entry T) m /\ min_val e = map (entry S) m /\
    zincreasing M /\ zincreasing m /\
    (forall i, In i M <-> reported_max (map bvalue S) i) /\ (forall i, In i m <-> reported_min (map bvalue S) i).
Proof.
  intros T S HL HF HA. apply Forall_forall in HF.
  destruct (F_extrema 11 16 f16_prec f16_emax (-12) tiny16) with (T := T) (S := S) as (e & M & m & H); auto; try lia.
  - exact (pow_R 12 ltac:(lia)).
  - exists e, M, m. intuition.
Qed.
Print Assumptions C97_extrema16.

(** ** Long signals *)
(** A float16 signal of 2050 samples or more (below 65504, where float32 times take over) and a
    float32 signal of 2^24 + 2 or more cannot be decomposed without times, or in 'simple' mode at
    all: their type cannot count that far and the timeline repeats values. *)
Theorem C97_too_long :
  (forall (down : f64 -> f16) draw fuel c cw (S : list f16) T max_imf,
   2050 <= zlen S < 65504 -> T = None \/ (exists t, T = Some t /\ length t = length S /\ extrema_detection c = Simple) ->
   emd_n widen down draw fuel c cw S T max_imf = Raise AssertionError) /\
  (forall (down : f64 -> f32) draw fuel c cw (S : list f32) T max_imf,
   2 ^ 24 + 2 <= zlen S -> T = None \/ (exists t, T = Some t /\ length t = length S /\ extrema_detection c = Simple) ->
   emd_n widen down draw fuel c cw S T max_imf = Raise AssertionError).
Proof.
  split; intros down draw fuel c cw S T k HS HT.
  - apply (emd_n_too_long _ _ _ _ _ _ _ _ _ 2048); [lia|refine (Z.lt_le_trans _ 2050 _ _ (proj1 HS)); lia|vm_compute; reflexivity|exact HT].
  - apply (emd_n_too_long _ _ _ _ _ _ _ _ _ (2 ^ 24)); [lia|refine (Z.lt_le_trans _ (2 ^ 24 + 2) _ _ HS); lia|vm_compute; reflexivity|exact HT].
Qed.
Print Assumptions C97_too_long.
Example C97_too_long_nonvacuous :
  2050 <= zlen (repeat (n1 : f16) 2050) < 65504 /\
  emd_n widen narrow16 (fun _ _ => Raise BrokenSpline) 10 (demo_cfg "linear"%string Simple 3 0 1000) (demo_cfg "linear"%string Simple 3 0 1000)
    (repeat (n1 : f16) 2050) None (-1) = Raise AssertionError.
Proof.
  assert (H : 2050 <= zlen (repeat (n1 : f16) 2050) < 65504) by (unfold zlen; rewrite repeat_length; lia).
  split; [exact H|]. exact (proj1 C97_too_long _ _ _ _ _ _ _ _ H (or_introl eq_refl)).
Qed.

(** ** What the type changes *)
(** Piecewise linear interpolation in float64, cast back to the signal's type (EMD.py:495). *)
Definition lin_cast {N} (up : N -> f64) (down : f64 -> N) (T : list N) (e : list (N * N)) : res (@arr N f64) :=
  let! v := lin_spl Linear (map (fun p => (up (fst p), up (snd p))) e) (map up T) in Ok (InN (map down v)).
Definition n_cfg {A} `{Num A} : emd_config A := demo_cfg "linear"%string Simple 3 0 1000.
Definition run32 (S : list f32) : res (emd_out f64) := emd_n widen narrow32 (lin_cast widen narrow32) 10 n_cfg n_cfg S None (-1).
Definition run16 (S : list f16) : res (emd_out f64) := emd_n widen narrow16 (lin_cast widen narrow16) 10 n_cfg n_cfg S None (-1).
Definition tenths32 : list f32 := map (fun z => nlit z 10) [1; -31; 12; 47; 3; 22; -29; 5; 13; 27; 11; 7; 19; 23; 58; 41; 3; -27; -17].
Definition tenths16 : list f16 := map (fun z => nlit z 10) [1; -31; 12; 47; 3; 22; -29; 5; 13; 27; 11; 7; 19; 23; 58; 41; 3; -27; -17].
Definition good {A} (r : res (emd_out A)) (p : emd_out A -> bool) : bool := match r with Ok o => p o | _ => false end.
Example C97_nonvacuous32 :
  good (run32 tenths32) (fun o => (2 <=? zlen (imfs o)) && forallb is_finite (residue o) && Nat.eqb (length (residue o)) 19) = true.
Proof. vm_compute. reflexivity. Qed.
Example C97_nonvacuous16 :
  good (run16 tenths16) (fun o => (2 <=? zlen (imfs o)) && forallb is_finite (residue o) && Nat.eqb (length (residue o)) 19) = true.
Proof. vm_compute. reflexivity. Qed.
Example C97_nonvacuous_apart :
  (forall i, 0 <= i < 4 -> apart_by tiny16 (sample (map bvalue (map nofZ [0; 3; -1; 2; 2] : list f16)) i) (sample (map bvalue (map nofZ [0; 3; -1; 2; 2] : list f16)) (i + 1))) /\
  match find_extrema Simple (map nofZ [0; 1; 2; 3; 4]) (map nofZ [0; 3; -1; 2; 2] : list f16) with
  | Ok e => (zlen (max_pos e), zlen (min_pos e)) | _ => (0, 0) end = (1, 1).
Proof.
  split; [|vm_compute; reflexivity].
  intros i Hi. assert (C : i = 0 \/ i = 1 \/ i = 2 \/ i = 3) by lia. unfold apart_by.
  destruct C as [-> | [-> | [-> | ->]]];
    solve [left; apply Qc_is_canon; vm_compute; reflexivity
          |right; left; vm_compute; discriminate|right; right; vm_compute; discriminate].
Qed.

(** Decomposing a single precision signal is not decomposing its double precision copy, although
    the copy is exact: the components differ. *)
Theorem C97_copy_refuted :
  exists (S : list f32) o o',
  emd_n widen narrow32 (lin_cast widen narrow32) 10 n_cfg n_cfg S None (-1) = Ok o /\
  emd lin_spl 10 n_cfg (map widen S) None (-1) = Ok o' /\
  zlen (imfs o) = zlen (imfs o') /\ imfs o <> imfs o'.
Proof.
  exists tenths32.
  assert (G : good (run32 tenths32) (fun o => good (emd lin_spl 10 n_cfg (map widen tenths32) None (-1)) (fun o' =>
    (zlen (imfs o) =? zlen (imfs o')) &&
    existsb (fun p => is_finite (fst p) && negb (neqb (fst p) (snd p))) (combine (nth 0 (imfs o) []) (nth 0 (imfs o') [])))) = true) by (vm_compute; reflexivity).
  revert G. unfold run32. generalize (emd_n widen narrow32 (lin_cast widen narrow32) 10 n_cfg n_cfg tenths32 None (-1)).
  generalize (emd lin_spl 10 n_cfg (map widen tenths32) None (-1)).
  intros [o'|] [o|] G; try discriminate G. exists o, o'. cbn [good] in G. apply andb_true_iff in G as [G1 G2].
  split; [reflexivity|]. split; [reflexivity|]. split; [lia|]. intros E. rewrite E in G2.
  apply existsb_exists in G2 as ([x y] & Hxy & G2). cbn [fst snd] in G2. apply combine_diag in Hxy. subst y.
  apply andb_true_iff in G2 as [F G2]. cbn [neqb F64Num] in G2. rewrite Beqb_correct, Req_bool_true in G2 by auto. discriminate G2.
Qed.
Print Assumptions C97_copy_refuted.

(** In half precision small oscillations are not seen at all: a signal swinging by 0.0001 comes back
    as a trend without components, while its double precision copy has one. *)
Definition small16 : list f16 := map (fun z => nlit z 20000) [0; 1; -1; 1; -1; 1; -1; 1; 0].
Theorem C97_small_half_refuted :
  exists (S : list f16) o o',
  (forall x, In x S -> is_finite x = true) /\
  emd_n widen narrow16 (lin_cast widen narrow16) 10 n_cfg n_cfg S None (-1) = Ok o /\
  emd lin_spl 10 n_cfg (map widen S) None (-1) = Ok o' /\
  zlen (imfs o) = 0 /\ zlen (imfs o') = 1.
Proof.
  exists small16.
  assert (G : good (run16 small16) (fun o => good (emd lin_spl 10 n_cfg (map widen small16) None (-1)) (fun o' =>
    (zlen (imfs o) =? 0) && (zlen (imfs o') =? 1))) = true) by (vm_compute; reflexivity).
  assert (F : forallb is_finite small16 = true) by (vm_compute; reflexivity).
  revert G. unfold run16. generalize (emd_n widen narrow16 (lin_cast widen narrow16) 10 n_cfg n_cfg small16 None (-1)).
  generalize (emd lin_spl 10 n_cfg (map widen small16) None (-1)).
  intros [o'|] [o|] G; try discriminate G. exists o, o'. cbn [good] in G. apply andb_true_iff in G as [G1 G2].
  split; [apply forallb_forall; exact F|]. split; [reflexivity|]. split; [reflexivity|]. lia.
Qed.
Print Assumptions C97_small_half_refuted.
