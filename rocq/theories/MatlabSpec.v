(** * MatlabSpec: vocabulary for the statements about EMD_matlab.py. *)
From Verif Require Import Spec.
From Coq Require Import ZArith List QArith Qcanon.
Import ListNotations.
Open Scope Z_scope.

(** The first two samples are equal, and so are the last two. *)
Definition flat_ends (S : list Qc) : Prop :=
  sample S 0 = sample S 1 /\
  sample S (Z.of_nat (length S) - 2) = sample S (Z.of_nat (length S) - 1).

(** The minimum EMD_matlab reports and EMD does not: a plateau [0..b] from which the signal
    rises, in a signal whose last two samples are equal. *)
Definition extra_min (S : list Qc) (i : Z) : Prop :=
  exists b, 0 < b < Z.of_nat (length S) - 1 /\ flat S 0 b /\
    (sample S b < sample S (b + 1))%Qc /\
    sample S (Z.of_nat (length S) - 2) = sample S (Z.of_nat (length S) - 1) /\
    rounded_mid 0 b i.

(** Sample [i] of an envelope; one of length one stands for a constant. *)
Definition env_at (v : list Qc) (i : nat) : Qc :=
  match v with [a] => a | _ => nth i v 0%Qc end.

(** [y] is [x] minus [scale] times the mean of the envelopes [up] and [low]. *)
Definition mean_removed (scale : Qc) (up low x y : list Qc) : Prop :=
  length y = length x /\
  forall i, (i < length x)%nat ->
    nth i y 0%Qc = (nth i x 0 - scale * ((env_at up i + env_at low i) / (1 + 1)))%Qc.

(** [y] comes from [x] in [k] steps. *)
Inductive steps {X} (step : X -> X -> Prop) : nat -> X -> X -> Prop :=
| steps_0 x : steps step 0 x x
| steps_S k x y z : steps step k x y -> step y z -> steps step (S k) x z.

(** What is left of [S] after taking away the rows. *)
Definition remainder (S : list Qc) (rows : list (list Qc)) (R : list Qc) : Prop :=
  length R = length S /\
  forall i, (i < length S)%nat -> nth i R 0%Qc = (nth i S 0 - total_at rows i)%Qc.

(** The sum of the absolute values is at most 1e-10. *)
Definition absolute (x : Qc) : Qc := if Qclt_le_dec x 0 then (- x)%Qc else x.
Definition tiny (v : list Qc) : Prop :=
  (total (map absolute v) <= Q2Qc (1 # 10000000000))%Qc.

(** The ratio [m / a] is above [thr]; it is infinite when only [a] is zero. *)
Definition exceeds (thr m a : Qc) : Prop :=
  (a = 0%Qc /\ m <> 0%Qc) \/ (a <> 0%Qc /\ (thr < m / a)%Qc).
Definition count (n : nat) : Qc := Q2Qc (inject_Z (Z.of_nat n)).
(** The stop rule of EMD_matlab for two envelopes: with [m] the absolute value of their mean and
    [a] half of their distance, [m / a] is nowhere above [s2], and above [s1] in at most a
    fraction [s3] of the samples. *)
Definition settled (s1 s2 s3 : Qc) (up low : list Qc) : Prop :=
  let m i := absolute ((nth i up 0 + nth i low 0) / (1 + 1))%Qc in
  let a i := (absolute (nth i up 0 - nth i low 0) / (1 + 1))%Qc in
  (forall i, (i < length up)%nat -> ~ exceeds s2 (m i) (a i)) /\
  exists L, NoDup L /\
    (forall i, In i L <-> (i < length up)%nat /\ exceeds s1 (m i) (a i)) /\
    (count (length L) / count (length up) <= s3)%Qc.

(** Whole numbers, and multiples of one half. *)
Definition whole (x : Qc) : Prop := exists z : Z, x = Q2Qc (inject_Z z).
Definition halves (x : Qc) : Prop := whole (x + x)%Qc.
