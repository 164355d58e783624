(** * ChecksSpec: the white noise test in closed form. *)
From Verif Require Import Py Checks.
From Coq Require Import ZArith List Reals String.
Import ListNotations.

(** Sum of squares. *)
Definition sum_squares (x : list R) : R := fold_right (fun a s => (a * a + s)%R) 0%R x.

(** Samples per peak. *)
Definition samples_per_peak (n p : nat) : R := (INR n / INR (Nat.max 1 p))%R.

(** With quantile [k], [N] samples, energy [E] and mean period [T]: the energy lies outside the
    spread of white noise, in logarithms. *)
Definition outside (k N E T : R) : Prop := (k * sqrt (2 * T / N) < Rabs (ln (E * T / N)))%R.
(** It lies above, after dividing by the scaling factor [s]. *)
Definition above_noise (k N E T s : R) : Prop := (k * sqrt (2 * T / N) < ln (E * T / (N * s)))%R.

(** The scaling factor for a reference imf of mean period [P]. *)
Definition scaling (k N P : R) : R := (exp (k * sqrt (2 / N) * P / 2) / P)%R.

(** The dictionary has the keys 1 .. n, in order, and values 0 or 1; the value is 1 for
    exactly those rows that satisfy [sig]. *)
Definition verdicts (rows : list (list R)) (sig : nat -> list R -> Prop) (out : list (Z * Z)) : Prop :=
  map fst out = map (fun i => (Z.of_nat i + 1)%Z) (seq 0 (List.length rows)) /\
  forall i row, nth_error rows i = Some row ->
    exists v, nth_error out i = Some ((Z.of_nat i + 1)%Z, v) /\
      ((v = 1%Z /\ sig i row) \/ (v = 0%Z /\ ~ sig i row)).

(** Rows of [N] samples that are not identically zero. *)
Definition good (N : nat) (row : list R) : Prop := List.length row = N /\ (0 < sum_squares row)%R.
(** The array argument for rows without NaN. *)
Definition numbers (rows : list (list R)) : option (list (list cell)) := Some (map (map Fin) rows).
(** Admissible values of alpha, test_name and rescaling_imf for [n] imfs. *)
Definition valid_args (n : Z) (t : string) (r : option Z) (a : option R) : Prop :=
  (exists x, a = Some x /\ (0 < x < 1)%R) /\ (t = "apriori" \/ t = "aposteriori")%string /\
  (exists k, r = Some k /\ 1 <= k <= n).
