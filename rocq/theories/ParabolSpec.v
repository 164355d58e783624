(** * ParabolSpec: vocabulary for property C24, when 'parabol' mode can raise (exact arithmetic). *)
From Verif Require Import Emd Spec.
From Coq Require Import QArith Qcanon.
Open Scope Z_scope.

(** Samples [i], [j], [k] lie on a straight line. *)
Definition straight (T S : list Qc) (i j k : Z) : Prop :=
  exists b c, parabola_through 0 b c T S i j k.

(** A terrace: samples [a..b], at least two and not at either end of the signal, have one value,
    and the signal goes on in the direction it came from. *)
Definition terrace (S : list Qc) (a b : Z) : Prop :=
  0 < a < b /\ b < Z.of_nat (length S) - 1 /\ flat S a b /\
  ((sample S (a - 1) < sample S a /\ sample S b < sample S (b + 1))%Qc \/
   (sample S a < sample S (a - 1) /\ sample S (b + 1) < sample S b)%Qc).

(** No terrace, and no three consecutive kept samples on a straight line. *)
Definition curved (T S : list Qc) : Prop :=
  (forall i j k, kept_triple S i j k -> ~ straight T S i j k) /\ (forall a b, ~ terrace S a b).

(** The signals that a decomposition of [S] looks at: [S] minus the components found so far,
    and whatever sifting makes of it. *)
Section Met.
Variables (spl : spline_oracle Qc) (c : emd_config Qc) (t S : list Qc).
Inductive found : list (list Qc) -> Prop :=
| found_none : found []
| found_next IMF ext x ext' fin : found IMF ->
    sift spl (sift_fuel c) c t 0 0 ext (vsub S (sum_rows (length S) IMF)) = Ok (x, ext', fin) ->
    found (IMF ++ [x]).
Inductive met : list Qc -> Prop :=
| met_rest IMF : found IMF -> met (vsub S (sum_rows (length S) IMF))
| met_sift x y eM em : met x -> sift_step spl c t x = Ok (y, eM, em) -> met y.
End Met.
