(** * MirrorSpec: vocabulary for turning a signal over or around in the ensemble methods. *)
From Verif Require Import Emd Eemd.
From Coq Require Import QArith Qcanon.

(** Turning a signal over (the opposite of every sample) or around (last sample first). *)
Definition turning (t : list Qc -> list Qc) : Prop := t = map Qcopp \/ t = @rev Qc.

(** The second generator passes through the same states as the first and draws the turned noise.
    For [t] the negation and symmetric noise, as PyEMD's two kinds are, both draw the same law. *)
Definition draws_turned {G} (t : list Qc -> list Qc) (gen gen' : generator Qc G) : Prop :=
  forall g n,
  (forall s, normal gen' g s n = (t (fst (normal gen g s n)), snd (normal gen g s n))) /\
  (forall lo hi, uniform gen' g lo hi n = (t (fst (uniform gen g lo hi n)), snd (uniform gen g lo hi n))).

(** Whatever the past of the two inner objects, when the first decomposes [X] the second decomposes
    the turned [X] into the turned components, and reports the turned trend. *)
Definition turns_inner {D D'} (t : list Qc -> list Qc) (dec : decomposer Qc D) (dec' : decomposer Qc D')
    (T : list Qc) (max_imf : Z) (X : list Qc) : Prop :=
  forall d d1 rows, run dec d X T max_imf = (Ok rows, d1) ->
  forall d', exists d1', run dec' d' (t X) T max_imf = (Ok (map t rows), d1') /\
    forall i r, trend_of dec d1 = Ok (i, r) -> trend_of dec' d1' = Ok (map t i, t r).
