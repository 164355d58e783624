(** * Props_NegFloat: property C83, the negated signal in double precision (EMD.py).

    [negative x y] (NegSpec): [y] is [- x], the two zeros counting as equal.  It covers NaN (its own
    negative), infinities, overflow and subnormal numbers. *)
From Verif Require Import Py Emd Spec Float64 NegSpec NegGen NegEmd NegFloat NegTime Demo Props_Float.
From Flocq Require Import Core BinarySingleNaN.
From Coq Require String.
Import String.
Local Notation length := List.length.
Open Scope Z_scope.

(** ** C83 *)
(** The extrema of the negated signal are those of the signal with the roles of maxima and minima
    exchanged; the zero crossings stay. *)
Theorem C83_extrema :
  forall (T S S' : list f64) e, negatives S S' -> find_extrema Simple T S = Ok e ->
  exists e', find_extrema Simple T S' = Ok e' /\ max_pos e' = min_pos e /\ min_pos e' = max_pos e /\
    negatives (max_val e) (min_val e') /\ negatives (min_val e) (max_val e') /\ indzer e' = indzer e.
Proof. intros T S S' e HS E. destruct (find_ng negative symmetric64 T S S' e HS E) as (e' & E' & HW). exists e'. split; auto. Qed.
Print Assumptions C83_extrema.

(** Under every stopping rule and every limit, rounding included: the negated signal has the negated
    decomposition. *)
Theorem C83_emd :
  forall spl fuel (c : emd_config f64) S S' T max_imf o,
  odd64 spl -> extrema_detection c = Simple -> Z.of_nat (length S) <= 2 ^ 53 ->
  negatives S S' -> emd spl fuel c S T max_imf = Ok o ->
  exists o', emd spl fuel c S' T max_imf = Ok o' /\
    Forall2 negatives (out o) (out o') /\ Forall2 negatives (imfs o) (imfs o') /\ negatives (residue o) (residue o').
Proof.
  intros spl fuel c S S' T k o Hs Hd HL HS E.
  exact (emd_ng negative symmetric64 spl c fuel S S' T k o Hs Hd (fun t => line_apart c S T t Hd HL) HS E).
Qed.
Print Assumptions C83_emd.

Example C83_negatives : forall S, negatives S (map Bopp S).
Proof. exact negatives_opp. Qed.
Example C83_odd : odd64 (@lin_spl f64 _).
Proof. exact lin64_odd. Qed.
Definition neg_S : list f64 := map nofZ [0; 2; 0; 6; 4; 6; 0; 2; 0; 6; 4].
Example C83_run :
  match emd lin_spl 10 (demo_cfg "linear" Simple 1 0 1000) neg_S None (-1) with Ok o => 2 <=? zlen (imfs o) | _ => false end = true.
Proof. vm_compute. reflexivity. Qed.

(** The sign of a zero does not follow: a residue of zeros is +0 for both signals. *)
Theorem C83_signed_zero_refuted :
  exists (c : emd_config f64) S o o', extrema_detection c = Simple /\
  emd lin_spl 10 c S None (-1) = Ok o /\ emd lin_spl 10 c (map Bopp S) None (-1) = Ok o' /\
  hd_error (residue o) = Some (B754_zero false) /\ hd_error (residue o') = Some (B754_zero false).
Proof.
  pose (c := demo_cfg "linear" Simple 1 0 1000 : emd_config f64). pose (S := map nofZ [1; -1; 1; -1; 1; -1] : list f64).
  assert (G : match emd lin_spl 10 c S None (-1), emd lin_spl 10 c (map Bopp S) None (-1) with
              | Ok o, Ok o' => match hd_error (residue o), hd_error (residue o') with Some (B754_zero false), Some (B754_zero false) => true | _, _ => false end
              | _, _ => false end = true) by (vm_compute; reflexivity).
  exists c, S. destruct (emd lin_spl 10 c S None (-1)) as [o|]; [|discriminate G].
  destruct (emd lin_spl 10 c (map Bopp S) None (-1)) as [o'|]; [|discriminate G].
  exists o, o'. split; [reflexivity|]. split; auto. split; auto.
  destruct (hd_error (residue o)) as [[[]|?| |? ? ? ?]|]; try discriminate G.
  destruct (hd_error (residue o')) as [[[]|?| |? ? ? ?]|]; try discriminate G. auto.
Qed.
Print Assumptions C83_signed_zero_refuted.
