(** * Props_NegMore: property C86, the negated signal in the other two implementations
    (experimental/jitemd.py, EMD_matlab.py).

    [negative], [odd64] (NegSpec): the negative of a double, the two zeros counting as equal, and a
    routine that interpolates negated knots by negated values. *)
From Verif Require Import PyFacts QcFacts Emd Jit Matlab Spec Float64 NegSpec NegGen NegEmd NegFloat NegTime NegJit NegMore MatlabSpec MatlabDemo Demo.
From Flocq Require Import Core BinarySingleNaN.
From Coq Require Import QArith Qcanon.
From Coq Require String.
Import String.
Local Notation length := List.length.
Open Scope Z_scope.

(** ** C86 *)
(** The compiled variant in double precision, compiled or not, on every time array, under every
    stopping rule and every limit, rounding included: the negated signal has the negated rows. *)
Theorem C86_jit :
  forall spl fuel strict (c : emd_config f64) S S' T max_imf M,
  odd64 spl -> extrema_detection c = Simple -> Z.of_nat (length S) <= 2 ^ 53 ->
  negatives S S' -> jit_emd spl fuel strict c S T max_imf = Ok M ->
  exists M', jit_emd spl fuel strict c S' T max_imf = Ok M' /\ Forall2 negatives M M'.
Proof.
  intros spl fuel strict c S S' T k M Hs Hd HL HS E.
  refine (jemd_ng negative symmetric64 spl Hs c Hd T strict fuel S S' k M _ HS E).
  intros i Hi. destruct (ofZ_exact i ltac:(lia)) as (_ & V & _). exact (trunc_int _ _ V).
Qed.
Print Assumptions C86_jit.
Definition neg_jit_S : list f64 := map nofZ [0; 2; 0; 6; 4; 6; 0; 2; 0; 6; 4].
Example C86_jit_run :
  odd64 lin_spl /\ negatives neg_jit_S (map Bopp neg_jit_S) /\
  match jit_emd lin_spl 10 true (demo_cfg "linear" Simple 1 0 1000) neg_jit_S (map nofZ (zseq 0 11)) (-1) with Ok M => 2 <=? zlen M | _ => false end = true.
Proof. split; [exact lin64_odd|]. split; [apply negatives_opp|]. vm_compute. reflexivity. Qed.

(** The same in exact arithmetic, where the negative is exact. *)
Theorem C86_jit_exact :
  forall spl fuel strict (c : emd_config Qc) S T max_imf M,
  (forall kind pts t v, spl kind pts t = Ok v ->
     spl kind (map (fun p => (fst p, - snd p)%Qc) pts) t = Ok (map Qcopp v)) ->
  extrema_detection c = Simple -> jit_emd spl fuel strict c S T max_imf = Ok M ->
  jit_emd spl fuel strict c (map Qcopp S) T max_imf = Ok (map (map Qcopp) M).
Proof. exact jemd_exact. Qed.
Print Assumptions C86_jit_exact.

(** EMD_matlab: the extrema exchange their roles unless the signal begins and ends with two equal
    samples. *)
Theorem C86_matlab_extrema :
  forall T S e, ~ flat_ends S -> findExtrema T S = Ok e ->
  exists e', findExtrema T (map Qcopp S) = Ok e' /\ max_pos e' = min_pos e /\ min_pos e' = max_pos e /\
    max_val e' = map Qcopp (min_val e) /\ min_val e' = map Qcopp (max_val e) /\ indzer e' = indzer e.
Proof. exact m_find_ng. Qed.
Print Assumptions C86_matlab_extrema.
Example C86_matlab_nonvacuous : ~ flat_ends demo_S /\ match findExtrema (arange (length demo_S)) demo_S with Ok e => (zlen (max_pos e), zlen (min_pos e)) | _ => (0, 0) end = (3, 4).
Proof. split; [|vm_compute; reflexivity]. intros [X _]. vm_compute in X. discriminate. Qed.

(** If it does, the negated signal can have another decomposition: here two rows become one. *)
Theorem C86_matlab_refuted :
  exists spl c S rows rows',
    (forall kind pts t v, spl kind pts t = Ok v -> spl kind (map (fun p => (fst p, - snd p)%Qc) pts) t = Ok (map Qcopp v)) /\
    m_emd spl 10 c S None None = Ok (rows, 2) /\ m_emd spl 10 c (map Qcopp S) None None = Ok (rows', 1).
Proof.
  exists lin_spl, mat_fixe, (qs [0; 0; 4; 1; 3; 3]).
  assert (G : match m_emd lin_spl 10 mat_fixe (qs [0; 0; 4; 1; 3; 3]) None None, m_emd lin_spl 10 mat_fixe (map Qcopp (qs [0; 0; 4; 1; 3; 3])) None None with
              | Ok (_, n), Ok (_, n') => (n =? 2) && (n' =? 1) | _, _ => false end = true) by (vm_compute; reflexivity).
  destruct (m_emd lin_spl 10 mat_fixe (qs [0; 0; 4; 1; 3; 3]) None None) as [[r n]|]; [|discriminate G].
  destruct (m_emd lin_spl 10 mat_fixe (map Qcopp (qs [0; 0; 4; 1; 3; 3])) None None) as [[r' n']|]; [|discriminate G].
  apply andb_true_iff in G as [G1 G2]. apply Z.eqb_eq in G1, G2. subst n n'. exists r, r'. split; [exact lin_oddQ|]. auto.
Qed.
Print Assumptions C86_matlab_refuted.
