(** * Props_Peel: property C82, decomposing what the first components leave of a signal.

    [remainder S rows S'] (MatlabSpec.v): [S'] is the signal [S] with the rows taken away, sample by
    sample.  The arithmetic is exact (Qc).  A limit of 0 or less is no limit, so [k - j] is no limit
    when [k] is none. *)
From Verif Require Import PyFacts QcFacts Emd Jit Matlab Spec MatlabSpec EmdExact Limit Peel Demo MatlabDemo.
From Coq Require Import QArith Qcanon.
From Coq Require Import List.
Import ListNotations.
Open Scope Z_scope.

(** ** C82 *)
(** EMD: decomposing what is left after [j] of the IMFs gives the other IMFs, the same residue and the
    other rows. *)
Theorem C82_emd :
  forall spl fuel c S T k o j S', emd spl fuel c S T k = Ok o -> (j < length (imfs o))%nat -> remainder S (firstn j (imfs o)) S' ->
  exists o', emd spl fuel c S' T (k - Z.of_nat j) = Ok o' /\ imfs o' = skipn j (imfs o) /\ residue o' = residue o /\ out o' = skipn j (out o).
Proof. exact emd_peel. Qed.
Print Assumptions C82_emd.

(** EMD with a fixed number of sifts: asking for one IMF at a time, each from what the earlier ones
    leave, finds the IMFs of the full decomposition. *)
Theorem C82_one_by_one :
  forall spl fuel c S T o j r S', FIXE c <> 0 -> 1 < MAX_ITERATION c -> emd spl fuel c S T (-1) = Ok o ->
  nth_error (imfs o) j = Some r -> remainder S (firstn j (imfs o)) S' ->
  exists o1, emd spl fuel c S' T 1 = Ok o1 /\ imfs o1 = [r].
Proof. exact emd_one_by_one. Qed.
Print Assumptions C82_one_by_one.

(** EMD: the residue holds no more IMFs, unless the decomposition was stopped by its limit or by one of
    the thresholds. *)
Theorem C82_residue :
  forall spl fuel c S T k o, emd spl fuel c S T k = Ok o -> zlen (imfs o) <> k ->
  (exists x y, In x (residue o) /\ In y (residue o) /\ (range_thr c <= x - y)%Qc) -> (total_power_thr c <= total (map absolute (residue o)))%Qc ->
  exists o', emd spl fuel c (residue o) T (k - zlen (imfs o)) = Ok o' /\ imfs o' = [] /\ residue o' = residue o.
Proof. exact emd_residue_absolute. Qed.
Print Assumptions C82_residue.

(** The conditions are needed: a residue below the thresholds can hold another IMF. *)
Theorem C82_residue_small_refuted :
  exists spl fuel c S o o', emd spl fuel c S None (-1) = Ok o /\ emd spl fuel c (residue o) None (-1) = Ok o' /\ imfs o' <> [].
Proof.
  pose (S := map (fun x => (x / q 2000)%Qc) demo_S). exists lin_spl, 8%nat, demo_fixe, S.
  assert (G : match emd lin_spl 8 demo_fixe S None (-1) with
              | Ok o => match emd lin_spl 8 demo_fixe (residue o) None (-1) with Ok o' => negb (Nat.eqb (length (imfs o')) 0) | _ => false end
              | _ => false end = true) by (vm_compute; reflexivity).
  destruct (emd lin_spl 8 demo_fixe S None (-1)) as [o|]; [|discriminate G]. exists o.
  destruct (emd lin_spl 8 demo_fixe (residue o) None (-1)) as [o'|]; [|discriminate G]. exists o'.
  split; [reflexivity|]. split; [reflexivity|]. intros E. rewrite E in G. discriminate G.
Qed.
Print Assumptions C82_residue_small_refuted.

(** JitEMD: the rows returned, but for the last. *)
Theorem C82_jit :
  forall spl strict fuel c S T k M j S', (2 <= length S)%nat -> jit_emd spl fuel strict c S T k = Ok M -> (Datatypes.S j < length M)%nat ->
  remainder S (firstn j M) S' -> jit_emd spl fuel strict c S' T (k - Z.of_nat j) = Ok (skipn j M).
Proof. exact jit_rest. Qed.
Print Assumptions C82_jit.

(** EMD_matlab: the rows found by sifting ([row_iter] is not 0), with their numbers of extrema and
    iterations. *)
Theorem C82_matlab :
  forall spl fuel c S T k rows no j r S', m_emd spl fuel c S T k = Ok (rows, no) -> nth_error rows j = Some r -> 0 < row_iter r ->
  remainder S (map row_imf (firstn j rows)) S' ->
  m_emd spl fuel c S' T (Some (limit_of k - Z.of_nat j)) = Ok (skipn j rows, no - Z.of_nat j).
Proof. exact m_rest. Qed.
Print Assumptions C82_matlab.

(** ** Non-vacuity *)
Example C82_meets :
  match emd lin_spl 8 demo_fixe demo_S None (-1), emd lin_spl 8 demo_default demo_S None 3 with
  | Ok o, Ok o' => length (imfs o) = 3%nat /\ length (imfs o') = 3%nat | _, _ => False end /\
  FIXE demo_fixe <> 0 /\ 1 < MAX_ITERATION demo_fixe.
Proof. split; [vm_compute; auto|]. split; [discriminate|reflexivity]. Qed.
Example C82_remainder_meets : forall S M, shaped (length S) M -> exists S', remainder S M S'.
Proof.
  intros S M HM. exists (vsub S (sum_rows (length S) M)).
  assert (L : length (sum_rows (length S) M) = length S) by (apply sum_rows_length; apply Forall_forall; exact HM).
  split; [apply vsub_length; auto|]. intros i _. rewrite nth_vsub by auto. rewrite nth_sum_rows by auto. reflexivity.
Qed.
Example C82_residue_meets :
  match emd lin_spl 8 demo_default demo_S None (-1) with
  | Ok o => Qc_leb (range_thr demo_default) (nth 17 (residue o) 0 - nth 1 (residue o) 0)%Qc && Nat.ltb 17 (length (residue o)) &&
            Qc_leb (total_power_thr demo_default) (total (map absolute (residue o))) && (zlen (imfs o) =? 3)
  | _ => false end = true.
Proof. vm_compute. reflexivity. Qed.
Example C82_jit_meets : match jit_emd lin_spl 8 false demo_fixe demo_S (map Qc_ofZ (zseq 0 (length demo_S))) (-1) with Ok M => length M = 4%nat | _ => False end.
Proof. vm_compute. reflexivity. Qed.
Example C82_matlab_meets : match m_emd lin_spl 8 mat_fixe demo_S None None with Ok (rows, _) => map row_iter rows = [3; 3; 3; 1] | _ => False end.
Proof. vm_compute. reflexivity. Qed.
