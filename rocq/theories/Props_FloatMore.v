(** * Props_FloatMore: property C76, reconstruction in binary64 by all decompositions.

    [B2R] (Flocq) is the real number a finite double stands for; [real_sum], [real_size],
    [library_sum] are defined in Float64.v, the vocabulary for images in FloatSpec.v. *)
From Verif Require Import Py PyFacts QcFacts Emd Jit Eemd Ceemdan Image Matlab Spec Float64 FloatSpec Float64Proofs FloatEnsemble FloatImage FloatMatlab Demo Props_Float.
From Flocq Require Import Core BinarySingleNaN.
From Coq Require Import Reals QArith Qcanon Qreals Lra.
From Coq Require String.
Import String.
Local Notation length := List.length.
Local Notation u := (bpow radix2 (-53)).
Local Notation tiny := (bpow radix2 (-1075)).
Open Scope Z_scope.

(** ** C76 *)
(** The rows EMD returns. *)
Theorem C76_emd :
  forall (spl : spline_oracle f64) fuel c S T k o i,
  emd spl fuel c S T k = Ok o -> (i < length S)%nat -> (forall r, In r (out o) -> finite (nth i r n0)) ->
  (Rabs (B2R (nth i S n0) - real_sum (out o) i)
     <= ((1 + u) ^ Nat.pred (length (out o)) - 1) * real_size (out o) i + tol64)%R.
Proof. exact emd_float. Qed.
Print Assumptions C76_emd.
(** The rows JitEMD returns. *)
Theorem C76_jit :
  forall (spl : spline_oracle f64) fuel strict c S T k M i,
  (2 <= length S)%nat -> jit_emd spl fuel strict c S T k = Ok M -> (i < length S)%nat ->
  (forall r, In r M -> finite (nth i r n0)) ->
  (Rabs (B2R (nth i S n0) - real_sum M i) <= ((1 + u) ^ Nat.pred (length M) - 1) * real_size M i + tol64)%R.
Proof. exact jit_float. Qed.
Print Assumptions C76_jit.
(** The rows EMD_matlab returns.  Its remainder is left out when the computed sum of its sizes is
    at most 1e-10; no sample of the signal or of a row may be infinite or NaN. *)
Theorem C76_matlab :
  forall (spl : spline_oracle f64) fuel c S T k rows no i,
  m_emd spl fuel c S T k = Ok (rows, no) -> (i < length S)%nat ->
  Forall finite S -> (forall r, In r rows -> Forall finite (row_imf r)) ->
  let M := map row_imf rows in
  (Rabs (B2R (nth i S n0) - real_sum M i) <= ((1 + u) ^ Nat.pred (length M) - 1) * real_size M i + tol10)%R.
Proof. exact matlab_float. Qed.
Print Assumptions C76_matlab.
(** EEMD: whatever the trials, the stored residue makes up for the returned rows. *)
Theorem C76_eemd :
  forall G D (gen : generator f64 G) (dec : decomposer f64 D) c o S T k E o',
  eemd gen dec c o S T k = (Ok E, o') -> shaped (length S) E ->
  exists r, eemd_imfs_and_residue o' = Ok (E, r) /\ length r = length S /\
  forall i, (i < length S)%nat -> finite (nth i r n0) ->
  finite (nth i S n0) /\ finite (library_sum E i) /\
  (Rabs (B2R (nth i S n0) - (B2R (library_sum E i) + B2R (nth i r n0))) <= u * Rabs (B2R (nth i r n0)))%R /\
  (Rabs (B2R (nth i S n0) - real_sum (E ++ [r]) i) <= ((1 + u) ^ length E - 1) * real_size (E ++ [r]) i)%R.
Proof. exact @eemd_float. Qed.
Print Assumptions C76_eemd.
(** CEEMDAN: dividing by the standard deviation and multiplying with it again cost one more
    rounding each. *)
Theorem C76_ceemdan :
  forall G (gen : generator f64 G) std emd_of arrival c o S T k C o' i,
  ceemdan gen std emd_of arrival c o S T k = (Ok C, o') -> (i < length S)%nat ->
  (forall r, In r C -> finite (nth i r n0)) ->
  finite (nth i S n0) /\
  (Rabs (B2R (nth i S n0) - real_sum C i) <=
     u * Rabs (B2R (nth i S n0)) + ((1 + u) ^ length C - 1) * real_size C i
     + tiny * (Rabs (B2R (std S)) + INR (length C) * (1 + u) ^ length C))%R.
Proof. exact @ceemdan_float. Qed.
Print Assumptions C76_ceemdan.
(** BEMD. *)
Theorem C76_bemd :
  forall rec f c fuel (image : list (list f64)) k rows n m i j,
  bemd rec f c fuel image k = Ok rows -> of_shape n m image -> Forall (of_shape n m) rows ->
  (i < n)%nat -> (j < m)%nat -> (forall r, In r rows -> finite (grey r i j)) ->
  (Rabs (B2R (grey image i j) - grey_sum rows i j)
     <= ((1 + u) ^ Nat.pred (length rows) - 1) * grey_size rows i j + tol64)%R.
Proof. exact bemd_float. Qed.
Print Assumptions C76_bemd.
(** EMD2D: the darkest pixel is subtracted and added again, and the range of the grey levels
    divided out; a negligible remainder is one below 1e-8 of that range. *)
Theorem C76_emd2d :
  forall sbs c fuel (image : list (list f64)) k rows n m,
  emd2d sbs c fuel image k = Ok rows -> of_shape n m image -> Forall (of_shape n m) rows ->
  (forall i j, (i < n)%nat -> (j < m)%nat -> finite (grey image i j)) ->
  exists lo hi, range_of n m image lo hi /\
  forall i j, (i < n)%nat -> (j < m)%nat -> (forall r, In r rows -> finite (grey r i j)) ->
  let N := length rows in let s := nsub hi lo in let y := B2R (grey image i j) in
  (Rabs (y - grey_sum rows i j) <=
     ((1 + u) ^ 2 - 1) * Rabs (y - B2R lo) + ((1 + u) ^ S N - 1) * (grey_size rows i j + Rabs (B2R lo))
     + tol64 * Rabs (B2R s) + tiny * (Rabs (B2R s) + INR N * (1 + u) ^ N))%R.
Proof. exact emd2d_float. Qed.
Print Assumptions C76_emd2d.

(** Runs with finite results. *)
Definition f_eemd : eemd_config f64 := MkECfg 3 (nlit 5 100) false Normal false 1.
Definition f_flat : surface f64 := fun ps vs xi yi =>
  Ok (map (fun _ => map (fun _ => ndiv (nadd (hd n0 vs) (List.last vs n0)) (nofZ 4)) yi) xi).
Definition f_flat_rbf : rbf f64 := fun ps vs n m => Ok (repeat (repeat (ndiv (hd n0 vs) (nofZ 3)) n) m).
Definition f_grow : reconstruction f64 := fun x y => imap (fun a => nsub a (nofZ 1)) y.
Definition f_image : list (list f64) := map (map (fun z => nlit z 10))
  [[7;7;7;7;7;7;7]; [7;41;7;23;7;35;7]; [7;7;7;7;7;7;7]; [7;22;7;43;7;18;7]; [7;7;7;7;7;7;7]; [7;31;7;19;7;49;7]; [7;7;7;7;7;7;7]].
Definition f_cfg2 : cfg2 f64 := MkCfg2 (nlit 1 100) (nlit 1 100) 1 0 1000.
Definition all_fin (M : list (list f64)) := forallb (forallb is_finite) M.
Example C76_jit_nonvacuous :
  match jit_emd lin_spl 10 true f_cfg f_long (map nofZ (zseq 0 19)) (-1) with Ok M => (zlen M, all_fin M) | _ => (0, false) end = (4, true).
Proof. vm_compute. reflexivity. Qed.
Example C76_nonvacuous :
  match emd lin_spl 10 f_cfg f_long None (-1) with Ok o => (zlen (out o), all_fin (out o)) | _ => (0, false) end = (4, true) /\
  match eemd f_gen (emd_decomposer lin_spl 10 f_cfg) f_eemd (MkESt 0 (MkState None None) None None []) f_long None (-1) with
  | (Ok E, o) => (zlen E, forallb (fun r => Nat.eqb (length r) 19) E,
                  match eemd_imfs_and_residue o with Ok (_, r) => forallb is_finite r | _ => false end) | _ => (0, false, false) end = (4, true, true) /\
  match ceemdan f_gen f_std f_emd (@rev _) f_ccfg (MkCSt 0 None None) f_S None (-1) with
  | (Ok C, _) => (zlen C, all_fin C) | _ => (0, false) end = (2, true) /\
  match bemd f_grow f_flat_rbf f_cfg2 9 f_image 2 with
  | Ok M => (zlen M, forallb all_fin M, forallb (fun x => Nat.eqb (length x) 7 && forallb (fun r => Nat.eqb (length r) 7) x) M)
  | _ => (0, false, false) end = (3, true, true) /\
  match emd2d f_flat f_cfg2 9 f_image 2 with
  | Ok M => (zlen M, forallb all_fin M, forallb (fun x => Nat.eqb (length x) 7 && forallb (fun r => Nat.eqb (length r) 7) x) M)
  | _ => (0, false, false) end = (3, true, true).
Proof. split; [vm_compute; reflexivity|]. split; [vm_compute; reflexivity|]. split; [vm_compute; reflexivity|]. split; vm_compute; reflexivity. Qed.
Definition f_mat : m_config f64 := MkMCfg "linear"%string 2 (nofZ 1) 500 1 0 (nlit 5 100) (nlit 5 10) (nlit 5 100) 1000.
Example C76_matlab_nonvacuous :
  match m_emd lin_spl 10 f_mat f_long None (Some 3) with Ok (rows, no) => (no, all_fin (map row_imf rows), forallb is_finite f_long)
  | _ => (0, false, false) end = (3, true, true).
Proof. vm_compute. reflexivity. Qed.
(** EMD's bound at a sample asks only for finite rows at that sample.  EMD_matlab's does not hold so:
    one NaN in the signal and the remainder is left out everywhere. *)
Definition f_nan : list f64 := B754_nan :: tl f_long.
Theorem C76_matlab_nan_refuted :
  exists (spl : spline_oracle f64) fuel c S rows no i, m_emd spl fuel c S None (Some 2) = Ok (rows, no) /\
  (i < length S)%nat /\ finite (nth i S n0) /\ (forall r, In r rows -> finite (nth i (row_imf r) n0)) /\
  (Rabs (B2R (nth i S n0) - real_sum (map row_imf rows) i) = 2)%R.
Proof.
  exists lin_spl, 10%nat, f_mat, f_nan.
  assert (X : match m_emd lin_spl 10 f_mat f_nan None (Some 2) with
    | Ok ([r], _) => is_finite (nth 14 (row_imf r) n0) && Qc_eqb (value (nth 14 (row_imf r) n0)) (Q2Qc 3)
    | _ => false end = true) by (vm_compute; reflexivity).
  destruct (m_emd lin_spl 10 f_mat f_nan None (Some 2)) as [[[|r [|r' rows]] no]|e]; try discriminate X.
  apply andb_prop in X as [X1 X2]. exists [r], no, 14%nat.
  split; [reflexivity|]. split; [vm_compute; lia|]. split; [vm_compute; reflexivity|].
  split; [intros r' [<-|[]]; exact X1|].
  apply Qc_eqb_eq in X2. unfold real_sum. cbn [map rsum fold_right].
  rewrite <- (value_B2R (nth 14 (row_imf r) n0)), X2, <- (value_B2R (nth 14 f_nan n0)).
  assert (E : value (nth 14 f_nan n0) = Q2Qc 5) by (apply Qc_eqb_eq; vm_compute; reflexivity). rewrite E.
  change (this (Q2Qc 5)) with (5 # 1). change (this (Q2Qc 3)) with (3 # 1). unfold Q2R. cbn [Qnum Qden].
  rewrite Rabs_pos_eq; lra.
Qed.
Print Assumptions C76_matlab_nan_refuted.
