(** * Props_Nan: property C79, samples that are not finite (binary64).

    [finite x]: the double [x] is neither infinite nor NaN.  [B754_nan] (Flocq) is NaN. *)
From Verif Require Import Py Emd Jit Matlab Eemd Ceemdan Image Spec Float64 FloatSpec FloatNan Demo MatlabDemo Props_Float Props_FloatMore.
From Flocq Require Import Core BinarySingleNaN.
From Coq Require String.
Import String.
Local Notation length := List.length.
Open Scope Z_scope.

(** ** C79 *)
(** EMD: where the signal is not finite the residue is not, and the residue is then always among
    the rows returned. *)
Theorem C79_emd :
  forall (spl : spline_oracle f64) fuel c S T k o i,
  emd spl fuel c S T k = Ok o -> (i < length S)%nat -> ~ finite (nth i S n0) ->
  ~ finite (nth i (residue o) n0) /\ out o = imfs o ++ [residue o].
Proof. exact emd_bad. Qed.
Print Assumptions C79_emd.
(** JitEMD: the last row. *)
Theorem C79_jit :
  forall (spl : spline_oracle f64) fuel strict c S T k M i,
  (2 <= length S)%nat -> jit_emd spl fuel strict c S T k = Ok M -> (i < length S)%nat -> ~ finite (nth i S n0) ->
  exists l r, M = l ++ [r] /\ length r = length S /\ ~ finite (nth i r n0).
Proof. exact jit_bad. Qed.
Print Assumptions C79_jit.
(** EMD_matlab: the first row; the remainder may be left out, as NaN > 1e-10 is false. *)
Theorem C79_matlab :
  forall (spl : spline_oracle f64) fuel c S T k rows no i,
  (2 <= length S)%nat -> m_emd spl fuel c S T k = Ok (rows, no) -> (i < length S)%nat -> ~ finite (nth i S n0) ->
  exists r more, rows = r :: more /\ ~ finite (nth i (row_imf r) n0).
Proof. exact m_bad. Qed.
Print Assumptions C79_matlab.
(** EEMD: the stored residue. *)
Theorem C79_eemd :
  forall G D (gen : generator f64 G) (dec : decomposer f64 D) c o S T k E o',
  eemd gen dec c o S T k = (Ok E, o') -> shaped (length S) E ->
  exists r, eemd_imfs_and_residue o' = Ok (E, r) /\ length r = length S /\
  forall i, (i < length S)%nat -> ~ finite (nth i S n0) -> ~ finite (nth i r n0).
Proof. exact @eemd_bad. Qed.
Print Assumptions C79_eemd.
(** CEEMDAN: one of the rows, at that sample; and if the standard deviation is not finite, all
    samples of all rows. *)
Theorem C79_ceemdan :
  forall G (gen : generator f64 G) std emd_of arrival c o S T k C o',
  ceemdan gen std emd_of arrival c o S T k = (Ok C, o') ->
  (forall i, (i < length S)%nat -> ~ finite (nth i S n0) -> exists r, In r C /\ ~ finite (nth i r n0)) /\
  (~ finite (std S) -> forall r a, In r C -> In a r -> ~ finite a).
Proof.
  intros. split; [intros; eapply ceemdan_bad; eauto|]. eapply ceemdan_std_bad; eauto.
Qed.
Print Assumptions C79_ceemdan.
(** BEMD: the last row, at that pixel. *)
Theorem C79_bemd :
  forall rec f c fuel (image : list (list f64)) k rows n m i j,
  bemd rec f c fuel image k = Ok rows -> of_shape n m image -> Forall (of_shape n m) rows ->
  (i < n)%nat -> (j < m)%nat -> ~ finite (grey image i j) ->
  exists l r, rows = l ++ [r] /\ ~ finite (grey r i j).
Proof. exact bemd_bad. Qed.
Print Assumptions C79_bemd.
(** EMD2D: one such pixel spoils every pixel of every row; with one NaN and at least one allowed
    iteration, the result is two images of NaN. *)
Theorem C79_emd2d :
  forall sbs c fuel (image : list (list f64)) k rows x,
  emd2d sbs c fuel image k = Ok rows -> In x (List.concat image) -> ~ finite x ->
  forall im row a, In im rows -> In row im -> In a row -> ~ finite a.
Proof. exact emd2d_bad. Qed.
Print Assumptions C79_emd2d.
Theorem C79_emd2d_nan :
  forall sbs c fuel (image : list (list f64)) k n m,
  of_shape n m image -> In B754_nan (List.concat image) -> 1 <= MAX_ITERATION2 c ->
  let nans := map (map (fun _ => B754_nan)) image in
  emd2d sbs c (S fuel) image k = Ok [nans; nans].
Proof. exact emd2d_nan. Qed.
Print Assumptions C79_emd2d_nan.

(** Runs that end, on signals with a NaN or an infinity among finite samples. *)
Definition spoil (v : f64) (i : nat) (l : list f64) : list f64 := firstn i l ++ [v] ++ skipn (S i) l.
Definition n_long := spoil B754_nan 9 f_long.
Definition i_long := spoil (B754_infinity true) 18 f_long.
Definition n_image := [[nlit 1 10; nlit 2 10]; [B754_nan; nlit 7 10]] : list (list f64).
Definition fins (M : list (list f64)) := map (fun r => zlen (filter (fun a => is_finite a) r)) M.
Definition shown (r : res (list (list f64))) := match r with Ok M => Some (fins M) | Raise _ => None end.
Example C79_nonvacuous :
  shown (emd_fun lin_spl 10 f_cfg n_long None (-1)) = Some [18; 18; 18] /\
  shown (emd_fun lin_spl 10 f_cfg i_long None (-1)) = Some [4; 4] /\
  shown (jit_emd lin_spl 10 true f_cfg n_long (map nofZ (zseq 0 19)) (-1)) = Some [18; 18; 18] /\
  match m_emd lin_spl 10 (MkMCfg "linear"%string 2 n1 500 2 0 (nlit 5 100) (nlit 5 10) (nlit 5 100) 1000) n_long None None with
  | Ok (rows, _) => Some (fins (map row_imf rows)) | Raise _ => None end = Some [18; 18; 18] /\
  match eemd f_gen (emd_decomposer lin_spl 10 f_cfg) f_eemd (MkESt 0 (MkState None None) None None []) n_long None (-1) with
  | (Ok E, _) => map (@List.length f64) E | _ => [] end = [19%nat] /\
  shown (fst (ceemdan f_gen f_std f_emd (@rev _) f_ccfg (MkCSt 0 None None) n_long None (-1))) = Some [0; 0] /\
  is_finite (f_std n_long) = false /\
  match bemd f_grow f_flat_rbf f_cfg2 9 n_image 2 with Ok M => map fins M | _ => [] end = [[2; 1]; [2; 1]; [2; 1]].
Proof. repeat split; vm_compute; reflexivity. Qed.
(** Elsewhere the rows of EMD are finite: all but one sample above.  EMD2D leaves no pixel. *)
Example C79_emd2d_nonvacuous :
  match emd2d f_flat f_cfg2 9 n_image 2 with Ok M => map fins M | _ => [] end = [[0; 0]; [0; 0]] /\
  match emd2d f_flat f_cfg2 9 [[nlit 1 10; nlit 2 10]; [B754_infinity false; nlit 7 10]] 2 with Ok M => map fins M | _ => [] end
  = [[0; 0]; [0; 0]].
Proof. split; vm_compute; reflexivity. Qed.
