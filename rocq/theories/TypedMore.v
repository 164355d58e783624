(** * TypedMore: integer arrays in EEMD and EMD2D.

    Exact arithmetic everywhere except that operations between NumPy integers wrap around. *)
From Verif Require Import Py Emd Eemd Image Utils Typed.
From Coq Require Import QArith Qcanon.
Open Scope Z_scope.

(** [np.max], [np.min] of an integer array: ValueError on the empty array. *)
Definition int_max (l : list Z) : res Z := match l with [] => Raise ValueError | x :: l' => Ok (fold_left Z.max l' x) end.
Definition int_min (l : list Z) : res Z := match l with [] => Raise ValueError | x :: l' => Ok (fold_left Z.min l' x) end.

Section EEMD.
Context {G D : Type} (gen : generator Qc G) (dec : decomposer Qc D).

(** EEMD.py:182-185 on a signal of integer type [d]: the difference and [np.abs] are computed in
    type [d]; the product with the noise width is a float. *)
Definition int_start (d : dtype) (c : eemd_config Qc) (S : list Z) (T : option (list Qc)) : res (list Qc * Qc) :=
  let! T := match T with Some t => Ok t | None => timeline (length S) end in
  let! mx := int_max S in
  let! mn := int_min S in
  Ok (T, nmul (noise_width c) (Qc_ofZ (wrap d (Z.abs (wrap d (mx - mn)))))).

(** The rest of EEMD.eemd, EEMD.py:186-230, as in Eemd.v; [S + noise] is a float array. *)
Definition eemd_from (c : eemd_config Qc) (o : eemd_state Qc G D) (S : list Qc) (start : res (list Qc * Qc)) (max_imf : Z)
  : res (list (list Qc)) * eemd_state Qc G D :=
  match start with
  | Raise e => (Raise e, o)
  | Ok (T, scale) =>
    let step := trial_update gen dec c scale S T max_imf in
    let '(ts, x, st) :=
      if parallel c then
        let '(ts, x) := pool_map (processes c) step (trials c) (random o, inner o) in
        (ts, x, (random o, inner o))
      else run_trials step (Z.to_nat (trials c)) (random o, inner o) in
    let o := MkESt (fst st) (snd st) (E_IMF o) (e_residue o)
               (match x with Some _ => if parallel c then all_imfs o else collect ts
                        | None => rename_trend (collect ts) end) in
    match x with
    | Some e => (Raise e, o)
    | None =>
      match mapM (fun p => np_array (snd p)) (all_imfs o) with
      | Raise e => (Raise e, o)
      | Ok _ =>
        match ensemble_mean (all_imfs o) with
        | Raise e => (Raise e, o)
        | Ok E =>
          match minus_rows S E with
          | Raise e => (Raise e, MkESt (random o) (inner o) (Some E) (e_residue o) (all_imfs o))
          | Ok r => (Ok E, MkESt (random o) (inner o) (Some E) (Some r) (all_imfs o))
          end
        end
      end
    end
  end.
(** EEMD.eemd, EEMD.py:155-230, on a signal of integer type [d]. *)
Definition eemd_ints (d : dtype) (c : eemd_config Qc) (o : eemd_state Qc G D) (S : list Z) (T : option (list Qc)) (max_imf : Z) :=
  eemd_from c o (map Qc_ofZ S) (int_start d c S T) max_imf.
End EEMD.

(** EMD2D.emd, EMD2d.py:278-380, on an image of integer type [d]: offset and scale are integers of
    that type, [image - offset] is computed in it, the quotient is a float. *)
Definition emd2d_ints (d : dtype) (sbs : surface Qc) (c : cfg2 Qc) (fuel : nat) (image : list (list Z)) (max_imf : Z)
  : res (list (list (list Qc))) :=
  let! image_min := int_min (concat image) in
  let! image_max := int_max (concat image) in
  let offset := image_min in
  let scale := wrap d (image_max - image_min) in
  if scale =? 0 then Raise ZeroDivisionError
  else
    let image_s := map (map (fun y => ndiv (Qc_ofZ (wrap d (y - offset))) (Qc_ofZ scale))) image in
    let image := map (map Qc_ofZ) image in
    let sift r := sift2 sbs c (Z.to_nat (MAX_ITERATION2 c)) 0 0 r (izeros image) in
    let! IMF := modes2 sift fuel image image_s max_imf [] in
    let IMF := with_residue image_s IMF in
    Ok (on_last (imap (fun y => nadd y (Qc_ofZ offset))) (map (imap (fun y => nmul y (Qc_ofZ scale))) IMF)).
