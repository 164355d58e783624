(** * Image: model of /repo/PyEMD/EMD2d.py and /repo/PyEMD/BEMD.py.

    An image (two-dimensional array) is the list of its rows. *)
From Verif Require Export Py.

Section Image.
Context {A : Type} `{Num A}.
Notation image := (list (list A)).

(** ** Arrays of pixels *)
Definition imap (f : A -> A) (x : image) : image := map (map f) x.
Definition imap2 (f : A -> A -> A) (x y : image) : image := map2 (map2 f) x y.
Definition iadd : image -> image -> image := imap2 nadd.
Definition isub : image -> image -> image := imap2 nsub.
(** [np.zeros(image.shape)] *)
Definition izeros (x : image) : image := imap (fun _ => n0) x.
(** [np.sum(IMF, axis=0)] of an array of images of the shape of [x]. *)
Definition isum (x : image) (IMF : list image) : image := fold_left iadd IMF (izeros x).
Definition pix (x : image) (i j : nat) : A := nth j (nth i x []) n0.
Definition nrows (x : image) : nat := length x.
Definition ncols (x : image) : nat := length (hd [] x).

(** [np.mean] over all pixels. *)
Definition imean (x : image) : A := ndiv (nsum (concat x)) (nofZ (zlen (concat x))).
(** [np.allclose(x, y, rtol, 1e-8)] *)
Definition iallclose (rtol : A) (x y : image) : bool :=
  forallb (fun p => nleb (nabs (nsub (fst p) (snd p))) (nadd (nlit 1 (10 ^ 8)) (nmul rtol (nabs (snd p)))))
          (combine (concat x) (concat y)).
Definition rtol_default : A := nlit 1 (10 ^ 5).

(** ** EMD2D.prepare_image, EMD2d.py:97-152.
    [np.fliplr] reverses every row, [np.flipud] the order of the rows.  The code fills the nine
    blocks of a zero array one by one; they are disjoint and cover it, so the model joins them. *)
Definition fliplr (x : image) : image := map (@rev A) x.
Definition flipud (x : image) : image := rev x.
Definition hstack3 (x y z : image) : image := map3 (fun a b c => a ++ b ++ c) x y z.
Definition prepare_image (x : image) : image :=
  let image_lr := fliplr x in
  let image_ud := flipud x in
  let image_ud_lr := flipud image_lr in
  let image_lr_ud := fliplr image_ud in
  hstack3 image_ud_lr image_ud image_lr_ud
  ++ hstack3 image_lr x image_lr
  ++ hstack3 image_ud_lr image_ud image_lr_ud.

(** ** EMD2D.find_extrema, EMD2d.py:165-214.
    [maximum_filter] with the 3x3 footprint takes the maximum over a pixel and its eight
    neighbours.  Its behaviour at the border does not matter, since border pixels are removed
    (206-209).  The background mask computed in 193-202 is overwritten and not modelled.
    Positions (row, column) in the row-major order of [np.nonzero]. *)
Definition window (x : image) (i j : nat) : list A :=
  [pix x (i - 1) (j - 1); pix x (i - 1) j; pix x (i - 1) (j + 1);
   pix x i (j - 1); pix x i j; pix x i (j + 1);
   pix x (i + 1) (j - 1); pix x (i + 1) j; pix x (i + 1) (j + 1)].
Definition largest (l : list A) : A :=
  match l with [] => n0 | a :: l' => fold_left (fun m y => if nltb m y then y else m) l' a end.
Definition inside (x : image) (i j : nat) : bool :=
  (Nat.ltb 0 i && Nat.ltb (i + 1) (nrows x)) && (Nat.ltb 0 j && Nat.ltb (j + 1) (ncols x)).
Definition is_peak (x : image) (p : nat * nat) : bool :=
  inside x (fst p) (snd p) && neqb (largest (window x (fst p) (snd p))) (pix x (fst p) (snd p)).
Definition grid (n m : nat) : list (nat * nat) := list_prod (seq 0 n) (seq 0 m).
Definition peaks (x : image) : list (nat * nat) := filter (is_peak x) (grid (nrows x) (ncols x)).
(** Result: (min_peaks, max_peaks). *)
Definition find_extrema2 (x : image) : list (nat * nat) * list (nat * nat) :=
  (peaks (imap nopp x), peaks x).

(** ** Attributes of an EMD2D or BEMD object, EMD2d.py:50-63, BEMD.py:47-54 *)
Record cfg2 := MkCfg2 { mse_thr : A; mean_thr : A; FIXE2 : Z; FIXE_H2 : Z; MAX_ITERATION2 : Z }.

(** SciPy's surface fit: positions, values, the rows and the columns to evaluate at.  It may
    raise. *)
Definition surface := list (nat * nat) -> list A -> list nat -> list nat -> res image.

(** ** EMD2D.extract_max_min_spline and spline_points, EMD2d.py:68-95, 154-163.
    Result: (min_env, max_env). *)
Definition envelopes2 (sbs : surface) (x : image) : res (image * image) :=
  let big := prepare_image x in
  let (mins, maxs) := find_extrema2 big in
  let xi := seq (nrows x) (nrows x) in
  let yi := seq (ncols x) (ncols x) in
  let vals (ps : list (nat * nat)) := map (fun p => pix big (fst p) (snd p)) ps in
  let! min_env := sbs mins (vals mins) xi yi in
  let! max_env := sbs maxs (vals maxs) xi yi in
  Ok (min_env, max_env).

(** ** EMD2D.check_proto_imf, EMD2d.py:236-276. *)
Definition check_proto (c : cfg2) (proto prev mean_env : image) : bool :=
  if forallb (fun y => nltb (nabs (nsub y (imean mean_env))) (mean_thr c)) (concat mean_env) then true
  else if iallclose rtol_default proto prev then true
  else if nltb (imean (imap nabs proto)) (mean_thr c) then true
  else nltb (imean (imap (fun y => nmul y y) proto)) (mse_thr c).

(** ** The sifting loop of EMD2D.emd, EMD2d.py:320-364.
    [left] is the number of iterations the bound MAX_ITERATION still allows; [n] and [n_h] are
    the counters.  Result: (imf, notFinished). *)
Fixpoint sift2 (sbs : surface) (c : cfg2) (left : nat) (n n_h : Z) (imf mean_env : image)
  : res (image * bool) :=
  match left with
  | O => Ok (imf, true)
  | S left' =>
    let n := n + 1 in
    let (mins, maxs) := find_extrema2 imf in
    if (4 <? zlen mins) && (4 <? zlen maxs) then
      let imf := isub imf mean_env in
      let! (min_env, max_env) := envelopes2 sbs imf in
      let mean_env := imap (nmul nhalf) (iadd min_env max_env) in
      let imf_old := imf in
      let imf := isub imf mean_env in
      if negb (FIXE2 c =? 0) then
        if FIXE2 c + 1 <=? n then Ok (imf, true)
        else sift2 sbs c left' n n_h imf mean_env
      else if negb (FIXE_H2 c =? 0) then
        if n =? 1 then sift2 sbs c left' n n_h imf mean_env
        else
          let n_h := if check_proto c imf imf_old mean_env then n_h + 1 else 0 in
          if FIXE_H2 c <=? n_h then Ok (imf, true)
          else sift2 sbs c left' n n_h imf mean_env
      else if check_proto c imf imf_old mean_env then Ok (imf, true)
      else sift2 sbs c left' n n_h imf mean_env
    else Ok (imf, false)
  end.

(** ** The outer loop, EMD2d.py:308-371 and BEMD.py:210-269 (identical but for the sifting).
    [image] is what end_condition compares with, [image_s] what is decomposed. *)
Fixpoint modes2 (sift : image -> res (image * bool)) (fuel : nat) (image image_s : image)
    (max_imf : Z) (IMF : list (list (list A))) : res (list (list (list A))) :=
  match fuel with
  | O => Raise OutOfFuel
  | S fuel' =>
    let! (imf, notFinished) := sift (isub image_s (isum image_s IMF)) in
    let IMF := IMF ++ [imf] in
    if iallclose rtol_default image (isum image IMF) || ((0 <? max_imf) && (max_imf <=? zlen IMF))
    then Ok IMF
    else if (notFinished : bool) then modes2 sift fuel' image image_s max_imf IMF
    else Ok IMF
  end.
(** EMD2d.py:373-376, BEMD.py:271-274 *)
Definition with_residue (image_s : image) (IMF : list image) : list image :=
  let r := isub image_s (isum image_s IMF) in
  if forallb allclose0 r then IMF else IMF ++ [r].

(** ** EMD2D.emd, EMD2d.py:278-380.
    [np.min] raises ValueError on an empty image.  A constant image makes [scale] zero and
    NumPy then returns NaN; exact arithmetic has no NaN, the model reports ZeroDivisionError. *)
Definition on_last (f : image -> image) (IMF : list image) : list image :=
  match rev IMF with [] => [] | l :: r => rev (f l :: r) end.
Definition emd2d (sbs : surface) (c : cfg2) (fuel : nat) (image : image) (max_imf : Z)
  : res (list (list (list A))) :=
  let! image_min := np_min (concat image) in
  let! image_max := np_max (concat image) in
  let offset := image_min in
  let scale := nsub image_max image_min in
  if neqb scale n0 then Raise ZeroDivisionError
  else
    let image_s := imap (fun y => ndiv (nsub y offset) scale) image in
    let sift r := sift2 sbs c (Z.to_nat (MAX_ITERATION2 c)) 0 0 r (izeros image) in
    let! IMF := modes2 sift fuel image image_s max_imf [] in
    let IMF := with_residue image_s IMF in
    Ok (on_last (imap (fun y => nadd y offset)) (map (imap (fun y => nmul y scale)) IMF)).

(** ** BEMD.
    skimage's morphological reconstruction by dilation of the first image under the second. *)
Definition reconstruction := image -> image -> image.
(** BEMD.extract_maxima_positions, BEMD.py:116-121.  The result lists (column, row) pairs,
    because of [[::-1]]. *)
Definition maxima_positions (rec : reconstruction) (x : image) : list (nat * nat) :=
  let dilated := rec (imap (fun y => nsub y n1) x) x in
  let cleaned := isub x dilated in
  map (fun p => (snd p, fst p))
    (filter (fun p => nltb n0 (pix cleaned (fst p) (snd p))) (grid (nrows x) (ncols x))).
(** BEMD.extract_minima_positions, BEMD.py:112-114. *)
Definition minima_positions (rec : reconstruction) (x : image) : list (nat * nat) :=
  maxima_positions rec (imap nopp x).
(** [image[peaks_pos]]: the pair is used as (row, column); IndexError beyond the image. *)
Definition pick (x : image) (p : nat * nat) : res A :=
  match nth_error x (fst p) with
  | Some r => match nth_error r (snd p) with Some a => Ok a | None => Raise IndexError end
  | None => Raise IndexError
  end.
(** SciPy's [Rbf(X, Y, Z)] evaluated on the grid of a (n, m) image: as [np.meshgrid] produces
    (m, n) arrays, so is the result. *)
Definition rbf := list (nat * nat) -> list A -> nat -> nat -> res image.
(** BEMD.extract_max_min_spline, BEMD.py:59-78. *)
Definition envelopes_b (f : rbf) (x : image) (mins maxs : list (nat * nat)) : res (image * image) :=
  let! min_val := mapM (pick x) mins in
  let! max_val := mapM (pick x) maxs in
  let! min_env := f mins min_val (nrows x) (ncols x) in
  let! max_env := f maxs max_val (nrows x) (ncols x) in
  Ok (min_env, max_env).
(** [x - y] for two-dimensional arrays of equal shape; any other shape raises ValueError here
    (NumPy would broadcast if one side had a single row or column). *)
Definition same_shape (x y : image) : bool :=
  Nat.eqb (nrows x) (nrows y) && Nat.eqb (ncols x) (ncols y).
(** BEMD.check_proto_imf, BEMD.py:143-182: its last test returns False either way. *)
Definition check_proto_b (c : cfg2) (proto prev mean_env : image) : bool :=
  if forallb (fun y => nltb (nabs (nsub y (imean mean_env))) (mean_thr c)) (concat mean_env) then true
  else if iallclose (nlit 1 100) proto prev then true
  else nltb (imean (imap nabs proto)) (mean_thr c).
(** The sifting loop of BEMD.bemd, BEMD.py:222-262. *)
Fixpoint sift_b (rec : reconstruction) (f : rbf) (c : cfg2) (left : nat) (n n_h : Z) (imf : image)
  : res (image * bool) :=
  match left with
  | O => Ok (imf, true)
  | S left' =>
    let n := n + 1 in
    let mins := minima_positions rec imf in
    let maxs := maxima_positions rec imf in
    if (1 <? zlen mins) && (1 <? zlen maxs) then
      let! (min_env, max_env) := envelopes_b f imf mins maxs in
      let mean_env := imap (nmul nhalf) (iadd min_env max_env) in
      let imf_old := imf in
      if negb (same_shape imf mean_env) then Raise ValueError
      else
        let imf := isub imf mean_env in
        if negb (FIXE2 c =? 0) then
          if FIXE2 c + 1 <=? n then Ok (imf, true)
          else sift_b rec f c left' n n_h imf
        else if negb (FIXE_H2 c =? 0) then
          if n =? 1 then sift_b rec f c left' n n_h imf
          else
            let n_h := if check_proto_b c imf imf_old mean_env then n_h + 1 else 0 in
            if FIXE_H2 c <=? n_h then Ok (imf, true)
            else sift_b rec f c left' n n_h imf
        else if check_proto_b c imf imf_old mean_env then Ok (imf, true)
        else sift_b rec f c left' n n_h imf
    else Ok (imf, true)
  end.
(** BEMD.bemd, BEMD.py:184-276. *)
Definition bemd (rec : reconstruction) (f : rbf) (c : cfg2) (fuel : nat) (image : image) (max_imf : Z)
  : res (list (list (list A))) :=
  let sift r := sift_b rec f c (Z.to_nat (MAX_ITERATION2 c)) 0 0 r in
  let! IMF := modes2 sift fuel image image max_imf [] in
  Ok (with_residue image IMF).
End Image.
Arguments cfg2 A : clear implicits.
Arguments surface A : clear implicits.
Arguments reconstruction A : clear implicits.
Arguments rbf A : clear implicits.
