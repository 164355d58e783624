(** * Spline: model of splines.py:5-43 and EMD.spline_points (EMD.py:457-498). *)
From Verif Require Export Prepare.
From Coq Require Import String Ascii.

Section Spline.
Context {A : Type} `{Num A}.

(** [np.linalg.solve] on a 3x3 system, by Cramer's rule; LinAlgError on a zero
    determinant.  Exact over the rationals; LAPACK's rounding is not modelled. *)
Definition det3 (a b c d e f g h i : A) : A :=
  nadd (nsub (nmul a (nsub (nmul e i) (nmul f h))) (nmul b (nsub (nmul d i) (nmul f g))))
       (nmul c (nsub (nmul d h) (nmul e g))).
Definition solve3 (m11 m12 m13 m21 m22 m23 m31 m32 m33 v1 v2 v3 : A) : res (A * A * A) :=
  let D := det3 m11 m12 m13 m21 m22 m23 m31 m32 m33 in
  if is0 D then Raise LinAlgError
  else Ok (ndiv (det3 v1 m12 m13 v2 m22 m23 v3 m32 m33) D,
           ndiv (det3 m11 v1 m13 m21 v2 m23 m31 v3 m33) D,
           ndiv (det3 m11 m12 v1 m21 m22 v2 m31 m32 v3) D).

(** splines.py:10-41: the coefficients (a1, b1, a2, b2).  Coinciding knots give infinite
    coefficients in NumPy; the model reports LinAlgError instead. *)
Definition spline3_coeffs (x0 x1 x2 y0 y1 y2 : A) : res (A * A * A * A) :=
  let x1x0 := nsub x1 x0 in let x2x1 := nsub x2 x1 in
  let y1y0 := nsub y1 y0 in let y2y1 := nsub y2 y1 in
  if is0 x1x0 || is0 x2x1 then Raise LinAlgError else
  let _x1x0 := ndiv n1 x1x0 in let _x2x1 := ndiv n1 x2x1 in
  let m11 := nmul n2 _x1x0 in let m12 := _x1x0 in let m13 := n0 in
  let m21 := _x1x0 in let m22 := nmul n2 (nadd _x1x0 _x2x1) in let m23 := _x2x1 in
  let m31 := n0 in let m32 := _x2x1 in let m33 := nmul n2 _x2x1 in
  let v1 := nmul (nmul (nmul (nofZ 3) y1y0) _x1x0) _x1x0 in
  let v3 := nmul (nmul (nmul (nofZ 3) y2y1) _x2x1) _x2x1 in
  let v2 := nadd v1 v3 in
  let! (k0, k1, k2) := solve3 m11 m12 m13 m21 m22 m23 m31 m32 m33 v1 v2 v3 in
  Ok (nsub (nmul k0 x1x0) y1y0,
      nadd (nmul (nopp k1) x1x0) y1y0,
      nsub (nmul k1 x2x1) y2y1,
      nadd (nmul (nopp k2) x2x1) y2y1).

(** One spline piece, splines.py:35-40: on [xa, xb] with end values ya, yb. *)
Definition spline_piece (xa w ya yb a b : A) (u : A) : A :=
  let t := ndiv (nsub u xa) w in
  let t' := nsub n1 t in
  nadd (nadd (nmul t' ya) (nmul t yb)) (nmul (nmul t t') (nadd (nmul a t') (nmul b t))).

(** splines.cubic_spline_3pts, splines.py:5-43: values at the instants of [T] lying in
    [x0, x2] (first those below x1, then the others).  ValueError unless 3 points. *)
Definition cubic_spline_3pts (pts : list (A * A)) (T : list A) : res (list A * list A) :=
  match pts with
  | [(x0, y0); (x1, y1); (x2, y2)] =>
      let! (a1, b1, a2, b2) := spline3_coeffs x0 x1 x2 y0 y1 y2 in
      let t := filter (fun u => nleb x0 u && nleb u x2) T in
      let T1 := filter (fun u => nleb x0 u && nltb u x1) T in
      let T2 := filter (fun u => nleb x1 u && nleb u x2) T in
      let q1 := map (spline_piece x0 (nsub x1 x0) y0 y1 a1 b1) T1 in
      let q2 := map (spline_piece x1 (nsub x2 x1) y1 y2 a2 b2) T2 in
      Ok (t, q1 ++ q2)
  | _ => Raise ValueError
  end.

(** The interpolation routines of SciPy behind akima, cubic, pchip, cubic_hermite
    (splines.py:46-64) and interp1d (EMD.py:495): an arbitrary function of the method, the
    knots and the evaluation instants, which may raise. *)
Inductive skind := Akima | Cubic | Pchip | CubicHermite | Slinear | Quadratic | Linear.
Definition spline_oracle := skind -> list (A * A) -> list A -> res (list A).

(** [self.spline_kind.lower()] and the comparisons of EMD.py:476-498. *)
Definition ascii_lower (c : ascii) : ascii :=
  let n := nat_of_ascii c in
  if (Nat.leb 65 n && Nat.leb n 90)%bool then ascii_of_nat (n + 32) else c.
Fixpoint string_lower (s : string) : string :=
  match s with
  | EmptyString => EmptyString
  | String c s' => String (ascii_lower c) (string_lower s')
  end.
Definition parse_kind (s : string) : option skind :=
  let k := string_lower s in
  if String.eqb k "akima" then Some Akima
  else if String.eqb k "cubic" then Some Cubic
  else if String.eqb k "pchip" then Some Pchip
  else if String.eqb k "cubic_hermite" then Some CubicHermite
  else if String.eqb k "slinear" then Some Slinear
  else if String.eqb k "quadratic" then Some Quadratic
  else if String.eqb k "linear" then Some Linear
  else None.

(** [extrema[0, 0]] and [extrema[0, -1]] *)
Definition time_window (T : list A) (ext : list (A * A)) : res (list A) :=
  let! p := py_get ext 0 in
  let! q := py_get ext (-1) in
  Ok (filter (fun u => nleb (fst p) u && nleb u (fst q)) T).

(** EMD.spline_points, EMD.py:457-498 (second component of the result). *)
Definition spline_points (spl : spline_oracle) (kind : string) (T : list A)
    (ext : list (A * A)) : res (list A) :=
  let! t := time_window T ext in
  match parse_kind kind with
  | None => Raise ValueError
  | Some Cubic =>
      if 3 <? zlen ext then spl Cubic ext t
      else let! (_, q) := cubic_spline_3pts ext t in Ok q
  | Some k => spl k ext t
  end.

End Spline.
Arguments spline_oracle A : clear implicits.
