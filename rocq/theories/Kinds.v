(** * Kinds: the interpolation routines behind splines.py:46-64 and EMD.py:494-495.

    The wrappers akima, cubic_hermite, cubic and pchip build a SciPy object from the knots and
    evaluate it; "linear", "slinear" and "quadratic" go through scipy.interpolate.interp1d.  SciPy is not part of
    /repo: the definitions below are its documented formulas (Akima1DInterpolator, PchipInterpolator,
    CubicSpline with the default not-a-knot ends, CubicHermiteSpline, numpy.gradient, make_interp_spline),
    written for exact arithmetic.  Simplifications:
      - an instant that is a knot is served by the piece on its left (SciPy: on its right); the two
        pieces agree there (Props_Kinds.v);
      - instants outside the knots raise (SciPy extrapolates or gives NaN); EMD.spline_points never asks
        for one (EMD.py:476);
      - fewer than three knots raise ValueError (EMD never has fewer);
      - numpy.gradient has a branch for equal gaps, whose formula is this one there. *)
From Verif Require Import Spline Compact Demo.
From Coq Require Import List.
Import ListNotations.
Open Scope Z_scope.

Section Kinds.
Context {A : Type} `{Num A}.
Notation pt := (A * A)%type.
Local Infix "+'" := nadd (at level 50, left associativity).
Local Infix "-'" := nsub (at level 50, left associativity).
Local Infix "*'" := nmul (at level 40, left associativity).
Local Infix "/'" := ndiv (at level 40, left associativity).

(** Windows of three and of four neighbours. *)
Fixpoint triples {X} (l : list X) : list (X * X * X) :=
  match l with
  | a :: ((b :: c :: _) as l') => (a, b, c) :: triples l'
  | _ => []
  end.
Fixpoint quads {X} (l : list X) : list (X * X * X * X) :=
  match l with
  | a :: ((b :: c :: d :: _) as l') => (a, b, c, d) :: quads l'
  | _ => []
  end.

(** Distance and slope between two knots: [dx], [slope] of scipy's prepare_input. *)
Definition gap (p q : pt) : A := fst q -' fst p.
Definition chord (p q : pt) : A := (snd q -' snd p) /' gap p q.
Fixpoint chords (l : list pt) : list A :=
  match l with
  | p :: ((q :: _) as l') => chord p q :: chords l'
  | _ => []
  end.

(** One cubic piece from the values and the slopes at its ends: the coefficients computed by
    CubicHermiteSpline.__init__, and the evaluation of PPoly. *)
Definition hermite_at (x0 y0 d0 x1 y1 d1 u : A) : A :=
  let h := x1 -' x0 in
  let s := (y1 -' y0) /' h in
  let t := (d0 +' d1 -' n2 *' s) /' h in
  let v := u -' x0 in
  y0 +' v *' (d0 +' v *' (((s -' d0) /' h -' t) +' v *' (t /' h))).
Fixpoint ppoly (knots : list (pt * A)) (u : A) : res A :=
  match knots with
  | (x0, y0, d0) :: (((x1, y1, d1) :: _) as rest) =>
      if nltb u x0 then Raise BrokenSpline
      else if nleb u x1 then Ok (hermite_at x0 y0 d0 x1 y1 d1 u)
      else ppoly rest u
  | _ => Raise BrokenSpline
  end.

(** ** Slopes of cubic_hermite: [np.gradient(Y, X)], splines.py:52.  Inside, the weighted mean of the two
    chords; at the ends, the chord. *)
Definition grad3 (w : pt * pt * pt) : A :=
  let '(p, q, r) := w in
  let h1 := gap p q in let h2 := gap q r in
  (h2 *' chord p q +' h1 *' chord q r) /' (h1 +' h2).
Definition gradient_slopes (pts : list pt) : res (list A) :=
  match pts, rev pts with
  | p0 :: p1 :: _ :: _, r0 :: r1 :: _ => Ok (chord p0 p1 :: map grad3 (triples pts) ++ [chord r1 r0])
  | _, _ => Raise ValueError
  end.

(** ** Slopes of pchip: PchipInterpolator._find_derivatives and _edge_case, splines.py:63. *)
Definition nsign (x : A) : Z := if nltb n0 x then 1 else if nltb x n0 then -1 else 0.
Definition pchip3 (w : pt * pt * pt) : A :=
  let '(p, q, r) := w in
  let h1 := gap p q in let h2 := gap q r in
  let m1 := chord p q in let m2 := chord q r in
  if negb (nsign m2 =? nsign m1) || neqb m2 n0 || neqb m1 n0 then n0
  else
    let w1 := n2 *' h2 +' h1 in let w2 := h2 +' n2 *' h1 in
    n1 /' ((w1 /' m1 +' w2 /' m2) /' (w1 +' w2)).
Definition pchip_edge (h0 h1 m0 m1 : A) : A :=
  let d := ((n2 *' h0 +' h1) *' m0 -' h0 *' m1) /' (h0 +' h1) in
  if negb (nsign d =? nsign m0) then n0
  else if negb (nsign m0 =? nsign m1) && nltb (nofZ 3 *' nabs m0) (nabs d) then nofZ 3 *' m0
  else d.
Definition pchip_slopes (pts : list pt) : res (list A) :=
  match pts, rev pts with
  | p0 :: p1 :: p2 :: _, r0 :: r1 :: r2 :: _ =>
      Ok (pchip_edge (gap p0 p1) (gap p1 p2) (chord p0 p1) (chord p1 p2)
          :: map pchip3 (triples pts)
          ++ [pchip_edge (gap r1 r0) (gap r2 r1) (chord r1 r0) (chord r2 r1)])
  | _, _ => Raise ValueError
  end.

(** ** Slopes of akima: Akima1DInterpolator.__init__, splines.py:47.  The chords are continued by two at
    either end; a knot whose four chords are all but equal pairwise takes the mean of the outer two. *)
Definition akima_weight (w : A * A * A * A) : A :=
  let '(a, b, c, d) := w in nabs (d -' c) +' nabs (b -' a).
Definition akima4 (thr : A) (w : A * A * A * A) : A :=
  let '(a, b, c, d) := w in
  let f1 := nabs (d -' c) in let f2 := nabs (b -' a) in
  if nltb thr (f1 +' f2) then (f1 *' b +' f2 *' c) /' (f1 +' f2)
  else nhalf *' (d +' a).
Definition akima_chords (ms : list A) : list A :=
  match ms, rev ms with
  | m2 :: m3 :: _, k2 :: k3 :: _ =>
      let m1 := n2 *' m2 -' m3 in let k1 := n2 *' k2 -' k3 in
      (n2 *' m1 -' m2) :: m1 :: ms ++ [k1; n2 *' k1 -' k2]
  | _, _ => []
  end.
Definition akima_slopes (pts : list pt) : res (list A) :=
  match pts with
  | _ :: _ :: _ :: _ =>
      let ws := quads (akima_chords (chords pts)) in
      let top := fold_left (fun m y => if nltb m y then y else m) (map akima_weight ws) n0 in
      Ok (map (akima4 (nlit 1 1000000000 *' top)) ws)
  | _ => Raise ValueError
  end.

(** ** Slopes of cubic: CubicSpline.__init__ with bc_type='not-a-knot', splines.py:58.  Each row
    (a, b, c, d) stands for a d_(i-1) + b d_i + c d_(i+1) = d; scipy.linalg.solve_banded returns the
    solution, here computed by the elimination of compact.py's TDMAsolver (C38: it is the only one). *)
Definition row3 (w : pt * pt * pt) : A * A * A * A :=
  let '(p, q, r) := w in
  let h1 := gap p q in let h2 := gap q r in
  (h2, n2 *' (h1 +' h2), h1, nofZ 3 *' (h2 *' chord p q +' h1 *' chord q r)).
Definition row_first (p q r : pt) : A * A * A * A :=
  let h1 := gap p q in let h2 := gap q r in
  (n0, h2, h1 +' h2,
   ((h1 +' n2 *' (h1 +' h2)) *' h2 *' chord p q +' h1 *' h1 *' chord q r) /' (h1 +' h2)).
Definition row_last (p q r : pt) : A * A * A * A :=
  let h1 := gap p q in let h2 := gap q r in
  (h1 +' h2, h1, n0,
   (h2 *' h2 *' chord p q +' (n2 *' (h1 +' h2) +' h2) *' h1 *' chord q r) /' (h1 +' h2)).
Definition cubic_slopes (pts : list pt) : res (list A) :=
  match pts, rev pts with
  | [p; q; r], _ =>  (* the parabola through the three knots *)
      let m := grad3 (p, q, r) in Ok [n2 *' chord p q -' m; m; n2 *' chord q r -' m]
  | p0 :: p1 :: p2 :: _, r0 :: r1 :: r2 :: _ =>
      let rows := row_first p0 p1 p2 :: map row3 (triples pts) ++ [row_last r2 r1 r0] in
      TDMAsolver (map (fun r => fst (fst (fst r))) rows) (map (fun r => snd (fst (fst r))) rows)
                 (map (fun r => snd (fst r)) rows) (map snd rows)
  | _, _ => Raise ValueError
  end.

(** ** quadratic: interp1d(kind='quadratic') of EMD.spline_points, i.e. make_interp_spline(k=2) with
    breakpoints halfway between neighbouring knots, the first and the last gap excepted: one parabola per
    inner knot, neighbouring ones with the same value and slope halfway between their knots.  SciPy
    solves for B-spline coefficients; here the same curve is written through its slopes at the knots
    (C90_quadratic: it is the only such curve).  [row_quad]: the parabola at q has one second derivative
    on both sides; [row_quad_first], [row_quad_last]: no break in the first and the last gap. *)
Definition row_quad (w : pt * pt * pt) : A * A * A * A :=
  let '(p, q, r) := w in
  let h1 := gap p q in let h2 := gap q r in
  (h2, nofZ 3 *' (h1 +' h2), h1, nofZ 4 *' (h2 *' chord p q +' h1 *' chord q r)).
Definition row_quad_first (p q : pt) : A * A * A * A := (n0, n1, n1, n2 *' chord p q).
Definition row_quad_last (p q : pt) : A * A * A * A := (n1, n1, n0, n2 *' chord p q).
Definition quad_slopes (pts : list pt) : res (list A) :=
  match pts, rev pts with
  | p0 :: p1 :: _ :: _, r0 :: r1 :: _ =>
      let rows := row_quad_first p0 p1 :: map row_quad (triples pts) ++ [row_quad_last r1 r0] in
      TDMAsolver (map (fun r => fst (fst (fst r))) rows) (map (fun r => snd (fst (fst r))) rows)
                 (map (fun r => snd (fst r)) rows) (map snd rows)
  | _, _ => Raise ValueError
  end.
(** The two half gaps between two knots. *)
Definition quad_at (x0 y0 d0 x1 y1 d1 u : A) : A :=
  let h := x1 -' x0 in
  let s := nofZ 4 *' ((y1 -' y0) /' h) in
  let v := u -' x0 in let w := u -' x1 in
  if nleb (n2 *' v) h
  then y0 +' v *' (d0 +' v *' ((s -' nofZ 3 *' d0 -' d1) /' (n2 *' h)))
  else y1 +' w *' (d1 +' w *' ((d0 +' nofZ 3 *' d1 -' s) /' (n2 *' h))).
Fixpoint qpoly (knots : list (pt * A)) (u : A) : res A :=
  match knots with
  | (x0, y0, d0) :: (((x1, y1, d1) :: _) as rest) =>
      if nltb u x0 then Raise BrokenSpline
      else if nleb u x1 then Ok (quad_at x0 y0 d0 x1 y1 d1 u)
      else qpoly rest u
  | _ => Raise BrokenSpline
  end.

(** ** All kinds.  The SciPy constructors refuse knots that are not strictly increasing. *)
Fixpoint strictly_up (xs : list A) : bool :=
  match xs with
  | x :: ((y :: _) as xs') => nltb x y && strictly_up xs'
  | _ => true
  end.
Definition draw (slopes : list pt -> res (list A)) (pts : list pt) (T : list A) : res (list A) :=
  if strictly_up (map fst pts) then
    let! ds := slopes pts in mapM (ppoly (combine pts ds)) T
  else Raise ValueError.
Definition qdraw (slopes : list pt -> res (list A)) (pts : list pt) (T : list A) : res (list A) :=
  if strictly_up (map fst pts) then
    let! ds := slopes pts in mapM (qpoly (combine pts ds)) T
  else Raise ValueError.
Definition scipy_spl : spline_oracle A := fun k pts T =>
  match k with
  | Akima => draw akima_slopes pts T
  | Cubic => draw cubic_slopes pts T
  | Pchip => draw pchip_slopes pts T
  | CubicHermite => draw gradient_slopes pts T
  | Quadratic => qdraw quad_slopes pts T
  | Slinear | Linear => lin_spl k pts T
  end.
End Kinds.
