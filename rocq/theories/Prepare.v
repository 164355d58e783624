(** * Prepare: model of boundary mirroring (EMD.py:165-455). *)
From Verif Require Export Extrema.

Section Prepare.
Context {A : Type} `{Num A}.

(** [np.where(pos[1:] == pos[:-1])] followed by [np.delete] (EMD.py:450-453): a point is
    dropped when the next one has the same position. *)
Fixpoint dedupe (l : list (A * A)) : list (A * A) :=
  match l with
  | p :: ((q :: _) as l') =>
      if neqb (fst q) (fst p) then dedupe l' else p :: dedupe l'
  | _ => l
  end.

(** [2 * T[sym] - T[idx]] (EMD.py:404-407). *)
Definition mirror (T : list A) (sym : Z) (idx : list Z) : res (list A) :=
  let! c := py_get T sym in
  let! ts := py_take T idx in
  Ok (map (fun t => nsub (nmul n2 c) t) ts).

(** Left bound, EMD.py:353-370: (lmax, lmin, lsym). *)
Definition left_bound (nbsym : Z) (S : list A) (ind_max ind_min : list Z)
  : res (list Z * list Z * Z) :=
  let end_max := zlen ind_max in
  let end_min := zlen ind_min in
  let! M0 := py_get ind_max 0 in
  let! m0 := py_get ind_min 0 in
  let! S0 := py_get S 0 in
  if M0 <? m0 then
    let! Sm0 := py_get S m0 in
    if nltb Sm0 S0 then
      Ok (rev (py_slice ind_max 1 (Z.min end_max (nbsym + 1))),
          rev (py_slice ind_min 0 (Z.min end_min (nbsym + 0))), M0)
    else
      Ok (rev (py_slice ind_max 0 (Z.min end_max nbsym)),
          rev (py_slice ind_min 0 (Z.min end_min (nbsym - 1))) ++ [0], 0)
  else
    let! SM0 := py_get S M0 in
    if nltb S0 SM0 then
      Ok (rev (py_slice ind_max 0 (Z.min end_max (nbsym + 0))),
          rev (py_slice ind_min 1 (Z.min end_min (nbsym + 1))), m0)
    else
      Ok (rev (py_slice ind_max 0 (Z.min end_max (nbsym - 1))) ++ [0],
          rev (py_slice ind_min 0 (Z.min end_min nbsym)), 0).

(** Right bound, EMD.py:374-391: (rmax, rmin, rsym). *)
Definition right_bound (nbsym : Z) (S : list A) (ind_max ind_min : list Z)
  : res (list Z * list Z * Z) :=
  let end_max := zlen ind_max in
  let end_min := zlen ind_min in
  let last := zlen S - 1 in
  let! Ml := py_get ind_max (-1) in
  let! ml := py_get ind_min (-1) in
  let! Sl := py_get S (-1) in
  if Ml <? ml then
    let! SMl := py_get S Ml in
    if nltb Sl SMl then
      Ok (rev (py_from ind_max (Z.max (end_max - nbsym) 0)),
          rev (py_slice ind_min (Z.max (end_min - nbsym - 1) 0) (-1)), ml)
    else
      Ok (rev (py_from ind_max (Z.max (end_max - nbsym + 1) 0) ++ [last]),
          rev (py_from ind_min (Z.max (end_min - nbsym) 0)), last)
  else
    let! Sml := py_get S ml in
    if nltb Sml Sl then
      Ok (rev (py_slice ind_max (Z.max (end_max - nbsym - 1) 0) (-1)),
          rev (py_from ind_min (Z.max (end_min - nbsym) 0)), Ml)
    else
      Ok (rev (py_from ind_max (Z.max (end_max - nbsym) 0)),
          rev (py_from ind_min (Z.max (end_min - nbsym + 1) 0) ++ [last]), last).

(** [if not x.size: x = default] (EMD.py:394-401). *)
Definition or_default (x dflt : list Z) : list Z :=
  match x with [] => dflt | _ => x end.

(** EMD.py:403-421: mirror to the left; fall back to mirroring about index 0 when the
    mirrored points do not reach beyond the start.  Result: (tlmax, lmax, tlmin, lmin). *)
Definition mirror_left (nbsym : Z) (T : list A) (ind_max ind_min : list Z)
    (lmax lmin : list Z) (lsym : Z) : res (list A * list Z * list A * list Z) :=
  let! tlmin := mirror T lsym lmin in
  let! tlmax := mirror T lsym lmax in
  let! t0 := py_get T 0 in
  let! hmin := py_get tlmin 0 in
  let! bad := if nltb t0 hmin then Ok true
              else let! hmax := py_get tlmax 0 in Ok (nltb t0 hmax) in
  if (bad : bool) then
    let! M0 := py_get ind_max 0 in
    let lmax' := if lsym =? M0
                 then rev (py_slice ind_max 0 (Z.min (zlen ind_max) nbsym)) else lmax in
    let lmin' := if lsym =? M0 then lmin
                 else rev (py_slice ind_min 0 (Z.min (zlen ind_min) nbsym)) in
    if lsym =? 0 then Raise LeftEdgeBug
    else
      let! tlmin' := mirror T 0 lmin' in
      let! tlmax' := mirror T 0 lmax' in
      Ok (tlmax', lmax', tlmin', lmin')
  else Ok (tlmax, lmax, tlmin, lmin).

(** EMD.py:406-407, 423-434. *)
Definition mirror_right (nbsym : Z) (T : list A) (n : Z) (ind_max ind_min : list Z)
    (rmax rmin : list Z) (rsym : Z) : res (list A * list Z * list A * list Z) :=
  let! trmin := mirror T rsym rmin in
  let! trmax := mirror T rsym rmax in
  let! tl := py_get T (-1) in
  let! lmin := py_get trmin (-1) in
  let! bad := if nltb lmin tl then Ok true
              else let! lmax := py_get trmax (-1) in Ok (nltb lmax tl) in
  if (bad : bool) then
    let! Ml := py_get ind_max (-1) in
    let rmax' := if rsym =? Ml
                 then rev (py_from ind_max (Z.max (zlen ind_max - nbsym) 0)) else rmax in
    let rmin' := if rsym =? Ml then rmin
                 else rev (py_from ind_min (Z.max (zlen ind_min - nbsym) 0)) in
    if rsym =? n - 1 then Raise RightEdgeBug
    else
      let! trmin' := mirror T (n - 1) rmin' in
      let! trmax' := mirror T (n - 1) rmax' in
      Ok (trmax', rmax', trmin', rmin')
  else Ok (trmax, rmax, trmin, rmin).

(** [np.array([concatenate(tl, T[ind], tr), concatenate(S[l], S[ind], S[r])])]
    (EMD.py:436-447), as a list of (position, value) points. *)
Definition assemble (T S : list A) (tl : list A) (l ind : list Z) (tr : list A) (r : list Z)
  : res (list (A * A)) :=
  let! zl := py_take S l in
  let! zr := py_take S r in
  let! t := py_take T ind in
  let! z := py_take S ind in
  Ok (combine (tl ++ t ++ tr) (zl ++ z ++ zr)).

(** EMD.prepare_points_simple, EMD.py:327-455.  [max_val]/[min_val] are unused by the
    code.  Result: (max_extrema, min_extrema).  Both sides are computed one after the other
    here and interleaved in the code: with two failing expressions only the choice of the
    exception could differ. *)
Definition prepare_points_simple (nbsym : Z) (T S : list A) (e : extrema_out A)
  : res (list (A * A) * list (A * A)) :=
  let ind_min := map ntrunc (min_pos e) in
  let ind_max := map ntrunc (max_pos e) in
  let! (lmax, lmin, lsym) := left_bound nbsym S ind_max ind_min in
  let! (rmax, rmin, rsym) := right_bound nbsym S ind_max ind_min in
  let lmin := or_default lmin ind_min in
  let rmin := or_default rmin ind_min in
  let lmax := or_default lmax ind_max in
  let rmax := or_default rmax ind_max in
  let! (tlmax, lmax, tlmin, lmin) := mirror_left nbsym T ind_max ind_min lmax lmin lsym in
  let! (trmax, rmax, trmin, rmin) := mirror_right nbsym T (zlen S) ind_max ind_min rmax rmin rsym in
  let! maxe := assemble T S tlmax lmax ind_max trmax rmax in
  let! mine := assemble T S tlmin lmin ind_min trmin rmin in
  Ok (dedupe maxe, dedupe mine).

(** EMD.prepare_points_parabol, EMD.py:209-325.  The tests [if not x.shape] (263-266,
    314-317) are never true for 1-d arrays and are omitted.  The cast to [self.DTYPE]
    (218-219) is the identity in the model. *)
Definition prepare_points_parabol (nbsym : Z) (T S : list A) (e : extrema_out A)
  : res (list (A * A) * list (A * A)) :=
  let maxp := max_pos e in let maxv := max_val e in
  let minp := min_pos e in let minv := min_val e in
  let end_min := zlen minp in
  let end_max := zlen maxp in
  let refl c l := map (fun t => nsub (nmul n2 c) t) l in
  let! M0 := py_get maxp 0 in
  let! m0 := py_get minp 0 in
  let! t0 := py_get T 0 in
  let! s0 := py_get S 0 in
  let! Mv0 := py_get maxv 0 in
  let! mv0 := py_get minv 0 in
  let d_pos := nsub M0 m0 in
  let '(lmaxp, lminp, lmaxv, lminv) :=
    if nltb d_pos n0 then
      if nltb mv0 s0 && nltb (nsub M0 t0) (nabs d_pos) then
        (refl M0 (py_slice maxp 1 (nbsym + 1)), refl M0 (py_slice minp 0 nbsym),
         py_slice maxv 1 (nbsym + 1), py_slice minv 0 nbsym)
      else
        (refl t0 (py_slice maxp 0 nbsym), refl t0 (t0 :: py_slice minp 0 (nbsym - 1)),
         py_slice maxv 0 nbsym, s0 :: py_slice minv 0 (nbsym - 1))
    else
      if nltb s0 Mv0 && nltb (nsub m0 t0) (nabs d_pos) then
        (refl m0 (py_slice maxp 0 nbsym), refl m0 (py_slice minp 1 (nbsym + 1)),
         py_slice maxv 0 nbsym, py_slice minv 1 (nbsym + 1))
      else
        (refl t0 (t0 :: py_slice maxp 0 (nbsym - 1)), refl t0 (py_slice minp 0 nbsym),
         s0 :: py_slice maxv 0 (nbsym - 1), py_slice minv 0 nbsym) in
  let! Ml := py_get maxp (-1) in
  let! ml := py_get minp (-1) in
  let! tN := py_get T (-1) in
  let! sN := py_get S (-1) in
  let! Mvl := py_get maxv (-1) in
  let! mvl := py_get minv (-1) in
  let d_pos := nsub Ml ml in
  let '(rmaxp, rminp, rmaxv, rminv) :=
    if negb (nltb n0 d_pos) then
      if nltb sN Mvl && nltb (nsub tN ml) (nabs d_pos) then
        let idx_max := Z.max 0 (end_max - nbsym) in
        let idx_min := Z.max 0 (end_min - nbsym - 1) in
        (refl ml (py_from maxp idx_max), refl ml (py_slice minp idx_min (-1)),
         py_from maxv idx_max, py_slice minv idx_min (-1))
      else
        let idx_max := Z.max 0 (end_max - nbsym + 1) in
        let idx_min := Z.max 0 (end_min - nbsym) in
        (refl tN (py_from maxp idx_max ++ [tN]), refl tN (py_from minp idx_min),
         py_from maxv idx_max ++ [sN], py_from minv idx_min)
    else
      if nltb mvl sN && (1 <? zlen maxp) && nltb (nsub tN Ml) (nabs d_pos) then
        let idx_max := Z.max 0 (end_max - nbsym - 1) in
        let idx_min := Z.max 0 (end_min - nbsym) in
        (refl Ml (py_slice maxp idx_max (-1)), refl Ml (py_from minp idx_min),
         py_slice maxv idx_max (-1), py_from minv idx_min)
      else
        let idx_max := Z.max 0 (end_max - nbsym) in
        let idx_min := Z.max 0 (end_min - nbsym + 1) in
        (refl tN (py_from maxp idx_max), refl tN (py_from minp idx_min ++ [tN]),
         py_from maxv idx_max, py_from minv idx_min ++ [sN]) in
  Ok (combine (rev lmaxp) (rev lmaxv) ++ combine maxp maxv ++ combine (rev rmaxp) (rev rmaxv),
      combine (rev lminp) (rev lminv) ++ combine minp minv ++ combine (rev rminp) (rev rminv)).

(** EMD.prepare_points, EMD.py:165-207. *)
Definition prepare_points (m : detection) (nbsym : Z) (T S : list A) (e : extrema_out A)
  : res (list (A * A) * list (A * A)) :=
  match m with
  | Parabol => prepare_points_parabol nbsym T S e
  | Simple => prepare_points_simple nbsym T S e
  | OtherDetection => Raise ValueError
  end.

End Prepare.
