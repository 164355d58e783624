(** * MatlabThreads: one object of EMD_matlab.EMD called from several threads.

    [emd] stores the type of its arrays in the attribute [DTYPE] (EMD_matlab.py:471) and converts the signal, the knots
    and the envelopes to whatever [DTYPE] is at that moment (473, 217-218, 254, 259, 303).  Here the signals are float64
    or int64 arrays, and one step of a thread is one access to [DTYPE] ([Steps.v]).

    Simplifications: those of MatlabInt.v; the settings are not changed meanwhile; the comparisons of types that only log
    (244-247, 479-488, 547-554) and the types of arrays of zeros (476, 509) are left out; [DTYPE] is read for the knots
    even if making them raises. *)
From Verif Require Export MatlabInt Steps.
From Coq Require String.
Open Scope Z_scope.

Section MatlabThreads.
Context {A : Type} `{Num A}.
Notation vec := (list A).
Variable spl : spline_oracle A.

(** The values of [DTYPE]. *)
Inductive kept_type := AsFloat | AsInt.
Notation prog := (steps kept_type).
Notation "'do' x <- p ;; q" := (after p (fun x => q)) (at level 200, x name, p at level 100, q at level 200).
(** [self.DTYPE] *)
Definition dtype_now : prog kept_type := look (fun d => d).

(** [x.astype(self.DTYPE)] for floats. *)
Definition as_type (d : kept_type) (v : vec) : vec := match d with AsFloat => v | AsInt => map to_int v end.
Definition points_as (d : kept_type) (l : list (A * A)) : list (A * A) := match d with AsFloat => l | AsInt => int_points l end.

(** EMD.preparePoints, EMD_matlab.py:94-224, with the types found at 217 and 218. *)
Definition preparePoints_as (d1 d2 : kept_type) (nbsym : Z) (T S : vec) (e : extrema_out A)
  : res (list (A * A) * list (A * A)) :=
  let! indmin := m_lookup T (min_pos e) in
  let! indmax := m_lookup T (max_pos e) in
  let! (lmax, lmin, lsym) := left_bound nbsym S indmax indmin in
  let! (rmax, rmin, rsym) := right_bound nbsym S indmax indmin in
  let lmin := or_default lmin indmin in
  let rmin := or_default rmin indmin in
  let lmax := or_default lmax indmax in
  let rmax := or_default rmax indmax in
  let! (tlmax, lmax, tlmin, lmin) := mirror_left nbsym T indmax indmin lmax lmin lsym in
  let! (trmax, rmax, trmin, rmin) := mirror_right nbsym T (zlen S) indmax indmin rmax rmin rsym in
  let! maxe := assemble T S tlmax lmax indmax trmax rmax in
  let! mine := assemble T S tlmin lmin indmin trmin rmin in
  Ok (dedupe (points_as d1 maxe), dedupe (points_as d2 mine)).
(** EMD.splinePoints and cubicSpline_3points, EMD_matlab.py:226-303, with the type found at 254, 259 or 303. *)
Definition splinePoints_as (d : kept_type) (kind : String.string) (T : vec) (ext : list (A * A)) : res vec :=
  let! t := time_window T ext in
  match parse_kind kind with
  | None | Some Pchip | Some CubicHermite => Raise ValueError
  | Some Akima => spl Akima ext t
  | Some Cubic =>
      if 3 <? zlen ext then let! v := spl Cubic ext t in Ok (as_type d v)
      else let! (_, q) := cubic_spline_3pts ext T in Ok (as_type d q)
  | Some k => let! v := spl k ext t in Ok (as_type d v)
  end.
(** EMD.extractMaxMinSpline, EMD_matlab.py:65-92. *)
Definition envelope_steps (c : m_config A) (T S : vec) : prog (option (vec * vec)) :=
  do e <- Done (findExtrema T S) ;;
  if ext_no e <? 3 then Done (Ok None)
  else
    do d1 <- dtype_now ;;
    do d2 <- dtype_now ;;
    do knots <- Done (preparePoints_as d1 d2 (m_nbsym c) T S e) ;;
    do d3 <- dtype_now ;;
    do maxs <- Done (splinePoints_as d3 (m_splineKind c) T (fst knots)) ;;
    do d4 <- dtype_now ;;
    do mins <- Done (splinePoints_as d4 (m_splineKind c) T (snd knots)) ;;
    Done (Ok (Some (maxs, mins))).
(** The sifting loop, EMD_matlab.py:520-600. *)
Fixpoint m_sift_steps (fuel : nat) (c : m_config A) (T : vec) (n n_h extNo : Z) (imf mean : vec)
  : prog (vec * Z * Z * bool) :=
  match fuel with
  | O => Done (Raise OutOfFuel)
  | S fuel' =>
    if m_MAX_ITERATION c <=? n then Done (Ok (imf, n, extNo, true))
    else
      let n := n + 1 in
      do e <- Done (findExtrema T imf) ;;
      let extNo := ext_no e in
      if 2 <? extNo then
        do imf <- Done (broadcast2 nsub imf (map (nmul (reduceScale c)) mean)) ;;
        do env <- envelope_steps c T imf ;;
        match env with
        | None => Done (Ok (imf, n, extNo, true))
        | Some (maxEnv, minEnv) =>
          do sum <- Done (broadcast2 nadd maxEnv minEnv) ;;
          let mean := map (nmul nhalf) sum in
          if maxIteration c <? n then Done (Ok (imf, n, extNo, true))
          else if negb (m_FIXE c =? 0) then
            if m_FIXE c + 1 <=? n then Done (Ok (imf, n, extNo, true))
            else m_sift_steps fuel' c T n n_h extNo imf mean
          else
            do e' <- Done (findExtrema T imf) ;;
            let extNo := ext_no e' in
            let nzm := zlen (indzer e') in
            if negb (m_FIXE_H c =? 0) then
              if n =? 1 then m_sift_steps fuel' c T n n_h extNo imf mean
              else
                let n_h := if 1 <? Z.abs (extNo - nzm) then 0 else n_h + 1 in
                if m_FIXE_H c <=? n_h then Done (Ok (imf, n, extNo, true))
                else m_sift_steps fuel' c T n n_h extNo imf mean
            else
              do f1 <- Done (stop_sifting c maxEnv minEnv mean extNo) ;;
              let f2 := Z.abs (extNo - nzm) <? 2 in
              if f1 && f2 then Done (Ok (imf, n, extNo, true))
              else m_sift_steps fuel' c T n n_h extNo imf mean
        end
      else Done (Ok (imf, n, extNo, false))
  end.
(** The outer loop, EMD_matlab.py:503-610. *)
Fixpoint m_loop_steps (fuel : nat) (c : m_config A) (T : vec) (maxImf : Z) (Res imf : vec)
    (rows : list (m_row A)) (extNo : Z) : prog (list (m_row A) * Z) :=
  match fuel with
  | O => Done (Raise OutOfFuel)
  | S fuel' =>
    do Res <- Done (broadcast2 nsub Res imf) ;;
    do sifted <- m_sift_steps (m_sift_fuel c) c T 0 0 extNo Res (map (fun _ => n0) Res) ;;
    let '(imf, n, extNo, notFinish) := sifted in
    let rows := rows ++ [MkRow imf extNo n] in
    if zlen rows =? maxImf - 1 then Done (Ok (rows, extNo))
    else if (notFinish : bool) then m_loop_steps fuel' c T maxImf Res imf rows extNo
    else Done (Ok (rows, extNo))
  end.

(** A call with float64 arrays, and one with int64 arrays. *)
Inductive m_job :=
| Floats (X : vec) (T : option vec) (maxImf : option Z)
| Ints (X : list Z) (T : option (list Z)) (maxImf : option Z).
Definition kind_of (j : m_job) : kept_type := match j with Floats _ _ _ => AsFloat | Ints _ _ _ => AsInt end.
Definition signal_of (j : m_job) : vec := match j with Floats X _ _ => X | Ints X _ _ => map nofZ X end.
Definition times_of (j : m_job) : vec :=
  match j with
  | Floats X T _ => match T with Some t => t | None => map nofZ (zseq 0 (length X)) end
  | Ints X T _ => map nofZ (match T with Some t => t | None => zseq 0 (length X) end)
  end.
Definition limit_of (j : m_job) : Z :=
  match j with Floats _ _ k | Ints _ _ k => match k with Some k => k | None => -1 end end.
(** [S.astype(self.DTYPE)] at 473: whole numbers stay what they are. *)
Definition taken_as (d : kept_type) (j : m_job) : vec :=
  match j with Floats X _ _ => as_type d X | Ints X _ _ => map nofZ X end.

(** EMD.emd, EMD_matlab.py:431-623. *)
Definition m_emd_steps (fuel : nat) (c : m_config A) (j : m_job) : prog (list (m_row A) * Z) :=
  do _ <- write (fun _ => kind_of j) ;;                                                        (* 471 *)
  do d <- dtype_now ;;                                                                         (* 473 *)
  let S := signal_of j in
  if negb (Nat.eqb (length S) (length (times_of j))) then Done (Raise ValueError)
  else
    do done <- m_loop_steps fuel c (times_of j) (limit_of j) (taken_as d j) (map (fun _ => n0) S) [] 0 ;;
    let '(rows, extNo) := done in
    let Res := vsub S (sum_rows (length S) (map row_imf rows)) in
    let rows := if nltb (nlit 1 (10 ^ 10)) (nsum (map nabs Res))
                then rows ++ [MkRow Res extNo 0] else rows in
    Done (Ok (rows, zlen rows)).
End MatlabThreads.
Arguments m_job A : clear implicits.
