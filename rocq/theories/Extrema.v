(** * Extrema: model of extrema and zero-crossing detection (EMD.py:500-687). *)
From Verif Require Export Py.

Section Extrema.
Context {A : Type} `{Num A}.

Definition is0 (x : A) : bool := neqb x n0.

(** Run starts and run ends of a boolean mask, as computed by
    [dd = np.diff(np.concatenate(([0], m, [0])))],
    [np.nonzero(dd == 1)[0]] and [np.nonzero(dd == -1)[0]]
    (EMD.py:567-569, 628-630, 645-647).  A run of [true] at positions a..b-1
    contributes [a] to the starts and [b] to the ends. *)
Definition mask_dd (m : list bool) : list Z := zdiff (0 :: map b2z m ++ [0]).
Definition run_starts (m : list bool) : list Z := nonzero (map (Z.eqb 1) (mask_dd m)).
Definition run_ends (m : list bool) : list Z := nonzero (map (Z.eqb (-1)) (mask_dd m)).

(** Zero crossings: EMD.py:622-633 (identical code at 561-572).
    [indz] becomes a float array when runs of zeros exist; the model keeps integers. *)
Definition zero_crossings (S : list A) : list Z :=
  let indzer := nonzero (adj (fun a b => nltb (nmul a b) n0) S) in
  let zer := map is0 S in
  if existsb (fun b => b) zer then
    let indz := nonzero zer in
    let indz :=
      if existsb (Z.eqb 1) (zdiff indz) then
        let debz := run_starts zer in
        let finz := map (fun k => k - 1) (run_ends zer) in
        map2 (fun a b => round_half (a + b)) debz finz
      else indz in
    zsort (indzer ++ indz)
  else indzer.

(** [np.nonzero(sign_change & (d1 < 0))[0] + 1] and its dual, EMD.py:636-640. *)
Definition strict_min_idx (d : list A) : list Z :=
  map (fun k => k + 1)
    (nonzero (adj (fun d1 d2 => nltb (nmul d1 d2) n0 && nltb d1 n0) d)).
Definition strict_max_idx (d : list A) : list Z :=
  map (fun k => k + 1)
    (nonzero (adj (fun d1 d2 => nltb (nmul d1 d2) n0 && nltb n0 d1) d)).

(** EMD.py:649-656: drop the first plateau when it starts at index 1. *)
Definition drop_first_run (runs : list (Z * Z)) : list (Z * Z) :=
  match runs with
  | (a, b) :: rest => if a =? 1 then rest else runs
  | [] => []
  end.
(** EMD.py:658-665: drop the last plateau when it reaches the end of the signal.
    [n] is [len(S)]. *)
Definition drop_last_run (n : Z) (runs : list (Z * Z)) : list (Z * Z) :=
  match rev runs with
  | (a, b) :: rest => if b =? n - 1 then rev rest else runs
  | [] => []
  end.

(** EMD.py:612-687, index part: indices of maxima and minima.
    [debs]/[fins] are kept as one list of pairs (both arrays always have equal length). *)
Definition extrema_idx (S : list A) : res (list Z * list Z) :=
  let d := ndiff S in
  let indmin := strict_min_idx d in
  let indmax := strict_max_idx d in
  let bad := map is0 d in
  if existsb (fun b => b) bad then
    let runs := combine (run_starts bad) (run_ends bad) in
    let runs := drop_last_run (zlen S) (drop_first_run runs) in
    match runs with
    | [] => Ok (indmax, indmin)
    | _ =>
      let! d_before := py_take d (map (fun r => fst r - 1) runs) in
      let! d_after := py_take d (map snd runs) in
      let midpoints := map (fun r => round_half (snd r + fst r)) runs in
      let max_mask := map2 (fun b a => nltb n0 b && nltb a n0) d_before d_after in
      let min_mask := map2 (fun b a => nltb b n0 && nltb n0 a) d_before d_after in
      let indmax := if existsb (fun b => b) max_mask
                    then zsort (indmax ++ mask midpoints max_mask) else indmax in
      let indmin := if existsb (fun b => b) min_mask
                    then zsort (indmin ++ mask midpoints min_mask) else indmin in
      Ok (indmax, indmin)
    end
  else Ok (indmax, indmin).

(** Result of [find_extrema] (EMD.py:521-550). *)
Record extrema_out := MkExt {
  max_pos : list A; max_val : list A;
  min_pos : list A; min_val : list A;
  indzer : list Z
}.

(** EMD._find_extrema_simple, EMD.py:612-687. *)
Definition find_extrema_simple (T S : list A) : res extrema_out :=
  let! (indmax, indmin) := extrema_idx S in
  let! maxp := py_take T indmax in
  let! maxv := py_take S indmax in
  let! minp := py_take T indmin in
  let! minv := py_take S indmin in
  Ok (MkExt maxp maxv minp minv (zero_crossings S)).

(** EMD._not_duplicate, EMD.py:500-519: indices kept after removing samples equal to
    both neighbours.  ([idx[0] = 0] then [idx[-1] = len(S)-1]; at least two samples.) *)
Definition not_duplicate (S : list A) : list Z :=
  let keep := map3 (fun p c n => negb (neqb c p && neqb c n)) S (tl S) (tl (tl S)) in
  0 :: mask (zrange 1 (zlen S - 1)) keep ++ [zlen S - 1].

(** One candidate of EMD._find_extrema_parabol (EMD.py:584-608): the three samples
    (Tp,Sp) (T0,S0) (Tn,Sn); result [Some (a, tVertex, sVertex)] when the vertex of the
    parabola lies in the half-open window around T0. *)
Definition parabol_vertex (Tp T0 Tn Sp S0 Sn : A) : option (A * A * A) :=
  let TnTp := nsub Tn Tp in
  let T0Tn := nsub T0 Tn in
  let TpT0 := nsub Tp T0 in
  let scale :=
    nsub (nsub (nsub (nadd (nadd (nmul (nmul Tp Tn) Tn) (nmul (nmul Tp Tp) T0)) (nmul (nmul T0 T0) Tn))
      (nmul (nmul Tp Tp) Tn)) (nmul (nmul Tp T0) T0)) (nmul (nmul T0 Tn) Tn) in
  let a := nadd (nadd (nmul T0Tn Sp) (nmul TnTp S0)) (nmul TpT0 Sn) in
  let b := nadd (nadd (nmul (nsub S0 Sn) (nmul Tp Tp)) (nmul (nsub Sn Sp) (nmul T0 T0)))
             (nmul (nsub Sp S0) (nmul Tn Tn)) in
  let c := nadd (nadd (nmul (nmul (nmul T0 Tn) T0Tn) Sp) (nmul (nmul (nmul Tn Tp) TnTp) S0))
             (nmul (nmul (nmul Tp T0) TpT0) Sn) in
  let a := ndiv a scale in
  let b := ndiv b scale in
  let c := ndiv c scale in
  let a := if is0 a then nlit 1 (10 ^ 14) else a in
  let tv := ndiv (nmul (nopp nhalf) b) a in
  if nltb tv (nadd T0 (nmul nhalf (nsub Tn T0)))
     && nleb (nsub T0 (nmul nhalf (nsub T0 Tp))) tv
  then Some (a, tv, nadd (nadd (nmul (nmul a tv) tv) (nmul b tv)) c)
  else None.

(** All candidates, in order.  NumPy computes them as whole arrays; elementwise the
    operations are those of [parabol_vertex]. *)
Fixpoint parabol_scan (T S : list A) : list (A * A * A) :=
  match T, S with
  | Tp :: ((T0 :: Tn :: _) as T'), Sp :: ((S0 :: Sn :: _) as S') =>
      match parabol_vertex Tp T0 Tn Sp S0 Sn with
      | Some v => v :: parabol_scan T' S'
      | None => parabol_scan T' S'
      end
  | _, _ => []
  end.

(** EMD._find_extrema_parabol, EMD.py:552-610.  [dt = float(T[1]-T[0])] (574) is dead
    except that it raises IndexError on fewer than two samples. *)
Definition find_extrema_parabol (T S : list A) : res extrema_out :=
  let! t1 := py_get T 1 in
  let! t0 := py_get T 0 in
  let idx := not_duplicate S in
  let! T' := py_take T idx in
  let! S' := py_take S idx in
  let vs := parabol_scan T' S' in
  let maxs := filter (fun v => nltb (fst (fst v)) n0) vs in
  let mins := filter (fun v => nltb n0 (fst (fst v))) vs in
  let tv := fun v : A * A * A => snd (fst v) in
  let sv := fun v : A * A * A => snd v in
  Ok (MkExt (map tv maxs) (map sv maxs) (map tv mins) (map sv mins) (zero_crossings S)).

End Extrema.

Arguments extrema_out A : clear implicits.

(** [self.extrema_detection]: the two supported strings, anything else (EMD.py:545-550). *)
Inductive detection := Simple | Parabol | OtherDetection.

(** EMD.find_extrema, EMD.py:521-550. *)
Definition find_extrema {A} `{Num A} (m : detection) (T S : list A) : res (extrema_out A) :=
  match m with
  | Parabol => find_extrema_parabol T S
  | Simple => find_extrema_simple T S
  | OtherDetection => Raise ValueError
  end.
