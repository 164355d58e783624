(** * Spec: small, model-independent vocabulary used in the statements of the theorems. *)
From Coq Require Import ZArith List QArith Qcanon.
Import ListNotations.
Open Scope Z_scope.

(** ** Decompositions *)

(** Every row has [n] samples. *)
Definition shaped {A} (n : nat) (rows : list (list A)) : Prop :=
  Forall (fun r => length r = n) rows.

(** Sum over the rows at sample [i] (exact arithmetic). *)
Definition total_at (rows : list (list Qc)) (i : nat) : Qc :=
  fold_right Qcplus 0%Qc (map (fun r => nth i r 0%Qc) rows).

(** The rows add up to [S], sample by sample. *)
Definition adds_up (rows : list (list Qc)) (S : list Qc) : Prop :=
  forall i, (i < length S)%nat -> total_at rows i = nth i S 0%Qc.

(** |x| <= b *)
Definition within (b x : Qc) : Prop := (- b <= x)%Qc /\ (x <= b)%Qc.

(** The tolerance 1e-8. *)
Definition tol : Qc := Q2Qc (1 # 100000000).

(** A vector all of whose samples are negligible. *)
Definition negligible (v : list Qc) : Prop := Forall (within tol) v.

(** ** Iterated application of a partial step function, recording the iterates *)
Inductive iterates {X} (step : X -> X -> Prop) : list X -> Prop :=
| it_one x : iterates step [x]
| it_cons x y l : step x y -> iterates step (y :: l) -> iterates step (x :: y :: l).

(** ** Order *)
(** Strictly increasing sequence. *)
Definition increasing (l : list Qc) : Prop :=
  forall i, (S i < length l)%nat -> (nth i l 0 < nth (S i) l 0)%Qc.

Fixpoint zincreasing (l : list Z) : Prop :=
  match l with
  | [] => True
  | x :: l' => (forall y, In y l' -> x < y) /\ zincreasing l'
  end.

(** ** Convergence of sifting *)
Definition total (l : list Qc) : Qc := fold_right Qcplus 0%Qc l.
Definition squares (l : list Qc) : list Qc := map (fun x => x * x)%Qc l.
(** Pointwise difference of two vectors of the same length. *)
Definition pointwise (f : Qc -> Qc -> Qc) (x y : list Qc) : list Qc :=
  map (fun p => f (fst p) (snd p)) (combine x y).
Definition greatest (m : Qc) (l : list Qc) : Prop := In m l /\ forall x, In x l -> (x <= m)%Qc.
Definition least (m : Qc) (l : list Qc) : Prop := In m l /\ forall x, In x l -> (m <= x)%Qc.

(** The documented stop test of EMD, relative to the previous step: all maxima used are
    nonnegative, all minima used nonpositive, the energy is not tiny, and one of
    (scaled variance, standard deviation, energy ratio) is below its threshold. *)
Definition converged (svar std en : Qc) (new old : list Qc) (maxima minima : list (Qc * Qc))
  : Prop :=
  (forall p, In p maxima -> (0 <= snd p)%Qc) /\
  (forall p, In p minima -> (snd p <= 0)%Qc) /\
  (Q2Qc (1 # 10000000000) <= total (squares new))%Qc /\
  let d := pointwise Qcminus new old in
  ((exists hi lo, greatest hi old /\ least lo old /\ hi <> lo /\
      (total (squares d) / (hi - lo) < svar)%Qc) \/
   ((forall x, In x new -> x <> 0%Qc) /\
      (total (squares (pointwise Qcdiv d new)) < std)%Qc) \/
   (total (squares old) <> 0%Qc /\
      (total (squares d) / total (squares old) < en)%Qc)).

(** ** Samples, hills and valleys *)
(** Sample [i] of a signal. *)
Definition sample (S : list Qc) (i : Z) : Qc := nth (Z.to_nat i) S 0%Qc.

(** [m] is the midpoint of [a] and [b], rounded half to even. *)
Definition rounded_mid (a b m : Z) : Prop :=
  2 * m = a + b \/ (Z.Even m /\ (2 * m = a + b - 1 \/ 2 * m = a + b + 1)).

(** Samples [a..b] have one value. *)
Definition flat (S : list Qc) (a b : Z) : Prop :=
  forall k, a <= k <= b -> sample S k = sample S a.

(** A local maximum: a flat stretch [a..b] in the interior (a single sample if [a = b])
    with a lower sample on either side.  Dually a local minimum. *)
Definition hill (S : list Qc) (a b : Z) : Prop :=
  0 < a <= b /\ b < Z.of_nat (length S) - 1 /\ flat S a b /\
  (sample S (a - 1) < sample S a)%Qc /\ (sample S (b + 1) < sample S b)%Qc.
Definition valley (S : list Qc) (a b : Z) : Prop :=
  0 < a <= b /\ b < Z.of_nat (length S) - 1 /\ flat S a b /\
  (sample S a < sample S (a - 1))%Qc /\ (sample S b < sample S (b + 1))%Qc.

(** Never decreasing, or never increasing. *)
Definition monotone (S : list Qc) : Prop :=
  (forall i, 0 <= i < Z.of_nat (length S) - 1 -> (sample S i <= sample S (i + 1))%Qc) \/
  (forall i, 0 <= i < Z.of_nat (length S) - 1 -> (sample S (i + 1) <= sample S i)%Qc).

(** A maximal stretch [a..b] of zero samples. *)
Definition zero_run (S : list Qc) (a b : Z) : Prop :=
  0 <= a <= b /\ b < Z.of_nat (length S) /\
  (forall k, a <= k <= b -> sample S k = 0%Qc) /\
  (a = 0 \/ sample S (a - 1) <> 0%Qc) /\
  (b = Z.of_nat (length S) - 1 \/ sample S (b + 1) <> 0%Qc).

(** Strictly opposite signs. *)
Definition opposite (x y : Qc) : Prop := ((x < 0 /\ 0 < y) \/ (0 < x /\ y < 0))%Qc.

(** What 'simple' detection reports.  The start-of-signal case of the code: the flat stretch [0..b] is compared with the last
    step of the signal. *)
Definition start_max (S : list Qc) (b : Z) : Prop :=
  0 < b < Z.of_nat (length S) - 1 /\ flat S 0 b /\ (sample S (b + 1) < sample S b)%Qc /\
  (sample S (Z.of_nat (length S) - 2) < sample S (Z.of_nat (length S) - 1))%Qc.
Definition start_min (S : list Qc) (b : Z) : Prop :=
  0 < b < Z.of_nat (length S) - 1 /\ flat S 0 b /\ (sample S b < sample S (b + 1))%Qc /\
  (sample S (Z.of_nat (length S) - 1) < sample S (Z.of_nat (length S) - 2))%Qc.

Definition reported_max (S : list Qc) (i : Z) : Prop :=
  (exists a b, hill S a b /\ (a = b \/ 2 <= a) /\ rounded_mid a b i) \/
  (exists b, start_max S b /\ rounded_mid 0 b i).
Definition reported_min (S : list Qc) (i : Z) : Prop :=
  (exists a b, valley S a b /\ (a = b \/ 2 <= a) /\ rounded_mid a b i) \/
  (exists b, start_min S b /\ rounded_mid 0 b i).


(** ** Polynomials *)
(** [p_0 + p_1 u + p_2 u^2 + ...] *)
Definition peval (p : list Qc) (u : Qc) : Qc := fold_right (fun a acc => (a + u * acc)%Qc) 0%Qc p.
Fixpoint pderiv_from (k : Qc) (p : list Qc) : list Qc :=
  match p with
  | [] => []
  | a :: p' => (k * a)%Qc :: pderiv_from (k + 1)%Qc p'
  end.
(** The derivative. *)
Definition pderiv (p : list Qc) : list Qc := pderiv_from 1%Qc (tl p).

(** The polynomials [p] on [x0, x1] and [q] on [x1, x2] form the natural cubic spline through
    (x0, y0), (x1, y1), (x2, y2). *)
Definition natural_spline (x0 x1 x2 y0 y1 y2 : Qc) (p q : list Qc) : Prop :=
  (length p <= 4)%nat /\ (length q <= 4)%nat /\
  peval p x0 = y0 /\ peval p x1 = y1 /\ peval q x1 = y1 /\ peval q x2 = y2 /\
  peval (pderiv p) x1 = peval (pderiv q) x1 /\
  peval (pderiv (pderiv p)) x1 = peval (pderiv (pderiv q)) x1 /\
  peval (pderiv (pderiv p)) x0 = 0%Qc /\ peval (pderiv (pderiv q)) x2 = 0%Qc.

(** ** Extended extrema *)
(** The instants 0, 1, ..., n-1. *)
Definition arange (n : nat) : list Qc := map (fun k => Q2Qc (inject_Z (Z.of_nat k))) (seq 0 n).

(** The points [P] (position, value) have strictly increasing positions, are at least three,
    contain the points [orig], and reach from before [first] to after [last]. *)
Definition covers (first last : Qc) (orig P : list (Qc * Qc)) : Prop :=
  increasing (map fst P) /\ (3 <= length P)%nat /\ (forall p, In p orig -> In p P) /\
  (exists p, nth_error P 0 = Some p /\ (fst p <= first)%Qc) /\
  (exists p, nth_error P (length P - 1) = Some p /\ (last <= fst p)%Qc).

(** Every point of [P] has the value of some sample [i] (taken at instant [i]) and is either
    an original extremum, or that sample reflected about [cl], not after the originals, or
    that sample reflected about [cr], not before the originals. *)
Definition reflected (S : list Qc) (cl cr : Qc) (orig : list Qc) (P : list (Qc * Qc)) : Prop :=
  forall p, In p P -> exists i, 0 <= i < Z.of_nat (length S) /\ snd p = sample S i /\
    let t := Q2Qc (inject_Z i) in
    ((fst p = t /\ In (fst p) orig) \/
     ((forall o, In o orig -> (fst p <= o)%Qc) /\ (fst p + t = cl + cl)%Qc) \/
     ((forall o, In o orig -> (o <= fst p)%Qc) /\ (fst p + t = cr + cr)%Qc)).

(** ** Parabolic extrema *)
(** Samples kept by the removal of repeated values: the first, the last, and those that differ
    from a neighbour. *)
Definition kept (S : list Qc) (i : Z) : Prop :=
  0 <= i < Z.of_nat (length S) /\
  (i = 0 \/ i = Z.of_nat (length S) - 1 \/
   ~ (sample S i = sample S (i - 1) /\ sample S i = sample S (i + 1))).
(** Three consecutive kept samples. *)
Definition kept_triple (S : list Qc) (i j k : Z) : Prop :=
  kept S i /\ kept S j /\ kept S k /\ i < j < k /\
  (forall m, kept S m -> i < m < k -> m = j).
(** The parabola [a x^2 + b x + c] passes through (x, y). *)
Definition on_parabola (a b c x y : Qc) : Prop := (y = a * x * x + b * x + c)%Qc.
Definition parabola_through (a b c : Qc) (T S : list Qc) (i j k : Z) : Prop :=
  on_parabola a b c (sample T i) (sample S i) /\ on_parabola a b c (sample T j) (sample S j) /\
  on_parabola a b c (sample T k) (sample S k).
(** [(t, v)] is the vertex of the parabola. *)
Definition is_vertex (a b c t v : Qc) : Prop :=
  ((1 + 1) * a * t + b = 0)%Qc /\ on_parabola a b c t v.
(** [t] lies between the midpoints of [x, y] and [y, z]. *)
Definition in_window (x y z t : Qc) : Prop :=
  (x + y <= t + t)%Qc /\ (t + t < y + z)%Qc.

(** ** Ensembles *)
(** The [k]-th rows of those decompositions that have more than [k] rows. *)
Definition column {A} (k : nat) (rs : list (list (list A))) : list (list A) :=
  flat_map (fun r => match nth_error r k with Some x => [x] | None => [] end) rs.
(** [v] is the pointwise mean of the rows, all of [n] samples. *)
Definition is_mean (n : nat) (rows : list (list Qc)) (v : list Qc) : Prop :=
  rows <> [] /\ length v = n /\
  forall i, (i < n)%nat -> (nth i v 0 * Q2Qc (inject_Z (Z.of_nat (length rows))) = total_at rows i)%Qc.

(** ** Which extrema are reflected, and about which instant
    The left end, when the first extremum is of the kind with indices [A] and the other kind has
    indices [B].  [inside]: the first sample lies on the inner side of the first extremum of kind
    [B].  Result: instant of symmetry and the indices to be reflected, of kind [A] and [B]. *)
Definition end_plan (nb : nat) (inside : bool) (A B : list Z) : Z * list Z * list Z :=
  let a := hd 0 A in
  if inside then
    let LA := match firstn nb (tl A) with [] => A | l => l end in
    let LB := firstn nb B in
    if (2 * a <=? last LA 0) && (2 * a <=? last LB 0) then (a, LA, LB)
    else (0, firstn nb A, LB)
  else (0, firstn nb A, 0 :: firstn (nb - 1) B).
(** The left end of signal [S] with maxima at [M] and minima at [m]: instant of symmetry,
    maxima and minima to be reflected. *)
Definition left_plan (nb : nat) (S : list Qc) (M m : list Z) : Z * list Z * list Z :=
  if hd 0 M <? hd 0 m
  then let '(c, LM, Lm) := end_plan nb (if Qclt_le_dec (sample S (hd 0 m)) (sample S 0) then true else false) M m in (c, LM, Lm)
  else let '(c, Lm, LM) := end_plan nb (if Qclt_le_dec (sample S 0) (sample S (hd 0 M)) then true else false) m M in (c, LM, Lm).
(** The right end is the left end of the signal played backwards. *)
Definition backwards (n : Z) (l : list Z) : list Z := rev (map (fun i => n - 1 - i) l).
Definition right_plan (nb : nat) (S : list Qc) (M m : list Z) : Z * list Z * list Z :=
  let n := Z.of_nat (length S) in
  let '(c, LM, Lm) := left_plan nb (rev S) (backwards n M) (backwards n m) in
  (n - 1 - c, backwards n LM, backwards n Lm).
(** The points of one kind: the extrema themselves and the reflections. *)
Definition planned (S : list Qc) (M : list Z) (cl : Z) (L : list Z) (cr : Z) (R : list Z) (p : Qc * Qc) : Prop :=
  let t i := Q2Qc (inject_Z i) in
  (exists i, In i M /\ p = (t i, sample S i)) \/
  (exists i, In i L /\ p = (t (2 * cl - i), sample S i)) \/
  (exists i, In i R /\ p = (t (2 * cr - i), sample S i)).
