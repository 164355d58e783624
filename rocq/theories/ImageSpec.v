(** * ImageSpec: vocabulary for images. *)
From Verif Require Import Spec.
From Coq Require Import ZArith List QArith Qcanon Sorting.Sorted.
Import ListNotations.

(** An image of [n] rows and [m] columns, and its pixel in row [i], column [j]. *)
Definition rect (n m : nat) (x : list (list Qc)) : Prop :=
  length x = n /\ Forall (fun r => length r = m) x.
Definition pixel (x : list (list Qc)) (i j : nat) : Qc := nth j (nth i x []) 0%Qc.
Definition same_pixels (n m : nat) (x y : list (list Qc)) : Prop :=
  forall i j, (i < n)%nat -> (j < m)%nat -> pixel x i j = pixel y i j.

(** The coordinate in [0, n) that coordinate [i] in [0, 3n) is the mirror image of: the line of
    3n points is the original in the middle and its reflections on both sides. *)
Definition mirrored (n i : nat) : nat :=
  (if i <? n then n - 1 - i else if i <? 2 * n then i - n else 3 * n - 1 - i)%nat.

(** The pixel at (i, j) is not on the border and none of its eight neighbours is larger
    (smaller). *)
Definition interior (n m i j : nat) : Prop := (0 < i /\ i + 1 < n /\ 0 < j /\ j + 1 < m)%nat.
Definition neighbour (i j a b : nat) : Prop :=
  (i <= a + 1 /\ a <= i + 1 /\ j <= b + 1 /\ b <= j + 1)%nat.
Definition local_max (n m : nat) (x : list (list Qc)) (i j : nat) : Prop :=
  interior n m i j /\ forall a b, neighbour i j a b -> (pixel x a b <= pixel x i j)%Qc.
Definition local_min (n m : nat) (x : list (list Qc)) (i j : nat) : Prop :=
  interior n m i j /\ forall a b, neighbour i j a b -> (pixel x i j <= pixel x a b)%Qc.
(** Reading order: row by row, left to right. *)
Definition before (p q : nat * nat) : Prop :=
  (fst p < fst q \/ (fst p = fst q /\ snd p < snd q))%nat.

(** Sum of the pixels at (i, j) of several images. *)
Definition stack_sum (rows : list (list (list Qc))) (i j : nat) : Qc :=
  fold_right Qcplus 0%Qc (map (fun r => pixel r i j) rows).

(** [lo] and [hi] are the smallest and the largest pixel. *)
Definition darkest (n m : nat) (x : list (list Qc)) (lo : Qc) : Prop :=
  (exists i j, (i < n /\ j < m)%nat /\ pixel x i j = lo) /\
  forall i j, (i < n)%nat -> (j < m)%nat -> (lo <= pixel x i j)%Qc.
Definition brightest (n m : nat) (x : list (list Qc)) (hi : Qc) : Prop :=
  (exists i j, (i < n /\ j < m)%nat /\ pixel x i j = hi) /\
  forall i j, (i < n)%nat -> (j < m)%nat -> (pixel x i j <= hi)%Qc.

(** [y] is [x] minus [e] (pixel by pixel, all of one shape). *)
Definition minus (n m : nat) (x e y : list (list Qc)) : Prop :=
  rect n m y /\ forall i j, (i < n)%nat -> (j < m)%nat -> pixel y i j = (pixel x i j - pixel e i j)%Qc.
(** [e] is halfway between [a] and [b]. *)
Definition midway (n m : nat) (a b e : list (list Qc)) : Prop :=
  rect n m e /\ forall i j, (i < n)%nat -> (j < m)%nat ->
    pixel e i j = ((pixel a i j + pixel b i j) * Q2Qc (1 # 2))%Qc.

(** At least [k] different pixels satisfy [P]. *)
Definition at_least (k : nat) (P : nat -> nat -> Prop) : Prop :=
  exists ps, NoDup ps /\ (k <= length ps)%nat /\ forall i j, In (i, j) ps -> P i j.

(** [k] sifts: as long as the image has enough extrema, subtract the mean of the lower and the
    upper envelope. *)
Inductive sifted (n m : nat) (enough : list (list Qc) -> Prop)
    (envelopes : list (list Qc) -> list (list Qc) -> list (list Qc) -> Prop)
  : nat -> list (list Qc) -> list (list Qc) -> Prop :=
| sifted_none x : sifted n m enough envelopes 0 x x
| sifted_more k x lower upper e y z :
    enough x -> envelopes x lower upper -> midway n m lower upper e -> minus n m x e y ->
    sifted n m enough envelopes k y z -> sifted n m enough envelopes (S k) x z.

(** What EMD2D does instead: every sift first subtracts the mean of the previous sift once
    more. *)
Inductive over_sifted (n m : nat) (enough : list (list Qc) -> Prop)
    (envelopes : list (list Qc) -> list (list Qc) -> list (list Qc) -> Prop)
  : nat -> list (list Qc) -> list (list Qc) -> list (list Qc) -> Prop :=
| over_none x e0 : over_sifted n m enough envelopes 0 x e0 x
| over_more k x e0 x' lower upper e y z :
    enough x -> minus n m x e0 x' -> envelopes x' lower upper -> midway n m lower upper e -> minus n m x' e y ->
    over_sifted n m enough envelopes k y e z -> over_sifted n m enough envelopes (S k) x e0 z.

(** [comps] are peeled off [x] one after another: each is obtained by [step] from what the ones
    before it leave of [x]. *)
Definition peeled (n m : nat) (step : list (list Qc) -> list (list Qc) -> Prop)
    (x : list (list Qc)) (comps : list (list (list Qc))) : Prop :=
  forall l c r, comps = l ++ c :: r ->
    exists rest, rect n m rest /\
      (forall i j, (i < n)%nat -> (j < m)%nat -> pixel rest i j = (pixel x i j - stack_sum l i j)%Qc) /\
      step rest c.

(** Morphological reconstruction by dilation of [s] under [x] (skimage): the smallest image that
    is not below [s] and that grows into every neighbouring pixel as far as [x] allows. *)
Definition grown (n m : nat) (s x r : list (list Qc)) : Prop :=
  rect n m r /\
  (forall i j, (i < n)%nat -> (j < m)%nat -> (pixel s i j <= pixel r i j)%Qc) /\
  (forall i j a b, (i < n)%nat -> (j < m)%nat -> (a < n)%nat -> (b < m)%nat -> neighbour i j a b ->
     (pixel x i j <= pixel r i j)%Qc \/ (pixel r a b <= pixel r i j)%Qc).
Definition reconstructed (n m : nat) (s x r : list (list Qc)) : Prop :=
  grown n m s x r /\
  forall r', grown n m s x r' -> forall i j, (i < n)%nat -> (j < m)%nat -> (pixel r i j <= pixel r' i j)%Qc.

Definition self_transposed (n : nat) (x : list (list Qc)) : Prop :=
  forall i j, (i < n)%nat -> (j < n)%nat -> pixel x i j = pixel x j i.

(** The image surrounded by its mirror images. *)
Definition tiled (n m : nat) (x t : list (list Qc)) : Prop :=
  rect (3 * n) (3 * m) t /\
  forall i j, (i < 3 * n)%nat -> (j < 3 * m)%nat -> pixel t i j = pixel x (mirrored n i) (mirrored m j).
(** [ps] lists the pixels that satisfy [P], each once, in reading order. *)
Definition listed (P : nat -> nat -> Prop) (ps : list (nat * nat)) : Prop :=
  StronglySorted before ps /\ forall i j, In (i, j) ps <-> P i j.
(** The envelopes of EMD2D: surfaces fitted to all local minima and to all local maxima of the
    tiled image. *)
Definition envelopes_2d (n m : nat) (fit : list (nat * nat) -> list Qc -> list (list Qc) -> Prop)
    (x lower upper : list (list Qc)) : Prop :=
  exists t mins maxs, tiled n m x t /\
    listed (local_min (3 * n) (3 * m) t) mins /\ listed (local_max (3 * n) (3 * m) t) maxs /\
    fit mins (map (fun p => pixel t (fst p) (snd p)) mins) lower /\
    fit maxs (map (fun p => pixel t (fst p) (snd p)) maxs) upper.

(** A walk from pixel to neighbouring pixel that never goes below level [a]. *)
Inductive walk (n m : nat) (x : list (list Qc)) (a : Qc) : nat -> nat -> nat -> nat -> Prop :=
| walk_stay i j : (i < n)%nat -> (j < m)%nat -> (a <= pixel x i j)%Qc -> walk n m x a i j i j
| walk_step i j i' j' k l : (i < n)%nat -> (j < m)%nat -> (a <= pixel x i j)%Qc ->
    neighbour i j i' j' -> walk n m x a i' j' k l -> walk n m x a i j k l.
(** A pixel from which no pixel at least 1 brighter can be reached without going down. *)
Definition prominent (n m : nat) (x : list (list Qc)) (i j : nat) : Prop :=
  (i < n)%nat /\ (j < m)%nat /\
  ~ exists k l, walk n m x (pixel x i j) i j k l /\ (pixel x i j + 1 <= pixel x k l)%Qc.
Definition dimmed (x : list (list Qc)) : list (list Qc) := map (map (fun v => (v - 1)%Qc)) x.
Definition negative (x : list (list Qc)) : list (list Qc) := map (map Qcopp) x.
Definition swap (p : nat * nat) : nat * nat := (snd p, fst p).

(** EMD2D sifts as long as there are five minima and five maxima, BEMD as long as there are two
    of each. *)
Definition five_each (n m : nat) (x : list (list Qc)) : Prop :=
  at_least 5 (local_min n m x) /\ at_least 5 (local_max n m x).
Definition two_prominent (n m : nat) (x : list (list Qc)) : Prop :=
  at_least 2 (prominent n m (negative x)) /\ at_least 2 (prominent n m x).
(** The envelopes of BEMD: surfaces fitted to the prominent minima and maxima.  The fit gets the
    positions as (column, row) and the values that [read] finds. *)
Definition envelopes_bi (n m : nat) (read : list (list Qc) -> nat * nat -> Qc)
    (fit : list (nat * nat) -> list Qc -> list (list Qc) -> Prop) (x lower upper : list (list Qc)) : Prop :=
  exists mins maxs, listed (prominent n m (negative x)) mins /\ listed (prominent n m x) maxs /\
    fit (map swap mins) (map (read x) mins) lower /\ fit (map swap maxs) (map (read x) maxs) upper.
Definition at_pixel (x : list (list Qc)) (p : nat * nat) : Qc := pixel x (fst p) (snd p).
Definition at_transposed (x : list (list Qc)) (p : nat * nat) : Qc := pixel x (snd p) (fst p).

(** [xs] is [x] with its grey levels mapped linearly from [lo, hi] to [0, 1]. *)
Definition normalised (n m : nat) (lo hi : Qc) (x xs : list (list Qc)) : Prop :=
  rect n m xs /\ forall i j, (i < n)%nat -> (j < m)%nat -> (pixel xs i j * (hi - lo) + lo = pixel x i j)%Qc.
Definition blank (n m : nat) (x : list (list Qc)) : Prop :=
  rect n m x /\ forall i j, (i < n)%nat -> (j < m)%nat -> pixel x i j = 0%Qc.
