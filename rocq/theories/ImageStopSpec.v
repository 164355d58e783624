(** * ImageStopSpec: vocabulary for the stopping rules of the image decompositions. *)
From Verif Require Import Spec ImageSpec.
From Coq Require Import ZArith List QArith Qcanon.
Import ListNotations.

(** The absolute value and the average grey level. *)
Definition size (x : Qc) : Qc := if Qclt_le_dec x 0 then (- x)%Qc else x.
Definition average (x : list (list Qc)) : Qc :=
  (fold_right Qcplus 0%Qc (concat x) / Q2Qc (inject_Z (Z.of_nat (length (concat x)))))%Qc.

(** One sift: the image before it, the mean of the envelopes, and the image after it. *)
Record sift := MkSift { pre : list (list Qc); mean : list (list Qc); post : list (list Qc) }.

(** The tests a sift is put to: the mean is nearly flat, the sift changed nearly nothing (within
    [rtol] of each pixel), the image is nearly dark, and its mean square is small. *)
Definition flat_mean (n m : nat) (thr : Qc) (s : sift) : Prop :=
  forall i j, (i < n)%nat -> (j < m)%nat -> (size (pixel (mean s) i j - average (mean s)) < thr)%Qc.
Definition little_change (n m : nat) (rtol : Qc) (s : sift) : Prop :=
  forall i j, (i < n)%nat -> (j < m)%nat ->
    (size (pixel (post s) i j - pixel (pre s) i j) <= tol + rtol * size (pixel (pre s) i j))%Qc.
Definition nearly_dark (thr : Qc) (s : sift) : Prop := (average (map (map size) (post s)) < thr)%Qc.
Definition small_square (thr : Qc) (s : sift) : Prop :=
  (average (map (map (fun v => v * v)%Qc) (post s)) < thr)%Qc.
(** EMD2D accepts if any of the four tests is passed; BEMD has the first three, with a coarser
    second one. *)
Definition settled_2d (n m : nat) (mean_thr mse_thr : Qc) (s : sift) : Prop :=
  flat_mean n m mean_thr s \/ little_change n m (Q2Qc (1 # 100000)) s \/ nearly_dark mean_thr s \/ small_square mse_thr s.
Definition settled_bi (n m : nat) (mean_thr : Qc) (s : sift) : Prop :=
  flat_mean n m mean_thr s \/ little_change n m (Q2Qc (1 # 100)) s \/ nearly_dark mean_thr s.

(** The sifts that lead from [x] to [z]: textbook sifting, and the sifting of EMD2D, which
    subtracts the mean of the previous sift [e0] first. *)
Inductive sifting (n m : nat) (enough : list (list Qc) -> Prop)
    (envelopes : list (list Qc) -> list (list Qc) -> list (list Qc) -> Prop)
  : list (list Qc) -> list sift -> list (list Qc) -> Prop :=
| sifting_none x : sifting n m enough envelopes x [] x
| sifting_more x lower upper e y l z :
    enough x -> envelopes x lower upper -> midway n m lower upper e -> minus n m x e y ->
    sifting n m enough envelopes y l z -> sifting n m enough envelopes x (MkSift x e y :: l) z.
Inductive over_sifting (n m : nat) (enough : list (list Qc) -> Prop)
    (envelopes : list (list Qc) -> list (list Qc) -> list (list Qc) -> Prop)
  : list (list Qc) -> list (list Qc) -> list sift -> list (list Qc) -> Prop :=
| os_none x e0 : over_sifting n m enough envelopes x e0 [] x
| os_more x e0 x' lower upper e y l z :
    enough x -> minus n m x e0 x' -> envelopes x' lower upper -> midway n m lower upper e -> minus n m x' e y ->
    over_sifting n m enough envelopes y e l z -> over_sifting n m enough envelopes x e0 (MkSift x' e y :: l) z.

(** The last sift is settled; the last [h] sifts are, and there was one more before them. *)
Definition settled_now (settled : sift -> Prop) (l : list sift) : Prop :=
  exists earlier s, l = earlier ++ [s] /\ settled s.
Definition settled_for (settled : sift -> Prop) (h : nat) (l : list sift) : Prop :=
  exists earlier last, l = earlier ++ last /\ earlier <> [] /\ length last = h /\ Forall settled last.
(** The sifts [l] end as soon as [rule] holds, and not before, unless [exhausted]. *)
Definition stops_by (rule : list sift -> Prop) (exhausted : Prop) (l : list sift) : Prop :=
  (forall earlier later, l = earlier ++ later -> later <> [] -> ~ rule earlier) /\
  (rule l \/ exhausted).
