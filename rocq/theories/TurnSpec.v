(** * TurnSpec: images turned upside down, mirrored left to right, rotated by half a turn, or transposed. *)
From Verif Require Import Spec ImageSpec Image.
From Coq Require Import ZArith List Arith QArith Qcanon Permutation.
Import ListNotations.

Inductive turning := UpsideDown | LeftRight | HalfTurn | Transposed.
(** Where the pixel at row [fst p], column [snd p] of an image of [n] rows and [m] columns goes, and the
    numbers of rows and columns of the turned image. *)
Definition place (t : turning) (n m : nat) (p : nat * nat) : nat * nat :=
  match t with
  | UpsideDown => (n - 1 - fst p, snd p)
  | LeftRight => (fst p, m - 1 - snd p)
  | HalfTurn => (n - 1 - fst p, m - 1 - snd p)
  | Transposed => (snd p, fst p)
  end%nat.
Definition tall (t : turning) (n m : nat) : nat := match t with Transposed => m | _ => n end.
Definition wide (t : turning) (n m : nat) : nat := match t with Transposed => n | _ => m end.
(** [y] is [x] turned. *)
Definition turned (t : turning) (n m : nat) (x y : list (list Qc)) : Prop :=
  rect n m x /\ rect (tall t n m) (wide t n m) y /\
  forall i j, (i < n)%nat -> (j < m)%nat -> pixel y (fst (place t n m (i, j))) (snd (place t n m (i, j))) = pixel x i j.
(** Both raise the same exception, or both return and the results are related. *)
Definition alike {X Y} (R : X -> Y -> Prop) (a : res X) (b : res Y) : Prop :=
  match a, b with Ok x, Ok y => R x y | Raise e, Raise f => e = f | _, _ => False end.

(** A surface fit that favours no direction: given the turned points of a tiled image, in any order,
    its middle tile is the turned one. *)
Definition fair_surface (t : turning) (fit : list (nat * nat) -> list Qc -> list nat -> list nat -> res (list (list Qc))) : Prop :=
  forall n m ps vs ps' vs', (0 < n)%nat -> (0 < m)%nat -> length ps = length vs -> length ps' = length vs' ->
  (forall p, In p ps -> (fst p < 3 * n /\ snd p < 3 * m)%nat) ->
  Permutation (combine ps' vs') (combine (map (place t (3 * n) (3 * m)) ps) vs) ->
  alike (turned t n m) (fit ps vs (seq n n) (seq m m))
    (fit ps' vs' (seq (tall t n m) (tall t n m)) (seq (wide t n m) (wide t n m))).

(** The same for BEMD's surface fit to a square image, which gets its points as (column, row). *)
Definition fair_rbf (t : turning) (fit : list (nat * nat) -> list Qc -> nat -> nat -> res (list (list Qc))) : Prop :=
  forall n ps vs ps' vs', (0 < n)%nat -> length ps = length vs -> length ps' = length vs' ->
  (forall p, In p ps -> (fst p < n /\ snd p < n)%nat) ->
  Permutation (combine ps' vs') (combine (map (fun p => swap (place t n n (swap p))) ps) vs) ->
  alike (turned t n n) (fit ps vs n n) (fit ps' vs' n n).
