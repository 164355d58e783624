(** * Py: the fragment of Python / NumPy semantics the models use.

    NumPy itself is not part of /repo; the definitions below state how the model reads
    the NumPy expressions that occur in it.  They are part of the trusted base.
    One-dimensional arrays are lists, two-dimensional arrays are lists of rows. *)
From Verif Require Export Num.

(** ** Exceptions as values *)
Inductive exn :=
| IndexError | ValueError | AssertionError | TypeError | KeyError | LinAlgError
| ZeroDivisionError | OverflowError | AttributeError
| LeftEdgeBug      (** [raise Exception("Left edge BUG")],  EMD.py:417 *)
| RightEdgeBug     (** [raise Exception("Right edge BUG")], EMD.py:430 *)
| BrokenSpline     (** an interpolation routine outside /repo raised *)
| OutOfFuel.       (** the model's loop fuel ran out: not a Python exception *)

Inductive res (A : Type) :=
| Ok (a : A)
| Raise (e : exn).
Arguments Ok {A} a.
Arguments Raise {A} e.

Definition bind {A B} (x : res A) (f : A -> res B) : res B :=
  match x with Ok a => f a | Raise e => Raise e end.
Notation "'let!' p ':=' x 'in' b" := (bind x (fun p => b))
  (at level 200, p pattern, x at level 100, b at level 200, right associativity).

Fixpoint mapM {A B} (f : A -> res B) (l : list A) : res (list B) :=
  match l with
  | [] => Ok []
  | x :: l' => let! y := f x in let! ys := mapM f l' in Ok (y :: ys)
  end.

Definition is_ok {A} (x : res A) : bool := match x with Ok _ => true | _ => false end.

(** ** Lists as arrays *)
Definition zlen {A} (l : list A) : Z := Z.of_nat (length l).

Fixpoint map2 {A B C} (f : A -> B -> C) (l : list A) (m : list B) : list C :=
  match l, m with
  | x :: l', y :: m' => f x y :: map2 f l' m'
  | _, _ => []
  end.

Fixpoint map3 {A B C D} (f : A -> B -> C -> D) (l : list A) (m : list B) (n : list C) : list D :=
  match l, m, n with
  | x :: l', y :: m', z :: n' => f x y z :: map3 f l' m' n'
  | _, _, _ => []
  end.

(** Scalar indexing [a[i]] with Python's negative indices. *)
Definition py_get {A} (l : list A) (i : Z) : res A :=
  let j := if i <? 0 then i + zlen l else i in
  if j <? 0 then Raise IndexError
  else match nth_error l (Z.to_nat j) with
       | Some x => Ok x
       | None => Raise IndexError
       end.

(** Fancy indexing [a[idx]] with an integer index array. *)
Definition py_take {A} (l : list A) (idx : list Z) : res (list A) := mapM (py_get l) idx.

(** Basic slicing [a[lo:hi]]: out-of-range bounds are clipped, negative ones count
    from the end. *)
Definition clip_bound (n i : Z) : Z :=
  let j := if i <? 0 then i + n else i in Z.max 0 (Z.min n j).
Definition py_slice {A} (l : list A) (lo hi : Z) : list A :=
  let n := zlen l in
  let a := clip_bound n lo in
  let b := clip_bound n hi in
  firstn (Z.to_nat (b - a)) (skipn (Z.to_nat a) l).
(** [a[lo:]] *)
Definition py_from {A} (l : list A) (lo : Z) : list A :=
  skipn (Z.to_nat (clip_bound (zlen l) lo)) l.

(** Boolean mask selection [a[mask]]. *)
Fixpoint mask {A} (l : list A) (m : list bool) : list A :=
  match l, m with
  | x :: l', b :: m' => if b then x :: mask l' m' else mask l' m'
  | _, _ => []
  end.

(** [np.nonzero(m)[0]] of a boolean array: positions of [true]. *)
Fixpoint nonzero_from (k : Z) (m : list bool) : list Z :=
  match m with
  | [] => []
  | b :: m' => if b then k :: nonzero_from (k + 1) m' else nonzero_from (k + 1) m'
  end.
Definition nonzero (m : list bool) : list Z := nonzero_from 0 m.

(** [np.arange(n)] / [range(n)], and [np.arange(lo, hi)]. *)
Fixpoint zseq (lo : Z) (n : nat) : list Z :=
  match n with O => [] | S n' => lo :: zseq (lo + 1) n' end.
Definition zrange (lo hi : Z) : list Z := zseq lo (Z.to_nat (hi - lo)).

(** [np.diff] *)
Definition adj {A B} (f : A -> A -> B) (l : list A) : list B := map2 f l (tl l).
Definition zdiff (l : list Z) : list Z := adj (fun a b => b - a) l.
Definition ndiff {A} `{Num A} (l : list A) : list A := adj (fun a b => nsub b a) l.

Definition b2z (b : bool) : Z := if b then 1 else 0.

(** [np.sort] on integers. *)
Fixpoint zinsert (x : Z) (l : list Z) : list Z :=
  match l with
  | [] => [x]
  | y :: l' => if x <=? y then x :: l else y :: zinsert x l'
  end.
Definition zsort (l : list Z) : list Z := fold_right zinsert [] l.

(** [np.round(s / 2.0)] for an integer [s]: IEEE round half to even. *)
Definition round_half (s : Z) : Z :=
  if Z.even s then s / 2
  else let k := s / 2 in if Z.even k then k else k + 1.

(** NaN is the only value that is not at most itself. *)
Definition not_a_number {A} `{Num A} (x : A) : bool := negb (nleb x x).
(** [np.max(l)] and the minima: ValueError on the empty sequence, NaN if there is one. *)
Definition np_max {A} `{Num A} (l : list A) : res A :=
  match l with
  | [] => Raise ValueError
  | x :: l' => Ok (match find not_a_number l with
                   | Some v => v
                   | None => fold_left (fun m y => if nltb m y then y else m) l' x
                   end)
  end.
Definition np_min {A} `{Num A} (l : list A) : res A :=
  match l with
  | [] => Raise ValueError
  | x :: l' => Ok (match find not_a_number l with
                   | Some v => v
                   | None => fold_left (fun m y => if nltb y m then y else m) l' x
                   end)
  end.

(** Pointwise arithmetic on arrays of equal length (by construction at the call site). *)
Definition vadd {A} `{Num A} : list A -> list A -> list A := map2 nadd.
Definition vsub {A} `{Num A} : list A -> list A -> list A := map2 nsub.
Definition vscale {A} `{Num A} (c : A) (v : list A) : list A := map (nmul c) v.
Definition vzeros {A} `{Num A} (n : nat) : list A := repeat n0 n.

(** [np.sum(v)]: left-to-right (NumPy's pairwise summation order is not modelled). *)
Definition nsum {A} `{Num A} (l : list A) : A := fold_left nadd l n0.

(** [np.sum(M, axis=0)] of a (k, n) array: row-by-row accumulation. *)
Definition sum_rows {A} `{Num A} (n : nat) (M : list (list A)) : list A :=
  fold_left vadd M (vzeros n).

(** NumPy broadcasting of a binary operation on two 1-d arrays: equal lengths, or one
    of them of length one; otherwise ValueError. *)
Definition broadcast2 {A B C} (f : A -> B -> C) (x : list A) (y : list B) : res (list C) :=
  if Nat.eqb (length x) (length y) then Ok (map2 f x y)
  else match x, y with
       | [a], _ => Ok (map (f a) y)
       | _, [b] => Ok (map (fun a => f a b) x)
       | _, _ => Raise ValueError
       end.

(** [dst[:] = src] with [dst] of length [n]: same length, or a length-one source. *)
Definition assign_all {A} (n : nat) (src : list A) : res (list A) :=
  if Nat.eqb n (length src) then Ok src
  else match src with
       | [a] => Ok (repeat a n)
       | _ => Raise ValueError
       end.

(** [np.allclose(v, 0)]: |v - 0| <= atol + rtol * |0| with atol = 1e-8. *)
Definition allclose0 {A} `{Num A} (v : list A) : bool :=
  forallb (fun x => nleb (nabs x) (nlit 1 (10 ^ 8))) v.
