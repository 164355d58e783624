(** * HeapSpec: what a caller can do with arrays, and what it means that nothing changed. *)
From Verif Require Export Heap.

Section HeapSpec.
Context {A : Type} `{Num A}.

(** [a[j] = x] on a vector, [a[i, j] = x] on a matrix: one element assignment by the caller.
    Outside the array nothing is assigned (Python raises IndexError). *)
Record write := MkWrite { target : arr; row : nat; col : nat; value : A }.

Definition put (x : cell A) (p : part) (i j : nat) (y : A) : cell A :=
  match x, p with
  | Vec v, Whole => Vec (set_nth v j y)
  | Mat Mv, Whole => Mat (set_nth Mv i (set_nth (nth i Mv []) j y))
  | Mat Mv, Head k => if Nat.ltb i k then Mat (set_nth Mv i (set_nth (nth i Mv []) j y)) else x
  | Mat Mv, Row r => Mat (set_nth Mv r (set_nth (nth r Mv []) j y))
  | _, _ => x
  end.
Definition do_write (m : mem A) (w : write) : mem A :=
  match nth_error (heap m) (base (target w)) with
  | Some x => set_cell m (base (target w)) (put x (shown (target w)) (row w) (col w) (value w))
  | None => m
  end.
(** A sequence of assignments. *)
Definition do_writes (m : mem A) (ws : list write) : mem A := fold_left do_write ws m.

(** The array exists. *)
Definition live (m : mem A) (a : arr) : Prop := (base a < length (heap m))%nat.
(** Two array objects share no memory. *)
Definition apart (a b : arr) : Prop := base a <> base b.
(** Every array that existed in [m] shows the same in [m']. *)
Definition untouched (m m' : mem A) : Prop := forall a, live m a -> contents m' a = contents m a.
(** The array was created between [m] and [m']. *)
Definition created (m m' : mem A) (a : arr) : Prop := ~ live m a /\ live m' a.

(** What the optional argument T shows. *)
Definition shows (m : mem A) (a : option arr) (v : option (list A)) : Prop :=
  match a, v with
  | Some a, Some v => contents m a = Some (Vec v)
  | None, None => True
  | _, _ => False
  end.

(** Everything a program can do afterwards: decompose any array, ask for the stored results,
    assign elements. *)
Inductive operation :=
| Decompose (convS convT : bool) (S : arr) (T : option arr) (max_imf : Z)
| AskResidue
| AskTrend
| Assign (w : write).
Definition perform (spl : spline_oracle A) (fuel : nat) (c : emd_config A) (m : mem A) (o : operation)
  : mem A :=
  match o with
  | Decompose cS cT x T k => snd (emd_h spl fuel c cS cT x T k m)
  | AskResidue => snd (imfs_and_residue_h m)
  | AskTrend => snd (imfs_and_trend_h m)
  | Assign w => do_write m w
  end.
Definition assigns_into (a : arr) (o : operation) : Prop :=
  match o with Assign w => base (target w) = base a | _ => False end.
End HeapSpec.
Arguments write A : clear implicits.
Arguments operation A : clear implicits.
