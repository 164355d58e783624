(** * Num: the arithmetic the model is parametric in.

    PyEMD computes with NumPy floating point arrays.  Every model function of this
    development is written once, over an abstract arithmetic [Num A], and then used at
      - [Qc], exact rational arithmetic (what the algorithms mean, no rounding), and
      - IEEE-754 binary64 (file Float64.v), what NumPy's default dtype computes.
    Control-flow and shape theorems are proved for every [Num A]; algebraic theorems
    are proved at [Qc]; findings about rounding are computed at binary64. *)
From Coq Require Export ZArith List Bool Lia.
From Coq Require Import QArith Qcanon Qround.
Export ListNotations.
Open Scope Z_scope.

(** Arithmetic operations used by the code.  [nofZ] is the conversion of a Python
    integer literal, [ntrunc] is [ndarray.astype(int)] (truncation toward zero).
    The comparisons are the boolean comparisons of NumPy (all false on NaN). *)
Class Num (A : Type) := MkNum {
  nadd : A -> A -> A;
  nsub : A -> A -> A;
  nmul : A -> A -> A;
  ndiv : A -> A -> A;
  nopp : A -> A;
  nabs : A -> A;
  nltb : A -> A -> bool;
  nleb : A -> A -> bool;
  neqb : A -> A -> bool;
  nofZ : Z -> A;
  ntrunc : A -> Z
}.

(** A decimal literal such as [1e-8] is written [nlit 1 (10^8)]: exact in [Qc], and
    the correctly rounded double in binary64 as long as both integers are below 2^53. *)
Definition nlit {A} `{Num A} (p q : Z) : A := ndiv (nofZ p) (nofZ q).

Definition n0 {A} `{Num A} : A := nofZ 0.
Definition n1 {A} `{Num A} : A := nofZ 1.
Definition n2 {A} `{Num A} : A := nofZ 2.
Definition nhalf {A} `{Num A} : A := nlit 1 2.

(** Exact rationals.  [Qc] has Leibniz equality and computes. *)
Definition Qc_ltb (x y : Qc) : bool :=
  match (this x ?= this y)%Q with Lt => true | _ => false end.
Definition Qc_leb (x y : Qc) : bool :=
  match (this x ?= this y)%Q with Gt => false | _ => true end.
Definition Qc_eqb (x y : Qc) : bool :=
  match (this x ?= this y)%Q with Eq => true | _ => false end.
Definition Qc_ofZ (z : Z) : Qc := Q2Qc (inject_Z z).
Definition Qc_abs (x : Qc) : Qc := if Qc_ltb x 0%Qc then Qcopp x else x.
Definition Qc_trunc (x : Qc) : Z := Z.quot (Qnum (this x)) (Z.pos (Qden (this x))).

#[global] Instance QcNum : Num Qc := {|
  nadd := Qcplus; nsub := Qcminus; nmul := Qcmult; ndiv := Qcdiv;
  nopp := Qcopp; nabs := Qc_abs;
  nltb := Qc_ltb; nleb := Qc_leb; neqb := Qc_eqb;
  nofZ := Qc_ofZ; ntrunc := Qc_trunc
|}.
