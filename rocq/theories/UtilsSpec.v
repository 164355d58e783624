(** * UtilsSpec: which numbers a NumPy type can hold. *)
From Verif Require Import Utils.
From Coq Require Import QArith Qpower Qabs.
Open Scope Z_scope.

(** Exponent of the smallest subnormal, and the exponent bound of a floating type. *)
Definition exponents (bits : Z) : Z * Z :=
  if bits =? 16 then (-24, 5) else if bits =? 32 then (-149, 104) else (-1074, 971).
(** The rational [q] is exactly a finite value of type [d]. *)
Definition holds (d : dtype) (q : Q) : Prop :=
  match kind d with
  | Signed b => exists z, q == inject_Z z /\ - 2 ^ (b - 1) <= z <= 2 ^ (b - 1) - 1
  | Unsigned b => exists z, q == inject_Z z /\ 0 <= z <= 2 ^ b - 1
  | Floating b p => exists m e, q == inject_Z m * Qpower 2 e /\ Z.abs m < 2 ^ p /\
                      fst (exponents b) <= e <= snd (exponents b)
  | NoKind => False
  end.
(** Size of a value in bits. *)
Definition bits (d : dtype) : Z :=
  match kind d with Signed b | Unsigned b | Floating b _ => b | NoKind => 0 end.
Definition is_integer (d : dtype) : Prop := match kind d with Signed _ | Unsigned _ => True | _ => False end.
Definition is_floating (d : dtype) : Prop := match kind d with Floating _ _ => True | _ => False end.
(** [l] is 0, 1, ..., n-1. *)
Definition counts (n : nat) (l : list (option Z)) : Prop :=
  length l = n /\ forall i, (i < n)%nat -> nth_error l i = Some (Some (Z.of_nat i)).
(** [x != k] is never true of equal numbers; for integers it is true of different ones. *)
Definition comparison_ok (differs : dtype -> option Z -> Z -> bool) : Prop :=
  (forall d k, differs d (Some k) k = false) /\
  (forall d z k, is_integer d -> z <> k -> differs d (Some z) k = true).
(** Values that a conversion between 64-bit integers and doubles may lose. *)
Definition wide (d : dtype) : Prop := kind d = Signed 64 \/ kind d = Unsigned 64.
(** Bits of precision of a floating type: 11, 24, 53. *)
Definition precision (d : dtype) : Z := match kind d with Floating _ p => p | _ => 0 end.

(** Conversion keeps every number the new type can hold. *)
Definition cast_ok (cast : dtype -> Q -> Q) : Prop := forall d q, holds d q -> cast d q == q.
(** [q] survives a conversion from [x] to [d]: 64-bit integers fit a double only up to 2^53. *)
Definition convertible (x d : dtype) (q : Q) : Prop := wide x -> is_floating d -> (Qabs.Qabs q <= inject_Z (2 ^ 53))%Q.
