(** * Utils: model of /repo/PyEMD/utils.py: timelines and common types. *)
From Verif Require Export Py.
From Coq Require QArith.

(** ** NumPy's numeric types (complex, boolean and extended types are not modelled) *)
Inductive dtype :=
| Int8 | Int16 | Int32 | Int64 | UInt8 | UInt16 | UInt32 | UInt64
| Float16 | Float32 | Float64
| OtherType.          (** neither integer nor floating *)

Definition dtype_eqb (x y : dtype) : bool :=
  match x, y with
  | Int8, Int8 | Int16, Int16 | Int32, Int32 | Int64, Int64
  | UInt8, UInt8 | UInt16, UInt16 | UInt32, UInt32 | UInt64, UInt64
  | Float16, Float16 | Float32, Float32 | Float64, Float64 | OtherType, OtherType => true
  | _, _ => false
  end.
Inductive kind_of_type := Signed (bits : Z) | Unsigned (bits : Z) | Floating (bits precision : Z) | NoKind.
Definition kind (d : dtype) : kind_of_type :=
  match d with
  | Int8 => Signed 8 | Int16 => Signed 16 | Int32 => Signed 32 | Int64 => Signed 64
  | UInt8 => Unsigned 8 | UInt16 => Unsigned 16 | UInt32 => Unsigned 32 | UInt64 => Unsigned 64
  | Float16 => Floating 16 11 | Float32 => Floating 32 24 | Float64 => Floating 64 53
  | OtherType => NoKind
  end.

(** Conversion of a C integer to a floating type of [p] bits precision: to nearest, ties to even. *)
Definition round_bits (p i : Z) : Z :=
  if Z.abs i <? 2 ^ p then i
  else
    let u := 2 ^ (Z.log2 (Z.abs i) + 1 - p) in
    let q := i / u in
    let r := i mod u in
    if 2 * r <? u then q * u
    else if u <? 2 * r then (q + 1) * u
    else if Z.even q then q * u else (q + 1) * u.

(** Largest finite value, [np.iinfo(dtype).max] and [np.finfo(dtype).max] (integral numbers). *)
Definition largest_of (d : dtype) : Z :=
  match kind d with
  | Signed b => 2 ^ (b - 1) - 1
  | Unsigned b => 2 ^ b - 1
  | Floating 16 _ => 65504
  | Floating 32 _ => 2 ^ 128 - 2 ^ 104
  | Floating _ _ => 2 ^ 1024 - 2 ^ 971
  | NoKind => 0
  end.

(** A stored number: [None] is infinity. *)
Definition store (d : dtype) (i : Z) : option Z :=
  match kind d with
  | Signed b => Some ((i + 2 ^ (b - 1)) mod 2 ^ b - 2 ^ (b - 1))
  | Unsigned b => Some (i mod 2 ^ b)
  | Floating _ p => let r := round_bits p i in if r <=? largest_of d then Some r else None
  | NoKind => Some i
  end.

(** [np.arange(0, n, dtype=d)]: the i-th element is [i] in type [d]; integers wrap around. *)
Definition np_arange (n : nat) (d : dtype) : list (option Z) := map (store d) (zseq 0 n).

(** smallest_inclusive_dtype, utils.py:30-58. *)
Fixpoint first_above (ds : list dtype) (v : Z) : res dtype :=
  match ds with
  | [] => Raise ValueError
  | d :: ds' => if v <? largest_of d then Ok d else first_above ds' v
  end.
Definition smallest_inclusive_dtype (d : dtype) (v : Z) : res dtype :=
  match kind d with
  | Signed _ | Unsigned _ => first_above [UInt16; UInt32; UInt64] v
  | Floating _ _ => first_above [Float16; Float32; Float64] v
  | NoKind => Raise ValueError
  end.

(** get_timeline, utils.py:12-27.  [differs d x k]: NumPy's [x != k] of an element [x] of type
    [d] and a Python int [k].  For floating types NumPy 1 compares exactly and NumPy 2 rounds [k]
    first; hence a parameter.  [dtype=None] gives int64. *)
Definition get_timeline (differs : dtype -> option Z -> Z -> bool) (n : nat) (d : option dtype)
  : res (dtype * list (option Z)) :=
  let d := match d with Some d => d | None => Int64 end in
  let timeline := np_arange n d in
  let! last := py_get timeline (-1) in
  if differs d last (Z.of_nat n - 1) then
    let! d' := smallest_inclusive_dtype d (Z.of_nat n) in
    Ok (d', np_arange n d')
  else Ok (d, timeline).

(** ** deduce_common_type, utils.py:62-69.
    [np.promote_types] (NumPy 2) and [np.find_common_type(.., [])] (NumPy 1). *)
Definition signed_of (b : Z) : dtype :=
  if b <=? 8 then Int8 else if b <=? 16 then Int16 else if b <=? 32 then Int32 else Int64.
Definition unsigned_of (b : Z) : dtype :=
  if b <=? 8 then UInt8 else if b <=? 16 then UInt16 else if b <=? 32 then UInt32 else UInt64.
Definition float_of (b : Z) : dtype :=
  if b <=? 16 then Float16 else if b <=? 32 then Float32 else Float64.
Definition mixed (s u : Z) : dtype :=
  if u <? s then signed_of s else if u <? 64 then signed_of (2 * u) else Float64.
Definition promote_types (x y : dtype) : dtype :=
  match kind x, kind y with
  | Signed a, Signed b => signed_of (Z.max a b)
  | Unsigned a, Unsigned b => unsigned_of (Z.max a b)
  | Signed a, Unsigned b => mixed a b
  | Unsigned a, Signed b => mixed b a
  | Floating a _, Floating b _ => float_of (Z.max a b)
  | Floating a _, (Signed b | Unsigned b) => float_of (Z.max a (2 * b))
  | (Signed a | Unsigned a), Floating b _ => float_of (Z.max (2 * a) b)
  | _, _ => OtherType
  end.
Definition deduce_common_type (x y : dtype) : dtype :=
  if dtype_eqb x y then x else promote_types x y.

(** unify_types, utils.py:72-79.  An array is its dtype with its values; [cast d q] is what
    [astype(d)] makes of the number [q]. *)
Definition unify_types (cast : dtype -> QArith_base.Q -> QArith_base.Q) (x y : dtype * list QArith_base.Q) :=
  let d := deduce_common_type (fst x) (fst y) in
  let x' := if dtype_eqb (fst x) d then x else (d, map (cast d) (snd x)) in
  let y' := if dtype_eqb (fst y) d then y else (d, map (cast d) (snd y)) in
  (x', y').
