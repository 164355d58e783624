(** * Typed: what the NumPy type of the caller's arrays does to EMD.

    Emd.v computes in one arithmetic throughout.  This file models the steps in which the type of
    an array matters: the timeline, its normalisation, the conversion to a common type, the type
    of the result, and extrema detection called directly on integer arrays. *)
From Verif Require Import Py Extrema Emd Utils Float64.
From Flocq Require Import BinarySingleNaN.
Open Scope Z_scope.

(** An array as the caller passes it: integers of a NumPy integer type, or doubles.  (Values in
    half and single precision are not modelled, only their types.) *)
Inductive array := Ints (d : dtype) (l : list Z) | Doubles (l : list f64).
Definition dtype_of (a : array) : dtype := match a with Ints d _ => d | Doubles _ => Float64 end.
Definition size_of (a : array) : nat := match a with Ints _ l => length l | Doubles l => length l end.
(** [a.astype(np.float64)]. *)
Definition to_doubles (a : array) : list f64 := match a with Ints _ l => map f64_ofZ l | Doubles l => l end.

(** A result of integer arithmetic in type [d]: NumPy wraps around silently. *)
Definition wrap (d : dtype) (z : Z) : Z := match store d z with Some k => k | None => z end.

(** Type of [x / y] for arrays of type [d]: true division of integers gives float64. *)
Definition divided_type (d : dtype) : dtype :=
  match kind d with
  | Floating _ _ => d
  | Signed _ | Unsigned _ => Float64
  | NoKind => OtherType
  end.
(** [self.DTYPE] in EMD.emd for a signal of type [dS] and times of type [dT], EMD.py:803-808. *)
Definition working_type (dS dT : dtype) : dtype := deduce_common_type dS (divided_type dT).
(** Type of the returned array: rows of the working type are stacked onto [np.empty((0, N))],
    which is float64 (EMD.py:820, 901, 918). *)
Definition returned_type (d : dtype) : dtype := promote_types Float64 d.

(** EMD._normalize_time on integers, EMD.py:763-771: differences wrap around, the quotient is a
    double. *)
Definition normalize_ints (d : dtype) (t : list Z) : res (list f64) :=
  let df := map (wrap d) (zdiff t) in
  if existsb (Z.eqb 0) df then Raise AssertionError
  else
    let! t0 := py_get t 0 in
    let! m := match df with [] => Raise ValueError | x :: l => Ok (fold_left Z.min l x) end in
    Ok (map (fun x => ndiv (f64_ofZ (wrap d (x - t0))) (f64_ofZ m)) t).
Definition normalize_array (t : array) : res (list f64) :=
  match t with Ints d l => normalize_ints d l | Doubles l => normalize_time l end.

(** The values of a timeline of type [d] (Utils.v) as an array. *)
Definition timeline_array (d : dtype) (l : list (option Z)) : array :=
  match kind d with
  | Floating _ _ => Doubles (map (fun x => match x with Some z => f64_ofZ z | None => B754_infinity false end) l)
  | _ => Ints d (map (fun x => match x with Some z => z | None => 0 end) l)
  end.

Section Emd.
Context (differs : dtype -> option Z -> Z -> bool).
Context (spl : spline_oracle f64).

(** The time array of [emd] after normalisation, EMD.py:796-803. *)
Definition typed_time (c : emd_config f64) (S : array) (T : option array) : res (dtype * list f64) :=
  let! _ := match T with
            | Some t => if Nat.eqb (size_of S) (size_of t) then Ok tt else Raise ValueError
            | None => Ok tt
            end in
  let! t := match T, extrema_detection c with
            | Some t, Parabol | Some t, OtherDetection => Ok t
            | _, _ => let! (d, l) := get_timeline differs (size_of S) (Some (dtype_of S)) in
                      Ok (timeline_array d l)
            end in
  let! t' := normalize_array t in
  Ok (divided_type (dtype_of t), t').

(** EMD.emd, EMD.py:773-920, on typed arrays.  From line 808 on everything has the working type;
    the rest is that of Emd.v in double precision.  (The other working types would be half and
    single precision; they cannot occur here.) *)
Definition emd_typed (fuel : nat) (c : emd_config f64) (S : array) (T : option array) (max_imf : Z)
  : res (emd_out f64) :=
  let! (dT, t) := typed_time c S T in
  match deduce_common_type (dtype_of S) dT with
  | Float64 =>
      let s := to_doubles S in
      if negb (Nat.eqb (length s) (length t)) then Raise ValueError
      else
        let! (IMF, extNo) := emd_loop spl fuel c s t max_imf [] (-1) in
        Ok (emd_finish s IMF extNo)
  | _ => Raise TypeError
  end.
End Emd.

(** ** Extrema detection on integer arrays *)
(** The arithmetic of NumPy integers of type [d].  (Division is not used by
    [_find_extrema_simple].) *)
Definition IntNum (d : dtype) : Num Z := {|
  nadd a b := wrap d (a + b); nsub a b := wrap d (a - b); nmul a b := wrap d (a * b); ndiv a b := wrap d (a / b);
  nopp a := wrap d (- a); nabs a := wrap d (Z.abs a);
  nltb := Z.ltb; nleb := Z.leb; neqb := Z.eqb;
  nofZ z := wrap d z; ntrunc z := z
|}.
(** EMD.find_extrema with the default 'simple' detection on arrays of type [d], EMD.py:545-548,
    612-687.  (Positions and values have the same type here.) *)
Definition find_extrema_ints (d : dtype) (T S : list Z) : res (extrema_out Z) :=
  @find_extrema Z (IntNum d) Simple T S.
