(** * Checks: model of /repo/PyEMD/checks.py, over the real numbers.

    Rounding, underflow and infinite samples are not modelled; [math.exp]'s OverflowError is. *)
From Verif Require Import Py.
From Coq Require Import Reals String.
Open Scope Z_scope.

(** An array element: a number or NaN. *)
Inductive cell := Nan | Fin (r : R).
Definition cval (x : cell) : R := match x with Nan => 0%R | Fin r => r end.
Definition is_nan (x : cell) : bool := match x with Nan => true | Fin _ => false end.

(** [math.log]: ValueError outside its domain. *)
Definition math_log (x : R) : res R :=
  if Rlt_dec 0 x then Ok (ln x) else Raise ValueError.
(** [math.exp]: OverflowError beyond the double range. *)
Definition math_exp (x : R) : res R :=
  if Rlt_dec (exp x) (2 ^ 1024) then Ok (exp x) else Raise OverflowError.

Section Checks.
Variable ppf : R -> R.              (** [scipy.stats.norm.ppf] *)
Variable peaks : list R -> nat.     (** [len(scipy.signal.find_peaks(data, height=0)[0])] *)

(** mean_period, checks.py:12-15. *)
Definition mean_period (data : list R) : R :=
  if (0 <? Z.of_nat (peaks data)) then (INR (List.length data) / INR (peaks data))%R
  else INR (List.length data).
(** energy, checks.py:19-21. *)
Definition energy (data : list R) : R := fold_left Rplus (map (fun x => x * x)%R data) 0%R.

(** [abs(stats.norm.ppf((1 - alpha) / 2))], checks.py:27, 37, 118. *)
Definition quantile (alpha : R) : R := Rabs (ppf ((1 - alpha) / 2)).
(** significance_apriori, checks.py:25-31. *)
Definition significance_apriori (energy_density T N alpha : R) : res bool :=
  let k := quantile alpha in
  let! e := math_exp (T / 2) in
  let upper_limit := (- T + k * (sqrt (2 / N) * e))%R in
  let lower_limit := (- T - k * (sqrt (2 / N) * e))%R in
  Ok (negb (if Rle_dec lower_limit energy_density
            then (if Rle_dec energy_density upper_limit then true else false) else false)).
(** significance_aposteriori, checks.py:35-39. *)
Definition significance_aposteriori (scaled T N alpha : R) : res bool :=
  let k := quantile alpha in
  let! e := math_exp (T / 2) in
  let upper_limit := (- T + k * (sqrt (2 / N) * e))%R in
  Ok (negb (if Rle_dec scaled upper_limit then true else false)).

(** The loop of checks.py:107-112 from index [idx] on: the dictionary's items in order. *)
Fixpoint apriori_loop (idx : Z) (imfs : list (list R)) (N alpha : R) : res (list (Z * Z)) :=
  match imfs with
  | [] => Ok []
  | imf :: rest =>
    let! log_T := math_log (mean_period imf) in
    let! energy_density := math_log (energy imf / N) in
    let! sig := significance_apriori energy_density log_T N alpha in
    let! out := apriori_loop (idx + 1) rest N alpha in
    Ok ((idx + 1, Z.b2z sig) :: out)
  end.
(** The loop of checks.py:123-132. *)
Fixpoint aposteriori_loop (idx : Z) (imfs : list (list R)) (rescaling_imf : Z)
    (scaling_factor N alpha : R) : res (list (Z * Z)) :=
  match imfs with
  | [] => Ok []
  | imf :: rest =>
    let! log_T := math_log (mean_period imf) in
    let! scaled := if negb (idx =? rescaling_imf - 1)
                   then math_log ((energy imf / N) / scaling_factor)
                   else math_log scaling_factor in
    let! sig := significance_aposteriori scaled log_T N alpha in
    let! out := aposteriori_loop (idx + 1) rest rescaling_imf scaling_factor N alpha in
    Ok ((idx + 1, Z.b2z sig) :: out)
  end.

(** whitenoise_check, checks.py:42-137.  [imfs = None]: not an ndarray (a two-dimensional one
    is its list of rows, all of one length); [alpha = None]: not a float; [rescaling_imf =
    None]: not an int. *)
Definition whitenoise_check (imfs : option (list (list cell))) (test_name : string)
    (rescaling_imf : option Z) (alpha : option R) : res (option (list (Z * Z))) :=
  match imfs with
  | None => Raise AssertionError
  | Some [] => Ok None
  | Some ([] :: _) => Ok None
  | Some ((first :: _) as IMFs) =>
    match alpha with
    | None => Raise AssertionError
    | Some alpha =>
      if Rlt_dec 0 alpha then
      if Rlt_dec alpha 1 then
      if String.eqb test_name "apriori" || String.eqb test_name "aposteriori" then
      match rescaling_imf with
      | None => Raise AssertionError
      | Some r =>
        if (0 <? r) && (r <=? zlen IMFs) then
        if existsb (existsb is_nan) IMFs then Ok None
        else
          let rows := map (map cval) IMFs in
          let N := INR (List.length first) in
          if String.eqb test_name "apriori" then
            let! out := apriori_loop 0 rows N alpha in Ok (Some out)
          else
            let! imf := py_get rows (r - 1) in
            let! period := math_log (mean_period imf) in
            let! density := math_log (energy imf / N) in
            let k := quantile alpha in
            let! e := math_exp period in
            let up_limit := (- period + k * sqrt (2 / N) * e / 2)%R in
            let! scaling_factor := math_exp up_limit in
            let! out := aposteriori_loop 0 rows r scaling_factor N alpha in Ok (Some out)
        else Raise AssertionError
      end
      else Raise AssertionError
      else Raise AssertionError
      else Raise AssertionError
    end
  end.
End Checks.
