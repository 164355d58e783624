(** * EemdStats: the ensemble statistics of EEMD (EEMD.py:267-282).

    [all_imfs], [ensemble_count] and [ensemble_mean] are in Eemd.v. *)
From Verif Require Export Eemd.

Section Stats.
Context {A : Type} `{Num A}.
(** [np.sqrt], an arbitrary function. *)
Variable sqrt : A -> A.

(** [rows.std(axis=0)]: square root of the mean of the squared deviations from the mean. *)
Definition std_rows (l : list (list A)) : list A :=
  match l with
  | [] => []
  | x :: _ =>
      let dev := map (fun r => map (fun d => nmul d d) (vsub r (mean_rows l))) l in
      map (fun s => sqrt (ndiv s (nofZ (zlen l)))) (sum_rows (length x) dev)
  end.

(** EEMD.ensemble_std, EEMD.py:280-282. *)
Definition ensemble_std (d : list (Z * list (list A))) : res (list (list A)) :=
  np_array (map (fun p => std_rows (snd p)) d).
End Stats.
