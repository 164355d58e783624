(** * Ceemdan: model of the CEEMDAN class (CEEMDAN.py:21-395). *)
From Verif Require Export Eemd.

Section Ceemdan.
Context {A : Type} `{Num A}.
Notation vec := (list A).
Notation rows := (list (list A)).

(** Attributes fixed by the constructor (CEEMDAN.py:116-146). *)
Record ceemdan_config := MkCCfg {
  c_trials : Z; epsilon : A; noise_scale : A;
  c_range_thr : A; c_total_power_thr : A;
  beta_progress : bool; c_noise_kind : noise_kinds;
  loop_limit : Z;             (** [self._max_imf], the constructor's [max_imf], default 100 *)
  c_parallel : bool; c_processes : Z
}.

Context {G : Type}.
Variable gen : generator A G.
(** [np.std], an arbitrary function. *)
Variable std : vec -> A.
(** [self.emd(S, T, max_imf)] (CEEMDAN.py:380-386): the inner decomposition, a function of its
    arguments (EMD is one: [C13_no_hidden_state]).  An [ext_EMD] whose results depend on
    its history is not covered. *)
Variable emd_of : vec -> option vec -> Z -> res rows.
(** [imap_unordered] hands over the results of the workers in the order of their completion:
    an arbitrary reordering. *)
Variable arrival : list rows -> list rows.

(** The mutable attributes: generator, last result. *)
Record ceemdan_state := MkCSt { c_random : G; C_IMF : option rows; c_residue : option vec }.

(** CEEMDAN.noise_seed, CEEMDAN.py:195-197. *)
Definition c_noise_seed (o : ceemdan_state) (s : Z) : ceemdan_state :=
  MkCSt (seeded gen s) (C_IMF o) (c_residue o).

(** CEEMDAN.generate_noise, CEEMDAN.py:159-193, of a flat array of [size] samples. *)
Definition c_generate_noise (c : ceemdan_config) (g : G) (size : nat) : res vec * G :=
  let scale := noise_scale c in
  match c_noise_kind c with
  | Normal => let (v, g') := normal gen g scale size in (Ok v, g')
  | Uniform =>
      let (v, g') := uniform gen g (ndiv (nopp scale) n2) (ndiv scale n2) size in (Ok v, g')
  | OtherNoise => (Raise ValueError, g)
  end.

(** A flat array seen as [m] rows of [n] samples. *)
Fixpoint reshape (m n : nat) (v : vec) : rows :=
  match m with
  | O => []
  | Datatypes.S m' => firstn n v :: reshape m' n (skipn n v)
  end.
(** The noise of shape (trials, n), CEEMDAN.py:224; negative dimensions are refused. *)
Definition all_noises (c : ceemdan_config) (g : G) (n : nat) : res rows * G :=
  match c_noise_kind c with
  | OtherNoise => (Raise ValueError, g)
  | _ =>
    if c_trials c <? 0 then (Raise ValueError, g)
    else let m := Z.to_nat (c_trials c) in
         let '(v, g') := c_generate_noise c g (m * n) in
         (match v with Ok v => Ok (reshape m n v) | Raise e => Raise e end, g')
  end.

(** [Pool(processes=...)] *)
Definition open_pool (c : ceemdan_config) : res unit :=
  if c_parallel c && (c_processes c <? 1) then Raise ValueError else Ok tt.

(** [imfs / s] for every row. *)
Definition div_rows (M : rows) (s : A) : rows := map (map (fun x => ndiv x s)) M.

(** CEEMDAN._decompose_noise, CEEMDAN.py:328-341.  [Pool.map] keeps the order. *)
Definition decompose_noise (c : ceemdan_config) (noises : rows) : res (list rows) :=
  let! _ := open_pool c in
  let! all := mapM (fun noise => emd_of noise None (-1)) noises in
  if beta_progress c then
    let! stds := mapM (fun imfs => let! first := py_get imfs 0 in Ok (std first)) all in
    Ok (map2 div_rows all stds)
  else Ok all.

(** CEEMDAN._trial_update, CEEMDAN.py:374-378.  Rows of different lengths cannot be added. *)
Definition c_trial (c : ceemdan_config) (noise_emd : list rows) (S T : vec) (trial : Z) : res rows :=
  let! imfs := py_get noise_emd trial in
  let! first := py_get imfs 0 in
  let! x := broadcast2 nadd S (vscale (epsilon c) first) in
  emd_of x (Some T) 1.

(** One turn of CEEMDAN.py:363-367: extend E_IMF with rows of zeros, then add.  A row of a
    different length is an error (NumPy would also broadcast a row of one sample). *)
Fixpoint add_rows (n : nat) (E M : rows) : rows :=
  match E, M with
  | e :: E', i :: M' => vadd e i :: add_rows n E' M'
  | [], i :: M' => vadd (vzeros n) i :: add_rows n [] M'
  | E, [] => E
  end.
Definition accumulate (n : nat) (E : res rows) (M : rows) : res rows :=
  let! E := E in
  if forallb (fun r => Nat.eqb (length r) n) M then Ok (add_rows n E M) else Raise ValueError.

(** CEEMDAN._eemd, CEEMDAN.py:343-372, always called with max_imf=1.  When a worker fails, the
    exception of the first failing trial is reported; [Pool.v] has the ones that can be. *)
Definition inner_eemd (c : ceemdan_config) (noise_emd : list rows) (S : vec) (T : option vec) : res rows :=
  let T := match T with Some t => t | None => map nofZ (zseq 0 (length S)) end in
  let! _ := open_pool c in
  let! results := mapM (c_trial c noise_emd S T) (zrange 0 (c_trials c)) in
  let results := if c_parallel c then arrival results else results in
  let! E := fold_left (accumulate (length S)) results (Ok [vzeros (length S)]) in
  Ok (div_rows E (nofZ (c_trials c))).

(** CEEMDAN.end_condition, CEEMDAN.py:278-326. *)
Definition c_end_condition (c : ceemdan_config) (S : vec) (cimfs : rows) (max_imf : Z) : res bool :=
  if (0 <? max_imf) && (max_imf <=? zlen cimfs) then Ok true
  else
    let R := vsub S (sum_rows (length S) cimfs) in
    let! test := emd_of R None 1 in
    if zlen test =? 1 then Ok true
    else
      let! mx := np_max R in
      let! mn := np_min R in
      if nltb (nsub mx mn) (c_range_thr c) then Ok true
      else if nltb (nsum (map nabs R)) (c_total_power_thr c) then Ok true
      else Ok false.

(** [x += y]: the shape of [x] cannot change. *)
Definition iadd (x y : vec) : res vec :=
  let! z := broadcast2 nadd x y in
  if Nat.eqb (length z) (length x) then Ok z else Raise ValueError.

(** One trial of the loop at CEEMDAN.py:250-259; [prev] is prev_res, [k] is imfNo. *)
Definition mean_step (c : ceemdan_config) (noise_emd : list rows) (T : option vec) (prev : vec) (beta : A)
    (k : Z) (local_mean : res vec) (trial : Z) : res vec :=
  let! m := local_mean in
  let! noise_imf := py_get noise_emd trial in
  let! r := (if k <? zlen noise_imf then
               let! x := py_get noise_imf k in iadd prev (vscale beta x)
             else Ok prev) in
  let! imfs := emd_of r T 1 in
  let! last := py_get imfs (-1) in
  iadd m (map (fun x => ndiv x (nofZ (c_trials c))) last).

(** The loop at CEEMDAN.py:240-263, at most [n] turns. *)
Fixpoint ceemdan_loop (n : nat) (c : ceemdan_config) (noise_emd : list rows) (S : vec) (T : option vec)
    (max_imf : Z) (cimfs : rows) (prev : vec) : res rows :=
  match n with
  | O => Ok cimfs
  | Datatypes.S n' =>
      let! stop := c_end_condition c S cimfs max_imf in
      if (stop : bool) then Ok cimfs
      else
        let beta := nmul (epsilon c) (std prev) in
        let! m := fold_left (mean_step c noise_emd T prev beta (zlen cimfs))
                            (zrange 0 (c_trials c)) (Ok (vzeros (length S))) in
        ceemdan_loop n' c noise_emd S T max_imf (cimfs ++ [vsub prev m]) m
  end.

(** CEEMDAN.ceemdan, CEEMDAN.py:199-276: the rows of the normalised signal [S / scale_s]
    (lines 228-267), then the result. *)
Definition ceemdan_rows (c : ceemdan_config) (noises : rows) (S : vec) (T : option vec) (max_imf : Z)
  : res rows :=
  let! noise_emd := decompose_noise c noises in
  let! E := inner_eemd c noise_emd S T in
  let! first := py_get E 0 in
  let! cimfs := ceemdan_loop (Z.to_nat (loop_limit c)) c noise_emd S T max_imf [first] (vsub S first) in
  Ok (cimfs ++ [vsub S (sum_rows (length S) cimfs)]).

Definition ceemdan (c : ceemdan_config) (o : ceemdan_state) (S : vec) (T : option vec) (max_imf : Z)
  : res rows * ceemdan_state :=
  let scale_s := std S in
  let S := map (fun x => ndiv x scale_s) S in
  let '(noises, g) := all_noises c (c_random o) (length S) in
  let result :=
    let! noises := noises in
    let! cimfs := ceemdan_rows c noises S T max_imf in
    Ok (map (map (fun x => nmul x scale_s)) cimfs) in
  match result with
  | Raise e => (Raise e, MkCSt g (C_IMF o) (c_residue o))
  | Ok C => (Ok C, MkCSt g (Some C) (Some (vsub (map (fun x => nmul x scale_s) S) (sum_rows (length S) C))))
  end.

(** CEEMDAN.get_imfs_and_residue, CEEMDAN.py:388-395. *)
Definition ceemdan_imfs_and_residue (o : ceemdan_state) : res (rows * vec) :=
  match C_IMF o, c_residue o with
  | Some i, Some r => Ok (i, r)
  | _, _ => Raise ValueError
  end.
End Ceemdan.
Arguments ceemdan_config A : clear implicits.
Arguments ceemdan_state A G : clear implicits.

(** PyEMD's EMD as the inner decomposition. *)
Definition emd_fun {A} `{Num A} (spl : spline_oracle A) (fuel : nat) (cfg : emd_config A)
  (S : list A) (T : option (list A)) (k : Z) : res (list (list A)) :=
  let! o := emd spl fuel cfg S T k in Ok (out o).
