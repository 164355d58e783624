(** * HeapCeemdan: the CEEMDAN class with arrays as mutable objects (CEEMDAN.py:199-395).

    As in [Heap.v]: the statements of [Ceemdan.v] act on arrays in memory; [self.EMD] is
    PyEMD's own EMD.  The attributes [E_IMF], [all_noises], [all_noise_EMD], [_S], [_T] are
    read only within the call that assigns them and are local names here. *)
From Verif Require Export Heap Ceemdan.

Section HeapCeemdan.
Context {A : Type} `{Num A}.
Notation vec := (list A).
Notation rows := (list (list A)).
Context {G : Type}.
Variable gen : generator A G.
Variable std : vec -> A.
Variable arrival : list rows -> list rows.
Variable spl : spline_oracle A.
Variable fuel : nat.
Variable ec : emd_config A.
(** Dtype conversions inside EMD.emd. *)
Variable conv : bool * bool.

(** Memory with the attributes of the CEEMDAN object. *)
Record cmem := MkCMem { c_mem : mem A; h_random : G; h_C_IMF : option arr; h_res : option arr }.

(** [self.emd(S, T, max_imf)], CEEMDAN.py:380-386. *)
Definition run_h (S : arr) (T : option arr) (max_imf : Z) : M A arr :=
  emd_h spl fuel ec (fst conv) (snd conv) S T max_imf.

Fixpoint each {X Y} (f : X -> M A Y) (l : list X) : M A (list Y) :=
  match l with
  | [] => ret []
  | x :: l' => let* y := f x in let* ys := each f l' in ret (y :: ys)
  end.

(** CEEMDAN._decompose_noise, CEEMDAN.py:328-341.  Iterating over the noise gives its rows as
    views; workers return new arrays. *)
Definition decompose_noise_h (c : ceemdan_config A) (noises : arr) : M A (list arr) :=
  let* N := load_mat noises in
  let* _ := lift (open_pool c) in
  let* all :=
    if c_parallel c then
      let* Ms := lift (mapM (fun noise => emd_fun spl fuel ec noise None (-1)) N) in
      each (fun Mv => alloc (Mat Mv)) Ms
    else each (fun i => run_h (MkArr (base noises) (Row i)) None (-1)) (seq 0 (length N)) in
  if beta_progress c then
    let* stds := each (fun a => let* Mv := load_mat a in
                                let* first := lift (py_get Mv 0) in ret (std first)) all in
    each (fun p => let* Mv := load_mat (fst p) in alloc (Mat (div_rows Mv (snd p)))) (combine all stds)
  else ret all.

(** [E_IMF[:k] += IMFs] after extending E_IMF with rows of zeros if necessary,
    CEEMDAN.py:363-367.  The addition is in place. *)
Definition accumulate_h (n : nat) (E : arr) (IMFs : arr) : M A arr :=
  let* Mv := load_mat IMFs in
  let* Ev := load_mat E in
  let* E := if Nat.ltb (length Ev) (length Mv)
            then alloc (Mat (Ev ++ repeat (vzeros n) (length Mv - length Ev))) else ret E in
  let* Ev := load_mat E in
  if forallb (fun r => Nat.eqb (length r) n) Mv
  then fun m => (Ok E, set_cell m (base E) (Mat (add_rows n Ev Mv)))
  else lift (Raise ValueError).

(** CEEMDAN._trial_update, CEEMDAN.py:374-378. *)
Definition c_trial_h (c : ceemdan_config A) (noise_emd : list arr) (S T : arr) (trial : Z) : M A arr :=
  let* a := lift (py_get noise_emd trial) in
  let* imfs := load_mat a in
  let* first := lift (py_get imfs 0) in
  let* s := load_vec S in
  let* x := lift (broadcast2 nadd s (vscale (epsilon c) first)) in
  let* x := alloc (Vec x) in
  run_h x (Some T) 1.

(** The loop at CEEMDAN.py:362-367: serially, a trial runs when its result is needed. *)
Fixpoint serial_eemd_h (c : ceemdan_config A) (noise_emd : list arr) (n : nat) (S T : arr) (ts : list Z)
    (E : arr) : M A arr :=
  match ts with
  | [] => ret E
  | t :: ts' => let* r := c_trial_h c noise_emd S T t in
                let* E := accumulate_h n E r in
                serial_eemd_h c noise_emd n S T ts' E
  end.
Fixpoint receive_eemd_h (n : nat) (rs : list rows) (E : arr) : M A arr :=
  match rs with
  | [] => ret E
  | Mv :: rs' => let* r := alloc (Mat Mv) in
                 let* E := accumulate_h n E r in
                 receive_eemd_h n rs' E
  end.

(** CEEMDAN._eemd, CEEMDAN.py:343-372. *)
Definition inner_eemd_h (c : ceemdan_config A) (noise_emd : list arr) (S : arr) (T : option arr) : M A arr :=
  let* s := load_vec S in
  let* T := match T with Some T => ret T | None => alloc (Vec (map nofZ (zseq 0 (length s)))) end in
  let* _ := lift (open_pool c) in
  let* E := alloc (Mat [vzeros (length s)]) in
  let* E :=
    if c_parallel c then
      let* t := load_vec T in
      let* ns := each load_mat noise_emd in
      let* rs := lift (mapM (c_trial (emd_fun spl fuel ec) c ns s t) (zrange 0 (c_trials c))) in
      receive_eemd_h (length s) (arrival rs) E
    else serial_eemd_h c noise_emd (length s) S T (zrange 0 (c_trials c)) E in
  let* Ev := load_mat E in
  alloc (Mat (div_rows Ev (nofZ (c_trials c)))).

(** CEEMDAN.end_condition, CEEMDAN.py:278-326. *)
Definition c_end_condition_h (c : ceemdan_config A) (S cimfs : arr) (max_imf : Z) : M A bool :=
  let* s := load_vec S in
  let* C := load_mat cimfs in
  if (0 <? max_imf) && (max_imf <=? zlen C) then ret true
  else
    let* R := alloc (Vec (vsub s (sum_rows (length s) C))) in
    let* test := run_h R None 1 in
    let* tv := load_mat test in
    if zlen tv =? 1 then ret true
    else
      let* Rv := load_vec R in
      let* mx := lift (np_max Rv) in
      let* mn := lift (np_min Rv) in
      if nltb (nsub mx mn) (c_range_thr c) then ret true
      else if nltb (nsum (map nabs Rv)) (c_total_power_thr c) then ret true
      else ret false.

(** [x += y] in place. *)
Definition iadd_h (x : arr) (y : vec) : M A unit :=
  let* xv := load_vec x in
  let* z := lift (iadd xv y) in
  fun m => (Ok tt, set_cell m (base x) (Vec z)).

(** One trial of the loop at CEEMDAN.py:250-259. *)
Definition mean_step_h (c : ceemdan_config A) (noise_emd : list arr) (T : option arr) (prev : arr)
    (beta : A) (k : Z) (local_mean : arr) (trial : Z) : M A unit :=
  let* a := lift (py_get noise_emd trial) in
  let* noise_imf := load_mat a in
  let* r := copy_vec prev in
  let* _ := if k <? zlen noise_imf then
              let* x := lift (py_get noise_imf k) in iadd_h r (vscale beta x)
            else ret tt in
  let* imfs := run_h r T 1 in
  let* iv := load_mat imfs in
  let* last := lift (py_get iv (-1)) in
  iadd_h local_mean (map (fun x => ndiv x (nofZ (c_trials c))) last).
Fixpoint mean_loop_h (c : ceemdan_config A) (noise_emd : list arr) (T : option arr) (prev : arr)
    (beta : A) (k : Z) (local_mean : arr) (ts : list Z) : M A unit :=
  match ts with
  | [] => ret tt
  | t :: ts' => let* _ := mean_step_h c noise_emd T prev beta k local_mean t in
                mean_loop_h c noise_emd T prev beta k local_mean ts'
  end.

(** The loop at CEEMDAN.py:240-263. *)
Fixpoint ceemdan_loop_h (n : nat) (c : ceemdan_config A) (noise_emd : list arr) (S : arr) (T : option arr)
    (max_imf : Z) (cimfs prev : arr) : M A arr :=
  match n with
  | O => ret cimfs
  | Datatypes.S n' =>
      let* stop := c_end_condition_h c S cimfs max_imf in
      if (stop : bool) then ret cimfs
      else
        let* s := load_vec S in
        let* C := load_mat cimfs in
        let* pv := load_vec prev in
        let beta := nmul (epsilon c) (std pv) in
        let* local_mean := alloc (Vec (vzeros (length s))) in
        let* _ := mean_loop_h c noise_emd T prev beta (zlen C) local_mean (zrange 0 (c_trials c)) in
        let* mv := load_vec local_mean in
        let* pv := load_vec prev in
        let* last_imf := alloc (Vec (vsub pv mv)) in
        let* lv := load_vec last_imf in
        let* cimfs := alloc (Mat (C ++ [lv])) in
        let* prev := copy_vec local_mean in
        ceemdan_loop_h n' c noise_emd S T max_imf cimfs prev
  end.

(** CEEMDAN.py:220-267.  [last_imf.reshape((-1, last_imf.size))] (234) is a view of the first
    row of the array [_eemd] returned. *)
Definition ceemdan_rows_h (c : ceemdan_config A) (noises S : arr) (T : option arr) (max_imf : Z) : M A arr :=
  let* noise_emd := decompose_noise_h c noises in
  let* E := inner_eemd_h c noise_emd S T in
  let* Ev := load_mat E in
  let* first := lift (py_get Ev 0) in
  let cimfs := MkArr (base E) (Head 1) in
  let* s := load_vec S in
  let* prev := alloc (Vec (vsub s first)) in
  let* cimfs := ceemdan_loop_h (Z.to_nat (loop_limit c)) c noise_emd S T max_imf cimfs prev in
  let* C := load_mat cimfs in
  let* s := load_vec S in
  let* res := alloc (Vec (vsub s (sum_rows (length s) C))) in
  let* rv := load_vec res in
  alloc (Mat (C ++ [rv])).

(** CEEMDAN.ceemdan, CEEMDAN.py:199-276.  The array it returns is the one it has stored. *)
Definition ceemdan_h (c : ceemdan_config A) (o : cmem) (S : arr) (T : option arr) (max_imf : Z)
  : res arr * cmem :=
  let '(r, m) := load_vec S (c_mem o) in
  match r with
  | Raise e => (Raise e, MkCMem m (h_random o) (h_C_IMF o) (h_res o))
  | Ok s0 =>
    let scale_s := std s0 in
    let '(noises, g) := all_noises gen c (h_random o) (length s0) in
    let '(r, m) :=
      (let* S := alloc (Vec (map (fun x => ndiv x scale_s) s0)) in
       let* noises := lift noises in
       let* noises := alloc (Mat noises) in
       let* cimfs := ceemdan_rows_h c noises S T max_imf in
       let* C := load_mat cimfs in
       let* all_cimfs := alloc (Mat (map (map (fun x => nmul x scale_s)) C)) in
       let* s := load_vec S in
       let* C := load_mat all_cimfs in
       let* res := alloc (Vec (vsub (map (fun x => nmul x scale_s) s) (sum_rows (length s) C))) in
       ret (all_cimfs, res)) m in
    match r with
    | Raise e => (Raise e, MkCMem m g (h_C_IMF o) (h_res o))
    | Ok (all_cimfs, res) => (Ok all_cimfs, MkCMem m g (Some all_cimfs) (Some res))
    end
  end.

(** CEEMDAN.get_imfs_and_residue, CEEMDAN.py:388-395. *)
Definition ceemdan_imfs_and_residue_h (o : cmem) : res (arr * arr) :=
  match h_C_IMF o, h_res o with
  | Some i, Some r => Ok (i, r)
  | _, _ => Raise ValueError
  end.
End HeapCeemdan.
Arguments cmem A G : clear implicits.
