(** * Pool: the worker pools behind EEMD and CEEMDAN, with every schedule.

    [multiprocessing.Pool] belongs to CPython's standard library (multiprocessing/pool.py), not to
    /repo; EEMD.py:194-202 and CEEMDAN.py:329-332, 354-370 use it.  Tasks enter one queue in order;
    an idle worker takes the first task of the queue; results reach the caller in the order in
    which the workers finish.  [Eemd.v] and [Ceemdan.v] have one outcome per call; here the order of
    completion is left open.  Simplifications: workers do not die, a task is taken whole (its
    items run one after the other in the worker that took it). *)
From Verif Require Export Eemd Ceemdan.
From Coq Require Import List.
Import ListNotations.

(** ** Tasks and workers *)
(** Tasks not yet taken, tasks being worked on, tasks done in the order of completion. *)
Record pool := MkPool { waiting : list nat; running : list nat; finished : list nat }.
Inductive pool_step (procs : nat) : pool -> pool -> Prop :=
| Take i q r f : (length r < procs)%nat -> pool_step procs (MkPool (i :: q) r f) (MkPool q (r ++ [i]) f)
| Finish i q r1 r2 f : pool_step procs (MkPool q (r1 ++ i :: r2) f) (MkPool q (r1 ++ r2) (f ++ [i])).
(** [n] tasks, nothing taken. *)
Definition pool_start (n : nat) : pool := MkPool (seq 0 n) [] [].
(** A run of [k] steps. *)
Inductive pool_run (procs : nat) : nat -> pool -> pool -> Prop :=
| Stay s : pool_run procs 0 s s
| Go_on k s s' s'' : pool_run procs k s s' -> pool_step procs s' s'' -> pool_run procs (Datatypes.S k) s s''.
Definition over (s : pool) : Prop := waiting s = [] /\ running s = [].
(** [f] is the order of completion of a run of [n] tasks on [procs] workers to its end. *)
Definition completes (procs n : nat) (f : list nat) : Prop := exists k, pool_run procs k (pool_start n) (MkPool [] [] f).

(** ** Pool.map: class MapResult of pool.py *)
(** [_number_left], [_value] cut into the pieces of the tasks, and the stored exception
    ([_success] is false when there is one). *)
Record map_result X := MkMR { number_left : nat; pieces : list (option (list X)); stored : option exn }.
Arguments MkMR {X}. Arguments number_left {X}. Arguments pieces {X}. Arguments stored {X}.
Fixpoint set_piece {X} (l : list (option (list X))) (i : nat) (v : list X) : list (option (list X)) :=
  match l, i with
  | [], _ => []
  | _ :: l', O => Some v :: l'
  | x :: l', Datatypes.S i' => x :: set_piece l' i' v
  end.
(** [MapResult._set(i, success_result)]: only the first exception is kept. *)
Definition mr_set {X} (m : map_result X) (i : nat) (r : res (list X)) : map_result X :=
  match r, stored m with
  | Ok v, None => MkMR (number_left m - 1) (set_piece (pieces m) i v) None
  | Raise e, None => MkMR (number_left m - 1) (pieces m) (Some e)
  | _, Some e => MkMR (number_left m - 1) (pieces m) (Some e)
  end.
Definition mr_new X (n : nat) : map_result X := MkMR n (repeat None n) None.
(** [get()] waits until all tasks are done ([None]: not yet). *)
Definition mr_get {X} (m : map_result X) : option (res (list X)) :=
  match number_left m with
  | O => Some (match stored m with
               | Some e => Raise e
               | None => Ok (flat_map (fun p => match p with Some v => v | None => [] end) (pieces m))
               end)
  | _ => None
  end.
(** The [n] tasks with outcomes [outcome], done in the order [f]. *)
Definition mr_after {X} (n : nat) (outcome : nat -> res (list X)) (f : list nat) : map_result X :=
  fold_left (fun m i => mr_set m i (outcome i)) f (mr_new X n).

(** ** EEMD *)
Section EemdPool.
Context {A : Type} `{Num A} {G D : Type}.
Variable gen : generator A G.
Variable dec : decomposer A D.
Notation vec := (list A).
Notation rows := (list (list A)).

(** What the worker that takes chunk [i] sends back: [mapstar] is [list(map(...))] on a copy of
    the object. *)
Definition chunk_outcome (step : G * D -> res (@trial A) * (G * D)) (st : G * D) (lens : list nat) (i : nat) : res (list (@trial A)) :=
  let '(ts, x, _) := run_trials step (nth i lens O) st in
  match x with Some e => Raise e | None => Ok ts end.
(** The outcomes that [pool.map] can have; with an exception there are no results. *)
Definition pool_outcome (procs : Z) (step : G * D -> res (@trial A) * (G * D)) (n : Z) (st : G * D)
    (out : list (@trial A) * option exn) : Prop :=
  if (procs <? 1)%Z then out = ([], Some ValueError)
  else
    let lens := chunk_lengths (Z.to_nat n) (chunksize n procs) n in
    exists f, completes (Z.to_nat procs) (length lens) f /\
      mr_get (mr_after (length lens) (chunk_outcome step st lens) f) =
        Some (match snd out with Some e => Raise e | None => Ok (fst out) end).

(** EEMD.eemd, EEMD.py:155-230, with [pooled] what [pool.map] delivers. *)
Definition eemd_with (pooled : (G * D -> res (@trial A) * (G * D)) -> G * D -> list (@trial A) * option exn)
    (c : eemd_config A) (o : eemd_state A G D) (S : vec) (T : option vec) (max_imf : Z)
  : res rows * eemd_state A G D :=
  let start :=
    let! T := match T with Some t => Ok t | None => timeline (length S) end in
    let! mx := np_max S in
    let! mn := np_min S in
    Ok (T, nmul (noise_width c) (nabs (nsub mx mn))) in
  match start with
  | Raise e => (Raise e, o)
  | Ok (T, scale) =>
    let step := trial_update gen dec c scale S T max_imf in
    let '(ts, x, st) :=
      if parallel c then
        let '(ts, x) := pooled step (random o, inner o) in
        (ts, x, (random o, inner o))
      else run_trials step (Z.to_nat (trials c)) (random o, inner o) in
    let o := MkESt (fst st) (snd st) (E_IMF o) (e_residue o)
               (match x with Some _ => if parallel c then all_imfs o else collect ts
                        | None => rename_trend (collect ts) end) in
    match x with
    | Some e => (Raise e, o)
    | None =>
      match mapM (fun p => np_array (snd p)) (all_imfs o) with
      | Raise e => (Raise e, o)
      | Ok _ =>
        match ensemble_mean (all_imfs o) with
        | Raise e => (Raise e, o)
        | Ok E =>
          match minus_rows S E with
          | Raise e => (Raise e, MkESt (random o) (inner o) (Some E) (e_residue o) (all_imfs o))
          | Ok r => (Ok E, MkESt (random o) (inner o) (Some E) (Some r) (all_imfs o))
          end
        end
      end
    end
  end.
(** The results a call of [eemd] can have, one for each schedule of the workers. *)
Definition eemd_can (c : eemd_config A) (o : eemd_state A G D) (S : vec) (T : option vec) (max_imf : Z)
    (result : res rows * eemd_state A G D) : Prop :=
  exists pooled, (forall step st, pool_outcome (processes c) step (trials c) st (pooled step st)) /\
    result = eemd_with pooled c o S T max_imf.
End EemdPool.

(** ** CEEMDAN *)
(** [imap_unordered] hands over one result after the other in the order of completion; the loop at
    CEEMDAN.py:363-367 stops at the first one that is an exception. *)
Section CeemdanPool.
Context {A : Type} `{Num A}.
Notation vec := (list A).
Notation rows := (list (list A)).
Variable emd_of : vec -> option vec -> Z -> res rows.
Definition c_outcome (c : ceemdan_config A) (noise_emd : list rows) (S T : vec) (i : nat) : res rows :=
  c_trial emd_of c noise_emd S T (Z.of_nat i).
(** CEEMDAN._eemd, CEEMDAN.py:343-372, in parallel, the trials done in the order [f]. *)
Definition inner_eemd_by (f : list nat) (c : ceemdan_config A) (noise_emd : list rows) (S : vec) (T : option vec) : res rows :=
  let T := match T with Some t => t | None => map nofZ (zseq 0 (length S)) end in
  let! _ := open_pool c in
  let! E := fold_left (fun E i => let! E := E in
                                  let! M := c_outcome c noise_emd S T i in
                                  accumulate (length S) (Ok E) M)
                      f (Ok [vzeros (length S)]) in
  Ok (div_rows E (nofZ (c_trials c))).

(** [Pool.map] over the noises, CEEMDAN.py:330-332: consecutive noises of the given lengths. *)
Fixpoint slices {X} (lens : list nat) (l : list X) : list (list X) :=
  match lens with
  | [] => []
  | n :: lens' => firstn n l :: slices lens' (skipn n l)
  end.
Definition noise_lens (c : ceemdan_config A) (noises : rows) : list nat :=
  chunk_lengths (length noises) (chunksize (zlen noises) (c_processes c)) (zlen noises).
Definition noise_outcome (c : ceemdan_config A) (noises : rows) (i : nat) : res (list rows) :=
  mapM (fun noise => emd_of noise None (-1)) (nth i (slices (noise_lens c noises) noises) []).
(** CEEMDAN._decompose_noise, CEEMDAN.py:328-341, in parallel, the chunks done in the order [f]
    ([get()] returns when all are done: [OutOfFuel] stands for a call that is still waiting). *)
Definition decompose_noise_by (std : vec -> A) (f : list nat) (c : ceemdan_config A) (noises : rows) : res (list rows) :=
  let! _ := open_pool c in
  let! all := match mr_get (mr_after (length (noise_lens c noises)) (noise_outcome c noises) f) with
              | Some r => r | None => Raise OutOfFuel end in
  if beta_progress c then
    let! stds := mapM (fun imfs => let! first := py_get imfs 0 in Ok (std first)) all in
    Ok (map2 div_rows all stds)
  else Ok all.
(** CEEMDAN.ceemdan, CEEMDAN.py:199-276, in parallel: [fn] is the order of completion in line 331,
    [ft] the one in line 363. *)
Definition ceemdan_rows_by (std : vec -> A) (fn ft : list nat) (c : ceemdan_config A) (noises : rows) (S : vec) (T : option vec)
    (max_imf : Z) : res rows :=
  let! noise_emd := decompose_noise_by std fn c noises in
  let! E := inner_eemd_by ft c noise_emd S T in
  let! first := py_get E 0 in
  let! cimfs := ceemdan_loop std emd_of (Z.to_nat (loop_limit c)) c noise_emd S T max_imf [first] (vsub S first) in
  Ok (cimfs ++ [vsub S (sum_rows (length S) cimfs)]).
Definition ceemdan_by {G} (gen : generator A G) (std : vec -> A) (fn ft : list nat) (c : ceemdan_config A) (o : ceemdan_state A G)
    (S : vec) (T : option vec) (max_imf : Z) : res rows * ceemdan_state A G :=
  let scale_s := std S in
  let S := map (fun x => ndiv x scale_s) S in
  let '(noises, g) := all_noises gen c (c_random o) (length S) in
  let result :=
    let! noises := noises in
    let! cimfs := ceemdan_rows_by std fn ft c noises S T max_imf in
    Ok (map (map (fun x => nmul x scale_s)) cimfs) in
  match result with
  | Raise e => (Raise e, MkCSt g (C_IMF o) (c_residue o))
  | Ok C => (Ok C, MkCSt g (Some C) (Some (vsub (map (fun x => nmul x scale_s) S) (sum_rows (length S) C))))
  end.
(** The results a call of [ceemdan] can have, one for each pair of schedules. *)
Definition ceemdan_can {G} (gen : generator A G) (std : vec -> A) (c : ceemdan_config A) (o : ceemdan_state A G)
    (S : vec) (T : option vec) (max_imf : Z) (result : res rows * ceemdan_state A G) : Prop :=
  exists fn ft, result = ceemdan_by gen std fn ft c o S T max_imf /\
    (1 <= c_processes c -> completes (Z.to_nat (c_processes c)) (Z.to_nat (c_trials c)) ft /\
       forall noises, fst (all_noises gen c (c_random o) (length S)) = Ok noises ->
         completes (Z.to_nat (c_processes c)) (length (noise_lens c noises)) fn)%Z.
End CeemdanPool.
