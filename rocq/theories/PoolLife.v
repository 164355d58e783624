(** * PoolLife: which worker pools EEMD and CEEMDAN open, and which of them they close.

    The programs of [Eemd.v] and [Ceemdan.v] again, with a record of every [Pool(...)] and every
    [pool.close()].  Neither class uses [with] or [try], so an exception between the two skips the
    second.  What the garbage collector does to a pool that nobody can reach any more is not
    modelled.  Simplification: [Pool(...)] fails only for fewer than one process. *)
From Verif Require Export Ceemdan.

(** A pool is opened; a pool is closed. *)
Inductive event := Opened | Closed.

(** A result together with the events on the way to it. *)
Definition logged (X : Type) := (res X * list event)%type.
Definition lbind {X Y} (m : logged X) (f : X -> logged Y) : logged Y :=
  match fst m with
  | Raise e => (Raise e, snd m)
  | Ok x => let (r, l) := f x in (r, snd m ++ l)
  end.
(** A piece of code that has nothing to do with pools. *)
Definition quietly {X} (r : res X) : logged X := (r, []).
Notation "'log!' x := m 'in' f" := (lbind m (fun x => f)) (at level 200, x pattern, m at level 100, f at level 200).

Section Life.
Context {A : Type} `{Num A}.
Notation vec := (list A).
Notation rows := (list (list A)).
Context {G D : Type}.
Variable gen : generator A G.

(** [if self.parallel: pool = Pool(processes=self.processes)], EEMD.py:194-195,
    CEEMDAN.py:329-330 and 354-355. *)
Definition enter (par : bool) (procs : Z) : logged unit :=
  if par then if procs <? 1 then (Raise ValueError, []) else (Ok tt, [Opened]) else (Ok tt, []).
(** [if self.parallel: pool.close()], EEMD.py:201-202, CEEMDAN.py:332 and 369-370. *)
Definition leave (par : bool) : logged unit := (Ok tt, if par then [Closed] else []).

(** ** EEMD.eemd, EEMD.py:155-230 *)
Variable dec : decomposer A D.

(** Lines 182-202.  In parallel mode the trials are over before [pool.close()]; in serial mode they
    run later, in the loop. *)
Definition eemd_pool (c : eemd_config A) (o : eemd_state A G D) (S : vec) (T : option vec) (max_imf : Z)
  : logged (vec * A * option (list trial)) :=
  log! T := quietly (match T with Some t => Ok t | None => timeline (length S) end) in
  log! mx := quietly (np_max S) in
  log! mn := quietly (np_min S) in
  let scale := nmul (noise_width c) (nabs (nsub mx mn)) in
  log! _ := enter (parallel c) (processes c) in
  log! all_IMFs := quietly
    (if parallel c then
       match pool_map (processes c) (trial_update gen dec c scale S T max_imf) (trials c) (random o, inner o) with
       | (ts, None) => Ok (Some ts)
       | (_, Some e) => Raise e
       end
     else Ok None) in
  log! _ := leave (parallel c) in
  quietly (Ok (T, scale, all_IMFs)).

(** Lines 204-230: no pool is opened or closed here. *)
Definition eemd_rest (c : eemd_config A) (o : eemd_state A G D) (S : vec) (max_imf : Z)
    (x : vec * A * option (list trial)) : res rows * eemd_state A G D :=
  let '(T, scale, all_IMFs) := x in
  let '(ts, x, st) := match all_IMFs with
                      | Some ts => (ts, None, (random o, inner o))
                      | None => run_trials (trial_update gen dec c scale S T max_imf) (Z.to_nat (trials c)) (random o, inner o)
                      end in
  let o := MkESt (fst st) (snd st) (E_IMF o) (e_residue o)
             (match x with Some _ => collect ts | None => rename_trend (collect ts) end) in
  match x with
  | Some e => (Raise e, o)
  | None =>
    match mapM (fun p => np_array (snd p)) (all_imfs o) with
    | Raise e => (Raise e, o)
    | Ok _ =>
      match ensemble_mean (all_imfs o) with
      | Raise e => (Raise e, o)
      | Ok E =>
        match minus_rows S E with
        | Raise e => (Raise e, MkESt (random o) (inner o) (Some E) (e_residue o) (all_imfs o))
        | Ok r => (Ok E, MkESt (random o) (inner o) (Some E) (Some r) (all_imfs o))
        end
      end
    end
  end.

Definition eemd_events (c : eemd_config A) (o : eemd_state A G D) (S : vec) (T : option vec) (max_imf : Z)
  : (res rows * eemd_state A G D) * list event :=
  let (r, l) := eemd_pool c o S T max_imf in
  match r with
  | Raise e => ((Raise e, o), l)
  | Ok x => (eemd_rest c o S max_imf x, l)
  end.

(** ** CEEMDAN.ceemdan, CEEMDAN.py:199-276 *)
Variable std : vec -> A.
Variable emd_of : vec -> option vec -> Z -> res rows.
Variable arrival : list rows -> list rows.

(** CEEMDAN._decompose_noise, CEEMDAN.py:328-341. *)
Definition decompose_noise_events (c : ceemdan_config A) (noises : rows) : logged (list rows) :=
  log! _ := enter (c_parallel c) (c_processes c) in
  log! all := quietly (mapM (fun noise => emd_of noise None (-1)) noises) in
  log! _ := leave (c_parallel c) in
  quietly
    (if beta_progress c then
       let! stds := mapM (fun imfs => let! first := py_get imfs 0 in Ok (std first)) all in
       Ok (map2 div_rows all stds)
     else Ok all).

(** CEEMDAN._eemd, CEEMDAN.py:343-372.  The loop 363-367 takes the results from the pool. *)
Definition inner_eemd_events (c : ceemdan_config A) (noise_emd : list rows) (S : vec) (T : option vec) : logged rows :=
  let T := match T with Some t => t | None => map nofZ (zseq 0 (length S)) end in
  log! _ := enter (c_parallel c) (c_processes c) in
  log! E := quietly
    (let! results := mapM (c_trial emd_of c noise_emd S T) (zrange 0 (c_trials c)) in
     let results := if c_parallel c then arrival results else results in
     fold_left (accumulate (length S)) results (Ok [vzeros (length S)])) in
  log! _ := leave (c_parallel c) in
  quietly (Ok (div_rows E (nofZ (c_trials c)))).

Definition ceemdan_rows_events (c : ceemdan_config A) (noises : rows) (S : vec) (T : option vec) (max_imf : Z)
  : logged rows :=
  log! noise_emd := decompose_noise_events c noises in
  log! E := inner_eemd_events c noise_emd S T in
  quietly
    (let! first := py_get E 0 in
     let! cimfs := ceemdan_loop std emd_of (Z.to_nat (loop_limit c)) c noise_emd S T max_imf [first] (vsub S first) in
     Ok (cimfs ++ [vsub S (sum_rows (length S) cimfs)])).

Definition ceemdan_events (c : ceemdan_config A) (o : ceemdan_state A G) (S : vec) (T : option vec) (max_imf : Z)
  : (res rows * ceemdan_state A G) * list event :=
  let scale_s := std S in
  let S := map (fun x => ndiv x scale_s) S in
  let '(noises, g) := all_noises gen c (c_random o) (length S) in
  let (result, l) :=
    log! noises := quietly noises in
    log! cimfs := ceemdan_rows_events c noises S T max_imf in
    quietly (Ok (map (map (fun x => nmul x scale_s)) cimfs)) in
  (match result with
   | Raise e => (Raise e, MkCSt g (C_IMF o) (c_residue o))
   | Ok C => (Ok C, MkCSt g (Some C) (Some (vsub (map (fun x => nmul x scale_s) S) (sum_rows (length S) C))))
   end, l).

(** ** Programs: runs of one object, one after the other, with any settings and inputs; runs that raise are caught. *)
Record request (C : Type) := MkReq { r_cfg : C; r_S : vec; r_T : option vec; r_k : Z }.
Fixpoint program {C St : Type} (go : C -> St -> vec -> option vec -> Z -> (res rows * St) * list event)
    (o : St) (l : list (request C)) : list (res rows) * list event :=
  match l with
  | [] => ([], [])
  | q :: l' =>
      let '((r, o'), ev) := go (r_cfg _ q) o (r_S _ q) (r_T _ q) (r_k _ q) in
      let (rs, evs) := program go o' l' in (r :: rs, ev ++ evs)
  end.
End Life.
Arguments MkReq {A C}. Arguments r_cfg {A C}. Arguments r_S {A C}. Arguments r_T {A C}. Arguments r_k {A C}.
