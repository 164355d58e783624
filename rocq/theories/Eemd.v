(** * Eemd: model of the EEMD class (EEMD.py:24-282). *)
From Verif Require Export Emd.

Section Eemd.
Context {A : Type} `{Num A}.
Notation vec := (list A).
Notation rows := (list (list A)).

(** ** External objects *)
(** [np.random.RandomState] (EEMD.py:89): an arbitrary generator. *)
Record generator (G : Type) := MkGen {
  normal : G -> A -> nat -> vec * G;        (** normal(loc=0, scale, size), EEMD.py:140 *)
  uniform : G -> A -> A -> nat -> vec * G;  (** uniform(low, high, size), EEMD.py:142 *)
  seeded : Z -> G                           (** state after seed(s), EEMD.py:153 *)
}.
Arguments normal {G}. Arguments uniform {G}. Arguments seeded {G}.

(** The object [self.EMD] (EEMD.py:99-104): the default [EMD] or the one given as
    [ext_EMD].  [run] is its method [emd] (called at EEMD.py:251), [trend_of] its method
    [get_imfs_and_trend] (called at EEMD.py:241). *)
Record decomposer (D : Type) := MkDec {
  run : D -> vec -> vec -> Z -> res rows * D;
  trend_of : D -> res (rows * vec)
}.
Arguments run {D}. Arguments trend_of {D}.

(** PyEMD's own EMD as [self.EMD]. *)
Definition emd_decomposer (spl : spline_oracle A) (fuel : nat) (c : emd_config A)
  : decomposer (emd_state A) :=
  MkDec _ (fun st S T k => emd_call spl fuel c st S (Some T) k) get_imfs_and_trend.

Context {G D : Type}.
Variable gen : generator G.
Variable dec : decomposer D.

(** Attributes fixed by the constructor (EEMD.py:85-97).  [processes] is the number of
    worker processes (os.cpu_count() when not given). *)
Inductive noise_kinds := Normal | Uniform | OtherNoise.
Record eemd_config := MkECfg {
  trials : Z; noise_width : A; separate_trends : bool;
  noise_kind : noise_kinds; parallel : bool; processes : Z
}.

(** A Python dict from ints, in insertion order. *)
Notation dict := (list (Z * rows)).
(** [d[k].append(v)] on a defaultdict(list). *)
Fixpoint dict_append (d : dict) (k : Z) (v : vec) : dict :=
  match d with
  | [] => [(k, [v])]
  | (k', l) :: d' => if k' =? k then (k', l ++ [v]) :: d' else (k', l) :: dict_append d' k v
  end.
(** [d[k] = l] *)
Fixpoint dict_set (d : dict) (k : Z) (l : rows) : dict :=
  match d with
  | [] => [(k, l)]
  | (k', l') :: d' => if k' =? k then (k', l) :: d' else (k', l') :: dict_set d' k l
  end.
Fixpoint dict_get (d : dict) (k : Z) : option rows :=
  match d with
  | [] => None
  | (k', l) :: d' => if k' =? k then Some l else dict_get d' k
  end.
Definition dict_del (d : dict) (k : Z) : dict := filter (fun p => negb (fst p =? k)) d.

(** The mutable attributes (EEMD.py:89, 99-108). *)
Record eemd_state := MkESt {
  random : G; inner : D;
  E_IMF : option rows; e_residue : option vec; all_imfs : dict
}.

(** EEMD.generate_noise, EEMD.py:119-149. *)
Definition generate_noise (c : eemd_config) (g : G) (scale : A) (size : nat) : res vec * G :=
  match noise_kind c with
  | Normal => let (v, g') := normal gen g scale size in (Ok v, g')
  | Uniform =>
      let (v, g') := uniform gen g (ndiv (nopp scale) n2) (ndiv scale n2) size in (Ok v, g')
  | OtherNoise => (Raise ValueError, g)
  end.

(** EEMD.noise_seed, EEMD.py:151-153. *)
Definition noise_seed (o : eemd_state) (s : Z) : eemd_state :=
  MkESt (seeded gen s) (inner o) (E_IMF o) (e_residue o) (all_imfs o).

(** EEMD._trial_update, EEMD.py:232-243.  The state is the part of [self] a trial changes. *)
Definition trial := (rows * option vec)%type.
Definition trial_update (c : eemd_config) (scale : A) (S T : vec) (max_imf : Z) (st : G * D)
  : res trial * (G * D) :=
  let '(noise, g) := generate_noise c (fst st) scale (length S) in
  match noise with
  | Raise e => (Raise e, (g, snd st))
  | Ok noise =>
      let '(r, d) := run dec (snd st) (vadd S noise) T max_imf in
      match r with
      | Raise e => (Raise e, (g, d))
      | Ok imfs =>
          if separate_trends c then
            match trend_of dec d with
            | Raise e => (Raise e, (g, d))
            | Ok (imfs, trend) => (Ok (imfs, Some trend), (g, d))
            end
          else (Ok (imfs, None), (g, d))
      end
  end.

(** [map(self._trial_update, range(n))] consumed in order: results up to the first
    exception, that exception, final state. *)
Fixpoint run_trials (step : G * D -> res trial * (G * D)) (n : nat) (st : G * D)
  : list trial * option exn * (G * D) :=
  match n with
  | O => ([], None, st)
  | S n' =>
      let '(r, st) := step st in
      match r with
      | Raise e => ([], Some e, st)
      | Ok t => let '(ts, x, st) := run_trials step n' st in (t :: ts, x, st)
      end
  end.

(** [multiprocessing.Pool.map] (CPython's standard library, outside /repo): the iterable is
    cut into chunks of [chunksize]; the bound method [self._trial_update], and with it a copy
    of [self], is pickled once per chunk; the trials of one chunk run in order on that copy;
    results come back in order.  The copies are discarded. *)
Definition chunksize (n procs : Z) : Z :=
  n / (procs * 4) + (if n mod (procs * 4) =? 0 then 0 else 1).
(** Lengths of the chunks of [n] items. *)
Fixpoint chunk_lengths (fuel : nat) (size n : Z) : list nat :=
  match fuel with
  | O => []
  | S fuel' =>
      if n <=? 0 then [] else Z.to_nat (Z.min size n) :: chunk_lengths fuel' size (n - size)
  end.
(** With failing trials the exception of the first failing chunk is reported; in reality it
    is that of the chunk failing first in time, which is the same one (C96_eemd). *)
Fixpoint pool_chunks (step : G * D -> res trial * (G * D)) (st : G * D) (lens : list nat)
  : list trial * option exn :=
  match lens with
  | [] => ([], None)
  | n :: lens' =>
      let '(ts, x, _) := run_trials step n st in
      match x with
      | Some e => ([], Some e)
      | None => let '(ts', x') := pool_chunks step st lens' in (ts ++ ts', x')
      end
  end.
Definition pool_map (procs : Z) (step : G * D -> res trial * (G * D)) (n : Z) (st : G * D)
  : list trial * option exn :=
  if procs <? 1 then ([], Some ValueError)
  else pool_chunks step st (chunk_lengths (Z.to_nat n) (chunksize n procs) n).

(** The loop over the trial results, EEMD.py:204-217. *)
Fixpoint enumerate_append (k : Z) (d : dict) (imfs : rows) : dict :=
  match imfs with
  | [] => d
  | x :: imfs' => enumerate_append (k + 1) (dict_append d k x) imfs'
  end.
Definition collect_one (d : dict) (t : trial) : dict :=
  let d := match snd t with Some v => dict_append d (-1) v | None => d end in
  enumerate_append 0 d (fst t).
Definition collect (ts : list trial) : dict := fold_left collect_one ts [].

(** EEMD.py:219-222: [d[len(d)] = d.pop(-1)]; the right-hand side is evaluated first. *)
Definition rename_trend (d : dict) : dict :=
  match dict_get d (-1) with
  | Some l => let d := dict_del d (-1) in dict_set d (zlen d) l
  | None => d
  end.

(** [np.array(rows)]: ValueError when the rows have different lengths. *)
Definition np_array (l : rows) : res rows :=
  match l with
  | [] => Ok []
  | x :: l' => if forallb (fun y => Nat.eqb (length y) (length x)) l' then Ok l
               else Raise ValueError
  end.
(** [rows.mean(axis=0)] *)
Definition mean_rows (l : rows) : vec :=
  match l with
  | [] => []
  | x :: _ => map (fun s => ndiv s (nofZ (zlen l))) (sum_rows (length x) l)
  end.

(** EEMD.ensemble_count, EEMD.py:272-274; EEMD.ensemble_mean, EEMD.py:276-278. *)
Definition ensemble_count (d : dict) : list Z := map (fun p => zlen (snd p)) d.
Definition ensemble_mean (d : dict) : res rows := np_array (map (fun p => mean_rows (snd p)) d).

(** [S - np.sum(E_IMF, axis=0)], EEMD.py:228 (and CEEMDAN.py).  Summing the empty array
    gives the number 0. *)
Definition minus_rows (S : vec) (E : rows) : res vec :=
  match E with
  | [] => Ok (map (fun x => nsub x n0) S)
  | x :: _ => broadcast2 nsub S (sum_rows (length x) E)
  end.

(** EEMD.eemd, EEMD.py:155-230: result and object afterwards. *)
Definition eemd (c : eemd_config) (o : eemd_state) (S : vec) (T : option vec) (max_imf : Z)
  : res rows * eemd_state :=
  let start :=
    let! T := match T with Some t => Ok t | None => timeline (length S) end in
    let! mx := np_max S in
    let! mn := np_min S in
    Ok (T, nmul (noise_width c) (nabs (nsub mx mn))) in
  match start with
  | Raise e => (Raise e, o)
  | Ok (T, scale) =>
    let step := trial_update c scale S T max_imf in
    let '(ts, x, st) :=
      if parallel c then
        let '(ts, x) := pool_map (processes c) step (trials c) (random o, inner o) in
        (ts, x, (random o, inner o))
      else run_trials step (Z.to_nat (trials c)) (random o, inner o) in
    let o := MkESt (fst st) (snd st) (E_IMF o) (e_residue o)
               (match x with Some _ => if parallel c then all_imfs o else collect ts
                        | None => rename_trend (collect ts) end) in
    match x with
    | Some e => (Raise e, o)
    | None =>
      match mapM (fun p => np_array (snd p)) (all_imfs o) with
      | Raise e => (Raise e, o)
      | Ok _ =>
        match ensemble_mean (all_imfs o) with
        | Raise e => (Raise e, o)
        | Ok E =>
          match minus_rows S E with
          | Raise e => (Raise e, MkESt (random o) (inner o) (Some E) (e_residue o) (all_imfs o))
          | Ok r => (Ok E, MkESt (random o) (inner o) (Some E) (Some r) (all_imfs o))
          end
        end
      end
    end
  end.

(** EEMD.get_imfs_and_residue, EEMD.py:253-265. *)
Definition eemd_imfs_and_residue (o : eemd_state) : res (rows * vec) :=
  match E_IMF o, e_residue o with
  | Some i, Some r => Ok (i, r)
  | _, _ => Raise ValueError
  end.
End Eemd.
Arguments generator A G : clear implicits.
Arguments normal {A G}. Arguments uniform {A G}. Arguments seeded {A G}. Arguments MkGen {A G}.
Arguments decomposer A D : clear implicits.
Arguments run {A D}. Arguments trend_of {A D}. Arguments MkDec {A D}.
Arguments eemd_config A : clear implicits.
Arguments eemd_state A G D : clear implicits.
