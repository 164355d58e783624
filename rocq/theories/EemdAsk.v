(** * EemdAsk: the dictionary behind EEMD's ensemble queries (EEMD.py:155-230, 267-282).

    Eemd.v gives the rows collected per order.  Here the dictionary itself is modelled: whether it
    is a [defaultdict] or a plain [dict], and whether an order holds a Python list or an array.
    The difference shows when a run raises: the conversions of EEMD.py:219-225 are skipped, and a
    list has no methods [mean] and [std]. *)
From Verif Require Export Eemd EemdStats.

Section Ask.
Context {A : Type} `{Num A}.
Notation vec := (list A).
Notation rows := (list (list A)).

(** The value at an order: the list filled at EEMD.py:213-217, or the array of EEMD.py:225. *)
Inductive block := Listed (l : rows) | Stacked (l : rows).
Definition rows_of (b : block) : rows := match b with Listed l => l | Stacked l => l end.

(** [self._all_imfs]: [grows] tells whether it is a [defaultdict(list)] (EEMD.py:204) or a plain
    [dict] (EEMD.py:108, 220); [orders] are its items in insertion order. *)
Record ensemble := MkEns { grows : bool; orders : list (Z * block) }.

(** EEMD.ensemble_count, EEMD.py:272-274: [len] works on lists and on arrays. *)
Definition ask_count (e : ensemble) : list Z := map (fun p => zlen (rows_of (snd p))) (orders e).
(** [imfs.mean(axis=0)] and [imfs.std(axis=0)] of one order. *)
Definition on_array (f : rows -> vec) (b : block) : res vec :=
  match b with Listed _ => Raise AttributeError | Stacked l => Ok (f l) end.
(** EEMD.ensemble_mean, EEMD.py:276-278. *)
Definition ask_mean (e : ensemble) : res rows :=
  let! ms := mapM (fun p => on_array mean_rows (snd p)) (orders e) in np_array ms.
(** EEMD.ensemble_std, EEMD.py:280-282. *)
Definition ask_std (sqrt : A -> A) (e : ensemble) : res rows :=
  let! ms := mapM (fun p => on_array (std_rows sqrt) (snd p)) (orders e) in np_array ms.

(** [eemd.all_imfs[k]] (the property at EEMD.py:267-270, then Python's indexing): a missing key
    raises KeyError on a dict; a defaultdict inserts an empty list under it. *)
Fixpoint order_get (l : list (Z * block)) (k : Z) : option block :=
  match l with
  | [] => None
  | (k', b) :: l' => if k' =? k then Some b else order_get l' k
  end.
Definition ask_order (e : ensemble) (k : Z) : res block * ensemble :=
  match order_get (orders e) k with
  | Some b => (Ok b, e)
  | None => if grows e then (Ok (Listed []), MkEns true (orders e ++ [(k, Listed [])]))
            else (Raise KeyError, e)
  end.

(** EEMD.py:224-225: the conversion loop; an exception leaves the later orders as lists. *)
Fixpoint stack_all (d : list (Z * rows)) : list (Z * block) * option exn :=
  match d with
  | [] => ([], None)
  | (k, l) :: d' =>
      match np_array l with
      | Raise e => ((k, Listed l) :: map (fun p => (fst p, Listed (snd p))) d', Some e)
      | Ok l => let '(bs, x) := stack_all d' in ((k, Stacked l) :: bs, x)
      end
  end.

Context {G D : Type}.
Variable gen : generator A G.
Variable dec : decomposer A D.

(** The mutable attributes (EEMD.py:89, 99-108), with the dictionary as above. *)
Record eemd_object := MkEObj {
  o_random : G; o_inner : D; o_E_IMF : option rows; o_residue : option vec; o_ens : ensemble
}.

(** The attributes a new object starts with (EEMD.py:89, 99-108). *)
Definition new_object (g : G) (d : D) : eemd_object := MkEObj g d None None (MkEns false []).

(** EEMD.noise_seed, EEMD.py:151-153. *)
Definition ask_seed (o : eemd_object) (s : Z) : eemd_object :=
  MkEObj (seeded gen s) (o_inner o) (o_E_IMF o) (o_residue o) (o_ens o).

(** EEMD.py:204-230: the rest of a run, once every trial has given its result. *)
Definition finish (o : eemd_object) (st : G * D) (S : vec) (ts : list (trial (A := A)))
  : res rows * eemd_object :=
  let '(bs, x) := stack_all (rename_trend (collect ts)) in
  let e := MkEns false bs in
  let keep E r := MkEObj (fst st) (snd st) E r e in
  match x with
  | Some x => (Raise x, keep (o_E_IMF o) (o_residue o))
  | None =>
    match ask_mean e with
    | Raise x => (Raise x, keep (o_E_IMF o) (o_residue o))
    | Ok E =>
      match minus_rows S E with
      | Raise x => (Raise x, keep (Some E) (o_residue o))
      | Ok r => (Ok E, keep (Some E) (Some r))
      end
    end
  end.

(** EEMD.eemd, EEMD.py:155-230: result and object afterwards. *)
Definition ask_eemd (c : eemd_config A) (o : eemd_object) (S : vec) (T : option vec) (max_imf : Z)
  : res rows * eemd_object :=
  let start :=
    let! T := match T with Some t => Ok t | None => timeline (length S) end in
    let! mx := np_max S in
    let! mn := np_min S in
    Ok (T, nmul (noise_width c) (nabs (nsub mx mn))) in
  match start with
  | Raise e => (Raise e, o)
  | Ok (T, scale) =>
    let step := trial_update gen dec c scale S T max_imf in
    if parallel c then
      (** [pool.map] runs all trials before EEMD.py:204. *)
      match pool_map (processes c) step (trials c) (o_random o, o_inner o) with
      | (_, Some e) => (Raise e, o)
      | (ts, None) => finish o (o_random o, o_inner o) S ts
      end
    else
      (** [map] runs a trial when the loop of EEMD.py:206 asks for its result. *)
      match run_trials step (Z.to_nat (trials c)) (o_random o, o_inner o) with
      | (ts, Some e, st) =>
          (Raise e, MkEObj (fst st) (snd st) (o_E_IMF o) (o_residue o)
                      (MkEns true (map (fun p => (fst p, Listed (snd p))) (collect ts))))
      | (ts, None, st) => finish o st S ts
      end
  end.
End Ask.
Arguments block A : clear implicits.
Arguments ensemble A : clear implicits.
Arguments eemd_object A G D : clear implicits.
