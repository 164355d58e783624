(** * HeapEemd: the EEMD class with arrays as mutable objects (EEMD.py:24-282).

    As in [Heap.v], the statements of [Eemd.v] act on arrays in memory.  [self.EMD] is PyEMD's
    own EMD.  [self._S], [self._T], [self._N], [self._scale] and [self.max_imf] (EEMD.py:186-190)
    are read only by the trials of the same call; they are arguments here. *)
From Verif Require Export Heap Eemd.

Section HeapEemd.
Context {A : Type} `{Num A}.
Notation vec := (list A).
Notation rows := (list (list A)).
Context {G : Type}.
Variable gen : generator A G.
Variable spl : spline_oracle A.
Variable fuel : nat.
Variable ec : emd_config A.

(** An entry of [self._all_imfs]: a list of row arrays, or (after EEMD.py:224-225) one
    two-dimensional array. *)
Inductive entry := RowList (l : list arr) | Block (a : arr).
Notation dict_h := (list (Z * entry)).

(** Memory with the attributes of the EEMD object (EEMD.py:89, 99-108). *)
Record emem := MkEMem {
  e_mem : mem A;                 (** buffers, and the attributes of [self.EMD] *)
  e_random : G; e_imf : option arr; e_res : option arr; e_all : dict_h
}.

(** The inner EMD object's attributes as values. *)
Definition read_mat (m : mem A) (a : option arr) : option rows :=
  match a with
  | Some a => match contents m a with Some (Mat x) => Some x | _ => None end
  | None => None
  end.
Definition read_vec (m : mem A) (a : option arr) : option vec :=
  match a with
  | Some a => match contents m a with Some (Vec x) => Some x | _ => None end
  | None => None
  end.
Definition inner_now (m : mem A) : emd_state A :=
  MkState (read_mat m (o_imfs m)) (read_vec m (o_residue m)).

(** EEMD._trial_update, EEMD.py:232-243.  [conv]: dtype conversions inside EMD.emd. *)
Definition trial_h (c : eemd_config A) (conv : bool * bool) (scale : A) (S T : arr) (max_imf : Z)
    (g : G) (m : mem A) : res (arr * option arr) * (G * mem A) :=
  let '(r, m) := (let* s := load_vec S in ret s) m in
  match r with
  | Raise e => (Raise e, (g, m))
  | Ok s =>
    let '(noise, g) := generate_noise gen c g scale (length s) in
    let '(r, m) :=
      (let* noise := lift noise in
       let* noise := alloc (Vec noise) in
       let* nv := load_vec noise in
       let* sn := alloc (Vec (vadd s nv)) in
       let* imfs := emd_h spl fuel ec (fst conv) (snd conv) sn (Some T) max_imf in
       if separate_trends c then
         let* (imfs, trend) := imfs_and_trend_h in ret (imfs, Some trend)
       else ret (imfs, None)) m in
    (r, (g, m))
  end.

(** [d[k].append(a)] on the defaultdict. *)
Fixpoint append_h (d : dict_h) (k : Z) (a : arr) : dict_h :=
  match d with
  | [] => [(k, RowList [a])]
  | (k', e) :: d' =>
      if k' =? k then (k', match e with RowList l => RowList (l ++ [a]) | Block b => Block b end) :: d'
      else (k', e) :: append_h d' k a
  end.
Fixpoint set_h (d : dict_h) (k : Z) (e : entry) : dict_h :=
  match d with
  | [] => [(k, e)]
  | (k', e') :: d' => if k' =? k then (k', e) :: d' else (k', e') :: set_h d' k e
  end.
Fixpoint get_h (d : dict_h) (k : Z) : option entry :=
  match d with
  | [] => None
  | (k', e) :: d' => if k' =? k then Some e else get_h d' k
  end.
Definition del_h (d : dict_h) (k : Z) : dict_h := filter (fun p => negb (fst p =? k)) d.

(** The body of the loop over the results, EEMD.py:213-217: iterating over [imfs] gives its
    rows as views. *)
Fixpoint enumerate_h (k : Z) (i n : nat) (d : dict_h) (a : arr) : dict_h :=
  match n with
  | O => d
  | S n' => enumerate_h (k + 1) (S i) n' (append_h d k (MkArr (base a) (Row i))) a
  end.
Definition collect_h (d : dict_h) (t : arr * option arr) (m : mem A) : res dict_h * mem A :=
  let d := match snd t with Some x => append_h d (-1) x | None => d end in
  (let* Mv := load_mat (fst t) in ret (enumerate_h 0 0 (length Mv) d (fst t))) m.

(** The serial loop, EEMD.py:199, 206-217: [map] is lazy, so a trial runs when its result is
    collected. *)
Fixpoint serial_h (c : eemd_config A) (conv : bool * bool) (scale : A) (S T : arr) (max_imf : Z) (n : nat)
    (d : dict_h) (g : G) (m : mem A) : option exn * dict_h * (G * mem A) :=
  match n with
  | O => (None, d, (g, m))
  | Datatypes.S n' =>
      let '(r, (g, m)) := trial_h c conv scale S T max_imf g m in
      match r with
      | Raise e => (Some e, d, (g, m))
      | Ok t => let '(r, m) := collect_h d t m in
                match r with
                | Raise e => (Some e, d, (g, m))
                | Ok d => serial_h c conv scale S T max_imf n' d g m
                end
      end
  end.

(** The results of worker processes arrive as new arrays (EEMD.py:194-199); the workers
    compute on copies ([pool_map], [Eemd.v]). *)
Fixpoint receive_h (ts : list (trial (A := A))) (d : dict_h) (m : mem A) : res dict_h * mem A :=
  match ts with
  | [] => (Ok d, m)
  | (Mv, t) :: ts' =>
      let '(r, m) :=
        (let* a := alloc (Mat Mv) in
         let* b := match t with
                   | Some v => let* b := alloc (Vec v) in ret (Some b)
                   | None => ret None
                   end in
         ret (a, b)) m in
      match r with
      | Raise e => (Raise e, m)
      | Ok t => let '(r, m) := collect_h d t m in
                match r with Raise e => (Raise e, m) | Ok d => receive_h ts' d m end
      end
  end.

(** EEMD.py:219-222. *)
Definition rename_h (d : dict_h) : dict_h :=
  match get_h d (-1) with
  | Some e => let d := del_h d (-1) in set_h d (zlen d) e
  | None => d
  end.

(** [self._all_imfs[k] = np.array(self._all_imfs[k])], EEMD.py:224-225: new arrays. *)
Fixpoint load_rows (l : list arr) : M A rows :=
  match l with
  | [] => ret []
  | a :: l' => let* v := load_vec a in let* vs := load_rows l' in ret (v :: vs)
  end.
Definition load_entry (e : entry) : M A rows :=
  match e with RowList l => load_rows l | Block a => load_mat a end.
Fixpoint blocks_h (d : dict_h) : M A dict_h :=
  match d with
  | [] => ret []
  | (k, e) :: d' =>
      let* Mv := load_entry e in
      let* Mv := lift (np_array Mv) in
      let* b := alloc (Mat Mv) in
      let* ds := blocks_h d' in
      ret ((k, Block b) :: ds)
  end.
(** EEMD.ensemble_mean, EEMD.py:276-278: a new array. *)
Fixpoint load_entries (d : dict_h) : M A (list (Z * rows)) :=
  match d with
  | [] => ret []
  | (k, e) :: d' =>
      let* Mv := load_entry e in let* ds := load_entries d' in ret ((k, Mv) :: ds)
  end.
Definition mean_h (d : dict_h) : M A arr :=
  let* dv := load_entries d in
  let* E := lift (ensemble_mean dv) in
  alloc (Mat E).

(** EEMD.eemd, EEMD.py:155-230.  The array it returns is the one it has stored (230). *)
Definition eemd_h (c : eemd_config A) (conv : bool * bool) (o : emem) (S : arr) (T : option arr) (max_imf : Z)
  : res arr * emem :=
  let '(start, m) :=
    (let* s := load_vec S in
     let* T := match T with
               | Some T => ret T
               | None => let* t := lift (timeline (length s)) in alloc (Vec t)
               end in
     let* mx := lift (np_max s) in
     let* mn := lift (np_min s) in
     ret (s, T, nmul (noise_width c) (nabs (nsub mx mn)))) (e_mem o) in
  match start with
  | Raise e => (Raise e, MkEMem m (e_random o) (e_imf o) (e_res o) (e_all o))
  | Ok (s, T, scale) =>
    let '(x, d, (g, m)) :=
      if parallel c then
        let '(r, m) := (let* t := load_vec T in ret t) m in
        match r with
        | Raise e => (Some e, e_all o, (e_random o, m))
        | Ok t =>
          let '(ts, x) := pool_map (processes c)
            (trial_update gen (emd_decomposer spl fuel ec) c scale s t max_imf)
            (trials c) (e_random o, inner_now m) in
          match x with
          | Some e => (Some e, e_all o, (e_random o, m))
          | None => let '(r, m) := receive_h ts [] m in
                    match r with
                    | Raise e => (Some e, e_all o, (e_random o, m))
                    | Ok d => (None, rename_h d, (e_random o, m))
                    end
          end
        end
      else
        let '(x, d, gm) := serial_h c conv scale S T max_imf (Z.to_nat (trials c)) [] (e_random o) m in
        (x, match x with Some _ => d | None => rename_h d end, gm) in
    let o := MkEMem m g (e_imf o) (e_res o) d in
    match x with
    | Some e => (Raise e, o)
    | None =>
      let '(r, m) := blocks_h d m in
      match r with
      | Raise e => (Raise e, MkEMem m g (e_imf o) (e_res o) d)
      | Ok d =>
        let '(r, m) := mean_h d m in
        match r with
        | Raise e => (Raise e, MkEMem m g (e_imf o) (e_res o) d)
        | Ok E =>
          let '(r, m) :=
            (let* s := load_vec S in
             let* Ev := load_mat E in
             let* rv := lift (minus_rows s Ev) in
             alloc (Vec rv)) m in
          match r with
          | Raise e => (Raise e, MkEMem m g (Some E) (e_res o) d)
          | Ok rr => (Ok E, MkEMem m g (Some E) (Some rr) d)
          end
        end
      end
    end
  end.

(** EEMD.get_imfs_and_residue, EEMD.py:253-265. *)
Definition eemd_imfs_and_residue_h (o : emem) : res (arr * arr) :=
  match e_imf o, e_res o with
  | Some i, Some r => Ok (i, r)
  | _, _ => Raise ValueError
  end.
End HeapEemd.
Arguments emem A G : clear implicits.
