(** * EemdThreads: one EEMD object, without worker processes, called from several threads.

    [EEMD.eemd] keeps the signal, its time array, the scale of the noise, the collected components and the
    result in attributes of the object, and has no lock.  Here any number of threads call it on one object
    with [parallel=False].  One step of a thread is one access to an attribute, or one call of a method of the
    generator, of the EMD object, or of the dictionary of components.  A schedule says which thread makes the
    next step.

    Simplifications: the settings of the object are not changed meanwhile; the run of the EMD object in one trial
    is one step (what threads do to each other inside it is C103); the loops over the dictionary at
    EEMD.py:224-225 and 278 go over the keys, and values, it has when the loop starts; the mean of no rows is an
    empty row (there are none unless another thread has just emptied the dictionary). *)
From Verif Require Export Eemd.

Section Threads.
Context {A : Type} `{Num A}.
Notation vec := (list A).
Notation rows := (list (list A)).
Context {G D : Type}.
Variable gen : generator A G.
Variable dec : decomposer A D.
Variable c : eemd_config A.

(** A value of the dictionary: a list of rows, or an array of them (after EEMD.py:225). *)
Inductive cell := Listed (l : rows) | Arrayed (l : rows).
Definition cell_rows (x : cell) : rows := match x with Listed l => l | Arrayed l => l end.
(** A [defaultdict(list)] (EEMD.py:204) or a [dict] (220). *)
Record dictionary := MkDict { defaulting : bool; entries : list (Z * cell) }.

Fixpoint lookup (d : list (Z * cell)) (k : Z) : option cell :=
  match d with
  | [] => None
  | (k', x) :: d' => if k' =? k then Some x else lookup d' k
  end.
Fixpoint assign (d : list (Z * cell)) (k : Z) (x : cell) : list (Z * cell) :=
  match d with
  | [] => [(k, x)]
  | (k', x') :: d' => if k' =? k then (k', x) :: d' else (k', x') :: assign d' k x
  end.
Definition without (d : list (Z * cell)) (k : Z) : list (Z * cell) := filter (fun p => negb (fst p =? k)) d.
(** [d[k].append(v)]: KeyError in a dict without the key, AttributeError if the value is an array. *)
Definition append_to (d : dictionary) (k : Z) (v : vec) : res dictionary :=
  match lookup (entries d) k with
  | None => if defaulting d then Ok (MkDict true (assign (entries d) k (Listed [v]))) else Raise KeyError
  | Some (Listed l) => Ok (MkDict (defaulting d) (assign (entries d) k (Listed (l ++ [v]))))
  | Some (Arrayed _) => Raise AttributeError
  end.
(** [d[k]] *)
Definition item (d : dictionary) (k : Z) : res (cell * dictionary) :=
  match lookup (entries d) k with
  | Some x => Ok (x, d)
  | None => if defaulting d then Ok (Listed [], MkDict true (assign (entries d) k (Listed []))) else Raise KeyError
  end.

(** The attributes: [_S], [_T], [_N], [_scale], [max_imf] (EEMD.py:186-190; a new object lacks them, but every
    call writes them before it reads them), [random], [EMD], [_all_imfs], [E_IMF], [residue]. *)
Record attributes := MkAttributes {
  at_S : vec; at_T : vec; at_N : nat; at_scale : A; at_max : Z;
  at_random : G; at_inner : D; at_all : dictionary; at_E : option rows; at_residue : option vec
}.
Definition set_S v a := MkAttributes v (at_T a) (at_N a) (at_scale a) (at_max a) (at_random a) (at_inner a) (at_all a) (at_E a) (at_residue a).
Definition set_T v a := MkAttributes (at_S a) v (at_N a) (at_scale a) (at_max a) (at_random a) (at_inner a) (at_all a) (at_E a) (at_residue a).
Definition set_N v a := MkAttributes (at_S a) (at_T a) v (at_scale a) (at_max a) (at_random a) (at_inner a) (at_all a) (at_E a) (at_residue a).
Definition set_scale v a := MkAttributes (at_S a) (at_T a) (at_N a) v (at_max a) (at_random a) (at_inner a) (at_all a) (at_E a) (at_residue a).
Definition set_max v a := MkAttributes (at_S a) (at_T a) (at_N a) (at_scale a) v (at_random a) (at_inner a) (at_all a) (at_E a) (at_residue a).
Definition set_random v a := MkAttributes (at_S a) (at_T a) (at_N a) (at_scale a) (at_max a) v (at_inner a) (at_all a) (at_E a) (at_residue a).
Definition set_inner v a := MkAttributes (at_S a) (at_T a) (at_N a) (at_scale a) (at_max a) (at_random a) v (at_all a) (at_E a) (at_residue a).
Definition set_all v a := MkAttributes (at_S a) (at_T a) (at_N a) (at_scale a) (at_max a) (at_random a) (at_inner a) v (at_E a) (at_residue a).
Definition set_E v a := MkAttributes (at_S a) (at_T a) (at_N a) (at_scale a) (at_max a) (at_random a) (at_inner a) (at_all a) v (at_residue a).
Definition set_residue v a := MkAttributes (at_S a) (at_T a) (at_N a) (at_scale a) (at_max a) (at_random a) (at_inner a) (at_all a) (at_E a) v.

(** What a thread still has to do: nothing, with this outcome, or one step on the attributes and then, depending
    on what it saw, the rest. *)
Inductive prog (R : Type) :=
| Ret (r : res R)
| Do (change : attributes -> attributes) (rest : attributes -> prog R).
Arguments Ret {R}. Arguments Do {R}.
Fixpoint seqp {R R'} (p : prog R) (k : R -> prog R') : prog R' :=
  match p with
  | Ret (Ok r) => k r
  | Ret (Raise e) => Ret (Raise e)
  | Do w f => Do w (fun a => seqp (f a) k)
  end.
(** Read an attribute; write one; do something with one that may raise. *)
Definition see {R} (f : attributes -> R) : prog R := Do (fun a => a) (fun a => Ret (Ok (f a))).
Definition put (w : attributes -> attributes) : prog unit := Do w (fun _ => Ret (Ok tt)).
Definition act {R} (f : attributes -> res R * attributes) : prog R := Do (fun a => snd (f a)) (fun a => Ret (fst (f a))).
Notation "'do' x <- p ;; q" := (seqp p (fun x => q)) (at level 200, x name, p at level 100, q at level 200).

(** [self._all_imfs[k].append(v)] *)
Definition append (k : Z) (v : vec) : prog unit :=
  act (fun a => match append_to (at_all a) k v with
                | Ok d => (Ok tt, set_all d a)
                | Raise e => (Raise e, a)
                end).
(** EEMD.py:216-217. *)
Fixpoint append_all (k : Z) (imfs : rows) : prog unit :=
  match imfs with
  | [] => Ret (Ok tt)
  | x :: imfs' => do _ <- append k x ;; append_all (k + 1) imfs'
  end.
(** EEMD._trial_update, EEMD.py:232-243. *)
Definition one_trial : prog (rows * option vec) :=
  do scale <- see at_scale ;;
  do n <- see at_N ;;
  do noise <- act (fun a => let '(v, g) := generate_noise gen c (at_random a) scale n in (v, set_random g a)) ;;
  do X <- act (fun a => (broadcast2 nadd (at_S a) noise, a)) ;;
  do T <- see at_T ;;
  do k <- see at_max ;;
  do imfs <- act (fun a => let '(r, d) := run dec (at_inner a) X T k in (r, set_inner d a)) ;;
  if separate_trends c
  then do p <- act (fun a => (trend_of dec (at_inner a), a)) ;; Ret (Ok (fst p, Some (snd p)))
  else Ret (Ok (imfs, None)).
(** The loop over the trials, EEMD.py:206-217; [map] makes a trial when the loop asks for it. *)
Fixpoint trials_loop (n : nat) : prog unit :=
  match n with
  | O => Ret (Ok tt)
  | Datatypes.S n' =>
      do t <- one_trial ;;
      do _ <- match snd t with Some v => append (-1) v | None => Ret (Ok tt) end ;;
      do _ <- append_all 0 (fst t) ;;
      trials_loop n'
  end.
(** [self._all_imfs[k] = np.array(self._all_imfs[k])] for every key, EEMD.py:224-225. *)
Fixpoint arrays_loop (keys : list Z) : prog unit :=
  match keys with
  | [] => Ret (Ok tt)
  | k :: keys' =>
      do x <- act (fun a => match item (at_all a) k with Ok (x, d) => (Ok x, set_all d a) | Raise e => (Raise e, a) end) ;;
      do l <- Ret (np_array (cell_rows x)) ;;
      do _ <- put (fun a => set_all (MkDict (defaulting (at_all a)) (assign (entries (at_all a)) k (Arrayed l))) a) ;;
      arrays_loop keys'
  end.
(** EEMD.ensemble_mean, EEMD.py:276-278: lists have no method [mean]. *)
Definition cell_mean (x : cell) : res vec :=
  match x with Arrayed l => Ok (mean_rows l) | Listed _ => Raise AttributeError end.
Definition means (d : dictionary) : res rows := let! l := mapM (fun p => cell_mean (snd p)) (entries d) in np_array l.

(** EEMD.eemd, EEMD.py:155-230. *)
Definition eemd_prog (X : vec) (T : option vec) (k : Z) : prog rows :=
  let start :=
    let! T := match T with Some t => Ok t | None => timeline (length X) end in
    let! mx := np_max X in
    let! mn := np_min X in
    Ok (T, nmul (noise_width c) (nabs (nsub mx mn))) in
  match start with
  | Raise e => Ret (Raise e)
  | Ok (T, scale) =>
      do _ <- put (set_S X) ;;
      do _ <- put (set_T T) ;;
      do _ <- put (set_N (length X)) ;;
      do _ <- put (set_scale scale) ;;
      do _ <- put (set_max k) ;;
      do _ <- put (set_all (MkDict true [])) ;;                                            (* 204 *)
      do _ <- trials_loop (Z.to_nat (trials c)) ;;
      do _ <- put (fun a => set_all (MkDict false (entries (at_all a))) a) ;;              (* 220 *)
      do x <- see (fun a => lookup (entries (at_all a)) (-1)) ;;                           (* 221 *)
      do _ <- match x with
              | None => Ret (Ok tt)
              | Some _ =>                                                                  (* 222 *)
                  do y <- act (fun a => match lookup (entries (at_all a)) (-1) with
                                        | Some y => (Ok y, set_all (MkDict (defaulting (at_all a)) (without (entries (at_all a)) (-1))) a)
                                        | None => (Raise KeyError, a)
                                        end) ;;
                  do n <- see (fun a => zlen (entries (at_all a))) ;;
                  put (fun a => set_all (MkDict (defaulting (at_all a)) (assign (entries (at_all a)) n y)) a)
              end ;;
      do keys <- see (fun a => map fst (entries (at_all a))) ;;
      do _ <- arrays_loop keys ;;
      do E <- act (fun a => (means (at_all a), a)) ;;
      do _ <- put (set_E (Some E)) ;;                                                      (* 227 *)
      do E <- see at_E ;;
      do r <- Ret (match E with Some E => minus_rows X E | None => Raise TypeError end) ;;  (* 228 *)
      do _ <- put (set_residue (Some r)) ;;
      do E <- see at_E ;;                                                                  (* 230 *)
      Ret (match E with Some E => Ok E | None => Raise TypeError end)
  end.

(** ** Threads *)
Record call := MkCall { c_S : vec; c_T : option vec; c_max : Z }.
(** A thread: the calls it is still to make, and the rest of the one it is in. *)
Record thread := MkThread { todo : list call; current : option (call * prog rows) }.
(** The object, the threads, and the calls that returned or raised, in that order, with the number of the thread. *)
Record world := MkWorld { w_attrs : attributes; w_threads : list thread; w_log : list (nat * call * res rows) }.

Fixpoint put_at {X} (l : list X) (i : nat) (x : X) : list X :=
  match l, i with
  | [], _ => []
  | _ :: l', O => x :: l'
  | y :: l', Datatypes.S i' => y :: put_at l' i' x
  end.
(** Thread [i] goes on with [p], or is done with the call. *)
Definition continue (w : world) (i : nat) (l : list call) (a : attributes) (j : call) (p : prog rows) : world :=
  match p with
  | Ret r => MkWorld a (put_at (w_threads w) i (MkThread l None)) (w_log w ++ [(i, j, r)])
  | Do _ _ => MkWorld a (put_at (w_threads w) i (MkThread l (Some (j, p)))) (w_log w)
  end.
Definition tick (w : world) (i : nat) : world :=
  match nth_error (w_threads w) i with
  | None => w
  | Some t =>
      match current t with
      | None =>
          match todo t with
          | [] => w
          | j :: l => continue w i l (w_attrs w) j (eemd_prog (c_S j) (c_T j) (c_max j))
          end
      | Some (j, Ret r) => continue w i (todo t) (w_attrs w) j (Ret r)      (* cannot happen *)
      | Some (j, Do f k) => continue w i (todo t) (f (w_attrs w)) j (k (w_attrs w))
      end
  end.
Definition run_threads (w : world) (schedule : list nat) : world := fold_left tick schedule w.
(** An object and threads that have not started. *)
Definition begin (a : attributes) (jobs : list (list call)) : world := MkWorld a (map (fun l => MkThread l None) jobs) [].
End Threads.
Arguments cell A : clear implicits. Arguments dictionary A : clear implicits. Arguments attributes A G D : clear implicits.
Arguments prog A G D R : clear implicits. Arguments call A : clear implicits. Arguments thread A G D : clear implicits. Arguments world A G D : clear implicits.
Arguments Listed {A}. Arguments Arrayed {A}. Arguments cell_rows {A}. Arguments MkDict {A}. Arguments defaulting {A}. Arguments entries {A}.
Arguments MkAttributes {A G D}. Arguments at_S {A G D}. Arguments at_T {A G D}. Arguments at_N {A G D}. Arguments at_scale {A G D}. Arguments at_max {A G D}.
Arguments at_random {A G D}. Arguments at_inner {A G D}. Arguments at_all {A G D}. Arguments at_E {A G D}. Arguments at_residue {A G D}.
Arguments Ret {A G D R}. Arguments Do {A G D R}.
Arguments MkCall {A}. Arguments c_S {A}. Arguments c_T {A}. Arguments c_max {A}.
Arguments MkThread {A G D}. Arguments todo {A G D}. Arguments current {A G D}.
Arguments MkWorld {A G D}. Arguments w_attrs {A G D}. Arguments w_threads {A G D}. Arguments w_log {A G D}.
