(** * CeemdanThreads: one CEEMDAN object, without worker processes, called from several threads.

    [CEEMDAN.ceemdan] keeps the noise, its modes, the normalised signal, its time array and the sum of the trials in
    attributes of the object, and has no lock.  Here any number of threads call it on one object with
    [parallel=False].  One step of a thread is one access to an attribute ([Steps.v]).

    Simplifications: the settings are not changed meanwhile; the inner EMD is a function of its arguments (what threads
    do to each other inside it is C103); [_N] is written but never read and is left out; where NumPy would broadcast
    a row of one sample the model raises ValueError. *)
From Verif Require Export Ceemdan Steps.

Section CeemdanThreads.
Context {A : Type} `{Num A}.
Notation vec := (list A).
Notation rows := (list (list A)).
Context {G : Type}.
Variable gen : generator A G.
Variable std : vec -> A.
Variable emd_of : vec -> option vec -> Z -> res rows.
Variable c : ceemdan_config A.

(** The attributes: [random], [all_noises] and [all_noise_EMD] (CEEMDAN.py:224-228), [_S], [_T], [max_imf] and [E_IMF]
    (347-361; a new object lacks them, but every call writes them before it reads them), [C_IMF] and [residue]. *)
Record holdings := MkHold {
  h_random : G; h_noises : rows; h_modes : list rows; h_S : vec; h_T : vec; h_max : Z; h_E : rows;
  h_C : option rows; h_residue : option vec
}.
Definition set_h_random v a := MkHold v (h_noises a) (h_modes a) (h_S a) (h_T a) (h_max a) (h_E a) (h_C a) (h_residue a).
Definition set_h_noises v a := MkHold (h_random a) v (h_modes a) (h_S a) (h_T a) (h_max a) (h_E a) (h_C a) (h_residue a).
Definition set_h_modes v a := MkHold (h_random a) (h_noises a) v (h_S a) (h_T a) (h_max a) (h_E a) (h_C a) (h_residue a).
Definition set_h_S v a := MkHold (h_random a) (h_noises a) (h_modes a) v (h_T a) (h_max a) (h_E a) (h_C a) (h_residue a).
Definition set_h_T v a := MkHold (h_random a) (h_noises a) (h_modes a) (h_S a) v (h_max a) (h_E a) (h_C a) (h_residue a).
Definition set_h_max v a := MkHold (h_random a) (h_noises a) (h_modes a) (h_S a) (h_T a) v (h_E a) (h_C a) (h_residue a).
Definition set_h_E v a := MkHold (h_random a) (h_noises a) (h_modes a) (h_S a) (h_T a) (h_max a) v (h_C a) (h_residue a).
Definition set_h_C v a := MkHold (h_random a) (h_noises a) (h_modes a) (h_S a) (h_T a) (h_max a) (h_E a) v (h_residue a).
Definition set_h_residue v a := MkHold (h_random a) (h_noises a) (h_modes a) (h_S a) (h_T a) (h_max a) (h_E a) (h_C a) v.
Notation prog := (steps holdings).
Notation "'do' x <- p ;; q" := (after p (fun x => q)) (at level 200, x name, p at level 100, q at level 200).

(** CEEMDAN._trial_update, CEEMDAN.py:374-378. *)
Definition trial_steps (trial : Z) : prog rows :=
  do first <- try (fun a => (let! imfs := py_get (h_modes a) trial in py_get imfs 0, a)) ;;
  do x <- try (fun a => (broadcast2 nadd (h_S a) (vscale (epsilon c) first), a)) ;;
  do T <- look h_T ;;
  do k <- look h_max ;;
  Done (emd_of x (Some T) k).
(** [np.vstack((E, np.zeros((d, n))))], CEEMDAN.py:366. *)
Definition stack_zeros (E : rows) (d : Z) (n : nat) : res rows :=
  if (d <? 0) || negb (forallb (fun r => Nat.eqb (length r) n) E) then Raise ValueError
  else Ok (E ++ repeat (vzeros n) (Z.to_nat d)).
(** [E[:len(M)] += M], CEEMDAN.py:367. *)
Fixpoint add_in (E M : rows) : res rows :=
  match M, E with
  | [], _ => Ok E
  | _ :: _, [] => Raise ValueError
  | i :: M', e :: E' =>
      if Nat.eqb (length e) (length i) then let! F := add_in E' M' in Ok (vadd e i :: F) else Raise ValueError
  end.
(** The loop of CEEMDAN._eemd over the trials, CEEMDAN.py:363-367; [map] makes a trial when the loop asks for it. *)
Fixpoint sum_steps (n : nat) (l : list Z) : prog unit :=
  match l with
  | [] => Done (Ok tt)
  | t :: l' =>
      do M <- trial_steps t ;;
      do E <- look h_E ;;
      do _ <- (if zlen E <? zlen M then
                 do d <- look (fun a => zlen M - zlen (h_E a)) ;;
                 do E <- try (fun a => (stack_zeros (h_E a) d n, a)) ;;
                 write (set_h_E E)
               else Done (Ok tt)) ;;
      do _ <- try (fun a => match add_in (h_E a) M with Ok E => (Ok tt, set_h_E E a) | Raise e => (Raise e, a) end) ;;
      sum_steps n l'
  end.
(** CEEMDAN._eemd, CEEMDAN.py:343-372, always called with max_imf=1. *)
Definition inner_steps (S : vec) (T : option vec) : prog rows :=
  let T := match T with Some t => t | None => map nofZ (zseq 0 (length S)) end in
  do _ <- write (set_h_S S) ;;
  do _ <- write (set_h_T T) ;;
  do _ <- write (set_h_max 1) ;;
  do _ <- write (set_h_E [vzeros (length S)]) ;;
  do _ <- sum_steps (length S) (zrange 0 (c_trials c)) ;;
  look (fun a => div_rows (h_E a) (nofZ (c_trials c))).
(** The loop over the trials at CEEMDAN.py:250-259. *)
Fixpoint mean_steps (T : option vec) (prev : vec) (beta : A) (k : Z) (l : list Z) (m : vec) : prog vec :=
  match l with
  | [] => Done (Ok m)
  | t :: l' =>
      do M <- look h_modes ;;
      do m <- Done (mean_step emd_of c M T prev beta k (Ok m) t) ;;
      mean_steps T prev beta k l' m
  end.
(** The loop at CEEMDAN.py:240-263, at most [n] turns. *)
Fixpoint loop_steps (n : nat) (S : vec) (T : option vec) (max_imf : Z) (cimfs : rows) (prev : vec) : prog rows :=
  match n with
  | O => Done (Ok cimfs)
  | Datatypes.S n' =>
      do stop <- Done (c_end_condition emd_of c S cimfs max_imf) ;;
      if (stop : bool) then Done (Ok cimfs)
      else
        do m <- mean_steps T prev (nmul (epsilon c) (std prev)) (zlen cimfs) (zrange 0 (c_trials c)) (vzeros (length S)) ;;
        loop_steps n' S T max_imf (cimfs ++ [vsub prev m]) m
  end.
(** [S * scale_s - np.sum(C, axis=0)], CEEMDAN.py:274. *)
Definition residue_of (S : vec) (C : option rows) : res vec :=
  match C with
  | Some C => if forallb (fun r => Nat.eqb (length r) (length S)) C then Ok (vsub S (sum_rows (length S) C)) else Raise ValueError
  | None => Raise TypeError
  end.

(** CEEMDAN.ceemdan, CEEMDAN.py:199-276. *)
Definition ceemdan_steps (X : vec) (T : option vec) (max_imf : Z) : prog rows :=
  let scale_s := std X in
  let S := map (fun x => ndiv x scale_s) X in
  do noises <- try (fun a => let '(v, g) := all_noises gen c (h_random a) (length S) in (v, set_h_random g a)) ;;   (* 224 *)
  do _ <- write (set_h_noises noises) ;;
  do noises <- look h_noises ;;                                                                                 (* 228 *)
  do modes <- Done (decompose_noise std emd_of c noises) ;;
  do _ <- write (set_h_modes modes) ;;
  do E <- inner_steps S T ;;                                                                                    (* 231 *)
  do first <- Done (py_get E 0) ;;
  do _ <- Done (if Nat.eqb (length first) (length S) then Ok tt else Raise ValueError) ;;
  do cimfs <- loop_steps (Z.to_nat (loop_limit c)) S T max_imf [first] (vsub S first) ;;
  let C := map (map (fun x => nmul x scale_s)) (cimfs ++ [vsub S (sum_rows (length S) cimfs)]) in
  do _ <- write (set_h_modes []) ;;                                                                             (* 271 *)
  do _ <- write (set_h_C (Some C)) ;;
  do C' <- look h_C ;;                                                                                          (* 274 *)
  do r <- Done (residue_of (map (fun x => nmul x scale_s) S) C') ;;
  do _ <- write (set_h_residue (Some r)) ;;
  Done (Ok C).

Record request := MkRequest { q_S : vec; q_T : option vec; q_max : Z }.
Definition ceemdan_method (q : request) : prog rows := ceemdan_steps (q_S q) (q_T q) (q_max q).
End CeemdanThreads.
Arguments holdings A G : clear implicits. Arguments request A : clear implicits.
Arguments MkHold {A G}. Arguments h_random {A G}. Arguments h_noises {A G}. Arguments h_modes {A G}. Arguments h_S {A G}. Arguments h_T {A G}.
Arguments h_max {A G}. Arguments h_E {A G}. Arguments h_C {A G}. Arguments h_residue {A G}.
Arguments MkRequest {A}. Arguments q_S {A}. Arguments q_T {A}. Arguments q_max {A}.
