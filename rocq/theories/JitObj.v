(** * JitObj: model of the objects of class JitEMD (experimental/jitemd.py:36-81).

    Settings are typed dictionaries, shared by reference; the arrays [imfs] and [residue] an object
    stores are views of the array it returned.  A program is a list of operations (one that names something that does not exist does nothing) on a world of
    dictionaries, returned arrays and objects.  Simplifications: [config] is None or a typed
    dictionary of strings and floats (anything else does not match the signature at 783-794); the values of
    nbsym, FIXE, FIXE_H and MAX_ITERATION are read as whole numbers, as in Jit.v. *)
From Verif Require Export Jit.
From Coq Require Import String.
Open Scope string_scope.
Open Scope Z_scope.

Section JitObj.
Context {A : Type} `{Num A}.
Notation vec := (list A).
Notation rows := (list (list A)).

(** A dictionary from strings to floats: insertion order, no key twice. *)
Notation settings := (list (string * A)).
Fixpoint lookup (d : settings) (k : string) : res A :=
  match d with
  | [] => Raise KeyError
  | (k', v) :: d' => if String.eqb k' k then Ok v else lookup d' k
  end.
(** [d[k] = v] *)
Fixpoint set_item (d : settings) (k : string) (v : A) : settings :=
  match d with
  | [] => [(k, v)]
  | (k', v') :: d' => if String.eqb k' k then (k', v) :: d' else (k', v') :: set_item d' k v
  end.

(** default_emd_config, jitemd.py:38-50. *)
Definition default_emd_config : settings :=
  [("nbsym", nofZ 2); ("energy_ratio_thr", nlit 2 10); ("std_thr", nlit 2 10); ("svar_thr", nlit 1 1000);
   ("total_power_thr", nlit 5 1000); ("range_thr", nlit 1 1000); ("FIXE", nofZ 0); ("FIXE_H", nofZ 0);
   ("MAX_ITERATION", nofZ 1000)].

(** The strings [extrema_detection] is compared with. *)
Definition jit_detection (s : string) : detection :=
  if String.eqb s "simple" then Simple else if String.eqb s "parabol" then Parabol else OtherDetection.

(** jitemd.py:810-815: all nine settings are read at the start of every decomposition. *)
Definition read_settings (d : settings) (kind det : string) : res (emd_config A) :=
  let! mi := lookup d "MAX_ITERATION" in
  let! fx := lookup d "FIXE" in
  let! fh := lookup d "FIXE_H" in
  let! nb := lookup d "nbsym" in
  let! sv := lookup d "svar_thr" in
  let! sd := lookup d "std_thr" in
  let! er := lookup d "energy_ratio_thr" in
  let! rg := lookup d "range_thr" in
  let! tp := lookup d "total_power_thr" in
  Ok (MkCfg sd sv er tp rg (ntrunc nb) kind (jit_detection det) (ntrunc fx) (ntrunc fh) (ntrunc mi)).

(** An object: the dictionary it refers to, its two strings, and the array of its last
    decomposition, of which [imfs] and [residue] are views (76-77); [None] before the first. *)
Record jit_object := MkJObj { j_config : nat; j_kind : string; j_det : string; j_result : option nat }.
(** Dictionary 0 is the module's [default_emd_config]. *)
Record world := MkWorld { dicts : list settings; arrays : list rows; objects : list jit_object }.
Definition start : world := MkWorld [default_emd_config] [] [].

(** What a program can do: make a dictionary; assign to one; make an object; decompose; assign to an
    element of a returned array. *)
Inductive jit_op :=
| NewDict (d : settings)
| SetItem (d : nat) (k : string) (v : A)
| NewObject (config : option nat) (kind det : string)
| Decompose (o : nat) (s t : vec) (max_imf : Z)
| WriteTo (a : nat) (i j : nat) (x : A).

Fixpoint update {X} (l : list X) (i : nat) (f : X -> X) : list X :=
  match l, i with
  | [], _ => []
  | x :: l', O => f x :: l'
  | x :: l', S i' => x :: update l' i' f
  end.
(** [config or default_emd_config], jitemd.py:55: an empty dictionary counts as false. *)
Definition choose_config (w : world) (config : option nat) : nat :=
  match config with
  | None => 0%nat
  | Some d => match nth d (dicts w) [] with [] => 0%nat | _ => d end
  end.
(** JitEMD.emd, jitemd.py:67-78 ([__call__] is the same, 80-81): the result, or the exception, in
    which case the attributes keep their values. *)
Definition decompose (spl : spline_oracle A) (fuel : nat) (strict : bool) (w : world) (o : jit_object) (s t : vec) (k : Z) : res rows :=
  let! c := read_settings (nth (j_config o) (dicts w) []) (j_kind o) (j_det o) in
  jit_emd spl fuel strict c s t k.
Definition jit_step (spl : spline_oracle A) (fuel : nat) (strict : bool) (w : world) (op : jit_op) : world :=
  match op with
  | NewDict d => MkWorld (dicts w ++ [d]) (arrays w) (objects w)
  | SetItem d k v => MkWorld (update (dicts w) d (fun s => set_item s k v)) (arrays w) (objects w)
  | NewObject config kind det =>
      MkWorld (dicts w) (arrays w) (objects w ++ [MkJObj (choose_config w config) kind det None])
  | Decompose i s t k =>
      match nth_error (objects w) i with
      | None => w
      | Some o =>
        match decompose spl fuel strict w o s t k with
        | Raise _ => w
        | Ok M => MkWorld (dicts w) (arrays w ++ [M])
            (update (objects w) i (fun o => MkJObj (j_config o) (j_kind o) (j_det o) (Some (List.length (arrays w)))))
        end
      end
  | WriteTo a i j x => MkWorld (dicts w) (update (arrays w) a (fun M => update M i (fun r => update r j (fun _ => x)))) (objects w)
  end.
Definition jit_run (spl : spline_oracle A) (fuel : nat) (strict : bool) (w : world) (ops : list jit_op) : world :=
  fold_left (jit_step spl fuel strict) ops w.

(** What the object shows: the views [imfs[:-1, :]] and [imfs[-1:, :]] of its array as it is now. *)
Definition jit_stored (w : world) (o : jit_object) : jit_state A :=
  match j_result o with
  | None => jit_init
  | Some a => let M := nth a (arrays w) [] in MkJit (Some (py_slice M 0 (-1))) (Some (py_from M (-1)))
  end.
(** JitEMD.get_imfs_and_trend on the stored views. *)
Definition jit_ask (w : world) (o : jit_object) : res (rows * jit_trend A) := jit_imfs_and_trend (jit_stored w o).

End JitObj.
Arguments jit_op A : clear implicits.
Arguments world A : clear implicits.
