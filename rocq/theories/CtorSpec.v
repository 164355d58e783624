(** * CtorSpec: what the options of a constructor should mean. *)
From Verif Require Import Ctor.
From Coq Require Import String List.
Import ListNotations.
Open Scope string_scope.
Open Scope Z_scope.

Section Spec.
Context {A : Type} `{Num A}.
Notation kwargs := (list (string * pyval A)).

(** [x] is the number, [z] the integer (truncated towards zero), [b] the truth value of an argument. *)
Definition as_number (v : pyval A) (x : A) : Prop :=
  match v with
  | PFloat y => x = y | PInt z => x = nofZ z
  | PBool true => x = nofZ 1 | PBool false => x = nofZ 0 | PStr _ | PNone => False
  end.
Definition as_integer (v : pyval A) (z : Z) : Prop :=
  match v with
  | PFloat y => z = ntrunc y | PInt y => z = y
  | PBool true => z = 1 | PBool false => z = 0 | PStr _ | PNone => False
  end.
Definition falsy (v : pyval A) : Prop :=
  match v with
  | PInt z => z = 0 | PFloat x => neqb x n0 = true | PStr s => s = "" | PBool b => b = false | PNone => True
  end.

(** The option [name] of a call: what is given is used, otherwise the default [d]. *)
Definition option_is {X} (kw : kwargs) (name : string) (read : pyval A -> X -> Prop) (d x : X) : Prop :=
  (forall v, In (name, v) kw -> read v x) /\ (~ In name (map fst kw) -> x = d).
Definition number kw name := option_is kw name as_number.
Definition integer kw name := option_is kw name as_integer.
Definition word kw name := option_is kw name (fun v s => v = PStr s).
Definition flag kw name := option_is kw name (fun v b => b = false <-> falsy v).
Definition detection_mode kw := option_is kw "extrema_detection"
  (fun v m => v = PStr "simple" /\ m = Simple \/ v = PStr "parabol" /\ m = Parabol) Simple.
Definition noise_choice kw := option_is kw "noise_kind"
  (fun v k => match k with Normal => v = PStr "normal" | Uniform => v = PStr "uniform"
                         | OtherNoise => v <> PStr "normal" /\ v <> PStr "uniform" end) Normal.

(** The options of EMD (EMD.py:61-117). *)
Definition emd_numbers := ["energy_ratio_thr"; "std_thr"; "svar_thr"; "total_power_thr"; "range_thr"; "scale_factor"].
Definition emd_integers := ["nbsym"; "FIXE"; "FIXE_H"; "MAX_ITERATION"].
Definition emd_names := (emd_numbers ++ emd_integers ++ ["spline_kind"; "extrema_detection"; "DTYPE"])%list.
End Spec.
