(** * HeapVisSpec: pictures of a decomposition, and what a program may do before they are drawn. *)
From Verif Require Import HeapSpec HeapVis VisSpec.
From Coq Require Import QArith Qcanon.

(** The figure of a decomposition: one panel for each imf, numbered from 1, the residue below. *)
Definition figure (x : list Qc) (I : list (list Qc)) (R : list Qc) (ps : list (panel Qc)) : Prop :=
  length ps = S (length I) /\
  (forall i, (i < length I)%nat -> nth i ps empty_panel =
     MkPanel (if (i =? 0)%nat then Some TimeSeries else None) (Some (ImfCaption (Z.of_nat i + 1))) [(x, nth i I [])]) /\
  nth (length I) ps empty_panel = MkPanel None (Some ResCaption) [(x, R)].

(** No element of the array is assigned to by the program. *)
Definition left_alone {A} (os : list (operation A)) (a : arr) : Prop := Forall (fun o => ~ assigns_into a o) os.
Definition all_left_alone {A} (os : list (operation A)) (a : option arr) : Prop :=
  match a with Some a => left_alone os a | None => True end.
(** The arrays the EMD object holds are left alone. *)
Definition stored_left_alone {A} (os : list (operation A)) (m : mem A) : Prop :=
  all_left_alone os (o_imfs m) /\ all_left_alone os (o_residue m).
(** What an optional two-dimensional array shows. *)
Definition displays {A} (m : mem A) (a : option arr) (x : option (list (list A))) : Prop :=
  match a, x with
  | Some a, Some x => contents m a = Some (Mat x)
  | None, None => True
  | _, _ => False
  end.
Definition alive {A} (m : mem A) (a : option arr) : Prop := match a with Some a => live m a | None => True end.
