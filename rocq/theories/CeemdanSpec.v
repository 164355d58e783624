(** * CeemdanSpec: vocabulary of the CEEMDAN properties. *)
From Verif Require Import Ceemdan Spec EemdSpec.
From Coq Require Import QArith Qcanon Permutation.
Open Scope Z_scope.

Notation vec := (list Qc).
Notation rows := (list (list Qc)).

Definition scaled (a : Qc) (v : vec) : vec := map (fun x => (a * x)%Qc) v.

(** Worker results may arrive in any order. *)
Definition reorders (arrival : list rows -> list rows) : Prop := forall l, Permutation l (arrival l).

(** The decomposition used inside returns rows as long as the signal it is given. *)
Definition fits (emd_of : vec -> option vec -> Z -> res rows) : Prop :=
  forall X T k D, emd_of X T k = Ok D -> shaped (length X) D.

Section Ensemble.
Variable std : vec -> Qc.
Variable emd_of : vec -> option vec -> Z -> res rows.

(** [modes] is the decomposition of one noise vector; with [beta_progress] it is divided by the
    standard deviation of its first mode. *)
Definition modes_of (normalise : bool) (noise : vec) (modes : rows) : Prop :=
  exists D, emd_of noise None (-1) = Ok D /\
  if normalise
  then exists d rest, D = d :: rest /\ modes = map (fun r => map (fun x => (x / std d)%Qc) r) D
  else modes = D.

(** One trial of the first component: decompose [S] plus [eps] times the first noise mode, keep
    the first row. *)
Definition first_part (eps : Qc) (S t : vec) (modes : rows) (p : vec) : Prop :=
  exists d rest X I, modes = d :: rest /\ noisy S (scaled eps d) X /\
    emd_of X (Some t) 1 = Ok I /\ p = nth 0 I (repeat 0%Qc (length S)).

(** One trial of a later component: add [beta] times noise mode number [k] (from 0) to the
    remainder [r] if there is such a mode, keep the last row of the decomposition. *)
Definition later_part (beta : Qc) (k : nat) (r : vec) (T : option vec) (modes : rows) (p : vec) : Prop :=
  exists X I, match nth_error modes k with
              | Some d => noisy r (scaled beta d) X
              | None => X = r
              end /\ emd_of X T 1 = Ok I /\ I <> [] /\ p = last I [].

(** [cs] are the components numbered [k], [k+1], ... (from 0), computed from the remainder [r]:
    the new remainder is the mean over the trials, the component is what it lost. *)
Inductive chain (eps : Qc) (T : option vec) (modes : list rows) : nat -> vec -> rows -> Prop :=
| chain_end k r : chain eps T modes k r []
| chain_step k r parts m c cs :
    Forall2 (later_part (eps * std r) k r T) modes parts ->
    is_mean (length r) parts m -> noisy m c r ->
    chain eps T modes (Datatypes.S k) m cs -> chain eps T modes k r (c :: cs).
End Ensemble.
