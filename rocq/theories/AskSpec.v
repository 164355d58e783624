(** * AskSpec: programs that run one EEMD object and look at its ensemble. *)
From Verif Require Import Eemd EemdAsk Spec EemdSpec FailedSpec.
From Coq Require Import QArith Qcanon.
Open Scope Z_scope.

(** Seeding, a run, or reading [all_imfs[k]]; an exception is caught and the program goes on.
    [ensemble_count], [ensemble_mean], [ensemble_std] and [get_imfs_and_residue] change nothing. *)
Inductive deed (C A : Type) :=
| Seeds (s : Z)
| Runs (c : C) (S : list A) (T : option (list A)) (k : Z)
| Looks (k : Z).
Arguments Seeds {C A}. Arguments Runs {C A}. Arguments Looks {C A}.

Section Programs.
Context {A : Type} `{Num A} {G D : Type}.
Variable gen : generator A G.
Variable dec : decomposer A D.
Notation deeds := (list (deed (eemd_config A) A)).
Definition did (o : eemd_object A G D) (a : deed (eemd_config A) A) : eemd_object A G D :=
  match a with
  | Seeds s => ask_seed gen o s
  | Runs c X T k => snd (ask_eemd gen dec c o X T k)
  | Looks k => MkEObj (o_random o) (o_inner o) (o_E_IMF o) (o_residue o) (snd (ask_order (o_ens o) k))
  end.
Definition all_did (o : eemd_object A G D) (l : deeds) : eemd_object A G D := fold_left did l o.

(** The same program without the looking. *)
Fixpoint blind (l : deeds) : list (act (eemd_config A) A) :=
  match l with
  | [] => []
  | Seeds s :: l' => Seed s :: blind l'
  | Runs c X T k :: l' => Go c X T k :: blind l'
  | Looks _ :: l' => blind l'
  end.
(** No run. *)
Definition idle (l : deeds) : Prop := Forall (fun a => match a with Runs _ _ _ _ => False | _ => True end) l.

(** The object as Eemd.v sees it. *)
Definition seen (o : eemd_object A G D) : eemd_state A G D :=
  MkESt (o_random o) (o_inner o) (o_E_IMF o) (o_residue o)
        (map (fun p => (fst p, rows_of (snd p))) (orders (o_ens o))).
End Programs.

Definition stacked {A} (b : block A) : Prop := match b with Stacked _ => True | Listed _ => False end.
(** All orders hold arrays, and a missing one raises. *)
Definition settled {A} (e : ensemble A) : Prop :=
  grows e = false /\ Forall (fun p => stacked (snd p)) (orders e).
(** All orders hold lists, and a missing one is made. *)
Definition unsettled {A} (e : ensemble A) : Prop :=
  grows e = true /\ Forall (fun p => ~ stacked (snd p)) (orders e).
