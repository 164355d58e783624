(** * FailedSpec: programs that use one EEMD or CEEMDAN object again and again.

    A program seeds the object and runs it, each time with any setting and any input; a run may
    raise and the program goes on (it catches the exception). *)
From Verif Require Import Eemd Ceemdan Spec EemdSpec.
From Coq Require Import QArith Qcanon.
Open Scope Z_scope.

(** Seeding (EEMD.py:151-153, CEEMDAN.py:195-197), or one run.  [C] is the type of settings: the
    attributes may be changed between runs. *)
Inductive act (C A : Type) :=
| Seed (s : Z)
| Go (c : C) (S : list A) (T : option (list A)) (k : Z).
Arguments Seed {C A}. Arguments Go {C A}.

Section Programs.
Context {C A O : Type}.
Variable seed : O -> Z -> O.
Variable go : C -> O -> list A -> option (list A) -> Z -> res (list (list A)) * O.
(** The object after one action, and after a list of them. *)
Definition does (o : O) (a : act C A) : O :=
  match a with Seed s => seed o s | Go c X T k => snd (go c o X T k) end.
Definition after_all (o : O) (acts : list (act C A)) : O := fold_left does acts o.
(** No run of [acts] ends: each raises an exception. *)
Fixpoint all_raise (o : O) (acts : list (act C A)) : Prop :=
  match acts with
  | [] => True
  | a :: acts' =>
      match a with Seed _ => True | Go c X T k => exists e, fst (go c o X T k) = Raise e end /\
      all_raise (does o a) acts'
  end.
End Programs.
