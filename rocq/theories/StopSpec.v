(** * StopSpec: vocabulary for "sifting stops as soon as its rule is met". *)
From Verif Require Import MatlabSpec.
From Coq Require Import List Arith QArith Qcanon.
Import ListNotations.

(** One sift: the array before it, the array after it, and the knots of the two envelopes. *)
Record sifted (V K : Type) := MkSifted { before : V; after : V; upper : K; lower : K }.
Arguments MkSifted {V K}. Arguments before {V K}. Arguments after {V K}. Arguments upper {V K}. Arguments lower {V K}.

(** The sifts [l] lead from [x] to [y]. *)
Inductive leads {V K} (step : sifted V K -> Prop) : V -> list (sifted V K) -> V -> Prop :=
| leads_none x : leads step x [] x
| leads_more x y u w l z : step (MkSifted x y u w) -> leads step y l z -> leads step x (MkSifted x y u w :: l) z.

(** The last one is good; the last [h] are good, and there was another one before them. *)
Definition last_good {X} (good : X -> Prop) (l : list X) : Prop :=
  exists earlier s, l = earlier ++ [s] /\ good s.
Definition last_all_good {X} (good : X -> Prop) (h : nat) (l : list X) : Prop :=
  exists earlier recent, l = earlier ++ recent /\ earlier <> [] /\ length recent = h /\ Forall good recent.

(** [l] goes on until [rule] holds for the first time, unless [exhausted]. *)
Definition until {X} (rule : list X -> Prop) (exhausted : Prop) (l : list X) : Prop :=
  (forall earlier later, l = earlier ++ later -> later <> [] -> ~ rule earlier) /\
  (rule l \/ exhausted).

(** The arrays [l] visited on the way from [x] to [y], both included. *)
Inductive visits {X} (step : X -> X -> Prop) (x : X) : list X -> X -> Prop :=
| visits_one : visits step x [x] x
| visits_next l y z : visits step x l y -> step y z -> visits step x (l ++ [z]) z.

(** Two envelopes at the same number of samples; one of length one stands for a constant. *)
Definition span (up low : list Qc) : nat := if Nat.eqb (length up) 1 then length low else length up.
Definition stretch (n : nat) (v : list Qc) : list Qc := map (env_at v) (seq 0 n).
