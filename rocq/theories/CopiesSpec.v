(** * CopiesSpec: a program with copies, and one object on its own. *)
From Verif Require Import Copies FailedSpec.
Open Scope nat_scope.

Section Spec.
Context {A C H W : Type}.
Variable K : kind A C H W.

(** One object that has never been copied: the results of its runs, and the object afterwards. *)
Fixpoint single (h : H) (w : W) (acts : list (act C A)) : list (res (list (list A))) * (H * W) :=
  match acts with
  | [] => ([], (h, w))
  | Seed s :: l => single (k_seed K h s) w l
  | Go c X T k :: l =>
      let '(r, (h', w')) := k_run K c h w X T k in
      let '(rs, o) := single h' w' l in (r :: rs, o)
  end.

(** Every statement is about an object that exists; [n] objects to begin with. *)
Fixpoint legal (n : nat) (p : list (stmt A C)) : Prop :=
  match p with
  | [] => True
  | Copy i :: p' | Clone i :: p' => i < n /\ legal (Datatypes.S n) p'
  | SeedAt i _ :: p' | RunAt i _ _ _ _ :: p' => i < n /\ legal n p'
  end.
(** The objects refer to values that exist. *)
Definition sound (b : shelf H W) : Prop := Forall (fun o => fst o < length (cells b)) (objs b).

(** Objects made from each other by [copy.copy] form a family; [relative b a i]: object [i]
    belongs to the family with the common values [a]. *)
Definition relative (b : shelf H W) (a i : nat) : bool :=
  match nth_error (objs b) i with Some (a', _) => a' =? a | None => false end.
(** The results of a family, and the statements that seed or run a member, whichever. *)
Definition family_results {R} (b : shelf H W) (a : nat) (l : list (nat * R)) : list R :=
  map snd (filter (fun x => relative b a (fst x)) l).
Fixpoint family_acts (b : shelf H W) (a : nat) (p : list (stmt A C)) : list (act C A) :=
  match p with
  | [] => []
  | SeedAt i s :: p' => if relative b a i then Seed s :: family_acts b a p' else family_acts b a p'
  | RunAt i c X T k :: p' => if relative b a i then Go c X T k :: family_acts b a p' else family_acts b a p'
  | _ :: p' => family_acts b a p'
  end.
(** [p] does not run object [i]. *)
Definition spares (i : nat) (p : list (stmt A C)) : Prop :=
  Forall (fun t => match t with RunAt j _ _ _ _ => j <> i | _ => True end) p.

(** What a run returns and what it does to the common values does not depend on stored results. *)
Definition heedless : Prop := forall c h w1 w2 X T k,
  fst (k_run K c h w1 X T k) = fst (k_run K c h w2 X T k) /\
  fst (snd (k_run K c h w1 X T k)) = fst (snd (k_run K c h w2 X T k)).
End Spec.

(** The results of the runs of one object of Eemd.v or Ceemdan.v (the object afterwards is
    [after_all], in FailedSpec.v). *)
Fixpoint returned {A C O} (seed : O -> Z -> O) (go : C -> O -> list A -> option (list A) -> Z -> res (list (list A)) * O)
    (o : O) (acts : list (act C A)) : list (res (list (list A))) :=
  match acts with
  | [] => []
  | Seed s :: l => returned seed go (seed o s) l
  | Go c X T k :: l => fst (go c o X T k) :: returned seed go (snd (go c o X T k)) l
  end.
