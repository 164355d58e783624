(** * SharedSpec: the same program, each object on its own. *)
From Verif Require Import SharedEmd.
Open Scope Z_scope.

(** The results of one object. *)
Definition speaker_eqb (x y : speaker) : bool :=
  match x, y with
  | TheEmd, TheEmd => true
  | AnEemd i, AnEemd j => Nat.eqb i j
  | ACeemdan i, ACeemdan j => Nat.eqb i j
  | _, _ => false
  end.
Definition heard {X} (who : speaker) (l : list (speaker * X)) : list X :=
  map snd (filter (fun p => speaker_eqb who (fst p)) l).

Section Alone.
Context {A : Type} `{Num A} {G : Type}.
Variable gen : generator A G.
Variable std : list A -> A.
Variable arrival : list (list (list A)) -> list (list (list A)).
Variable spl : spline_oracle A.
Variable fuel : nat.
Notation results := (list (res (list (list A)))).

(** EEMD object [i] with an EMD object that nobody else uses; its attributes are changed when
    those of the common one are.  All statements about other objects are left out. *)
Fixpoint eemd_alone (i : nat) (cfg : emd_config A) (o : eemd_state A G (emd_state A)) (p : list (task A))
  : results * eemd_state A G (emd_state A) :=
  match p with
  | [] => ([], o)
  | Adjust cfg :: p' => eemd_alone i cfg o p'
  | SeedEemd j s :: p' => eemd_alone i cfg (if Nat.eqb i j then noise_seed gen o s else o) p'
  | RunEemd j c X T k :: p' =>
      if Nat.eqb i j then
        let '(r, o') := eemd gen (emd_decomposer spl fuel cfg) c o X T k in
        let '(l, o'') := eemd_alone i cfg o' p' in (r :: l, o'')
      else eemd_alone i cfg o p'
  | _ :: p' => eemd_alone i cfg o p'
  end.

(** CEEMDAN object [i] likewise. *)
Fixpoint ceemdan_alone (i : nat) (cfg : emd_config A) (o : ceemdan_state A G) (p : list (task A))
  : results * ceemdan_state A G :=
  match p with
  | [] => ([], o)
  | Adjust cfg :: p' => ceemdan_alone i cfg o p'
  | SeedCeemdan j s :: p' => ceemdan_alone i cfg (if Nat.eqb i j then c_noise_seed gen o s else o) p'
  | RunCeemdan j c X T k :: p' =>
      if Nat.eqb i j then
        let '(r, o') := ceemdan gen std (emd_fun spl fuel cfg) arrival c o X T k in
        let '(l, o'') := ceemdan_alone i cfg o' p' in (r :: l, o'')
      else ceemdan_alone i cfg o p'
  | _ :: p' => ceemdan_alone i cfg o p'
  end.

(** Each call of the EMD object, made on a new object with the settings of that moment. *)
Fixpoint emd_alone (cfg : emd_config A) (p : list (task A)) : results :=
  match p with
  | [] => []
  | Adjust cfg :: p' => emd_alone cfg p'
  | Decompose X T k :: p' => fst (emd_call spl fuel cfg emd_init X T k) :: emd_alone cfg p'
  | _ :: p' => emd_alone cfg p'
  end.
End Alone.

(** All that can be asked of two EEMD objects is the same, but for their EMD objects. *)
Definition same_but_emd {A G D D'} (x : eemd_state A G D) (y : eemd_state A G D') : Prop :=
  random x = random y /\ E_IMF x = E_IMF y /\ e_residue x = e_residue y /\ all_imfs x = all_imfs y.

(** The statements that concern one object: those that name it and the changes of settings. *)
Definition concerns {A} (who : speaker) (t : task A) : bool :=
  match t with
  | Adjust _ => true
  | Decompose _ _ _ => speaker_eqb who TheEmd
  | SeedEemd i _ | RunEemd i _ _ _ _ => speaker_eqb who (AnEemd i)
  | SeedCeemdan i _ | RunCeemdan i _ _ _ _ => speaker_eqb who (ACeemdan i)
  end.
Definition part_of {A} (who : speaker) (p : list (task A)) : list (task A) := filter (concerns who) p.
(** There is such an object. *)
Definition present {A G} (b : bench A G) (who : speaker) : Prop :=
  match who with
  | TheEmd => True
  | AnEemd i => (i < length (b_eemd b))%nat
  | ACeemdan i => (i < length (b_ceemdan b))%nat
  end.
(** What the object holds and what can be asked of it, except for the EMD object. *)
Definition keeps {A G} (b b' : bench A G) (who : speaker) : Prop :=
  match who with
  | TheEmd => b_cfg b = b_cfg b'
  | AnEemd i => nth_error (b_eemd b) i = nth_error (b_eemd b') i
  | ACeemdan i => nth_error (b_ceemdan b) i = nth_error (b_ceemdan b') i
  end.
