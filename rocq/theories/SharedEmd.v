(** * SharedEmd: one EMD object used by several ensembles and by the user.

    [EEMD(ext_EMD=emd)] and [CEEMDAN(ext_EMD=emd)] keep the object they are given
    (EEMD.py:103-104, CEEMDAN.py:142-143): [self.EMD] is the user's own object, not a copy.  Here
    any number of EEMD and CEEMDAN objects hold the same EMD object.  A program calls the EMD
    object, changes its attributes, seeds and runs the ensembles, in any order; an exception is
    caught and the program goes on.  Not modelled: two of these at the same time in threads. *)
From Verif Require Export Ceemdan.

Section Shared.
Context {A : Type} `{Num A}.
Notation vec := (list A).
Notation rows := (list (list A)).
Context {G : Type}.
Variable gen : generator A G.
Variable std : vec -> A.
Variable arrival : list rows -> list rows.
Variable spl : spline_oracle A.
Variable fuel : nat.

(** An EEMD object without [self.EMD]; [lend] puts one in, [give_back] takes it out. *)
Notation hollow := (eemd_state A G unit).
Definition lend (o : hollow) (d : emd_state A) : eemd_state A G (emd_state A) :=
  MkESt (random o) d (E_IMF o) (e_residue o) (all_imfs o).
Definition give_back (o : eemd_state A G (emd_state A)) : hollow :=
  MkESt (random o) tt (E_IMF o) (e_residue o) (all_imfs o).

(** The EMD object (attributes set by the user, last results) and the ensembles holding it. *)
Record bench := MkBench {
  b_cfg : emd_config A; b_emd : emd_state A;
  b_eemd : list hollow; b_ceemdan : list (ceemdan_state A G)
}.

(** One statement of the program. *)
Inductive task :=
| Adjust (c : emd_config A)                                  (** emd.FIXE = ..., and the like *)
| Decompose (S : vec) (T : option vec) (k : Z)               (** emd.emd(S, T, k), EMD.py:760-920 *)
| SeedEemd (i : nat) (s : Z)                                 (** EEMD.py:151-153 *)
| RunEemd (i : nat) (c : eemd_config A) (S : vec) (T : option vec) (k : Z)   (** EEMD.py:155-230 *)
| SeedCeemdan (i : nat) (s : Z)                              (** CEEMDAN.py:195-197 *)
| RunCeemdan (i : nat) (c : ceemdan_config A) (S : vec) (T : option vec) (k : Z). (** CEEMDAN.py:199-276 *)

(** The object a result comes from. *)
Inductive speaker := TheEmd | AnEemd (i : nat) | ACeemdan (i : nat).

(** What a run of CEEMDAN leaves in the EMD object: any function.  (Ceemdan.v has only the values
    the inner decompositions give.) *)
Variable leaves : emd_state A -> ceemdan_config A -> ceemdan_state A G -> vec -> option vec -> Z -> emd_state A.

Fixpoint put {X} (l : list X) (i : nat) (x : X) : list X :=
  match l, i with
  | [], _ => []
  | _ :: l', O => x :: l'
  | y :: l', Datatypes.S i' => y :: put l' i' x
  end.

(** One statement: the result, if it has one, and the objects afterwards. *)
Definition perform (b : bench) (t : task) : list (speaker * res rows) * bench :=
  match t with
  | Adjust c => ([], MkBench c (b_emd b) (b_eemd b) (b_ceemdan b))
  | Decompose X T k =>
      let '(r, d) := emd_call spl fuel (b_cfg b) (b_emd b) X T k in
      ([(TheEmd, r)], MkBench (b_cfg b) d (b_eemd b) (b_ceemdan b))
  | SeedEemd i s =>
      match nth_error (b_eemd b) i with
      | None => ([], b)
      | Some o => ([], MkBench (b_cfg b) (b_emd b)
                         (put (b_eemd b) i (give_back (noise_seed gen (lend o (b_emd b)) s))) (b_ceemdan b))
      end
  | RunEemd i c X T k =>
      match nth_error (b_eemd b) i with
      | None => ([], b)
      | Some o =>
          let '(r, o') := eemd gen (emd_decomposer spl fuel (b_cfg b)) c (lend o (b_emd b)) X T k in
          ([(AnEemd i, r)], MkBench (b_cfg b) (inner o') (put (b_eemd b) i (give_back o')) (b_ceemdan b))
      end
  | SeedCeemdan i s =>
      match nth_error (b_ceemdan b) i with
      | None => ([], b)
      | Some o => ([], MkBench (b_cfg b) (b_emd b) (b_eemd b) (put (b_ceemdan b) i (c_noise_seed gen o s)))
      end
  | RunCeemdan i c X T k =>
      match nth_error (b_ceemdan b) i with
      | None => ([], b)
      | Some o =>
          let '(r, o') := ceemdan gen std (emd_fun spl fuel (b_cfg b)) arrival c o X T k in
          ([(ACeemdan i, r)], MkBench (b_cfg b) (leaves (b_emd b) c o X T k) (b_eemd b) (put (b_ceemdan b) i o'))
      end
  end.

(** A program: the results in order, and the objects afterwards. *)
Fixpoint perform_all (b : bench) (p : list task) : list (speaker * res rows) * bench :=
  match p with
  | [] => ([], b)
  | t :: p' =>
      let '(l, b) := perform b t in
      let '(l', b) := perform_all b p' in
      (l ++ l', b)
  end.
End Shared.
Arguments bench A G : clear implicits.
Arguments task A : clear implicits.
