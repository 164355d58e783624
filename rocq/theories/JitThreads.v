(** * JitThreads: one JitEMD object called from several threads (experimental/jitemd.py:53-81).

    One step of a thread is one access to an attribute of the object ([Steps.v]); the decomposition itself is one
    compiled function that touches no attribute and does not let other threads run.

    Simplifications: the settings are not changed meanwhile; nobody writes into the arrays the object has returned (JitObj.v). *)
From Verif Require Export Jit Steps.

Section JitThreads.
Context {A : Type} `{Num A}.
Notation vec := (list A).
Notation rows := (list (list A)).
Variable spl : spline_oracle A.
Variable fuel : nat.
Variable strict : bool.
Variable c : emd_config A.

(** The calls, and what they return. *)
Inductive jit_job := JitDecompose (X T : vec) (max_imf : Z) | JitAsk.
Inductive jit_reply := JitRows (M : rows) | JitPair (M : rows) (t : jit_trend A).
Definition set_jit_imfs v (a : jit_state A) := MkJit (Some v) (jit_residue a).
Definition set_jit_residue v (a : jit_state A) := MkJit (jit_imfs a) (Some v).
Notation prog := (steps (jit_state A) jit_reply).
Notation "'do' x <- p ;; q" := (after p (fun x => q)) (at level 200, x name, p at level 100, q at level 200).

(** JitEMD.emd, jitemd.py:67-78. *)
Definition jit_emd_steps (S T : vec) (max_imf : Z) : prog :=
  do M <- Done (jit_emd spl fuel strict c S T max_imf) ;;
  do _ <- write (set_jit_imfs (py_slice M 0 (-1))) ;;            (* 76 *)
  do _ <- write (set_jit_residue (py_from M (-1))) ;;            (* 77 *)
  Done (Ok (JitRows M)).
(** JitEMD.get_imfs_and_trend, jitemd.py:62-65: [self.residue], then twice [self.imfs], or [self.imfs] and
    [self.residue] again.  None where an array should be is a TypeError (63, 64; at 65 it would be returned, but there
    it is never None: [imfs] is written before [residue]). *)
Definition jit_ask_steps : prog :=
  do r <- look jit_residue ;;
  match r with
  | None => Done (Raise TypeError)
  | Some r =>
      if forallb allclose0 r then
        do i <- look jit_imfs ;;
        match i with
        | None => Done (Raise TypeError)
        | Some i =>
            do t <- try (fun a => match jit_imfs a with Some i => (py_get i (-1), a) | None => (Raise TypeError, a) end) ;;
            Done (Ok (JitPair (py_slice i 0 (-1)) (TrendRow t)))
        end
      else
        do i <- look jit_imfs ;;
        do r <- look jit_residue ;;
        match i, r with
        | Some i, Some r => Done (Ok (JitPair i (TrendRows r)))
        | _, _ => Done (Raise TypeError)
        end
  end.
Definition jit_method (j : jit_job) : prog :=
  match j with JitDecompose X T k => jit_emd_steps X T k | JitAsk => jit_ask_steps end.
End JitThreads.
Arguments jit_job A : clear implicits.
Arguments jit_reply A : clear implicits.
