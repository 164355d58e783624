(** * JitThreadsLog: reports of a JitEMD object after a completed decomposition. *)
From Verif Require Import PyFacts Jit JitThreads JitThreadsSpec Steps StepsProofs GuardedLog JitThreadsProofs.
From Coq Require Import Lia.
Open Scope Z_scope.

Section Log.
Context {A : Type} `{Num A}.
Variable spl : spline_oracle A.
Variable fuel : nat.
Variable strict : bool.
Variable c : emd_config A.
Notation method := (jit_method spl fuel strict c).

Definition imfs_first (a : jit_state A) : Prop := jit_residue a <> None -> jit_imfs a <> None.
Definition ended (j : jit_job A) (a : jit_state A) (r : res (jit_reply A)) : Prop :=
  match j with
  | JitDecompose _ _ _ => (exists x, r = Ok x) -> jit_residue a <> None
  | JitAsk => r = Raise TypeError -> jit_residue a = None
  end.
Lemma get_error {X} (l : list X) i e : py_get l i = Raise e -> e = IndexError.
Proof. unfold py_get. destruct (_ <? 0); try destruct (_ <? 0); try destruct (nth_error _ _); intros E; try discriminate; injection E as <-; reflexivity. Qed.
Lemma ended_method j a : imfs_first a -> guarded_at imfs_first only_filled (ended j) a (method j).
Proof.
  intros Ha. destruct j as [X T k|]; cbn [jit_method].
  - unfold jit_emd_steps. destruct (jit_emd spl fuel strict c X T k) as [M|e]; cbn [after write guarded_at].
    2:{ intros [x Hx]. discriminate. }
    intros a1 I1 _. split; [intros _; discriminate|]. split; [split; cbn; auto; discriminate|].
    intros a2 I2 [L1 _]. split; [|split].
    + intros _. cbn. apply L1. cbn. discriminate.
    + split; cbn; auto; discriminate.
    + intros _. cbn. discriminate.
  - unfold jit_ask_steps, look, try. cbn [after guarded_at]. intros a1 I1 _. split; [exact I1|]. split; [apply filled_refl|].
    destruct (jit_residue a1) as [r|] eqn:Er; [|intros _; exact Er].
    assert (N1 : jit_imfs a1 <> None) by (apply I1; rewrite Er; discriminate).
    assert (N2 : jit_residue a1 <> None) by (rewrite Er; discriminate).
    destruct (forallb allclose0 r); cbn [after guarded_at].
    + intros a2 I2 [L1 L2]. split; [exact I2|]. split; [apply filled_refl|]. specialize (L1 N1).
      destruct (jit_imfs a2) as [i|] eqn:Ei; [|congruence]. cbn [after guarded_at]. intros a3 I3 [P1 P2].
      assert (N3 : jit_imfs a3 <> None) by (apply P1; rewrite Ei; discriminate).
      destruct (jit_imfs a3) as [i3|] eqn:Ei3; [|congruence]. cbn [fst snd]. split; [exact I3|]. split; [apply filled_refl|].
      destruct (py_get i3 (-1)) as [y|e] eqn:Ey; cbn [after guarded_at ended]; [discriminate|].
      apply get_error in Ey. subst e. discriminate.
    + intros a2 I2 [L1 L2]. split; [exact I2|]. split; [apply filled_refl|]. specialize (L1 N1). specialize (L2 N2).
      intros a3 I3 [P1 P2]. specialize (P2 L2). split; [exact I3|]. split; [apply filled_refl|].
      destruct (jit_imfs a2); [|congruence]. destruct (jit_residue a3); [|congruence]. cbn [guarded_at ended]. discriminate.
Qed.
Theorem jit_after jobs s l1 i X T k x l2 i' :
  o_log (run_all method (opening jit_init jobs) s) = l1 ++ (i, JitDecompose X T k, Ok x) :: l2 ->
  ~ In (i', JitAsk, Raise TypeError) l2.
Proof.
  intros E Hin. destruct (workers_log imfs_first only_filled filled_refl filled_trans method ended ended_method jit_init jobs s) as (hs & HE).
  { intros C. exfalso. apply C. reflexivity. }
  destruct (ends_order only_filled ended _ _ HE _ _ _ _ _ _ _ _ E Hin) as (a & b & H1 & H2 & [_ L]).
  apply L; [apply H1; eauto|]. apply H2. reflexivity.
Qed.
End Log.
