(** * JitThreadsProofs: a JitEMD object in several threads. *)
From Verif Require Import PyFacts Jit JitThreads JitThreadsSpec Steps StepsProofs Guarded.
From Coq Require Import ZifyBool ZifyNat Lia.
Open Scope Z_scope.

Section Proofs.
Context {A : Type} `{Num A}.
Variable spl : spline_oracle A.
Variable fuel : nat.
Variable strict : bool.
Variable c : emd_config A.
Notation method := (jit_method spl fuel strict c).
Notation rows := (list (list A)).

Lemma jit_unaided j a : let '(r, a') := unaided (method j) a in jit_one_call spl fuel strict c a j = (r, a').
Proof.
  destruct j as [X T k|]; cbn [jit_method jit_one_call].
  - unfold jit_emd_steps, jit_call. destruct (jit_emd spl fuel strict c X T k) as [M|e]; reflexivity.
  - unfold jit_ask_steps, jit_imfs_and_trend. destruct a as [[i|] [r|]]; cbn; try destruct (forallb allclose0 r); cbn; auto.
    destruct (py_get i (-1)); reflexivity.
Qed.

Variable jobs : list (list (jit_job A)).
Notation result_of := (some_result spl fuel strict c jobs).
Definition from_results (a : jit_state A) : Prop :=
  (forall i, jit_imfs a = Some i -> exists M, result_of M /\ i = py_slice M 0 (-1)) /\
  (forall r, jit_residue a = Some r -> exists M, result_of M /\ r = py_from M (-1)) /\
  (jit_residue a <> None -> jit_imfs a <> None).
Definition only_filled (a b : jit_state A) : Prop :=
  (jit_imfs a <> None -> jit_imfs b <> None) /\ (jit_residue a <> None -> jit_residue b <> None).
Definition fair_reply (j : jit_job A) (r : res (jit_reply A)) : Prop :=
  match j with
  | JitDecompose X T k => r = let! M := jit_emd spl fuel strict c X T k in Ok (JitRows M)
  | JitAsk =>
      r = Raise TypeError \/
      (exists M1 M2 M3, result_of M1 /\ result_of M2 /\ result_of M3 /\ forallb allclose0 (py_from M1 (-1)) = true /\
        r = let! y := py_get (py_slice M2 0 (-1)) (-1) in Ok (JitPair (py_slice (py_slice M3 0 (-1)) 0 (-1)) (TrendRow y))) \/
      (exists M1 M2 M3, result_of M1 /\ result_of M2 /\ result_of M3 /\ forallb allclose0 (py_from M1 (-1)) = false /\
        r = Ok (JitPair (py_slice M2 0 (-1)) (TrendRows (py_from M3 (-1)))))
  end.
Definition asked (j : jit_job A) : Prop := exists l, In l jobs /\ In j l.

Lemma filled_refl a : only_filled a a. Proof. split; auto. Qed.
Lemma filled_trans a b d : only_filled a b -> only_filled b d -> only_filled a d.
Proof. intros [H1 H2] [H3 H4]. split; auto. Qed.

Lemma fair j a : asked j -> from_results a -> guarded from_results only_filled (fair_reply j) a (method j).
Proof.
  destruct j as [X T k|]; cbn [jit_method]; intros (l & Hl & Hj) _.
  - unfold jit_emd_steps. destruct (jit_emd spl fuel strict c X T k) as [M|e] eqn:E; cbn [after write guarded].
    2:{ cbn [fair_reply]. rewrite E. reflexivity. }
    assert (HR : result_of M) by (exists l, X, T, k; auto).
    intros a1 (I1 & I2 & I3) _. split; [|split].
    + split; [|split]; cbn [set_jit_imfs jit_imfs jit_residue]; auto; [intros i Y; injection Y as <-; eauto|discriminate].
    + split; cbn [set_jit_imfs jit_imfs jit_residue]; auto. discriminate.
    + intros a2 (J1 & J2 & J3) [L1 _]. cbn [set_jit_imfs jit_imfs] in L1. split; [|split].
      * split; [|split]; cbn [set_jit_residue jit_imfs jit_residue]; auto; [intros r Y; injection Y as <-; eauto|].
        intros _. apply L1. discriminate.
      * split; cbn [set_jit_residue jit_imfs jit_residue]; auto. discriminate.
      * cbn [fair_reply]. rewrite E. reflexivity.
  - unfold jit_ask_steps, look, try. cbn [after guarded]. intros a1 (I1 & I2 & I3) _. split; [split; auto|]. split; [apply filled_refl|].
    destruct (jit_residue a1) as [r|] eqn:Er; [|left; reflexivity]. destruct (I2 r eq_refl) as (M1 & R1 & ->).
    assert (N1 : jit_imfs a1 <> None) by (apply I3; discriminate).
    destruct (forallb allclose0 (py_from M1 (-1))) eqn:EA; cbn [after guarded].
    + intros a2 (J1 & J2 & J3) [L1 L2]. split; [split; auto|]. split; [apply filled_refl|]. specialize (L1 N1).
      destruct (jit_imfs a2) as [i|] eqn:Ei; [|congruence]. destruct (J1 i eq_refl) as (M3 & R3 & ->). cbn [after guarded].
      intros a3 (K1 & K2 & K3) [P1 P2]. rewrite Ei in P1. specialize (P1 L1).
      destruct (jit_imfs a3) as [i|] eqn:Ei3; [|congruence]. destruct (K1 i eq_refl) as (M2 & R2 & ->). cbn [snd fst].
      split; [split; [|split]; rewrite ?Ei3; auto; congruence|]. split; [apply filled_refl|].
      destruct (py_get (py_slice M2 0 (-1)) (-1)) as [y|e] eqn:Ey; cbn [after guarded fair_reply]; right; left; exists M1, M2, M3;
        repeat (split; [assumption|]); rewrite Ey; reflexivity.
    + intros a2 (J1 & J2 & J3) [L1 L2]. split; [split; auto|]. split; [apply filled_refl|]. specialize (L1 N1).
      assert (L2' : jit_residue a2 <> None) by (apply L2; congruence).
      intros a3 (K1 & K2 & K3) [P1 P2]. split; [split; auto|]. split; [apply filled_refl|]. specialize (P2 L2').
      destruct (jit_imfs a2) as [i|]; [|congruence]. destruct (jit_residue a3) as [r|]; [|congruence].
      destruct (J1 i eq_refl) as (M2 & R2 & ->). destruct (K2 r eq_refl) as (M3 & R3 & ->). cbn [guarded fair_reply].
      right; right. exists M1, M2, M3. auto.
Qed.
Lemma jit_new : from_results jit_init.
Proof. split; [|split]; cbn; congruence. Qed.

Theorem jit_any s : forall i j r, In (i, j, r) (o_log (run_all method (opening jit_init jobs) s)) -> fair_reply j r.
Proof.
  apply (workers_guarded from_results only_filled filled_refl filled_trans method asked fair_reply fair jit_init jobs s jit_new).
  intros l j Hl Hj. exists l. auto.
Qed.
End Proofs.
