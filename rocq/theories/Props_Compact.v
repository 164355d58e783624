(** * Props_Compact: properties C38-C40, the compact schemes used to draw instantaneous
    frequencies. *)
From Verif Require Import PyFacts QcFacts Compact Spec CompactSpec CompactProofs CompactSchemes CompactExact Demo.
From Coq Require Import QArith Qcanon.
Open Scope Z_scope.

(** ** C38: TDMAsolver returns the one and only solution of the tridiagonal system. *)
Theorem C38_solves : forall a b c d : list Qc,
  b <> [] -> length a = length b -> length c = length b -> length d = length b ->
  regular a b c ->
  exists x, TDMAsolver a b c d = Ok x /\ tridiagonal a b c d x /\
    forall y, tridiagonal a b c d y -> y = x.
Proof. exact tdma_spec. Qed.
Print Assumptions C38_solves.
(** Diagonally dominant systems always qualify. *)
Theorem C38_dominant : forall a b c : list Qc, dominant a b c -> regular a b c.
Proof. exact dominant_regular. Qed.
Print Assumptions C38_dominant.
Example C38_nonvacuous :
  let a := qs [0; 1; -2; 1] in let b := qs [3; 4; -5; 2] in let c := qs [1; 1; 2; 0] in
  dominant a b c /\ regular a b c /\
  match TDMAsolver a b c (qs [5; 9; 1; 4]) with Ok x => map this x | _ => [] end
  = map this (map Q2Qc [59 # 60; 41 # 20; -11 # 60; 251 # 120]%Q).
Proof.
  cbv zeta.
  assert (D : dominant (qs [0; 1; -2; 1]) (qs [3; 4; -5; 2]) (qs [1; 1; 2; 0])).
  { intros i Hi. cbn in Hi. assert (C : i = 0 \/ i = 1 \/ i = 2 \/ i = 3) by lia.
    exists (Q2Qc (if i =? 0 then 0 else if i =? 2 then 2 else 1)), (Q2Qc (if i =? 3 then 0 else if i =? 2 then 2 else 1)).
    destruct C as [->|[->|[->| ->]]]; (split; [split; vm_compute; discriminate|]; split; [split; vm_compute; discriminate|]).
    all: first [left; reflexivity|right; reflexivity]. }
  split; [exact D|]. split; [exact (dominant_regular _ _ _ D)|]. vm_compute. reflexivity.
Qed.

(** ** C39: filt6 solves the compact filter equations, keeps cubic trends and removes the
    sample-to-sample oscillation, for every length from 5 and every |alpha| < 1/2. *)
Theorem C39_equations : forall (f : list Qc) (alpha : Qc) (x : list Qc),
  (5 <= length f)%nat -> (- Q2Qc (1 # 2) < alpha /\ alpha < Q2Qc (1 # 2))%Qc ->
  filt6 f alpha = Ok x <-> filtered alpha f x.
Proof. exact filt6_iff. Qed.
Print Assumptions C39_equations.
Theorem C39_cubics_pass : forall (p : list Qc) (t0 h : Qc) (n : nat) (alpha : Qc),
  (length p <= 4)%nat -> (5 <= n)%nat -> (- Q2Qc (1 # 2) < alpha /\ alpha < Q2Qc (1 # 2))%Qc ->
  filt6 (sampled p t0 h n) alpha = Ok (sampled p t0 h n).
Proof. exact filt6_cubic. Qed.
Print Assumptions C39_cubics_pass.
Theorem C39_sawtooth_removed : forall (p : list Qc) (t0 h : Qc) (n : nat) (c alpha : Qc),
  (length p <= 4)%nat -> (5 <= n)%nat -> (- Q2Qc (1 # 2) < alpha /\ alpha < Q2Qc (1 # 2))%Qc ->
  filt6 (map2 Qcplus (sampled p t0 h n) (sawtooth c n)) alpha = Ok (sampled p t0 h n).
Proof. exact filt6_cubic_saw. Qed.
Print Assumptions C39_sawtooth_removed.
Theorem C39_too_short : forall (f : list Qc) (alpha : Qc), (length f < 5)%nat -> filt6 f alpha = Raise IndexError.
Proof. exact filt6_short. Qed.
Print Assumptions C39_too_short.
(** visualisation.py:95 documents alpha = 0.5 as "no filter is applied"; the six rows at the
    ends are filtered whatever alpha is. *)
Theorem C39_half_is_identity_refuted : exists f : list Qc, length f = 8%nat /\
  match filt6 f (Q2Qc (1 # 2)) with Ok x => x <> f | _ => True end.
Proof.
  exists (qs [0; 0; 0; 0; 16; 0; 0; 0]). split; [reflexivity|].
  destruct (filt6 (qs [0; 0; 0; 0; 16; 0; 0; 0]) (Q2Qc (1 # 2))) as [x|e] eqn:E; auto.
  intros ->. apply (f_equal (fun r => match r with Ok x => map this x | _ => [] end)) in E. vm_compute in E. discriminate E.
Qed.
Print Assumptions C39_half_is_identity_refuted.
Example C39_nonvacuous :
  (- Q2Qc (1 # 2) < Q2Qc (2 # 5) /\ Q2Qc (2 # 5) < Q2Qc (1 # 2))%Qc /\
  map this (sampled (qs [1; -2; 0; 3]) (Q2Qc 2) (Q2Qc (1 # 2)) 6) =
    map this (map Q2Qc [21; 343 # 8; 76; 981 # 8; 185; 2123 # 8]%Q) /\
  sawtooth (Q2Qc 3) 4 = qs [3; -3; 3; -3] /\
  match filt6 (qs [0; 0; 16; 0; 0; 0; 16; 0]) (Q2Qc (2 # 5)) with Ok x => map this x | _ => [] end
  = map this (map Q2Qc [-6; 6; 10; 34 # 7; -29 # 7; 4; 12; 4]%Q).
Proof.
  split; [split; reflexivity|]. split; [vm_compute; reflexivity|]. split; [reflexivity|].
  vm_compute. reflexivity.
Qed.

(** ** C40: pade6 solves the compact derivative equations and differentiates every polynomial
    of degree at most six exactly, from seven samples on. *)
Theorem C40_equations : forall (v : list Qc) (h : Qc) (x : list Qc),
  (7 <= length v)%nat -> h <> 0%Qc -> pade6 v h = Ok x <-> differentiated h v x.
Proof. exact pade6_iff. Qed.
Print Assumptions C40_equations.
Theorem C40_exact_derivative : forall (p : list Qc) (t0 h : Qc) (n : nat),
  (length p <= 7)%nat -> (7 <= n)%nat -> h <> 0%Qc ->
  pade6 (sampled p t0 h n) h = Ok (sampled (pderiv p) t0 h n).
Proof. exact pade6_exact. Qed.
Print Assumptions C40_exact_derivative.
(** The bound on the degree cannot be raised. *)
Theorem C40_degree_seven_refuted : exists (p : list Qc) (t0 h : Qc) (n : nat),
  length p = 8%nat /\ (7 <= n)%nat /\ h <> 0%Qc /\
  pade6 (sampled p t0 h n) h <> Ok (sampled (pderiv p) t0 h n).
Proof.
  exists (qs [0; 0; 0; 0; 0; 0; 0; 1]), 0%Qc, 1%Qc, 7%nat.
  split; [reflexivity|]. split; [lia|]. split; [discriminate|]. intros E.
  apply (f_equal (fun r => match r with Ok x => map this x | _ => [] end)) in E. vm_compute in E. discriminate E.
Qed.
Print Assumptions C40_degree_seven_refuted.
(** Six samples: the elimination divides by zero.  Fewer: IndexError. *)
Theorem C40_six_samples : forall (v : list Qc) (h : Qc), length v = 6%nat ->
  exists rhs Da Dc, pade6_rhs v h = Ok rhs /\
    pade6 v h = TDMAsolver Da (repeat 1%Qc (length v)) Dc rhs /\ ~ regular Da (repeat 1%Qc (length v)) Dc.
Proof. exact pade6_six. Qed.
Print Assumptions C40_six_samples.
Theorem C40_too_short : forall (v : list Qc) (h : Qc), (length v < 6)%nat -> pade6 v h = Raise IndexError.
Proof. exact pade6_short. Qed.
Print Assumptions C40_too_short.
Example C40_nonvacuous :
  match pade6 (sampled (qs [1; -2; 0; 3; 0; 0; 1]) (Q2Qc (1 # 2)) (Q2Qc (-1 # 3)) 9) (Q2Qc (-1 # 3)) with
  | Ok x => map this x | _ => [] end
  = map this (map (fun t => Q2Qc (-2 + 9 * t ^ 2 + 6 * t ^ 5)%Q)
               [1 # 2; 1 # 6; -1 # 6; -1 # 2; -5 # 6; -7 # 6; -3 # 2; -11 # 6; -13 # 6]%Q) /\
  Nat.le (length (qs [1; -2; 0; 3; 0; 0; 1])) 7 /\ Q2Qc (-1 # 3) <> 0%Qc.
Proof.
  split; [vm_compute; reflexivity|]. split; [cbn; lia|discriminate].
Qed.
