(** * QcFacts: proof support for exact rational arithmetic. *)
From Coq Require Export QArith Qcanon Lqa Field.
From Verif Require Export Py.
Open Scope Z_scope.

Lemma this_plus a b : (this (a + b)%Qc == this a + this b)%Q.
Proof. apply Qred_correct. Qed.
Lemma this_mult a b : (this (a * b)%Qc == this a * this b)%Q.
Proof. apply Qred_correct. Qed.
Lemma this_opp a : (this (- a)%Qc == - this a)%Q.
Proof. apply Qred_correct. Qed.
Lemma this_minus a b : (this (a - b)%Qc == this a - this b)%Q.
Proof. unfold Qcminus. rewrite this_plus, this_opp. reflexivity. Qed.
Lemma this_Q2Qc q : (this (Q2Qc q) == q)%Q.
Proof. apply Qred_correct. Qed.
Lemma this_ofZ z : (this (Qc_ofZ z) == inject_Z z)%Q.
Proof. apply Qred_correct. Qed.
Lemma this_eq (a b : Qc) : a = b -> (this a == this b)%Q.
Proof. intros ->. reflexivity. Qed.
Lemma this_neq (a b : Qc) : a <> b -> ~ (this a == this b)%Q.
Proof. intros Hn Hq. apply Hn, Qc_is_canon, Hq. Qed.

Lemma Qc_ltb_lt x y : Qc_ltb x y = true <-> (x < y)%Qc.
Proof.
  unfold Qc_ltb, Qclt. split; intros Hx.
  - destruct (this x ?= this y)%Q eqn:E; try discriminate. apply Qlt_alt, E.
  - rewrite (proj1 (Qlt_alt _ _) Hx). reflexivity.
Qed.
Lemma Qc_ltb_ge x y : Qc_ltb x y = false <-> (y <= x)%Qc.
Proof.
  unfold Qc_ltb, Qcle. split; intros Hx.
  - destruct (this x ?= this y)%Q eqn:E; try discriminate.
    + apply Qeq_alt in E. rewrite E. apply Qle_refl.
    + apply Qgt_alt in E. apply Qlt_le_weak, E.
  - destruct (this x ?= this y)%Q eqn:E; try reflexivity.
    apply Qlt_alt in E. exfalso. apply (Qlt_not_le _ _ E Hx).
Qed.
Lemma Qc_leb_le x y : Qc_leb x y = true <-> (x <= y)%Qc.
Proof.
  unfold Qc_leb, Qcle. split; intros Hx.
  - apply Qle_alt. intros E. rewrite E in Hx. discriminate.
  - pose proof (proj1 (Qle_alt _ _) Hx). destruct (this x ?= this y)%Q; congruence.
Qed.
Lemma Qc_leb_gt x y : Qc_leb x y = false <-> (y < x)%Qc.
Proof.
  unfold Qc_leb, Qclt. split; intros Hx.
  - destruct (this x ?= this y)%Q eqn:E; try discriminate. apply Qgt_alt, E.
  - rewrite (proj1 (Qgt_alt _ _) Hx). reflexivity.
Qed.
Lemma Qc_eqb_eq x y : Qc_eqb x y = true <-> x = y.
Proof.
  unfold Qc_eqb. split; intros Hx.
  - destruct (this x ?= this y)%Q eqn:E; try discriminate.
    apply Qc_is_canon, Qeq_alt, E.
  - subst. assert (E : (this y == this y)%Q) by reflexivity.
    rewrite (proj1 (Qeq_alt _ _) E). reflexivity.
Qed.
Lemma Qc_eqb_neq x y : Qc_eqb x y = false <-> x <> y.
Proof.
  split; intros Hx.
  - intros E. apply Qc_eqb_eq in E. congruence.
  - destruct (Qc_eqb x y) eqn:E; auto. apply Qc_eqb_eq in E. contradiction.
Qed.

(** Unfold the [Num] interface at [Qc]. *)
Ltac num_qc :=
  change (@nadd Qc QcNum) with Qcplus in *;
  change (@nsub Qc QcNum) with Qcminus in *;
  change (@nmul Qc QcNum) with Qcmult in *;
  change (@ndiv Qc QcNum) with Qcdiv in *;
  change (@nopp Qc QcNum) with Qcopp in *;
  change (@nabs Qc QcNum) with Qc_abs in *;
  change (@nltb Qc QcNum) with Qc_ltb in *;
  change (@nleb Qc QcNum) with Qc_leb in *;
  change (@neqb Qc QcNum) with Qc_eqb in *;
  change (@nofZ Qc QcNum) with Qc_ofZ in *;
  change (@n0 Qc QcNum) with (Q2Qc 0) in *;
  change (@n1 Qc QcNum) with (Q2Qc 1) in *;
  change (@n2 Qc QcNum) with (Qc_ofZ 2) in *.

(** Turn boolean comparisons in hypotheses into propositions. *)
Ltac qc_bool :=
  repeat match goal with
  | H : Qc_ltb _ _ = true |- _ => apply Qc_ltb_lt in H
  | H : Qc_ltb _ _ = false |- _ => apply Qc_ltb_ge in H
  | H : Qc_leb _ _ = true |- _ => apply Qc_leb_le in H
  | H : Qc_leb _ _ = false |- _ => apply Qc_leb_gt in H
  | H : Qc_eqb _ _ = true |- _ => apply Qc_eqb_eq in H
  | H : Qc_eqb _ _ = false |- _ => apply Qc_eqb_neq in H
  | |- Qc_ltb _ _ = true => apply Qc_ltb_lt
  | |- Qc_ltb _ _ = false => apply Qc_ltb_ge
  | |- Qc_leb _ _ = true => apply Qc_leb_le
  | |- Qc_leb _ _ = false => apply Qc_leb_gt
  | |- Qc_eqb _ _ = true => apply Qc_eqb_eq
  | |- Qc_eqb _ _ = false => apply Qc_eqb_neq
  end.

(** Move a goal about [Qc] to [Q], naming every compound subterm. *)
Ltac qc_to_q :=
  num_qc; qc_bool;
  repeat match goal with
  | H : @eq Qc _ _ |- _ => apply this_eq in H
  | H : ~ (@eq Qc _ _) |- _ => apply this_neq in H
  | H : (@eq Qc _ _) -> False |- _ => apply this_neq in H
  | H : Qclt _ _ |- _ => unfold Qclt in H
  | H : Qcle _ _ |- _ => unfold Qcle in H
  end;
  try match goal with
  | |- @eq Qc _ _ => apply Qc_is_canon
  | |- ~ (@eq Qc _ _) => let E := fresh in intros E; apply this_eq in E
  | |- Qclt _ _ => unfold Qclt
  | |- Qcle _ _ => unfold Qcle
  end;
  repeat match goal with
  | H : Qeq _ _ |- _ => revert H
  | H : Qlt _ _ |- _ => revert H
  | H : Qle _ _ |- _ => revert H
  | H : ~ (Qeq _ _) |- _ => revert H
  end;
  repeat match goal with
  | |- context [this (Qcplus ?a ?b)] =>
      generalize (this_plus a b); generalize (this (Qcplus a b))
  | |- context [this (Qcminus ?a ?b)] =>
      generalize (this_minus a b); generalize (this (Qcminus a b))
  | |- context [this (Qcmult ?a ?b)] =>
      generalize (this_mult a b); generalize (this (Qcmult a b))
  | |- context [this (Qcopp ?a)] =>
      generalize (this_opp a); generalize (this (Qcopp a))
  | |- context [this (Q2Qc ?q)] =>
      generalize (this_Q2Qc q); generalize (this (Q2Qc q))
  | |- context [this (Qc_ofZ ?q)] =>
      generalize (this_ofZ q); generalize (this (Qc_ofZ q))
  end;
  unfold inject_Z; intros.

Ltac qclra := qc_to_q; lra.
Ltac qcnra := qc_to_q; nra.

Lemma Qc_abs_spec x : (0 <= Qc_abs x)%Qc /\ (Qc_abs x = x \/ Qc_abs x = - x)%Qc.
Proof.
  unfold Qc_abs. destruct (Qc_ltb x 0) eqn:E; split; auto; qclra.
Qed.
Lemma Qc_abs_nonneg x : (0 <= Qc_abs x)%Qc.
Proof. apply Qc_abs_spec. Qed.
Lemma Qc_abs_le x b : (Qc_abs x <= b)%Qc <-> (- b <= x /\ x <= b)%Qc.
Proof.
  unfold Qc_abs. destruct (Qc_ltb x 0) eqn:E; split; intros Hb; try split;
    try destruct Hb as [Hb1 Hb2]; qclra.
Qed.

(** Signs of products. *)
Lemma Qc_mul_neg a b :
  (a * b < 0)%Qc <-> ((a < 0 /\ 0 < b) \/ (0 < a /\ b < 0))%Qc.
Proof.
  split.
  - intros Hp. destruct (Qc_ltb a 0) eqn:Ea; destruct (Qc_ltb 0 b) eqn:Eb;
      destruct (Qc_ltb 0 a) eqn:Ea'; destruct (Qc_ltb b 0) eqn:Eb';
      qc_bool; try (left; split; qclra); try (right; split; qclra); exfalso; qcnra.
  - intros [[H1 H2]|[H1 H2]]; qcnra.
Qed.

Lemma Qc_mul_pos a b : (0 < a)%Qc -> (0 < b)%Qc -> (0 < a * b)%Qc.
Proof. intros. qcnra. Qed.

Lemma Qc_ofZ_add a b : Qc_ofZ (a + b) = (Qc_ofZ a + Qc_ofZ b)%Qc.
Proof.
  apply Qc_is_canon. rewrite this_plus, !this_ofZ. unfold inject_Z, Qeq, Qplus; simpl. ring.
Qed.
Lemma Qc_ofZ_sub a b : Qc_ofZ (a - b) = (Qc_ofZ a - Qc_ofZ b)%Qc.
Proof.
  apply Qc_is_canon. rewrite this_minus, !this_ofZ.
  unfold inject_Z, Qeq, Qminus, Qplus, Qopp; simpl. ring.
Qed.
Lemma Qc_ofZ_mul a b : Qc_ofZ (a * b) = (Qc_ofZ a * Qc_ofZ b)%Qc.
Proof.
  apply Qc_is_canon. rewrite this_mult, !this_ofZ. unfold inject_Z, Qeq, Qmult; simpl. ring.
Qed.
Lemma Qc_ofZ_lt a b : (Qc_ofZ a < Qc_ofZ b)%Qc <-> a < b.
Proof.
  unfold Qclt. rewrite !this_ofZ. rewrite <- Zlt_Qlt. reflexivity.
Qed.
Lemma Qc_ofZ_le a b : (Qc_ofZ a <= Qc_ofZ b)%Qc <-> a <= b.
Proof.
  unfold Qcle. rewrite !this_ofZ. rewrite <- Zle_Qle. reflexivity.
Qed.
Lemma Qc_ofZ_inj a b : Qc_ofZ a = Qc_ofZ b <-> a = b.
Proof.
  split; [|congruence]. intros Hx. apply this_eq in Hx. rewrite !this_ofZ in Hx.
  unfold Qeq in Hx; simpl in Hx. lia.
Qed.
Lemma Qc_trunc_ofZ z : Qc_trunc (Qc_ofZ z) = z.
Proof.
  unfold Qc_trunc, Qc_ofZ, Q2Qc. cbn [this].
  pose proof (Qred_correct (inject_Z z)) as Hr.
  unfold Qeq, inject_Z in Hr. cbn [Qnum Qden] in Hr.
  set (r := Qred (z # 1)) in *.
  assert (E : Qnum r = z * Z.pos (Qden r)) by lia.
  change (inject_Z z) with (z # 1). fold r.
  rewrite E. apply Z.quot_mul. lia.
Qed.

(** No rational is NaN: [np_max] and [np_min] are plain folds. *)
Lemma find_nan_qc (l : list Qc) : find not_a_number l = None.
Proof.
  induction l as [|x l IH]; [reflexivity|]. cbn [find].
  replace (not_a_number x) with false; [exact IH|]. unfold not_a_number. cbn [nleb QcNum].
  assert (E : Qc_leb x x = true) by (apply Qc_leb_le, Qcle_refl). rewrite E. reflexivity.
Qed.
Lemma np_max_qc (x : Qc) l : np_max (x :: l) = Ok (fold_left (fun m y => if nltb m y then y else m) l x).
Proof. unfold np_max. rewrite find_nan_qc. reflexivity. Qed.
Lemma np_min_qc (x : Qc) l : np_min (x :: l) = Ok (fold_left (fun m y => if nltb y m then y else m) l x).
Proof. unfold np_min. rewrite find_nan_qc. reflexivity. Qed.
