(** * NegMore: negation in exact arithmetic and for EMD_matlab (lemmas). *)
From Verif Require Import PyFacts QcFacts Emd Matlab Spec EmdProofs EmdSym NegGen NegEmd NegJit Jit MatlabSpec MatlabRun Demo.
From Coq Require Import QArith Qcanon ZifyBool ZifyNat.
Open Scope Z_scope.

Definition opp_of (x y : Qc) : Prop := y = (- x)%Qc.
Lemma ltb_opp x y : Qc_ltb (- x) (- y) = Qc_ltb y x.
Proof. destruct (Qc_ltb (- x) (- y)) eqn:E1, (Qc_ltb y x) eqn:E2; auto; qc_bool; qclra. Qed.
Lemma is0_opp (x : Qc) : is0 (- x)%Qc = is0 x.
Proof. replace (- x)%Qc with ((- (1)) * x)%Qc by ring. apply k_is0. discriminate. Qed.
Lemma symmetricQ : NegGen.symmetric opp_of.
Proof.
  constructor; unfold opp_of; intros; subst; num_qc; try (apply ltb_opp); try (apply is0_opp); try (unfold Qcdiv; ring).
  - unfold not_a_number. num_qc. f_equal. apply bool_iff. rewrite !Qc_leb_le. split; intros; apply Qcle_refl.
  - f_equal. ring.
  - destruct (Qc_eq_dec y 0) as [->|N]; [change (- (0))%Qc with 0%Qc; unfold Qcdiv; ring|field]. split; auto. intros E. apply N. qclra.
  - unfold Qc_abs. destruct (Qc_ltb (- x) 0) eqn:E1, (Qc_ltb x 0) eqn:E2; auto; try ring; qc_bool; qclra.
  - replace (- y - - x)%Qc with (x - y)%Qc by ring. auto.
  - qc_bool. qclra.
  - unfold is0. num_qc. split; apply not_true_is_false; intros E; apply Qc_eqb_eq in E; subst; qc_bool.
    + rewrite Qcmult_0_l in H. qclra.
    + rewrite Qcmult_0_r in H. qclra.
Qed.
Lemma opp_map S S' : Forall2 opp_of S S' <-> S' = map Qcopp S.
Proof.
  split.
  - induction 1 as [|x y S S' E HF IH]; cbn [map]; auto. unfold opp_of in E. congruence.
  - intros ->. induction S; cbn [map]; constructor; auto. reflexivity.
Qed.
Lemma flat_opp S : flat_ends (map Qcopp S) -> flat_ends S.
Proof.
  unfold flat_ends, sample. rewrite map_length. intros [H1 H2].
  assert (G : forall i, nth i (map Qcopp S) 0%Qc = (- nth i S 0)%Qc).
  { intros i. change 0%Qc with (- 0)%Qc at 1. apply map_nth. }
  rewrite !G in *. split; qclra.
Qed.
Lemma m_find_ng T S e : ~ flat_ends S -> findExtrema T S = Ok e ->
  exists e', findExtrema T (map Qcopp S) = Ok e' /\ max_pos e' = min_pos e /\ min_pos e' = max_pos e /\
    max_val e' = map Qcopp (min_val e) /\ min_val e' = map Qcopp (max_val e) /\ indzer e' = indzer e.
Proof.
  intros HF. rewrite findExtrema_same by auto. intros E. rewrite findExtrema_same by (intros X; apply HF, flat_opp; auto).
  destruct (find_ng opp_of symmetricQ T S (map Qcopp S) e (proj2 (opp_map _ _) eq_refl) E) as (e' & E' & H1 & H2 & H3 & H4 & H5).
  exists e'. apply opp_map in H3, H4. auto 8.
Qed.
(** The piecewise linear routine of the examples. *)
Lemma lin_odd {A} `{Num A} (ng : A -> A -> Prop) (L : NegGen.symmetric ng) : odd_spline ng lin_spl.
Proof.
  intros kind pts pts' t v HP. unfold lin_spl. revert v. induction t as [|u t IH]; cbn [mapM]; intros v E.
  - apply ok_inv in E. subst v. eexists. split; [reflexivity|]. constructor.
  - apply bind_ok in E as (w & E1 & E). apply bind_ok in E as (v' & E2 & E). apply ok_inv in E. subst v.
    destruct (IH _ E2) as (v2 & -> & R2).
    assert (G : exists w', lin_at pts' u = Ok w' /\ ng w w').
    { clear -L HP E1. revert w E1. induction HP as [|p p' pts pts' [Hp1 Hp2] HP IH]; intros w; [discriminate|].
      destruct HP as [|q q' pts pts' [Hq1 Hq2] HP]; [destruct p; discriminate|].
      destruct p as [t0 v0], p' as [t0' v0'], q as [t1 v1], q' as [t1' v1']. cbn [fst snd] in *. subst t0' t1'. cbn [lin_at]. cbn [lin_at] in IH.
      destruct (nltb u t0); [discriminate|]. destruct (nleb u t1); [|apply IH].
      intros E. apply ok_inv in E. subst w. eexists. split; [reflexivity|].
      repeat first [assumption | apply (s_add _ L) | apply (s_sub _ L) | apply (s_mull _ L) | apply (s_mulr _ L) | apply (s_div _ L)]. }
    destruct G as (w' & -> & Rw). cbn [bind]. eexists. split; [reflexivity|]. constructor; auto.
Qed.
Definition neg_knots (spl : spline_oracle Qc) : Prop :=
  forall kind pts t v, spl kind pts t = Ok v -> spl kind (map (fun p => (fst p, - snd p)%Qc) pts) t = Ok (map Qcopp v).
Lemma knots_opp pts pts' : Forall2 (ngp opp_of) pts pts' <-> pts' = map (fun p => (fst p, - snd p)%Qc) pts.
Proof.
  split.
  - induction 1 as [|[t x] [t' x'] P P' [E1 E2] HF IH]; cbn [map]; auto. cbn [fst snd] in *. unfold opp_of in E2. congruence.
  - intros ->. induction pts; cbn [map]; constructor; auto. split; reflexivity.
Qed.
Lemma odd_knots spl : odd_spline opp_of spl <-> neg_knots spl.
Proof.
  split.
  - intros Ho kind pts t v E. destruct (Ho kind pts _ t v (proj2 (knots_opp _ _) eq_refl) E) as (v' & -> & R). apply opp_map in R. congruence.
  - intros Ho kind pts pts' t v HP E. apply knots_opp in HP. subst pts'. eexists. split; [apply Ho; eauto|]. apply opp_map. auto.
Qed.
Lemma lin_oddQ : neg_knots lin_spl.
Proof. apply odd_knots. apply lin_odd. exact symmetricQ. Qed.
Lemma rows_opp M M' : Forall2 (Forall2 opp_of) M M' -> M' = map (map Qcopp) M.
Proof. induction 1 as [|x y M M' E HF IH]; cbn [map]; auto. apply opp_map in E. congruence. Qed.
Lemma jemd_exact spl fuel strict (c : emd_config Qc) S T k M :
  neg_knots spl -> extrema_detection c = Simple -> jit_emd spl fuel strict c S T k = Ok M ->
  jit_emd spl fuel strict c (map Qcopp S) T k = Ok (map (map Qcopp) M).
Proof.
  intros Hs Hd E.
  destruct (jemd_ng opp_of symmetricQ spl (proj2 (odd_knots _) Hs) c Hd T strict fuel S (map Qcopp S) k M) as (M' & -> & R); auto.
  - intros i _. exact (Qc_trunc_ofZ i).
  - apply opp_map. auto.
  - apply rows_opp in R. congruence.
Qed.
