(** * KindsRange: what stays of the signal when components are taken out, for the kinds that do not overshoot (C93). *)
From Verif Require Import PyFacts QcFacts Emd Spec MatlabSpec EmdProofs EmdExact EmdStop EmdTop Extrema ExtremaSpec PrepareProofs EmdSimple Envelope RevSpec.
From Verif Require Import KindsProofs Kinds KindsSpec KindsAll Props_Emd.
From Coq Require Import QArith Qcanon Lia.
From Coq Require Import List.
Import ListNotations.
Open Scope Z_scope.

Lemma simple_time_ok c (S : list Qc) T t : extrema_detection c = Simple -> emd_time c S T = Ok t -> t = arange (length S).
Proof.
  intros HD E. assert (H2 : (2 <= length S)%nat).
  { unfold emd_time in E. rewrite HD in E. apply bind_ok in E as (u & _ & E).
    assert (E' : (let! t := timeline (length S) in normalize_time t) = Ok t) by (destruct T; exact E).
    destruct (length S) as [|[|n]] eqn:L; [discriminate E'|discriminate E'|lia]. }
  assert (HT : forall t, T = Some t -> length t = length S).
  { intros t' ->. unfold emd_time in E. destruct (Nat.eqb (length S) (length t')) eqn:L; [|discriminate E].
    apply Nat.eqb_eq in L. auto. }
  pose proof (simple_time c HD S T H2 HT) as E2. rewrite E2 in E. injection E as <-. rewrite arange_tz. reflexivity.
Qed.

Lemma Qc_ofZ_1 : Qc_ofZ 1 = 1%Qc. Proof. apply Qc_is_canon; reflexivity. Qed.
Lemma Qc_ofZ_0 : Qc_ofZ 0 = 0%Qc. Proof. apply Qc_is_canon; reflexivity. Qed.
(** The remainder after one more component. *)
Lemma remainder_step S (M : list (list Qc)) j R R' i : (j < length M)%nat -> (i < length S)%nat ->
  remainder S (firstn j M) R -> remainder S (firstn (Datatypes.S j) M) R' ->
  (nth i R' 0 = nth i R 0 - nth i (nth j M []) 0)%Qc.
Proof.
  intros Hj Hi [_ H1] [_ H2]. rewrite (H1 i Hi), (H2 i Hi).
  assert (E : firstn (Datatypes.S j) M = firstn j M ++ [nth j M []]).
  { clear - Hj. revert j Hj. induction M as [|x M IH]; intros j Hj; cbn in Hj; [lia|]. destruct j as [|j]; [reflexivity|].
    cbn [firstn nth app]. f_equal. apply IH. lia. }
  rewrite E, total_at_app, total_at_one. ring.
Qed.
Lemma remainder_vsub S (M : list (list Qc)) R : shaped (length S) M -> remainder S M R -> R = vsub S (sum_rows (length S) M).
Proof.
  intros HS [L H]. assert (L' : length (vsub S (sum_rows (length S) M)) = length S).
  { assert (E : length (sum_rows (length S) M) = length S) by (apply sum_rows_length; apply Forall_forall; exact HS).
    rewrite vsub_length; auto. }
  apply (nth_ext _ _ 0%Qc 0%Qc); [lia|]. intros i Hi. rewrite H by lia.
  pose proof (residue_spec S M i HS) as G. rewrite <- G. ring.
Qed.

Section Range.
Variables (k : skind) (c : emd_config Qc).
Hypothesis Hp : parse_kind (spline_kind c) = Some k.
Hypothesis Hk : monotone_kind k.
Hypothesis HD : extrema_detection c = Simple.
Hypothesis Hnb : 1 <= nbsym c.
Notation sift1 n := (one_sift scipy_spl c (arange n)).

(** What one sift takes away stays within the signal. *)
Lemma taken_within x y a b : sift1 (length x) x y -> (forall u, In u x -> (a <= u)%Qc /\ (u <= b)%Qc) ->
  length y = length x /\ forall i, (i < length x)%nat -> (a <= nth i x 0 - nth i y 0)%Qc /\ (nth i x 0 - nth i y 0 <= b)%Qc.
Proof.
  intros H1 HB.
  destruct (sift_at_extrema scipy_spl kinds_pass c x y HD Hnb H1) as (up & lo & P & Q & E & HL & HM & _).
  destruct (envelopes_touch scipy_spl kinds_pass c x up lo P Q HD Hnb E) as (L1 & L2 & _).
  destruct (envelopes_within k c x up lo P Q a b Hp Hk HD Hnb E HB) as [W1 W2].
  split; auto. intros i Hi. specialize (HM (Z.of_nat i) ltac:(unfold zlen; lia)). unfold sample in HM. rewrite Nat2Z.id in HM.
  change n0 with 0%Qc in HM. rewrite HM.
  destruct (W1 (nth i up 0%Qc)) as [U1 U2]; [apply nth_In; lia|].
  destruct (W2 (nth i lo 0%Qc)) as [D1 D2]; [apply nth_In; lia|].
  destruct (mean_bounds a b (nth i x 0%Qc) _ _ U1 U2 D1 D2) as [M1 M2].
  set (z := (nth i x 0 - (nth i up 0 + nth i lo 0) / Qc_ofZ 2)%Qc) in *. clearbody z. split; qclra.
Qed.
Definition within_all a b (x : list Qc) := forall u, In u x -> (a <= u)%Qc /\ (u <= b)%Qc.

(** [n] sifts take away at most [2^n - 1] times the amplitude. *)
Lemma taken_most n l : forall x B, length x = n -> iterates (sift1 n) (x :: l) -> within_all (- B)%Qc B x ->
  length (last l x) = n /\
  within_all (- (Qc_ofZ (2 ^ zlen l) * B))%Qc (Qc_ofZ (2 ^ zlen l) * B)%Qc (last l x) /\
  forall i, (i < n)%nat -> within (Qc_ofZ (2 ^ zlen l - 1) * B)%Qc (nth i x 0 - nth i (last l x) 0)%Qc.
Proof.
  induction l as [|y l IH]; intros x B L HI HB.
  - cbn [last]. split; auto. change (2 ^ zlen (@nil (list Qc))) with 1. change (1 - 1) with 0. rewrite Qc_ofZ_1, Qc_ofZ_0, Qcmult_1_l.
    split; auto. intros i Hi. split; ring_simplify; apply Qcle_refl.
  - inversion HI as [|x' y' l' H1 H2]; subst.
    destruct (taken_within x y (- B)%Qc B H1 HB) as [Ly HT].
    assert (HB2 : within_all (- (B + B))%Qc (B + B)%Qc y).
    { intros u Hu. destruct (sift_within k c x y (- B)%Qc B Hp Hk HD Hnb H1 HB u Hu) as [A1 A2]. split; qclra. }
    destruct (IH y (B + B)%Qc Ly H2 HB2) as (G1 & G2 & G3). 
    assert (EL : last (y :: l) x = last l y) by (destruct l as [|w l]; [reflexivity|]; clear; revert w; induction l as [|v l IH]; intros w; [reflexivity|]; exact (IH v)).
    rewrite EL. split; auto.
    assert (E1 : 2 ^ zlen (y :: l) = 2 * 2 ^ zlen l).
    { replace (zlen (y :: l)) with (Z.succ (zlen l)) by (unfold zlen; cbn [length]; lia). apply Z.pow_succ_r. unfold zlen; lia. }
    assert (E2 : (Qc_ofZ (2 ^ zlen (y :: l)) * B = Qc_ofZ (2 ^ zlen l) * (B + B))%Qc).
    { rewrite E1, Qc_ofZ_mul, two_qc. ring. }
    split; [rewrite E2; auto|]. intros i Hi.
    destruct (HT i Hi) as [T1 T2]. specialize (G3 i Hi).
    assert (E3 : (Qc_ofZ (2 ^ zlen (y :: l) - 1) * B = B + Qc_ofZ (2 ^ zlen l - 1) * (B + B))%Qc).
    { rewrite E1. replace (2 * 2 ^ zlen l - 1) with (1 + 2 * (2 ^ zlen l - 1)) by lia. rewrite Qc_ofZ_add, Qc_ofZ_mul, two_qc, Qc_ofZ_1. ring. }
    rewrite E3. unfold within in *. destruct G3 as [G3 G4].
    set (w := (Qc_ofZ (2 ^ zlen l - 1) * (B + B))%Qc) in *. clearbody w. set (p := nth i x 0%Qc) in *. set (r := nth i y 0%Qc) in *. set (s := nth i (last l y) 0%Qc) in *. clearbody p r s.
    split; qclra.
Qed.
Variables (fuel : nat) (S : list Qc) (T : option (list Qc)) (max_imf : Z) (o : emd_out Qc).
Hypothesis HR : emd scipy_spl fuel c S T max_imf = Ok o.

Lemma stages_of j R : 0 < FIXE c < MAX_ITERATION c -> (j < length (imfs o))%nat -> remainder S (firstn j (imfs o)) R ->
  length R = length S /\ exists l, iterates (sift1 (length S)) (R :: l) /\ last l [] = nth j (imfs o) [] /\ zlen l = FIXE c.
Proof.
  intros HF Hj HRm. destruct (C06_fixe scipy_spl fuel c S T max_imf o HR HF) as (t & Et & H).
  apply (simple_time_ok c S T t HD) in Et. subst t.
  destruct (emd_shape scipy_spl fuel c S T max_imf o HR) as (_ & HS & _).
  split; [apply HRm|]. rewrite (remainder_vsub S (firstn j (imfs o)) R); auto.
  rewrite <- (firstn_skipn j (imfs o)) in HS. apply Forall_app in HS. apply HS.
Qed.

(** With one sift per component the rest of the signal never leaves the range of the signal. *)
Theorem rest_in_range a b : FIXE c = 1 -> 1 < MAX_ITERATION c -> within_all a b S ->
  forall j R, (j <= length (imfs o))%nat -> remainder S (firstn j (imfs o)) R -> within_all a b R.
Proof.
  intros HF HM HB. induction j as [|j IH]; intros R Hj HRm.
  - intros u Hu. apply (In_nth _ _ 0%Qc) in Hu as (i & Hi & <-). destruct HRm as [L H]. rewrite H by lia.
    unfold total_at. cbn. replace (nth i S 0 - 0)%Qc with (nth i S 0%Qc) by ring. apply HB, nth_In. lia.
  - destruct (emd_shape scipy_spl fuel c S T max_imf o HR) as (_ & HS & _).
    assert (HR0 : remainder S (firstn j (imfs o)) (vsub S (sum_rows (length S) (firstn j (imfs o))))).
    { assert (HS' : shaped (length S) (firstn j (imfs o))).
      { rewrite <- (firstn_skipn j (imfs o)) in HS. apply Forall_app in HS. apply HS. }
      split.
      - assert (E : length (sum_rows (length S) (firstn j (imfs o))) = length S) by (apply sum_rows_length; apply Forall_forall; exact HS').
        rewrite vsub_length; auto.
      - intros i Hi. rewrite <- (residue_spec S (firstn j (imfs o)) i HS'). ring. }
    set (R0 := vsub S (sum_rows (length S) (firstn j (imfs o)))) in *.
    destruct (stages_of j R0 ltac:(lia) ltac:(lia) HR0) as (L0 & l & HI & HL & HZ).
    specialize (IH R0 ltac:(lia) HR0). destruct l as [|y [|z l]]; try (rewrite HF in HZ; unfold zlen in HZ; cbn in HZ; lia).
    cbn [last] in HL. inversion HI as [|x' y' l' H1 H2]; subst x' y' l'. rewrite <- L0 in H1.
    destruct (taken_within R0 y a b H1 IH) as [Ly HT].
    intros u Hu. apply (In_nth _ _ 0%Qc) in Hu as (i & Hi & <-). assert (LR : length R = length S) by apply HRm.
    rewrite (remainder_step S (imfs o) j R0 R i) by (auto; lia). rewrite <- HL. apply HT. lia.
Qed.

(** With any fixed number of sifts it grows at most by a factor per component. *)
Theorem rest_growth B : 0 < FIXE c < MAX_ITERATION c -> within_all (- B)%Qc B S ->
  forall j R, (j <= length (imfs o))%nat -> remainder S (firstn j (imfs o)) R ->
  within_all (- (Qc_ofZ ((2 ^ FIXE c - 1) ^ Z.of_nat j) * B))%Qc (Qc_ofZ ((2 ^ FIXE c - 1) ^ Z.of_nat j) * B)%Qc R.
Proof.
  intros HF HB. induction j as [|j IH]; intros R Hj HRm.
  - intros u Hu. apply (In_nth _ _ 0%Qc) in Hu as (i & Hi & <-). destruct HRm as [L H]. rewrite H by lia.
    unfold total_at. cbn. replace (nth i S 0 - 0)%Qc with (nth i S 0%Qc) by ring. change (Z.pow_pos 2 1) with 2.
    replace (Qc_ofZ 1 * B)%Qc with B by (rewrite Qc_ofZ_1; ring). apply HB, nth_In. lia.
  - destruct (emd_shape scipy_spl fuel c S T max_imf o HR) as (_ & HS & _).
    assert (HR0 : remainder S (firstn j (imfs o)) (vsub S (sum_rows (length S) (firstn j (imfs o))))).
    { assert (HS' : shaped (length S) (firstn j (imfs o))).
      { rewrite <- (firstn_skipn j (imfs o)) in HS. apply Forall_app in HS. apply HS. }
      split.
      - assert (E : length (sum_rows (length S) (firstn j (imfs o))) = length S) by (apply sum_rows_length; apply Forall_forall; exact HS').
        rewrite vsub_length; auto.
      - intros i Hi. rewrite <- (residue_spec S (firstn j (imfs o)) i HS'). ring. }
    set (R0 := vsub S (sum_rows (length S) (firstn j (imfs o)))) in *.
    destruct (stages_of j R0 ltac:(lia) ltac:(lia) HR0) as (L0 & l & HI & HL & HZ).
    specialize (IH R0 ltac:(lia) HR0). set (B0 := (Qc_ofZ ((2 ^ FIXE c - 1) ^ Z.of_nat j) * B)%Qc) in *.
    destruct (taken_most (length S) l R0 B0 L0 HI IH) as (_ & _ & HT). rewrite HZ in HT.
    assert (EL : last l R0 = last l []).
    { destruct l as [|y l]; [unfold zlen in HZ; cbn in HZ; lia|]. clear. revert y. induction l as [|z l IH]; intros y; [reflexivity|]. exact (IH z). }
    rewrite EL, HL in HT.
    assert (EB : (Qc_ofZ ((2 ^ FIXE c - 1) ^ Z.of_nat (Datatypes.S j)) * B = Qc_ofZ (2 ^ FIXE c - 1) * B0)%Qc).
    { rewrite Nat2Z.inj_succ, Z.pow_succ_r by lia. rewrite Qc_ofZ_mul. unfold B0. ring. }
    rewrite EB. intros u Hu. apply (In_nth _ _ 0%Qc) in Hu as (i & Hi & <-). assert (LR : length R = length S) by apply HRm.
    rewrite (remainder_step S (imfs o) j R0 R i) by (auto; lia). apply HT. lia.
Qed.
End Range.

Lemma in_within_all B (x : list Qc) : (forall u, In u x -> within B u) <-> within_all (- B)%Qc B x.
Proof. reflexivity. Qed.
Lemma remainder_exists S (M : list (list Qc)) j : shaped (length S) M ->
  remainder S (firstn j M) (vsub S (sum_rows (length S) (firstn j M))).
Proof.
  intros HS. assert (HS' : shaped (length S) (firstn j M)).
  { rewrite <- (firstn_skipn j M) in HS. apply Forall_app in HS. apply HS. }
  split.
  - assert (E : length (sum_rows (length S) (firstn j M)) = length S) by (apply sum_rows_length; apply Forall_forall; exact HS').
    rewrite vsub_length; auto.
  - intros i Hi. rewrite <- (residue_spec S (firstn j M) i HS'). ring.
Qed.
Theorem emd_in_range k c : parse_kind (spline_kind c) = Some k -> monotone_kind k -> extrema_detection c = Simple -> 1 <= nbsym c ->
  FIXE c = 1 -> 1 < MAX_ITERATION c ->
  forall fuel S T max_imf o a b, emd scipy_spl fuel c S T max_imf = Ok o ->
  (forall x, In x S -> (a <= x)%Qc /\ (x <= b)%Qc) ->
  (forall j R, (j <= length (imfs o))%nat -> remainder S (firstn j (imfs o)) R ->
     forall x, In x R -> (a <= x)%Qc /\ (x <= b)%Qc) /\
  (forall x, In x (residue o) -> (a <= x)%Qc /\ (x <= b)%Qc) /\
  (forall row x, In row (imfs o) -> In x row -> within (b - a)%Qc x).
Proof.
  intros Hp Hk HD Hnb HF HM fuel S T max_imf o a b HR HB.
  pose proof (rest_in_range k c Hp Hk HD Hnb fuel S T max_imf o HR a b HF HM HB) as G.
  destruct (emd_shape scipy_spl fuel c S T max_imf o HR) as (_ & HS & _).
  split; [exact G|]. split.
  - rewrite (emd_residue scipy_spl fuel c S T max_imf o HR). apply (G (length (imfs o)) _ (le_n _)).
    pose proof (remainder_exists S (imfs o) (length (imfs o)) HS) as E. rewrite firstn_all in E |- *. exact E.
  - intros row x Hrow Hx. apply (In_nth _ _ []) in Hrow as (j & Hj & <-).
    assert (L : length (nth j (imfs o) []) = length S).
    { apply (proj1 (Forall_forall _ _) HS). apply nth_In. exact Hj. }
    apply (In_nth _ _ 0%Qc) in Hx as (i & Hi & <-).
    pose proof (remainder_exists S (imfs o) j HS) as E0. pose proof (remainder_exists S (imfs o) (Datatypes.S j) HS) as E1.
    set (R0 := vsub S (sum_rows (length S) (firstn j (imfs o)))) in *. set (R1 := vsub S (sum_rows (length S) (firstn (Datatypes.S j) (imfs o)))) in *.
    pose proof (remainder_step S (imfs o) j R0 R1 i Hj ltac:(lia) E0 E1) as E.
    destruct (G j R0 ltac:(lia) E0 (nth i R0 0%Qc)) as [A1 A2]; [apply nth_In; destruct E0; lia|].
    destruct (G (Datatypes.S j) R1 ltac:(lia) E1 (nth i R1 0%Qc)) as [B1 B2]; [apply nth_In; destruct E1; lia|].
    set (u := nth i (nth j (imfs o) []) 0%Qc) in *. set (v := nth i R0 0%Qc) in *. set (w := nth i R1 0%Qc) in *. clearbody u v w.
    unfold within. split; qclra.
Qed.
Theorem emd_growth k c : parse_kind (spline_kind c) = Some k -> monotone_kind k -> extrema_detection c = Simple -> 1 <= nbsym c ->
  0 < FIXE c < MAX_ITERATION c ->
  forall fuel S T max_imf o B, emd scipy_spl fuel c S T max_imf = Ok o -> (forall x, In x S -> within B x) ->
  (forall j R, (j <= length (imfs o))%nat -> remainder S (firstn j (imfs o)) R ->
     forall x, In x R -> within (Qc_ofZ ((2 ^ FIXE c - 1) ^ Z.of_nat j) * B)%Qc x) /\
  (forall j x, (j < length (imfs o))%nat -> In x (nth j (imfs o) []) ->
     within (Qc_ofZ (2 ^ FIXE c * (2 ^ FIXE c - 1) ^ Z.of_nat j) * B)%Qc x).
Proof.
  intros Hp Hk HD Hnb HF fuel S T max_imf o B HR HB.
  pose proof (rest_growth k c Hp Hk HD Hnb fuel S T max_imf o HR B HF HB) as G.
  destruct (emd_shape scipy_spl fuel c S T max_imf o HR) as (_ & HS & _).
  split; [exact G|]. intros j x Hj Hx. pose proof (remainder_exists S (imfs o) j HS) as E0.
  set (R0 := vsub S (sum_rows (length S) (firstn j (imfs o)))) in *.
  destruct (stages_of c HD fuel S T max_imf o HR j R0 HF Hj E0) as (L0 & l & HI & HL & HZ).
  destruct (taken_most k c Hp Hk HD Hnb (length S) l R0 _ L0 HI (G j R0 ltac:(lia) E0)) as (_ & HT & _).
  assert (EL : last l R0 = last l []).
  { destruct l as [|y l]; [unfold zlen in HZ; cbn in HZ; lia|]. clear. revert y. induction l as [|z l IH]; intros y; [reflexivity|]. exact (IH z). }
  rewrite EL, HL, HZ in HT. rewrite Qc_ofZ_mul, <- Qcmult_assoc. apply HT. exact Hx.
Qed.
