(** * Peel: decomposing what the first components leave of a signal. *)
From Verif Require Import PyFacts QcFacts Emd Jit Matlab Spec MatlabSpec EmdProofs EmdExact EmdStop JitProofs MatlabRun Limit.
From Coq Require Import ZifyBool ZifyNat QArith Qcanon.
From Coq Require Import List.
Import ListNotations.
Open Scope Z_scope.

Lemma peel_diff (S : vec) P Q : shaped (length S) P -> shaped (length S) Q ->
  vsub (vsub S (sum_rows (length S) P)) (sum_rows (length S) Q) = vsub S (sum_rows (length S) (P ++ Q)).
Proof.
  intros HP HQ. assert (LP : length (sum_rows (length S) P) = length S) by (apply sum_rows_length; unfold shaped in HP; rewrite Forall_forall in HP; auto).
  assert (LQ : length (sum_rows (length S) Q) = length S) by (apply sum_rows_length; unfold shaped in HQ; rewrite Forall_forall in HQ; auto).
  assert (HPQ : shaped (length S) (P ++ Q)) by (apply Forall_app; auto).
  assert (LPQ : length (sum_rows (length S) (P ++ Q)) = length S) by (apply sum_rows_length; unfold shaped in HPQ; rewrite Forall_forall in HPQ; auto).
  assert (L1 : length (vsub S (sum_rows (length S) P)) = length S) by (apply vsub_length; auto).
  apply (nth_ext _ _ 0%Qc 0%Qc).
  - rewrite !vsub_length; auto. congruence.
  - intros i _. rewrite !nth_vsub by (auto; congruence). rewrite !nth_sum_rows by auto. rewrite total_at_app. ring.
Qed.
Lemma peel_length (S : vec) P : shaped (length S) P -> length (vsub S (sum_rows (length S) P)) = length S.
Proof. intros HP. apply vsub_length. symmetry. apply sum_rows_length. unfold shaped in HP. rewrite Forall_forall in HP. auto. Qed.

Lemma remainder_vsub (S : vec) P S' : shaped (length S) P -> remainder S P S' -> S' = vsub S (sum_rows (length S) P).
Proof.
  intros HP [L E]. assert (LP : length (sum_rows (length S) P) = length S) by (apply sum_rows_length; unfold shaped in HP; rewrite Forall_forall in HP; auto).
  apply (nth_ext _ _ 0%Qc 0%Qc).
  - rewrite peel_length; auto.
  - intros i Hi. rewrite nth_vsub by congruence. rewrite nth_sum_rows by auto. apply E. lia.
Qed.

Section Emd1.
Variable spl : spline_oracle Qc.

Lemma sift_extno c T : forall fuel h x e e', 1 < MAX_ITERATION c -> sift spl fuel c T 0 h e x = sift spl fuel c T 0 h e' x.
Proof.
  intros [|fuel] h x e e' Hm; cbn [sift]; [reflexivity|]. assert (E : (MAX_ITERATION c <=? 0 + 1) = false) by lia. rewrite E. reflexivity.
Qed.
Lemma sift_extno_kept c T : forall fuel h x e y e' b, ~ 1 < MAX_ITERATION c -> sift spl fuel c T 0 h e x = Ok (y, e', b) -> e' = e.
Proof.
  intros [|fuel] h x e y e' b Hm; cbn [sift]; [discriminate|]. assert (E : (MAX_ITERATION c <=? 0 + 1) = true) by lia. rewrite E. intros [= <- <- <-]. reflexivity.
Qed.
Lemma loop_peel c (S T : vec) k P : shaped (length S) P -> forall fuel Q e e0 R e', shaped (length S) Q -> 1 < MAX_ITERATION c \/ e = e0 ->
  emd_loop spl fuel c S T k (P ++ Q) e = Ok (P ++ R, e') ->
  emd_loop spl fuel c (vsub S (sum_rows (length S) P)) T (k - zlen P) Q e0 = Ok (R, e').
Proof.
  intros HP. induction fuel as [|fuel IH]; intros Q e e0 R e' HQ He E; cbn [emd_loop] in *; [discriminate|].
  rewrite (peel_length S P HP), peel_diff by auto. apply bind_ok in E as ([[imf e1] fin] & E1 & E).
  assert (E1' : sift spl (sift_fuel c) c T 0 0 e0 (vsub S (sum_rows (length S) (P ++ Q))) = Ok (imf, e1, fin)).
  { destruct He as [Hm| ->]; auto. rewrite <- E1. apply sift_extno. auto. }
  rewrite E1'. cbn [bind].
  assert (HI : length imf = length S).
  { apply sift_length in E1. rewrite E1. apply peel_length. apply Forall_app. auto. }
  assert (HQ' : shaped (length S) (Q ++ [imf])) by (apply Forall_app; auto).
  unfold end_condition in *. rewrite (peel_length S P HP), peel_diff by auto. rewrite app_assoc. 
  apply bind_ok in E as (st & E2 & E). rewrite E2. cbn [bind].
  assert (L : (zlen (Q ++ [imf]) =? k - zlen P) = (zlen ((P ++ Q) ++ [imf]) =? k)) by (unfold zlen; rewrite !app_length; lia).
  rewrite L. destruct (st || _).
  { apply EmdSym.ok_inv in E. apply EmdSym.pair_inv in E as [E ->]. rewrite <- app_assoc in E. apply app_inv_head in E. subst. reflexivity. }
  destruct fin.
  { apply EmdSym.ok_inv in E. apply EmdSym.pair_inv in E as [E ->]. rewrite <- app_assoc in E. apply app_inv_head in E. subst. reflexivity. }
  rewrite <- app_assoc in E. eapply IH; eauto.
Qed.
(** A run passes through each of its prefixes. *)
Lemma loop_split c (S T : vec) k : forall fuel I e R e', emd_loop spl fuel c S T k I e = Ok (R, e') -> forall j, (length I <= j < length R)%nat ->
  exists f e1, (f <= fuel)%nat /\ emd_loop spl f c S T k (firstn j R) e1 = Ok (R, e') /\ (1 < MAX_ITERATION c \/ e1 = e).
Proof.
  induction fuel as [|fuel IH]; intros I e R e' E j Hj; [discriminate|]. pose proof E as E0. apply emd_loop_prefix in E0 as (L & HL & ->).
  destruct (Nat.eq_dec j (length I)) as [->|Nj].
  { exists (Datatypes.S fuel), e. split; auto. split; auto. rewrite firstn_app, firstn_all, Nat.sub_diag, app_nil_r. exact E. }
  cbn [emd_loop] in E. apply bind_ok in E as ([[imf e1] fin] & E1 & E). apply bind_ok in E as (st & E2 & E).
  assert (He : 1 < MAX_ITERATION c \/ e1 = e).
  { destruct (Z.lt_decidable 1 (MAX_ITERATION c)) as [H|H]; auto. right. eapply sift_extno_kept; eauto. }
  rewrite app_length in Hj. destruct (st || _).
  { exfalso. apply EmdSym.ok_inv in E. apply EmdSym.pair_inv in E as [E _]. apply app_inv_head in E. subst L. cbn in Hj. lia. }
  destruct fin.
  { exfalso. apply EmdSym.ok_inv in E. apply EmdSym.pair_inv in E as [E _]. apply app_inv_head in E. subst L. cbn in Hj. lia. }
  destruct (IH _ _ _ _ E j) as (f & e2 & Hf & F1 & F2); [rewrite !app_length; cbn [length]; lia|].
  exists f, e2. split; [lia|]. split; auto. destruct F2 as [F2| ->]; auto.
Qed.
Lemma loop_fuel c (S T : vec) k : forall f f' I e r, emd_loop spl f c S T k I e = Ok r -> (f <= f')%nat -> emd_loop spl f' c S T k I e = Ok r.
Proof.
  induction f as [|f IH]; intros f' I e r E Hf; [discriminate|]. destruct f' as [|f']; [lia|]. cbn [emd_loop] in *.
  apply bind_ok in E as ([[imf e1] fin] & E1 & E). rewrite E1. cbn [bind]. apply bind_ok in E as (st & E2 & E). rewrite E2. cbn [bind].
  destruct (st || _); auto. destruct fin; auto. apply IH; auto. lia.
Qed.
Lemma loop_rest c (S T : vec) k fuel R e' j : emd_loop spl fuel c S T k [] (-1) = Ok (R, e') -> (j < length R)%nat ->
  shaped (length S) (firstn j R) ->
  emd_loop spl fuel c (vsub S (sum_rows (length S) (firstn j R))) T (k - Z.of_nat j) [] (-1) = Ok (skipn j R, e').
Proof.
  intros E Hj Hs. destruct (loop_split c S T k fuel [] (-1) R e' E j) as (f & e1 & Hf & F & He); [cbn; lia|].
  apply (loop_fuel _ _ _ _ f); auto. replace (Z.of_nat j) with (zlen (firstn j R)) by (unfold zlen; rewrite firstn_length; lia).
  apply (loop_peel c S T k _ Hs f [] e1 (-1)); auto; [constructor|]. rewrite app_nil_r, firstn_skipn. exact F.
Qed.

Lemma emd_time_length c (S S' : vec) T : length S = length S' -> emd_time c S T = emd_time c S' T.
Proof. intros E. unfold emd_time. rewrite E. reflexivity. Qed.
Lemma removelast_skipn {X} (l : list X) j : (j < length l)%nat -> removelast (skipn j l) = skipn j (removelast l).
Proof.
  revert l. induction j as [|j IH]; intros [|a l] Hj; cbn [length] in *; try lia; auto. destruct l as [|b l]; cbn [length] in *; [lia|].
  change (skipn (Datatypes.S j) (a :: b :: l)) with (skipn j (b :: l)). rewrite IH by (cbn [length]; lia). reflexivity.
Qed.
Lemma firstn_removelast' {X} (l : list X) j : (j < length l)%nat -> firstn j (removelast l) = firstn j l.
Proof.
  revert l. induction j as [|j IH]; intros [|a l] Hj; cbn [length] in *; try lia; auto. destruct l as [|b l]; cbn [length] in *; [lia|].
  change (removelast (a :: b :: l)) with (a :: removelast (b :: l)). cbn [firstn]. f_equal. apply IH. cbn [length]. lia.
Qed.
Lemma shaped_app n (P Q : rows) : shaped n (P ++ Q) -> shaped n P /\ shaped n Q.
Proof. apply Forall_app. Qed.
Lemma finish_rest (S : vec) R e j : (j < length R)%nat -> shaped (length S) R ->
  let o := emd_finish S R e in let o' := emd_finish (vsub S (sum_rows (length S) (firstn j R))) (skipn j R) e in
  imfs o' = skipn j (imfs o) /\ residue o' = residue o /\ out o' = skipn j (out o).
Proof.
  intros Hj HR. unfold emd_finish. cbn [imfs residue out]. cbv zeta.
  assert (HS := HR). rewrite <- (firstn_skipn j R) in HS. apply shaped_app in HS as [H1 H2].
  assert (HL : shaped (length S) (removelast R)) by (apply Forall_removelast; auto).
  assert (E1 : (if e <=? 2 then removelast (skipn j R) else skipn j R) = skipn j (if e <=? 2 then removelast R else R)).
  { destruct (e <=? 2); auto. apply removelast_skipn. auto. }
  assert (E2 : firstn j (if e <=? 2 then removelast R else R) = firstn j R) by (destruct (e <=? 2); auto; apply firstn_removelast'; auto).
  rewrite E1. set (I := if e <=? 2 then removelast R else R) in *.
  assert (HI : shaped (length S) I) by (unfold I; destruct (e <=? 2); auto).
  assert (HI' := HI). rewrite <- (firstn_skipn j I) in HI'. apply shaped_app in HI' as [_ H4].
  assert (E3 : vsub (vsub S (sum_rows (length S) (firstn j R))) (sum_rows (length (vsub S (sum_rows (length S) (firstn j R)))) (skipn j I)) = vsub S (sum_rows (length S) I)).
  { rewrite peel_length, peel_diff by auto. rewrite <- E2, firstn_skipn. reflexivity. }
  rewrite E3. split; auto. split; auto.
  assert (LI : (j <= length I)%nat). { unfold I. destruct (e <=? 2); [|lia]. destruct R as [|a R]; [cbn in Hj; lia|]. rewrite removelast_firstn_len, firstn_length. cbn [length] in *. lia. }
  destruct (allclose0 _); auto. rewrite skipn_app. replace (j - length I)%nat with O by lia. reflexivity.
Qed.

Lemma imfs_length (S : vec) R e : (length (imfs (emd_finish S R e)) <= length R)%nat.
Proof. unfold emd_finish. cbn [imfs]. destruct (e <=? 2); auto. rewrite removelast_firstn_len, firstn_length. lia. Qed.
Lemma imfs_firstn (S : vec) R e j : (j < length R)%nat -> firstn j (imfs (emd_finish S R e)) = firstn j R.
Proof. intros Hj. unfold emd_finish. cbn [imfs]. destruct (e <=? 2); auto. apply firstn_removelast'. auto. Qed.

Lemma emd_parts fuel c (S : vec) T k o : emd spl fuel c S T k = Ok o ->
  exists t R e, emd_time c S T = Ok t /\ length S = length t /\ emd_loop spl fuel c S t k [] (-1) = Ok (R, e) /\ o = emd_finish S R e /\ shaped (length S) R.
Proof.
  unfold emd. intros E. apply bind_ok in E as (t & Et & E). destruct (negb (length S =? length t)%nat) eqn:D; [discriminate|].
  apply bind_ok in E as ([R e] & El & E). apply EmdSym.ok_inv in E. exists t, R, e. split; auto. split; [lia|]. split; auto. split; [exact E|].
  eapply emd_loop_shape; [|exact El]. constructor.
Qed.
Lemma emd_rest_any fuel c (S : vec) T k t R e j : emd_time c S T = Ok t -> length S = length t -> emd_loop spl fuel c S t k [] (-1) = Ok (R, e) ->
  shaped (length S) R -> (j < length R)%nat ->
  exists o', emd spl fuel c (vsub S (sum_rows (length S) (firstn j R))) T (k - Z.of_nat j) = Ok o' /\
    imfs o' = skipn j (imfs (emd_finish S R e)) /\ residue o' = residue (emd_finish S R e) /\ out o' = skipn j (out (emd_finish S R e)).
Proof.
  intros Et Lt El HR Hj. assert (HS := HR). rewrite <- (firstn_skipn j R) in HS. apply shaped_app in HS as [H1 H2].
  eexists. split; [|apply finish_rest; eauto]. unfold emd. rewrite (emd_time_length c _ S) by (apply peel_length; auto). rewrite Et. cbn [bind].
  rewrite peel_length by auto. rewrite Lt, Nat.eqb_refl. cbn [negb]. rewrite <- Lt. rewrite (loop_rest c S t k fuel R e j) by auto. reflexivity.
Qed.
Theorem emd_rest fuel c (S : vec) T k o j : emd spl fuel c S T k = Ok o -> (j < length (imfs o))%nat ->
  exists o', emd spl fuel c (vsub S (sum_rows (length S) (firstn j (imfs o)))) T (k - Z.of_nat j) = Ok o' /\
    imfs o' = skipn j (imfs o) /\ residue o' = residue o /\ out o' = skipn j (out o).
Proof.
  intros E Hj. destruct (emd_parts _ _ _ _ _ _ E) as (t & R & e & Et & Lt & El & -> & HR).
  pose proof (imfs_length S R e) as HL. rewrite imfs_firstn by lia. apply (emd_rest_any fuel c S T k t); auto. lia.
Qed.
(** Nothing more is found in the residue. *)
Lemma loop_end c (S T : vec) k : forall fuel I e R e', emd_loop spl fuel c S T k I e = Ok (R, e') ->
  end_condition c S R = Ok true \/ zlen R = k \/ e' <= 2.
Proof.
  induction fuel as [|fuel IH]; intros I e R e' E; cbn [emd_loop] in E; [discriminate|].
  apply bind_ok in E as ([[imf e1] fin] & E1 & E). apply bind_ok in E as (st & E2 & E).
  destruct (st || _) eqn:D.
  { apply EmdSym.ok_inv in E. apply EmdSym.pair_inv in E as [-> ->]. destruct st; [auto|]. cbn in D. right. left. lia. }
  destruct fin; [|eauto]. apply EmdSym.ok_inv in E. apply EmdSym.pair_inv in E as [-> ->]. right. right. eapply sift_finished; eauto.
Qed.
Theorem emd_residue_whole fuel c (S : vec) T k o : emd spl fuel c S T k = Ok o -> zlen (imfs o) <> k ->
  (exists x y, In x (residue o) /\ In y (residue o) /\ (range_thr c <= x - y)%Qc) -> (total_power_thr c <= total (map nabs (residue o)))%Qc ->
  exists o', emd spl fuel c (residue o) T (k - zlen (imfs o)) = Ok o' /\ imfs o' = [] /\ residue o' = residue o.
Proof.
  intros E Hk Hr Hp. destruct (emd_parts _ _ _ _ _ _ E) as (t & R & e & Et & Lt & El & -> & HR).
  destruct (emd_loop_prefix _ _ _ _ _ _ _ _ _ _ El) as (L & HL & HRL). cbn [app] in HRL. subst L.
  assert (He : e <= 2).
  { destruct (Z_le_gt_dec e 2) as [H|H]; auto. exfalso. unfold emd_finish in Hk, Hr, Hp. cbn [imfs residue] in Hk, Hr, Hp.
    assert (D : (e <=? 2) = false) by lia. rewrite D in Hk, Hr, Hp. destruct (loop_end _ _ _ _ _ _ _ _ _ El) as [S1|[S1|S1]]; try lia.
    unfold end_condition in S1. apply bind_ok in S1 as (mx & Ex & S1). apply bind_ok in S1 as (mn & En & S1).
    apply np_max_spec in Ex as [_ Ex]. apply np_min_spec in En as [_ En]. destruct Hr as (x & y & Ix & Iy & Hr). specialize (Ex _ Ix). specialize (En _ Iy).
    destruct (nltb (nsub mx mn) (range_thr c)) eqn:D1.
    - change (Qc_ltb (mx - mn)%Qc (range_thr c) = true) in D1. apply Qc_ltb_lt in D1. qclra.
    - rewrite nsum_total in S1. destruct (nltb (total _) _) eqn:D2; [|discriminate S1].
      change (Qc_ltb (total (map nabs (vsub S (sum_rows (length S) R)))) (total_power_thr c) = true) in D2. apply Qc_ltb_lt in D2. qclra. }
  assert (Ei : imfs (emd_finish S R e) = removelast R) by (unfold emd_finish; cbn [imfs]; replace (e <=? 2) with true by lia; reflexivity).
  assert (Er : residue (emd_finish S R e) = vsub S (sum_rows (length S) (removelast R))) by (unfold emd_finish; cbn [residue]; replace (e <=? 2) with true by lia; reflexivity).
  assert (Lr : length (removelast R) = (length R - 1)%nat) by (destruct R; [congruence|]; rewrite removelast_firstn_len, firstn_length; cbn [length]; lia).
  assert (Lp : (0 < length R)%nat) by (destruct R; [congruence|cbn; lia]).
  destruct (emd_rest_any fuel c S T k t R e (length (removelast R)) Et Lt El HR) as (o' & E' & I' & R' & _); [lia|].
  assert (Ef : firstn (length (removelast R)) R = removelast R).
  { rewrite Lr. rewrite removelast_firstn_len. f_equal. lia. }
  rewrite Ef, <- Er in E'. exists o'. rewrite Ei in *. split; [exact E'|]. split; auto. rewrite I'. apply skipn_all.
Qed.
End Emd1.

(** ** JitEMD *)
Section Jit1.
Variable spl : spline_oracle Qc.
Variable strict : bool.

Lemma jit_sift_extno c T : forall fuel h x e e', 1 < MAX_ITERATION c -> jit_sift spl fuel strict c T 0 h e x = jit_sift spl fuel strict c T 0 h e' x.
Proof.
  intros [|fuel] h x e e' Hm; cbn [jit_sift]; [reflexivity|]. assert (E : (MAX_ITERATION c <=? 0 + 1) = false) by lia. rewrite E. reflexivity.
Qed.
Lemma jit_sift_extno_kept c T : forall fuel h x e y e' b, ~ 1 < MAX_ITERATION c -> jit_sift spl fuel strict c T 0 h e x = Ok (y, e', b) -> e' = e.
Proof.
  intros [|fuel] h x e y e' b Hm; cbn [jit_sift]; [discriminate|]. assert (E : (MAX_ITERATION c <=? 0 + 1) = true) by lia. rewrite E. intros [= <- <- <-]. reflexivity.
Qed.
Lemma jit_loop_peel c (S T : vec) k P : (2 <= length S)%nat -> shaped (length S) P -> forall fuel Q e e0 R e', shaped (length S) Q -> 1 < MAX_ITERATION c \/ e = e0 ->
  jit_loop spl fuel strict c S T k (P ++ Q) e = Ok (P ++ R, e') ->
  jit_loop spl fuel strict c (vsub S (sum_rows (length S) P)) T (k - zlen P) Q e0 = Ok (R, e').
Proof.
  intros H2 HP. induction fuel as [|fuel IH]; intros Q e e0 R e' HQ He E; cbn [jit_loop] in *; [discriminate|].
  rewrite (peel_length S P HP), peel_diff by auto. apply bind_ok in E as ([[imf e1] fin] & E1 & E).
  assert (E1' : jit_sift spl (sift_fuel c) strict c T 0 0 e0 (vsub S (sum_rows (length S) (P ++ Q))) = Ok (imf, e1, fin)).
  { destruct He as [Hm| ->]; auto. rewrite <- E1. apply jit_sift_extno. auto. }
  rewrite E1'. cbn [bind].
  assert (LPQ : length (vsub S (sum_rows (length S) (P ++ Q))) = length S) by (apply peel_length; apply Forall_app; auto).
  assert (HI : length imf = length S). { apply jit_sift_length in E1; [|lia]. cbn [fst] in E1. lia. }
  assert (HQ' : shaped (length S) (Q ++ [imf])) by (apply Forall_app; auto).
  unfold end_condition in *. rewrite (peel_length S P HP), peel_diff by auto. rewrite app_assoc.
  apply bind_ok in E as (st & E2 & E). rewrite E2. cbn [bind].
  assert (L : (zlen (Q ++ [imf]) =? k - zlen P) = (zlen ((P ++ Q) ++ [imf]) =? k)) by (unfold zlen; rewrite !app_length; lia).
  rewrite L. destruct (st || _).
  { apply EmdSym.ok_inv in E. apply EmdSym.pair_inv in E as [E ->]. rewrite <- app_assoc in E. apply app_inv_head in E. subst. reflexivity. }
  destruct fin.
  { apply EmdSym.ok_inv in E. apply EmdSym.pair_inv in E as [E ->]. rewrite <- app_assoc in E. apply app_inv_head in E. subst. reflexivity. }
  rewrite <- app_assoc in E. eapply IH; eauto.
Qed.
Lemma jit_loop_prefix c (S T : vec) k : forall fuel I e R e', jit_loop spl fuel strict c S T k I e = Ok (R, e') -> exists L, L <> [] /\ R = I ++ L.
Proof.
  induction fuel as [|fuel IH]; intros I e R e' E; cbn [jit_loop] in E; [discriminate|].
  apply bind_ok in E as ([[imf e1] fin] & E1 & E). apply bind_ok in E as (st & E2 & E).
  destruct (st || _); [apply EmdSym.ok_inv in E; apply EmdSym.pair_inv in E as [-> _]; exists [imf]; split; auto; discriminate|].
  destruct fin; [apply EmdSym.ok_inv in E; apply EmdSym.pair_inv in E as [-> _]; exists [imf]; split; auto; discriminate|].
  apply IH in E as (L & HL & ->). exists (imf :: L). split; [discriminate|]. rewrite <- app_assoc. reflexivity.
Qed.
Lemma jit_loop_split c (S T : vec) k : forall fuel I e R e', jit_loop spl fuel strict c S T k I e = Ok (R, e') -> forall j, (length I <= j < length R)%nat ->
  exists f e1, (f <= fuel)%nat /\ jit_loop spl f strict c S T k (firstn j R) e1 = Ok (R, e') /\ (1 < MAX_ITERATION c \/ e1 = e).
Proof.
  induction fuel as [|fuel IH]; intros I e R e' E j Hj; [discriminate|]. pose proof E as E0. apply jit_loop_prefix in E0 as (L & HL & ->).
  destruct (Nat.eq_dec j (length I)) as [->|Nj].
  { exists (Datatypes.S fuel), e. split; auto. split; auto. rewrite firstn_app, firstn_all, Nat.sub_diag, app_nil_r. exact E. }
  cbn [jit_loop] in E. apply bind_ok in E as ([[imf e1] fin] & E1 & E). apply bind_ok in E as (st & E2 & E).
  assert (He : 1 < MAX_ITERATION c \/ e1 = e).
  { destruct (Z.lt_decidable 1 (MAX_ITERATION c)) as [H|H]; auto. right. eapply jit_sift_extno_kept; eauto. }
  rewrite app_length in Hj. destruct (st || _).
  { exfalso. apply EmdSym.ok_inv in E. apply EmdSym.pair_inv in E as [E _]. apply app_inv_head in E. subst L. cbn in Hj. lia. }
  destruct fin.
  { exfalso. apply EmdSym.ok_inv in E. apply EmdSym.pair_inv in E as [E _]. apply app_inv_head in E. subst L. cbn in Hj. lia. }
  destruct (IH _ _ _ _ E j) as (f & e2 & Hf & F1 & F2); [rewrite !app_length; cbn [length]; lia|].
  exists f, e2. split; [lia|]. split; auto. destruct F2 as [F2| ->]; auto.
Qed.
Lemma jit_loop_fuel c (S T : vec) k : forall f f' I e r, jit_loop spl f strict c S T k I e = Ok r -> (f <= f')%nat -> jit_loop spl f' strict c S T k I e = Ok r.
Proof.
  induction f as [|f IH]; intros f' I e r E Hf; [discriminate|]. destruct f' as [|f']; [lia|]. cbn [jit_loop] in *.
  apply bind_ok in E as ([[imf e1] fin] & E1 & E). rewrite E1. cbn [bind]. apply bind_ok in E as (st & E2 & E). rewrite E2. cbn [bind].
  destruct (st || _); auto. destruct fin; auto. apply IH; auto. lia.
Qed.
Theorem jit_rest fuel c (S T : vec) k M j S' : (2 <= length S)%nat -> jit_emd spl fuel strict c S T k = Ok M -> (Datatypes.S j < length M)%nat ->
  remainder S (firstn j M) S' -> jit_emd spl fuel strict c S' T (k - Z.of_nat j) = Ok (skipn j M).
Proof.
  intros H2 E Hj HS'. unfold jit_emd in E. destruct (negb (length S =? length T)%nat) eqn:D; [discriminate|].
  apply bind_ok in E as ([R e] & El & E).
  assert (HR : shaped (length S) R) by (apply jit_loop_shape in El; auto; constructor).
  assert (EM : M = out (emd_finish S R e)) by (apply EmdSym.ok_inv in E; rewrite E; unfold emd_finish; cbn [out]; destruct (allclose0 _); reflexivity).
  clear E. assert (HjR : (j < length (imfs (emd_finish S R e)))%nat).
  { rewrite EM in Hj. unfold emd_finish in *. cbn [out imfs] in *. destruct (allclose0 _); [lia|]. rewrite app_length in Hj. cbn [length] in Hj. lia. }
  pose proof (imfs_length S R e) as HL.
  assert (EF : firstn j M = firstn j R).
  { rewrite EM, <- (imfs_firstn S R e) by lia. unfold emd_finish in *. cbn [out imfs] in *. destruct (allclose0 _); auto.
    rewrite firstn_app. replace (j - _)%nat with O by lia. apply app_nil_r. }
  assert (HS := HR). rewrite <- (firstn_skipn j R) in HS. apply shaped_app in HS as [H1 _].
  rewrite EF in HS'. apply remainder_vsub in HS'; auto. subst S'.
  destruct (finish_rest S R e j) as (_ & _ & F3); [lia|auto|]. unfold jit_emd. rewrite peel_length by auto. rewrite D.
  destruct (jit_loop_split c S T k fuel [] (-1) R e El j) as (f & e1 & Hf & F & He); [cbn; lia|].
  assert (G : jit_loop spl fuel strict c (vsub S (sum_rows (length S) (firstn j R))) T (k - Z.of_nat j) [] (-1) = Ok (skipn j R, e)).
  { apply (jit_loop_fuel _ _ _ _ f); auto. replace (Z.of_nat j) with (zlen (firstn j R)) by (unfold zlen; rewrite firstn_length; lia).
    apply (jit_loop_peel c S T k _ H2 H1 f [] e1 (-1)); auto; [constructor|]. rewrite app_nil_r, firstn_skipn. exact F. }
  rewrite G. cbn [bind]. rewrite EM, <- F3. unfold emd_finish at 1. cbn [out]. rewrite peel_length by auto. destruct (allclose0 _); reflexivity.
Qed.
End Jit1.

(** ** EMD_matlab *)
Section Mat1.
Variable spl : spline_oracle Qc.
Lemma m_sift_extno c T x y : forall fuel h e e', 0 < m_MAX_ITERATION c -> m_sift spl fuel c T 0 h e x y = m_sift spl fuel c T 0 h e' x y.
Proof. intros [|fuel] h e e' Hm; cbn [m_sift]; [reflexivity|]. assert (E : (m_MAX_ITERATION c <=? 0) = false) by lia. rewrite E. reflexivity. Qed.
Lemma m_sift_extno_kept c T x y : forall fuel h e x' n e' b, ~ 0 < m_MAX_ITERATION c -> m_sift spl fuel c T 0 h e x y = Ok (x', n, e', b) -> e' = e.
Proof.
  intros [|fuel] h e x' n e' b Hm; cbn [m_sift]; [discriminate|]. assert (E : (m_MAX_ITERATION c <=? 0) = true) by lia. rewrite E. intros [= <- <- <- <-]. reflexivity.
Qed.
(** The run from a prefix of its rows on depends only on what is left at that point. *)
Lemma m_loop_rest c (T : vec) k : forall fuel Res imf P e rows' e', m_loop spl fuel c T k Res imf P e = Ok (rows', e') ->
  forall Res0 imf0 e0, broadcast2 nsub Res0 imf0 = broadcast2 nsub Res imf -> 0 < m_MAX_ITERATION c \/ e = e0 -> forall P1 P2, P = P1 ++ P2 ->
  exists R, rows' = P1 ++ R /\ m_loop spl fuel c T (k - zlen P1) Res0 imf0 P2 e0 = Ok (R, e').
Proof.
  induction fuel as [|fuel IH]; intros Res imf P e rows' e' E Res0 imf0 e0 HB He P1 P2 ->; [discriminate|]. cbn [m_loop] in *. rewrite HB.
  apply bind_ok in E as (res & E1 & E). rewrite E1. cbn [bind]. apply bind_ok in E as ([[[x n] e1] nf] & E2 & E).
  assert (E2' : m_sift spl (m_sift_fuel c) c T 0 0 e0 res (map (fun _ => n0) res) = Ok (x, n, e1, nf)).
  { destruct He as [Hm| ->]; auto. rewrite <- E2. apply m_sift_extno. auto. }
  rewrite E2'. cbn [bind]. cbv zeta in *.
  assert (L : (zlen (P2 ++ [MkRow x e1 n]) =? k - zlen P1 - 1) = (zlen ((P1 ++ P2) ++ [MkRow x e1 n]) =? k - 1)) by (unfold zlen; rewrite !app_length; lia).
  rewrite L. destruct (_ =? k - 1).
  { apply EmdSym.ok_inv in E. apply EmdSym.pair_inv in E as [-> ->]. eexists. split; [symmetry; apply app_assoc|]. reflexivity. }
  destruct nf. 2:{ apply EmdSym.ok_inv in E. apply EmdSym.pair_inv in E as [-> ->]. eexists. split; [symmetry; apply app_assoc|]. reflexivity. }
  rewrite <- app_assoc in E. eapply IH; eauto.
Qed.
Lemma m_loop_split (S : vec) c (T : vec) k : forall fuel Res imf P e rows' e', m_loop spl fuel c T k Res imf P e = Ok (rows', e') ->
  length Res = length S -> length imf = length S -> shaped (length S) (map row_imf P) -> vsub Res imf = vsub S (sum_rows (length S) (map row_imf P)) ->
  forall j, (length P <= j < length rows')%nat ->
  exists f Res1 imf1 e1, (f <= fuel)%nat /\ m_loop spl f c T k Res1 imf1 (firstn j rows') e1 = Ok (rows', e') /\
    broadcast2 nsub Res1 imf1 = Ok (vsub S (sum_rows (length S) (map row_imf (firstn j rows')))) /\ (0 < m_MAX_ITERATION c \/ e1 = e).
Proof.
  induction fuel as [|fuel IH]; intros Res imf P e rows' e' E LR LI HP HV j Hj; [discriminate|]. pose proof E as E0. apply m_loop_more in E0 as (L & ->).
  destruct (Nat.eq_dec j (length P)) as [->|Nj].
  { exists (Datatypes.S fuel), Res, imf, e. split; auto. rewrite firstn_app, firstn_all, Nat.sub_diag, app_nil_r. split; [exact E|]. split; auto.
    rewrite broadcast2_eq by congruence. f_equal. exact HV. }
  cbn [m_loop] in E. apply bind_ok in E as (res & E1 & E). rewrite broadcast2_eq in E1 by congruence. apply EmdSym.ok_inv in E1.
  change (res = vsub Res imf) in E1. rewrite HV in E1.
  apply bind_ok in E as ([[[x n] e1] nf] & E2 & E).
  assert (He : 0 < m_MAX_ITERATION c \/ e1 = e).
  { destruct (Z.lt_decidable 0 (m_MAX_ITERATION c)) as [H|H]; auto. right. eapply m_sift_extno_kept; eauto. }
  assert (Lres : length res = length S) by (rewrite E1; apply peel_length; auto).
  apply m_sift_length in E2. cbv zeta in E.
  rewrite app_length in Hj. destruct (_ =? k - 1).
  { exfalso. apply EmdSym.ok_inv in E. apply EmdSym.pair_inv in E as [E _]. apply app_inv_head in E. subst L. cbn in Hj. lia. }
  destruct nf.
  2:{ exfalso. apply EmdSym.ok_inv in E. apply EmdSym.pair_inv in E as [E _]. apply app_inv_head in E. subst L. cbn in Hj. lia. }
  assert (HX : shaped (length S) [x]) by (constructor; [congruence|constructor]).
  destruct (IH _ _ _ _ _ _ E Lres) with (j := j) as (f & R1 & i1 & e2 & Hf & F1 & F2 & F3).
  - congruence.
  - rewrite map_app. apply Forall_app. auto.
  - rewrite map_app. cbn [map row_imf]. rewrite E1. rewrite <- peel_diff by auto. f_equal.
    apply (nth_ext _ _ 0%Qc 0%Qc). { rewrite sum_rows_length; [congruence|]. intros r [<-|[]]. congruence. }
    intros i _. rewrite nth_sum_rows by auto. rewrite total_at_one. reflexivity.
  - rewrite !app_length. cbn [length]. lia.
  - exists f, R1, i1, e2. split; [lia|]. split; auto. split; auto. destruct F3 as [F3| ->]; auto.
Qed.
Lemma m_loop_fuel c (T : vec) k : forall f f' Res imf P e r, m_loop spl f c T k Res imf P e = Ok r -> (f <= f')%nat -> m_loop spl f' c T k Res imf P e = Ok r.
Proof.
  induction f as [|f IH]; intros f' Res imf P e r E Hf; [discriminate|]. destruct f' as [|f']; [lia|]. cbn [m_loop] in *.
  apply bind_ok in E as (res & E1 & E). rewrite E1. cbn [bind]. apply bind_ok in E as ([[[x n] e1] nf] & E2 & E). rewrite E2. cbn [bind].
  destruct (_ =? _); auto. destruct nf; auto. apply IH; auto. lia.
Qed.
Theorem m_rest fuel c (S : vec) T k rows no j r S' : m_emd spl fuel c S T k = Ok (rows, no) -> nth_error rows j = Some r -> 0 < row_iter r ->
  remainder S (map row_imf (firstn j rows)) S' -> m_emd spl fuel c S' T (Some (limit_of k - Z.of_nat j)) = Ok (skipn j rows, no - Z.of_nat j).
Proof.
  intros E Hn Hr HS'. pose proof E as E0. apply m_emd_ok in E0 as (rs & ext & t & Lt & Et & El & -> & HM). fold (limit_of k) in El. cbv zeta in HM.
  assert (Hs : shaped (length S) (map row_imf rs)).
  { eapply m_loop_shape; [| | |exact El]; auto; [apply map_length|constructor]. }
  assert (Hj : (j < length rs)%nat).
  { destruct (Nat.lt_ge_cases j (length rs)) as [H|H]; auto. exfalso. rewrite HM in Hn. destruct (nltb _ _).
    - rewrite nth_error_app2 in Hn by auto. destruct (j - length rs)%nat as [|q]; cbn [nth_error] in Hn; [|destruct q; discriminate].
      injection Hn as <-. cbn in Hr. lia.
    - apply nth_error_None in H. congruence. }
  assert (EF : firstn j rows = firstn j rs).
  { rewrite HM. destruct (nltb _ _); auto. rewrite firstn_app. replace (j - length rs)%nat with O by lia. apply app_nil_r. }
  assert (Hss := Hs). rewrite <- (firstn_skipn j rs), map_app in Hss. apply shaped_app in Hss as [H1 H2].
  rewrite EF in HS'. apply remainder_vsub in HS'; auto. subst S'.
  assert (Z0 : forall v : vec, vsub v (map (fun _ => n0) v) = v).
  { intros v. apply (nth_ext _ _ 0%Qc 0%Qc). { apply vsub_length. symmetry. apply map_length. }
    intros i _. rewrite nth_vsub by (symmetry; apply map_length). destruct (Nat.lt_ge_cases i (length v)) as [Hi|Hi].
    - rewrite (nth_indep (map _ v) _ n0) by (rewrite map_length; auto). rewrite (map_nth (fun _ => n0) v n0 i). change n0 with 0%Qc. ring.
    - rewrite !nth_overflow by (try rewrite map_length; auto). ring. }
  destruct (m_loop_split S c t (limit_of k) fuel S (map (fun _ => n0) S) [] 0 rs ext El) with (j := j) as (f & R1 & i1 & e1 & Hf & F1 & F2 & F3); auto.
  { apply map_length. } { constructor. } { rewrite Z0. cbn [map]. symmetry. apply vsub_zeros. } { cbn; lia. }
  set (S1 := vsub S (sum_rows (length S) (map row_imf (firstn j rs)))) in *.
  assert (L1 : length S1 = length S) by (apply peel_length; auto).
  destruct (m_loop_rest c t (limit_of k) f R1 i1 _ e1 rs ext F1 S1 (map (fun _ => n0) S1) 0) with (P1 := firstn j rs) (P2 := @nil (m_row Qc)) as (R & ER & G); auto.
  { rewrite F2. rewrite broadcast2_eq by (symmetry; apply map_length). f_equal. apply Z0. }
  { symmetry. apply app_nil_r. }
  assert (R = skipn j rs). { rewrite <- (firstn_skipn j rs) in ER at 1. apply app_inv_head in ER. auto. } subst R.
  apply (m_loop_fuel _ _ _ f fuel) in G; auto.
  replace (zlen (firstn j rs)) with (Z.of_nat j) in G by (unfold zlen; rewrite firstn_length; lia).
  unfold m_emd. rewrite L1. rewrite <- Et. rewrite Lt, Nat.eqb_refl. cbn [negb]. rewrite G. cbn [bind]. cbv zeta.
  assert (EV : vsub S1 (sum_rows (length S) (map row_imf (skipn j rs))) = vsub S (sum_rows (length S) (map row_imf rs))).
  { unfold S1. rewrite peel_diff by auto. rewrite <- map_app, firstn_skipn. reflexivity. }
  rewrite EV. assert (EX : (if nltb (nlit 1 (10 ^ 10)) (nsum (map nabs (vsub S (sum_rows (length S) (map row_imf rs)))))
     then skipn j rs ++ [MkRow (vsub S (sum_rows (length S) (map row_imf rs))) ext 0] else skipn j rs) = skipn j rows).
  { rewrite HM. destruct (nltb _ _); auto. rewrite skipn_app. replace (j - length rs)%nat with O by lia. reflexivity. }
  rewrite EX. f_equal. f_equal. unfold zlen. rewrite skipn_length.
  assert (length rs <= length rows)%nat by (rewrite HM; destruct (nltb _ _); auto; rewrite app_length; lia). lia.
Qed.
End Mat1.

(** ** EMD, in terms of what is left *)
Theorem emd_peel spl fuel c S T k o j S' : emd spl fuel c S T k = Ok o -> (j < length (imfs o))%nat -> remainder S (firstn j (imfs o)) S' ->
  exists o', emd spl fuel c S' T (k - Z.of_nat j) = Ok o' /\ imfs o' = skipn j (imfs o) /\ residue o' = residue o /\ out o' = skipn j (out o).
Proof.
  intros E Hj HS'. apply remainder_vsub in HS'. { subst S'. apply emd_rest; auto. }
  destruct (emd_parts _ _ _ _ _ _ _ E) as (t & R & e & _ & _ & _ & -> & HR). pose proof (imfs_length S R e). rewrite imfs_firstn by lia.
  rewrite <- (firstn_skipn j R) in HR. apply shaped_app in HR. tauto.
Qed.
Theorem emd_one_by_one spl fuel c S T o j r S' : FIXE c <> 0 -> 1 < MAX_ITERATION c -> emd spl fuel c S T (-1) = Ok o ->
  nth_error (imfs o) j = Some r -> remainder S (firstn j (imfs o)) S' ->
  exists o1, emd spl fuel c S' T 1 = Ok o1 /\ imfs o1 = [r].
Proof.
  intros Hf Hm E Hn HS'. assert (Hj : (j < length (imfs o))%nat) by (apply nth_error_Some; congruence).
  destruct (emd_peel _ _ _ _ _ _ _ _ _ E Hj HS') as (o' & E' & I' & _).
  destruct (emd_limit_fixe spl fuel c S' T 1 (-1 - Z.of_nat j) o') as (o1 & E1 & I1); auto. { split; lia. }
  exists o1. split; auto. rewrite I1, I'. change (Z.to_nat 1) with 1%nat. revert Hn. generalize (imfs o). clear.
  induction j as [|j IH]; intros [|a l]; try discriminate; cbn [nth_error skipn]; auto. intros [= ->]. reflexivity.
Qed.
Theorem emd_residue_absolute spl fuel c S T k o : emd spl fuel c S T k = Ok o -> zlen (imfs o) <> k ->
  (exists x y, In x (residue o) /\ In y (residue o) /\ (range_thr c <= x - y)%Qc) -> (total_power_thr c <= total (map absolute (residue o)))%Qc ->
  exists o', emd spl fuel c (residue o) T (k - zlen (imfs o)) = Ok o' /\ imfs o' = [] /\ residue o' = residue o.
Proof.
  intros E Hk Hr Hp. eapply emd_residue_whole; eauto. rewrite (map_ext nabs absolute); auto. exact Qc_abs_absolute.
Qed.
