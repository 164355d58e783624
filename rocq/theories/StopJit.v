(** * StopJit: JitEMD stops sifting as soon as the rule is met (lemmas). *)
From Verif Require Import PyFacts QcFacts Emd Jit Spec StopSpec EmdProofs EmdControl EmdStop EmdTop Stop JitProofs StopTop.
From Coq Require Import ZifyBool ZifyNat Lia QArith Qcanon.
From Coq Require Import List.
Import ListNotations.
Open Scope Z_scope.

Section Jit.
Context {A : Type} `{Num A}.
Variable spl : spline_oracle A.
Variable strict : bool.
Lemma jit_sift_finished fuel c T n n_h ext imf imf' ext' :
  jit_sift spl fuel strict c T n n_h ext imf = Ok (imf', ext', true) -> ext' <= 2.
Proof.
  revert n n_h ext imf. induction fuel as [|fuel IH]; intros n n_h ext imf E; cbn [jit_sift] in E; [discriminate|]. cbv zeta in E.
  destruct (_ <=? _); [discriminate|]. apply bind_ok in E as (e & E1 & E).
  destruct (Z.ltb_spec 2 (zlen (min_pos e) + zlen (max_pos e))); [|injection E as <- <-; lia].
  apply bind_ok in E as ([[x P] Q] & _ & E). destruct (negb _).
  { destruct (_ <=? _); [discriminate|]. eapply IH; eauto. }
  destruct (negb _); apply bind_ok in E as (e' & _ & E).
  - destruct (_ =? _); [eapply IH; eauto|]. destruct (FIXE_H c <=? _); [discriminate|]. eapply IH; eauto.
  - apply bind_ok in E as (f1 & _ & E). destruct (_ && _); [discriminate|]. eapply IH; eauto.
Qed.
Lemma jit_prefix c S T k : forall fuel I e R e', jit_loop spl fuel strict c S T k I e = Ok (R, e') -> exists L, R = I ++ L.
Proof.
  induction fuel as [|fuel IH]; intros I e R e' E; cbn [jit_loop] in E; [discriminate|]. cbv zeta in E.
  apply bind_ok in E as ([[imf e1] fin] & E1 & E). apply bind_ok in E as (st & E2 & E).
  destruct (st || _); [injection E as <- <-; eauto|]. destruct fin; [injection E as <- <-; eauto|].
  apply IH in E as (L & ->). exists (imf :: L). rewrite <- app_assoc. reflexivity.
Qed.
Lemma jit_loop_rows fuel c S T k IMF ext IMF' ext' :
  jit_loop spl fuel strict c S T k IMF ext = Ok (IMF', ext') ->
  forall i, (length IMF <= i < length IMF')%nat ->
  exists e0 e1 fin,
    jit_sift spl (sift_fuel c) strict c T 0 0 e0 (vsub S (sum_rows (length S) (firstn i IMF'))) = Ok (nth i IMF' [], e1, fin) /\
    (fin = true -> Datatypes.S i = length IMF' /\ ext' <= 2).
Proof.
  revert IMF ext. induction fuel as [|fuel IH]; intros IMF ext E i Hi; cbn [jit_loop] in E; [discriminate|]. cbv zeta in E.
  apply bind_ok in E as ([[imf ext1] fin] & E1 & E). apply bind_ok in E as (stop & E2 & E).
  assert (HF : forall L, firstn (length IMF) ((IMF ++ [imf]) ++ L) = IMF).
  { intros L. rewrite <- app_assoc, firstn_app, Nat.sub_diag, firstn_all. simpl. apply app_nil_r. }
  assert (HN : forall L, nth (length IMF) ((IMF ++ [imf]) ++ L) [] = imf).
  { intros L. rewrite <- app_assoc, app_nth2, Nat.sub_diag by lia. reflexivity. }
  assert (Hlast : IMF' = IMF ++ [imf] -> ext' = ext1 -> exists e0 e1 fin0,
    jit_sift spl (sift_fuel c) strict c T 0 0 e0 (vsub S (sum_rows (length S) (firstn i IMF'))) = Ok (nth i IMF' [], e1, fin0) /\
    (fin0 = true -> Datatypes.S i = length IMF' /\ ext' <= 2)).
  { intros -> ->. rewrite app_length in Hi. simpl in Hi. assert (i = length IMF) as -> by lia.
    exists ext, ext1, fin. split.
    - rewrite <- (app_nil_r (IMF ++ [imf])), HF, HN. exact E1.
    - intros ->. split; [rewrite app_length; simpl; lia|]. eapply jit_sift_finished; eauto. }
  destruct (stop || _). { injection E as E E'. apply Hlast; congruence. }
  destruct fin. { injection E as E E'. apply Hlast; congruence. }
  destruct (Nat.eq_dec i (length IMF)) as [->|Hne].
  - apply jit_prefix in E as (L & ->). exists ext, ext1, false. split; [rewrite HF, HN; exact E1|discriminate].
  - eapply IH; eauto. rewrite app_length. simpl. lia.
Qed.
Lemma jit_emd_sift fuel c S T k M : jit_emd spl fuel strict c S T k = Ok M ->
  exists K rest, M = K ++ rest /\ (rest = [] \/ rest = [vsub S (sum_rows (length S) K)]) /\ length T = length S /\
    forall i, (i < length K)%nat -> exists e0 e1,
      jit_sift spl (sift_fuel c) strict c T 0 0 e0 (vsub S (sum_rows (length S) (firstn i K))) = Ok (nth i K [], e1, false).
Proof.
  unfold jit_emd. destruct (Nat.eqb_spec (length S) (length T)) as [LT|]; [|discriminate]. cbn [negb]. intros E.
  apply bind_ok in E as ([IMF ext] & E1 & E). cbv zeta in E.
  set (K := if ext <=? 2 then removelast IMF else IMF) in *.
  exists K, (if negb (allclose0 (vsub S (sum_rows (length S) K))) then [vsub S (sum_rows (length S) K)] else []).
  split; [destruct (negb _); [congruence|rewrite app_nil_r; congruence]|]. split; [destruct (negb _); auto|]. split; auto.
  intros i Hi. pose proof (jit_loop_rows _ _ _ _ _ _ _ _ _ E1 i) as G. unfold K in *. clear K.
  destruct (Z.leb_spec ext 2) as [L|L].
  - rewrite removelast_length in Hi. rewrite removelast_nth, removelast_firstn_i by lia.
    destruct (G ltac:(cbn; lia)) as (e0 & e1 & fin & G1 & G2). destruct fin; [destruct (G2 eq_refl); lia|eauto].
  - destruct (G ltac:(cbn; lia)) as (e0 & e1 & fin & G1 & G2). destruct fin; [destruct (G2 eq_refl); lia|eauto].
Qed.
Lemma jit_runs fuel c S T k M : jit_emd spl fuel strict c S T k = Ok M -> FIXE c = 0 -> 0 <= FIXE_H c -> 2 <= MAX_ITERATION c ->
  exists K rest, M = K ++ rest /\ (rest = [] \/ rest = [vsub S (sum_rows (length S) K)]) /\ length T = length S /\ forall i, (i < length K)%nat ->
  exists l, leads (jreal_step spl c T) (vsub S (sum_rows (length S) (firstn i K))) l (nth i K []) /\
    first_at (jstop_now c T strict) [] l /\ (l <> [] /\ jstop_now c T strict l = true \/ zlen l = MAX_ITERATION c - 1).
Proof.
  intros E HX HH HM. destruct (jit_emd_sift _ _ _ _ _ _ E) as (K & rest & EM & ER & LT & Hi). exists K, rest.
  split; auto. split; auto. split; auto.
  intros i Hlt. destruct (Hi i Hlt) as (e0 & e1 & Es).
  apply (jsift_run spl c T strict _ []) in Es as (q & Q1 & Q2 & Q3); auto; try lia.
  exists q. split; auto. split; auto. destruct Q3 as [Q3|[Q3|Q3]]; auto. discriminate.
Qed.
Definition jit_sift_of (c : emd_config A) (T : list A) (s : sifted (list A) (list (A * A))) : Prop :=
  jit_sift_step spl c T (before s) = Ok (after s, upper s, lower s).
Lemma leads_weaken {V K} (P Q : sifted V K -> Prop) x l y : (forall s, P s -> Q s) -> leads P x l y -> leads Q x l y.
Proof. intros HPQ HL. induction HL; econstructor; eauto. Qed.
Lemma jit_until_h fuel c S T k M : jit_emd spl fuel strict c S T k = Ok M -> FIXE c = 0 -> 0 < FIXE_H c -> 2 <= MAX_ITERATION c ->
  exists K rest, M = K ++ rest /\ (rest = [] \/ rest = [vsub S (sum_rows (length S) K)]) /\ forall i, (i < length K)%nat ->
  exists l, leads (fun s => jit_sift_step spl c T (before s) = Ok (after s, upper s, lower s)) (vsub S (sum_rows (length S) (firstn i K))) l (nth i K []) /\
    until (last_all_good (fun s => jit_balanced c T (after s)) (Z.to_nat (FIXE_H c))) (zlen l = MAX_ITERATION c - 1) l.
Proof.
  intros E HX HH HM. destruct (jit_runs _ _ _ _ _ _ E HX ltac:(lia) HM) as (K & rest & EM & ER & _ & Hi). exists K, rest.
  split; auto. split; auto.
  intros i Hlt. destruct (Hi i Hlt) as (l & L1 & L2 & L3). exists l. split; [eapply leads_weaken; [|exact L1]; intros s [Hs _]; exact Hs|].
  apply (first_until (jstop_now c T strict)); auto; [apply none_all_good|]. intros e q _. unfold jstop_now.
  destruct (Z.eqb_spec (FIXE_H c) 0); [lia|].
  rewrite Z.leb_le, <- (trail_iff (fun s => jbal c T (after s))) by (try lia; apply Forall_forall; intros; apply jbal_iff). lia.
Qed.
End Jit.

Lemma curved_not_constant (c : emd_config Qc) T x : length T = length x -> (2 <= length x)%nat -> jit_curved c T x -> forall v, ~ (forall a, In a x -> a = v).
Proof.
  intros LT L2 (e & E & HE). destruct (extrema_detection c) eqn:D.
  - destruct (jit_find x T LT) as (e1 & e2 & M & m & F1 & F2 & F3 & F4 & F5 & F6 & _). rewrite E in F2. injection F2 as <-.
    apply (not_constant Simple T x e1); auto. unfold ext_no. rewrite F5, F6. rewrite F3, F4 in HE. unfold zlen in *. rewrite !map_length in *. lia.
  - apply (not_constant Parabol T x e); auto. unfold ext_no. lia.
  - discriminate.
Qed.
Lemma leads_lengths (step : sifted (list Qc) (list (Qc * Qc)) -> Prop) n x l y : (forall s, step s -> length (before s) = n -> length (after s) = n) ->
  leads step x l y -> length x = n -> Forall (fun s => step s /\ length (before s) = n) l.
Proof. intros Hs HL. induction HL as [|x y u w l z HS HL IH]; intros Hx; constructor; auto. apply IH. apply (Hs _ HS). exact Hx. Qed.
Lemma jit_until spl strict fuel c (S : list Qc) T k M : (2 <= length S)%nat -> jit_emd spl fuel strict c S T k = Ok M -> FIXE c = 0 -> FIXE_H c = 0 -> 2 <= MAX_ITERATION c ->
  exists K rest, M = K ++ rest /\ (rest = [] \/ rest = [vsub S (sum_rows (length S) K)]) /\ forall i, (i < length K)%nat ->
  exists l, leads (fun s => jit_sift_step spl c T (before s) = Ok (after s, upper s, lower s)) (vsub S (sum_rows (length S) (firstn i K))) l (nth i K []) /\
    until (last_good (fun s => converged (svar_thr c) (std_thr c) (energy_ratio_thr c) (after s) (before s) (upper s) (lower s) /\ jit_balanced c T (after s)))
      (zlen l = MAX_ITERATION c - 1) l.
Proof.
  intros L2 E HX HH HM. pose proof E as E'. destruct (jit_runs _ _ _ _ _ _ _ _ E HX ltac:(lia) HM) as (K & rest & EM & ER & LT & Hi). exists K, rest.
  split; auto. split; auto.
  intros i Hlt. destruct (Hi i Hlt) as (l & L1 & L3 & L4). exists l. split; [eapply leads_weaken; [|exact L1]; intros s [Hs _]; exact Hs|].
  assert (SK : shaped (length S) K).
  { apply jit_emd_sum in E' as [E' _]; auto. rewrite EM in E'. apply Forall_app in E'. tauto. }
  assert (LR : length (vsub S (sum_rows (length S) (firstn i K))) = length S).
  { apply vsub_length. symmetry. apply sum_rows_length. unfold shaped in SK. rewrite Forall_forall in SK. intros r Hr. apply SK.
    rewrite <- (firstn_skipn i K). apply in_or_app. auto. }
  apply leads_lengths with (n := length S) in L1; auto.
  2:{ intros s [Hs _] Hb. apply jit_step_length in Hs; [|lia]. cbn in Hs. lia. }
  apply (first_until (jstop_now c T strict)); auto; [apply none_good|]. intros e q Eq. unfold jstop_now. rewrite HH. cbn [Z.eqb].
  apply last_good_iff. eapply prefix_forall; [|exact Eq]. rewrite Forall_forall in *. intros s Hs. destruct (L1 s Hs) as [[_ HC] HL].
  unfold jtest. rewrite andb_true_iff, jbal_iff. rewrite jit_check by (apply (curved_not_constant c T); auto; lia).
  rewrite <- (check_imf_spec c (after s) (before s)) by (intros X; rewrite X in HL; cbn in HL; lia).
  destruct (check_imf _ _ _ _ _) as [b|]; cbn [okb]; split; intros [G1 G2]; split; auto; try congruence; discriminate.
Qed.
