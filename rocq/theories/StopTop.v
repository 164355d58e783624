(** * StopTop: whole decompositions stop sifting as soon as the rule is met (lemmas). *)
From Verif Require Import PyFacts QcFacts Emd Jit Spec StopSpec EmdProofs EmdControl EmdStop EmdTop Stop JitProofs.
From Coq Require Import ZifyBool ZifyNat Lia QArith Qcanon.
From Coq Require Import List.
Import ListNotations.
Open Scope Z_scope.

Section Rule.
Context {X : Type}.
Variables (stop : list X -> bool) (rule : list X -> Prop).
Lemma first_until q (ex : Prop) : ~ rule [] -> (forall e l, q = e ++ l -> stop e = true <-> rule e) ->
  first_at stop [] q -> (q <> [] /\ stop q = true \/ ex) -> until rule ex q.
Proof.
  intros H0 HR HF HE. split.
  - intros e l E Hl. destruct e as [|a e]; auto. rewrite <- (HR (a :: e) l) by auto.
    specialize (HF (a :: e) l E ltac:(discriminate) Hl). cbn [app] in HF. congruence.
  - destruct HE as [[_ HE]|HE]; auto. left. apply (HR q []); [rewrite app_nil_r; auto|auto].
Qed.
End Rule.
Lemma prefix_forall {X} (P : X -> Prop) q e l : Forall P q -> q = e ++ l -> Forall P e.
Proof. intros HF ->. apply Forall_app in HF. tauto. Qed.
Lemma none_good {X} (P : X -> Prop) : ~ last_good P [].
Proof. intros (e & s & E & _). destruct e; discriminate. Qed.
Lemma none_all_good {X} (P : X -> Prop) h : ~ last_all_good P h [].
Proof. intros (e & r & E & N & _). symmetry in E. apply app_eq_nil in E as [-> _]. congruence. Qed.
Lemma last_good_iff {X} (chk : X -> bool) (good : X -> Prop) p : Forall (fun s => chk s = true <-> good s) p ->
  (match rev p with s :: _ => chk s | [] => false end = true <-> last_good good p).
Proof.
  intros HF. destruct p as [|s p _] using rev_ind.
  - cbn. split; [discriminate|]. intros G. exfalso. exact (none_good _ G).
  - rewrite rev_app_distr. cbn [rev app]. apply Forall_app in HF as [_ HF]. inversion HF; subst. rewrite H1. split.
    + intros G. exists p, s. auto.
    + intros (e & s' & E & G). apply app_inj_tail in E as [_ ->]. auto.
Qed.

Section Emd.
Context {A : Type} `{Num A}.
Variable spl : spline_oracle A.
Lemma emd_runs fuel c S T k o : emd spl fuel c S T k = Ok o -> FIXE c = 0 -> 0 <= FIXE_H c -> 2 <= MAX_ITERATION c ->
  exists t, emd_time c S T = Ok t /\ forall i, (i < length (imfs o))%nat ->
  exists l, leads (real_step spl c t) (vsub S (sum_rows (length S) (firstn i (imfs o)))) l (nth i (imfs o) []) /\
    first_at (stop_now c t) [] l /\ (l <> [] /\ stop_now c t l = true \/ zlen l = MAX_ITERATION c - 1).
Proof.
  intros E HX HH HM. destruct (emd_imf_sift _ _ _ _ _ _ _ E) as (t & Et & Hi). exists t. split; auto.
  intros i Hlt. destruct (Hi i Hlt) as (e0 & e1 & Es).
  apply (sift_run spl c t _ []) in Es as (q & Q1 & Q2 & Q3); auto; try lia.
  exists q. split; auto. split; auto. destruct Q3 as [Q3|[Q3|Q3]]; auto. discriminate.
Qed.
Lemma emd_until_h fuel c S T k o : emd spl fuel c S T k = Ok o -> FIXE c = 0 -> 0 < FIXE_H c -> 2 <= MAX_ITERATION c ->
  exists t, emd_time c S T = Ok t /\ forall i, (i < length (imfs o))%nat ->
  exists l, leads (fun s => sift_step spl c t (before s) = Ok (after s, upper s, lower s)) (vsub S (sum_rows (length S) (firstn i (imfs o)))) l (nth i (imfs o) []) /\
    until (last_all_good (fun s => balanced c t (after s)) (Z.to_nat (FIXE_H c))) (zlen l = MAX_ITERATION c - 1) l.
Proof.
  intros E HX HH HM. destruct (emd_runs _ _ _ _ _ _ E HX ltac:(lia) HM) as (t & Et & Hi). exists t. split; auto.
  intros i Hlt. destruct (Hi i Hlt) as (l & L1 & L2 & L3). exists l. split; auto.
  apply (first_until (stop_now c t)); auto; [apply none_all_good|]. intros e q _. unfold stop_now.
  destruct (Z.eqb_spec (FIXE_H c) 0); [lia|].
  rewrite Z.leb_le, <- (trail_iff (fun s => bal c t (after s))) by (try lia; apply Forall_forall; intros; apply bal_iff). lia.
Qed.
End Emd.

Lemma leads_nonempty (step : sifted (list Qc) (list (Qc * Qc)) -> Prop) x l y : (forall s, step s -> length (after s) = length (before s)) ->
  leads step x l y -> x <> [] -> Forall (fun s => before s <> []) l.
Proof.
  intros Hs HL. induction HL as [|x y u w l z HS HL IH]; intros Hx; constructor; auto. apply IH.
  apply Hs in HS. cbn in HS. destruct x; [congruence|]. destruct y; discriminate.
Qed.
Lemma emd_until spl fuel c (S : list Qc) T k o : emd spl fuel c S T k = Ok o -> FIXE c = 0 -> FIXE_H c = 0 -> 2 <= MAX_ITERATION c ->
  exists t, emd_time c S T = Ok t /\ forall i, (i < length (imfs o))%nat ->
  exists l, leads (fun s => sift_step spl c t (before s) = Ok (after s, upper s, lower s)) (vsub S (sum_rows (length S) (firstn i (imfs o)))) l (nth i (imfs o) []) /\
    until (last_good (fun s => converged (svar_thr c) (std_thr c) (energy_ratio_thr c) (after s) (before s) (upper s) (lower s) /\ balanced c t (after s)))
      (zlen l = MAX_ITERATION c - 1) l.
Proof.
  intros E HX HH HM. destruct (emd_runs _ _ _ _ _ _ _ E HX ltac:(lia) HM) as (t & Et & Hi). exists t. split; auto.
  intros i Hlt. destruct (Hi i Hlt) as (l & L1 & L2 & L3). exists l. split; auto.
  assert (NE : Forall (fun s => before s <> []) l).
  { eapply leads_nonempty; [|exact L1|].
    - intros s Hs. apply sift_step_length in Hs. exact Hs.
    - assert (HL : length (nth i (imfs o) []) = length S).
      { apply emd_shape in E as (_ & Hs & _). unfold shaped in Hs. rewrite Forall_forall in Hs. apply Hs. apply nth_In; auto. }
      assert (LL : forall x q y, leads (real_step spl c t) x q y -> length y = length x).
      { intros x q y HL'. induction HL' as [|? ? ? ? ? ? HS' _ IH]; auto. apply sift_step_length in HS'. cbn in HS'. congruence. }
      apply LL in L1. intros X0. rewrite X0 in L1. apply emd_time_nonempty in Et. destruct S; [congruence|]. cbn in *. congruence. }
  apply (first_until (stop_now c t)); auto; [apply none_good|]. intros e q Eq. unfold stop_now. rewrite HH. cbn [Z.eqb].
  apply last_good_iff. eapply prefix_forall; [|exact Eq]. rewrite Forall_forall in *. intros s Hs. specialize (NE s Hs).
  unfold test. rewrite andb_true_iff, bal_iff. rewrite <- (check_imf_spec c _ _ _ _ NE). destruct (check_imf _ _ _ _ _) as [b|]; cbn [okb]; split; intros [G1 G2]; split; auto; try congruence; discriminate.
Qed.
