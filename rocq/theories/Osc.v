(** * Osc: a signal that swings between two levels is one component (C95). *)
From Verif Require Import PyFacts QcFacts Emd Spec EmdProofs EmdControl EmdExact EmdFlat EmdSym Extrema ExtremaSpec ExtremaProofs Runs PrepareProofs PreparePlan EmdSimple Envelope.
From Verif Require Import KindsProofs Kinds KindsSpec KindsAll KindsExact KindsArcs KindsRange OscSpec.
From Coq Require Import ZifyBool ZifyNat QArith Qcanon Lia List.
Import ListNotations.
Open Scope Z_scope.

(** ** Which samples are mirrored *)
Lemma In_firstn' {X} (x : X) n l : In x (firstn n l) -> In x l.
Proof. revert n. induction l as [|y l IH]; intros [|n]; cbn; auto; try tauto. intros [H|H]; eauto. Qed.
Lemma end_plan_in nb inside A B a LA LB : end_plan nb inside A B = (a, LA, LB) ->
  (forall i, In i LA -> In i A) /\ (forall i, In i LB -> In i B \/ (i = 0 /\ inside = false)).
Proof.
  unfold end_plan. destruct inside.
  - set (L := match firstn nb (tl A) with [] => A | l => l end).
    assert (HL : forall i, In i L -> In i A).
    { intros i. unfold L. destruct (firstn nb (tl A)) as [|x l] eqn:E; auto. rewrite <- E. intros Hi. apply In_firstn' in Hi.
      destruct A; auto. right. exact Hi. }
    destruct (_ && _); intros [= <- <- <-]; split; auto; intros i Hi; try (left; eapply In_firstn'; eauto); eapply In_firstn'; eauto.
  - intros [= <- <- <-]. split; [intros i Hi; eapply In_firstn'; eauto|]. intros i [<-|Hi]; auto. left. eapply In_firstn'; eauto.
Qed.
Lemma left_plan_levels nb S M m l h c LM Lm : left_plan nb S M m = (c, LM, Lm) -> M <> [] -> m <> [] -> (0 < length S)%nat ->
  (forall x, In x S -> (l <= x)%Qc /\ (x <= h)%Qc) ->
  (forall i, In i M -> sample S i = h) -> (forall i, In i m -> sample S i = l) ->
  (forall i, In i LM -> sample S i = h) /\ (forall i, In i Lm -> sample S i = l).
Proof.
  intros E HM Hm H0 HB H1 H2.
  assert (Z0 : (l <= sample S 0)%Qc /\ (sample S 0 <= h)%Qc) by (apply HB; unfold sample; apply nth_In; auto).
  assert (HdM : In (hd 0 M) M) by (destruct M; [congruence|left; auto]).
  assert (Hdm : In (hd 0 m) m) by (destruct m; [congruence|left; auto]).
  unfold left_plan in E. destruct (hd 0 M <? hd 0 m).
  - destruct (end_plan nb _ M m) as [[a LA] LB] eqn:EP. injection E as <- <- <-. apply end_plan_in in EP as [P1 P2].
    split; [auto|]. intros i Hi. destruct (P2 i Hi) as [H|[-> H]]; auto.
    destruct (Qclt_le_dec _ _) as [D|D]; [discriminate H|]. rewrite (H2 _ Hdm) in D. apply Qcle_antisym; tauto.
  - destruct (end_plan nb _ m M) as [[a LA] LB] eqn:EP. injection E as <- <- <-. apply end_plan_in in EP as [P1 P2].
    split; [|auto]. intros i Hi. destruct (P2 i Hi) as [H|[-> H]]; auto.
    destruct (Qclt_le_dec _ _) as [D|D]; [discriminate H|]. rewrite (H1 _ HdM) in D. apply Qcle_antisym; tauto.
Qed.
Lemma sample_flip S i : 0 <= i < Z.of_nat (length S) -> sample (rev S) (Z.of_nat (length S) - 1 - i) = sample S i.
Proof. intros Hi. unfold sample. rewrite rev_nth by lia. f_equal. lia. Qed.
Lemma right_plan_levels nb S M m l h c LM Lm : right_plan nb S M m = (c, LM, Lm) -> M <> [] -> m <> [] -> (0 < length S)%nat ->
  (forall i, In i M -> 0 <= i < Z.of_nat (length S)) -> (forall i, In i m -> 0 <= i < Z.of_nat (length S)) ->
  (forall x, In x S -> (l <= x)%Qc /\ (x <= h)%Qc) ->
  (forall i, In i M -> sample S i = h) -> (forall i, In i m -> sample S i = l) ->
  (forall i, In i LM -> sample S i = h) /\ (forall i, In i Lm -> sample S i = l).
Proof.
  intros E HM Hm H0 R1 R2 HB H1 H2. unfold right_plan in E. cbv zeta in E.
  set (n := Z.of_nat (length S)) in *.
  assert (Back : forall L i, In i (backwards n L) <-> exists j, In j L /\ i = n - 1 - j).
  { intros L i. unfold backwards. rewrite <- in_rev, in_map_iff. split; intros (j & A & B); exists j; auto. }
  assert (BN : forall L, L <> [] -> backwards n L <> []).
  { intros L HL HE. destruct L as [|x L]; [congruence|]. assert (In (n - 1 - x) (backwards n (x :: L))) by (apply Back; exists x; split; [left|]; auto).
    rewrite HE in H. destruct H. }
  destruct (left_plan nb (rev S) (backwards n M) (backwards n m)) as [[c' LM'] Lm'] eqn:EP. injection E as <- <- <-.
  assert (LP : left_plan nb (rev S) (backwards n M) (backwards n m) = (c', LM', Lm')) by exact EP.
  (* every index of the plan is within the signal *)
  assert (RG : (forall i, In i LM' -> 0 <= i < n) /\ (forall i, In i Lm' -> 0 <= i < n)).
  { assert (X : forall L, (forall i, In i L -> 0 <= i < n) -> forall i, In i (backwards n L) -> 0 <= i < n).
    { intros L HL i Hi. apply Back in Hi as (j & Hj & ->). specialize (HL j Hj). lia. }
    unfold left_plan in LP. destruct (_ <? _).
    - destruct (end_plan nb _ _ _) as [[a LA] LB] eqn:E. injection LP as <- <- <-. apply end_plan_in in E as [P1 P2].
      split; intros i Hi; [apply P1 in Hi; eauto|]. destruct (P2 i Hi) as [Y|[-> _]]; eauto. lia.
    - destruct (end_plan nb _ _ _) as [[a LA] LB] eqn:E. injection LP as <- <- <-. apply end_plan_in in E as [P1 P2].
      split; intros i Hi; [|apply P1 in Hi; eauto]. destruct (P2 i Hi) as [Y|[-> _]]; eauto. lia. }
  destruct (left_plan_levels nb (rev S) _ _ l h _ _ _ LP) as [L1 L2]; auto.
  - rewrite rev_length. auto.
  - intros x Hx. apply HB. apply in_rev. auto.
  - intros i Hi. apply Back in Hi as (j & Hj & ->). rewrite sample_flip; auto.
  - intros i Hi. apply Back in Hi as (j & Hj & ->). rewrite sample_flip; auto.
  - destruct RG as [G1 G2]. split; intros i Hi; apply Back in Hi as (j & Hj & ->).
    + rewrite <- (L1 j Hj). replace j with (n - 1 - (n - 1 - j)) at 2 by lia. symmetry. apply sample_flip. specialize (G1 j Hj). unfold n in *. lia.
    + rewrite <- (L2 j Hj). replace j with (n - 1 - (n - 1 - j)) at 2 by lia. symmetry. apply sample_flip. specialize (G2 j Hj). unfold n in *. lia.
Qed.

(** ** The knots of a steady signal *)
Lemma Qc_ofZ_inj_map M M' : map Qc_ofZ M = map Qc_ofZ M' -> M = M'.
Proof.
  revert M'. induction M as [|x M IH]; intros [|y M'] E; try discriminate; auto.
  pose proof (f_equal (hd 0%Qc) E) as E1. pose proof (f_equal (@tl Qc) E) as E2. cbn [map hd tl] in E1, E2.
  apply Qc_ofZ_inj in E1. f_equal; auto.
Qed.
Lemma three_long (l : list Z) (m : list Z) i j k : i < j < k -> (In i l \/ In i m) -> (In j l \/ In j m) -> (In k l \/ In k m) ->
  2 < zlen l + zlen m.
Proof.
  intros H Hi Hj Hk. assert (ND : NoDup [i; j; k]).
  { repeat constructor; cbn; intuition lia. }
  assert (IN : incl [i; j; k] (l ++ m)).
  { intros x [<-|[<-|[<-|[]]]]; apply in_or_app; auto. }
  pose proof (NoDup_incl_length ND IN) as L. rewrite app_length in L. cbn [length] in L. unfold zlen. lia.
Qed.
Lemma steady_knots S nb l h : 1 <= nb -> steady S l h -> exists e P Q M m cl cr,
  find_extrema Simple (tz (length S)) S = Ok e /\ 2 < zlen (max_pos e) + zlen (min_pos e) /\
  prepare_points Simple nb (tz (length S)) S e = Ok (P, Q) /\
  env_ok (length S) S M cl cr P /\ env_ok (length S) S m cl cr Q /\
  (forall p, In p P -> snd p = h) /\ (forall p, In p Q -> snd p = l).
Proof.
  intros Hnb (HB & H1 & H2 & i & j & k & Hijk & Ei & Ej & Ek).
  destruct (detect_prepare S nb Hnb) as (e & M & m & E & E1 & E2 & R1 & R2 & HP).
  assert (RM : forall x, In x M <-> reported_max S x) by (intros x; rewrite R1; apply rep_max_iff).
  assert (Rm : forall x, In x m <-> reported_min S x) by (intros x; rewrite R2; apply rep_min_iff).
  assert (H3 : 2 < zlen M + zlen m).
  { apply (three_long M m i j k); auto; rewrite RM, Rm; auto. }
  destruct (HP H3) as (P & Q & cl & cr & EP & O1 & O2 & _).
  assert (H3' : 2 < zlen (max_pos e) + zlen (min_pos e)) by (rewrite E1, E2, !zlen_map; auto).
  exists e, P, Q, M, m, cl, cr. do 5 (split; [assumption|]).
  destruct (simple_counts (tz (length S)) S e (tz_length _) E) as [_ HC]. destruct (HC H3') as [C1 C2].
  assert (NM : max_pos e <> []) by (intros Hx; rewrite Hx in C1; cbn in C1; lia).
  assert (Nm : min_pos e <> []) by (intros Hx; rewrite Hx in C2; cbn in C2; lia).
  rewrite <- arange_tz in E, EP.
  destruct (mirroring_exact S nb e Hnb E NM Nm) as (M' & m' & P' & Q' & E1' & E2' & EP' & HX).
  rewrite EP in EP'. injection EP' as <- <-.
  rewrite E1 in E1'. rewrite E2 in E2'. apply Qc_ofZ_inj_map in E1'. apply Qc_ofZ_inj_map in E2'. subst M' m'.
  assert (HM : M <> []) by (intros ->; apply NM; auto). assert (Hm : m <> []) by (intros ->; apply Nm; auto).
  assert (GM : forall x, In x M -> 0 <= x < Z.of_nat (length S)) by (intros x Hx; apply R1, rep_range in Hx; unfold zlen in Hx; lia).
  assert (Gm : forall x, In x m -> 0 <= x < Z.of_nat (length S)) by (intros x Hx; apply R2, rep_range in Hx; unfold zlen in Hx; lia).
  assert (L0 : (0 < length S)%nat) by (destruct M as [|x M]; [congruence|]; specialize (GM x (or_introl eq_refl)); lia).
  destruct (left_plan (Z.to_nat nb) S M m) as [[cl' LM] Lm] eqn:EL.
  destruct (right_plan (Z.to_nat nb) S M m) as [[cr' RM'] Rm'] eqn:ER.
  assert (VM : forall x, In x M -> sample S x = h) by (intros x Hx; apply H1, RM; auto).
  assert (Vm : forall x, In x m -> sample S x = l) by (intros x Hx; apply H2, Rm; auto).
  destruct (left_plan_levels _ _ _ _ l h _ _ _ EL HM Hm L0 HB VM Vm) as [A1 A2].
  destruct (right_plan_levels _ _ _ _ l h _ _ _ ER HM Hm L0 GM Gm HB VM Vm) as [B1 B2].
  destruct HX as [[_ X1] [_ X2]]. split; intros p Hp.
  - apply X1 in Hp as [(x & Hx & ->)|[(x & Hx & ->)|(x & Hx & ->)]]; cbn [snd]; auto.
  - apply X2 in Hp as [(x & Hx & ->)|[(x & Hx & ->)|(x & Hx & ->)]]; cbn [snd]; auto.
Qed.

(** ** Curves through knots of one height *)
Definition holds_level (spl : spline_oracle Qc) : Prop :=
  forall k pts t v y, increasing (map fst pts) -> spl k pts t = Ok v -> (forall p, In p pts -> snd p = y) -> v = map (fun _ => y) t.
Lemma two_ne0 : (1 + 1 <> 0)%Qc. Proof. discriminate. Qed.
Lemma cubic3_level P T t v y : cubic_spline_3pts P T = Ok (t, v) -> (forall p, In p P -> snd p = y) -> forall u, In u v -> u = y.
Proof.
  intros E HP u Hu.
  pose proof (cubic3_g (1 + 1)%Qc (- y)%Qc P T t v E) as E'.
  assert (EP : map (gp (1 + 1)%Qc (- y)%Qc) P = P).
  { rewrite <- (map_id P) at 2. apply map_ext_in. intros [a b] Hp. unfold gp, g. cbn [fst snd]. f_equal. specialize (HP _ Hp). cbn [snd] in HP. subst. ring. }
  rewrite EP in E'. rewrite E in E'. apply ok_inv in E'. apply pair_inv in E' as [_ Ev]. clear - Ev Hu.
  revert Hu Ev. induction v as [|w v IH]; intros Hu Ev; [destruct Hu|].
  pose proof (f_equal (hd 0%Qc) Ev) as E1. pose proof (f_equal (@tl Qc) Ev) as E2. cbn [map hd tl] in E1, E2.
  destruct Hu as [<-|Hu]; [|apply IH; auto]. unfold g in E1. clear - E1.
  assert (A : ((1 + 1) * w + - y = w)%Qc) by auto. transitivity ((1 + 1) * w + - y - w + y)%Qc; [ring|]. rewrite A. ring.
Qed.
Lemma kinds_level : holds_level scipy_spl.
Proof.
  intros k pts t v y HI E HP. rewrite (line_exact k pts t v 0%Qc y HI E).
  - apply map_ext. intros. ring.
  - intros p Hp. rewrite (HP p Hp). ring.
Qed.

Section Steady.
Variables (spl : spline_oracle Qc) (c : emd_config Qc).
Hypothesis Hspl : interpolates spl.
Hypothesis Hlev : holds_level spl.
Hypothesis Hdet : extrema_detection c = Simple.
Hypothesis Hnb : 1 <= nbsym c.
Hypothesis Hkind : parse_kind (spline_kind c) <> None.

Lemma level_spline n S M cl cr P y : env_ok n S M cl cr P -> (forall p, In p P -> snd p = y) ->
  spline_points spl (spline_kind c) (tz n) P = Ok (repeat y n).
Proof.
  intros HE HP. destruct (spline_ok spl Hspl c Hkind n S M cl cr P HE) as (v & Ev & Lv). rewrite Ev. f_equal.
  pose proof (window_all _ _ _ _ _ _ HE) as HW. unfold spline_points in Ev. rewrite HW in Ev. cbn [bind] in Ev.
  assert (HV : forall u, In u v -> u = y).
  { destruct (parse_kind (spline_kind c)) as [k|]; [|congruence].
    assert (X : forall k, spl k P (tz n) = Ok v -> forall u, In u v -> u = y).
    { intros k' E u Hu. rewrite (Hlev k' P (tz n) v y (env_inc _ _ _ _ _ _ HE) E HP) in Hu. apply in_map_iff in Hu as (? & <- & _). auto. }
    destruct k; eauto. destruct (3 <? zlen P); eauto.
    apply bind_ok in Ev as ([t q] & E & Ev). apply ok_inv in Ev. subst q. exact (cubic3_level P (tz n) t v y E HP). }
  clear - HV Lv. subst n. induction v as [|u v IH]; [reflexivity|]. cbn [length repeat]. f_equal; [apply HV; left; auto|].
  apply IH. intros w Hw. apply HV. right. auto.
Qed.

Lemma steady_sift S l h : steady S l h -> exists e P Q,
  find_extrema (extrema_detection c) (tz (length S)) S = Ok e /\ 2 < ext_no e /\
  extract_max_min_spline spl c (tz (length S)) S = Ok (repeat h (length S), repeat l (length S), P, Q) /\
  sift_step spl c (tz (length S)) S = Ok (about (halfway l h) S, P, Q).
Proof.
  intros HS. destruct (steady_knots S (nbsym c) l h Hnb HS) as (e & P & Q & M & m & cl & cr & E & H3 & EP & O1 & O2 & V1 & V2).
  exists e, P, Q. split; [rewrite Hdet; exact E|]. split; [exact H3|].
  assert (EX : extract_max_min_spline spl c (tz (length S)) S = Ok (repeat h (length S), repeat l (length S), P, Q)).
  { unfold extract_max_min_spline. rewrite Hdet, E. cbn [bind]. destruct (Z.ltb_spec (zlen (max_pos e) + zlen (min_pos e)) 3) as [D|D]; [lia|].
    rewrite EP. cbn [bind]. rewrite (level_spline _ _ _ _ _ _ h O1 V1). cbn [bind]. rewrite (level_spline _ _ _ _ _ _ l O2 V2). reflexivity. }
  split; auto. unfold sift_step. rewrite EX. cbn [bind]. rewrite broadcast2_eq by (rewrite !repeat_length; auto). cbn [bind].
  rewrite assign_all_eq by (rewrite map_length, map2_length_eq; rewrite !repeat_length; auto). cbn [bind].
  assert (EV : vsub S (map (nmul nhalf) (map2 nadd (repeat h (length S)) (repeat l (length S)))) = about (halfway l h) S); [|rewrite EV; reflexivity].
  clear. unfold about. induction S as [|x S IH]; [reflexivity|]. cbn [length repeat map map2]. unfold vsub in *. cbn [map2]. f_equal; auto.
  unfold halfway. change (@nhalf Qc _) with (Q2Qc (1 # 2)). num_qc. replace (Q2Qc (1 # 2)) with (1 / (1 + 1))%Qc by (apply Qc_is_canon; reflexivity).
  field. discriminate.
Qed.

(** ** Sifting again changes nothing *)
Lemma sample_about m S i : 0 <= i < Z.of_nat (length S) -> sample (about m S) i = (sample S i - m)%Qc.
Proof.
  intros Hi. unfold sample, about. rewrite (nth_indep _ 0%Qc ((fun x => x - m)%Qc 0%Qc)) by (rewrite map_length; lia).
  rewrite (map_nth (fun x => (x - m)%Qc)). reflexivity.
Qed.
Lemma about_length m S : length (about m S) = length S. Proof. apply map_length. Qed.
Lemma flat_about m S a b : 0 <= a -> b < Z.of_nat (length S) -> flat (about m S) a b -> flat S a b.
Proof.
  intros Ha Hb H k Hk. specialize (H k Hk). rewrite !sample_about in H by lia. set (x := sample S k) in *. set (y := sample S a) in *. clearbody x y. qclra.
Qed.
Lemma max_about m S i : reported_max (about m S) i -> reported_max S i.
Proof.
  unfold reported_max, hill, start_max. rewrite about_length.
  intros [(a & b & (H1 & H2 & H3 & H4 & H5) & Hd & E)|(b & (H1 & H2 & H3 & H4) & E)].
  - left. exists a, b. rewrite !sample_about in H4, H5 by lia. apply flat_about in H3; try lia. repeat split; auto; try lia; qclra.
  - right. exists b. rewrite !sample_about in H3, H4 by lia. apply flat_about in H2; try lia. repeat split; auto; try lia; qclra.
Qed.
Lemma min_about m S i : reported_min (about m S) i -> reported_min S i.
Proof.
  unfold reported_min, valley, start_min. rewrite about_length.
  intros [(a & b & (H1 & H2 & H3 & H4 & H5) & Hd & E)|(b & (H1 & H2 & H3 & H4) & E)].
  - left. exists a, b. rewrite !sample_about in H4, H5 by lia. apply flat_about in H3; try lia. repeat split; auto; try lia; qclra.
  - right. exists b. rewrite !sample_about in H3, H4 by lia. apply flat_about in H2; try lia. repeat split; auto; try lia; qclra.
Qed.
Lemma about_back m S : about (- m) (about m S) = S.
Proof. unfold about. rewrite map_map. rewrite <- (map_id S) at 2. apply map_ext. intros. ring. Qed.
Lemma steady_about m S l h : steady S l h -> steady (about m S) (l - m)%Qc (h - m)%Qc.
Proof.
  intros (HB & H1 & H2 & i & j & k & Hijk & Ei & Ej & Ek).
  assert (RX : forall i, reported_max S i -> 0 <= i < Z.of_nat (length S)) by (intros x Hx; apply rep_max_iff, rep_range in Hx; unfold zlen in Hx; lia).
  assert (RN : forall i, reported_min S i -> 0 <= i < Z.of_nat (length S)) by (intros x Hx; apply rep_min_iff, rep_range in Hx; unfold zlen in Hx; lia).
  split; [|split; [|split]].
  - intros x Hx. apply in_map_iff in Hx as (y & <- & Hy). destruct (HB y Hy). split; qclra.
  - intros x Hx. apply max_about in Hx. rewrite sample_about by auto. rewrite (H1 x Hx). auto.
  - intros x Hx. apply min_about in Hx. rewrite sample_about by auto. rewrite (H2 x Hx). auto.
  - exists i, j, k. split; auto.
    assert (EX : forall x, extremum S x -> extremum (about m S) x).
    { intros x Hx. rewrite <- (about_back m S) in Hx. destruct Hx as [Hx|Hx]; [left; eapply max_about|right; eapply min_about]; exact Hx. }
    auto.
Qed.
Lemma halfway_about l h : halfway (l - halfway l h) (h - halfway l h) = 0%Qc.
Proof. unfold halfway. field. discriminate. Qed.
Lemma about_zero S : about 0 S = S.
Proof. unfold about. rewrite <- (map_id S) at 2. apply map_ext. intros. ring. Qed.

Lemma sift_level fuel n nh ext x l h r e b : steady x l h -> halfway l h = 0%Qc -> 2 < ext ->
  sift spl fuel c (tz (length x)) n nh ext x = Ok (r, e, b) -> r = x /\ 2 < e /\ b = false.
Proof.
  intros HS H0. destruct (steady_sift x l h HS) as (e0 & P & Q & E1 & He & _ & E2). rewrite H0, about_zero in E2.
  revert n nh ext. induction fuel as [|fuel IH]; intros n nh ext Hx E; [discriminate|]. cbn [sift] in E.
  destruct (MAX_ITERATION c <=? n + 1); [injection E as <- <- <-; auto|].
  rewrite E1 in E. cbn [bind] in E. destruct (Z.ltb_spec 2 (ext_no e0)) as [_|D]; [|lia]. rewrite E2 in E. cbn [bind] in E.
  rewrite E1 in E. cbn [bind] in E.
  destruct (negb (FIXE c =? 0)); [destruct (_ <=? _); [injection E as <- <- <-; auto|eapply IH; [|exact E]; auto]|].
  destruct (negb (FIXE_H c =? 0)).
  - destruct (_ =? 1); [eapply IH; [|exact E]; auto|]. destruct (FIXE_H c <=? _); [injection E as <- <- <-; auto|eapply IH; [|exact E]; auto].
  - apply bind_ok in E as (f1 & _ & E). destruct (_ && _); [injection E as <- <- <-; auto|eapply IH; [|exact E]; auto].
Qed.
Lemma sift_steady fuel nh ext x l h r e b : steady x l h -> 2 <= MAX_ITERATION c ->
  sift spl fuel c (tz (length x)) 0 nh ext x = Ok (r, e, b) -> r = about (halfway l h) x /\ 2 < e /\ b = false.
Proof.
  intros HS HM E. destruct (steady_sift x l h HS) as (e0 & P & Q & E1 & He & _ & E2).
  pose proof (steady_about (halfway l h) x l h HS) as HS'. set (y := about (halfway l h) x) in *.
  assert (Ly : length y = length x) by apply about_length.
  destruct (steady_sift y _ _ HS') as (e1 & P1 & Q1 & E3 & He1 & _). rewrite Ly in E3.
  destruct fuel as [|fuel]; [discriminate|]. cbn [sift] in E.
  replace (MAX_ITERATION c <=? 0 + 1) with false in E by lia.
  rewrite E1 in E. cbn [bind] in E. destruct (Z.ltb_spec 2 (ext_no e0)) as [_|D]; [|lia]. rewrite E2 in E. cbn [bind] in E.
  rewrite E3 in E. cbn [bind] in E. rewrite <- Ly in E.
  assert (GO : forall n nh ext, 2 < ext -> sift spl fuel c (tz (length y)) n nh ext y = Ok (r, e, b) -> r = y /\ 2 < e /\ b = false).
  { intros n nh' ext' H2 E'. exact (sift_level fuel n nh' ext' y _ _ r e b HS' (halfway_about l h) H2 E'). }
  destruct (negb (FIXE c =? 0)); [destruct (_ <=? _); [injection E as <- <- <-; auto|eapply GO; [|exact E]; auto]|].
  destruct (negb (FIXE_H c =? 0)).
  - destruct (_ =? 1); [eapply GO; [|exact E]; auto|]. destruct (FIXE_H c <=? _); [injection E as <- <- <-; auto|eapply GO; [|exact E]; auto].
  - apply bind_ok in E as (f1 & _ & E). destruct (_ && _); [injection E as <- <- <-; auto|eapply GO; [|exact E]; auto].
Qed.

(** ** The decomposition *)
Lemma about_rest m S : vsub S (sum_rows (length S) [about m S]) = repeat m (length S).
Proof.
  assert (SH : shaped (length S) [about m S]) by (repeat constructor; apply about_length).
  assert (L : length (sum_rows (length S) [about m S]) = length S) by (apply sum_rows_length; apply Forall_forall; exact SH).
  apply (nth_ext _ _ 0%Qc 0%Qc); [rewrite vsub_length; rewrite ?repeat_length; auto|].
  intros i Hi. rewrite vsub_length in Hi by auto. rewrite nth_vsub by auto. rewrite nth_sum_rows by auto. rewrite total_at_one.
  rewrite nth_repeat_lt by auto. pose proof (sample_about m S (Z.of_nat i) ltac:(lia)) as E. unfold sample in E. rewrite Nat2Z.id in E. change n0 with 0%Qc in E. rewrite E. ring.
Qed.
Lemma steady_length S l h : steady S l h -> (2 <= length S)%nat.
Proof.
  intros (_ & _ & _ & i & j & k & Hijk & Ei & Ej & Ek).
  assert (R : forall x, extremum S x -> 0 <= x <= zlen S - 2).
  { intros x [Hx|Hx]; [apply rep_max_iff in Hx|apply rep_min_iff in Hx]; eapply rep_range; eauto. }
  specialize (R i Ei) as R1. specialize (R k Ek) as R2. unfold zlen in *. lia.
Qed.
Hypothesis Hnf : forall kd p t, spl kd p t <> Raise OutOfFuel.
Lemma steady_emd fuel S T k l h : steady S l h -> 2 <= MAX_ITERATION c -> (forall t, T = Some t -> length t = length S) -> (2 <= fuel)%nat ->
  exists o, emd spl fuel c S T k = Ok o /\ imfs o = [about (halfway l h) S] /\ residue o = repeat (halfway l h) (length S).
Proof.
  intros HS HM HT Hf. pose proof (steady_length S l h HS) as HL. set (y := about (halfway l h) S). set (m := halfway l h) in *.
  unfold emd. rewrite (simple_time c Hdet S T HL HT). cbn [bind]. rewrite tz_length, Nat.eqb_refl. cbn [negb].
  destruct fuel as [|[|fuel]]; try lia. cbn [emd_loop]. change (sum_rows (length S) []) with (@vzeros Qc _ (length S)). rewrite vsub_zeros.
  assert (HS0 : S <> []) by (intros ->; cbn in HL; lia).
  assert (E1 : exists e, sift spl (sift_fuel c) c (tz (length S)) 0 0 (-1) S = Ok (y, e, false) /\ 2 < e).
  { pose proof (sift_ok spl Hspl c Hdet Hnb Hkind (sift_fuel c) 0 0 (-1) S HS0) as F.
    pose proof (sift_total spl Hnf (sift_fuel c) c (tz (length S)) 0 0 (-1) S) as N.
    destruct (sift spl (sift_fuel c) c (tz (length S)) 0 0 (-1) S) as [[[r e] b]|x] eqn:E.
    - destruct (sift_steady _ _ _ _ l h _ _ _ HS HM E) as (-> & He & ->). eauto.
    - cbn in F. subst x. exfalso. apply N; [|reflexivity]. unfold sift_fuel. lia. }
  destruct E1 as (e & E1 & He). rewrite E1. cbn [bind app].
  assert (ER : vsub S (sum_rows (length S) [y]) = repeat m (length S)) by apply about_rest.
  assert (F1 : exists o, Ok (emd_finish S [y] e) = Ok o /\ imfs o = [y] /\ residue o = repeat m (length S)).
  { eexists. split; [reflexivity|]. unfold emd_finish. destruct (Z.leb_spec e 2) as [D|D]; [lia|]. cbn [imfs residue]. auto. }
  assert (Hne : repeat m (length S) <> []) by (destruct S; [congruence|discriminate]).
  assert (EC : exists b, end_condition c S [y] = Ok b).
  { unfold end_condition. rewrite ER. destruct (np_max_ok _ Hne) as (mx & ->). destruct (np_min_ok _ Hne) as (mn & ->). cbn [bind].
    destruct (nltb _ _); eauto. destruct (nltb _ _); eauto. }
  destruct EC as (b & ->). cbn [bind]. destruct (b || _); [cbn [bind]; exact F1|].
  cbn [emd_loop]. rewrite ER.
  destruct (constant_find Simple (tz (length S)) m (length S) ltac:(discriminate) (tz_length _) HL) as (e' & Ee & Z1 & Z2).
  assert (E2 : sift spl (sift_fuel c) c (tz (length S)) 0 0 e (repeat m (length S)) = Ok (repeat m (length S), ext_no e', true)).
  { unfold sift_fuel. cbn [sift]. replace (MAX_ITERATION c <=? 0 + 1) with false by lia. rewrite Hdet, Ee. cbn [bind].
    unfold ext_no at 1. rewrite Z1, Z2. reflexivity. }
  rewrite E2. cbn [bind app].
  assert (F2 : exists o, Ok (emd_finish S [y; repeat m (length S)] (ext_no e')) = Ok o /\ imfs o = [y] /\ residue o = repeat m (length S)).
  { eexists. split; [reflexivity|]. unfold emd_finish, ext_no. rewrite Z1, Z2. cbn [zlen length Z.of_nat Z.add Z.leb Z.compare removelast]. cbn [imfs residue]. auto. }
  assert (EC : exists b, end_condition c S [y; repeat m (length S)] = Ok b).
  { unfold end_condition.
    assert (Hne2 : vsub S (sum_rows (length S) [y; repeat m (length S)]) <> []).
    { intros X. apply (f_equal (@length _)) in X. rewrite vsub_length in X.
      - cbn in X. lia.
      - rewrite sum_rows_length; auto. intros r [<-|[<-|[]]]; [apply about_length|apply repeat_length]. }
    destruct (np_max_ok _ Hne2) as (mx & ->). destruct (np_min_ok _ Hne2) as (mn & ->). cbn [bind].
    destruct (nltb _ _); eauto. destruct (nltb _ _); eauto. }
  destruct EC as (b2 & ->). cbn [bind]. destruct (b2 || _); cbn [bind]; exact F2.
Qed.
End Steady.

(** Steadiness, from what find_extrema answers. *)
Lemma three_sorted (l : list Z) : NoDup l -> (3 <= length l)%nat -> exists i j k, i < j < k /\ In i l /\ In j l /\ In k l.
Proof.
  intros ND L. destruct l as [|a [|b [|d l]]]; cbn [length] in L; try lia.
  inversion ND as [|? ? N1 ND1]; subst. inversion ND1 as [|? ? N2 _]; subst. cbn [In] in N1, N2.
  set (L0 := a :: b :: d :: l).
  assert (Ia : In a L0) by (left; auto). assert (Ib : In b L0) by (right; left; auto). assert (Id : In d L0) by (right; right; left; auto).
  destruct (Z.lt_total a b) as [H|[H|H]]; [|exfalso; apply N1; auto|]; destruct (Z.lt_total b d) as [G|[G|G]]; try (exfalso; apply N2; auto; fail);
    destruct (Z.lt_total a d) as [F|[F|F]]; try (exfalso; apply N1; auto; fail); try lia.
  - exists a, b, d. auto.
  - exists a, d, b. auto.
  - exists d, a, b. auto.
  - exists b, a, d. auto.
  - exists b, d, a. auto.
  - exists d, b, a. auto.
Qed.
Lemma steady_check (S : list Qc) l h e : find_extrema Simple (arange (length S)) S = Ok e ->
  forallb (fun x => Qc_leb l x && Qc_leb x h) S = true ->
  forallb (Qc_eqb h) (max_val e) = true -> forallb (Qc_eqb l) (min_val e) = true -> 2 < zlen (max_val e) + zlen (min_val e) ->
  steady S l h.
Proof.
  intros E HB HM Hm H3.
  assert (LT : length (arange (length S)) = length S) by (rewrite arange_tz; apply tz_length).
  destruct (simple_plateau (arange (length S)) S LT) as (e' & M & m & E' & _ & E2 & _ & E4 & I1 & I2 & R1 & R2).
  rewrite E in E'. apply ok_inv in E'. subst e'. rewrite E2 in HM, H3. rewrite E4 in Hm, H3. rewrite !zlen_map in H3.
  rewrite forallb_forall in HB, HM, Hm. split; [|split; [|split]].
  - intros x Hx. specialize (HB x Hx). apply andb_true_iff in HB as [A B]. apply Qc_leb_le in A, B. auto.
  - intros i Hi. symmetry. apply Qc_eqb_eq. apply HM. apply in_map. apply R1. auto.
  - intros i Hi. symmetry. apply Qc_eqb_eq. apply Hm. apply in_map. apply R2. auto.
  - assert (NI : forall l : list Z, zincreasing l -> NoDup l) by (intros; apply zincreasing_NoDup; auto).
    assert (ND : NoDup (M ++ m)).
    { assert (DJ : forall x, In x M -> In x m -> False).
      { intros x A B. apply R1 in A. apply R2 in B. apply rep_max_iff in A. apply rep_min_iff in B. exact (rep_disjoint S x A B). }
      specialize (NI M I1) as NM. specialize (NI m I2) as Nm. clear - DJ NM Nm. induction M as [|x M IH]; [exact Nm|].
      inversion NM as [|? ? N1 N2]; subst. cbn [app]. constructor.
      - intros Hx. apply in_app_or in Hx as [Hx|Hx]; [auto|]. apply (DJ x); [left|]; auto.
      - apply IH; auto. intros y A B. apply (DJ y); [right|]; auto. }
    destruct (three_sorted (M ++ m) ND) as (i & j & k & Hijk & Hi & Hj & Hk).
    { rewrite app_length. unfold zlen in H3. lia. }
    exists i, j, k. split; auto. unfold extremum. rewrite in_app_iff in Hi, Hj, Hk. rewrite <- !R1, <- !R2. auto.
Qed.
