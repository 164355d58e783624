(** * EmdProofs: proofs about the EMD loop, for every arithmetic and every spline. *)
From Verif Require Import PyFacts Emd Spec.
From Coq Require Import ZifyBool ZifyNat.

Section Generic.
Context {A : Type} `{Num A}.
Variable spl : spline_oracle A.
Notation vec := (list A).
Notation rows := (list (list A)).

(** ** Shapes *)
Lemma sift_step_length c T imf imf' eM em :
  sift_step spl c T imf = Ok (imf', eM, em) -> length imf' = length imf.
Proof.
  unfold sift_step. intros E.
  apply bind_ok in E as ([[[maxe mine] eM'] em'] & E1 & E).
  apply bind_ok in E as (sum & E2 & E).
  apply bind_ok in E as (mean & E3 & E).
  injection E as <- <- <-. apply vsub_length.
  symmetry. eapply assign_all_length; eauto.
Qed.

(** Relation "y is one sift of x". *)
Definition one_sift c T (x y : vec) : Prop :=
  exists eM em, sift_step spl c T x = Ok (y, eM, em).

Lemma sift_length fuel c T n n_h ext imf imf' ext' fin :
  sift spl fuel c T n n_h ext imf = Ok (imf', ext', fin) -> length imf' = length imf.
Proof.
  revert n n_h ext imf. induction fuel as [|fuel IH]; intros n n_h ext imf E; cbn [sift] in E.
  { discriminate. }
  destruct (MAX_ITERATION c <=? n + 1). { injection E as <- <- <-. reflexivity. }
  apply bind_ok in E as (e & E1 & E).
  destruct (2 <? ext_no e). 2:{ injection E as <- <- <-. reflexivity. }
  apply bind_ok in E as ([[imf1 eM] em] & E2 & E).
  apply sift_step_length in E2 as L. rewrite <- L.
  destruct (negb (FIXE c =? 0)).
  { destruct (FIXE c <=? n + 1). { injection E as <- <- <-. reflexivity. } eauto. }
  destruct (negb (FIXE_H c =? 0)).
  { apply bind_ok in E as (e' & E3 & E).
    destruct (n + 1 =? 1); [eauto|].
    destruct (FIXE_H c <=? _). { injection E as <- <- <-. reflexivity. } eauto. }
  apply bind_ok in E as (e' & E3 & E).
  apply bind_ok in E as (f1 & E4 & E).
  destruct (f1 && _). { injection E as <- <- <-. reflexivity. } eauto.
Qed.

Lemma emd_loop_shape fuel c S T k IMF ext IMF' ext' :
  shaped (length S) IMF ->
  emd_loop spl fuel c S T k IMF ext = Ok (IMF', ext') -> shaped (length S) IMF'.
Proof.
  revert IMF ext. induction fuel as [|fuel IH]; intros IMF ext HI E; cbn [emd_loop] in E.
  { discriminate. }
  apply bind_ok in E as ([[imf ext1] fin] & E1 & E).
  apply sift_length in E1.
  assert (HL : length imf = length S).
  { rewrite E1. apply vsub_length. symmetry. apply sum_rows_length.
    intros r Hr. unfold shaped in HI. rewrite Forall_forall in HI. auto. }
  assert (HI' : shaped (length S) (IMF ++ [imf])).
  { apply Forall_app; split; auto. }
  apply bind_ok in E as (stop & E2 & E).
  destruct (stop || _). { injection E as <- <-. exact HI'. }
  destruct fin. { injection E as <- <-. exact HI'. }
  eapply IH; eauto.
Qed.

Lemma Forall_removelast {X} (P : X -> Prop) l : Forall P l -> Forall P (removelast l).
Proof.
  induction l as [|x l IH]; simpl; auto. intros HF. inversion HF; subst.
  destruct l; auto.
Qed.

Lemma emd_finish_shape S IMF ext o :
  shaped (length S) IMF -> o = emd_finish S IMF ext ->
  shaped (length S) (out o) /\ shaped (length S) (imfs o) /\ length (residue o) = length S.
Proof.
  intros HI ->. unfold emd_finish.
  set (IMF' := if ext <=? 2 then removelast IMF else IMF).
  assert (HI' : shaped (length S) IMF').
  { unfold IMF'. destruct (ext <=? 2); auto. apply Forall_removelast; auto. }
  assert (HL : length (vsub S (sum_rows (length S) IMF')) = length S).
  { apply vsub_length. symmetry. apply sum_rows_length.
    intros r Hr. unfold shaped in HI'. rewrite Forall_forall in HI'. auto. }
  simpl. repeat split; auto.
  destruct (allclose0 _); auto. apply Forall_app; split; auto.
Qed.

Lemma emd_ok fuel c S T k o :
  emd spl fuel c S T k = Ok o ->
  exists t IMF ext, emd_time c S T = Ok t /\ length t = length S /\
    emd_loop spl fuel c S t k [] (-1) = Ok (IMF, ext) /\ o = emd_finish S IMF ext.
Proof.
  unfold emd. intros E.
  apply bind_ok in E as (t & E1 & E).
  destruct (Nat.eqb_spec (length S) (length t)) as [L|L]; simpl in E; [|discriminate].
  apply bind_ok in E as ([IMF ext] & E2 & E).
  injection E as <-. exists t, IMF, ext. auto.
Qed.

Lemma emd_shape fuel c S T k o :
  emd spl fuel c S T k = Ok o ->
  shaped (length S) (out o) /\ shaped (length S) (imfs o) /\ length (residue o) = length S.
Proof.
  intros E. apply emd_ok in E as (t & IMF & ext & _ & _ & E & ->).
  apply emd_loop_shape in E; [|constructor].
  eapply emd_finish_shape; eauto.
Qed.

(** ** The limit max_imf *)
Lemma emd_loop_count fuel c S T k IMF ext IMF' ext' :
  (0 < k -> zlen IMF < k) ->
  emd_loop spl fuel c S T k IMF ext = Ok (IMF', ext') -> 0 < k -> zlen IMF' <= k.
Proof.
  revert IMF ext. induction fuel as [|fuel IH]; intros IMF ext HI E Hk; cbn [emd_loop] in E.
  { discriminate. }
  apply bind_ok in E as ([[imf ext1] fin] & E1 & E).
  apply bind_ok in E as (stop & E2 & E).
  assert (HL : zlen (IMF ++ [imf]) = zlen IMF + 1) by (rewrite zlen_app; reflexivity).
  specialize (HI Hk).
  destruct (stop || (zlen (IMF ++ [imf]) =? k)) eqn:D. { injection E as <- <-. lia. }
  destruct fin. { injection E as <- <-. lia. }
  apply orb_false_iff in D as [_ D]. apply (IH (IMF ++ [imf]) ext1); auto. lia.
Qed.

Lemma removelast_length_le {X} (l : list X) : (length (removelast l) <= length l)%nat.
Proof.
  induction l as [|x l IH]; simpl; auto. destruct l; simpl in *; lia.
Qed.

Lemma emd_max_imf fuel c S T k o :
  emd spl fuel c S T k = Ok o -> 0 < k -> zlen (imfs o) <= k /\ zlen (out o) <= k + 1.
Proof.
  intros E Hk. apply emd_ok in E as (t & IMF & ext & _ & _ & E & ->).
  apply emd_loop_count in E; auto.
  unfold emd_finish.
  set (IMF' := if ext <=? 2 then removelast IMF else IMF).
  assert (HL : zlen IMF' <= k).
  { unfold IMF'. destruct (ext <=? 2); auto. unfold zlen in *.
    pose proof (removelast_length_le IMF). lia. }
  simpl. split; auto. destruct (allclose0 _); [lia|]. rewrite zlen_app. unfold zlen at 2; simpl. lia.
Qed.

Lemma emd_loop_nolimit fuel c S T k k' IMF ext :
  k <= 0 -> k' <= 0 ->
  emd_loop spl fuel c S T k IMF ext = emd_loop spl fuel c S T k' IMF ext.
Proof.
  intros Hk Hk'. revert IMF ext. induction fuel as [|fuel IH]; intros IMF ext; cbn [emd_loop]; auto.
  destruct (sift _ _ _ _ _ _ _ _) as [[[imf ext1] fin]|e]; simpl; auto.
  destruct (end_condition c S (IMF ++ [imf])) as [stop|e]; simpl; auto.
  assert (HL : 0 < zlen (IMF ++ [imf])).
  { rewrite zlen_app. unfold zlen; simpl; lia. }
  replace (zlen (IMF ++ [imf]) =? k) with false by lia.
  replace (zlen (IMF ++ [imf]) =? k') with false by lia.
  rewrite IH. reflexivity.
Qed.

Lemma emd_nolimit fuel c S T k k' :
  k <= 0 -> k' <= 0 -> emd spl fuel c S T k = emd spl fuel c S T k'.
Proof.
  intros Hk Hk'. unfold emd.
  destruct (emd_time c S T) as [t|e]; simpl; auto.
  destruct (negb _); auto.
  rewrite (emd_loop_nolimit fuel c S t k k') by auto. reflexivity.
Qed.

(** ** Where the stored imfs come from *)

(** Components before index [i]. *)
Lemma emd_loop_prefix fuel c S T k IMF ext IMF' ext' :
  emd_loop spl fuel c S T k IMF ext = Ok (IMF', ext') ->
  exists L, L <> [] /\ IMF' = IMF ++ L.
Proof.
  revert IMF ext. induction fuel as [|fuel IH]; intros IMF ext E; cbn [emd_loop] in E.
  { discriminate. }
  apply bind_ok in E as ([[imf ext1] fin] & E1 & E).
  apply bind_ok in E as (stop & E2 & E).
  destruct (stop || _). { injection E as <- <-. exists [imf]. split; congruence. }
  destruct fin. { injection E as <- <-. exists [imf]. split; congruence. }
  apply IH in E as (L & _ & ->). exists (imf :: L). split; [congruence|].
  rewrite <- app_assoc. reflexivity.
Qed.

(** A sift that reports [finished] ended with at most two extrema. *)
Lemma sift_finished fuel c T n n_h ext imf imf' ext' :
  sift spl fuel c T n n_h ext imf = Ok (imf', ext', true) -> ext' <= 2.
Proof.
  revert n n_h ext imf. induction fuel as [|fuel IH]; intros n n_h ext imf E; cbn [sift] in E.
  { discriminate. }
  destruct (MAX_ITERATION c <=? n + 1). { discriminate. }
  apply bind_ok in E as (e & E1 & E).
  destruct (2 <? ext_no e) eqn:D. 2:{ injection E as <- <-. lia. }
  apply bind_ok in E as ([[imf1 eM] em] & E2 & E).
  destruct (negb (FIXE c =? 0)).
  { destruct (FIXE c <=? n + 1). { discriminate. } eauto. }
  destruct (negb (FIXE_H c =? 0)).
  { apply bind_ok in E as (e' & E3 & E).
    destruct (n + 1 =? 1); [eauto|].
    destruct (FIXE_H c <=? _). { discriminate. } eauto. }
  apply bind_ok in E as (e' & E3 & E).
  apply bind_ok in E as (f1 & E4 & E).
  destruct (f1 && _). { discriminate. } eauto.
Qed.

(** Every row of the loop result except possibly the last was produced by a sift of what
    the earlier rows leave over, and that sift was not cut short by lack of extrema. *)
Lemma emd_loop_rows fuel c S T k IMF ext IMF' ext' :
  emd_loop spl fuel c S T k IMF ext = Ok (IMF', ext') ->
  forall i, (length IMF <= i < length IMF')%nat ->
  exists e0 e1 fin,
    sift spl (sift_fuel c) c T 0 0 e0
      (vsub S (sum_rows (length S) (firstn i IMF'))) = Ok (nth i IMF' [], e1, fin)
    /\ (fin = true -> Datatypes.S i = length IMF' /\ ext' <= 2)
    /\ (Datatypes.S i = length IMF' -> ext' = e1).
Proof.
  revert IMF ext. induction fuel as [|fuel IH]; intros IMF ext E i Hi; cbn [emd_loop] in E.
  { discriminate. }
  apply bind_ok in E as ([[imf ext1] fin] & E1 & E).
  apply bind_ok in E as (stop & E2 & E).
  assert (HF : forall L, firstn (length IMF) ((IMF ++ [imf]) ++ L) = IMF).
  { intros L. rewrite <- app_assoc, firstn_app, Nat.sub_diag, firstn_all. simpl.
    apply app_nil_r. }
  assert (HN : forall L, nth (length IMF) ((IMF ++ [imf]) ++ L) [] = imf).
  { intros L. rewrite <- app_assoc, app_nth2, Nat.sub_diag by lia. reflexivity. }
  assert (Hlast : IMF' = IMF ++ [imf] -> ext' = ext1 ->
    exists e0 e1 fin0,
    sift spl (sift_fuel c) c T 0 0 e0
      (vsub S (sum_rows (length S) (firstn i IMF'))) = Ok (nth i IMF' [], e1, fin0)
    /\ (fin0 = true -> Datatypes.S i = length IMF' /\ ext' <= 2)
    /\ (Datatypes.S i = length IMF' -> ext' = e1)).
  { intros -> ->. rewrite app_length in Hi. simpl in Hi.
    assert (i = length IMF) as -> by lia.
    exists ext, ext1, fin. split; [|split].
    - rewrite <- (app_nil_r (IMF ++ [imf])), HF, HN. exact E1.
    - intros ->. split; [rewrite app_length; simpl; lia|]. eapply sift_finished; eauto.
    - auto. }
  destruct (stop || _) eqn:D1. { injection E as E E'. apply Hlast; congruence. }
  destruct fin. { injection E as E E'. apply Hlast; congruence. }
  destruct (Nat.eq_dec i (length IMF)) as [->|Hne].
  - apply emd_loop_prefix in E as (L & HL & ->).
    exists ext, ext1, false. split; [|split].
    + rewrite HF, HN. exact E1.
    + discriminate.
    + rewrite !app_length. simpl. destruct L; [congruence|]. simpl. lia.
  - eapply IH; eauto. rewrite app_length. simpl. lia.
Qed.

Lemma removelast_nth {X} (l : list X) i d :
  (Datatypes.S i < length l)%nat -> nth i (removelast l) d = nth i l d.
Proof.
  revert i; induction l as [|x l IH]; intros i Hi; simpl in *; [lia|].
  destruct l as [|y l]; simpl in *; [lia|]. destruct i; auto. apply IH. lia.
Qed.
Lemma removelast_firstn_i {X} (l : list X) i :
  (Datatypes.S i <= length l)%nat -> firstn i (removelast l) = firstn i l.
Proof.
  revert i; induction l as [|x l IH]; intros i Hi; simpl in *; [lia|].
  destruct l as [|y l]; simpl in *.
  - assert (i = 0)%nat as -> by lia. reflexivity.
  - destruct i; auto. simpl. f_equal. apply IH. lia.
Qed.
Lemma removelast_length {X} (l : list X) : length (removelast l) = (length l - 1)%nat.
Proof.
  induction l as [|x l IH]; simpl; auto. destruct l; simpl in *; lia.
Qed.

(** Every stored imf is the outcome of a sift that was not cut short. *)
Lemma emd_imf_sift fuel c S T k o :
  emd spl fuel c S T k = Ok o ->
  exists t, emd_time c S T = Ok t /\
  forall i, (i < length (imfs o))%nat ->
  exists e0 e1,
    sift spl (sift_fuel c) c t 0 0 e0
      (vsub S (sum_rows (length S) (firstn i (imfs o)))) = Ok (nth i (imfs o) [], e1, false).
Proof.
  intros E. apply emd_ok in E as (t & IMF & ext & Et & _ & E & ->).
  exists t. split; auto. intros i Hi. unfold emd_finish in *. simpl in *.
  pose proof (emd_loop_rows _ _ _ _ _ _ _ _ _ E i) as HR.
  destruct (ext <=? 2) eqn:D.
  - rewrite removelast_length in Hi.
    destruct HR as (e0 & e1 & fin & E1 & E2 & E3). { simpl. lia. }
    exists e0, e1. rewrite removelast_firstn_i, removelast_nth by lia.
    destruct fin; auto. destruct E2; auto. lia.
  - destruct HR as (e0 & e1 & fin & E1 & E2 & E3). { simpl. lia. }
    exists e0, e1. destruct fin; auto. destruct E2; auto. lia.
Qed.

End Generic.
