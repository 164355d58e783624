(** * EmdExact: EMD in exact arithmetic; object histories. *)
From Verif Require Import PyFacts QcFacts Emd Spec EmdProofs EmdControl.
From Coq Require Import ZifyBool ZifyNat.

Notation vec := (list Qc).
Notation rows := (list (list Qc)).

(** ** Sums of rows *)
Lemma total_at_app M N i : total_at (M ++ N) i = (total_at M i + total_at N i)%Qc.
Proof.
  unfold total_at. rewrite map_app. induction (map _ M) as [|x l IH]; simpl; [ring|].
  rewrite IH. ring.
Qed.
Lemma total_at_one r i : total_at [r] i = nth i r 0%Qc.
Proof. unfold total_at. simpl. ring. Qed.

Lemma nth_vzeros n i : nth i (@vzeros Qc _ n) 0%Qc = 0%Qc.
Proof.
  unfold vzeros. revert i; induction n as [|n IH]; intros [|i]; simpl; auto.
Qed.

Lemma nth_vadd (x y : vec) i : length x = length y ->
  nth i (vadd x y) 0%Qc = (nth i x 0 + nth i y 0)%Qc.
Proof.
  intros L. destruct (Nat.lt_ge_cases i (length x)) as [Hi|Hi].
  - unfold vadd. rewrite (nth_map2 _ _ _ _ 0%Qc 0%Qc) by lia. reflexivity.
  - rewrite !nth_overflow; try lia; [ring|]. rewrite vadd_length; lia.
Qed.
Lemma nth_vsub (x y : vec) i : length x = length y ->
  nth i (vsub x y) 0%Qc = (nth i x 0 - nth i y 0)%Qc.
Proof.
  intros L. destruct (Nat.lt_ge_cases i (length x)) as [Hi|Hi].
  - unfold vsub. rewrite (nth_map2 _ _ _ _ 0%Qc 0%Qc) by lia. reflexivity.
  - rewrite !nth_overflow; try lia; [ring|]. rewrite vsub_length; lia.
Qed.

Lemma nth_sum_rows n M i : shaped n M -> nth i (sum_rows n M) 0%Qc = total_at M i.
Proof.
  revert i. induction M as [|r M IH] using rev_ind; intros i HM.
  - apply nth_vzeros.
  - apply Forall_app in HM as [HM Hr]. inversion Hr as [|r' l' Hr' Hl']; subst.
    assert (HL : length (sum_rows (length r) M) = length r).
    { apply sum_rows_length. unfold shaped in HM. rewrite Forall_forall in HM. auto. }
    rewrite sum_rows_app, nth_vadd, IH by auto.
    rewrite total_at_app, total_at_one. reflexivity.
Qed.

Lemma vsub_zeros (S : vec) : vsub S (vzeros (length S)) = S.
Proof.
  induction S as [|x S IH]; [reflexivity|].
  change (vsub (x :: S) (vzeros (length (x :: S))))
    with ((x - 0)%Qc :: vsub S (vzeros (length S))).
  rewrite IH. f_equal. ring.
Qed.

Lemma residue_spec S M i : shaped (length S) M ->
  (nth i (vsub S (sum_rows (length S) M)) 0 + total_at M i = nth i S 0)%Qc.
Proof.
  intros HM. rewrite nth_vsub.
  - rewrite nth_sum_rows by auto. ring.
  - symmetry. apply sum_rows_length. unfold shaped in HM. rewrite Forall_forall in HM. auto.
Qed.

Lemma negligible_iff (v : vec) : allclose0 v = true <-> negligible v.
Proof.
  unfold allclose0, negligible. rewrite forallb_forall, Forall_forall.
  split; intros Hx x Hin; specialize (Hx x Hin).
  - num_qc. qc_bool. apply Qc_abs_le in Hx. exact Hx.
  - num_qc. qc_bool. apply Qc_abs_le. exact Hx.
Qed.

Section Exact.
Variable spl : spline_oracle Qc.

Lemma emd_residue fuel c S T k o :
  emd spl fuel c S T k = Ok o -> residue o = vsub S (sum_rows (length S) (imfs o)).
Proof. intros E. apply emd_ok in E as (t & IMF & ext & _ & _ & _ & ->). reflexivity. Qed.

Lemma emd_adds_up fuel c S T k o :
  emd spl fuel c S T k = Ok o -> adds_up (imfs o ++ [residue o]) S.
Proof.
  intros E i Hi. rewrite total_at_app, total_at_one, (emd_residue _ _ _ _ _ _ E), Qcplus_comm.
  apply residue_spec. eapply emd_shape; eauto.
Qed.

Lemma emd_output fuel c S T k o :
  emd spl fuel c S T k = Ok o ->
  (negligible (residue o) /\ out o = imfs o) \/
  (~ negligible (residue o) /\ out o = imfs o ++ [residue o]).
Proof.
  intros E. apply emd_ok in E as (t & IMF & ext & _ & _ & _ & ->).
  unfold emd_finish. set (r := vsub S _). simpl.
  destruct (allclose0 r) eqn:D.
  - left. split; auto. apply negligible_iff; auto.
  - right. split; auto. intros Hn. apply negligible_iff in Hn. congruence.
Qed.

Lemma emd_output_sum fuel c S T k o i :
  emd spl fuel c S T k = Ok o -> (i < length S)%nat ->
  within tol (nth i S 0%Qc - total_at (out o) i)%Qc.
Proof.
  intros E Hi. pose proof (emd_adds_up _ _ _ _ _ _ E i Hi) as Ha.
  destruct (emd_output _ _ _ _ _ _ E) as [[Hn ->]|[Hn ->]].
  - rewrite total_at_app, total_at_one in Ha.
    assert (Hr : (nth i S 0 - total_at (imfs o) i = nth i (residue o) 0)%Qc).
    { rewrite <- Ha. ring. }
    rewrite Hr. unfold negligible in Hn. rewrite Forall_forall in Hn. apply Hn.
    apply nth_In. destruct (emd_shape _ _ _ _ _ _ _ E) as (_ & _ & ->). exact Hi.
  - rewrite Ha. unfold within, tol. split; qclra.
Qed.

Lemma emd_trend_exact fuel c S T k t e :
  (0 < fuel)%nat -> 2 <= MAX_ITERATION c -> S <> [] ->
  emd_time c S T = Ok t ->
  find_extrema (extrema_detection c) t S = Ok e ->
  zlen (max_pos e) + zlen (min_pos e) <= 2 ->
  exists o, emd spl fuel c S T k = Ok o /\ imfs o = [] /\ residue o = S /\
    ((negligible S /\ out o = []) \/ (~ negligible S /\ out o = [S])).
Proof.
  intros Hf HM HS Ht He Hx.
  pose proof (emd_trend spl fuel c S T k t e Hf HM HS Ht) as HE. simpl in HE.
  rewrite vsub_zeros in HE. specialize (HE He Hx). eexists. split; [exact HE|].
  simpl. repeat split; auto. destruct (allclose0 S) eqn:D.
  - left. split; auto. apply negligible_iff; auto.
  - right. split; auto. intros Hn. apply negligible_iff in Hn. congruence.
Qed.

End Exact.

(** ** Time normalisation *)
Lemma np_min_spec (l : vec) m : np_min l = Ok m -> In m l /\ forall x, In x l -> (m <= x)%Qc.
Proof.
  destruct l as [|x l]; [discriminate|]. rewrite np_min_qc. intros [= <-].
  revert x. induction l as [|y l IH]; intros x; simpl.
  - split; auto. intros z [->|[]]. qclra.
  - destruct (IH (if Qc_ltb y x then y else x)) as [I1 I2]. split.
    + destruct I1 as [I1|I1]; [|auto]. destruct (Qc_ltb y x); auto.
    + intros z Hz.
      pose proof (I2 (if Qc_ltb y x then y else x) (or_introl eq_refl)) as I3.
      destruct (Qc_ltb y x) eqn:D; destruct Hz as [->|[->|Hz]]; auto with datatypes;
        try (apply I2; right; exact Hz); qclra.
Qed.
Lemma np_max_spec (l : vec) m : np_max l = Ok m -> In m l /\ forall x, In x l -> (x <= m)%Qc.
Proof.
  destruct l as [|x l]; [discriminate|]. rewrite np_max_qc. intros [= <-].
  revert x. induction l as [|y l IH]; intros x; simpl.
  - split; auto. intros z [->|[]]. qclra.
  - destruct (IH (if Qc_ltb x y then y else x)) as [I1 I2]. split.
    + destruct I1 as [I1|I1]; [|auto]. destruct (Qc_ltb x y); auto.
    + intros z Hz.
      pose proof (I2 (if Qc_ltb x y then y else x) (or_introl eq_refl)) as I3.
      destruct (Qc_ltb x y) eqn:D; destruct Hz as [->|[->|Hz]]; auto with datatypes;
        try (apply I2; right; exact Hz); qclra.
Qed.
Lemma np_min_ok {B} `{Num B} (l : list B) : l <> [] -> exists m, np_min l = Ok m.
Proof. destruct l; [congruence|]. simpl. eauto. Qed.
Lemma np_max_ok {B} `{Num B} (l : list B) : l <> [] -> exists m, np_max l = Ok m.
Proof. destruct l; [congruence|]. simpl. eauto. Qed.

Lemma ndiff_length (l : vec) : length (ndiff l) = (length l - 1)%nat.
Proof. unfold ndiff, adj. rewrite map2_length. destruct l; cbn [length tl]; lia. Qed.
Lemma nth_tl {X} (l : list X) i d : nth i (tl l) d = nth (Datatypes.S i) l d.
Proof. destruct l; simpl; auto. destruct i; auto. Qed.
Lemma nth_adj {X Y} (f : X -> X -> Y) l i d d' : (Datatypes.S i < length l)%nat ->
  nth i (adj f l) d' = f (nth i l d) (nth (Datatypes.S i) l d).
Proof.
  intros Hi. unfold adj. rewrite (nth_map2 _ _ _ _ d d).
  - rewrite nth_tl. reflexivity.
  - lia.
  - destruct l; simpl in *; lia.
Qed.
Lemma nth_ndiff (l : vec) i : (Datatypes.S i < length l)%nat ->
  nth i (ndiff l) 0%Qc = (nth (Datatypes.S i) l 0 - nth i l 0)%Qc.
Proof. intros Hi. unfold ndiff. rewrite (nth_adj _ _ _ 0%Qc) by auto. reflexivity. Qed.

Lemma existsb_is0_false (l : vec) : existsb is0 l = false <-> forall x, In x l -> x <> 0%Qc.
Proof.
  split.
  - intros E x Hx Hz. subst.
    assert (existsb is0 l = true); [|congruence].
    apply existsb_exists. exists 0%Qc. split; auto.
  - intros Hx. destruct (existsb is0 l) eqn:E; auto.
    apply existsb_exists in E as (x & Hin & Ez). unfold is0 in Ez. num_qc. qc_bool.
    exfalso. apply (Hx x); auto.
Qed.

Lemma Qcinv_pos m : (0 < m)%Qc -> (0 < / m)%Qc.
Proof.
  intros Hm. unfold Qclt, Qcinv in *. change (this (Q2Qc (/ this m))) with (Qred (/ this m)).
  rewrite Qred_correct. apply Qinv_lt_0_compat. exact Hm.
Qed.
Lemma Qcdiv_lt_compat a b m : (0 < m)%Qc -> (a < b)%Qc -> (a / m < b / m)%Qc.
Proof. intros Hm Hab. apply Qcmult_lt_compat_r; auto. apply Qcinv_pos; auto. Qed.
Lemma Qcdiv_le_compat a b m : (0 < m)%Qc -> (a <= b)%Qc -> (a / m <= b / m)%Qc.
Proof. intros Hm Hab. apply Qcmult_le_compat_r; auto. apply Qclt_le_weak, Qcinv_pos; auto. Qed.
Lemma Qcdiv_self m : (0 < m)%Qc -> (m / m = 1)%Qc.
Proof. intros Hm. field. intros ->. discriminate. Qed.

Lemma normalize_increasing (t : vec) :
  (2 <= length t)%nat -> increasing t ->
  exists r, normalize_time t = Ok r /\ length r = length t /\ increasing r /\
    nth 0 r 0%Qc = 0%Qc /\
    (forall i, (Datatypes.S i < length t)%nat -> (1 <= nth (Datatypes.S i) r 0 - nth i r 0)%Qc) /\
    (exists i, (Datatypes.S i < length t)%nat /\ (nth (Datatypes.S i) r 0 - nth i r 0 = 1)%Qc).
Proof.
  intros HL Hinc.
  assert (Hpos : forall x, In x (ndiff t) -> (0 < x)%Qc).
  { intros x Hx. apply (In_nth _ _ 0%Qc) in Hx as (i & Hi & <-).
    rewrite ndiff_length in Hi. rewrite nth_ndiff by lia.
    assert (Hi' : (Datatypes.S i < length t)%nat) by lia. specialize (Hinc i Hi'). qclra. }
  unfold normalize_time.
  assert (E0 : existsb is0 (ndiff t) = false).
  { apply existsb_is0_false. intros x Hx Hz. specialize (Hpos x Hx). qclra. }
  rewrite E0.
  destruct t as [|t0 t']; [simpl in HL; lia|].
  rewrite (py_get_nonneg _ 0 0%Qc) by (unfold zlen; simpl; lia). cbn [bind Z.to_nat nth].
  destruct (np_min_ok (ndiff (t0 :: t'))) as [m Em].
  { intros E. apply (f_equal (@length _)) in E. rewrite ndiff_length in E. simpl in E, HL. lia. }
  rewrite Em. cbn [bind].
  destruct (np_min_spec _ _ Em) as [Hm1 Hm2].
  assert (Hm : (0 < m)%Qc) by auto.
  set (t := t0 :: t') in *.
  assert (Hn : forall i, (i < length t)%nat ->
    nth i (map (fun x => ndiv (nsub x t0) m) t) 0%Qc = ((nth i t 0 - t0) / m)%Qc).
  { intros i Hi. rewrite (nth_indep _ _ ((0 - t0) / m)%Qc) by (rewrite map_length; auto).
    apply (map_nth (fun x => ((x - t0) / m)%Qc)). }
  exists (map (fun x => ndiv (nsub x t0) m) t).
  assert (Hd : forall i, (Datatypes.S i < length t)%nat ->
    (nth (Datatypes.S i) (map (fun x => ndiv (nsub x t0) m) t) 0
      - nth i (map (fun x => ndiv (nsub x t0) m) t) 0
     = (nth (Datatypes.S i) t 0 - nth i t 0) / m)%Qc).
  { intros i Hi. rewrite !Hn by lia. unfold Qcdiv. ring. }
  split; [reflexivity|]. split; [apply map_length|]. split.
  { intros i Hi. rewrite map_length in Hi. rewrite !Hn by lia.
    apply Qcdiv_lt_compat; auto. specialize (Hinc i Hi). qclra. }
  split.
  { rewrite Hn by (unfold t; simpl; lia). unfold t. simpl. unfold Qcdiv. ring. }
  split.
  { intros i Hi. rewrite Hd by auto. rewrite <- (Qcdiv_self m) by auto.
    apply Qcdiv_le_compat; auto. rewrite <- nth_ndiff by auto. apply Hm2.
    apply nth_In. rewrite ndiff_length. lia. }
  apply (In_nth _ _ 0%Qc) in Hm1 as (i & Hi & Hmi). rewrite ndiff_length in Hi.
  exists i. split; [lia|]. rewrite Hd by lia. rewrite <- nth_ndiff, Hmi by lia.
  apply Qcdiv_self; auto.
Qed.

Lemma normalize_repeated (t : vec) i :
  (Datatypes.S i < length t)%nat -> nth i t 0%Qc = nth (Datatypes.S i) t 0%Qc ->
  normalize_time t = Raise AssertionError.
Proof.
  intros Hi E. unfold normalize_time.
  replace (existsb is0 (ndiff t)) with true; auto. symmetry.
  apply existsb_exists. exists 0%Qc. split; [|reflexivity].
  replace 0%Qc with (nth i (ndiff t) 0%Qc).
  - apply nth_In. rewrite ndiff_length. lia.
  - rewrite nth_ndiff by auto. rewrite E. ring.
Qed.

(** Affine changes of time. *)
Lemma ndiff_affine a b (t : vec) :
  ndiff (map (fun x => a * x + b)%Qc t) = map (Qcmult a) (ndiff t).
Proof.
  unfold ndiff, adj.
  replace (tl (map (fun x => (a * x + b)%Qc) t)) with (map (fun x => (a * x + b)%Qc) (tl t))
    by (destruct t; reflexivity).
  rewrite map2_map_l, map2_map_r, map_map2. apply map2_ext. intros x y. num_qc. ring.
Qed.
Lemma np_min_scale a (l : vec) : (0 < a)%Qc ->
  np_min (map (Qcmult a) l) = let! m := np_min l in Ok (a * m)%Qc.
Proof.
  intros Ha. destruct l as [|x l]; [reflexivity|]. cbn [map]. rewrite !np_min_qc. cbn [bind]. f_equal.
  revert x. induction l as [|y l IH]; intros x; simpl; auto.
  rewrite <- IH. f_equal. destruct (Qc_ltb y x) eqn:D.
  - replace (Qc_ltb (a * y) (a * x)) with true; auto. symmetry. qc_bool. qcnra.
  - replace (Qc_ltb (a * y) (a * x)) with false; auto. symmetry. qc_bool. qcnra.
Qed.
Lemma normalize_affine a b (t : vec) : (0 < a)%Qc ->
  normalize_time (map (fun x => a * x + b)%Qc t) = normalize_time t.
Proof.
  intros Ha. unfold normalize_time. rewrite ndiff_affine.
  assert (Ha0 : a <> 0%Qc) by (intros ->; discriminate).
  replace (existsb is0 (map (Qcmult a) (ndiff t))) with (existsb is0 (ndiff t)).
  2:{ induction (ndiff t) as [|x l IH]; cbn [map existsb]; auto. f_equal; auto.
      unfold is0. num_qc. destruct (Qc_eqb x 0) eqn:D; symmetry; qc_bool.
      - subst. ring.
      - intros E. apply Qcmult_integral in E as [E|E]; auto. }
  destruct (existsb is0 (ndiff t)) eqn:D; auto.
  rewrite np_min_scale by auto.
  destruct t as [|t0 t]; [reflexivity|].
  rewrite !(py_get_nonneg _ 0 0%Qc) by (unfold zlen; simpl; lia). cbn [bind Z.to_nat nth map].
  destruct (np_min (ndiff (t0 :: t))) as [m|e] eqn:Em; [|reflexivity]. cbn [bind].
  f_equal. rewrite !map_map. cbn [map].
  assert (Hm0 : m <> 0%Qc).
  { apply np_min_spec in Em as [Hin _]. apply existsb_is0_false with (x := m) in D; auto. }
  assert (HE : forall x, ((a * x + b - (a * t0 + b)) / (a * m) = (x - t0) / m)%Qc).
  { intros x. field. auto. }
  num_qc. f_equal; [apply HE|]. apply map_ext. intros x. apply HE.
Qed.

Lemma emd_affine spl fuel c S T k a b : (0 < a)%Qc ->
  emd spl fuel c S (Some (map (fun x => a * x + b)%Qc T)) k = emd spl fuel c S (Some T) k.
Proof.
  intros Ha. unfold emd, emd_time. rewrite map_length.
  destruct (Nat.eqb (length S) (length T)); [|reflexivity]. cbn [bind].
  destruct (extrema_detection c); cbn [bind]; auto; rewrite normalize_affine by auto; reflexivity.
Qed.

(** ** Histories of one object *)
Section History.
Context {A : Type} `{Num A}.
Variable spl : spline_oracle A.

(** One [emd] call, with the configuration the object has at that time. *)
Record call := MkCall {
  call_fuel : nat; call_cfg : emd_config A;
  call_S : list A; call_T : option (list A); call_max : Z }.

Definition do_call (st : emd_state A) (x : call) : emd_state A :=
  snd (emd_call spl (call_fuel x) (call_cfg x) st (call_S x) (call_T x) (call_max x)).
Definition after (h : list call) : emd_state A := fold_left do_call h emd_init.

Definition call_result (x : call) : res (emd_out A) :=
  emd spl (call_fuel x) (call_cfg x) (call_S x) (call_T x) (call_max x).

(** Outcome of the last successful call of a history. *)
Fixpoint last_success (h : list call) : option (emd_out A) :=
  match h with
  | [] => None
  | x :: h' => match last_success h' with
               | Some o => Some o
               | None => match call_result x with Ok o => Some o | Raise _ => None end
               end
  end.

Lemma after_spec h :
  after h = match last_success h with
            | Some o => MkState (Some (imfs o)) (Some (residue o))
            | None => emd_init
            end.
Proof.
  unfold after. generalize (@emd_init A) as st0. induction h as [|x h IH]; intros st0; simpl.
  { reflexivity. }
  rewrite IH. destruct (last_success h) as [o|]; auto.
  unfold do_call, emd_call, call_result. destruct (emd _ _ _ _ _ _); reflexivity.
Qed.

Lemma call_independent h h' x :
  fst (emd_call spl (call_fuel x) (call_cfg x) (after h) (call_S x) (call_T x) (call_max x)) =
  fst (emd_call spl (call_fuel x) (call_cfg x) (after h') (call_S x) (call_T x) (call_max x)).
Proof. unfold emd_call. destruct (emd _ _ _ _ _ _); reflexivity. Qed.

Lemma accessor_spec h :
  get_imfs_and_residue (after h) =
  match last_success h with
  | Some o => Ok (imfs o, residue o)
  | None => Raise ValueError
  end.
Proof. rewrite after_spec. destruct (last_success h); reflexivity. Qed.

End History.
Arguments call A : clear implicits.

Lemma py_get_last {X} (l : list X) x : py_get (l ++ [x]) (-1) = Ok x.
Proof.
  rewrite (py_get_neg _ (-1) x) by (rewrite zlen_app; unfold zlen; simpl; lia).
  rewrite zlen_app. change (zlen [x]) with 1.
  replace (Z.to_nat (-1 + (zlen l + 1))) with (length l) by (unfold zlen; lia).
  rewrite app_nth2, Nat.sub_diag by lia. reflexivity.
Qed.
(** imfs and trend of the object after a successful call. *)
Lemma trend_spec spl fuel c S T k o :
  emd spl fuel c S T k = Ok o ->
  let st := MkState (Some (imfs o)) (Some (residue o)) in
  match get_imfs_and_trend st with
  | Ok (i, t) =>
      (negligible (residue o) /\ imfs o = i ++ [t]) \/
      (~ negligible (residue o) /\ i = imfs o /\ t = residue o)
  | Raise e => e = IndexError /\ imfs o = [] /\ negligible (residue o)
  end.
Proof.
  intros E st. unfold get_imfs_and_trend, get_imfs_and_residue, st. simpl.
  destruct (allclose0 (residue o)) eqn:D.
  - apply negligible_iff in D.
    destruct (imfs o) as [|x l _] using rev_ind.
    + simpl. auto.
    + rewrite py_get_last. simpl. rewrite py_slice_all_but_last. left. auto.
  - right. split; auto. intros Hn. apply negligible_iff in Hn. congruence.
Qed.

Lemma trend_sum spl fuel c S T k o i t :
  emd spl fuel c S T k = Ok o ->
  get_imfs_and_trend (MkState (Some (imfs o)) (Some (residue o))) = Ok (i, t) ->
  forall j, (j < length S)%nat ->
    within tol (nth j S 0%Qc - total_at (i ++ [t]) j)%Qc.
Proof.
  intros E Ht j Hj. pose proof (trend_spec _ _ _ _ _ _ _ E) as Hs. simpl in Hs.
  rewrite Ht in Hs. destruct Hs as [[Hn <-]|(Hn & -> & ->)].
  - destruct (emd_output _ _ _ _ _ _ _ E) as [[_ <-]|[Hn' _]]; [|contradiction].
    eapply emd_output_sum; eauto.
  - destruct (emd_output _ _ _ _ _ _ _ E) as [[Hn' _]|[_ <-]]; [contradiction|].
    eapply emd_output_sum; eauto.
Qed.
