(** * PreparePlan: prepare_points_simple produces exactly the points that [left_plan] and
    [right_plan] announce. *)
From Verif Require Import PyFacts QcFacts Prepare Spec Runs EmdExact ExtremaProofs ExtremaSpec PrepareProofs.
From Coq Require Import ZifyBool ZifyNat QArith Qcanon.
Open Scope Z_scope.

Lemma slice_prefix (M : list Z) b : 0 <= b -> py_slice M 0 (Z.min (zlen M) b) = firstn (Z.to_nat b) M.
Proof.
  intros Hb. unfold py_slice. rewrite !clip_in by (unfold zlen; lia). rewrite Z.sub_0_r. cbn [Z.to_nat skipn].
  destruct (Z_le_gt_dec (zlen M) b).
  - rewrite Z.min_l by lia. unfold zlen in *. rewrite Nat2Z.id, !firstn_all2; auto; lia.
  - rewrite Z.min_r by lia. auto.
Qed.
Lemma slice_tail (M : list Z) b : M <> [] -> 0 <= b -> py_slice M 1 (Z.min (zlen M) (b + 1)) = firstn (Z.to_nat b) (tl M).
Proof.
  intros Hne Hb. destruct M as [|x M]; [congruence|]. unfold py_slice. rewrite !clip_in by (unfold zlen; cbn [length]; lia).
  change (Z.to_nat 1) with 1%nat. cbn [skipn tl].
  destruct (Z_le_gt_dec (zlen (x :: M)) (b + 1)).
  - rewrite Z.min_l by lia. unfold zlen in *. cbn [length] in *. rewrite !firstn_all2; auto; lia.
  - rewrite Z.min_r by lia. f_equal. lia.
Qed.
Lemma from_suffix (M : list Z) b : 0 <= b -> rev (py_from M (Z.max (zlen M - b) 0)) = firstn (Z.to_nat b) (rev M).
Proof.
  intros Hb. unfold py_from. rewrite clip_in by (unfold zlen; lia).
  rewrite firstn_skipn_rev, rev_involutive, rev_length. f_equal.
  assert (E : (Z.to_nat (Z.max (zlen M - b) 0) = length M - Z.to_nat b)%nat) by (unfold zlen; lia). rewrite E. reflexivity.
Qed.
Lemma slice_init (M : list Z) b : M <> [] -> 0 <= b ->
  rev (py_slice M (Z.max (zlen M - b - 1) 0) (-1)) = firstn (Z.to_nat b) (tl (rev M)).
Proof.
  intros Hne Hb. destruct (exists_last Hne) as (l & x & ->). rewrite rev_app_distr. cbn [rev app tl].
  unfold py_slice. rewrite clip_neg by (unfold zlen; rewrite app_length; cbn; lia).
  rewrite clip_in by (unfold zlen; rewrite app_length; cbn; lia).
  rewrite (firstn_skipn_rev _ (rev l)), rev_involutive, rev_length.
  unfold zlen. rewrite app_length. cbn [length].
  set (k := Z.to_nat (Z.max (Z.of_nat (length l + 1) - b - 1) 0)).
  assert (Hk : (k = length l - Z.to_nat b)%nat) by lia.
  replace (Z.to_nat (-1 + Z.of_nat (length l + 1) - Z.max (Z.of_nat (length l + 1) - b - 1) 0)) with (length l - k)%nat by lia.
  rewrite skipn_app, firstn_app, skipn_length. replace (length l - k - (length l - k))%nat with 0%nat by lia.
  cbn [firstn]. rewrite app_nil_r, firstn_all2 by (rewrite skipn_length; lia). rewrite Hk. reflexivity.
Qed.
Lemma hd_rev (l : list Z) : hd 0 (rev l) = last l 0.
Proof. destruct l as [|x l] using rev_ind; auto. rewrite rev_app_distr, last_last. reflexivity. Qed.
Lemma last_rev (l : list Z) : last (rev l) 0 = hd 0 l.
Proof. rewrite <- (rev_involutive l) at 2. rewrite hd_rev. reflexivity. Qed.
Lemma or_default_rev l M : or_default (rev l) M = match l with [] => M | _ => rev l end.
Proof. destruct l as [|x l]; auto. apply or_default_ne. cbn [rev]. intros E. apply app_eq_nil in E. destruct E; discriminate. Qed.
Lemma firstn_ne (M : list Z) k : M <> [] -> (0 < k)%nat -> firstn k M <> [].
Proof. destruct M, k; cbn; congruence || lia. Qed.

Section Plan.
Variables (n : nat) (S : list Qc) (M m : list Z) (nb : Z).
Hypothesis HS : length S = n.
Hypothesis HnM : M <> [].
Hypothesis Hnm : m <> [].
Hypothesis HrM : forall x, In x M -> 0 <= x < Z.of_nat n - 1.
Hypothesis Hrm : forall x, In x m -> 0 <= x < Z.of_nat n - 1.
Hypothesis Hd : forall x, In x M -> In x m -> False.
Hypothesis Hnb : 1 <= nb.
Let N := Z.of_nat n.
Let k := Z.to_nat nb.
Let zlenS : zlen S = N. Proof. unfold zlen, N. rewrite HS. reflexivity. Qed.
Let hM := HrM _ (hd_In M HnM).
Let hm := Hrm _ (hd_In m Hnm).
Let lM := HrM _ (last_In M HnM).
Let lm := Hrm _ (last_In m Hnm).

Lemma firstn_range (l : list Z) j x : (forall x, In x l -> 0 <= x < Z.of_nat n - 1) -> In x (firstn j l) -> 0 <= x < Z.of_nat n.
Proof. intros H I. apply In_firstn in I. apply H in I. lia. Qed.
Lemma tl_range (l : list Z) j x : (forall x, In x l -> 0 <= x < Z.of_nat n - 1) ->
  In x (match firstn j (tl l) with [] => l | l => l end) -> 0 <= x < Z.of_nat n.
Proof.
  intros H I. assert (In x l); [|apply H in H0; lia].
  destruct (firstn j (tl l)) eqn:E; auto. rewrite <- E in I. apply In_firstn in I. destruct l; auto. right; auto.
Qed.
Lemma ltb_Z y z : nltb (Qc_ofZ y) (Qc_ofZ z) = (y <? z).
Proof.
  cbn [nltb QcNum]. destruct (Z.ltb_spec y z); [apply Qc_ltb_lt, Qc_ofZ_lt; auto|apply Qc_ltb_ge, Qc_ofZ_le; auto].
Qed.
Lemma reach_test (a b : Z) : (if nltb (Qc_ofZ 0) (Qc_ofZ a) then Ok true else Ok (nltb (Qc_ofZ 0) (Qc_ofZ b)))
  = Ok (negb ((a <=? 0) && (b <=? 0))).
Proof. rewrite !ltb_Z. destruct (Z.ltb_spec 0 a); [|destruct (Z.ltb_spec 0 b)]; f_equal; lia. Qed.

(** Reversed lists, as the code has them. *)
Lemma mirror_left_exact lmax lmin c0 : lmax <> [] -> lmin <> [] -> 0 <= c0 < N ->
  (forall x, In x lmax -> 0 <= x < Z.of_nat n) -> (forall x, In x lmin -> 0 <= x < Z.of_nat n) ->
  mirror_left nb (tz n) M m (rev lmax) (rev lmin) c0 =
  if (2 * c0 <=? last lmin 0) && (2 * c0 <=? last lmax 0)
  then Ok (refl_pos c0 (rev lmax), rev lmax, refl_pos c0 (rev lmin), rev lmin)
  else let lmax' := if c0 =? hd 0 M then rev (firstn k M) else rev lmax in
       let lmin' := if c0 =? hd 0 M then rev lmin else rev (firstn k m) in
       if c0 =? 0 then Raise LeftEdgeBug
       else Ok (refl_pos 0 lmax', lmax', refl_pos 0 lmin', lmin').
Proof.
  intros N1 N2 Hc R1 R2. unfold mirror_left.
  assert (R1' : forall x, In x (rev lmax) -> 0 <= x < Z.of_nat n) by (intros x Hx; rewrite <- in_rev in Hx; auto).
  assert (R2' : forall x, In x (rev lmin) -> 0 <= x < Z.of_nat n) by (intros x Hx; rewrite <- in_rev in Hx; auto).
  rewrite !mirror_tz by auto. cbn [bind]. rewrite get_tz by (unfold N in *; lia). cbn [bind].
  rewrite !get_head_map by (apply rev_nonempty; auto). cbn [bind]. rewrite !hd_rev.
  rewrite reach_test. cbn [bind].
  replace ((2 * c0 - last lmin 0 <=? 0) && (2 * c0 - last lmax 0 <=? 0)) with ((2 * c0 <=? last lmin 0) && (2 * c0 <=? last lmax 0)) by lia.
  destruct (_ && _); cbn [negb]; [reflexivity|].
  rewrite get_head by auto. cbn [bind]. rewrite !slice_prefix by lia. fold k. cbv zeta.
  destruct (c0 =? 0); [reflexivity|].
  assert (F1 : forall x, In x (rev (firstn k M)) -> 0 <= x < Z.of_nat n) by (intros x Hx; rewrite <- in_rev in Hx; eapply firstn_range; [|exact Hx]; auto).
  assert (F2 : forall x, In x (rev (firstn k m)) -> 0 <= x < Z.of_nat n) by (intros x Hx; rewrite <- in_rev in Hx; eapply firstn_range; [|exact Hx]; auto).
  destruct (c0 =? hd 0 M); rewrite !mirror_tz by (auto; unfold N in *; lia); reflexivity.
Qed.

Lemma left_exact c LM Lm : left_plan k S M m = (c, LM, Lm) ->
  exists lmax0 lmin0 c0, left_bound nb S M m = Ok (lmax0, lmin0, c0) /\
    mirror_left nb (tz n) M m (or_default lmax0 M) (or_default lmin0 m) c0
    = Ok (refl_pos c (rev LM), rev LM, refl_pos c (rev Lm), rev Lm).
Proof.
  assert (Hne : hd 0 M <> hd 0 m). { intros E. apply (Hd (hd 0 M)); [apply hd_In; auto|rewrite E; apply hd_In; auto]. }
  assert (Kp : (0 < k)%nat) by (unfold k; lia).
  unfold left_plan, left_bound. rewrite !get_head by auto. cbn [bind]. rewrite (get_sample S 0) by lia. cbn [bind].
  rewrite !slice_prefix by lia. rewrite !slice_tail by (auto; lia). rewrite !Z.add_0_r. fold k.
  replace (Z.to_nat (nb - 1)) with (k - 1)%nat by lia.
  assert (S0 : forall l : list Z, rev l ++ [0] = rev (0 :: l)) by reflexivity. rewrite !S0.
  assert (Rfm : forall j x, In x (firstn j m) -> 0 <= x < Z.of_nat n) by (intros j x Hx; eapply firstn_range; [|exact Hx]; auto).
  assert (RfM : forall j x, In x (firstn j M) -> 0 <= x < Z.of_nat n) by (intros j x Hx; eapply firstn_range; [|exact Hx]; auto).
  assert (Rtm : forall x, In x (match firstn k (tl m) with [] => m | l => l end) -> 0 <= x < Z.of_nat n) by (intros x Hx; eapply tl_range; [|exact Hx]; auto).
  assert (RtM : forall x, In x (match firstn k (tl M) with [] => M | l => l end) -> 0 <= x < Z.of_nat n) by (intros x Hx; eapply tl_range; [|exact Hx]; auto).
  assert (Tne : forall l : list Z, l <> [] -> match firstn k (tl l) with [] => l | l => l end <> []) by (intros l Hl; destruct (firstn k (tl l)); congruence).
  assert (Last0 : forall l : list Z, (forall x, In x l -> 0 <= x < Z.of_nat n - 1) -> 0 <= last l 0).
  { intros l H. destruct l as [|y l]; [cbn; lia|]. assert (In (last (y :: l) 0) (y :: l)) by (apply last_In; congruence). apply H in H0. lia. }
  assert (Od : forall l L, (or_default (rev l) L = rev (match l with [] => rev L | l => l end))).
  { intros l L. rewrite or_default_rev. destruct l; auto. rewrite rev_involutive. auto. }
  destruct (Z.ltb_spec (hd 0 M) (hd 0 m)) as [Hlt|Hge].
  - rewrite get_sample by lia. cbn [bind]. unfold end_plan.
    destruct (Qclt_le_dec (sample S (hd 0 m)) (sample S 0)) as [C|C].
    + assert (E : nltb (sample S (hd 0 m)) (sample S 0) = true) by (apply Qc_ltb_lt; auto). rewrite E.
      intros EP. eexists _, _, _. split; [reflexivity|].
      assert (T : or_default (rev (firstn k (tl M))) M = rev (match firstn k (tl M) with [] => M | l => l end)).
      { destruct M as [|x M']; [congruence|]. cbn [tl] in *. destruct (firstn k M') as [|y l] eqn:EF.
        - destruct k; [lia|]. destruct M'; [|discriminate]. reflexivity.
        - rewrite or_default_rev. reflexivity. }
      rewrite T, or_default_ne by (apply rev_nonempty, firstn_ne; auto).
      rewrite mirror_left_exact by (auto using firstn_ne; unfold N; lia).
      rewrite andb_comm. destruct (_ && _) eqn:EB.
      * injection EP as <- <- <-. reflexivity.
      * injection EP as <- <- <-. rewrite Z.eqb_refl. cbv zeta. destruct (Z.eqb_spec (hd 0 M) 0) as [E0|]; [|reflexivity].
        exfalso. assert (K1 : 0 <= last (firstn k m) 0).
        { apply Last0. intros x Hx. apply In_firstn in Hx. auto. }
        assert (K2 : 0 <= last (match firstn k (tl M) with [] => M | l => l end) 0).
        { apply Last0. intros x Hx. destruct (firstn k (tl M)) eqn:EF; auto. rewrite <- EF in Hx. apply In_firstn in Hx.
          apply HrM. destruct M; auto. right; auto. }
        lia.
    + assert (E : nltb (sample S (hd 0 m)) (sample S 0) = false) by (apply Qc_ltb_ge; auto). rewrite E.
      intros [= <- <- <-]. eexists _, _, _. split; [reflexivity|].
      rewrite !or_default_ne by (apply rev_nonempty; (apply firstn_ne; auto) || congruence).
      rewrite mirror_left_exact; auto using firstn_ne; try congruence; try (unfold N; lia); try (intros x [<-|I]; [lia|eauto]).
      replace (_ && _) with true; [reflexivity|]. symmetry. apply andb_true_iff.
      assert (0 <= last (0 :: firstn (k - 1) m) 0). { destruct (firstn (k - 1) m) eqn:EF; [cbn; lia|]. rewrite <- EF.
        change (last (0 :: firstn (k - 1) m) 0) with (match firstn (k - 1) m with [] => 0 | _ :: _ => last (firstn (k - 1) m) 0 end).
        rewrite EF, <- EF. apply Last0. intros x Hx. apply In_firstn in Hx. auto. }
      assert (0 <= last (firstn k M) 0). { apply Last0. intros x Hx. apply In_firstn in Hx. auto. } lia.
  - rewrite get_sample by lia. cbn [bind]. unfold end_plan.
    destruct (Qclt_le_dec (sample S 0) (sample S (hd 0 M))) as [C|C].
    + assert (E : nltb (sample S 0) (sample S (hd 0 M)) = true) by (apply Qc_ltb_lt; auto). rewrite E.
      intros EP. eexists _, _, _. split; [reflexivity|].
      assert (T : or_default (rev (firstn k (tl m))) m = rev (match firstn k (tl m) with [] => m | l => l end)).
      { destruct m as [|x m']; [congruence|]. cbn [tl] in *. destruct (firstn k m') as [|y l] eqn:EF.
        - destruct k; [lia|]. destruct m'; [|discriminate]. reflexivity.
        - rewrite or_default_rev. reflexivity. }
      rewrite T, or_default_ne by (apply rev_nonempty, firstn_ne; auto).
      rewrite mirror_left_exact by (auto using firstn_ne; unfold N; lia).
      destruct (_ && _) eqn:EB.
      * injection EP as <- <- <-. reflexivity.
      * injection EP as <- <- <-. replace (hd 0 m =? hd 0 M) with false by lia. cbv zeta.
        destruct (Z.eqb_spec (hd 0 m) 0) as [E0|]; [|reflexivity].
        exfalso. assert (K1 : 0 <= last (firstn k M) 0).
        { apply Last0. intros x Hx. apply In_firstn in Hx. auto. }
        assert (K2 : 0 <= last (match firstn k (tl m) with [] => m | l => l end) 0).
        { apply Last0. intros x Hx. destruct (firstn k (tl m)) eqn:EF; auto. rewrite <- EF in Hx. apply In_firstn in Hx.
          apply Hrm. destruct m; auto. right; auto. }
        lia.
    + assert (E : nltb (sample S 0) (sample S (hd 0 M)) = false) by (apply Qc_ltb_ge; auto). rewrite E.
      intros [= <- <- <-]. eexists _, _, _. split; [reflexivity|].
      rewrite !or_default_ne by (apply rev_nonempty; (apply firstn_ne; auto) || congruence).
      rewrite mirror_left_exact; auto using firstn_ne; try congruence; try (unfold N; lia); try (intros x [<-|I]; [lia|eauto]).
      replace (_ && _) with true; [reflexivity|]. symmetry. apply andb_true_iff.
      assert (0 <= last (0 :: firstn (k - 1) M) 0). { destruct (firstn (k - 1) M) eqn:EF; [cbn; lia|]. rewrite <- EF.
        change (last (0 :: firstn (k - 1) M) 0) with (match firstn (k - 1) M with [] => 0 | _ :: _ => last (firstn (k - 1) M) 0 end).
        rewrite EF, <- EF. apply Last0. intros x Hx. apply In_firstn in Hx. auto. }
      assert (0 <= last (firstn k m) 0). { apply Last0. intros x Hx. apply In_firstn in Hx. auto. } lia.
Qed.

(** *** The right end *)
Let F (i : Z) := N - 1 - i.
Lemma F_F l : map F (map F l) = l.
Proof. rewrite map_map. rewrite <- (map_id l) at 2. apply map_ext. intros. unfold F. lia. Qed.
Lemma backwards_rev l : backwards N l = map F (rev l).
Proof. unfold backwards. rewrite map_rev. reflexivity. Qed.
Lemma hd_F (l : list Z) : l <> [] -> hd 0 (map F l) = F (hd 0 l).
Proof. destruct l; cbn; congruence. Qed.
Lemma last_F (l : list Z) : l <> [] -> last (map F l) 0 = F (last l 0).
Proof. intros. destruct (exists_last H) as (l' & x & ->). rewrite map_app. cbn [map]. rewrite !last_last. auto. Qed.
Lemma tl_F (l : list Z) : tl (map F l) = map F (tl l).
Proof. destruct l; auto. Qed.
Lemma sample_back i : 0 <= i < N -> sample (rev S) (F i) = sample S i.
Proof. unfold N, F, sample. intros. rewrite rev_nth by (rewrite HS; unfold N; lia). f_equal. rewrite HS. unfold N. lia. Qed.

(** [end_plan] of the reversed lists, in terms of decreasing lists of indices. *)
Definition end_plan_right (inside : bool) (A B : list Z) : Z * list Z * list Z :=
  let a := hd 0 A in
  if inside then
    let LA := match firstn k (tl A) with [] => A | l => l end in
    let LB := firstn k B in
    if (N - 1 <=? 2 * a - last LA 0) && (N - 1 <=? 2 * a - last LB 0) then (a, LA, LB)
    else (N - 1, firstn k A, LB)
  else (N - 1, firstn k A, (N - 1) :: firstn (k - 1) B).
Lemma end_plan_F inside A B : A <> [] -> B <> [] ->
  end_plan k inside (map F A) (map F B) =
  let '(c, LA, LB) := end_plan_right inside A B in (F c, map F LA, map F LB).
Proof.
  intros HA HB. assert (Kp : (0 < k)%nat) by (unfold k; lia). unfold end_plan, end_plan_right.
  rewrite tl_F, !firstn_map, hd_F by auto.
  replace (match map F (firstn k (tl A)) with [] => map F A | z :: l => z :: l end)
    with (map F (match firstn k (tl A) with [] => A | z :: l => z :: l end)) by (destruct (firstn k (tl A)); reflexivity).
  set (LA := match firstn k (tl A) with [] => A | z :: l => z :: l end).
  assert (LA <> []) by (unfold LA; destruct (firstn k (tl A)); congruence).
  rewrite !last_F by (auto using firstn_ne).
  assert (E0 : F (N - 1) = 0) by (unfold F; lia).
  destruct inside.
  - unfold F at 1 2 3 4. replace (_ && _) with ((N - 1 <=? 2 * hd 0 A - last LA 0) && (N - 1 <=? 2 * hd 0 A - last (firstn k B) 0)) by lia.
    destruct (_ && _); rewrite ?E0; reflexivity.
  - cbn [map]. rewrite E0. reflexivity.
Qed.

Lemma reach_test_right (a b : Z) :
  (if nltb (Qc_ofZ a) (Qc_ofZ (N - 1)) then Ok true else Ok (nltb (Qc_ofZ b) (Qc_ofZ (N - 1))))
  = Ok (negb ((N - 1 <=? a) && (N - 1 <=? b))).
Proof. rewrite !ltb_Z. destruct (Z.ltb_spec a (N - 1)); [|destruct (Z.ltb_spec b (N - 1))]; f_equal; lia. Qed.

Lemma mirror_right_exact rmax rmin c0 : rmax <> [] -> rmin <> [] -> 0 <= c0 < N ->
  (forall x, In x rmax -> 0 <= x < Z.of_nat n) -> (forall x, In x rmin -> 0 <= x < Z.of_nat n) ->
  mirror_right nb (tz n) N M m rmax rmin c0 =
  if (N - 1 <=? 2 * c0 - last rmin 0) && (N - 1 <=? 2 * c0 - last rmax 0)
  then Ok (refl_pos c0 rmax, rmax, refl_pos c0 rmin, rmin)
  else let rmax' := if c0 =? last M 0 then firstn k (rev M) else rmax in
       let rmin' := if c0 =? last M 0 then rmin else firstn k (rev m) in
       if c0 =? N - 1 then Raise RightEdgeBug
       else Ok (refl_pos (N - 1) rmax', rmax', refl_pos (N - 1) rmin', rmin').
Proof.
  intros N1 N2 Hc R1 R2. unfold mirror_right.
  rewrite !mirror_tz by auto. cbn [bind]. rewrite get_tz_last by (unfold N in *; lia). cbn [bind].
  rewrite !get_last_map by auto. cbn [bind]. fold N.
  rewrite reach_test_right. cbn [bind].
  destruct (_ && _); cbn [negb]; [reflexivity|].
  rewrite get_last by auto. cbn [bind]. rewrite !from_suffix by lia. fold k. cbv zeta.
  destruct (c0 =? N - 1); [reflexivity|].
  assert (F1 : forall x, In x (firstn k (rev M)) -> 0 <= x < Z.of_nat n)
    by (intros x Hx; apply In_firstn in Hx; rewrite <- in_rev in Hx; apply HrM in Hx; lia).
  assert (F2 : forall x, In x (firstn k (rev m)) -> 0 <= x < Z.of_nat n)
    by (intros x Hx; apply In_firstn in Hx; rewrite <- in_rev in Hx; apply Hrm in Hx; lia).
  destruct (c0 =? last M 0); rewrite !mirror_tz by (auto; unfold N in *; lia); reflexivity.
Qed.

Lemma right_exact c RM Rm : right_plan k S M m = (c, RM, Rm) ->
  exists rmax0 rmin0 c0, right_bound nb S M m = Ok (rmax0, rmin0, c0) /\
    mirror_right nb (tz n) (zlen S) M m (or_default rmax0 M) (or_default rmin0 m) c0
    = Ok (refl_pos c (rev RM), rev RM, refl_pos c (rev Rm), rev Rm).
Proof.
  assert (Hne : last M 0 <> last m 0). { intros E. apply (Hd (last M 0)); [apply last_In; auto|rewrite E; apply last_In; auto]. }
  assert (Kp : (0 < k)%nat) by (unfold k; lia).
  assert (HrM0 : rev M <> []) by (apply rev_nonempty; auto).
  assert (Hrm0 : rev m <> []) by (apply rev_nonempty; auto).
  unfold right_plan, left_plan. rewrite HS. fold N. rewrite !backwards_rev, !hd_F, !hd_rev by auto.
  rewrite !sample_back by (unfold N; lia).
  assert (S0 : sample (rev S) 0 = sample S (N - 1)).
  { rewrite <- (sample_back (N - 1)) by (unfold N; lia). f_equal. unfold F. lia. }
  rewrite S0.
  rewrite !end_plan_F by auto.
  unfold right_bound. rewrite !get_last by auto. cbn [bind]. rewrite get_sample_last by lia. cbn [bind].
  rewrite !from_suffix by lia. rewrite !slice_init by (auto; lia).
  rewrite !rev_app_distr. cbn [rev app].
  assert (FS : forall l : list Z, rev (py_from l (Z.max (zlen l - nb + 1) 0)) = firstn (k - 1) (rev l)).
  { intros l. replace (zlen l - nb + 1) with (zlen l - (nb - 1)) by lia. rewrite from_suffix by lia. f_equal. unfold k. lia. }
  rewrite !FS. rewrite zlenS. fold k.
  assert (Rfm : forall j x, In x (firstn j (rev m)) -> 0 <= x < Z.of_nat n)
    by (intros j x Hx; apply In_firstn in Hx; rewrite <- in_rev in Hx; apply Hrm in Hx; lia).
  assert (RfM : forall j x, In x (firstn j (rev M)) -> 0 <= x < Z.of_nat n)
    by (intros j x Hx; apply In_firstn in Hx; rewrite <- in_rev in Hx; apply HrM in Hx; lia).
  assert (Rt : forall (l : list Z) x, (forall x, In x l -> 0 <= x < Z.of_nat n - 1) ->
     In x (match firstn k (tl (rev l)) with [] => rev l | l => l end) -> 0 <= x < Z.of_nat n).
  { intros l x H Hx. assert (In x (rev l)); [|rewrite <- in_rev in H0; apply H in H0; lia].
    destruct (firstn k (tl (rev l))) eqn:EF; auto. rewrite <- EF in Hx. apply In_firstn in Hx.
    destruct (rev l); auto. right; auto. }
  assert (Rtm := fun x => Rt m x Hrm). assert (RtM := fun x => Rt M x HrM). clear Rt.
  assert (Tne : forall l : list Z, l <> [] -> match firstn k (tl l) with [] => l | l => l end <> [])
    by (intros l Hl; destruct (firstn k (tl l)); congruence).
  assert (LastN : forall l : list Z, l <> [] -> (forall x, In x l -> 0 <= x < Z.of_nat n) -> last l 0 <= N - 1).
  { intros l Hl H. assert (I : In (last l 0) l) by (apply last_In; auto). apply H in I. unfold N. lia. }
  assert (Od : forall l : list Z, l <> [] -> or_default (firstn k (tl (rev l))) l
     = match firstn k (tl (rev l)) with [] => rev l | z :: l0 => z :: l0 end).
  { intros l Hl. destruct (exists_last Hl) as (l' & x & ->). rewrite rev_app_distr. cbn [rev app tl].
    destruct (firstn k (rev l')) eqn:EF; auto. cbn [or_default]. destruct k; [lia|].
    destruct (rev l') eqn:ER; [|discriminate]. apply (f_equal (@rev Z)) in ER. rewrite rev_involutive in ER.
    subst l'. reflexivity. }
  assert (Fin : forall c' (X Y : list Z), (F (F c'), backwards N (map F X), backwards N (map F Y)) = (c, RM, Rm) ->
     c = c' /\ rev RM = X /\ rev Rm = Y).
  { intros c' X Y [= <- <- <-]. split; [unfold F; lia|]. unfold backwards. fold F.
    change (fun i => N - 1 - i) with F. rewrite !rev_involutive, !F_F. auto. }
  destruct (Z.ltb_spec (F (last M 0)) (F (last m 0))) as [Hlt|Hge]; unfold F in Hlt || unfold F in Hge.
  - replace (last M 0 <? last m 0) with false by lia. rewrite get_sample by (unfold N in *; lia). cbn [bind].
    destruct (Qclt_le_dec (sample S (last m 0)) (sample S (N - 1))) as [C|C].
    + assert (E : nltb (sample S (last m 0)) (sample S (N - 1)) = true) by (apply Qc_ltb_lt; auto). rewrite E.
      unfold end_plan_right. rewrite hd_rev. intros EP. eexists _, _, _. split; [reflexivity|].
      rewrite Od, or_default_ne by (auto using firstn_ne).
      rewrite mirror_right_exact by (eauto using firstn_ne; unfold N; lia).
      rewrite andb_comm in EP. destruct (_ && _) eqn:EB.
      * apply Fin in EP as (-> & -> & ->). reflexivity.
      * apply Fin in EP as (-> & -> & ->). rewrite Z.eqb_refl. cbv zeta.
        replace (last M 0 =? N - 1) with false by (unfold N; lia). reflexivity.
    + assert (E : nltb (sample S (last m 0)) (sample S (N - 1)) = false) by (apply Qc_ltb_ge; auto). rewrite E.
      unfold end_plan_right. intros EP. apply Fin in EP as (-> & -> & ->). eexists _, _, _. split; [reflexivity|].
      rewrite !or_default_ne by (auto using firstn_ne; congruence).
      rewrite mirror_right_exact; eauto using firstn_ne; try congruence; try (unfold N; lia);
        try (intros x [<-|I]; [unfold N; lia|eauto]).
      replace (_ && _) with true; [reflexivity|]. symmetry. apply andb_true_iff.
      assert (last (N - 1 :: firstn (k - 1) (rev m)) 0 <= N - 1).
      { apply LastN; [congruence|]. intros x [<-|I]; [unfold N; lia|eauto]. }
      assert (last (firstn k (rev M)) 0 <= N - 1) by (apply LastN; eauto using firstn_ne). lia.
  - replace (last M 0 <? last m 0) with true by lia. rewrite get_sample by (unfold N in *; lia). cbn [bind].
    destruct (Qclt_le_dec (sample S (N - 1)) (sample S (last M 0))) as [C|C].
    + assert (E : nltb (sample S (N - 1)) (sample S (last M 0)) = true) by (apply Qc_ltb_lt; auto). rewrite E.
      unfold end_plan_right. rewrite hd_rev. intros EP. eexists _, _, _. split; [reflexivity|].
      rewrite Od, or_default_ne by (auto using firstn_ne).
      rewrite mirror_right_exact by (eauto using firstn_ne; unfold N; lia).
      destruct (_ && _) eqn:EB.
      * apply Fin in EP as (-> & -> & ->). reflexivity.
      * apply Fin in EP as (-> & -> & ->). replace (last m 0 =? last M 0) with false by lia. cbv zeta.
        replace (last m 0 =? N - 1) with false by (unfold N; lia). reflexivity.
    + assert (E : nltb (sample S (N - 1)) (sample S (last M 0)) = false) by (apply Qc_ltb_ge; auto). rewrite E.
      unfold end_plan_right. intros EP. apply Fin in EP as (-> & -> & ->). eexists _, _, _. split; [reflexivity|].
      rewrite !or_default_ne by (auto using firstn_ne; congruence).
      rewrite mirror_right_exact; eauto using firstn_ne; try congruence; try (unfold N; lia);
        try (intros x [<-|I]; [unfold N; lia|eauto]).
      replace (_ && _) with true; [reflexivity|]. symmetry. apply andb_true_iff.
      assert (last (N - 1 :: firstn (k - 1) (rev M)) 0 <= N - 1).
      { apply LastN; [congruence|]. intros x [<-|I]; [unfold N; lia|eauto]. }
      assert (last (firstn k (rev m)) 0 <= N - 1) by (apply LastN; eauto using firstn_ne). lia.
Qed.
End Plan.

(** ** All the points *)
Lemma lay_fun n cl l M cr r z i j : M <> [] -> left_ok n cl M l -> right_ok n cr M r ->
  In (z, i) (lay cl l M cr r) -> In (z, j) (lay cl l M cr r) -> i = j.
Proof.
  intros Hne [_ L _] [_ R _]. unfold lay. rewrite !in_app_iff, !in_map_iff.
  pose proof (hd_In M Hne) as Hh. set (h := hd 0 M) in *.
  intros [(x & E & Hx)|[(x & E & Hx)|(x & E & Hx)]] [(y & E' & Hy)|[(y & E' & Hy)|(y & E' & Hy)]];
    apply pair_equal_spec in E as [E1 E2]; apply pair_equal_spec in E' as [E3 E4]; rewrite <- E2, <- E4; clear E2 E4.
  - lia.
  - destruct (L x y Hx Hy) as [_ G]. apply G. lia.
  - destruct (L x h Hx Hh) as [G1 G2]. destruct (R y h Hy Hh) as [G3 G4].
    rewrite (G2 ltac:(lia)), (G4 ltac:(lia)). auto.
  - destruct (L y x Hy Hx) as [_ G]. symmetry. apply G. lia.
  - lia.
  - destruct (R y x Hy Hx) as [_ G]. symmetry. apply G. lia.
  - destruct (L y h Hy Hh) as [G1 G2]. destruct (R x h Hx Hh) as [G3 G4].
    rewrite (G2 ltac:(lia)), (G4 ltac:(lia)). auto.
  - destruct (R x y Hx Hy) as [_ G]. apply G. lia.
  - lia.
Qed.
Lemma lay_planned n S cl L M cr R : M <> [] -> zincreasing M -> left_ok n cl M (rev L) -> right_ok n cr M (rev R) ->
  let P := dedupe (map (point S) (lay cl (rev L) M cr (rev R))) in
  increasing (map fst P) /\ forall p, In p P <-> planned S M cl L cr R p.
Proof.
  intros Hne HM HL HR P. pose proof (lay_sorted _ _ _ _ _ _ Hne HM HL HR) as Hs.
  destruct (dedupe_points S _ Hs) as (l' & E & I & A1 & A2). unfold P. rewrite E. split.
  - rewrite map_map. change (fun x => fst (point S x)) with (fun x : Z * Z => Qc_ofZ (fst x)). rewrite <- map_map.
    apply increasing_of_Z. auto.
  - assert (A3 : forall q, In q (lay cl (rev L) M cr (rev R)) -> In q l').
    { intros (z & i) Hq. destruct (A2 _ Hq) as (j & Hj). cbn [fst] in Hj.
      rewrite (lay_fun n cl (rev L) M cr (rev R) z i j); auto. }
    intros p. split.
    + intros Hp. apply in_map_iff in Hp as (q & <- & Hq). apply A1 in Hq. unfold lay in Hq.
      rewrite !in_app_iff, !in_map_iff in Hq.
      destruct Hq as [(x & <- & Hx)|[(x & <- & Hx)|(x & <- & Hx)]]; rewrite <- ?in_rev in Hx; unfold planned, point; cbn [fst snd];
        [right; left|left|right; right]; exists x; split; auto.
    + intros Hp. apply in_map_iff. destruct Hp as [(i & Hi & ->)|[(i & Hi & ->)|(i & Hi & ->)]].
      * exists (i, i). split; [reflexivity|]. apply A3. unfold lay. rewrite !in_app_iff, !in_map_iff. right; left; eauto.
      * exists (2 * cl - i, i). split; [reflexivity|]. apply A3. unfold lay. rewrite !in_app_iff, !in_map_iff. left.
        exists i. rewrite <- in_rev. auto.
      * exists (2 * cr - i, i). split; [reflexivity|]. apply A3. unfold lay. rewrite !in_app_iff, !in_map_iff. right; right.
        exists i. rewrite <- in_rev. auto.
Qed.

Lemma refl_pos_inj c c' l : l <> [] -> refl_pos c l = refl_pos c' l -> c = c'.
Proof.
  destruct l as [|x l]; [congruence|]. intros _ E. unfold refl_pos in E. cbn [map] in E.
  pose proof (f_equal (hd 0%Qc) E) as E1. cbn [hd] in E1. apply Qc_ofZ_inj in E1. lia.
Qed.

Lemma prepare_simple_plan n S e M m nb :
  length S = n -> 1 <= nb ->
  max_pos e = map Qc_ofZ M -> min_pos e = map Qc_ofZ m ->
  M <> [] -> m <> [] -> zincreasing M -> zincreasing m ->
  (forall x, In x M -> 0 <= x < Z.of_nat n - 1) -> (forall x, In x m -> 0 <= x < Z.of_nat n - 1) ->
  (forall x, In x M -> In x m -> False) ->
  exists P Q, prepare_points Simple nb (tz n) S e = Ok (P, Q) /\
    let '(cl, LM, Lm) := left_plan (Z.to_nat nb) S M m in
    let '(cr, RM, Rm) := right_plan (Z.to_nat nb) S M m in
    (increasing (map fst P) /\ forall p, In p P <-> planned S M cl LM cr RM p) /\
    (increasing (map fst Q) /\ forall p, In p Q <-> planned S m cl Lm cr Rm p).
Proof.
  intros HS Hnb EM Em HnM Hnm HM Hm HrM Hrm Hd.
  destruct (left_side n S M m nb HS HnM Hnm HM Hm HrM Hrm Hd Hnb) as
    (lmax0 & lmin0 & c0 & cl & lmax & lmin & E1 & E2 & L1 & L2 & _).
  destruct (right_side n S M m nb HS HnM Hnm HM Hm HrM Hrm Hd Hnb) as
    (rmax0 & rmin0 & c1 & cr & rmax & rmin & E3 & E4 & R1 & R2 & _).
  destruct (left_plan (Z.to_nat nb) S M m) as [[cl' LM] Lm] eqn:EL.
  destruct (right_plan (Z.to_nat nb) S M m) as [[cr' RM] Rm] eqn:ER.
  destruct (left_exact n S M m nb HS HnM Hnm HrM Hrm Hd Hnb _ _ _ EL) as (a & b & c & F1 & F2).
  destruct (right_exact n S M m nb HS HnM Hnm HrM Hrm Hd Hnb _ _ _ ER) as (a' & b' & c' & F3 & F4).
  rewrite E1 in F1. injection F1 as <- <- <-. rewrite E3 in F3. injection F3 as <- <- <-.
  assert (X1 : forall c l c' l' l2 l2', (refl_pos c l, l, refl_pos c l2, l2) = (refl_pos c' l', l', refl_pos c' l2', l2') ->
     l <> [] -> c = c' /\ l = l' /\ l2 = l2').
  { intros u l u' l' l2 l2' [= G1 G2 G3 G4] Hl. subst. split; auto. eapply refl_pos_inj; eauto. }
  assert (X2 : forall u v : list Qc * list Z * list Qc * list Z, Ok u = Ok v -> u = v) by congruence.
  pose proof (eq_trans (eq_sym E2) F2) as G. apply X2, X1 in G as (<- & -> & ->); [|apply (left_dec _ _ _ _ L1)].
  pose proof (eq_trans (eq_sym E4) F4) as G. apply X2, X1 in G as (<- & -> & ->); [|apply (right_dec _ _ _ _ R1)].
  unfold prepare_points, prepare_points_simple. cbn zeta.
  rewrite EM, Em, !map_map. cbn [ntrunc QcNum].
  assert (Et : forall l, map (fun x => Qc_trunc (Qc_ofZ x)) l = l).
  { intros l. rewrite <- (map_id l) at 2. apply map_ext. intros. apply Qc_trunc_ofZ. }
  rewrite !Et, E1. cbn [bind]. rewrite E3. cbn [bind]. rewrite E2. cbn [bind]. rewrite E4. cbn [bind].
  assert (Dn : forall c M l, left_ok (Z.of_nat n) c M l -> forall i, In i l -> 0 <= i < Z.of_nat n)
    by (intros u M' l Hl; apply (dec_rng _ _ (left_dec _ _ _ _ Hl))).
  assert (Dr : forall c M l, right_ok (Z.of_nat n) c M l -> forall i, In i l -> 0 <= i < Z.of_nat n)
    by (intros u M' l Hl; apply (dec_rng _ _ (right_dec _ _ _ _ Hl))).
  rewrite !assemble_lay; eauto;
    try (intros i Hi; apply HrM in Hi; lia); try (intros i Hi; apply Hrm in Hi; lia). cbn [bind].
  eexists _, _. split; [reflexivity|]. split; eapply lay_planned; eauto.
Qed.

Lemma mirroring_exact S nb e : 1 <= nb ->
  find_extrema Simple (arange (length S)) S = Ok e ->
  max_pos e <> [] -> min_pos e <> [] ->
  exists M m P Q, max_pos e = map Qc_ofZ M /\ min_pos e = map Qc_ofZ m /\
    prepare_points Simple nb (arange (length S)) S e = Ok (P, Q) /\
    let '(cl, LM, Lm) := left_plan (Z.to_nat nb) S M m in
    let '(cr, RM, Rm) := right_plan (Z.to_nat nb) S M m in
    (increasing (map fst P) /\ forall p, In p P <-> planned S M cl LM cr RM p) /\
    (increasing (map fst Q) /\ forall p, In p Q <-> planned S m cl Lm cr Rm p).
Proof.
  rewrite arange_tz. intros Hnb E NM Nm.
  destruct (find_extrema_simple_spec (tz (length S)) S (tz_length _)) as
    (e' & M & m & E' & E1 & E2 & E3 & E4 & _ & I1 & I2 & R1 & R2).
  change (find_extrema Simple (tz (length S)) S) with (find_extrema_simple (tz (length S)) S) in E.
  rewrite E in E'. injection E' as <-.
  assert (HrM : forall x, In x M -> 0 <= x < Z.of_nat (length S) - 1).
  { intros x Hx. apply R1, rep_range in Hx. unfold zlen in Hx. lia. }
  assert (Hrm : forall x, In x m -> 0 <= x < Z.of_nat (length S) - 1).
  { intros x Hx. apply R2, rep_range in Hx. unfold zlen in Hx. lia. }
  assert (EM : max_pos e = map Qc_ofZ M) by (rewrite E1; apply map_sample_tz; intros x Hx; apply HrM in Hx; lia).
  assert (Em : min_pos e = map Qc_ofZ m) by (rewrite E3; apply map_sample_tz; intros x Hx; apply Hrm in Hx; lia).
  destruct (prepare_simple_plan (length S) S e M m nb) as (P & Q & EP & H); auto.
  - intros ->. rewrite EM in NM. apply NM. reflexivity.
  - intros ->. rewrite Em in Nm. apply Nm. reflexivity.
  - intros x. rewrite R1, R2. intros Ha Hb. exact (rep_disjoint S x Ha Hb).
  - exists M, m, P, Q. auto.
Qed.
