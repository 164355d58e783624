(** * EmdTop: statements about whole decompositions, assembled from the loop lemmas. *)
From Verif Require Import PyFacts QcFacts Emd Spec EmdProofs EmdControl EmdExact EmdStop.
From Coq Require Import ZifyBool ZifyNat.

Section Generic.
Context {A : Type} `{Num A}.
Variable spl : spline_oracle A.

Lemma last_cons_ne {X} (x : X) l d : l <> [] -> last (x :: l) d = last l d.
Proof. destruct l; [congruence|reflexivity]. Qed.

Lemma fixe_top fuel c S T k o :
  emd spl fuel c S T k = Ok o -> 0 < FIXE c < MAX_ITERATION c ->
  exists t, emd_time c S T = Ok t /\
  forall i, (i < length (imfs o))%nat ->
  exists l, iterates (one_sift spl c t) (vsub S (sum_rows (length S) (firstn i (imfs o))) :: l) /\
            last l [] = nth i (imfs o) [] /\ zlen l = FIXE c.
Proof.
  intros E Hf. destruct (emd_imf_sift _ _ _ _ _ _ _ E) as (t & Et & Hi). exists t. split; auto.
  intros i Hlt. destruct (Hi i Hlt) as (e0 & e1 & Es).
  apply sift_fixe in Es as (l & I1 & I2 & I3); try lia.
  exists l. split; auto. split; [|lia]. rewrite last_cons_ne in I2; auto.
  intros ->. change (zlen []) with 0 in I3. lia.
Qed.

Lemma fixe_h_top fuel c S T k o :
  emd spl fuel c S T k = Ok o -> FIXE c = 0 -> 0 < FIXE_H c -> 2 <= MAX_ITERATION c ->
  exists t, emd_time c S T = Ok t /\
  forall i, (i < length (imfs o))%nat ->
  exists l, iterates (one_sift spl c t) (vsub S (sum_rows (length S) (firstn i (imfs o))) :: l) /\
            last l [] = nth i (imfs o) [] /\
            (zlen l = MAX_ITERATION c - 1 \/
             exists x1 l1 l2, l = x1 :: l1 ++ l2 /\ Forall (balanced c t) l2 /\ FIXE_H c <= zlen l2).
Proof.
  intros E Hf Hh Hm. destruct (emd_imf_sift _ _ _ _ _ _ _ E) as (t & Et & Hi). exists t. split; auto.
  intros i Hlt. destruct (Hi i Hlt) as (e0 & e1 & Es).
  apply sift_fixe_h_start in Es as (x1 & l & I1 & I2 & I3); try lia.
  exists (x1 :: l). split; auto. split; auto. rewrite zlen_cons.
  destruct I3 as [I3|(l1 & l2 & -> & I3 & I4)]; [left; lia|].
  right. exists x1, l1, l2. auto.
Qed.

End Generic.

Lemma iterates_app_cons {X} (R : X -> X -> Prop) l1 x y l2 :
  iterates R (l1 ++ x :: y :: l2) -> R x y.
Proof.
  induction l1 as [|a l1 IH]; simpl; intros I.
  - inversion I; subst; auto.
  - apply IH. destruct l1; simpl in *; inversion I; subst; auto.
Qed.

Lemma emd_time_nonempty {A} `{Num A} c S T t : emd_time c S T = Ok t -> S <> [].
Proof.
  unfold emd_time. intros E ->. apply bind_ok in E as (u & E1 & E). apply bind_ok in E as (t' & E2 & E).
  assert (t' = []).
  { destruct T as [T'|].
    - destruct T'; [|discriminate]. destruct (extrema_detection c); congruence || discriminate.
    - discriminate. }
  subst. discriminate.
Qed.

Lemma default_top spl fuel c (S : list Qc) T k o :
  emd spl fuel c S T k = Ok o -> FIXE c = 0 -> FIXE_H c = 0 -> 2 <= MAX_ITERATION c ->
  exists t, emd_time c S T = Ok t /\
  forall i, (i < length (imfs o))%nat ->
  exists l, iterates (one_sift spl c t) (vsub S (sum_rows (length S) (firstn i (imfs o))) :: l) /\
            last l [] = nth i (imfs o) [] /\
            (zlen l = MAX_ITERATION c - 1 \/
             exists l1 x eM em,
               vsub S (sum_rows (length S) (firstn i (imfs o))) :: l = l1 ++ [x; nth i (imfs o) []] /\
               sift_step spl c t x = Ok (nth i (imfs o) [], eM, em) /\
               converged (svar_thr c) (std_thr c) (energy_ratio_thr c) (nth i (imfs o) []) x eM em /\
               balanced c t (nth i (imfs o) [])).
Proof.
  intros E Hf Hh Hm. destruct (emd_imf_sift _ _ _ _ _ _ _ E) as (t & Et & Hi). exists t. split; auto.
  intros i Hlt. destruct (Hi i Hlt) as (e0 & e1 & Es).
  apply sift_default in Es as (l & I1 & I2 & I3); try lia.
  assert (Hne : l <> []).
  { intros ->. destruct I3 as [I3|(l1 & x & eM & em & I3 & _)].
    - change (zlen []) with 0 in I3. lia.
    - apply (f_equal (@length _)) in I3. rewrite app_length in I3. simpl in I3. lia. }
  exists l. split; auto. rewrite last_cons_ne in I2 by auto. split; auto.
  destruct I3 as [I3|(l1 & x & eM & em & I3 & I4 & I5 & I6)]; [left; lia|].
  right. exists l1, x, eM, em. split; auto. split; auto. split; auto.
  apply check_imf_spec; auto. intros ->.
  apply sift_step_length in I4. simpl in I4.
  assert (HL : length (nth i (imfs o) []) = length S).
  { apply emd_shape in E as (_ & Hs & _). unfold shaped in Hs. rewrite Forall_forall in Hs.
    apply Hs. apply nth_In; auto. }
  rewrite I4 in HL. apply emd_time_nonempty in Et. destruct S; [congruence|discriminate].
Qed.

(** Why a decomposition stopped. *)
Lemma stop_top {A} `{Num A} spl fuel c S T k o :
  emd spl fuel c S T k = Ok o ->
  exists t M last_row e0 e1 fin,
    emd_time c S T = Ok t /\
    sift spl (sift_fuel c) c t 0 0 e0 (vsub S (sum_rows (length S) M)) = Ok (last_row, e1, fin) /\
    (imfs o = M \/ imfs o = M ++ [last_row]) /\
    (imfs o = M <-> e1 <= 2) /\
    (end_condition c S (M ++ [last_row]) = Ok true \/ zlen M + 1 = k \/ e1 <= 2).
Proof.
  intros E. apply emd_ok in E as (t & IMF & ext & Et & _ & El & ->).
  apply emd_loop_stop in El as (M & imf & e0 & fin & -> & Es & Hs).
  exists t, M, imf, e0, ext, fin. split; auto. split; auto.
  unfold emd_finish. simpl. rewrite removelast_last.
  assert (M <> M ++ [imf]).
  { intros D. apply (f_equal (@length _)) in D. rewrite app_length in D. simpl in D. lia. }
  split; [destruct (ext <=? 2); auto|]. split.
  - destruct (Z.leb_spec ext 2); split; auto; try lia. intros D. congruence.
  - destruct Hs as [Hs|[Hs|Hs]]; auto.
    + right. left. rewrite zlen_app in Hs. change (zlen [imf]) with 1 in Hs. lia.
    + right. right. subst. eapply sift_finished; eauto.
Qed.

(** One sift subtracts the mean of the two envelopes. *)
Lemma one_sift_mean spl c (t x y : list Qc) :
  one_sift spl c t x y ->
  exists e maxe mine up lo,
    find_extrema (extrema_detection c) t x = Ok e /\
    3 <= zlen (max_pos e) + zlen (min_pos e) /\
    prepare_points (extrema_detection c) (nbsym c) t x e = Ok (maxe, mine) /\
    spline_points spl (spline_kind c) t maxe = Ok up /\
    spline_points spl (spline_kind c) t mine = Ok lo /\
    length y = length x /\
    (length up = length x -> length lo = length x ->
     forall i, (i < length x)%nat ->
       nth i y 0%Qc = (nth i x 0 - (nth i up 0 + nth i lo 0) / Qc_ofZ 2)%Qc).
Proof.
  intros (eM & em & E). pose proof (sift_step_length _ _ _ _ _ _ _ E) as HL.
  unfold sift_step in E. apply bind_ok in E as ([[[up lo] maxe] mine] & E1 & E).
  apply bind_ok in E as (sum & E2 & E). apply bind_ok in E as (mean & E3 & E).
  unfold extract_max_min_spline in E1. apply bind_ok in E1 as (e & F1 & E1).
  destruct (Z.ltb_spec (zlen (max_pos e) + zlen (min_pos e)) 3) as [D|D]; [discriminate|].
  apply bind_ok in E1 as ([ma mi] & F2 & E1). apply bind_ok in E1 as (u & F3 & E1).
  apply bind_ok in E1 as (w & F4 & E1). injection E1 as -> -> -> ->. injection E as <- <- <-.
  exists e, maxe, mine, up, lo. repeat split; auto.
  intros Lu Ll i Hi. rewrite broadcast2_eq in E2 by congruence. injection E2 as <-.
  rewrite assign_all_eq in E3 by (rewrite map_length, map2_length_eq; congruence).
  injection E3 as <-. rewrite nth_vsub by (rewrite map_length, map2_length_eq; congruence).
  f_equal. f_equal.
  change (nmul nhalf) with (Qcmult (Qc_ofZ 1 / Qc_ofZ 2)). num_qc.
  assert (H0 : (Qc_ofZ 1 / Qc_ofZ 2 * 0 = 0)%Qc) by ring.
  rewrite <- H0 at 1.
  rewrite (map_nth (Qcmult (Qc_ofZ 1 / Qc_ofZ 2))), (nth_map2 _ _ _ _ 0%Qc 0%Qc) by congruence.
  change (Qc_ofZ 1) with 1%Qc. unfold Qcdiv. ring.
Qed.
