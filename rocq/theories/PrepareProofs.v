(** * PrepareProofs: boundary mirroring in 'simple' mode, on the integer time axis. *)
From Verif Require Import PyFacts QcFacts Extrema Prepare Spec Runs EmdExact ExtremaProofs ExtremaSpec.
From Coq Require Import ZifyBool ZifyNat.

(** ** Increasing integer lists *)
Lemma zincreasing_app a b :
  zincreasing (a ++ b) <-> zincreasing a /\ zincreasing b /\ (forall x y, In x a -> In y b -> x < y).
Proof.
  induction a as [|x a IH]; simpl.
  - split; [intros Hb; split; [exact I|]; split; auto; tauto|tauto].
  - rewrite IH. split.
    + intros (H1 & H2 & H3 & H4). split; [split|split]; auto.
      * intros y Hy. apply H1. apply in_or_app. auto.
      * intros u v [<-|Hu] Hv; auto. apply H1. apply in_or_app. auto.
    + intros ((H1 & H2) & H3 & H4). split; [|split; [|split]]; auto.
      intros y Hy. apply in_app_or in Hy as [Hy|Hy]; auto.
Qed.

Lemma zincreasing_firstn k l : zincreasing l -> zincreasing (firstn k l).
Proof. intros Hl. rewrite <- (firstn_skipn k l) in Hl. apply zincreasing_app in Hl. tauto. Qed.
Lemma zincreasing_skipn k l : zincreasing l -> zincreasing (skipn k l).
Proof. intros Hl. rewrite <- (firstn_skipn k l) in Hl. apply zincreasing_app in Hl. tauto. Qed.
Lemma zincreasing_slice l lo hi : zincreasing l -> zincreasing (py_slice l lo hi).
Proof. intros. unfold py_slice. apply zincreasing_firstn, zincreasing_skipn. auto. Qed.
Lemma zincreasing_from l lo : zincreasing l -> zincreasing (py_from l lo).
Proof. intros. unfold py_from. apply zincreasing_skipn. auto. Qed.

Lemma zincreasing_head l x : zincreasing l -> In x l -> hd 0 l <= x.
Proof. destruct l as [|y l]; simpl; [tauto|]. intros [H1 H2] [<-|Hx]; [lia|]. apply H1 in Hx. lia. Qed.
Lemma zincreasing_last l x : zincreasing l -> In x l -> x <= last l 0.
Proof.
  intros Hl Hx. destruct l as [|y l] using rev_ind; [destruct Hx|]. rewrite last_last.
  apply zincreasing_app in Hl as (_ & _ & H3). apply in_app_or in Hx as [Hx|[<-|[]]]; [|lia].
  specialize (H3 x y Hx (or_introl eq_refl)). lia.
Qed.
Lemma hd_In (l : list Z) : l <> [] -> In (hd 0 l) l.
Proof. destruct l; simpl; auto. Qed.
Lemma last_In (l : list Z) : l <> [] -> In (last l 0) l.
Proof. destruct l as [|y l] using rev_ind; [congruence|]. rewrite last_last. intros _. apply in_or_app. simpl. auto. Qed.

(** Reflection of a decreasing list is increasing. *)
Lemma mirror_increasing c l : zincreasing (rev l) -> zincreasing (map (fun i => 2 * c - i) l).
Proof.
  induction l as [|x l IH]; simpl; auto. intros Hl. apply zincreasing_app in Hl as (H1 & _ & H3).
  split; auto. intros y Hy. apply in_map_iff in Hy as (z & <- & Hz).
  specialize (H3 z x). rewrite <- in_rev in H3. specialize (H3 Hz (or_introl eq_refl)). lia.
Qed.

(** ** Array accesses on the integer time axis *)
Definition tz (n : nat) : list Qc := map Qc_ofZ (zseq 0 n).
Lemma tz_length n : length (tz n) = n.
Proof. unfold tz. rewrite map_length. apply zseq_length. Qed.
Lemma sample_tz n i : 0 <= i < Z.of_nat n -> sample (tz n) i = Qc_ofZ i.
Proof.
  intros Hi. unfold sample, tz. rewrite nth_indep with (d' := Qc_ofZ 0).
  - rewrite map_nth, zseq_nth by lia. f_equal. lia.
  - rewrite map_length, zseq_length. lia.
Qed.
Lemma get_sample (S : list Qc) i : 0 <= i < zlen S -> py_get S i = Ok (sample S i).
Proof. intros Hi. unfold sample. apply py_get_nonneg. auto. Qed.
Lemma get_sample_last (S : list Qc) : 0 < zlen S -> py_get S (-1) = Ok (sample S (zlen S - 1)).
Proof. intros Hi. unfold sample. rewrite (py_get_neg S (-1) 0%Qc) by lia. do 2 f_equal. lia. Qed.
Lemma get_tz n i : 0 <= i < Z.of_nat n -> py_get (tz n) i = Ok (Qc_ofZ i).
Proof. intros Hi. rewrite get_sample, sample_tz; auto. unfold zlen. rewrite tz_length. auto. Qed.
Lemma get_tz_last n : (0 < n)%nat -> py_get (tz n) (-1) = Ok (Qc_ofZ (Z.of_nat n - 1)).
Proof.
  intros Hi. assert (E : zlen (tz n) = Z.of_nat n) by (unfold zlen; rewrite tz_length; auto).
  rewrite get_sample_last by lia. rewrite E, sample_tz by lia. reflexivity.
Qed.
Lemma take_samples (S : list Qc) idx :
  (forall i, In i idx -> 0 <= i < zlen S) -> py_take S idx = Ok (map (sample S) idx).
Proof.
  intros Hi. unfold py_take. induction idx as [|i idx IH]; simpl; auto.
  rewrite get_sample by (apply Hi; simpl; auto). simpl. rewrite IH; auto. intros; apply Hi; simpl; auto.
Qed.
Lemma mirror_tz n c idx : 0 <= c < Z.of_nat n -> (forall i, In i idx -> 0 <= i < Z.of_nat n) ->
  mirror (tz n) c idx = Ok (map (fun i => Qc_ofZ (2 * c - i)) idx).
Proof.
  intros Hc Hi. unfold mirror. rewrite get_tz by auto. cbn [bind].
  rewrite take_samples by (unfold zlen; rewrite tz_length; auto). cbn [bind].
  rewrite map_map. f_equal. apply map_ext_in. intros i Hin. rewrite sample_tz by auto.
  change (@n2 Qc _) with (Qc_ofZ 2). cbn [nsub nmul QcNum]. rewrite Qc_ofZ_sub, Qc_ofZ_mul. reflexivity.
Qed.

Lemma get_head (l : list Z) : l <> [] -> py_get l 0 = Ok (hd 0 l).
Proof. destruct l; [congruence|reflexivity]. Qed.
Lemma get_last (l : list Z) : l <> [] -> py_get l (-1) = Ok (last l 0).
Proof. destruct l as [|y l] using rev_ind; [congruence|]. intros _. rewrite py_get_last, last_last. auto. Qed.
Lemma get_head_map {B} (f : Z -> B) (l : list Z) : l <> [] -> py_get (map f l) 0 = Ok (f (hd 0 l)).
Proof. destruct l; [congruence|reflexivity]. Qed.
Lemma get_last_map {B} (f : Z -> B) (l : list Z) : l <> [] -> py_get (map f l) (-1) = Ok (f (last l 0)).
Proof.
  destruct l as [|y l] using rev_ind; [congruence|]. intros _. rewrite map_app. cbn [map].
  rewrite py_get_last, last_last. auto.
Qed.

(** ** Slices *)
Lemma slice_nonempty {X} (l : list X) lo hi : 0 <= lo -> lo < hi -> hi <= zlen l -> py_slice l lo hi <> [].
Proof.
  intros H1 H2 H3 E. apply (f_equal (@length _)) in E. unfold py_slice in E. rewrite !clip_in in E by lia.
  rewrite firstn_length, skipn_length in E. unfold zlen in H3. cbn [length] in E. lia.
Qed.
Lemma slice_empty {X} (l : list X) lo hi : hi <= lo -> 0 <= lo <= zlen l -> 0 <= hi -> py_slice l lo hi = [].
Proof.
  intros. unfold py_slice. rewrite !clip_in by lia. replace (Z.to_nat (hi - lo)) with O by lia. reflexivity.
Qed.
Lemma slice_init_nonempty {X} (l : list X) lo : 0 <= lo -> lo < zlen l - 1 -> py_slice l lo (-1) <> [].
Proof.
  intros H1 H2 E. apply (f_equal (@length _)) in E. unfold py_slice in E.
  rewrite (clip_in _ lo), (clip_neg _ (-1)) in E by lia. rewrite firstn_length, skipn_length in E.
  unfold zlen in *. cbn [length] in E. lia.
Qed.
Lemma from_nonempty {X} (l : list X) lo : 0 <= lo < zlen l -> py_from l lo <> [].
Proof.
  intros H1 E. apply (f_equal (@length _)) in E. unfold py_from in E.
  rewrite clip_in in E by lia. rewrite skipn_length in E. unfold zlen in *. cbn [length] in E. lia.
Qed.
Lemma rev_nonempty {X} (l : list X) : l <> [] -> rev l <> [].
Proof. destruct l; simpl; [congruence|]. intros _ E. apply (f_equal (@length _)) in E. rewrite app_length in E. cbn [length] in E. lia. Qed.
Lemma single (l : list Z) : zlen l = 1 -> l = [hd 0 l].
Proof. unfold zlen. destruct l as [|x [|y l]]; simpl; auto; lia. Qed.

(** ** Index lists before mirroring *)
Record dec (n : Z) (l : list Z) : Prop := MkDec {
  dec_ne : l <> []; dec_dec : zincreasing (rev l); dec_rng : forall x, In x l -> 0 <= x < n }.

Lemma dec_rev n l : l <> [] -> zincreasing l -> (forall x, In x l -> 0 <= x < n) -> dec n (rev l).
Proof.
  intros H1 H2 H3. split; [apply rev_nonempty; auto|rewrite rev_involutive; auto|].
  intros x. rewrite <- in_rev. auto.
Qed.

Lemma or_default_slice n M b : zincreasing M -> M <> [] -> (forall x, In x M -> 0 <= x < n) -> 2 <= b ->
  dec n (or_default (rev (py_slice M 1 (Z.min (zlen M) b))) M) /\
  forall x, In x (or_default (rev (py_slice M 1 (Z.min (zlen M) b))) M) -> In x M.
Proof.
  intros HM Hne Hr Hb. assert (0 < zlen M) by (unfold zlen; destruct M; simpl; [congruence|lia]).
  destruct (Z.eq_dec (zlen M) 1) as [E|E].
  - rewrite slice_empty by lia. cbn [rev or_default]. split; auto.
    rewrite (single _ E) in *. split; auto.
  - assert (Hs : py_slice M 1 (Z.min (zlen M) b) <> []) by (apply slice_nonempty; lia).
    pose proof (rev_nonempty _ Hs) as Hs'. unfold or_default.
    destruct (rev (py_slice M 1 (Z.min (zlen M) b))) eqn:Er; [congruence|]. rewrite <- Er.
    split.
    + apply dec_rev; auto. apply zincreasing_slice; auto. intros x Hx. apply Hr. eapply py_slice_incl; eauto.
    + intros x Hx. rewrite <- in_rev in Hx. eapply py_slice_incl; eauto.
Qed.

Lemma or_default_ne x d : x <> [] -> or_default x d = x.
Proof. destruct x; [congruence|auto]. Qed.

Lemma or_default_prefix n M b : zincreasing M -> M <> [] -> (forall x, In x M -> 0 <= x < n) -> 1 <= b ->
  or_default (rev (py_slice M 0 (Z.min (zlen M) b))) M = rev (py_slice M 0 (Z.min (zlen M) b)) /\
  dec n (rev (py_slice M 0 (Z.min (zlen M) b))) /\
  forall x, In x (rev (py_slice M 0 (Z.min (zlen M) b))) -> In x M.
Proof.
  intros HM Hne Hr Hb. assert (0 < zlen M) by (unfold zlen; destruct M; simpl; [congruence|lia]).
  assert (Hs : py_slice M 0 (Z.min (zlen M) b) <> []) by (apply slice_nonempty; lia).
  split; [apply or_default_ne, rev_nonempty; auto|]. split.
  - apply dec_rev; auto. apply zincreasing_slice; auto. intros x Hx. apply Hr. eapply py_slice_incl; eauto.
  - intros x Hx. rewrite <- in_rev in Hx. eapply py_slice_incl; eauto.
Qed.

Lemma or_default_prefix0 n M b : zincreasing M -> (forall x, In x M -> 0 < x < n) -> 0 < n ->
  or_default (rev (py_slice M 0 b) ++ [0]) M = rev (py_slice M 0 b) ++ [0] /\
  dec n (rev (py_slice M 0 b) ++ [0]).
Proof.
  intros HM Hr Hn. assert (Hne : rev (py_slice M 0 b) ++ [0] <> []) by (intros E; apply app_eq_nil in E; destruct E; congruence).
  split; [apply or_default_ne; auto|]. split; auto.
  - rewrite rev_app_distr, rev_involutive. simpl. split; [|apply zincreasing_slice; auto].
    intros y Hy. apply Hr. eapply py_slice_incl; eauto.
  - intros x Hx. apply in_app_or in Hx as [Hx|[<-|[]]]; [|lia]. rewrite <- in_rev in Hx.
    apply py_slice_incl in Hx. apply Hr in Hx. lia.
Qed.

Lemma or_default_suffix n M b : zincreasing M -> M <> [] -> (forall x, In x M -> 0 <= x < n) -> 1 <= b ->
  or_default (rev (py_from M (Z.max (zlen M - b) 0))) M = rev (py_from M (Z.max (zlen M - b) 0)) /\
  dec n (rev (py_from M (Z.max (zlen M - b) 0))) /\
  forall x, In x (rev (py_from M (Z.max (zlen M - b) 0))) -> In x M.
Proof.
  intros HM Hne Hr Hb. assert (0 < zlen M) by (unfold zlen; destruct M; simpl; [congruence|lia]).
  assert (Hs : py_from M (Z.max (zlen M - b) 0) <> []) by (apply from_nonempty; lia).
  split; [apply or_default_ne, rev_nonempty; auto|]. split.
  - apply dec_rev; auto. apply zincreasing_from; auto. intros x Hx. apply Hr. eapply py_from_incl; eauto.
  - intros x Hx. rewrite <- in_rev in Hx. eapply py_from_incl; eauto.
Qed.

Lemma or_default_suffix_last n M b : zincreasing M -> (forall x, In x M -> 0 <= x < n - 1) -> 0 < n ->
  or_default (rev (py_from M b ++ [n - 1])) M = rev (py_from M b ++ [n - 1]) /\
  dec n (rev (py_from M b ++ [n - 1])).
Proof.
  intros HM Hr Hn.
  assert (Hne : py_from M b ++ [n - 1] <> []) by (intros E; apply app_eq_nil in E; destruct E; congruence).
  split; [apply or_default_ne, rev_nonempty; auto|]. apply dec_rev; auto.
  - apply zincreasing_app. split; [apply zincreasing_from; auto|]. split; [simpl; tauto|].
    intros x y Hx [<-|[]]. apply py_from_incl in Hx. apply Hr in Hx. lia.
  - intros x Hx. apply in_app_or in Hx as [Hx|[<-|[]]]; [|lia]. apply py_from_incl in Hx. apply Hr in Hx. lia.
Qed.

Lemma or_default_init n M b : zincreasing M -> M <> [] -> (forall x, In x M -> 0 <= x < n) -> 1 <= b ->
  dec n (or_default (rev (py_slice M (Z.max (zlen M - b - 1) 0) (-1))) M) /\
  forall x, In x (or_default (rev (py_slice M (Z.max (zlen M - b - 1) 0) (-1))) M) -> In x M.
Proof.
  intros HM Hne Hr Hb. assert (0 < zlen M) by (unfold zlen; destruct M; simpl; [congruence|lia]).
  destruct (Z.eq_dec (zlen M) 1) as [E|E].
  - assert (Es : py_slice M (Z.max (zlen M - b - 1) 0) (-1) = []).
    { unfold py_slice. rewrite clip_neg by lia. rewrite clip_in by lia.
      replace (Z.to_nat _) with O by lia. reflexivity. }
    rewrite Es. cbn [rev or_default]. split; auto. rewrite (single _ E) in *. split; auto.
  - assert (Hs : py_slice M (Z.max (zlen M - b - 1) 0) (-1) <> []) by (apply slice_init_nonempty; lia).
    rewrite or_default_ne by (apply rev_nonempty; auto). split.
    + apply dec_rev; auto. apply zincreasing_slice; auto. intros x Hx. apply Hr. eapply py_slice_incl; eauto.
    + intros x Hx. rewrite <- in_rev in Hx. eapply py_slice_incl; eauto.
Qed.

(** ** One side: index lists together with a symmetry instant *)
Record left_ok (n c : Z) (M l : list Z) : Prop := MkLeft {
  left_dec : dec n l;
  left_le : forall x m, In x l -> In m M -> 2 * c - x <= m /\ (2 * c - x = m -> x = m);
  left_cover : exists x, In x l /\ 2 * c - x <= 0 }.
Record right_ok (n c : Z) (M l : list Z) : Prop := MkRight {
  right_dec : dec n l;
  right_le : forall x m, In x l -> In m M -> m <= 2 * c - x /\ (2 * c - x = m -> x = m);
  right_cover : exists x, In x l /\ n - 1 <= 2 * c - x }.

Lemma left_ok_zero n M l : dec n l -> (forall m, In m M -> 0 <= m) -> left_ok n 0 M l.
Proof.
  intros Hd HM. split; auto.
  - intros x m Hx Hm. apply (dec_rng _ _ Hd) in Hx. apply HM in Hm. lia.
  - exists (hd 0 l). split; [apply hd_In, (dec_ne _ _ Hd)|].
    pose proof (dec_rng _ _ Hd _ (hd_In _ (dec_ne _ _ Hd))). lia.
Qed.
Lemma right_ok_last n M l : dec n l -> (forall m, In m M -> m <= n - 1) -> right_ok n (n - 1) M l.
Proof.
  intros Hd HM. split; auto.
  - intros x m Hx Hm. apply (dec_rng _ _ Hd) in Hx. apply HM in Hm. lia.
  - exists (hd 0 l). split; [apply hd_In, (dec_ne _ _ Hd)|].
    pose proof (dec_rng _ _ Hd _ (hd_In _ (dec_ne _ _ Hd))). lia.
Qed.

Definition refl_pos (c : Z) (l : list Z) : list Qc := map (fun i => Qc_ofZ (2 * c - i)) l.

Section Sides.
Variables (n : nat) (S : list Qc) (M m : list Z) (nb : Z).
Hypothesis HS : length S = n.
Hypothesis HnM : M <> [].
Hypothesis Hnm : m <> [].
Hypothesis HM : zincreasing M.
Hypothesis Hm : zincreasing m.
Hypothesis HrM : forall x, In x M -> 0 <= x < Z.of_nat n - 1.
Hypothesis Hrm : forall x, In x m -> 0 <= x < Z.of_nat n - 1.
Hypothesis Hd : forall x, In x M -> In x m -> False.
Hypothesis Hnb : 1 <= nb.
Let N := Z.of_nat n.

Let zlenS : zlen S = N. Proof. unfold zlen, N. rewrite HS. reflexivity. Qed.
Let rM : forall x, In x M -> 0 <= x < N. Proof. intros x Hx. apply HrM in Hx. unfold N. lia. Qed.
Let rm : forall x, In x m -> 0 <= x < N. Proof. intros x Hx. apply Hrm in Hx. unfold N. lia. Qed.
Let hM := HrM _ (hd_In M HnM).
Let hm := Hrm _ (hd_In m Hnm).
Let lM := HrM _ (last_In M HnM).
Let lm := Hrm _ (last_In m Hnm).
Let h_ne : hd 0 M <> hd 0 m.
Proof. intros E. apply (Hd (hd 0 M)); [apply hd_In; auto|rewrite E; apply hd_In; auto]. Qed.
Let l_ne : last M 0 <> last m 0.
Proof. intros E. apply (Hd (last M 0)); [apply last_In; auto|rewrite E; apply last_In; auto]. Qed.

Lemma left_bound_ok : exists lmax lmin c,
  left_bound nb S M m = Ok (lmax, lmin, c) /\
  dec N (or_default lmax M) /\ dec N (or_default lmin m) /\
  (c = 0 \/
   (c = hd 0 M /\ hd 0 M < hd 0 m \/ c = hd 0 m /\ hd 0 m < hd 0 M) /\
   (forall x, In x (or_default lmax M) -> In x M) /\ (forall x, In x (or_default lmin m) -> In x m)).
Proof.
  unfold left_bound. rewrite !get_head by auto. cbn [bind].
  rewrite (get_sample S 0) by lia. cbn [bind].
  destruct (Z.ltb_spec (hd 0 M) (hd 0 m)) as [Hlt|Hge].
  - rewrite get_sample by lia. cbn [bind].
    destruct (nltb _ _).
    + eexists _, _, _. split; [reflexivity|].
      destruct (or_default_slice N M (nb + 1) HM HnM rM ltac:(lia)) as [A1 A2].
      destruct (or_default_prefix N m (nb + 0) Hm Hnm rm ltac:(lia)) as (B1 & B2 & B3).
      rewrite B1. split; [auto|]. split; [auto|]. right. split; [lia|auto].
    + eexists _, _, _. split; [reflexivity|].
      destruct (or_default_prefix N M nb HM HnM rM ltac:(lia)) as (A1 & A2 & A3).
      destruct (or_default_prefix0 N m (Z.min (zlen m) (nb - 1)) Hm) as (B1 & B2).
      { intros x Hx. pose proof (zincreasing_head _ _ Hm Hx). apply rm in Hx. lia. } { lia. }
      rewrite A1, B1. auto.
  - rewrite get_sample by lia. cbn [bind].
    destruct (nltb _ _).
    + eexists _, _, _. split; [reflexivity|].
      destruct (or_default_slice N m (nb + 1) Hm Hnm rm ltac:(lia)) as [A1 A2].
      destruct (or_default_prefix N M (nb + 0) HM HnM rM ltac:(lia)) as (B1 & B2 & B3).
      rewrite B1. split; [auto|]. split; [auto|]. right. split; [lia|auto].
    + eexists _, _, _. split; [reflexivity|].
      destruct (or_default_prefix N m nb Hm Hnm rm ltac:(lia)) as (A1 & A2 & A3).
      destruct (or_default_prefix0 N M (Z.min (zlen M) (nb - 1)) HM) as (B1 & B2).
      { intros x Hx. pose proof (zincreasing_head _ _ HM Hx). apply rM in Hx. lia. } { lia. }
      rewrite A1, B1. auto.
Qed.

Lemma left_side : exists lmax0 lmin0 c0 c lmax lmin,
  left_bound nb S M m = Ok (lmax0, lmin0, c0) /\
  mirror_left nb (tz n) M m (or_default lmax0 M) (or_default lmin0 m) c0
    = Ok (refl_pos c lmax, lmax, refl_pos c lmin, lmin) /\
  left_ok N c M lmax /\ left_ok N c m lmin /\ (c = 0 \/ In c M \/ In c m).
Proof.
  destruct left_bound_ok as (lmax0 & lmin0 & c0 & E & D1 & D2 & Hc).
  exists lmax0, lmin0, c0. rewrite E.
  assert (Hc0 : 0 <= c0 < N).
  { destruct Hc as [->|([[-> _]|[-> _]] & _)]; lia. }
  unfold mirror_left.
  rewrite !mirror_tz; auto; [|apply (dec_rng _ _ D1)|apply (dec_rng _ _ D2)]. cbn [bind].
  rewrite get_tz by lia. cbn [bind].
  rewrite !get_head_map by (apply (dec_ne _ _ D1) || apply (dec_ne _ _ D2)). cbn [bind].
  set (bad := if nltb (Qc_ofZ 0) (Qc_ofZ (2 * c0 - hd 0 (or_default lmin0 m))) then Ok true
              else Ok (nltb (Qc_ofZ 0) (Qc_ofZ (2 * c0 - hd 0 (or_default lmax0 M))))).
  assert (Eb : bad = Ok ((0 <? 2 * c0 - hd 0 (or_default lmin0 m)) || (0 <? 2 * c0 - hd 0 (or_default lmax0 M)))).
  { unfold bad. assert (G : forall z, nltb (Qc_ofZ 0) (Qc_ofZ z) = (0 <? z)).
    { intros z. cbn [nltb QcNum]. destruct (Z.ltb_spec 0 z).
      - apply Qc_ltb_lt, Qc_ofZ_lt. auto.
      - apply Qc_ltb_ge, Qc_ofZ_le. auto. }
    rewrite !G. destruct (0 <? _); reflexivity. }
  rewrite Eb. cbn [bind]. clear bad Eb.
  pose proof (dec_rng _ _ D1 _ (hd_In _ (dec_ne _ _ D1))) as G1.
  pose proof (dec_rng _ _ D2 _ (hd_In _ (dec_ne _ _ D2))) as G2.
  destruct (orb _ _) eqn:Eb.
  - (* fall back to symmetry about the first instant *)
    rewrite get_head by auto. cbn [bind].
    destruct (Z.eqb_spec c0 0) as [E0|N0]; [exfalso; lia|].
    destruct Hc as [->|(Hc & I1 & I2)]; [lia|].
    destruct (or_default_prefix N M nb HM HnM rM Hnb) as (_ & P1 & Q1).
    destruct (or_default_prefix N m nb Hm Hnm rm Hnb) as (_ & P2 & Q2).
    assert (R : forall l, dec N l -> forall i, In i l -> 0 <= i < Z.of_nat n) by (intros l Hl; apply (dec_rng _ _ Hl)).
    destruct (c0 =? hd 0 M);
    (rewrite !mirror_tz; [|lia|eauto|lia|eauto]); cbn [bind];
    eexists 0, _, _; (split; [reflexivity|]); (split; [reflexivity|]);
    (split; [apply left_ok_zero; auto; intros x Hx; apply HrM in Hx; lia|]);
    (split; [apply left_ok_zero; auto; intros x Hx; apply Hrm in Hx; lia|]); auto.
  - exists c0. eexists _, _. split; [reflexivity|]. split; [reflexivity|].
    destruct Hc as [->|(Hc & I1 & I2)].
    + split; [apply left_ok_zero; auto; intros x Hx; apply HrM in Hx; lia|].
      split; [apply left_ok_zero; auto; intros x Hx; apply Hrm in Hx; lia|]. auto.
    + assert (Hle : c0 <= hd 0 M /\ c0 <= hd 0 m) by lia.
      split; [|split].
      * split; auto.
        -- intros x y Hx Hy. apply I1 in Hx.
           pose proof (zincreasing_head _ _ HM Hx). pose proof (zincreasing_head _ _ HM Hy). lia.
        -- exists (hd 0 (or_default lmax0 M)). split; [apply hd_In, (dec_ne _ _ D1)|lia].
      * split; auto.
        -- intros x y Hx Hy. apply I2 in Hx.
           pose proof (zincreasing_head _ _ Hm Hx). pose proof (zincreasing_head _ _ Hm Hy). lia.
        -- exists (hd 0 (or_default lmin0 m)). split; [apply hd_In, (dec_ne _ _ D2)|lia].
      * right. destruct Hc as [[-> _]|[-> _]]; [left|right]; apply hd_In; auto.
Qed.

Lemma right_bound_ok : exists rmax rmin c,
  right_bound nb S M m = Ok (rmax, rmin, c) /\
  dec N (or_default rmax M) /\ dec N (or_default rmin m) /\
  (c = N - 1 \/
   (c = last M 0 /\ last m 0 < last M 0 \/ c = last m 0 /\ last M 0 < last m 0) /\
   (forall x, In x (or_default rmax M) -> In x M) /\ (forall x, In x (or_default rmin m) -> In x m)).
Proof.
  unfold right_bound. rewrite !get_last by auto. cbn [bind].
  rewrite (get_sample_last S) by lia. cbn [bind].
  destruct (Z.ltb_spec (last M 0) (last m 0)) as [Hlt|Hge].
  - rewrite get_sample by lia. cbn [bind].
    destruct (nltb _ _).
    + eexists _, _, _. split; [reflexivity|].
      destruct (or_default_init N m nb Hm Hnm rm ltac:(lia)) as [A1 A2].
      destruct (or_default_suffix N M nb HM HnM rM ltac:(lia)) as (B1 & B2 & B3).
      rewrite B1. split; [auto|]. split; [auto|]. right. split; [lia|auto].
    + eexists _, _, _. split; [reflexivity|]. rewrite zlenS.
      destruct (or_default_suffix N m nb Hm Hnm rm ltac:(lia)) as (A1 & A2 & A3).
      destruct (or_default_suffix_last N M (Z.max (zlen M - nb + 1) 0) HM HrM) as (B1 & B2). { lia. }
      rewrite A1, B1. auto.
  - rewrite get_sample by lia. cbn [bind].
    destruct (nltb _ _).
    + eexists _, _, _. split; [reflexivity|].
      destruct (or_default_init N M nb HM HnM rM ltac:(lia)) as [A1 A2].
      destruct (or_default_suffix N m nb Hm Hnm rm ltac:(lia)) as (B1 & B2 & B3).
      rewrite B1. split; [auto|]. split; [auto|]. right. split; [lia|auto].
    + eexists _, _, _. split; [reflexivity|]. rewrite zlenS.
      destruct (or_default_suffix N M nb HM HnM rM ltac:(lia)) as (A1 & A2 & A3).
      destruct (or_default_suffix_last N m (Z.max (zlen m - nb + 1) 0) Hm Hrm) as (B1 & B2). { lia. }
      rewrite A1, B1. auto.
Qed.

Lemma right_side : exists rmax0 rmin0 c0 c rmax rmin,
  right_bound nb S M m = Ok (rmax0, rmin0, c0) /\
  mirror_right nb (tz n) (zlen S) M m (or_default rmax0 M) (or_default rmin0 m) c0
    = Ok (refl_pos c rmax, rmax, refl_pos c rmin, rmin) /\
  right_ok N c M rmax /\ right_ok N c m rmin /\ (c = N - 1 \/ In c M \/ In c m).
Proof.
  destruct right_bound_ok as (rmax0 & rmin0 & c0 & E & D1 & D2 & Hc).
  exists rmax0, rmin0, c0. rewrite E.
  assert (Hc0 : 0 <= c0 < N).
  { destruct Hc as [->|([[-> _]|[-> _]] & _)]; lia. }
  unfold mirror_right.
  rewrite !mirror_tz; auto; [|apply (dec_rng _ _ D1)|apply (dec_rng _ _ D2)]. cbn [bind].
  rewrite get_tz_last by lia. cbn [bind].
  rewrite !get_last_map by (apply (dec_ne _ _ D1) || apply (dec_ne _ _ D2)). cbn [bind].
  fold N.
  set (bad := if nltb (Qc_ofZ (2 * c0 - last (or_default rmin0 m) 0)) (Qc_ofZ (N - 1)) then Ok true
              else Ok (nltb (Qc_ofZ (2 * c0 - last (or_default rmax0 M) 0)) (Qc_ofZ (N - 1)))).
  assert (Eb : bad = Ok ((2 * c0 - last (or_default rmin0 m) 0 <? N - 1) || (2 * c0 - last (or_default rmax0 M) 0 <? N - 1))).
  { unfold bad. assert (G : forall y z, nltb (Qc_ofZ y) (Qc_ofZ z) = (y <? z)).
    { intros y z. cbn [nltb QcNum]. destruct (Z.ltb_spec y z).
      - apply Qc_ltb_lt, Qc_ofZ_lt. auto.
      - apply Qc_ltb_ge, Qc_ofZ_le. auto. }
    rewrite !G. destruct (_ <? _); reflexivity. }
  rewrite Eb. cbn [bind]. clear bad Eb.
  pose proof (dec_rng _ _ D1 _ (last_In _ (dec_ne _ _ D1))) as G1.
  pose proof (dec_rng _ _ D2 _ (last_In _ (dec_ne _ _ D2))) as G2.
  destruct (orb _ _) eqn:Eb.
  - rewrite get_last by auto. cbn [bind]. rewrite zlenS.
    destruct (Z.eqb_spec c0 (N - 1)) as [E0|N0]; [exfalso; lia|].
    destruct Hc as [->|(Hc & I1 & I2)]; [lia|].
    destruct (or_default_suffix N M nb HM HnM rM Hnb) as (_ & P1 & Q1).
    destruct (or_default_suffix N m nb Hm Hnm rm Hnb) as (_ & P2 & Q2).
    assert (R : forall l, dec N l -> forall i, In i l -> 0 <= i < Z.of_nat n) by (intros l Hl; apply (dec_rng _ _ Hl)).
    destruct (c0 =? last M 0);
    (rewrite !mirror_tz; [|lia|eauto|lia|eauto]); cbn [bind];
    eexists (N - 1), _, _; (split; [reflexivity|]); (split; [reflexivity|]);
    (split; [apply right_ok_last; auto; intros x Hx; apply HrM in Hx; lia|]);
    (split; [apply right_ok_last; auto; intros x Hx; apply Hrm in Hx; lia|]); auto.
  - exists c0. eexists _, _. split; [reflexivity|]. split; [reflexivity|].
    destruct Hc as [->|(Hc & I1 & I2)].
    + split; [apply right_ok_last; auto; intros x Hx; apply HrM in Hx; lia|].
      split; [apply right_ok_last; auto; intros x Hx; apply Hrm in Hx; lia|]. auto.
    + assert (Hle : last M 0 <= c0 /\ last m 0 <= c0) by lia.
      split; [|split].
      * split; auto.
        -- intros x y Hx Hy. apply I1 in Hx.
           pose proof (zincreasing_last _ _ HM Hx). pose proof (zincreasing_last _ _ HM Hy). lia.
        -- exists (last (or_default rmax0 M) 0). split; [apply last_In, (dec_ne _ _ D1)|lia].
      * split; auto.
        -- intros x y Hx Hy. apply I2 in Hx.
           pose proof (zincreasing_last _ _ Hm Hx). pose proof (zincreasing_last _ _ Hm Hy). lia.
        -- exists (last (or_default rmin0 m) 0). split; [apply last_In, (dec_ne _ _ D2)|lia].
      * right. destruct Hc as [[-> _]|[-> _]]; [left|right]; apply last_In; auto.
Qed.
End Sides.

(** ** The assembled points: (position, sample index) *)
Definition lay (cl : Z) (l M : list Z) (cr : Z) (r : list Z) : list (Z * Z) :=
  map (fun i => (2 * cl - i, i)) l ++ map (fun i => (i, i)) M ++ map (fun i => (2 * cr - i, i)) r.
Definition point (S : list Qc) (p : Z * Z) : Qc * Qc := (Qc_ofZ (fst p), sample S (snd p)).

Lemma combine_app {X Y} (a : list X) (b : list Y) a' b' : length a = length b ->
  combine (a ++ a') (b ++ b') = combine a b ++ combine a' b'.
Proof.
  revert b. induction a as [|x a IH]; destruct b; simpl; intros; try discriminate; auto.
  f_equal. apply IH. lia.
Qed.
Lemma combine_map2 {X Y Z} (f : X -> Y) (g : X -> Z) l :
  combine (map f l) (map g l) = map (fun x => (f x, g x)) l.
Proof. induction l; simpl; congruence. Qed.

Lemma assemble_lay n S cl l M cr r : length S = n ->
  (forall i, In i l -> 0 <= i < Z.of_nat n) -> (forall i, In i M -> 0 <= i < Z.of_nat n) ->
  (forall i, In i r -> 0 <= i < Z.of_nat n) ->
  assemble (tz n) S (refl_pos cl l) l M (refl_pos cr r) r = Ok (map (point S) (lay cl l M cr r)).
Proof.
  intros HS Hl HM Hr. unfold assemble.
  rewrite !take_samples; unfold zlen; rewrite ?tz_length, ?HS; auto. cbn [bind].
  f_equal. unfold refl_pos, lay. rewrite !combine_app by (rewrite !map_length; auto).
  rewrite !combine_map2, !map_app, !map_map. unfold point; cbn [fst snd].
  do 2 f_equal. apply map_ext_in. intros i Hi. rewrite sample_tz; auto.
Qed.

(** Weakly increasing positions. *)
Fixpoint wsorted (l : list (Z * Z)) : Prop :=
  match l with
  | [] => True
  | p :: l' => (forall q, In q l' -> fst p <= fst q) /\ wsorted l'
  end.
Lemma wsorted_app a b : wsorted a -> wsorted b ->
  (forall p q, In p a -> In q b -> fst p <= fst q) -> wsorted (a ++ b).
Proof.
  induction a as [|p a IH]; simpl; auto. intros [H1 H2] Hb Hx. split; auto.
  intros q Hq. apply in_app_or in Hq as [Hq|Hq]; auto.
Qed.
Lemma wsorted_map (f : Z -> Z * Z) l : zincreasing (map (fun i => fst (f i)) l) -> wsorted (map f l).
Proof.
  induction l as [|x l IH]; simpl; auto. intros [H1 H2]. split; auto.
  intros q Hq. apply in_map_iff in Hq as (y & <- & Hy).
  assert (fst (f x) < fst (f y)). { apply H1. apply in_map_iff. eauto. } lia.
Qed.

Lemma lay_sorted n cl l M cr r : M <> [] -> zincreasing M -> left_ok n cl M l -> right_ok n cr M r ->
  wsorted (lay cl l M cr r).
Proof.
  intros Hne HM [D1 L1 _] [D2 L2 _]. unfold lay.
  apply wsorted_app; [apply wsorted_map; apply mirror_increasing, D1| |].
  - apply wsorted_app; [apply wsorted_map; simpl; rewrite map_id; auto|
                        apply wsorted_map; apply mirror_increasing, D2|].
    intros p q Hp Hq. apply in_map_iff in Hp as (x & <- & Hx). apply in_map_iff in Hq as (y & <- & Hy).
    apply (L2 y x); auto.
  - intros p q Hp Hq. apply in_map_iff in Hp as (x & <- & Hx). apply in_app_or in Hq as [Hq|Hq];
    apply in_map_iff in Hq as (y & <- & Hy); cbn [fst]; [apply (L1 x y); auto|].
    pose proof (L1 x (hd 0 M) Hx (hd_In _ Hne)). pose proof (L2 y (hd 0 M) Hy (hd_In _ Hne)). lia.
Qed.

Lemma dedupe_points S l : wsorted l ->
  exists l', dedupe (map (point S) l) = map (point S) l' /\ zincreasing (map fst l') /\
    (forall p, In p l' -> In p l) /\ (forall p, In p l -> exists i, In (fst p, i) l').
Proof.
  induction l as [|p l IH]; intros Hs.
  - exists []. simpl. repeat split; auto. tauto.
  - destruct Hs as [H1 H2]. specialize (IH H2) as (l' & E & I & A1 & A2).
    destruct l as [|q l].
    + exists [p]. simpl. repeat split; auto; [tauto|]. intros r [<-|[]]. exists (snd p). left. destruct p; auto.
    + cbn [map dedupe]. change (map (point S) (q :: l)) with (point S q :: map (point S) l) in E.
      destruct (neqb (fst (point S q)) (fst (point S p))) eqn:En.
      * exists l'. split; auto. split; auto. split; [intros r Hr; right; auto|].
        intros r [<-|Hr]; auto.
        cbn [neqb QcNum point fst] in En. apply Qc_eqb_eq, Qc_ofZ_inj in En.
        rewrite <- En. apply A2. left; auto.
      * exists (p :: l'). split; [cbn [map]; f_equal; exact E|].
        assert (Hlt : fst p < fst q).
        { cbn [neqb QcNum point fst] in En. apply Qc_eqb_neq in En.
          assert (fst p <> fst q) by congruence. specialize (H1 q (or_introl eq_refl)). lia. }
        split; [simpl; split; auto|split].
        -- intros y Hy. apply in_map_iff in Hy as (r & <- & Hr). apply A1 in Hr as [<-|Hr]; auto.
           destruct H2 as [H2 _]. apply H2 in Hr. lia.
        -- intros r [<-|Hr]; [left|right]; auto.
        -- intros r [<-|Hr]; [exists (snd p); left; destruct p; auto|].
           destruct (A2 r Hr) as (i & Hi). exists i. right; auto.
Qed.

Lemma zincreasing_nth l i : zincreasing l -> (Datatypes.S i < length l)%nat ->
  nth i l 0 < nth (Datatypes.S i) l 0.
Proof.
  revert i. induction l as [|x l IH]; simpl; [lia|]. intros i [H1 H2] Hi. destruct i as [|i].
  - destruct l; simpl in *; [lia|]. apply H1. auto.
  - apply IH; auto. lia.
Qed.
Lemma increasing_of_Z l : zincreasing l -> increasing (map Qc_ofZ l).
Proof.
  intros Hl i Hi. rewrite map_length in Hi.
  change 0%Qc with (Qc_ofZ 0). rewrite !map_nth. rewrite Qc_ofZ_lt. apply zincreasing_nth; auto.
Qed.

(** What one envelope's points satisfy. *)
Record env_ok (n : nat) (S : list Qc) (M : list Z) (cl cr : Z) (P : list (Qc * Qc)) : Prop := MkEnv {
  env_inc : increasing (map fst P);
  env_three : 3 <= zlen P;
  env_orig : forall i, In i M -> In (Qc_ofZ i, sample S i) P;
  env_first : exists p, nth_error P 0 = Some p /\ (fst p <= Qc_ofZ 0)%Qc;
  env_last : exists p, nth_error P (length P - 1) = Some p /\ (Qc_ofZ (Z.of_nat n - 1) <= fst p)%Qc;
  env_all : forall p, In p P -> exists i, 0 <= i < Z.of_nat n /\ snd p = sample S i /\
     ((In i M /\ fst p = Qc_ofZ i) \/
      (fst p = Qc_ofZ (2 * cl - i) /\ forall m, In m M -> (fst p <= Qc_ofZ m)%Qc) \/
      (fst p = Qc_ofZ (2 * cr - i) /\ forall m, In m M -> (Qc_ofZ m <= fst p)%Qc)) }.

Lemma envelope_ok n S M cl l cr r : length S = n -> M <> [] -> zincreasing M ->
  (forall x, In x M -> 0 <= x < Z.of_nat n - 1) ->
  (0 < hd 0 M \/ 2 <= zlen M) ->
  left_ok (Z.of_nat n) cl M l -> right_ok (Z.of_nat n) cr M r ->
  env_ok n S M cl cr (dedupe (map (point S) (lay cl l M cr r))).
Proof.
  intros HS Hne HM HrM H3 HL HR.
  pose proof (lay_sorted _ _ _ _ _ _ Hne HM HL HR) as Hs.
  destruct (dedupe_points S _ Hs) as (l' & E & I & A1 & A2). rewrite E.
  assert (Hin : forall z i, In (z, i) (lay cl l M cr r) ->
    0 <= i < Z.of_nat n /\ ((In i M /\ z = i) \/
      (z = 2 * cl - i /\ forall m, In m M -> z <= m) \/ (z = 2 * cr - i /\ forall m, In m M -> m <= z))).
  { intros z i Hi. unfold lay in Hi. rewrite !in_app_iff in Hi.
    destruct Hi as [Hi|[Hi|Hi]]; apply in_map_iff in Hi as (x & Ex & Hx); injection Ex as <- <-.
    - split; [apply (dec_rng _ _ (left_dec _ _ _ _ HL)); auto|]. right; left. split; auto.
      intros m Hm. apply (left_le _ _ _ _ HL x m Hx Hm).
    - split; auto. apply HrM in Hx. lia.
    - split; [apply (dec_rng _ _ (right_dec _ _ _ _ HR)); auto|]. right; right. split; auto.
      intros m Hm. apply (right_le _ _ _ _ HR x m Hx Hm). }
  assert (Hfst : map fst (map (point S) l') = map Qc_ofZ (map fst l')) by (rewrite !map_map; reflexivity).
  destruct HL as [D1 L1 (xl & Hxl & Cl)]. destruct HR as [D2 L2 (xr & Hxr & Cr)].
  assert (B1 : exists i, In (2 * cl - xl, i) l').
  { apply (A2 (2 * cl - xl, xl)). unfold lay. apply in_or_app. left. apply in_map_iff. eauto. }
  assert (B2 : exists i, In (2 * cr - xr, i) l').
  { apply (A2 (2 * cr - xr, xr)). unfold lay. rewrite !in_app_iff. right; right. apply in_map_iff. eauto. }
  assert (BM : forall i, In i M -> In (i, i) l').
  { intros i Hi. destruct (A2 (i, i)) as (j & Hj).
    - unfold lay. rewrite !in_app_iff. right; left. apply in_map_iff. eauto.
    - simpl in Hj. pose proof (A1 _ Hj) as Hj'. unfold lay in Hj'. rewrite !in_app_iff in Hj'.
      destruct Hj' as [Hj'|[Hj'|Hj']]; apply in_map_iff in Hj' as (x & Ex & Hx); injection Ex as E1 E2.
      + destruct (L1 x i Hx Hi) as [_ G]. rewrite <- E2 in Hj. rewrite (G E1) in Hj. auto.
      + congruence.
      + destruct (L2 x i Hx Hi) as [_ G]. rewrite <- E2 in Hj. rewrite (G E1) in Hj. auto. }
  destruct B1 as (i1 & B1). destruct B2 as (i2 & B2).
  assert (Nl : forall a b c, a < b < c -> In a (map fst l') -> In b (map fst l') -> In c (map fst l') -> 3 <= zlen l').
  { intros a b c Hab Ha Hb Hc. unfold zlen. rewrite <- (map_length fst).
    assert (incl [a; b; c] (map fst l')) by (intros x [<-|[<-|[<-|[]]]]; auto).
    assert (NoDup [a; b; c]) by (repeat constructor; simpl; lia).
    apply NoDup_incl_length in H; auto. simpl in H. lia. }
  assert (F : forall z i, In (z, i) l' -> In z (map fst l')).
  { intros z i Hz. apply in_map_iff. exists (z, i). auto. }
  assert (Hl' : l' <> []) by (intros ->; destruct B1).
  assert (Hne' : map fst l' <> []) by (destruct l'; simpl; congruence).
  split.
  - rewrite Hfst. apply increasing_of_Z. auto.
  - rewrite zlen_map. pose proof (hd_In M Hne) as HhM. pose proof (HrM _ HhM).
    destruct H3 as [H3|H3].
    + apply (Nl (2 * cl - xl) (hd 0 M) (2 * cr - xr)); eauto. lia.
    + destruct M as [|m0 [|m1 M']]; [congruence|unfold zlen in H3; simpl in H3; lia|].
      destruct HM as [HM1 HM2]. specialize (HM1 m1 (or_introl eq_refl)).
      pose proof (HrM m1 ltac:(simpl; auto)).
      apply (Nl m0 m1 (2 * cr - xr)); [lia| | |eapply F; eauto]; (eapply F; apply BM; simpl; auto).
  - intros i Hi. apply in_map_iff. exists (i, i). split; auto.
  - destruct l' as [|p l'']; [congruence|]. exists (point S p). split; auto. simpl.
    apply Qc_ofZ_le. pose proof (zincreasing_head _ _ I (F _ _ B1)) as Hh. cbn [map hd] in Hh. lia.
  - destruct l' as [|p l''] using rev_ind; [congruence|]. clear IHl''.
    exists (point S p). rewrite map_app, app_length. cbn [map length].
    rewrite nth_error_app2 by lia. replace (_ - 1 - _)%nat with O by lia. split; [reflexivity|].
    simpl. apply Qc_ofZ_le. pose proof (zincreasing_last _ _ I (F _ _ B2)) as Hh.
    rewrite map_app in Hh. cbn [map] in Hh. rewrite last_last in Hh. lia.
  - intros p Hp. apply in_map_iff in Hp as ((z & i) & <- & Hz). apply A1 in Hz.
    destruct (Hin z i Hz) as (G1 & G2). exists i. split; auto. split; [reflexivity|].
    cbn [point fst]. destruct G2 as [[G2 ->]|[[-> G2]|[-> G2]]]; auto; right; [left|right];
    (split; [reflexivity|]); intros m Hm; rewrite Qc_ofZ_le; auto.
Qed.

(** ** [prepare_points] in 'simple' mode *)
Lemma prepare_simple_ok n S e M m nb :
  length S = n -> 1 <= nb ->
  max_pos e = map Qc_ofZ M -> min_pos e = map Qc_ofZ m ->
  zincreasing M -> zincreasing m ->
  (forall x, In x M -> 0 <= x < Z.of_nat n - 1) -> (forall x, In x m -> 0 <= x < Z.of_nat n - 1) ->
  (forall x, In x M -> In x m -> False) ->
  (forall i j, In i M -> In j M -> i < j -> exists k, In k m /\ i < k < j) ->
  (forall i j, In i m -> In j m -> i < j -> exists k, In k M /\ i < k < j) ->
  2 < zlen M + zlen m ->
  exists P Q cl cr, prepare_points Simple nb (tz n) S e = Ok (P, Q) /\
    env_ok n S M cl cr P /\ env_ok n S m cl cr Q /\
    (cl = 0 \/ In cl M \/ In cl m) /\ (cr = Z.of_nat n - 1 \/ In cr M \/ In cr m).
Proof.
  intros HS Hnb EM Em HM Hm HrM Hrm Hd A1 A2 H3.
  pose proof (interleave_count M m HM Hm A1) as C1. pose proof (interleave_count m M Hm HM A2) as C2.
  assert (HnM : M <> []) by (intros ->; unfold zlen in H3; simpl in *; lia).
  assert (Hnm : m <> []) by (intros ->; unfold zlen in H3; simpl in *; lia).
  destruct (left_side n S M m nb HS HnM Hnm HM Hm HrM Hrm Hd Hnb) as
    (lmax0 & lmin0 & c0 & cl & lmax & lmin & E1 & E2 & L1 & L2 & Hcl).
  destruct (right_side n S M m nb HS HnM Hnm HM Hm HrM Hrm Hd Hnb) as
    (rmax0 & rmin0 & c1 & cr & rmax & rmin & E3 & E4 & R1 & R2 & Hcr).
  unfold prepare_points, prepare_points_simple. cbn zeta.
  rewrite EM, Em, !map_map. cbn [ntrunc QcNum].
  assert (Et : forall l, map (fun x => Qc_trunc (Qc_ofZ x)) l = l).
  { intros l. rewrite <- (map_id l) at 2. apply map_ext. intros. apply Qc_trunc_ofZ. }
  rewrite !Et, E1. cbn [bind]. rewrite E3. cbn [bind]. rewrite E2. cbn [bind]. rewrite E4. cbn [bind].
  assert (Dn : forall c M l, left_ok (Z.of_nat n) c M l -> forall i, In i l -> 0 <= i < Z.of_nat n)
    by (intros c M' l Hl; apply (dec_rng _ _ (left_dec _ _ _ _ Hl))).
  assert (Dr : forall c M l, right_ok (Z.of_nat n) c M l -> forall i, In i l -> 0 <= i < Z.of_nat n)
    by (intros c M' l Hl; apply (dec_rng _ _ (right_dec _ _ _ _ Hl))).
  rewrite !assemble_lay; eauto;
    try (intros i Hi; apply HrM in Hi; lia); try (intros i Hi; apply Hrm in Hi; lia). cbn [bind].
  exists (dedupe (map (point S) (lay cl lmax M cr rmax))), (dedupe (map (point S) (lay cl lmin m cr rmin))), cl, cr.
  split; auto.
  pose proof (hd_In M HnM) as G1. pose proof (hd_In m Hnm) as G2.
  pose proof (HrM _ G1). pose proof (Hrm _ G2).
  split; [|split; [|auto]].
  - apply envelope_ok; auto. destruct (Z.eq_dec (hd 0 M) 0) as [E0|]; [right|left; lia].
    (* M starts at 0: the minima come after it *)
    destruct (Z_lt_dec (zlen M) 2); [exfalso|lia].
    assert (zlen m >= 2) by lia.
    destruct m as [|a [|b m']]; [congruence|unfold zlen in *; simpl in *; lia|].
    destruct (A2 a b) as (k & Hk & Hab); simpl; auto. { destruct Hm as [Hm _]. apply Hm; simpl; auto. }
    destruct M as [|x [|y M']]; [congruence| |unfold zlen in *; simpl in *; lia].
    destruct Hk as [<-|[]]. simpl in E0. pose proof (Hrm a (or_introl eq_refl)). lia.
  - apply envelope_ok; auto. destruct (Z.eq_dec (hd 0 m) 0) as [E0|]; [right|left; lia].
    destruct (Z_lt_dec (zlen m) 2); [exfalso|lia].
    assert (zlen M >= 2) by lia.
    destruct M as [|a [|b M']]; [congruence|unfold zlen in *; simpl in *; lia|].
    destruct (A1 a b) as (k & Hk & Hab); simpl; auto. { destruct HM as [HM _]. apply HM; simpl; auto. }
    destruct m as [|x [|y m']]; [congruence| |unfold zlen in *; simpl in *; lia].
    destruct Hk as [<-|[]]. simpl in E0. pose proof (HrM a (or_introl eq_refl)). lia.
Qed.

Lemma map_sample_tz n M : (forall x, In x M -> 0 <= x < Z.of_nat n) -> map (sample (tz n)) M = map Qc_ofZ M.
Proof. intros. apply map_ext_in. intros. apply sample_tz. auto. Qed.

Lemma detect_prepare S nb : 1 <= nb ->
  exists e M m, find_extrema Simple (tz (length S)) S = Ok e /\
    max_pos e = map Qc_ofZ M /\ min_pos e = map Qc_ofZ m /\
    (forall x, In x M <-> rep S 1 x) /\ (forall x, In x m <-> rep S (-1) x) /\
    (2 < zlen M + zlen m ->
     exists P Q cl cr, prepare_points Simple nb (tz (length S)) S e = Ok (P, Q) /\
       env_ok (length S) S M cl cr P /\ env_ok (length S) S m cl cr Q /\
       (cl = 0 \/ In cl M \/ In cl m) /\ (cr = Z.of_nat (length S) - 1 \/ In cr M \/ In cr m)).
Proof.
  intros Hnb. destruct (find_extrema_simple_spec (tz (length S)) S (tz_length _)) as
    (e & M & m & E & E1 & E2 & E3 & E4 & _ & I1 & I2 & R1 & R2).
  assert (HrM : forall x, In x M -> 0 <= x < Z.of_nat (length S) - 1).
  { intros x Hx. apply R1, rep_range in Hx. unfold zlen in Hx. lia. }
  assert (Hrm : forall x, In x m -> 0 <= x < Z.of_nat (length S) - 1).
  { intros x Hx. apply R2, rep_range in Hx. unfold zlen in Hx. lia. }
  assert (EM : max_pos e = map Qc_ofZ M) by (rewrite E1; apply map_sample_tz; intros x Hx; apply HrM in Hx; lia).
  assert (Em : min_pos e = map Qc_ofZ m) by (rewrite E3; apply map_sample_tz; intros x Hx; apply Hrm in Hx; lia).
  exists e, M, m. split; [exact E|]. do 4 (split; [assumption|]). intros H3.
  apply prepare_simple_ok; auto.
  - intros x. rewrite R1, R2. intros Ha Hb. exact (rep_disjoint S x Ha Hb).
  - intros i j. rewrite !R1. intros Hi Hj Hij.
    destruct (alternate S 1 i j (or_introl eq_refl) Hi Hj Hij) as (k & Hk & Hb). exists k. rewrite R2. auto.
  - intros i j. rewrite !R2. intros Hi Hj Hij.
    destruct (alternate S (-1) i j (or_intror eq_refl) Hi Hj Hij) as (k & Hk & Hb). exists k. rewrite R1. auto.
Qed.

(** ** Statements in terms of the extrema found *)
Lemma arange_tz n : arange n = tz n.
Proof.
  unfold arange, tz. change 0 with (Z.of_nat 0).
  assert (G : forall k, map (fun k : nat => Q2Qc (inject_Z (Z.of_nat k))) (seq k n) = map Qc_ofZ (zseq (Z.of_nat k) n)).
  { induction n as [|n IH]; intros k; simpl; auto. f_equal. rewrite IH. do 2 f_equal. lia. }
  apply G.
Qed.

Lemma detected S e : find_extrema Simple (tz (length S)) S = Ok e ->
  exists M m, max_pos e = map Qc_ofZ M /\ min_pos e = map Qc_ofZ m /\
    max_val e = map (sample S) M /\ min_val e = map (sample S) m.
Proof.
  intros E. destruct (find_extrema_simple_spec (tz (length S)) S (tz_length _)) as
    (e' & M & m & E' & E1 & E2 & E3 & E4 & _ & I1 & I2 & R1 & R2).
  change (find_extrema Simple (tz (length S)) S) with (find_extrema_simple (tz (length S)) S) in E.
  rewrite E in E'. injection E' as <-. exists M, m. rewrite E1, E3. split; [|split; [|auto]].
  - apply map_sample_tz. intros x Hx. apply R1, rep_range in Hx. unfold zlen in Hx. lia.
  - apply map_sample_tz. intros x Hx. apply R2, rep_range in Hx. unfold zlen in Hx. lia.
Qed.

Lemma map_ofZ_inj a b : map Qc_ofZ a = map Qc_ofZ b -> a = b.
Proof.
  revert b. induction a as [|x a IH]; destruct b as [|y b]; cbn [map]; intros E; try discriminate; auto.
  pose proof (f_equal (hd 0%Qc) E) as E1. pose proof (f_equal (@tl _) E) as E2. cbn [hd tl] in *.
  f_equal; auto. apply Qc_ofZ_inj. auto.
Qed.

Lemma mirroring_covers S nb e : 1 <= nb ->
  find_extrema Simple (arange (length S)) S = Ok e ->
  2 < zlen (max_pos e) + zlen (min_pos e) ->
  exists P Q, prepare_points Simple nb (arange (length S)) S e = Ok (P, Q) /\
    covers (sample (arange (length S)) 0) (sample (arange (length S)) (zlen S - 1))
           (combine (max_pos e) (max_val e)) P /\
    covers (sample (arange (length S)) 0) (sample (arange (length S)) (zlen S - 1))
           (combine (min_pos e) (min_val e)) Q.
Proof.
  rewrite arange_tz. intros Hnb E H3.
  destruct (detect_prepare S nb Hnb) as (e' & M & m & E' & E1 & E2 & _ & _ & HP).
  rewrite E in E'. injection E' as <-. rewrite E1, E2, !zlen_map in H3.
  destruct (detected S e E) as (M' & m' & F1 & F2 & F3 & F4).
  assert (M' = M) by (apply map_ofZ_inj; congruence). assert (m' = m) by (apply map_ofZ_inj; congruence). subst M' m'.
  destruct (HP H3) as (P & Q & cl & cr & EP & O1 & O2 & _). exists P, Q. split; auto.
  rewrite F1, F2, F3, F4, !combine_map2.
  assert (Hn : 0 < Z.of_nat (length S)).
  { destruct O1 as [_ _ _ _ _ Ha]. destruct (env_first _ _ _ _ _ _ O2) as (p & Hp & _).
    apply nth_error_In in Hp. destruct (env_all _ _ _ _ _ _ O2 p Hp) as (i & Hi & _). lia. }
  rewrite !sample_tz by (unfold zlen; lia).
  assert (G : forall M P, env_ok (length S) S M cl cr P ->
     covers (Qc_ofZ 0) (Qc_ofZ (zlen S - 1)) (map (fun x => (Qc_ofZ x, sample S x)) M) P).
  { clear -S. intros M P [A1 A2 A3 A4 A5 _]. split; auto. split; [unfold zlen in A2; lia|]. split; auto.
    intros p Hp. apply in_map_iff in Hp as (x & <- & Hx). auto. }
  split; apply G; auto.
Qed.

Lemma mirroring_reflects S nb e P Q : 1 <= nb ->
  find_extrema Simple (arange (length S)) S = Ok e ->
  2 < zlen (max_pos e) + zlen (min_pos e) ->
  prepare_points Simple nb (arange (length S)) S e = Ok (P, Q) ->
  exists cl cr,
    (cl = Qc_ofZ 0 \/ In cl (max_pos e) \/ In cl (min_pos e)) /\
    (cr = Qc_ofZ (zlen S - 1) \/ In cr (max_pos e) \/ In cr (min_pos e)) /\
    reflected S cl cr (max_pos e) P /\ reflected S cl cr (min_pos e) Q.
Proof.
  rewrite arange_tz. intros Hnb E H3 EP.
  destruct (detect_prepare S nb Hnb) as (e' & M & m & E' & E1 & E2 & _ & _ & HP).
  rewrite E in E'. injection E' as <-. rewrite E1, E2, !zlen_map in H3.
  destruct (HP H3) as (P' & Q' & cl & cr & EP' & O1 & O2 & C1 & C2). rewrite EP in EP'. injection EP' as <- <-.
  exists (Qc_ofZ cl), (Qc_ofZ cr). rewrite E1, E2. split; [|split].
  - destruct C1 as [->|[C1|C1]]; auto; right; [left|right]; apply in_map; auto.
  - destruct C2 as [->|[C2|C2]]; auto; right; [left|right]; apply in_map; auto.
  - assert (G : forall M P, env_ok (length S) S M cl cr P -> reflected S (Qc_ofZ cl) (Qc_ofZ cr) (map Qc_ofZ M) P).
    { clear. intros M P HO p Hp. destruct (env_all _ _ _ _ _ _ HO p Hp) as (i & Hi & Hs & Hc).
      assert (R : forall c, (Qc_ofZ (2 * c - i) + Qc_ofZ i = Qc_ofZ c + Qc_ofZ c)%Qc).
      { intros c. rewrite <- !Qc_ofZ_add. f_equal. lia. }
      exists i. split; auto. split; auto. fold (Qc_ofZ i). destruct Hc as [[Hc ->]|[[-> Hc]|[-> Hc]]].
      - left. split; auto. apply in_map; auto.
      - right; left. split; [|apply R]. intros o Ho. apply in_map_iff in Ho as (x & <- & Hx). auto.
      - right; right. split; [|apply R]. intros o Ho. apply in_map_iff in Ho as (x & <- & Hx). auto. }
    split; apply G; auto.
Qed.
