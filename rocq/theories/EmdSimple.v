(** * EmdSimple: EMD in 'simple' mode raises no exception (exact arithmetic). *)
From Verif Require Import PyFacts QcFacts Emd Spec EmdProofs EmdControl EmdExact EmdTop.
From Verif Require Import ExtremaProofs ExtremaSpec PrepareProofs SplineProofs.
From Coq Require Import ZifyBool ZifyNat QArith Qcanon.
Open Scope Z_scope.

(** An interpolation routine that succeeds on at least three strictly increasing knots when
    evaluated between the first and the last knot, with one value per instant. *)
Definition interpolates (spl : spline_oracle Qc) : Prop :=
  forall k pts t, increasing (map fst pts) -> 3 <= zlen pts ->
  (forall u, In u t -> exists p q, nth_error pts 0 = Some p /\ nth_error pts (length pts - 1) = Some q /\
                       (fst p <= u)%Qc /\ (u <= fst q)%Qc) ->
  exists v, spl k pts t = Ok v /\ length v = length t.

Lemma filter_all {X} (P : X -> bool) l : (forall x, In x l -> P x = true) -> filter P l = l.
Proof. induction l as [|x l IH]; simpl; auto. intros Hl. rewrite Hl by auto. f_equal. auto. Qed.

Lemma In_tz n u : In u (tz n) -> exists i, 0 <= i < Z.of_nat n /\ u = Qc_ofZ i.
Proof.
  unfold tz. intros Hu. apply in_map_iff in Hu as (i & <- & Hi). exists i. split; auto.
  apply (In_nth _ _ 0) in Hi as (k & Hk & <-). rewrite zseq_length in Hk. rewrite zseq_nth by auto. lia.
Qed.

Section Simple.
Variable spl : spline_oracle Qc.
Hypothesis Hspl : interpolates spl.
Variable c : emd_config Qc.
Hypothesis Hdet : extrema_detection c = Simple.
Hypothesis Hnb : 1 <= nbsym c.
Hypothesis Hkind : parse_kind (spline_kind c) <> None.

Lemma window_all n S M cl cr P : env_ok n S M cl cr P -> time_window (tz n) P = Ok (tz n).
Proof.
  intros [_ H3 _ (p & Ep & Lp) (q & Eq & Lq) _]. unfold time_window.
  rewrite (py_get_nonneg P 0 p) by lia. rewrite (py_get_neg P (-1) q) by lia. cbn [bind].
  change (Z.to_nat 0) with O. rewrite (nth_error_nth P 0 p Ep).
  replace (Z.to_nat (-1 + zlen P)) with (length P - 1)%nat by (unfold zlen; lia).
  rewrite (nth_error_nth P _ q Eq). f_equal. apply filter_all. intros u Hu.
  apply In_tz in Hu as (i & Hi & ->). num_qc. apply andb_true_intro. split; apply Qc_leb_le.
  - eapply Qcle_trans; eauto. rewrite Qc_ofZ_le. lia.
  - eapply Qcle_trans; eauto. rewrite Qc_ofZ_le. lia.
Qed.

Lemma spline_ok n S M cl cr P : env_ok n S M cl cr P ->
  exists v, spline_points spl (spline_kind c) (tz n) P = Ok v /\ length v = n.
Proof.
  intros HE. pose proof (window_all _ _ _ _ _ _ HE) as HW.
  destruct HE as [HI H3 _ (p & Ep & Lp) (q & Eq & Lq) _].
  assert (Hgo : forall k, exists v, spl k P (tz n) = Ok v /\ length v = n).
  { intros k. destruct (Hspl k P (tz n) HI H3) as (v & Ev & Lv).
    - intros u Hu. exists p, q. split; auto. split; auto. apply In_tz in Hu as (i & Hi & ->).
      split; eapply Qcle_trans; eauto; rewrite Qc_ofZ_le; lia.
    - exists v. rewrite tz_length in Lv. auto. }
  unfold spline_points. rewrite HW. cbn [bind].
  destruct (parse_kind (spline_kind c)) as [k|]; [|congruence].
  destruct k; auto. destruct (Z.ltb_spec 3 (zlen P)) as [H4|H4]; auto.
  destruct P as [|[x0 y0] [|[x1 y1] [|[x2 y2] [|? P]]]]; unfold zlen in *; cbn [length] in *; try lia.
  assert (G1 : (x0 < x1)%Qc) by (apply (HI 0%nat); simpl; lia).
  assert (G2 : (x1 < x2)%Qc) by (apply (HI 1%nat); simpl; lia).
  destruct (cubic3_length x0 y0 x1 y1 x2 y2 (tz n) G1 G2) as (t & v & E & Et & Lv). rewrite E. cbn [bind].
  exists v. split; auto. rewrite Lv, Et, filter_all; [apply tz_length|].
  intros u Hu. apply In_tz in Hu as (i & Hi & ->). injection Ep as <-. injection Eq as <-. cbn [fst] in *.
  apply andb_true_intro. split; apply Qc_leb_le; eapply Qcle_trans; eauto; rewrite Qc_ofZ_le; lia.
Qed.

Lemma find_ok S : exists e, find_extrema (extrema_detection c) (tz (length S)) S = Ok e.
Proof. rewrite Hdet. destruct (detect_prepare S 1 ltac:(lia)) as (e & M & m & E & _). eauto. Qed.

Lemma sift_step_ok S e : find_extrema (extrema_detection c) (tz (length S)) S = Ok e -> 2 < ext_no e ->
  exists y eM em, sift_step spl c (tz (length S)) S = Ok (y, eM, em) /\ length y = length S.
Proof.
  intros Ee He. unfold sift_step, extract_max_min_spline. rewrite Ee. cbn [bind]. unfold ext_no in He.
  destruct (Z.ltb_spec (zlen (max_pos e) + zlen (min_pos e)) 3) as [|_]; [lia|].
  rewrite Hdet in *.
  destruct (detect_prepare S (nbsym c) Hnb) as (e' & M & m & E & E1 & E2 & _ & _ & HP).
  rewrite E in Ee. injection Ee as ->. rewrite E1, E2, !zlen_map in He.
  destruct (HP He) as (P & Q & cl & cr & EP & O1 & O2 & _). rewrite EP. cbn [bind].
  destruct (spline_ok _ _ _ _ _ _ O1) as (v & Ev & Lv). destruct (spline_ok _ _ _ _ _ _ O2) as (w & Ew & Lw).
  rewrite Ev. cbn [bind]. rewrite Ew. cbn [bind].
  rewrite broadcast2_eq by congruence. cbn [bind].
  assert (L : length (map (nmul nhalf) (map2 nadd v w)) = length S)
    by (rewrite map_length, map2_length_eq; congruence).
  rewrite assign_all_eq by auto. cbn [bind].
  eexists _, _, _. split; [reflexivity|]. apply vsub_length. auto.
Qed.

(** Only the model's fuel can end the sifting loop abnormally. *)
Definition fine {X} (r : res X) : Prop := match r with Ok _ => True | Raise e => e = OutOfFuel end.
Lemma fine_bind {X Y} (r : res X) (f : X -> res Y) :
  fine r -> (forall x, r = Ok x -> fine (f x)) -> fine (bind r f).
Proof. destruct r; simpl; auto. Qed.

Lemma check_ok x y eM em : y <> [] -> fine (check_imf c x y eM em).
Proof.
  intros Hy. unfold check_imf. destruct (_ || _); [exact I|]. destruct (nltb _ _); [exact I|]. cbv zeta.
  destruct (np_max_ok y Hy) as (a & ->). destruct (np_min_ok y Hy) as (b & ->). cbn [bind].
  repeat (destruct (_ && _); [exact I|]). exact I.
Qed.

Lemma sift_ok fuel n nh ext x : x <> [] -> fine (sift spl fuel c (tz (length x)) n nh ext x).
Proof.
  revert n nh ext x. induction fuel as [|fuel IH]; intros n nh ext x Hx; [reflexivity|].
  cbn [sift]. destruct (_ <=? _); [exact I|].
  destruct (find_ok x) as (e & Ee). rewrite Ee. cbn [bind].
  destruct (Z.ltb_spec 2 (ext_no e)) as [He|He]; [|exact I].
  destruct (sift_step_ok x e Ee He) as (y & eM & em & Es & Ly). rewrite Es. cbn [bind].
  assert (Hy : y <> []) by (intros ->; destruct x; [congruence|discriminate]).
  rewrite <- Ly in *. destruct (find_ok y) as (e' & Ee').
  destruct (negb (FIXE c =? 0)); [destruct (_ <=? _); [exact I|apply IH; auto]|].
  destruct (negb (FIXE_H c =? 0)).
  - rewrite Ee'. cbn [bind]. destruct (_ =? 1); [apply IH; auto|].
    destruct (FIXE_H c <=? _); [exact I|apply IH; auto].
  - rewrite Ee'. cbn [bind]. apply fine_bind; [apply check_ok; auto|]. intros f1 _.
    destruct (_ && _); [exact I|apply IH; auto].
Qed.

Lemma loop_ok fuel S k IMF ext : S <> [] -> shaped (length S) IMF ->
  fine (emd_loop spl fuel c S (tz (length S)) k IMF ext).
Proof.
  intros HS. revert IMF ext. induction fuel as [|fuel IH]; intros IMF ext HI; [reflexivity|].
  cbn [emd_loop].
  assert (HL : length (vsub S (sum_rows (length S) IMF)) = length S).
  { apply vsub_length. symmetry. apply sum_rows_length. apply Forall_forall. assumption. }
  assert (Hne : vsub S (sum_rows (length S) IMF) <> []) by (intros E; rewrite E in HL; destruct S; [congruence|discriminate]).
  apply fine_bind.
  { rewrite <- HL at 1. apply sift_ok. auto. }
  intros [[imf e1] fin] Es. apply sift_length in Es. rewrite HL in Es.
  assert (HI' : shaped (length S) (IMF ++ [imf])) by (apply Forall_app; split; auto).
  assert (HL' : length (vsub S (sum_rows (length S) (IMF ++ [imf]))) = length S).
  { apply vsub_length. symmetry. apply sum_rows_length. apply Forall_forall. assumption. }
  assert (Hne' : vsub S (sum_rows (length S) (IMF ++ [imf])) <> [])
    by (intros E; rewrite E in HL'; destruct S; [congruence|discriminate]).
  apply fine_bind.
  { unfold end_condition. cbv zeta. destruct (np_max_ok _ Hne') as (a & ->). destruct (np_min_ok _ Hne') as (b & ->).
    cbn [bind]. destruct (nltb _ _); [exact I|]. destruct (nltb _ _); exact I. }
  intros stop _. destruct (_ || _); [exact I|]. destruct fin; [exact I|]. apply IH. auto.
Qed.

Lemma timeline_normal n : (2 <= n)%nat -> normalize_time (tz n) = Ok (tz n).
Proof.
  intros Hn. unfold normalize_time. cbv zeta.
  assert (D : forall d, In d (ndiff (tz n)) -> d = 1%Qc).
  { intros d Hd. apply (In_nth _ _ 0%Qc) in Hd as (i & Hi & <-). rewrite ndiff_length, tz_length in Hi.
    rewrite nth_ndiff by (rewrite tz_length; lia).
    pose proof (sample_tz n (Z.of_nat i) ltac:(lia)) as E1.
    pose proof (sample_tz n (Z.of_nat i + 1) ltac:(lia)) as E2. unfold sample in *.
    rewrite Nat2Z.id in E1. replace (Z.to_nat (Z.of_nat i + 1)) with (Datatypes.S i) in E2 by lia.
    rewrite E1, E2, Qc_ofZ_add. change (Qc_ofZ 1) with 1%Qc. ring. }
  destruct (existsb is0 (ndiff (tz n))) eqn:E.
  { apply existsb_exists in E as (d & Hd & E). apply D in Hd. subst. discriminate. }
  rewrite get_tz by lia. cbn [bind].
  destruct (np_min (ndiff (tz n))) as [m|e] eqn:Em.
  - cbn [bind]. apply np_min_spec in Em as [Hm _]. apply D in Hm. subst m. f_equal.
    rewrite <- (map_id (tz n)) at 2. apply map_ext. intros x. num_qc. change (Qc_ofZ 0) with 0%Qc. field.
    discriminate.
  - exfalso. destruct (ndiff (tz n)) eqn:Ed; [|discriminate].
    apply (f_equal (@length _)) in Ed. rewrite ndiff_length, tz_length in Ed. simpl in Ed. lia.
Qed.

Lemma simple_time S T : (2 <= length S)%nat -> (forall t, T = Some t -> length t = length S) ->
  emd_time c S T = Ok (tz (length S)).
Proof.
  intros HS HT. unfold emd_time.
  assert (E : timeline (length S) = Ok (tz (length S))) by (destruct (length S); [lia|reflexivity]).
  destruct T as [t|].
  - rewrite (HT t eq_refl), Nat.eqb_refl. cbn [bind]. rewrite Hdet, E. cbn [bind]. apply timeline_normal; auto.
  - cbn [bind]. rewrite E. cbn [bind]. apply timeline_normal; auto.
Qed.

Lemma emd_simple_fine fuel S T k : (2 <= length S)%nat -> (forall t, T = Some t -> length t = length S) ->
  fine (emd spl fuel c S T k).
Proof.
  intros HS HT. unfold emd. rewrite simple_time by auto. cbn [bind].
  rewrite tz_length, Nat.eqb_refl. cbn [negb].
  apply fine_bind.
  - apply loop_ok; [destruct S; [simpl in HS; lia|congruence]|constructor].
  - intros [IMF e] _. exact I.
Qed.

Lemma emd_simple_no_exception fuel S T k e :
  (2 <= length S)%nat -> (forall t, T = Some t -> length t = length S) ->
  emd spl fuel c S T k = Raise e -> e = OutOfFuel.
Proof. intros HS HT E. pose proof (emd_simple_fine fuel S T k HS HT) as HF. rewrite E in HF. exact HF. Qed.

Lemma emd_simple_returns fuel S T k :
  (forall kind pts t, spl kind pts t <> Raise OutOfFuel) ->
  (2 <= length S)%nat -> (forall t, T = Some t -> length t = length S) ->
  0 < k -> (Z.to_nat k <= fuel)%nat -> exists o, emd spl fuel c S T k = Ok o.
Proof.
  intros Hs HS HT Hk Hf. pose proof (emd_simple_fine fuel S T k HS HT) as HF.
  pose proof (emd_total spl Hs fuel c S T k Hk Hf) as HN.
  destruct (emd spl fuel c S T k) as [o|e]; eauto. simpl in HF. subst. exfalso. apply HN. reflexivity.
Qed.
End Simple.
