(** * FaintProofs: ensembles with little noise stay near the decomposition of the signal itself. *)
From Verif Require Import PyFacts QcFacts Emd Eemd Spec EemdSpec Demo EmdProofs EmdExact EemdProofs EemdExact Kinds KindsRange.
From Verif Require Import NearSpec NearProofs FaintSpec.
From Coq Require Import ZifyBool ZifyNat QArith Qcanon List Lia.
Open Scope Z_scope.

Section Noise.
Context {G : Type}.
Variable gen : generator Qc G.

Lemma stream_draws kind scale n vs : forall g last, noise_stream gen kind scale n g vs last ->
  forall v, In v vs -> exists g g', draws gen kind scale n g v g'.
Proof.
  induction vs as [|u vs IH]; intros g lst HS v Hv; [destruct Hv|].
  destruct HS as (g' & HD & HS). destruct Hv as [<-|Hv]; eauto.
Qed.

Lemma confined_faint scale n e : confined gen -> (0 <= scale)%Qc -> (scale <= e + e)%Qc -> faint gen Uniform scale n e.
Proof.
  intros HC H0 He g v g' (lo & hi & Hlo & Hhi & HU) x Hx.
  assert (L : (lo <= hi)%Qc) by qclra.
  specialize (HC g lo hi n x L). rewrite HU in HC. specialize (HC Hx). destruct HC. split; qclra.
Qed.

Lemma noise_each D c (o o' : eemd_state Qc G D) S w noises i : (parallel c = true -> 1 <= processes c) -> 0 < trials c ->
  noise_of gen c o o' S w noises -> (i < length noises)%nat ->
  exists g g', draws gen (noise_kind c) (noise_width c * w)%Qc (length S) g (nth i noises []) g'.
Proof.
  intros HP HT HN Hi. unfold noise_of in HN. destruct (parallel c).
  - destruct HN as (_ & base & lst & HS & HL & HE). rewrite (HE i Hi).
    apply (stream_draws _ _ _ base (random o) lst HS). apply nth_In. rewrite HL.
    pose proof (chunksize_pos (trials c) (processes c) (HP eq_refl) HT) as C. set (k := Z.to_nat _) in *.
    pose proof (Nat.mod_upper_bound i k ltac:(lia)). pose proof (Nat.mod_le i k ltac:(lia)). lia.
  - apply (stream_draws _ _ _ noises (random o) (random o') HN). apply nth_In; auto.
Qed.

Lemma eemd_processes D (dec : decomposer Qc D) c o S T k E o' : eemd gen dec c o S T k = (Ok E, o') -> parallel c = true -> 1 <= processes c.
Proof.
  intros He Hp. destruct (eemd_ok _ _ _ _ _ _ _ _ _ He) as (T' & mx & mn & ts & r & _ & _ & _ & _ & _ & _ & _ & _ & _ & _ & _ & HR).
  rewrite Hp in HR. apply HR.
Qed.
End Noise.

(** ** Means of rows near a row *)
Lemma mean_near d n rows u v : length u = n -> (forall r, In r rows -> close d u r) -> is_mean n rows v -> close d u v.
Proof.
  intros Lu HR (N & Lv & HM). split; [congruence|]. intros i. unfold sample. generalize (Z.to_nat i) as k. clear i. intros k.
  assert (Hb : forall r, In r rows -> within d (nth k u 0%Qc) (nth k r 0%Qc)).
  { intros r Hr. destruct (HR r Hr) as [_ H]. specialize (H (Z.of_nat k)). unfold sample in H. rewrite Nat2Z.id in H. exact H. }
  destruct (Nat.lt_ge_cases k n) as [Hk|Hk].
  - specialize (HM k Hk).
    assert (HS : within (Qc_ofZ (zlen rows) * d)%Qc (Qc_ofZ (zlen rows) * nth k u 0)%Qc (total_at rows k)).
    { clear - Hb. induction rows as [|r rows IH]; [split; cbn; vm_compute; intros C; discriminate|].
      assert (E : Qc_ofZ (zlen (r :: rows)) = (Qc_ofZ (zlen rows) + 1)%Qc).
      { unfold zlen. cbn [length]. rewrite Nat2Z.inj_succ. unfold Z.succ. rewrite Qc_ofZ_add. reflexivity. }
      rewrite E. unfold total_at. cbn [map fold_right]. fold (total_at rows k).
      destruct (IH (fun r H => Hb r (or_intror H))) as [A B]. destruct (Hb r (or_introl eq_refl)) as [C D].
      set (q := Qc_ofZ (zlen rows)) in *. set (y := nth k u 0%Qc) in *. set (z := nth k r 0%Qc) in *.
      replace ((q + 1) * d)%Qc with (q * d + d)%Qc by ring. replace ((q + 1) * y)%Qc with (q * y + y)%Qc by ring.
      split; qclra. }
    rewrite <- HM in HS. fold (Qc_ofZ (zlen rows)) in HS. change (Q2Qc (inject_Z (Z.of_nat (length rows)))) with (Qc_ofZ (zlen rows)) in HS.
    assert (P : (0 < Qc_ofZ (zlen rows))%Qc) by (change 0%Qc with (Qc_ofZ 0); apply (proj2 (Qc_ofZ_lt 0 _)); destruct rows; [congruence|unfold zlen; cbn [length]; lia]).
    set (q := Qc_ofZ (zlen rows)) in *. destruct HS as [A B].
    split; apply (Qcmult_lt_0_le_reg_r _ _ q P).
    + replace ((nth k v 0 - d) * q)%Qc with (nth k v 0 * q - q * d)%Qc by ring. replace (nth k u 0 * q)%Qc with (q * nth k u 0)%Qc by ring. exact A.
    + replace ((nth k v 0 + d) * q)%Qc with (nth k v 0 * q + q * d)%Qc by ring. replace (nth k u 0 * q)%Qc with (q * nth k u 0)%Qc by ring. exact B.
  - rewrite (nth_overflow v) by lia. rewrite nth_overflow by lia.
    destruct rows as [|r rows]; [congruence|]. destruct (HR r (or_introl eq_refl)) as [L _].
    specialize (Hb r (or_introl eq_refl)). rewrite !nth_overflow in Hb by lia. exact Hb.
Qed.

Lemma filter_short {B} (f : B -> bool) l : (length (filter f l) <= length l)%nat.
Proof. induction l as [|y l IH]; cbn; auto. destruct (f y); cbn; lia. Qed.
Lemma filter_all {B} (f : B -> bool) l : length (filter f l) = length l -> forall x, In x l -> f x = true.
Proof.
  induction l as [|y l IH]; cbn; intros H x Hx; [destruct Hx|]. destruct (f y) eqn:E.
  - destruct Hx as [<-|Hx]; auto.
  - pose proof (filter_short f l). cbn in H. lia.
Qed.

(** With extrema searched between samples (the default) a time array changes nothing. *)
Lemma simple_no_time spl fuel c (X : list Qc) T k o : extrema_detection c = Simple ->
  emd spl fuel c X T k = Ok o -> emd spl fuel c X None k = Ok o.
Proof.
  intros D. unfold emd, emd_time. rewrite D. destruct T as [t|]; auto.
  destruct (Nat.eqb (length X) (length t)); [auto|discriminate].
Qed.
Lemma out_cases spl fuel c (X : list Qc) T k o : emd spl fuel c X T k = Ok o -> out o = imfs o \/ exists r, out o = imfs o ++ [r].
Proof.
  unfold emd. intros E. apply bind_ok in E as (t & _ & E). destruct (negb _); [discriminate|].
  apply bind_ok in E as ((I & x) & _ & E). injection E as <-. unfold emd_finish. cbn [out imfs].
  destruct (allclose0 _); eauto.
Qed.

Lemma ensemble_near G (gen : generator Qc G) k cfg n m fuel fuel' e c o S T T' mi mi' E o' r j :
  sized gen -> (forall w, spread S w -> faint gen (noise_kind c) (noise_width c * w)%Qc (length S) e) -> (0 <= e)%Qc ->
  0 < trials c -> separate_trends c = false ->
  extrema_detection cfg = Simple -> 1 <= nbsym cfg -> k = Linear \/ k = Slinear -> parse_kind (spline_kind cfg) = Some k ->
  FIXE cfg = Z.of_nat n -> (0 < n)%nat -> FIXE cfg < MAX_ITERATION cfg -> robust_parts cfg n m e S ->
  emd scipy_spl fuel cfg S T mi = Ok r -> eemd gen (emd_decomposer scipy_spl fuel' cfg) c o S T' mi' = (Ok E, o') ->
  (j < m)%nat -> (j < length (imfs r))%nat -> nth (Datatypes.S j) (ensemble_count (all_imfs o')) 0 = trials c ->
  close (part_error n j e) (nth j (imfs r) []) (nth j E []).
Proof.
  intros HG HF He HT Hs D Nb Hk K Fx Hn MX HR Er EE Hj Hji Hcount.
  pose proof (simple_no_time _ _ _ _ _ _ _ D Er) as Er'.
  pose proof (eemd_processes gen _ _ _ _ _ _ _ _ _ EE) as HP.
  destruct (eemd_means gen (emd_decomposer scipy_spl fuel' cfg) HG (emd_shapely _ _ _) c o S T' mi' E o' Hs EE)
    as (T1 & w & noises & rs & Hw & _ & Ln & Lr & HN & Hrun & LE & Lc & HM & _).
  assert (HjE : (Datatypes.S j < length E)%nat).
  { destruct (Nat.lt_ge_cases (Datatypes.S j) (length E)) as [?|C]; auto. rewrite nth_overflow in Hcount by lia. lia. }
  destruct (HM (Datatypes.S j) HjE) as (_ & Hc & _). rewrite Hcount in Hc.
  assert (Hall : forall x, In x rs -> Nat.ltb (Datatypes.S j) (length x) = true).
  { apply filter_all. unfold zlen in Hc. lia. }
  destruct (HM j ltac:(lia)) as (Hmean & _).
  assert (Lj : length (nth j (imfs r) []) = length S).
  { destruct (emd_shape _ _ _ _ _ _ _ Er') as (_ & Sh & _). exact (proj1 (Forall_forall _ _) Sh _ (nth_In _ _ Hji)). }
  eapply mean_near; [exact Lj| |exact Hmean].
  intros row Hrow. unfold column in Hrow. apply in_flat_map in Hrow as (ri & Hri & Hrow).
  destruct (nth_error ri j) as [y|] eqn:Ey; [|destruct Hrow]. destruct Hrow as [<-|[]].
  pose proof (Hall ri Hri) as Hlen. apply Nat.ltb_lt in Hlen.
  apply In_nth_error in Hri as (i & Hi). assert (Hil : (i < length rs)%nat) by (apply nth_error_Some; congruence).
  destruct (Hrun i ri Hi) as (X & d & d' & (Lv & LX & HX) & ER).
  apply emd_decomposer_run in ER as (oi & Eo & ->). apply (simple_no_time _ _ _ _ _ _ _ D) in Eo.
  assert (Hoj : (j < length (imfs oi))%nat /\ y = nth j (imfs oi) []).
  { destruct (out_cases _ _ _ _ _ _ _ Eo) as [Q|(q & Q)]; rewrite Q in Hlen, Ey.
    - split; [lia|]. symmetry. apply nth_error_nth. exact Ey.
    - rewrite app_length in Hlen. cbn [length] in Hlen. split; [lia|]. rewrite nth_error_app1 in Ey by lia. symmetry. apply nth_error_nth. exact Ey. }
  destruct Hoj as [Hoj ->].
  apply (component_near k cfg n m fuel fuel' e S X mi mi' r oi j); auto.
  destruct (noise_each gen _ c o o' S w noises i HP HT HN ltac:(lia)) as (g & g' & Hd).
  specialize (HF w Hw g _ g' Hd). split; [lia|]. intros z. unfold sample. rewrite HX.
  destruct (Nat.lt_ge_cases (Z.to_nat z) (length (nth i noises []))) as [Hz|Hz].
  - destruct (HF (nth (Z.to_nat z) (nth i noises []) 0%Qc) (nth_In _ _ Hz)) as [A B].
    set (q := nth (Z.to_nat z) (nth i noises []) 0%Qc) in *. split; qclra.
  - rewrite (nth_overflow (nth i noises [])) by lia. split; qclra.
Qed.

(** ** As the noise vanishes *)
Lemma separated_mono e e' x : (e' <= e)%Qc -> separated e x -> separated e' x.
Proof. intros H HS i j Hc. destruct (HS i j Hc); [left|right]; qclra. Qed.
Lemma robust_mono c n : forall e e' x, (e' <= e)%Qc -> robust c n e x -> robust c n e' x.
Proof.
  induction n as [|n IH]; cbn [robust]; intros e e' x H HR; auto. destruct HR as [H1 H2].
  split; [eapply separated_mono; eauto|]. intros y Hy. eapply IH; [|apply H2; exact Hy]. qclra.
Qed.
Lemma doubled_mono n : forall e e', (e' <= e)%Qc -> (doubled n e' <= doubled n e)%Qc.
Proof. induction n as [|n IH]; cbn [doubled]; intros e e' H; auto. apply IH. qclra. Qed.
Lemma robust_parts_mono c n m : forall e e' x, (e' <= e)%Qc -> robust_parts c n m e x -> robust_parts c n m e' x.
Proof.
  induction m as [|m IH]; cbn [robust_parts]; intros e e' x H HR; auto. destruct HR as [H1 H2].
  split; [eapply robust_mono; eauto|]. intros l Hl Ll. eapply IH; [|apply H2; eauto]. pose proof (doubled_mono n e e' H). qclra.
Qed.
Lemma close_mono d d' x x' : (d <= d')%Qc -> close d x x' -> close d' x x'.
Proof. intros H [L HC]. split; auto. intros i. destruct (HC i). split; qclra. Qed.

Lemma spread_fun S w w' : spread S w -> spread S w' -> w = w'.
Proof.
  intros (h & l & Ih & Il & B & ->) (h' & l' & Ih' & Il' & B' & ->).
  destruct (B _ Ih'), (B _ Il'), (B' _ Ih), (B' _ Il). apply Qcle_antisym; qclra.
Qed.
Lemma spread_ex S : S <> [] -> exists w, spread S w /\ (0 <= w)%Qc.
Proof.
  intros HS. destruct (np_max_ok S HS) as (mx & Emx). destruct (np_min_ok S HS) as (mn & Emn).
  apply np_max_spec in Emx as [X1 X2]. apply np_min_spec in Emn as [M1 M2].
  exists (mx - mn)%Qc. split; [exists mx, mn; repeat (split; auto)|]. specialize (M2 mx X1). qclra.
Qed.

Lemma ensemble_limit k cfg n m e S j d :
  extrema_detection cfg = Simple -> 1 <= nbsym cfg -> k = Linear \/ k = Slinear -> parse_kind (spline_kind cfg) = Some k ->
  FIXE cfg = Z.of_nat n -> (0 < n)%nat -> FIXE cfg < MAX_ITERATION cfg ->
  S <> [] -> (0 < e)%Qc -> robust_parts cfg n m e S -> (j < m)%nat -> (0 < d)%Qc ->
  exists w0, (0 < w0)%Qc /\
  forall G (gen : generator Qc G) c o T T' fuel fuel' mi mi' E o' r,
  sized gen -> confined gen -> noise_kind c = Uniform -> (0 <= noise_width c)%Qc -> (noise_width c <= w0)%Qc ->
  0 < trials c -> separate_trends c = false ->
  emd scipy_spl fuel cfg S T mi = Ok r -> eemd gen (emd_decomposer scipy_spl fuel' cfg) c o S T' mi' = (Ok E, o') ->
  (j < length (imfs r))%nat -> nth (Datatypes.S j) (ensemble_count (all_imfs o')) 0 = trials c ->
  close d (nth j (imfs r) []) (nth j E []).
Proof.
  intros D Nb Hk K Fx Hn MX HS He HR Hj Hd.
  destruct (spread_ex S HS) as (w & Hw & W0).
  set (q := Qc_ofZ (2 ^ Z.of_nat n * (2 ^ Z.of_nat n + 1) ^ Z.of_nat j)).
  assert (Q0 : (0 < q)%Qc).
  { change 0%Qc with (Qc_ofZ 0). apply Qc_ofZ_lt. assert (0 < 2 ^ Z.of_nat n) by (apply Z.pow_pos_nonneg; lia).
    apply Z.mul_pos_pos; auto. apply Z.pow_pos_nonneg; lia. }
  assert (Hsm : exists e', (0 < e')%Qc /\ (e' <= e)%Qc /\ (q * e' <= d)%Qc).
  { destruct (Qclt_le_dec (q * e)%Qc d) as [L|L]; [exists e; repeat split; [auto|apply Qcle_refl|apply Qclt_le_weak; auto]|].
    exists (d / q)%Qc. assert (Nq : q <> 0%Qc) by (intros C; rewrite C in Q0; exact (Qclt_not_eq _ _ Q0 eq_refl)).
    repeat split.
    - unfold Qcdiv. rewrite <- (Qcmult_0_l (/ q)). apply Qcmult_lt_compat_r; auto. apply Qcinv_pos; auto.
    - replace e with (q * e / q)%Qc by (field; auto). apply Qcdiv_le_compat; auto.
    - replace (q * (d / q))%Qc with d by (field; auto). apply Qcle_refl. }
  destruct Hsm as (e' & E0 & E1 & E2).
  assert (W1 : (0 < w + 1)%Qc) by qclra. assert (Nw : (w + 1 <> 0)%Qc) by (intros C; rewrite C in W1; exact (Qclt_not_eq _ _ W1 eq_refl)).
  exists (e' / (w + 1))%Qc. split.
  { unfold Qcdiv. rewrite <- (Qcmult_0_l (/ (w + 1))). apply Qcmult_lt_compat_r; auto. apply Qcinv_pos; auto. }
  intros G gen c o T T' fuel fuel' mi mi' E o' r HG HC HU N0 N1 HT Hs Er EE Hji Hcount.
  apply (close_mono (part_error n j e')); [rewrite part_error_closed; exact E2|].
  apply (ensemble_near G gen k cfg n m fuel fuel' e' c o S T T' mi mi' E o' r j); auto.
  - intros w' Hw'. rewrite (spread_fun S w' w Hw' Hw), HU.
    assert (A : (noise_width c * w <= e')%Qc).
    { apply Qcle_trans with (e' / (w + 1) * w)%Qc; [apply Qcmult_le_compat_r; auto|].
      replace (e' / (w + 1) * w)%Qc with (e' * w / (w + 1))%Qc by (field; auto).
      replace e' with (e' * (w + 1) / (w + 1))%Qc at 2 by (field; auto). apply Qcdiv_le_compat; auto.
      replace (e' * (w + 1))%Qc with (e' * w + e')%Qc by ring. set (z := (e' * w)%Qc). qclra. }
    apply confined_faint; auto.
    + rewrite <- (Qcmult_0_l w). apply Qcmult_le_compat_r; auto.
    + qclra.
  - apply Qclt_le_weak; auto.
  - apply (robust_parts_mono cfg n m e e'); auto.
Qed.
