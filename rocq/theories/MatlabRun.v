(** * MatlabRun: the decomposition loop of EMD_matlab.py, and its agreement with EMD. *)
From Verif Require Import PyFacts QcFacts Emd Matlab Spec MatlabSpec Runs EmdProofs EmdControl EmdExact EmdStop.
From Verif Require Import ExtremaProofs ExtremaSpec PrepareProofs EmdSimple MatlabProofs.
From Coq Require Import ZifyBool ZifyNat QArith Qcanon.
Open Scope Z_scope.

(** ** Extrema *)
Lemma flat_ends_sgn S : flat_ends S <-> sgn S 0 = 0 /\ sgn S (zlen S - 2) = 0.
Proof.
  unfold flat_ends. rewrite !sgn_zero. change (0 + 1) with 1.
  replace (zlen S - 2 + 1) with (zlen S - 1) by lia. unfold zlen.
  split; intros [H1 H2]; split; auto.
Qed.
Lemma findExtrema_same T S : ~ flat_ends S -> findExtrema T S = find_extrema Simple T S.
Proof.
  intros HF. rewrite flat_ends_sgn in HF. unfold findExtrema, find_extrema, find_extrema_simple.
  destruct S as [|x S]; [reflexivity|]. rewrite idx_same; [reflexivity|discriminate|auto].
Qed.
Lemma extra_iff S i : S <> [] ->
  (exists b, 0 < b <= zlen S - 2 /\ (forall k, 0 <= k < b -> sgn S k = 0) /\ sgn S b = 1 /\ sgn S (zlen S - 2) = 0 /\ i = round_half (b + 0)) <-> extra_min S i.
Proof.
  intros HS. unfold extra_min. fold (zlen S). split.
  - intros (b & H1 & H2 & H3 & H4 & H5). exists b. apply flat_sgn in H2; [|lia]. apply sgn_pos in H3. apply sgn_zero in H4.
    replace (zlen S - 2 + 1) with (zlen S - 1) in H4 by lia. apply mid_iff in H5.
    split; [lia|]. auto.
  - intros (b & H1 & H2 & H3 & H4 & H5). exists b. split; [lia|]. split; [apply flat_sgn; auto; lia|].
    split; [apply sgn_pos; auto|]. split; [|apply mid_iff; auto]. apply sgn_zero.
    replace (zlen S - 2 + 1) with (zlen S - 1) by lia. auto.
Qed.
Lemma findExtrema_spec T S : length T = length S ->
  exists e M m, findExtrema T S = Ok e /\
    max_pos e = map (sample T) M /\ max_val e = map (sample S) M /\
    min_pos e = map (sample T) m /\ min_val e = map (sample S) m /\
    indzer e = zero_crossings S /\ zincreasing M /\ zincreasing m /\
    (forall i, In i M <-> reported_max S i) /\
    (forall i, In i m <-> reported_min S i \/ extra_min S i).
Proof.
  intros HL. destruct S as [|s0 S0].
  { exists (MkExt [] [] [] [] []), [], []. destruct T; [|discriminate]. cbn.
    do 8 (split; [reflexivity || exact I|]). split; intros i; (split; [intros []|]).
    - intros [(a & b & (H1 & H2 & _) & _)|(b & (H1 & _) & _)]; cbn [length] in *; lia.
    - intros [[(a & b & (H1 & H2 & _) & _)|(b & (H1 & _) & _)]|(b & H1 & _)]; cbn [length] in *; lia. }
  assert (HS : s0 :: S0 <> []) by discriminate. set (S := s0 :: S0) in *. clearbody S. clear s0 S0.
  destruct (extrema_idx_spec S) as (M & m & E & I1 & I2 & HM & Hm).
  rewrite (e_idx S HS) in E. match type of E with Ok ?a = Ok ?b => assert (E' : a = b) by congruence end.
  apply pair_equal_spec in E' as [EM Em]. clear E.
  pose proof (m_idx S HS) as Ex.
  match type of Ex with _ = Ok (?a, ?b) => set (Mx := a) in *; set (mx := b) in * end.
  assert (RM : forall i, In i Mx <-> reported_max S i).
  { intros i. rewrite EM, HM. apply rep_max_iff. }
  assert (Rm : forall i, In i mx <-> reported_min S i \/ extra_min S i).
  { intros i. unfold mx. rewrite (idx_minima S HS), extra_iff by auto. rewrite Em, Hm, rep_min_iff. reflexivity. }
  assert (BM : forall i, In i Mx -> 0 <= i < zlen S).
  { intros i Hi. apply RM, rep_max_iff, rep_range in Hi. lia. }
  assert (Bm : forall i, In i mx -> 0 <= i < zlen S).
  { intros i Hi. apply Rm in Hi as [Hi|(b & H1 & _ & _ & _ & H2)]; [apply rep_min_iff, rep_range in Hi; lia|].
    apply mid_iff in H2. rewrite Z.add_comm in H2. pose proof (round_half_bounds 0 b ltac:(lia)). unfold zlen. lia. }
  assert (zlen T = zlen S) by (unfold zlen; lia).
  unfold findExtrema. rewrite Ex. cbn [bind].
  rewrite !take_sample by (intros; rewrite ?H; auto). cbn [bind].
  eexists _, Mx, mx. split; [reflexivity|]. cbn. repeat (split; [reflexivity|]).
  split; [rewrite EM; auto|]. split; [apply idx_increasing; auto|]. split; auto.
Qed.

(** ** Mirrored points and envelopes on the default time axis *)
Lemma lookup_one n i : 0 <= i < Z.of_nat n ->
  nonzero (map (fun u => Qc_eqb u (Qc_ofZ i)) (tz n)) = [i].
Proof.
  intros Hi. apply zincreasing_unique; [apply nonzero_increasing|simpl; tauto|].
  intros x. rewrite nonzero_In, nth_error_map. simpl. split.
  - intros [Hx E]. left. destruct (nth_error (tz n) (Z.to_nat x)) as [u|] eqn:Eu; [|discriminate].
    cbn in E. injection E as E. apply Qc_eqb_eq in E.
    pose proof (nth_error_nth _ _ 0%Qc Eu) as N. change (nth (Z.to_nat x) (tz n) 0%Qc) with (sample (tz n) x) in N.
    assert (Z.to_nat x < n)%nat by (rewrite <- (tz_length n); apply nth_error_Some; congruence).
    rewrite sample_tz in N by lia. rewrite <- N in E. apply Qc_ofZ_inj in E. auto.
  - intros [<-|[]]. split; [lia|]. rewrite (nth_error_nth' (tz n) 0%Qc) by (rewrite tz_length; lia).
    change (nth (Z.to_nat i) (tz n) 0%Qc) with (sample (tz n) i). rewrite sample_tz by lia.
    cbn. f_equal. apply Qc_eqb_eq. reflexivity.
Qed.
Lemma lookup_tz n l : (forall i, In i l -> 0 <= i < Z.of_nat n) -> m_lookup (tz n) (map Qc_ofZ l) = Ok l.
Proof.
  intros Hl. unfold m_lookup. rewrite map_map.
  replace (map (fun x => nonzero (map (fun u => neqb u (Qc_ofZ x)) (tz n))) l) with (map (fun x : Z => [x]) l).
  2:{ apply map_ext_in. intros x Hx. symmetry. apply lookup_one. auto. }
  destruct l as [|x l]; [reflexivity|]. cbn [map].
  replace (forallb _ _) with true.
  - f_equal. cbn. f_equal. clear. induction l; cbn; congruence.
  - symmetry. apply forallb_forall. intros g Hg. change ([x] :: map (fun y => [y]) l) with (map (fun y : Z => [y]) (x :: l)) in Hg.
    apply in_map_iff in Hg as (y & <- & _). reflexivity.
Qed.
Lemma trunc_ofZ l : map ntrunc (map Qc_ofZ l) = l.
Proof. rewrite map_map. rewrite <- (map_id l) at 2. apply map_ext. intros. apply Qc_trunc_ofZ. Qed.
Lemma prepare_same S nb e : find_extrema Simple (tz (length S)) S = Ok e ->
  preparePoints nb (tz (length S)) S e = prepare_points Simple nb (tz (length S)) S e.
Proof.
  intros E. destruct (find_extrema_simple_spec (tz (length S)) S (tz_length _)) as
    (e' & M & m & E' & E1 & E2 & E3 & E4 & _ & I1 & I2 & R1 & R2).
  change (find_extrema Simple (tz (length S)) S) with (find_extrema_simple (tz (length S)) S) in E.
  rewrite E' in E. injection E as ->.
  assert (BM : forall i, In i M -> 0 <= i < Z.of_nat (length S)).
  { intros i Hi. apply R1, rep_range in Hi. unfold zlen in Hi. lia. }
  assert (Bm : forall i, In i m -> 0 <= i < Z.of_nat (length S)).
  { intros i Hi. apply R2, rep_range in Hi. unfold zlen in Hi. lia. }
  rewrite map_sample_tz in E1, E3 by auto.
  unfold preparePoints, prepare_points, prepare_points_simple. rewrite E1, E3, !lookup_tz, !trunc_ofZ by auto.
  reflexivity.
Qed.
Lemma kinds_same spl kind n S M cl cr P : env_ok n S M cl cr P ->
  parse_kind kind <> Some Pchip -> parse_kind kind <> Some CubicHermite ->
  splinePoints spl kind (tz n) P = spline_points spl kind (tz n) P.
Proof.
  intros HE K1 K2. unfold splinePoints, spline_points. rewrite (window_all _ _ _ _ _ _ HE). cbn [bind].
  destruct (parse_kind kind) as [[]|]; congruence.
Qed.
Lemma envelopes_same spl (c : emd_config Qc) mc S :
  ~ flat_ends S -> extrema_detection c = Simple -> m_nbsym mc = nbsym c -> 1 <= nbsym c ->
  m_splineKind mc = spline_kind c ->
  parse_kind (spline_kind c) <> Some Pchip -> parse_kind (spline_kind c) <> Some CubicHermite ->
  extractMaxMinSpline spl mc (tz (length S)) S =
    let! e := find_extrema Simple (tz (length S)) S in
    if ext_no e <? 3 then Ok None
    else let! (up, low, _, _) := extract_max_min_spline spl c (tz (length S)) S in Ok (Some (up, low)).
Proof.
  intros HF HD HN H1 HK K1 K2. unfold extractMaxMinSpline, extract_max_min_spline.
  rewrite findExtrema_same, HD, HN, HK by auto.
  destruct (detect_prepare S (nbsym c) H1) as (e & M & m & E & E1 & E2 & _ & _ & HP). rewrite E. cbn [bind].
  fold (ext_no e). destruct (Z.ltb_spec (ext_no e) 3) as [L|L]; auto.
  destruct HP as (P & Q & cl & cr & EP & P1 & P2 & _).
  { unfold ext_no in L. rewrite E1, E2, !zlen_map in L. lia. }
  rewrite prepare_same by auto. rewrite EP. cbn [bind].
  rewrite (kinds_same _ _ _ _ _ _ _ _ P1) by auto. rewrite (kinds_same _ _ _ _ _ _ _ _ P2) by auto.
  destruct (spline_points _ _ _ P) as [up|]; cbn [bind]; auto.
  destruct (spline_points _ _ _ Q) as [low|]; cbn [bind]; auto.
Qed.

(** ** Shapes, for every arithmetic *)
Lemma broadcast_length {B C D} (f : B -> C -> D) x y z :
  broadcast2 f x y = Ok z -> length x <> 1%nat -> length z = length x.
Proof.
  unfold broadcast2. destruct (Nat.eqb_spec (length x) (length y)) as [L|L].
  - intros E _. injection E as <-. rewrite map2_length, L. apply Nat.min_id.
  - destruct x as [|a [|a' x]]; [|simpl; lia|].
    + destruct y as [|b [|b' y]]; try discriminate. intros E _. injection E as <-. reflexivity.
    + destruct y as [|b [|b' y]]; try discriminate. intros E _. injection E as <-. cbn [length]. rewrite map_length. reflexivity.
Qed.
Section Generic.
Context {A : Type} `{Num A}.
Variable spl : spline_oracle A.
Notation vec := (list A).

Lemma one_sample (T : vec) x e : findExtrema T [x] = Ok e -> ext_no e = 0.
Proof. intros E. injection E as <-. reflexivity. Qed.
Lemma m_sift_length fuel c (T : vec) n n_h ext imf mean imf' n' ext' nf :
  m_sift spl fuel c T n n_h ext imf mean = Ok (imf', n', ext', nf) -> length imf' = length imf.
Proof.
  revert n n_h ext imf mean. induction fuel as [|fuel IH]; intros n n_h ext imf mean E; cbn [m_sift] in E; [discriminate|].
  destruct (m_MAX_ITERATION c <=? n). { injection E as <- <- <- <-. reflexivity. }
  apply bind_ok in E as (e & E1 & E).
  destruct (Z.ltb_spec 2 (ext_no e)) as [L|L]. 2:{ injection E as <- <- <- <-. reflexivity. }
  assert (L1 : length imf <> 1%nat).
  { intros L1. destruct imf as [|x [|? ?]]; try discriminate. apply one_sample in E1. lia. }
  apply bind_ok in E as (imf1 & E2 & E). apply broadcast_length in E2; auto. rewrite <- E2.
  apply bind_ok in E as (env & E3 & E). destruct env as [[up low]|]. 2:{ injection E as <- <- <- <-. reflexivity. }
  apply bind_ok in E as (sum & E4 & E). cbv zeta in E.
  destruct (maxIteration c <? n + 1). { injection E as <- <- <- <-. reflexivity. }
  destruct (negb (m_FIXE c =? 0)).
  { destruct (m_FIXE c + 1 <=? n + 1). { injection E as <- <- <- <-. reflexivity. } eauto. }
  apply bind_ok in E as (e' & E5 & E). destruct (negb (m_FIXE_H c =? 0)).
  { destruct (n + 1 =? 1); [eauto|]. destruct (m_FIXE_H c <=? _). { injection E as <- <- <- <-. reflexivity. } eauto. }
  apply bind_ok in E as (f1 & E6 & E). destruct (f1 && _). { injection E as <- <- <- <-. reflexivity. } eauto.
Qed.
Lemma m_sift_count fuel c (T : vec) n n_h ext imf mean imf' n' ext' nf :
  m_sift spl fuel c T n n_h ext imf mean = Ok (imf', n', ext', nf) ->
  n <= n' /\ (n < m_MAX_ITERATION c -> n' <= m_MAX_ITERATION c) /\ (n <= maxIteration c -> n' <= maxIteration c + 1).
Proof.
  revert n n_h ext imf mean. induction fuel as [|fuel IH]; intros n n_h ext imf mean E; cbn [m_sift] in E; [discriminate|].
  destruct (Z.leb_spec (m_MAX_ITERATION c) n). { injection E as <- <- <- <-. lia. }
  apply bind_ok in E as (e & E1 & E).
  destruct (Z.ltb_spec 2 (ext_no e)) as [L|L]. 2:{ injection E as <- <- <- <-. lia. }
  apply bind_ok in E as (imf1 & E2 & E).
  apply bind_ok in E as (env & E3 & E). destruct env as [[up low]|]. 2:{ injection E as <- <- <- <-. lia. }
  apply bind_ok in E as (sum & E4 & E). cbv zeta in E.
  destruct (Z.ltb_spec (maxIteration c) (n + 1)). { injection E as <- <- <- <-. lia. }
  assert (G : forall nh ext im me, m_sift spl fuel c T (n + 1) nh ext im me = Ok (imf', n', ext', nf) ->
    n <= n' /\ (n < m_MAX_ITERATION c -> n' <= m_MAX_ITERATION c) /\ (n <= maxIteration c -> n' <= maxIteration c + 1)).
  { intros nh ext0 im me G. pose proof G as G'. apply IH in G as (G1 & G2 & G3). split; [lia|]. split; [|lia]. intros _.
    destruct (Z.eq_dec (n + 1) (m_MAX_ITERATION c)); [|lia].
    destruct fuel; [discriminate|]. cbn [m_sift] in G'. replace (m_MAX_ITERATION c <=? n + 1) with true in G' by lia.
    injection G' as <- <- <- <-. lia. }
  destruct (negb (m_FIXE c =? 0)).
  { destruct (m_FIXE c + 1 <=? n + 1). { injection E as <- <- <- <-. lia. } eauto. }
  apply bind_ok in E as (e' & E5 & E). destruct (negb (m_FIXE_H c =? 0)).
  { destruct (n + 1 =? 1); [eauto|]. destruct (m_FIXE_H c <=? _). { injection E as <- <- <- <-. lia. } eauto. }
  apply bind_ok in E as (f1 & E6 & E). destruct (f1 && _). { injection E as <- <- <- <-. lia. } eauto.
Qed.
Lemma m_loop_shape n fuel c (T : vec) k Res imf rows ext rows' ext' :
  length Res = n -> length imf = n -> shaped n (map row_imf rows) ->
  m_loop spl fuel c T k Res imf rows ext = Ok (rows', ext') -> shaped n (map row_imf rows').
Proof.
  revert Res imf rows ext. induction fuel as [|fuel IH]; intros Res imf rows ext L1 L2 HI E; cbn [m_loop] in E; [discriminate|].
  apply bind_ok in E as (R & E1 & E). rewrite broadcast2_eq in E1 by congruence. injection E1 as <-.
  apply bind_ok in E as ([[[imf1 n1] ext1] nf] & E2 & E). apply m_sift_length in E2.
  assert (LR : length (map2 nsub Res imf) = n) by (rewrite map2_length, L1, L2; apply Nat.min_id).
  rewrite LR in E2.
  assert (HI' : shaped n (map row_imf (rows ++ [MkRow imf1 ext1 n1]))).
  { rewrite map_app. apply Forall_app. split; auto. constructor; auto. }
  destruct (_ =? k - 1). { injection E as <- <-. auto. }
  destruct nf. { eapply IH; [| | |exact E]; auto. } injection E as <- <-. auto.
Qed.

(** ** The limit *)
Lemma m_loop_count fuel c (T : vec) k Res imf rows ext rows' ext' :
  2 <= k -> zlen rows < k - 1 ->
  m_loop spl fuel c T k Res imf rows ext = Ok (rows', ext') -> zlen rows' <= k - 1.
Proof.
  intros Hk. revert Res imf rows ext. induction fuel as [|fuel IH]; intros Res imf rows ext HI E; cbn [m_loop] in E; [discriminate|].
  apply bind_ok in E as (R & E1 & E).
  apply bind_ok in E as ([[[imf1 n1] ext1] nf] & E2 & E). cbv zeta in E.
  assert (LR : zlen (rows ++ [MkRow imf1 ext1 n1]) = zlen rows + 1) by (rewrite zlen_app; reflexivity).
  rewrite LR in E. destruct (Z.eqb_spec (zlen rows + 1) (k - 1)). { injection E as <- <-. lia. }
  destruct nf. { eapply IH; [|exact E]. lia. } injection E as <- <-. lia.
Qed.
Lemma m_emd_ok fuel c (S : vec) T k rows no :
  m_emd spl fuel c S T k = Ok (rows, no) ->
  exists rs ext t, length t = length S /\ t = match T with Some t => t | None => map nofZ (zseq 0 (length S)) end /\
    m_loop spl fuel c t (match k with Some k => k | None => -1 end) S (map (fun _ => n0) S) [] 0 = Ok (rs, ext) /\
    no = zlen rows /\
    let R := vsub S (sum_rows (length S) (map row_imf rs)) in
    rows = (if nltb (nlit 1 (10 ^ 10)) (nsum (map nabs R)) then rs ++ [MkRow R ext 0] else rs).
Proof.
  unfold m_emd. set (t := match T with Some t => t | None => _ end).
  destruct (Nat.eqb_spec (length S) (length t)) as [L|L]; [|discriminate]. cbn [negb]. intros E.
  apply bind_ok in E as ([rs ext] & E1 & E). cbv zeta in E. match type of E with Ok ?a = Ok ?b => assert (E0 : a = b) by congruence end. clear E. apply pair_equal_spec in E0 as [<- <-].
  exists rs, ext, t. split; [congruence|]. split; [reflexivity|]. split; [exact E1|].
  split; reflexivity.
Qed.
End Generic.

(** ** Termination *)
Section Total.
Context {A : Type} `{Num A}.
Variable spl : spline_oracle A.
Hypothesis Hspl : forall k p t, ff (spl k p t).
Notation vec := (list A).
Lemma ff_plateaus (d : vec) l : ff (m_plateaus d l).
Proof. induction l as [|[a b] l IH]; cbn [m_plateaus]; ff_auto. apply IH. Qed.
Lemma ff_findExtrema (T S : vec) : ff (findExtrema T S).
Proof. unfold findExtrema, m_extrema_idx. ff_auto. apply ff_plateaus. Qed.
Lemma ff_extract c (T S : vec) : ff (extractMaxMinSpline spl c T S).
Proof.
  unfold extractMaxMinSpline, preparePoints, m_lookup, splinePoints.
  unfold left_bound, right_bound, mirror_left, mirror_right, assemble, mirror, time_window.
  unfold cubic_spline_3pts, spline3_coeffs, solve3.
  ff_auto; try apply Hspl; try apply ff_findExtrema.
Qed.
Lemma ff_stop_sifting c (x y z : vec) e : ff (stop_sifting c x y z e).
Proof. unfold stop_sifting. ff_auto. Qed.
Lemma m_sift_total fuel c (T : vec) n nh ext imf mean :
  (Z.to_nat (m_MAX_ITERATION c - n) < fuel)%nat -> ff (m_sift spl fuel c T n nh ext imf mean).
Proof.
  revert n nh ext imf mean. induction fuel as [|fuel IH]; intros n nh ext imf mean Hf; [lia|].
  cbn [m_sift]. destruct (Z.leb_spec (m_MAX_ITERATION c) n); [apply ff_ok|].
  assert (G : forall nh ext im me, ff (m_sift spl fuel c T (n + 1) nh ext im me)) by (intros; apply IH; lia). clear IH.
  apply ff_bind; [apply ff_findExtrema|]. intros e _. cbv zeta. destruct (2 <? ext_no e); [|apply ff_ok].
  apply ff_bind; [apply ff_broadcast|]. intros im _. apply ff_bind; [apply ff_extract|]. intros [[up low]|] _; [|apply ff_ok].
  apply ff_bind; [apply ff_broadcast|]. intros sum _. cbv zeta. destruct (maxIteration c <? n + 1); [apply ff_ok|].
  destruct (negb (m_FIXE c =? 0)); [destruct (m_FIXE c + 1 <=? n + 1); [apply ff_ok|auto]|].
  apply ff_bind; [apply ff_findExtrema|]. intros e' _. cbv zeta. destruct (negb (m_FIXE_H c =? 0)).
  - destruct (n + 1 =? 1); [auto|]. destruct (m_FIXE_H c <=? _); [apply ff_ok|auto].
  - apply ff_bind; [apply ff_stop_sifting|]. intros f1 _. destruct (f1 && _); [apply ff_ok|auto].
Qed.
Lemma m_loop_total fuel c (T : vec) k Res imf rows ext : 2 <= k -> zlen rows < k - 1 ->
  (Z.to_nat (k - 1 - zlen rows) <= fuel)%nat -> ff (m_loop spl fuel c T k Res imf rows ext).
Proof.
  intros Hk. revert Res imf rows ext. induction fuel as [|fuel IH]; intros Res imf rows ext Hr Hf; [lia|].
  cbn [m_loop]. apply ff_bind; [apply ff_broadcast|]. intros R _.
  apply ff_bind; [apply m_sift_total; unfold m_sift_fuel; lia|]. intros [[[imf1 n1] ext1] nf] _. cbv zeta.
  assert (LR : zlen (rows ++ [MkRow imf1 ext1 n1]) = zlen rows + 1) by (rewrite zlen_app; reflexivity).
  rewrite LR. destruct (Z.eqb_spec (zlen rows + 1) (k - 1)); [apply ff_ok|]. destruct nf; [|apply ff_ok].
  apply IH; rewrite LR; lia.
Qed.
Lemma m_emd_total fuel c (S : vec) T k : 2 <= k -> (Z.to_nat (k - 1) <= fuel)%nat -> ff (m_emd spl fuel c S T (Some k)).
Proof.
  intros Hk Hf. unfold m_emd. destruct (negb _); [discriminate|]. apply ff_bind.
  - apply m_loop_total; auto; change (zlen (@nil (m_row A))) with 0; lia.
  - intros [rs ext] _. apply ff_ok.
Qed.
End Total.

Section Limit.
Context {A : Type} `{Num A}.
Variable spl : spline_oracle A.
Lemma m_loop_nolimit fuel c (T : list A) k k' Res imf rows ext : k <= 1 -> k' <= 1 ->
  m_loop spl fuel c T k Res imf rows ext = m_loop spl fuel c T k' Res imf rows ext.
Proof.
  intros Hk Hk'. revert Res imf rows ext. induction fuel as [|fuel IH]; intros Res imf rows ext; cbn [m_loop]; auto.
  destruct (broadcast2 nsub Res imf); cbn [bind]; auto.
  destruct (m_sift _ _ _ _ _ _ _ _) as [[[[imf1 n1] ext1] nf]|]; cbn [bind]; auto. cbv zeta.
  assert (LR : zlen (rows ++ [MkRow imf1 ext1 n1]) = zlen rows + 1) by (rewrite zlen_app; reflexivity).
  pose proof (zlen_nonneg rows). rewrite LR.
  replace (zlen rows + 1 =? k - 1) with false by lia. replace (zlen rows + 1 =? k' - 1) with false by lia.
  destruct nf; auto.
Qed.
Lemma m_emd_nolimit fuel c (S : list A) T k : k <= 1 -> m_emd spl fuel c S T (Some k) = m_emd spl fuel c S T None.
Proof. intros Hk. unfold m_emd. rewrite (m_loop_nolimit fuel c _ k (-1)) by lia. reflexivity. Qed.
Lemma m_emd_rows fuel c (S : list A) T k rows no : m_emd spl fuel c S T k = Ok (rows, no) ->
  shaped (length S) (map row_imf rows) /\ no = zlen rows /\ (forall k', k = Some k' -> 2 <= k' -> zlen rows <= k').
Proof.
  intros E. apply m_emd_ok in E as (rs & ext & t & Lt & _ & E & -> & Er). cbv zeta in Er.
  assert (HS : shaped (length S) (map row_imf rs)).
  { eapply m_loop_shape; [| | |exact E]; auto; [apply map_length|constructor]. }
  assert (LR : length (vsub S (sum_rows (length S) (map row_imf rs))) = length S).
  { apply vsub_length. symmetry. apply sum_rows_length. intros r Hr. unfold shaped in HS. rewrite Forall_forall in HS. auto. }
  split; [|split; auto].
  - subst rows. destruct (nltb _ _); auto. rewrite map_app. apply Forall_app. split; auto. constructor; auto.
  - intros k' -> Hk. apply m_loop_count in E; [|auto|change (zlen (@nil (m_row A))) with 0; lia].
    subst rows. destruct (nltb _ _); [|lia]. rewrite zlen_app. change (zlen [_]) with 1. lia.
Qed.
End Limit.

(** ** Exact arithmetic: the sum, and what each row is *)
Lemma Qc_abs_absolute x : Qc_abs x = absolute x.
Proof.
  unfold Qc_abs, absolute. destruct (Qclt_le_dec x 0) as [L|L].
  - replace (Qc_ltb x 0) with true by (symmetry; apply Qc_ltb_lt; auto). reflexivity.
  - destruct (Qc_ltb x 0) eqn:E; auto. apply Qc_ltb_lt in E. exfalso. qclra.
Qed.
Lemma tiny_iff (v : list Qc) : nltb (nlit 1 (10 ^ 10)) (nsum (map nabs v)) = false <-> tiny v.
Proof.
  unfold tiny. rewrite nsum_total. num_qc. change (nlit 1 (10 ^ 10)) with (Q2Qc (1 # 10000000000)).
  rewrite (map_ext _ _ Qc_abs_absolute). destruct (Qc_ltb _ _) eqn:E; split; try discriminate; auto.
  - intros L. qc_bool. qclra.
  - intros _. qc_bool. auto.
Qed.
Lemma env_at_broadcast (f : Qc -> Qc -> Qc) x y z i : broadcast2 f x y = Ok z ->
  (i < length z)%nat \/ length z = 1%nat -> env_at z i = f (env_at x i) (env_at y i).
Proof.
  unfold broadcast2. destruct (Nat.eqb_spec (length x) (length y)) as [L|L].
  - intros E Hi. injection E as <-. rewrite map2_length, L, Nat.min_id in Hi.
    destruct x as [|a [|a' x]], y as [|b [|b' y]]; cbn [length] in *; try lia; [reflexivity|].
    change (env_at (map2 f (a :: a' :: x) (b :: b' :: y)) i) with (nth i (map2 f (a :: a' :: x) (b :: b' :: y)) 0%Qc).
    rewrite (nth_map2 _ _ _ _ 0%Qc 0%Qc) by (cbn [length]; lia). reflexivity.
  - destruct x as [|a [|a' x]].
    + destruct y as [|b [|b' y]]; try discriminate. intros E [Hi|Hi]; injection E as <-; cbn [length map] in Hi; lia.
    + intros E Hi. injection E as <-. rewrite map_length in Hi.
      destruct y as [|b [|b' y]]; cbn [length] in *; try lia.
      change (env_at (map (f a) (b :: b' :: y)) i) with (nth i (map (f a) (b :: b' :: y)) 0%Qc).
      rewrite (nth_indep _ _ (f a 0%Qc)) by (rewrite map_length; cbn [length]; lia). rewrite map_nth. reflexivity.
    + destruct y as [|b [|b' y]]; try discriminate. intros E Hi. injection E as <-. cbn [length] in Hi. rewrite map_length in Hi.
      change (nth i (map (fun a => f a b) (a :: a' :: x)) 0%Qc = f (nth i (a :: a' :: x) 0%Qc) b).
      rewrite (nth_indep _ _ (f 0%Qc b)) by (rewrite map_length; cbn [length]; lia).
      rewrite (map_nth (fun a => f a b)). reflexivity.
Qed.
Lemma env_at_map (g : Qc -> Qc) x i : (i < length x)%nat \/ length x = 1%nat -> env_at (map g x) i = g (env_at x i).
Proof.
  destruct x as [|a [|a' x]]; cbn [length]; intros Hi; [lia|reflexivity|].
  change (nth i (map g (a :: a' :: x)) 0%Qc = g (nth i (a :: a' :: x) 0%Qc)).
  rewrite (nth_indep _ _ (g 0%Qc)) by (rewrite map_length; cbn [length]; lia). apply map_nth.
Qed.
Lemma broadcast_index {B C D} (f : B -> C -> D) x y z i : broadcast2 f x y = Ok z -> (i < length z)%nat ->
  (i < length x)%nat \/ length x = 1%nat.
Proof.
  unfold broadcast2. destruct (Nat.eqb_spec (length x) (length y)) as [L|L].
  - intros E Hi. injection E as <-. rewrite map2_length in Hi. lia.
  - destruct x as [|a [|a' x]]; [|right; reflexivity|].
    + destruct y as [|b [|b' y]]; try discriminate. intros E Hi; injection E as <-; cbn [length map] in Hi; lia.
    + destruct y as [|b [|b' y]]; try discriminate. intros E Hi. injection E as <-. cbn [length] in Hi. rewrite map_length in Hi. cbn [length]. lia.
Qed.
Lemma broadcast_index_r {B C D} (f : B -> C -> D) x y z i : broadcast2 f x y = Ok z -> (i < length z)%nat ->
  (i < length y)%nat \/ length y = 1%nat.
Proof.
  unfold broadcast2. destruct (Nat.eqb_spec (length x) (length y)) as [L|L].
  - intros E Hi. injection E as <-. rewrite map2_length in Hi. lia.
  - destruct x as [|a [|a' x]].
    + destruct y as [|b [|b' y]]; try discriminate. intros E Hi; injection E as <-; cbn [length map] in Hi; lia.
    + intros E Hi; injection E as <-. rewrite map_length in Hi. auto.
    + destruct y as [|b [|b' y]]; try discriminate. right. reflexivity.
Qed.

Section Rows.
Variable spl : spline_oracle Qc.
Variable c : m_config Qc.
Variable T : list Qc.
(** One sift: the scaled mean of the envelopes is taken away. *)
Definition m_step (x y : list Qc) : Prop :=
  exists up low, extractMaxMinSpline spl c T x = Ok (Some (up, low)) /\ mean_removed (reduceScale c) up low x y.

Lemma half_mean a b : (nhalf * (a + b) = (a + b) / (1 + 1))%Qc.
Proof.
  unfold nhalf, nlit. num_qc. change (Qc_ofZ 2) with (Q2Qc 2). change (Qc_ofZ 1) with 1%Qc.
  replace (1 + 1)%Qc with (Q2Qc 2) by (apply Qc_is_canon; reflexivity). unfold Qcdiv. ring.
Qed.
Lemma step_removes up low sum x y : length x <> 1%nat -> broadcast2 nadd up low = Ok sum ->
  broadcast2 nsub x (map (nmul (reduceScale c)) (map (nmul nhalf) sum)) = Ok y ->
  mean_removed (reduceScale c) up low x y.
Proof.
  intros Hx E1 E2. pose proof (broadcast_length _ _ _ _ E2 Hx) as L. split; auto. intros i Hi.
  assert (Hi' : (i < length y)%nat) by lia.
  pose proof (env_at_broadcast _ _ _ _ i E2 (or_introl Hi')) as G.
  assert (Ey : env_at y i = nth i y 0%Qc) by (destruct y as [|? [|? ?]]; cbn [length] in *; try lia; reflexivity).
  assert (Ex : env_at x i = nth i x 0%Qc) by (destruct x as [|? [|? ?]]; cbn [length] in *; try lia; reflexivity).
  rewrite Ey, Ex in G. rewrite G. num_qc. f_equal. f_equal.
  pose proof (broadcast_index_r _ _ _ _ i E2 Hi') as Hs. rewrite !map_length in Hs.
  rewrite env_at_map by (rewrite map_length; auto). f_equal. rewrite env_at_map by auto.
  rewrite (env_at_broadcast _ _ _ _ i E1) by auto. apply half_mean.
Qed.
Lemma zero_removed x y : broadcast2 nsub x (map (nmul (reduceScale c)) (map (fun _ => n0) x)) = Ok y -> y = x.
Proof.
  rewrite broadcast2_eq by (rewrite !map_length; auto). intros E. injection E as <-. num_qc.
  induction x as [|a x IH]; cbn [map map2]; auto. rewrite IH. f_equal. change (Qc_ofZ 0) with 0%Qc. ring.
Qed.

(** Why sifting of a row ended. *)
Definition few (x : list Qc) : Prop := exists e, findExtrema T x = Ok e /\ ext_no e <= 2.
Definition passed (x : list Qc) : Prop :=
  exists up low sum e, extractMaxMinSpline spl c T x = Ok (Some (up, low)) /\ broadcast2 nadd up low = Ok sum /\
    findExtrema T x = Ok e /\ stop_sifting c up low (map (nmul nhalf) sum) (ext_no e) = Ok true /\
    Z.abs (ext_no e - zlen (indzer e)) < 2.
Definition sift_end (R x : list Qc) (n : Z) : Prop :=
  exists q, steps m_step q R x /\
    ((few x /\ Z.of_nat q < n) \/
     (Z.of_nat q + 1 = n /\
      (maxIteration c < n \/ m_MAX_ITERATION c <= n \/
       (m_FIXE c <> 0 /\ m_FIXE c + 1 <= n) \/
       (m_FIXE c = 0 /\ m_FIXE_H c <> 0 /\ m_FIXE_H c < n) \/
       (m_FIXE c = 0 /\ m_FIXE_H c = 0 /\ passed x)))) /\
    (0 < m_FIXE c -> n <= m_FIXE c + 1).

Lemma m_sift_end R fuel : forall n nh ext x mean x' n' ext' nf,
  1 <= m_MAX_ITERATION c -> nh <= Z.max 0 (n - 1) ->
  (n = 0 /\ x = R /\ mean = map (fun _ => n0) R \/
   0 < n /\ (0 < m_FIXE c -> n <= m_FIXE c) /\ steps m_step (Z.to_nat (n - 1)) R x /\ exists up low sum,
     extractMaxMinSpline spl c T x = Ok (Some (up, low)) /\ broadcast2 nadd up low = Ok sum /\ mean = map (nmul nhalf) sum) ->
  m_sift spl fuel c T n nh ext x mean = Ok (x', n', ext', nf) -> sift_end R x' n'.
Proof.
  induction fuel as [|fuel IH]; intros n nh ext x mean x' n' ext' nf HM Hh Hinv E; cbn [m_sift] in E; [discriminate|].
  destruct (Z.leb_spec (m_MAX_ITERATION c) n) as [LM|LM].
  { injection E as <- <- <- <-. destruct Hinv as [(-> & _)|(Hn & HF & St & _)]; [lia|].
    exists (Z.to_nat (n - 1)). split; auto. split; [right; lia|]. intros HF'. specialize (HF HF'). lia. }
  apply bind_ok in E as (e & E1 & E). cbv zeta in E.
  assert (Hn : 0 <= n) by (destruct Hinv as [[-> _]|[? _]]; lia).
  assert (HF : 0 < m_FIXE c -> n + 1 <= m_FIXE c + 1) by (destruct Hinv as [[-> _]|(? & HF & _)]; intros; [lia|specialize (HF ltac:(auto)); lia]).
  destruct (Z.ltb_spec 2 (ext_no e)) as [L|L].
  2:{ injection E as <- <- <- <-. exists (Z.to_nat (n - 1)). split; [destruct Hinv as [(-> & -> & _)|(_ & _ & St & _)]; [constructor|auto]|].
      split; [left; split; [exists e; auto|lia]|auto]. }
  assert (L1 : length x <> 1%nat).
  { intros L1. destruct x as [|a [|? ?]]; try discriminate. apply one_sample in E1. lia. }
  apply bind_ok in E as (y & E2 & E).
  assert (St : steps m_step (Z.to_nat n) R y).
  { destruct Hinv as [(-> & -> & ->)|(H0 & _ & St & up & low & sum & F1 & F2 & ->)].
    - apply zero_removed in E2 as ->. constructor.
    - replace (Z.to_nat n) with (Datatypes.S (Z.to_nat (n - 1))) by lia. econstructor; eauto.
      exists up, low. split; auto. eapply step_removes; eauto. }
  apply bind_ok in E as (env & E3 & E). destruct env as [[up low]|].
  2:{ injection E as <- <- <- <-. exists (Z.to_nat n). split; auto. split; auto. left. split; [|lia].
      unfold extractMaxMinSpline in E3. apply bind_ok in E3 as (e3 & E3 & E4). exists e3. split; auto.
      destruct (Z.ltb_spec (ext_no e3) 3); [lia|]. apply bind_ok in E4 as ([P Q] & _ & E4).
      apply bind_ok in E4 as (? & _ & E4). apply bind_ok in E4 as (? & _ & E4). discriminate. }
  apply bind_ok in E as (sum & E4 & E). cbv zeta in E.
  destruct (Z.ltb_spec (maxIteration c) (n + 1)) as [LI|LI].
  { injection E as <- <- <- <-. exists (Z.to_nat n). split; auto. split; auto. right. lia. }
  assert (Go : forall nh ext, nh <= Z.max 0 (n + 1 - 1) -> (0 < m_FIXE c -> n + 1 <= m_FIXE c) ->
    m_sift spl fuel c T (n + 1) nh ext y (map (nmul nhalf) sum) = Ok (x', n', ext', nf) -> sift_end R x' n').
  { intros nh' ext0 Hnh HF' G. eapply IH; [| | |exact G]; auto. right. split; [lia|]. split; auto.
    replace (n + 1 - 1) with n by lia. split; auto. exists up, low, sum. auto. }
  destruct (Z.eqb_spec (m_FIXE c) 0) as [HX|HX]; cbn [negb] in E.
  2:{ destruct (Z.leb_spec (m_FIXE c + 1) (n + 1)) as [LF|LF].
      - injection E as <- <- <- <-. exists (Z.to_nat n). split; auto. split; auto. right. lia.
      - eapply Go; [| |exact E]; lia. }
  apply bind_ok in E as (e' & E5 & E). destruct (Z.eqb_spec (m_FIXE_H c) 0) as [HY|HY]; cbn [negb] in E.
  2:{ destruct (Z.eqb_spec (n + 1) 1) as [N1|N1]. { eapply Go; [| |exact E]; lia. }
      match type of E with (if _ <=? ?h then _ else _) = _ => set (nh' := h) in * end.
      assert (Hnh : nh' <= n) by (unfold nh'; destruct (1 <? _); lia).
      destruct (Z.leb_spec (m_FIXE_H c) nh') as [LF|LF].
      - injection E as <- <- <- <-. exists (Z.to_nat n). split; auto. split; [|lia]. right. split; [lia|].
        right. right. right. left. split; auto. split; auto. lia.
      - eapply Go; [| |exact E]; lia. }
  apply bind_ok in E as (f1 & E6 & E).
  destruct (f1 && (Z.abs (ext_no e' - zlen (indzer e')) <? 2)) eqn:D.
  - injection E as <- <- <- <-. exists (Z.to_nat n). split; auto. split; [|lia]. right. split; [lia|].
    right. right. right. right. split; auto. split; auto. apply andb_true_iff in D as [-> D].
    exists up, low, sum, e'. repeat (split; auto). lia.
  - eapply Go; [| |exact E]; lia.
Qed.

Definition residual (S : list Qc) (rows : list (m_row Qc)) : list Qc := vsub S (sum_rows (length S) (map row_imf rows)).
Lemma residual_remainder S rows : shaped (length S) (map row_imf rows) -> remainder S (map row_imf rows) (residual S rows).
Proof.
  intros HM. split.
  - apply vsub_length. symmetry. apply sum_rows_length. unfold shaped in HM. rewrite Forall_forall in HM. auto.
  - intros i Hi. unfold residual. pose proof (residue_spec S _ i HM) as G. rewrite <- G. ring.
Qed.
Lemma m_loop_rows S fuel : forall k Res imf rows ext rows' ext',
  1 <= m_MAX_ITERATION c ->
  length Res = length S -> length imf = length S ->
  remainder S (map row_imf rows) (map2 nsub Res imf) ->
  m_loop spl fuel c T k Res imf rows ext = Ok (rows', ext') ->
  exists new, rows' = rows ++ new /\ forall j r, nth_error new j = Some r ->
    exists R, remainder S (map row_imf (rows ++ firstn j new)) R /\ sift_end R (row_imf r) (row_iter r).
Proof.
  induction fuel as [|fuel IH]; intros k Res imf rows ext rows' ext' HM L1 L2 HR E; cbn [m_loop] in E; [discriminate|].
  rewrite broadcast2_eq in E by congruence. cbn [bind] in E.
  set (R := map2 nsub Res imf) in *. assert (LR : length R = length S) by apply HR.
  apply bind_ok in E as ([[[imf1 n1] ext1] nf] & E2 & E). cbv zeta in E.
  pose proof (m_sift_length _ _ _ _ _ _ _ _ _ _ _ _ _ E2) as L3. rewrite LR in L3.
  assert (SE : sift_end R imf1 n1).
  { eapply m_sift_end; [| | |exact E2]; auto. lia. }
  assert (One : exists new, rows ++ [MkRow imf1 ext1 n1] = rows ++ new /\ forall j r, nth_error new j = Some r ->
    exists R, remainder S (map row_imf (rows ++ firstn j new)) R /\ sift_end R (row_imf r) (row_iter r)).
  { exists [MkRow imf1 ext1 n1]. split; auto. intros [|j] r Hj; [|destruct j; discriminate]. injection Hj as <-.
    exists R. cbn [firstn]. rewrite app_nil_r. auto. }
  destruct (_ =? k - 1). { injection E as <- <-. exact One. }
  destruct nf; [|injection E as <- <-; exact One].
  eapply IH in E as (new & -> & Hnew); auto.
  - exists (MkRow imf1 ext1 n1 :: new). rewrite <- app_assoc. split; auto.
    intros [|j] r Hj.
    + injection Hj as <-. exists R. cbn [firstn]. rewrite app_nil_r. auto.
    + cbn [nth_error firstn] in *. destruct (Hnew j r Hj) as (R' & HR' & SE'). exists R'. rewrite <- app_assoc in HR'. auto.
  - destruct HR as [_ HR]. split; [rewrite map2_length, L3, LR; apply Nat.min_id|]. intros i Hi.
    change (map2 nsub R imf1) with (vsub R imf1). rewrite nth_vsub by congruence. rewrite HR by auto.
    rewrite map_app, total_at_app. cbn [map row_imf]. rewrite total_at_one. ring.
Qed.
End Rows.

Lemma m_emd_rows_exact spl fuel c S T k rows no : 1 <= m_MAX_ITERATION c ->
  m_emd spl fuel c S T k = Ok (rows, no) ->
  exists rs t, length t = length S /\ t = match T with Some t => t | None => arange (length S) end /\
    (rows = rs /\ tiny (residual S rs) \/
     exists ext, rows = rs ++ [MkRow (residual S rs) ext 0] /\ ~ tiny (residual S rs)) /\
    remainder S (map row_imf rs) (residual S rs) /\
    forall j r, nth_error rs j = Some r ->
      exists R, remainder S (map row_imf (firstn j rs)) R /\ sift_end spl c t R (row_imf r) (row_iter r).
Proof.
  intros HM E. apply m_emd_ok in E as (rs & ext & t & Lt & HT & E & -> & Er). cbv zeta in Er. fold (residual S rs) in Er.
  assert (HS : shaped (length S) (map row_imf rs)).
  { eapply m_loop_shape; [| | |exact E]; auto; [apply map_length|constructor]. }
  exists rs, t. split; auto. split; [rewrite arange_tz; auto|]. split.
  { destruct (nltb _ _) eqn:D in Er; subst rows; [right; exists ext; split; auto|left; split; auto].
    - rewrite <- tiny_iff, D. discriminate.
    - apply tiny_iff. exact D. }
  split; [apply residual_remainder; auto|].
  eapply m_loop_rows with (S := S) in E as (new & -> & Hn); auto; [apply map_length|].
  split; [rewrite map2_length, map_length; apply Nat.min_id|]. intros i Hi. change (total_at (map row_imf []) i) with 0%Qc.
  change (map2 nsub S (map (fun _ => n0) S)) with (vsub S (map (fun _ => n0) S)). rewrite nth_vsub by (rewrite map_length; auto).
  f_equal. f_equal. clear. revert i. induction S; intros [|i]; cbn; auto.
Qed.

(** ** The stop rule *)
Lemma above_iff thr m a : above thr m a = true <-> exceeds thr m a.
Proof.
  unfold above, exceeds. unfold is0. num_qc. change (Qc_ofZ 0) with 0%Qc.
  destruct (Qc_eqb a 0) eqn:E.
  - apply Qc_eqb_eq in E. rewrite negb_true_iff. split.
    + intros F. left. split; auto. apply Qc_eqb_neq; auto.
    + intros [[_ F]|[F _]]; [apply Qc_eqb_neq; auto|contradiction].
  - apply Qc_eqb_neq in E. rewrite Qc_ltb_lt. split; [auto|]. intros [[F _]|[_ F]]; [contradiction|auto].
Qed.
Lemma filter_index (l : list bool) : forall a, length (filter (fun b => b) l) = length (filter (fun i => nth (i - a) l false) (seq a (length l))).
Proof.
  induction l as [|b l IH]; intros a; cbn [length seq filter]; auto. rewrite Nat.sub_diag. cbn [nth].
  specialize (IH (Datatypes.S a)).
  rewrite (filter_ext_in (fun i => nth (i - Datatypes.S a) l false) (fun i => nth (i - a) (b :: l) false)) in IH.
  - destruct b; cbn [length]; rewrite IH; reflexivity.
  - intros i Hi. apply in_seq in Hi. replace (i - a)%nat with (Datatypes.S (i - Datatypes.S a)) by lia. reflexivity.
Qed.
Lemma stop_sifting_settled c up low sum ext : length up = length low -> broadcast2 nadd up low = Ok sum ->
  (stop_sifting c up low (map (nmul nhalf) sum) ext = Ok true <-> settled (stop1 c) (stop2 c) (stop3 c) up low /\ 2 < ext).
Proof.
  intros L Es. rewrite broadcast2_eq in Es by auto. assert (sum = map2 nadd up low) by congruence. subst sum.
  unfold stop_sifting. rewrite broadcast2_eq by auto. cbn [bind].
  set (m := map nabs (map (nmul nhalf) (map2 nadd up low))).
  set (a := map (fun x => ndiv (nabs x) n2) (map2 nsub up low)).
  assert (Lm : length m = length up) by (unfold m; rewrite !map_length, map2_length; lia).
  assert (La : length a = length up) by (unfold a; rewrite map_length, map2_length; lia).
  assert (Nm : forall i, (i < length up)%nat -> nth i m 0%Qc = absolute ((nth i up 0 + nth i low 0) / (1 + 1))%Qc).
  { intros i Hi. unfold m. rewrite map_map2, map_map2. rewrite (nth_map2 _ _ _ _ 0%Qc 0%Qc) by lia. num_qc.
    rewrite Qc_abs_absolute, half_mean. reflexivity. }
  assert (Na : forall i, (i < length up)%nat -> nth i a 0%Qc = (absolute (nth i up 0 - nth i low 0) / (1 + 1))%Qc).
  { intros i Hi. unfold a. rewrite map_map2. rewrite (nth_map2 _ _ _ _ 0%Qc 0%Qc) by lia. num_qc. unfold n2. num_qc.
    rewrite Qc_abs_absolute. f_equal. }
  assert (Fl : forall thr i, (i < length up)%nat -> nth i (map2 (above thr) m a) false = true <->
    exceeds thr (absolute ((nth i up 0 + nth i low 0) / (1 + 1))%Qc) (absolute (nth i up 0 - nth i low 0) / (1 + 1))%Qc).
  { intros thr i Hi. rewrite (nth_map2 _ _ _ _ 0%Qc 0%Qc) by lia. rewrite above_iff, Nm, Na by auto. reflexivity. }
  assert (LF : forall thr, length (map2 (above thr) m a) = length up) by (intros; rewrite map2_length; lia).
  clearbody m a.
  set (f2 := existsb _ _). set (k := zlen (filter _ _)).
  assert (H2 : f2 = false <-> forall i, (i < length up)%nat ->
    ~ exceeds (stop2 c) (absolute ((nth i up 0 + nth i low 0) / (1 + 1))%Qc) (absolute (nth i up 0 - nth i low 0) / (1 + 1))%Qc).
  { unfold f2. rewrite existsb_false. split.
    - intros G i Hi X. apply (Fl (stop2 c) i Hi) in X. rewrite <- (LF (stop2 c)) in Hi.
      rewrite (G (nth i (map2 (above (stop2 c)) m a) false)) in X; [discriminate|apply nth_In; auto].
    - intros G x Hx. destruct x; auto. apply (In_nth _ _ false) in Hx as (i & Hi & E). rewrite LF in Hi.
      apply Fl in E; auto. exfalso. apply (G i); auto. }
  set (Ls := filter (fun i => nth i (map2 (above (stop1 c)) m a) false) (seq 0 (length up))).
  assert (Hk : k = Z.of_nat (length Ls)).
  { unfold k, zlen. rewrite (filter_index _ 0), LF. f_equal. f_equal. apply filter_ext. intros i. rewrite Nat.sub_0_r. reflexivity. }
  assert (HL : forall i, In i Ls <-> (i < length up)%nat /\
    exceeds (stop1 c) (absolute ((nth i up 0 + nth i low 0) / (1 + 1))%Qc) (absolute (nth i up 0 - nth i low 0) / (1 + 1))%Qc).
  { intros i. unfold Ls. rewrite filter_In, in_seq. split.
    - intros [Hi E]. split; [lia|]. apply Fl; auto. lia.
    - intros [Hi E]. split; [lia|]. apply Fl; auto. }
  assert (ND : NoDup Ls) by (apply NoDup_filter, seq_NoDup).
  assert (H1 : nltb (stop3 c) (ndiv (nofZ k) (nofZ (zlen a))) = false <-> (count (length Ls) / count (length up) <= stop3 c)%Qc).
  { rewrite Hk. unfold zlen. rewrite La. num_qc. change (Qc_ofZ (Z.of_nat (length Ls))) with (count (length Ls)).
    change (Qc_ofZ (Z.of_nat (length up))) with (count (length up)).
    destruct (Qc_ltb _ _) eqn:E; split; auto; try discriminate; qc_bool; auto. intros; qclra. }
  unfold settled. cbv zeta. set (f1 := nltb _ _) in *. clearbody f1 f2.
  split.
  - intros E. injection E as E. apply andb_true_iff in E as [E E3]. apply negb_true_iff, orb_false_iff in E as [-> ->].
    split; [|lia]. split; [apply H2; auto|]. exists Ls. split; auto. split; auto. apply H1; auto.
  - intros [[G2 (L' & ND' & HL' & G1)] G3]. apply H2 in G2. rewrite G2.
    assert (EL : length L' = length Ls).
    { apply Nat.le_antisymm; apply NoDup_incl_length; auto; intros i Hi; [apply HL, HL'|apply HL', HL]; auto. }
    rewrite EL in G1. apply H1 in G1. rewrite G1. cbn. f_equal. lia.
Qed.

(** ** Statements *)
Definition m_time (S : list Qc) (T : option (list Qc)) : list Qc :=
  match T with Some t => t | None => arange (length S) end.
Lemma m_sum spl fuel c S T k rows no : m_emd spl fuel c S T k = Ok (rows, no) ->
  adds_up (map row_imf rows) S \/ exists R, remainder S (map row_imf rows) R /\ tiny R.
Proof.
  intros E. apply m_emd_ok in E as (rs & ext & t & Lt & HT & E & -> & Er). cbv zeta in Er. fold (residual S rs) in Er.
  assert (HS : shaped (length S) (map row_imf rs)).
  { eapply m_loop_shape; [| | |exact E]; auto; [apply map_length|constructor]. }
  destruct (nltb _ _) eqn:D in Er; subst rows.
  - left. intros i Hi. rewrite map_app, total_at_app. cbn [map row_imf]. rewrite total_at_one.
    rewrite Qcplus_comm. apply residue_spec. auto.
  - right. exists (residual S rs). split; [apply residual_remainder; auto|]. apply tiny_iff. exact D.
Qed.
Lemma m_sifted spl fuel c S T k rows no : 1 <= m_MAX_ITERATION c -> m_emd spl fuel c S T k = Ok (rows, no) ->
  exists rs rest, map row_imf rows = map row_imf rs ++ rest /\
    (rest = [] \/ exists R, rest = [R] /\ remainder S (map row_imf rs) R) /\
    forall j r, nth_error rs j = Some r ->
    exists R, remainder S (map row_imf (firstn j rs)) R /\ sift_end spl c (m_time S T) R (row_imf r) (row_iter r).
Proof.
  intros HM E. apply m_emd_rows_exact in E as (rs & t & Lt & -> & HR & Hrem & Hs); auto.
  exists rs. destruct HR as [[-> _]|(ext & -> & _)].
  - exists []. rewrite app_nil_r. auto.
  - exists [residual S rs]. rewrite map_app. split; [reflexivity|]. split; [right; eauto|]. exact Hs.
Qed.
Lemma m_fixed spl fuel c S T k rows no :
  0 < m_FIXE c <= maxIteration c -> m_FIXE c < m_MAX_ITERATION c ->
  m_emd spl fuel c S T k = Ok (rows, no) ->
  exists rs rest, map row_imf rows = map row_imf rs ++ rest /\
    (rest = [] \/ exists R, rest = [R] /\ remainder S (map row_imf rs) R) /\
    forall j r, nth_error rs j = Some r ->
    exists R q, remainder S (map row_imf (firstn j rs)) R /\
      steps (m_step spl c (m_time S T)) q R (row_imf r) /\
      (Z.of_nat q = m_FIXE c \/
       Z.of_nat q <= m_FIXE c /\ exists e, findExtrema (m_time S T) (row_imf r) = Ok e /\ ext_no e <= 2).
Proof.
  intros HF HM E. apply m_sifted in E as (rs & rest & E1 & E2 & E3); [|lia]. exists rs, rest. split; auto. split; auto.
  intros j r Hj. destruct (E3 j r Hj) as (R & HR & q & St & Hq & HF'). exists R, q. split; auto. split; auto.
  specialize (HF' ltac:(lia)). destruct Hq as [[Hf Hq]|[Hq [G|[G|[G|[G|G]]]]]]; try lia.
  right. split; [lia|exact Hf].
Qed.
Lemma m_default spl fuel c S T k rows no :
  1 <= m_MAX_ITERATION c -> m_FIXE c = 0 -> m_FIXE_H c = 0 ->
  m_emd spl fuel c S T k = Ok (rows, no) ->
  exists rs rest, map row_imf rows = map row_imf rs ++ rest /\
    (rest = [] \/ exists R, rest = [R] /\ remainder S (map row_imf rs) R) /\
    forall j r, nth_error rs j = Some r ->
    exists R q, remainder S (map row_imf (firstn j rs)) R /\
      steps (m_step spl c (m_time S T)) q R (row_imf r) /\
      ((exists e, findExtrema (m_time S T) (row_imf r) = Ok e /\ ext_no e <= 2) \/
       maxIteration c <= Z.of_nat q \/ m_MAX_ITERATION c - 1 <= Z.of_nat q \/
       exists up low e, extractMaxMinSpline spl c (m_time S T) (row_imf r) = Ok (Some (up, low)) /\
         findExtrema (m_time S T) (row_imf r) = Ok e /\
         (length up = length low -> settled (stop1 c) (stop2 c) (stop3 c) up low /\ 2 < ext_no e) /\
         Z.abs (ext_no e - zlen (indzer e)) <= 1).
Proof.
  intros HM HF HH E. apply m_sifted in E as (rs & rest & E1 & E2 & E3); [|lia]. exists rs, rest. split; auto. split; auto.
  intros j r Hj. destruct (E3 j r Hj) as (R & HR & q & St & Hq & HF'). exists R, q. split; auto. split; auto.
  destruct Hq as [[Hf Hq]|[Hq [G|[G|[G|[G|G]]]]]]; [left; exact Hf|lia|lia|lia|lia|].
  - right. right. right. destruct G as (_ & _ & up & low & sum & e & F1 & F2 & F3 & F4 & F5).
    exists up, low, e. split; auto. split; auto. split; [|lia]. intros L. apply (stop_sifting_settled c up low sum); auto.
Qed.
Lemma m_limit {A} `{Num A} (spl : spline_oracle A) fuel c S T k rows no : 2 <= k ->
  m_emd spl fuel c S T (Some k) = Ok (rows, no) -> zlen rows <= k.
Proof. intros Hk E. apply m_emd_rows in E as (_ & _ & E). auto. Qed.
Lemma m_shaped {A} `{Num A} (spl : spline_oracle A) fuel c S T k rows no :
  m_emd spl fuel c S T k = Ok (rows, no) -> shaped (length S) (map row_imf rows) /\ no = zlen rows.
Proof. intros E. apply m_emd_rows in E as (E1 & E2 & _). auto. Qed.
Lemma m_prepare_same S nb e : find_extrema Simple (arange (length S)) S = Ok e ->
  preparePoints nb (arange (length S)) S e = prepare_points Simple nb (arange (length S)) S e.
Proof. rewrite !arange_tz. apply prepare_same. Qed.
Lemma m_envelopes_same spl (c : emd_config Qc) mc S :
  ~ flat_ends S -> extrema_detection c = Simple -> m_nbsym mc = nbsym c -> 1 <= nbsym c ->
  m_splineKind mc = spline_kind c ->
  parse_kind (spline_kind c) <> Some Pchip -> parse_kind (spline_kind c) <> Some CubicHermite ->
  extractMaxMinSpline spl mc (arange (length S)) S =
    let! e := find_extrema Simple (arange (length S)) S in
    if ext_no e <? 3 then Ok None
    else let! (up, low, _, _) := extract_max_min_spline spl c (arange (length S)) S in Ok (Some (up, low)).
Proof. rewrite !arange_tz. apply envelopes_same. Qed.
