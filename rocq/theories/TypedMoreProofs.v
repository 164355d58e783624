(** * TypedMoreProofs: integer arrays in EEMD and EMD2D. *)
From Verif Require Import Py PyFacts QcFacts Emd Eemd Image EmdSym ImageSpec EmdExact ImageProofs ImageSift Utils UtilsSpec UtilsProofs
  Spec Typed TypedSpec TypedProofs TypedMore.
From Coq Require Import QArith Qcanon Lia.
Open Scope Z_scope.

Lemma max_of_Z l x : fold_left (fun m y : Qc => if nltb m y then y else m) (map Qc_ofZ l) (Qc_ofZ x) = Qc_ofZ (fold_left Z.max l x).
Proof.
  revert x. induction l as [|y l IH]; intros x; [reflexivity|]. cbn [map fold_left]. rewrite <- IH. f_equal.
  cbn [nltb QcNum]. destruct (Qc_ltb (Qc_ofZ x) (Qc_ofZ y)) eqn:E; qc_bool.
  - rewrite Qc_ofZ_lt in E. f_equal. lia.
  - rewrite Qc_ofZ_le in E. f_equal. lia.
Qed.
Lemma min_of_Z l x : fold_left (fun m y : Qc => if nltb y m then y else m) (map Qc_ofZ l) (Qc_ofZ x) = Qc_ofZ (fold_left Z.min l x).
Proof.
  revert x. induction l as [|y l IH]; intros x; [reflexivity|]. cbn [map fold_left]. rewrite <- IH. f_equal.
  cbn [nltb QcNum]. destruct (Qc_ltb (Qc_ofZ y) (Qc_ofZ x)) eqn:E; qc_bool.
  - rewrite Qc_ofZ_lt in E. f_equal. lia.
  - rewrite Qc_ofZ_le in E. f_equal. lia.
Qed.
Lemma np_max_of_Z l : np_max (map Qc_ofZ l) = let! m := int_max l in Ok (Qc_ofZ m).
Proof. destruct l; [reflexivity|]. cbn [map int_max bind]. rewrite np_max_qc. rewrite max_of_Z. reflexivity. Qed.
Lemma np_min_of_Z l : np_min (map Qc_ofZ l) = let! m := int_min l in Ok (Qc_ofZ m).
Proof. destruct l; [reflexivity|]. cbn [map int_min bind]. rewrite np_min_qc. rewrite min_of_Z. reflexivity. Qed.
Lemma fold_max l x : In (fold_left Z.max l x) (x :: l) /\ forall y, In y (x :: l) -> y <= fold_left Z.max l x.
Proof.
  revert x. induction l as [|z l IH]; intros x; cbn [fold_left].
  - split; [left; auto|]. intros y [<-|[]]. lia.
  - destruct (IH (Z.max x z)) as [I U]. split.
    + destruct I as [I|I]; [|right; right; auto]. destruct (Z.max_spec x z) as [[_ E]|[_ E]]; rewrite E in *; [right; left; auto|left; auto].
    + pose proof (U _ (or_introl eq_refl)). intros y [<-|[<-|Hy]]; [lia|lia|]. apply U. right. auto.
Qed.
Lemma fold_min l x : In (fold_left Z.min l x) (x :: l) /\ forall y, In y (x :: l) -> fold_left Z.min l x <= y.
Proof.
  revert x. induction l as [|z l IH]; intros x; cbn [fold_left].
  - split; [left; auto|]. intros y [<-|[]]. lia.
  - destruct (IH (Z.min x z)) as [I U]. split.
    + destruct I as [I|I]; [|right; right; auto]. destruct (Z.min_spec x z) as [[_ E]|[_ E]]; rewrite E in *; [left; auto|right; left; auto].
    + pose proof (U _ (or_introl eq_refl)). intros y [<-|[<-|Hy]]; [lia|lia|]. apply U. right. auto.
Qed.
Lemma int_max_spec l m : int_max l = Ok m -> In m l /\ forall y, In y l -> y <= m.
Proof. destruct l; [discriminate|]. cbn [int_max]. intros E. injection E as <-. apply fold_max. Qed.
Lemma int_min_spec l m : int_min l = Ok m -> In m l /\ forall y, In y l -> m <= y.
Proof. destruct l; [discriminate|]. cbn [int_min]. intros E. injection E as <-. apply fold_min. Qed.

(** Values from [lo] to [hi] whose difference fits the type. *)
Definition span_fits (d : dtype) (l : list Z) : Prop := forall x y, In x l -> In y l -> x - y <= largest_of d.
Lemma wrap_span d z : is_integer d -> 0 <= z <= largest_of d -> wrap d z = z.
Proof. intros Hd Hz. apply wrap_fits; auto. pose proof (int_bounds d Hd). unfold fits. lia. Qed.

Lemma Qc_abs_ofZ z : 0 <= z -> Qc_abs (Qc_ofZ z) = Qc_ofZ z.
Proof. intros Hz. unfold Qc_abs. rewrite (proj2 (Qc_ltb_ge _ _)); auto. change 0%Qc with (Qc_ofZ 0). apply Qc_ofZ_le. auto. Qed.

Section EEMD.
Context {G D : Type} (gen : generator Qc G) (dec : decomposer Qc D).
Definition plain_start (c : eemd_config Qc) (S : list Qc) (T : option (list Qc)) : res (list Qc * Qc) :=
  let! T := match T with Some t => Ok t | None => timeline (length S) end in
  let! mx := np_max S in
  let! mn := np_min S in
  Ok (T, nmul (noise_width c) (nabs (nsub mx mn))).
Lemma eemd_is_from c o S T k : eemd gen dec c o S T k = eemd_from gen dec c o S (plain_start c S T) k.
Proof. reflexivity. Qed.

Lemma eemd_ints_ok d c o S T k : is_integer d -> span_fits d S ->
  eemd_ints gen dec d c o S T k = eemd gen dec c o (map Qc_ofZ S) T k.
Proof.
  intros Hd Hs. rewrite eemd_is_from. unfold eemd_ints. f_equal. unfold int_start, plain_start.
  rewrite map_length. destruct (match T with Some t => Ok t | None => timeline (length S) end) as [T'|]; [|reflexivity]. cbn [bind].
  rewrite np_max_of_Z, np_min_of_Z. destruct (int_max S) as [mx|] eqn:E1; [|reflexivity]. cbn [bind].
  destruct (int_min S) as [mn|] eqn:E2; [|reflexivity]. cbn [bind].
  apply int_max_spec in E1. apply int_min_spec in E2. destruct E1 as [I1 U1], E2 as [I2 U2].
  pose proof (Hs mx mn I1 I2). pose proof (U1 _ I2).
  rewrite (wrap_span d (mx - mn)) by (auto; lia). rewrite Z.abs_eq by lia. rewrite wrap_span by (auto; lia).
  cbn [nabs nsub QcNum]. rewrite <- Qc_ofZ_sub, Qc_abs_ofZ by lia. reflexivity.
Qed.

(** A changed noise width. *)
Definition with_width (w : Qc) (c : eemd_config Qc) : eemd_config Qc :=
  MkECfg (trials c) w (separate_trends c) (noise_kind c) (parallel c) (processes c).

Lemma run_trials_ext (f g : G * D -> res (trial (A := Qc)) * (G * D)) n st : (forall s, f s = g s) -> run_trials f n st = run_trials g n st.
Proof. intros H. revert st. induction n as [|n IH]; intros st; [reflexivity|]. cbn [run_trials]. rewrite H. destruct (g st) as [[t|e] s]; [|reflexivity]. rewrite IH. reflexivity. Qed.
Lemma from_width c w o S st k : eemd_from gen dec (with_width w c) o S st k = eemd_from gen dec c o S st k.
Proof. destruct c, st as [[T sc]|e]; reflexivity. Qed.

Lemma signed_wrap d z : is_signed d -> exists M, 128 <= M /\ largest_of d = M - 1 /\ lowest_of d = - M /\
  (M <= z < 2 * M -> wrap d z = z - 2 * M).
Proof.
  intros Hd. assert (exists b, kind d = Signed b /\ 8 <= b) as (b & E & Hb).
  { revert Hd. unfold is_signed. destruct d; cbn [kind]; intros H; try contradiction; eexists; split; try reflexivity; lia. }
  unfold largest_of, lowest_of, wrap, store. rewrite E. exists (2 ^ (b - 1)).
  assert (H2 : 2 ^ b = 2 * 2 ^ (b - 1)) by (rewrite <- Z.pow_succ_r by lia; f_equal; lia).
  assert (H7 : 2 ^ 7 <= 2 ^ (b - 1)) by (apply Z.pow_le_mono_r; lia). change (2 ^ 7) with 128 in H7.
  rewrite H2. set (P := 2 ^ (b - 1)) in *. clearbody P. repeat split; auto. intros Hz.
  replace ((z + P) mod (2 * P)) with (z + P - 2 * P); [lia|]. apply (Z.mod_unique_pos _ _ 1); lia.
Qed.

(** A range that does not fit: noise of another amplitude. *)
Lemma eemd_ints_narrow d c o S T k hi lo : is_signed d -> Forall (fits d) S ->
  In hi S -> In lo S -> (forall x, In x S -> lo <= x <= hi) -> largest_of d < hi - lo ->
  eemd_ints gen dec d c o S T k =
  eemd gen dec (with_width (noise_width c * (Qc_ofZ (if hi - lo =? largest_of d + 1 then lo - hi
                                                     else 2 * (largest_of d + 1) - (hi - lo)) / Qc_ofZ (hi - lo)))%Qc c)
       o (map Qc_ofZ S) T k.
Proof.
  intros Hd Hf Hh Hl HB HW. rewrite eemd_is_from, from_width. unfold eemd_ints. f_equal. unfold int_start, plain_start.
  rewrite map_length. destruct (match T with Some t => Ok t | None => timeline (length S) end) as [T'|]; [|reflexivity]. cbn [bind].
  rewrite np_max_of_Z, np_min_of_Z.
  assert (NE : S <> []) by (intros ->; destruct Hh).
  destruct (int_max S) as [mx|] eqn:E1; [|destruct S; [contradiction|discriminate]]. cbn [bind].
  destruct (int_min S) as [mn|] eqn:E2; [|destruct S; [contradiction|discriminate]]. cbn [bind].
  apply int_max_spec in E1. apply int_min_spec in E2. destruct E1 as [I1 U1], E2 as [I2 U2].
  assert (mx = hi) as -> by (pose proof (HB _ I1); pose proof (U1 _ Hh); lia).
  assert (mn = lo) as -> by (pose proof (HB _ I2); pose proof (U2 _ Hl); lia).
  destruct (signed_wrap d (hi - lo) Hd) as (M & HM & HM1 & HM2 & HM3).
  rewrite Forall_forall in Hf. pose proof (Hf _ Hh) as Fh. pose proof (Hf _ Hl) as Fl. unfold fits in Fh, Fl.
  rewrite HM3 by lia. cbn [nabs nsub nmul QcNum noise_width with_width]. rewrite <- Qc_ofZ_sub, Qc_abs_ofZ by lia.
  assert (ND : Qc_ofZ (hi - lo) <> 0%Qc) by (change 0%Qc with (Qc_ofZ 0); rewrite Qc_ofZ_inj; lia).
  f_equal. f_equal. transitivity (noise_width c * (Qc_ofZ (if hi - lo =? largest_of d + 1 then lo - hi
       else 2 * (largest_of d + 1) - (hi - lo)) ))%Qc; [|field; exact ND].
  f_equal. f_equal. rewrite HM1. destruct (Z.eqb_spec (hi - lo) (M - 1 + 1)) as [E|E].
  - replace (Z.abs (hi - lo - 2 * M)) with M by lia.
    destruct (signed_wrap d M Hd) as (M' & _ & HM1' & _ & HM3'). assert (M' = M) as -> by lia. rewrite HM3' by lia. lia.
  - replace (Z.abs (hi - lo - 2 * M)) with (2 * M - (hi - lo)) by lia. rewrite wrap_span; [lia| |lia].
    revert Hd. unfold is_signed, is_integer. destruct (kind d); tauto.
Qed.
End EEMD.

Lemma concat_map_Z (l : list (list Z)) : concat (map (map Qc_ofZ) l) = map Qc_ofZ (concat l).
Proof. symmetry. apply concat_map. Qed.
Lemma emd2d_ints_ok d sbs c fuel image k : is_integer d -> span_fits d (concat image) ->
  emd2d_ints d sbs c fuel image k = emd2d sbs c fuel (map (map Qc_ofZ) image) k.
Proof.
  intros Hd Hs. unfold emd2d_ints, emd2d. rewrite concat_map_Z, np_max_of_Z, np_min_of_Z.
  destruct (int_min (concat image)) as [mn|] eqn:E2; [|reflexivity]. cbn [bind].
  destruct (int_max (concat image)) as [mx|] eqn:E1; [|reflexivity]. cbn [bind]. cbv zeta.
  apply int_max_spec in E1. apply int_min_spec in E2. destruct E1 as [I1 U1], E2 as [I2 U2].
  pose proof (Hs mx mn I1 I2). pose proof (U1 _ I2).
  rewrite (wrap_span d (mx - mn)) by (auto; lia). cbn [neqb nsub QcNum]. rewrite <- Qc_ofZ_sub.
  assert (EZ : Qc_eqb (Qc_ofZ (mx - mn)) n0 = (mx - mn =? 0)).
  { change n0 with (Qc_ofZ 0). destruct (Z.eqb_spec (mx - mn) 0) as [E|E]; qc_bool; rewrite Qc_ofZ_inj; auto. }
  rewrite EZ. destruct (mx - mn =? 0); [reflexivity|].
  assert (EI : map (map (fun y => ndiv (Qc_ofZ (wrap d (y - mn))) (Qc_ofZ (mx - mn)))) image =
    imap (fun y => ndiv (nsub y (Qc_ofZ mn)) (Qc_ofZ (mx - mn))) (map (map Qc_ofZ) image)).
  { unfold imap. rewrite map_map. apply map_ext_in. intros r Hr. rewrite map_map. apply map_ext_in. intros y Hy.
    assert (Iy : In y (concat image)) by (apply in_concat; exists r; auto).
    pose proof (Hs _ _ Iy I2). pose proof (U2 _ Iy). rewrite wrap_span by (auto; lia). num_qc. rewrite Qc_ofZ_sub. reflexivity. }
  rewrite EI. reflexivity.
Qed.

(** ** An image whose grey levels span more than the type *)
(** The components, scaled by [a] and offset by [b] on the last, add up to the scaled image. *)
Lemma finish_sum n m xs comps a b : rect n m xs -> Forall (rect n m) comps -> comps <> [] ->
  let rows := on_last (imap (fun y : Qc => (y + b)%Qc)) (map (imap (fun y : Qc => (y * a)%Qc)) (with_residue xs comps)) in
  Forall (rect n m) rows /\ forall i j, (i < n)%nat -> (j < m)%nat -> within (tol * Qc_abs a)%Qc (pixel xs i j * a + b - stack_sum rows i j)%Qc.
Proof.
  intros Hxs F NE. cbv zeta. destruct (with_residue_spec n m xs comps Hxs F) as (tail & -> & Ft & Lt & Hsum).
  assert (Fall : Forall (rect n m) (comps ++ tail)) by (apply Forall_app; auto).
  set (all := comps ++ tail) in *. assert (NA : all <> []) by (unfold all; destruct comps; [congruence|discriminate]).
  destruct (exists_last NA) as (init & z & Eall).
  assert (Fi : Forall (rect n m) init /\ rect n m z).
  { rewrite Eall in Fall. apply Forall_app in Fall. destruct Fall as [A B]. inversion_clear B. auto. }
  destruct Fi as [Fi Fz].
  set (sc := imap (fun y : Qc => (y * a)%Qc)). set (off := imap (fun y : Qc => (y + b)%Qc)).
  assert (Rows : on_last off (map sc all) = map sc init ++ [off (sc z)]) by (rewrite Eall, map_app; apply on_last_snoc).
  rewrite Rows.
  assert (Psc : forall u i j, rect n m u -> (i < n)%nat -> (j < m)%nat -> pixel (sc u) i j = (pixel u i j * a)%Qc).
  { intros. unfold sc. rewrite (pixel_imap n m); auto. }
  split.
  { apply Forall_app. split; [|constructor; [apply rect_imap, rect_imap; auto|constructor]].
    rewrite Forall_map. eapply Forall_impl; [|exact Fi]. cbn. intros. apply rect_imap. auto. }
  intros i j Hi Hj.
  assert (SS : (stack_sum (map sc init ++ [off (sc z)]) i j = stack_sum all i j * a + b)%Qc).
  { rewrite Eall, !stack_sum_app. unfold stack_sum at 2 4. cbn [map fold_right].
    unfold off. rewrite (pixel_imap n m) by (auto; apply rect_imap; auto). rewrite Psc by auto.
    assert (G : forall l, Forall (rect n m) l -> (stack_sum (map sc l) i j = stack_sum l i j * a)%Qc).
    { induction 1 as [|u l Ha Hl IHl]; [unfold stack_sum; cbn; ring|].
      unfold stack_sum in *. cbn [map fold_right]. rewrite IHl, Psc by auto. ring. }
    rewrite G by auto. ring. }
  rewrite SS. replace (pixel xs i j * a + b - (stack_sum all i j * a + b))%Qc with ((pixel xs i j - stack_sum all i j) * a)%Qc by ring.
  assert (W : within tol (pixel xs i j - stack_sum all i j)%Qc).
  { destruct (Hsum i j Hi Hj) as [[-> W]|[_ W]].
    - unfold all. rewrite app_nil_r. exact W.
    - fold all in W. rewrite W. replace (pixel xs i j - pixel xs i j)%Qc with 0%Qc by ring. split; vm_compute; discriminate. }
  destruct W as [W1 W2]. unfold Qc_abs. destruct (Qc_ltb a 0%Qc) eqn:EA; qc_bool.
  - assert (PH : (0 <= - a)%Qc) by qclra. set (w := (pixel xs i j - stack_sum all i j)%Qc) in *. clearbody w. clear -W1 W2 PH.
    pose proof (Qcmult_le_compat_r _ _ _ W1 PH). pose proof (Qcmult_le_compat_r _ _ _ W2 PH). split.
    + replace (- (tol * - a))%Qc with (tol * a)%Qc by ring. replace (w * - a)%Qc with (- (w * a))%Qc in * by ring.
      replace (tol * - a)%Qc with (- (tol * a))%Qc in * by ring. qclra.
    + replace (w * - a)%Qc with (- (w * a))%Qc in * by ring. replace (- tol * - a)%Qc with (tol * a)%Qc in * by ring.
      replace (tol * - a)%Qc with (- (tol * a))%Qc in * by ring. qclra.
  - split.
    + replace (- (tol * a))%Qc with (- tol * a)%Qc by ring. apply Qcmult_le_compat_r; auto.
    + apply Qcmult_le_compat_r; auto.
Qed.

Definition zpixel (x : list (list Z)) (i j : nat) : Z := nth j (nth i x []) 0.
Lemma within_mono b b' x : (b <= b')%Qc -> within b x -> within b' x.
Proof. intros H [A B]. split; qclra. Qed.

Lemma emd2d_ints_sum d sbs c fuel image k n m rows : surface_ok sbs -> is_signed d -> (0 < n)%nat ->
  length image = n -> Forall (fun r => length r = m) image -> Forall (Forall (fits d)) image ->
  emd2d_ints d sbs c fuel image k = Ok rows ->
  exists lo hi, (exists i j, (i < n /\ j < m)%nat /\ zpixel image i j = lo) /\
    (exists i j, (i < n /\ j < m)%nat /\ zpixel image i j = hi) /\
    Forall (rect n m) rows /\
    forall i j, (i < n)%nat -> (j < m)%nat -> lo <= zpixel image i j <= hi /\
      within (tol * Qc_ofZ (hi - lo))%Qc
        (Qc_ofZ (if zpixel image i j - lo <=? largest_of d then zpixel image i j else zpixel image i j - 2 * (largest_of d + 1))
         - stack_sum rows i j)%Qc.
Proof.
  intros Hsf Hd Hn Ln Lm Hf. unfold emd2d_ints.
  destruct (int_min (concat image)) as [lo|] eqn:E2; [|discriminate]. cbn [bind].
  destruct (int_max (concat image)) as [hi|] eqn:E1; [|discriminate]. cbn [bind]. cbv zeta.
  apply int_max_spec in E1. apply int_min_spec in E2. destruct E1 as [I1 U1], E2 as [I2 U2].
  assert (PIX : forall y, In y (concat image) <-> exists i j, (i < n /\ j < m)%nat /\ zpixel image i j = y).
  { rewrite Forall_forall in Lm. intros y. rewrite in_concat. split.
    - intros (r & Hr & Hy). pose proof (Lm _ Hr). destruct (In_nth _ _ [] Hr) as (i & Hi & E). subst r.
      destruct (In_nth _ _ 0 Hy) as (j & Hj & E). exists i, j. split; [lia|exact E].
    - intros (i & j & [Hi Hj] & E). assert (Hr : In (nth i image []) image) by (apply nth_In; lia).
      exists (nth i image []). split; auto. rewrite <- E. apply nth_In. rewrite (Lm _ Hr). auto. }
  assert (FT : forall y, In y (concat image) -> fits d y).
  { intros y Iy. apply in_concat in Iy. destruct Iy as (r & Hr & Hy). rewrite Forall_forall in Hf. specialize (Hf _ Hr).
    rewrite Forall_forall in Hf. auto. }
  destruct (signed_wrap d 0 Hd) as (M & HM & HM1 & HM2 & _).
  assert (HI : is_integer d) by (revert Hd; unfold is_signed, is_integer; destruct (kind d); tauto).
  assert (WR : forall z, 0 <= z < 2 * M -> wrap d z = if z <=? largest_of d then z else z - 2 * M).
  { intros z Hz. destruct (signed_wrap d z Hd) as (M' & _ & HM1' & _ & HM3). assert (M' = M) as -> by lia.
    destruct (Z.leb_spec z (largest_of d)); [apply wrap_span; auto; lia|apply HM3; lia]. }
  pose proof (FT _ I1) as F1. pose proof (FT _ I2) as F2. pose proof (U1 _ I2) as LH. unfold fits in F1, F2.
  set (sc := wrap d (hi - lo)). assert (SC : sc = if hi - lo <=? largest_of d then hi - lo else hi - lo - 2 * M) by (apply WR; lia).
  destruct (Z.eqb_spec sc 0) as [Z0|NZ]; [discriminate|].
  assert (SA : Z.abs sc <= hi - lo) by (destruct (Z.leb_spec (hi - lo) (largest_of d)); lia).
  set (xs := map (map (fun y => ndiv (Qc_ofZ (wrap d (y - lo))) (Qc_ofZ sc))) image).
  assert (Rmap : forall f : Z -> Qc, rect n m (map (map f) image)).
  { intros f. split; [rewrite map_length; auto|]. rewrite Forall_map. eapply Forall_impl; [|exact Lm]. intros r Hr. rewrite map_length. exact Hr. }
  assert (Hxs : rect n m xs) by apply Rmap.
  set (im := map (map Qc_ofZ) image). assert (Him : rect n m im) by apply Rmap.
  destruct (modes2 _ _ _ _ _ _) as [comps|] eqn:EM; cbn [bind]; [|discriminate].
  destruct (modes2_spec n m (fun r => sift2 sbs c (Z.to_nat (MAX_ITERATION2 c)) 0 0 r (izeros im)) (fun _ _ => True)
    im xs k Hxs) with (fuel := fuel) (IMF := @nil img) (R := comps) as (F & P & NE & LM); auto.
  { intros r y b Hr E. split; [|auto].
    eapply (sift2_any sbs c n m Hsf Hn) in E; auto; [apply E|apply rect_zeros; auto]. }
  { intros l c0 r EQ. destruct l; discriminate. }
  intros E. apply ok_inv in E. subst rows. exists lo, hi. split; [apply PIX; auto|]. split; [apply PIX; auto|].
  destruct (finish_sum n m xs comps (Qc_ofZ sc) (Qc_ofZ lo) Hxs F NE) as [FR FS]. split; [exact FR|].
  intros i j Hi Hj. assert (Iy : In (zpixel image i j) (concat image)) by (apply PIX; eauto).
  pose proof (U1 _ Iy) as YH. pose proof (U2 _ Iy) as YL. split; [lia|].
  apply (within_mono (tol * Qc_abs (Qc_ofZ sc))%Qc).
  { rewrite !(Qcmult_comm tol). apply Qcmult_le_compat_r; [|vm_compute; discriminate].
    assert (A : Qc_abs (Qc_ofZ sc) = Qc_ofZ (Z.abs sc)).
    { destruct (Z.abs_spec sc) as [[Hs ->]|[Hs ->]]; [apply Qc_abs_ofZ; auto|]. unfold Qc_abs.
      rewrite (proj2 (Qc_ltb_lt _ _)); [|change 0%Qc with (Qc_ofZ 0); apply Qc_ofZ_lt; auto].
      change (- sc) with (0 - sc). rewrite Qc_ofZ_sub. change (Qc_ofZ 0) with 0%Qc. ring. }
    rewrite A. apply Qc_ofZ_le. auto. }
  specialize (FS i j Hi Hj).
  assert (ND : Qc_ofZ sc <> 0%Qc) by (change 0%Qc with (Qc_ofZ 0); rewrite Qc_ofZ_inj; auto).
  assert (EV : (pixel xs i j * Qc_ofZ sc + Qc_ofZ lo)%Qc = Qc_ofZ (if zpixel image i j - lo <=? largest_of d then zpixel image i j else zpixel image i j - 2 * (largest_of d + 1))).
  { unfold pixel, xs, zpixel. set (f := fun y => ndiv (Qc_ofZ (wrap d (y - lo))) (Qc_ofZ sc)).
    rewrite (nth_indep _ 0%Qc (f 0)). 2:{ rewrite (rect_row n m) by auto. auto. }
    change (@nil Qc) with (map f []). rewrite map_nth, map_nth. unfold f. fold (zpixel image i j).
    change ndiv with Qcdiv. replace (Qc_ofZ (wrap d (zpixel image i j - lo)) / Qc_ofZ sc * Qc_ofZ sc)%Qc with (Qc_ofZ (wrap d (zpixel image i j - lo))) by (field; exact ND).
    rewrite <- Qc_ofZ_add. f_equal. rewrite WR by lia. destruct (Z.leb_spec (zpixel image i j - lo) (largest_of d)); lia. }
  rewrite EV in FS. exact FS.
Qed.

Lemma unsigned_span d l : is_unsigned d -> Forall (fits d) l -> span_fits d l.
Proof.
  intros Hd Hf x y Hx Hy. rewrite Forall_forall in Hf. pose proof (Hf _ Hx) as A. pose proof (Hf _ Hy) as B.
  unfold fits, lowest_of, is_unsigned in *. destruct (kind d); try contradiction. lia.
Qed.
Lemma unsigned_integer d : is_unsigned d -> is_integer d.
Proof. unfold is_unsigned, is_integer. destruct (kind d); tauto. Qed.
