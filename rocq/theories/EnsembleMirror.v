(** * EnsembleMirror: EEMD and CEEMDAN of a signal turned over or around. *)
From Verif Require Import Py PyFacts QcFacts Emd Eemd Ceemdan Spec SymSpec EmdSym EmdProofs EmdExact EemdSpec EemdProofs CeemdanSpec CeemdanProofs Reverse ReverseEmd
  EnsembleUnit MirrorSpec.
From Coq Require Import QArith Qcanon Lia Permutation.
Open Scope Z_scope.

Lemma reshape_length (v : list Qc) n : forall m, length v = (m * n)%nat -> forall r, In r (reshape m n v) -> length r = n.
Proof.
  intros m. revert v. induction m as [|m IH]; intros v L r; cbn [reshape]; [intros []|]. cbn [Nat.mul] in L. intros [<-|Hr].
  - rewrite firstn_length. lia.
  - apply (IH (skipn n v)); auto. rewrite skipn_length. lia.
Qed.
Lemma reshape_map (f : Qc -> Qc) n m : forall v : list Qc, reshape m n (map f v) = map (map f) (reshape m n v).
Proof. induction m as [|m IH]; intros v; cbn [reshape map]; auto. rewrite firstn_map, skipn_map, IH. reflexivity. Qed.
Lemma all_noises_length {G} (gen : generator Qc G) c g n N g' : sized gen -> all_noises gen c g n = (Ok N, g') -> forall v, In v N -> length v = n.
Proof.
  intros Hs. unfold all_noises, c_generate_noise. set (m := Z.to_nat (c_trials c)). destruct (c_noise_kind c); [| |discriminate].
  all: destruct (c_trials c <? 0); [discriminate|].
  - destruct (Hs g (noise_scale c) (m * n)%nat) as [L _]. destruct (normal gen g _ _) as [w g2]. intros E. apply pair_inv in E as [E _]. apply ok_inv in E.
    subst N. apply reshape_length. exact L.
  - destruct (Hs g (noise_scale c) (m * n)%nat) as [_ L]. match goal with |- context [uniform gen g ?a ?b _] => specialize (L a b); destruct (uniform gen g a b _) as [w g2] end.
    intros E. apply pair_inv in E as [E _]. apply ok_inv in E. subst N. apply reshape_length. exact L.
Qed.

Section Turn.
Context (t : list Qc -> list Qc) (Ht : turning t).
Notation vec := (list Qc).
Notation rows := (list (list Qc)).

Lemma t_length v : length (t v) = length v.
Proof. destruct Ht as [-> | ->]; [apply map_length|apply rev_length]. Qed.
Lemma t_vadd x y : length x = length y -> t (vadd x y) = vadd (t x) (t y).
Proof.
  destruct Ht as [-> | ->]; intros L; [|unfold vadd; symmetry; apply map2_rev; auto].
  revert y L. induction x as [|a x IH]; intros [|b y] L; try discriminate; auto. cbn. f_equal; [ring|]. apply IH. cbn in L. lia.
Qed.
Lemma t_vsub x y : length x = length y -> t (vsub x y) = vsub (t x) (t y).
Proof.
  destruct Ht as [-> | ->]; intros L; [|unfold vsub; symmetry; apply map2_rev; auto].
  revert y L. induction x as [|a x IH]; intros [|b y] L; try discriminate; auto. cbn. f_equal; [ring|]. apply IH. cbn in L. lia.
Qed.
Lemma t_div s v : t (map (fun x => ndiv x s) v) = map (fun x => ndiv x s) (t v).
Proof.
  destruct Ht as [-> | ->]; [|symmetry; apply map_rev]. rewrite !map_map. apply map_ext. intros. num_qc. unfold Qcdiv. ring.
Qed.
Lemma t_mul s v : t (map (fun x => nmul x s) v) = map (fun x => nmul x s) (t v).
Proof. destruct Ht as [-> | ->]; [|symmetry; apply map_rev]. rewrite !map_map. apply map_ext. intros. num_qc. ring. Qed.
Lemma t_scale s v : t (vscale s v) = vscale s (t v).
Proof. unfold vscale. destruct Ht as [-> | ->]; [|symmetry; apply map_rev]. rewrite !map_map. apply map_ext. intros. num_qc. ring. Qed.
Lemma t_zeros n : t (vzeros n) = vzeros n.
Proof.
  unfold vzeros. destruct Ht as [-> | ->]; num_qc.
  - induction n as [|n IH]; cbn; auto. f_equal; auto.
  - induction n as [|n IH]; cbn; auto. rewrite IH. symmetry. exact (repeat_cons n 0%Qc).
Qed.
Lemma t_broadcast (f : Qc -> Qc -> Qc) x y z : f = nadd \/ f = nsub -> broadcast2 f x y = Ok z -> broadcast2 f (t x) (t y) = Ok (t z).
Proof.
  intros Hf. unfold broadcast2. rewrite !t_length. destruct (Nat.eqb (length x) (length y)) eqn:EL.
  - apply Nat.eqb_eq in EL. intros E. apply ok_inv in E. subst z. f_equal. destruct Hf as [-> | ->]; symmetry; [apply t_vadd|apply t_vsub]; auto.
  - assert (T1 : forall a, exists b, t [a] = [b] /\ forall v, t (map (f a) v) = map (f b) (t v) /\ t (map (fun u => f u a) v) = map (fun u => f u b) (t v)).
    { intros a. destruct Ht as [-> | ->].
      - exists (- a)%Qc. split; auto. intros v. rewrite !map_map. split; apply map_ext; intros u; destruct Hf as [-> | ->]; num_qc; ring.
      - exists a. split; auto. intros v. split; symmetry; apply map_rev. }
    assert (T2 : forall a b v, exists a' b' v', t (a :: b :: v) = a' :: b' :: v').
    { intros a b v. pose proof (t_length (a :: b :: v)) as L. destruct (t (a :: b :: v)) as [|a' [|b' v']]; try discriminate L. eauto. }
    assert (T0 : t [] = []) by (destruct Ht as [-> | ->]; reflexivity).
    destruct x as [|a [|b x]], y as [|u [|w y]]; try discriminate; intros E; apply ok_inv in E; subst z.
    + destruct (T1 u) as (u' & -> & V). rewrite T0. cbn. rewrite T0. reflexivity.
    + destruct (T1 a) as (a' & -> & V). rewrite <- (proj1 (V _)). reflexivity.
    + destruct (T1 a) as (a' & -> & V). rewrite <- (proj1 (V _)). reflexivity.
    + destruct (T1 u) as (u' & -> & V). rewrite <- (proj2 (V _)). destruct (T2 a b x) as (? & ? & ? & ->). reflexivity.
Qed.
Lemma t_range v mx mn : np_max v = Ok mx -> np_min v = Ok mn ->
  exists mx' mn', np_max (t v) = Ok mx' /\ np_min (t v) = Ok mn' /\ (mx' - mn' = mx - mn)%Qc.
Proof.
  intros E1 E2. destruct (t v) as [|a l] eqn:ET.
  { pose proof (t_length v) as L. rewrite ET in L. destruct v; [discriminate E1|discriminate L]. }
  destruct (np_max (a :: l)) as [mx'|] eqn:E1'; [|destruct l; discriminate E1'].
  destruct (np_min (a :: l)) as [mn'|] eqn:E2'; [|destruct l; discriminate E2'].
  exists mx', mn'. split; auto. split; auto.
  destruct (max_of_spread _ _ _ E1 E2) as (I1 & I2 & B). destruct (max_of_spread _ _ _ E1' E2') as (I1' & I2' & B'). rewrite <- ET in *.
  destruct Ht as [-> | ->].
  - assert (A1 : mx' = (- mn)%Qc).
    { apply Qcle_antisym.
      - apply in_map_iff in I1' as (x & <- & Hx). pose proof (proj1 (B _ Hx)). qclra.
      - apply B'. apply in_map. auto. }
    assert (A2 : mn' = (- mx)%Qc).
    { apply Qcle_antisym.
      - apply B'. apply in_map. auto.
      - apply in_map_iff in I2' as (x & <- & Hx). pose proof (proj2 (B _ Hx)). qclra. }
    subst. ring.
  - assert (A1 : mx' = mx).
    { apply Qcle_antisym; [apply B; apply in_rev; auto|apply B'; apply -> in_rev; auto]. }
    assert (A2 : mn' = mn).
    { apply Qcle_antisym; [apply B'; apply -> in_rev; auto|apply B; apply in_rev; auto]. }
    subst. reflexivity.
Qed.
Lemma fold_vadd_t E : forall x, (forall r, In r E -> length r = length x) -> fold_left vadd (map t E) (t x) = t (fold_left vadd E x).
Proof.
  induction E as [|r E IH]; intros x L; cbn [map fold_left]; auto. pose proof (L r (or_introl eq_refl)) as Lr.
  rewrite <- t_vadd by auto. apply IH. intros r' Hr. rewrite vadd_length by auto. apply L. right. auto.
Qed.
Lemma t_sum_rows n E : (forall r, In r E -> length r = n) -> sum_rows n (map t E) = t (sum_rows n E).
Proof. intros L. unfold sum_rows. rewrite <- (t_zeros n) at 1. apply fold_vadd_t. rewrite vzeros_length. auto. Qed.
Lemma lens_t n l : forallb (fun y : vec => Nat.eqb (length y) n) (map t l) = forallb (fun y => Nat.eqb (length y) n) l.
Proof. induction l as [|y l IH]; [reflexivity|]. cbn [map forallb]. rewrite IH, t_length. reflexivity. Qed.
Lemma np_array_t l r : np_array l = Ok r -> np_array (map t l) = Ok (map t r).
Proof.
  destruct l as [|x l]; cbn [np_array map]; [intros E; apply ok_inv in E; subst; reflexivity|].
  rewrite t_length, lens_t. destruct (forallb _ l) eqn:F; [|discriminate]. intros E. apply ok_inv in E. subst r. reflexivity.
Qed.
Lemma np_array_even (l r : rows) x : np_array (x :: l) = Ok r -> forall v, In v (x :: l) -> length v = length x.
Proof.
  cbn [np_array]. destruct (forallb _ l) eqn:F; [|discriminate]. intros _ v [<-|Hv]; auto. rewrite forallb_forall in F. apply Nat.eqb_eq, F, Hv.
Qed.
Lemma mean_rows_t l r : np_array l = Ok r -> mean_rows (map t l) = t (mean_rows l).
Proof.
  destruct l as [|x l]; [intros _; unfold mean_rows; cbn; destruct Ht as [-> | ->]; reflexivity|]. intros HA. unfold mean_rows. cbn [map].
  rewrite t_length. change (t x :: map t l) with (map t (x :: l)). rewrite t_sum_rows by (apply (np_array_even _ _ _ HA)).
  unfold zlen. rewrite map_length. symmetry. apply t_div.
Qed.

(** ** EEMD *)
Definition tt_ (u : rows * option vec) := (map t (fst u), option_map t (snd u)).
Definition td (d : list (Z * rows)) := map (fun p => (fst p, map t (snd p))) d.

Section EEMD.
Context {G : Type} (gen gen' : generator Qc G) (Hg : draws_turned t gen gen') (Hsz : sized gen).
Context {D D' : Type} (dec : decomposer Qc D) (dec' : decomposer Qc D').

Lemma noise_t c g s n : generate_noise gen' c g s n =
  (match fst (generate_noise gen c g s n) with Ok v => Ok (t v) | Raise e => Raise e end, snd (generate_noise gen c g s n)).
Proof.
  unfold generate_noise. destruct (Hg g n) as [H1 H2]. destruct (noise_kind c).
  - rewrite H1. destruct (normal gen g s n). reflexivity.
  - rewrite H2. destruct (uniform gen g (ndiv (nopp s) n2) (ndiv s n2) n). reflexivity.
  - reflexivity.
Qed.
Lemma noise_size c g s n v g' : generate_noise gen c g s n = (Ok v, g') -> length v = n.
Proof.
  unfold generate_noise. destruct (Hsz g s n) as [L1 L2]. destruct (noise_kind c).
  - destruct (normal gen g s n) as [w g2]. intros EE. apply pair_inv in EE as [EE _]. apply ok_inv in EE. subst v. exact L1.
  - match goal with |- context [uniform gen g ?a ?b n] => pose proof (L2 a b) as L3; destruct (uniform gen g a b n) as [w g2] end.
    intros EE. apply pair_inv in EE as [EE _]. apply ok_inv in EE. subst v. exact L3.
  - discriminate.
Qed.

Section Run.
Context (c : eemd_config Qc) (s : Qc) (S T : vec) (m : Z).
Hypothesis HR : forall g v g', generate_noise gen c g s (length S) = (Ok v, g') -> turns_inner t dec dec' T m (vadd S v).

Lemma trial_t g d u g1 d1 d' : trial_update gen dec c s S T m (g, d) = (Ok u, (g1, d1)) ->
  exists d1', trial_update gen' dec' c s (t S) T m (g, d') = (Ok (tt_ u), (g1, d1')).
Proof.
  unfold trial_update. cbn [fst snd]. rewrite t_length, noise_t.
  destruct (generate_noise gen c g s (length S)) as [[v|e] g2] eqn:EN; [|discriminate]. cbn [fst snd].
  pose proof (noise_size _ _ _ _ _ _ EN) as L. rewrite <- t_vadd by auto. destruct (run dec d (vadd S v) T m) as [[rows|e] d2] eqn:ER; [|discriminate].
  destruct (HR _ _ _ EN _ _ _ ER d') as (d2' & ER' & ET). rewrite ER'.
  destruct (separate_trends c).
  - destruct (trend_of dec d2) as [[i tr]|e]; [|discriminate]. rewrite (ET _ _ eq_refl). intros E. inversion E. subst.
    eexists. reflexivity.
  - intros E. inversion E. subst. eexists. reflexivity.
Qed.
Lemma trials_t n : forall g d ts g1 d1, run_trials (trial_update gen dec c s S T m) n (g, d) = (ts, None, (g1, d1)) ->
  forall d', exists d1', run_trials (trial_update gen' dec' c s (t S) T m) n (g, d') = (map tt_ ts, None, (g1, d1')).
Proof.
  induction n as [|n IH]; intros g d ts g1 d1; cbn [run_trials].
  - intros E d'. inversion E. subst. eexists. reflexivity.
  - destruct (trial_update gen dec c s S T m (g, d)) as [[u|e] [g2 d2]] eqn:E1; [|discriminate].
    destruct (run_trials _ n (g2, d2)) as [[ts' x] [g3 d3]] eqn:E2. intros E d'. inversion E. subst.
    destruct (trial_t _ _ _ _ _ d' E1) as (d2' & ->). destruct (IH _ _ _ _ _ E2 d2') as (d3' & ->). eexists. reflexivity.
Qed.
Lemma chunks_t lens : forall g d ts, pool_chunks (trial_update gen dec c s S T m) (g, d) lens = (ts, None) ->
  forall d', pool_chunks (trial_update gen' dec' c s (t S) T m) (g, d') lens = (map tt_ ts, None).
Proof.
  induction lens as [|n lens IH]; intros g d ts; cbn [pool_chunks].
  - intros E d'. inversion E. reflexivity.
  - destruct (run_trials _ n (g, d)) as [[ts1 [e|]] [g3 d3]] eqn:E2; [discriminate|].
    destruct (pool_chunks (trial_update gen dec c s S T m) (g, d) lens) as [ts2 x2] eqn:E3. intros E d'. inversion E. subst.
    destruct (trials_t _ _ _ _ _ _ E2 d') as (d3' & ->). rewrite (IH _ _ _ E3 d'). rewrite map_app. reflexivity.
Qed.
End Run.

Lemma dict_append_t d i v : dict_append (td d) i (t v) = td (dict_append d i v).
Proof.
  induction d as [|[j l] d IH]; [reflexivity|]. cbn [td map dict_append fst snd]. destruct (j =? i); cbn [td map fst snd].
  - rewrite map_app. reflexivity.
  - f_equal. exact IH.
Qed.
Lemma enumerate_t l : forall i d, enumerate_append i (td d) (map t l) = td (enumerate_append i d l).
Proof. induction l as [|x l IH]; intros i d; [reflexivity|]. cbn [map enumerate_append]. rewrite dict_append_t, IH. reflexivity. Qed.
Lemma collect_t ts : collect (map tt_ ts) = td (collect ts).
Proof.
  unfold collect. change (@nil (Z * list (list Qc))) with (td []) at 1. generalize (@nil (Z * list (list Qc))).
  induction ts as [|[l [v|]] ts IH]; intros d; [reflexivity| |].
  - cbn [map fold_left]. rewrite <- IH. f_equal. unfold collect_one, tt_. cbn [fst snd option_map]. rewrite dict_append_t, enumerate_t. reflexivity.
  - cbn [map fold_left]. rewrite <- IH. f_equal. unfold collect_one, tt_. cbn [fst snd option_map]. rewrite enumerate_t. reflexivity.
Qed.
Lemma dict_get_t d i : dict_get (td d) i = option_map (map t) (dict_get d i).
Proof. induction d as [|[j l] d IH]; [reflexivity|]. cbn [td map dict_get fst snd]. destruct (j =? i); auto. Qed.
Lemma dict_del_t d i : dict_del (td d) i = td (dict_del d i).
Proof.
  induction d as [|[j l] d IH]; [reflexivity|]. unfold dict_del in *. cbn [td map filter fst snd]. destruct (negb (j =? i)).
  - cbn [map fst snd]. f_equal. exact IH.
  - exact IH.
Qed.
Lemma dict_set_t d i l : dict_set (td d) i (map t l) = td (dict_set d i l).
Proof. induction d as [|[j l'] d IH]; [reflexivity|]. cbn [td map dict_set fst snd]. destruct (j =? i); cbn [map fst snd]; auto. f_equal. exact IH. Qed.
Lemma rename_t d : rename_trend (td d) = td (rename_trend d).
Proof.
  unfold rename_trend. rewrite dict_get_t. destruct (dict_get d (-1)) as [l|]; cbn [option_map]; auto.
  assert (L : forall x, zlen (td x) = zlen x) by (intros; unfold zlen, td; rewrite map_length; reflexivity).
  rewrite dict_del_t, L, dict_set_t. reflexivity.
Qed.
Lemma arrays_t d : forall l, mapM (fun p : Z * rows => np_array (snd p)) d = Ok l ->
  (exists l', mapM (fun p => np_array (snd p)) (td d) = Ok l') /\ map (fun p => mean_rows (snd p)) (td d) = map t (map (fun p => mean_rows (snd p)) d).
Proof.
  induction d as [|p d IH]; intros l; cbn [td map mapM]; [split; eauto|]. intros E. apply bind_ok in E as (x & E1 & E).
  apply bind_ok in E as (y & E2 & E). cbn [snd]. rewrite (np_array_t _ _ E1). cbn [bind]. destruct (IH _ E2) as ((l' & E3) & E4).
  unfold td in E3, E4. rewrite E3. cbn [bind]. split; eauto. rewrite (mean_rows_t _ _ E1). f_equal. exact E4.
Qed.
Lemma minus_rows_t S E E' r : np_array E' = Ok E -> minus_rows S E = Ok r -> minus_rows (t S) (map t E) = Ok (t r).
Proof.
  intros HA. assert (E' = E) as -> by (destruct E' as [|x l]; cbn in HA; [|destruct (forallb _ _); [|discriminate]]; apply ok_inv in HA; auto).
  destruct E as [|x E]; cbn [minus_rows map].
  - intros H. apply ok_inv in H. subst r. f_equal.
    destruct Ht as [-> | ->]; [|apply map_rev]. rewrite !map_map. apply map_ext. intros y. num_qc. ring.
  - rewrite t_length. change (t x :: map t E) with (map t (x :: E)). rewrite t_sum_rows by (apply (np_array_even _ _ _ HA)).
    apply t_broadcast. auto.
Qed.

Theorem eemd_turn c o o2 S T m E o' hi lo : random o2 = random o ->
  In hi S -> In lo S -> (forall x, In x S -> lo <= x <= hi)%Qc ->
  (forall T' g v g', match T with Some u => T' = u | None => timeline (length S) = Ok T' end ->
     generate_noise gen c g (noise_width c * (hi - lo))%Qc (length S) = (Ok v, g') ->
     turns_inner t dec dec' T' m (map2 Qcplus S v)) ->
  eemd gen dec c o S T m = (Ok E, o') ->
  exists o2', eemd gen' dec' c o2 (t S) T m = (Ok (map t E), o2') /\ random o2' = random o' /\
    exists r, eemd_imfs_and_residue o' = Ok (E, r) /\ eemd_imfs_and_residue o2' = Ok (map t E, t r).
Proof.
  intros Ho Ih Il HB HR. unfold eemd. rewrite t_length.
  destruct (match T with Some u => Ok u | None => timeline (length S) end) as [T'|] eqn:ET; [|discriminate]. cbn [bind].
  destruct (np_max S) as [mx|] eqn:Emx; [|discriminate]. destruct (np_min S) as [mn|] eqn:Emn; [|discriminate]. cbn [bind].
  destruct (t_range S mx mn Emx Emn) as (mx' & mn' & -> & -> & Ew). cbn [bind]. num_qc. rewrite Ew.
  destruct (max_of_spread S mx mn Emx Emn) as (I1 & I2 & B).
  assert (mx = hi) as -> by (apply Qcle_antisym; [apply HB; auto|apply B; auto]).
  assert (mn = lo) as -> by (apply Qcle_antisym; [apply B; auto|apply HB; auto]).
  assert (A : Qc_abs (hi - lo) = (hi - lo)%Qc).
  { unfold Qc_abs. rewrite (proj2 (Qc_ltb_ge _ _)); auto. pose proof (proj1 (B _ I1)). qclra. }
  rewrite A. set (s := (noise_width c * (hi - lo))%Qc) in *.
  assert (HR' : forall g v g', generate_noise gen c g s (length S) = (Ok v, g') -> turns_inner t dec dec' T' m (vadd S v)).
  { intros g v g' EN. apply (HR T' g v g'); auto. destruct T; [apply ok_inv in ET; auto|auto]. }
  clear HR. set (step := trial_update gen dec c s S T' m). set (step' := trial_update gen' dec' c s (t S) T' m).
  destruct (if parallel c then let '(ts, x) := pool_map (processes c) step (trials c) (random o, inner o) in (ts, x, (random o, inner o))
     else run_trials step (Z.to_nat (trials c)) (random o, inner o)) as [[ts x] st] eqn:ER.
  destruct x as [e|]; [discriminate|].
  assert (RUN : exists st', (if parallel c then let '(ts, x) := pool_map (processes c) step' (trials c) (random o2, inner o2) in (ts, x, (random o2, inner o2))
     else run_trials step' (Z.to_nat (trials c)) (random o2, inner o2)) = (map tt_ ts, None, st') /\ fst st' = fst st).
  { rewrite Ho. destruct (parallel c).
    - unfold pool_map in *. destruct (processes c <? 1); [discriminate|].
      destruct (pool_chunks step _ _) as [ts' x'] eqn:EP. inversion ER. subst ts' x' st.
      unfold step'. rewrite (chunks_t c s S T' m HR' _ _ _ _ EP (inner o2)). eexists. split; reflexivity.
    - unfold step'. destruct st as [g1 d1]. destruct (trials_t c s S T' m HR' _ _ _ _ _ _ ER (inner o2)) as (d1' & ->).
      eexists. split; reflexivity. }
  destruct RUN as (st' & -> & Est). cbn [all_imfs random inner E_IMF e_residue].
  rewrite collect_t, rename_t. set (d := rename_trend (collect ts)).
  destruct (mapM _ d) as [l|] eqn:EA; [|discriminate]. destruct (arrays_t _ _ EA) as ((l' & ->) & EM').
  destruct (ensemble_mean d) as [F|] eqn:EM; [|discriminate].
  assert (EM2 : ensemble_mean (td d) = Ok (map t F)).
  { unfold ensemble_mean in *. rewrite EM'. apply np_array_t. exact EM. }
  rewrite EM2. destruct (minus_rows S F) as [r|] eqn:EMR; [|discriminate]. rewrite (minus_rows_t _ _ _ _ EM EMR).
  intros EQ. apply pair_inv in EQ as [EQ1 EQ2]. apply ok_inv in EQ1. subst F o'. eexists. split; [reflexivity|].
  cbn [random e_residue E_IMF]. split; auto. exists r. auto.
Qed.
End EEMD.

(** ** CEEMDAN *)
Section CEEMDAN.
Context (std : vec -> Qc) (Hstd : forall v, std (t v) = std v).
Context (n : nat) (Hn : (2 <= n)%nat).
Context (emd_of emd_of' : vec -> option vec -> Z -> res rows).
Context (He : forall X T m R, length X = n -> emd_of X T m = Ok R -> emd_of' (t X) T m = Ok (map t R)).
Context (arrival arrival' : list rows -> list rows) (Ha : reorders arrival) (Ha' : reorders arrival').
Context (c : ceemdan_config Qc).
Notation tN := (map (map t)).

Lemma t_div_rows M x : div_rows (map t M) x = map t (div_rows M x).
Proof. unfold div_rows. rewrite !map_map. apply map_ext. intros v. symmetry. apply t_div. Qed.
Lemma broadcast_length f (x y z : vec) : length x = n -> broadcast2 f x y = Ok z -> length z = n.
Proof.
  intros L. unfold broadcast2. destruct (Nat.eqb (length x) (length y)) eqn:EL.
  - apply Nat.eqb_eq in EL. intros E. apply ok_inv in E. subst z. rewrite map2_length. lia.
  - destruct x as [|a [|b x]]; cbn [length] in L; try lia. destruct y as [|u [|w y]]; try discriminate.
    intros E. apply ok_inv in E. subst z. rewrite map_length. exact L.
Qed.
Lemma t_iadd x y z : iadd x y = Ok z -> iadd (t x) (t y) = Ok (t z) /\ length z = length x.
Proof.
  unfold iadd. intros E. apply bind_ok in E as (w & E1 & E). destruct (Nat.eqb (length w) (length x)) eqn:EL; [|discriminate].
  apply ok_inv in E. subst w. rewrite (t_broadcast _ _ _ _ (or_introl eq_refl) E1). cbn [bind]. rewrite !t_length, EL.
  apply Nat.eqb_eq in EL. auto.
Qed.
Lemma decompose_t N NE : (forall v, In v N -> length v = n) -> decompose_noise std emd_of c N = Ok NE ->
  decompose_noise std emd_of' c (map t N) = Ok (tN NE).
Proof.
  intros LN. unfold decompose_noise. destruct (open_pool c) as [u|]; [|discriminate]. cbn [bind].
  assert (M : forall all, mapM (fun x => emd_of x None (-1)) N = Ok all -> mapM (fun x => emd_of' x None (-1)) (map t N) = Ok (tN all)).
  { clear NE. induction N as [|v N IH]; intros all; cbn [mapM map]; [intros E; apply ok_inv in E; subst; reflexivity|].
    intros E. apply bind_ok in E as (R & E1 & E). apply bind_ok in E as (Rs & E2 & E). apply ok_inv in E. subst all.
    rewrite (He _ _ _ _ (LN v (or_introl eq_refl)) E1). cbn [bind]. rewrite (IH (fun w Hw => LN w (or_intror Hw)) _ E2). reflexivity. }
  destruct (mapM _ N) as [all|]; [|discriminate]. rewrite (M _ eq_refl). cbn [bind]. clear M.
  destruct (beta_progress c); [|intros E; apply ok_inv in E; subst; reflexivity].
  intros E. apply bind_ok in E as (sd & E1 & E). apply ok_inv in E. subst NE.
  assert (M : forall all sd, mapM (fun imfs => let! first := py_get imfs 0 in Ok (std first)) all = Ok sd ->
    mapM (fun imfs => let! first := py_get imfs 0 in Ok (std first)) (tN all) = Ok sd /\ map2 div_rows (tN all) sd = tN (map2 div_rows all sd)).
  { clear all sd E1. induction all as [|R all IH]; intros sd; cbn [mapM map]; [intros E; apply ok_inv in E; subst; auto|].
    intros E. apply bind_ok in E as (x & E1 & E). apply bind_ok in E1 as (fi & E0 & E1). apply ok_inv in E1. subst x.
    apply bind_ok in E as (sd' & E2 & E). apply ok_inv in E. subst sd. destruct (IH _ E2) as [E3 E4].
    rewrite (py_get_map t _ _ _ E0). cbn [bind]. rewrite E3. cbn [bind]. rewrite Hstd. split; auto. cbn [map2 map]. rewrite E4, t_div_rows. reflexivity. }
  destruct (M _ _ E1) as [-> E3]. cbn [bind]. rewrite E3. reflexivity.
Qed.
Lemma c_trial_t NE S T i R : length S = n -> c_trial emd_of c NE S T i = Ok R -> c_trial emd_of' c (tN NE) (t S) T i = Ok (map t R).
Proof.
  intros LS. unfold c_trial. intros E. apply bind_ok in E as (I & E1 & E). apply bind_ok in E as (f & E2 & E). apply bind_ok in E as (x & E3 & E).
  rewrite (py_get_map (map t) _ _ _ E1). cbn [bind]. rewrite (py_get_map t _ _ _ E2). cbn [bind]. rewrite <- t_scale.
  rewrite (t_broadcast _ _ _ _ (or_introl eq_refl) E3). cbn [bind]. apply He; auto. apply (broadcast_length _ _ _ _ LS E3).
Qed.
Lemma add_rows_t M : forall E, (forall v, In v E -> length v = n) -> (forall v, In v M -> length v = n) ->
  add_rows n (map t E) (map t M) = map t (add_rows n E M) /\ forall v, In v (add_rows n E M) -> length v = n.
Proof.
  induction M as [|i M IH]; intros [|e E] LE LM; cbn [map add_rows].
  - split; auto.
  - split; auto.
  - destruct (IH [] LE (fun v Hv => LM v (or_intror Hv))) as [E1 E2]. pose proof (LM i (or_introl eq_refl)) as Li.
    assert (L : length (vzeros n : vec) = length i) by (rewrite vzeros_length; auto). split.
    + cbn [map] in E1. rewrite E1. f_equal. rewrite <- (t_zeros n) at 1. symmetry. apply t_vadd; auto.
    + intros v [<-|Hv]; auto. rewrite vadd_length; auto. apply vzeros_length.
  - destruct (IH E (fun v Hv => LE v (or_intror Hv)) (fun v Hv => LM v (or_intror Hv))) as [E1 E2].
    pose proof (LM i (or_introl eq_refl)) as Li. pose proof (LE e (or_introl eq_refl)) as Le. split.
    + rewrite E1. f_equal. symmetry. apply t_vadd; auto. congruence.
    + intros v [<-|Hv]; auto. rewrite vadd_length; auto. congruence.
Qed.
Lemma accumulate_t Rs : forall E F, (forall v, In v E -> length v = n) -> fold_left (accumulate n) Rs (Ok E) = Ok F ->
  fold_left (accumulate n) (tN Rs) (Ok (map t E)) = Ok (map t F) /\ forall v, In v F -> length v = n.
Proof.
  induction Rs as [|M Rs IH]; intros E F LE; cbn [fold_left map].
  - intros H. apply ok_inv in H. subst F. auto.
  - unfold accumulate at 2 4. cbn [bind]. rewrite lens_t. destruct (forallb _ M) eqn:FM.
    + assert (LM : forall v, In v M -> length v = n) by (intros v Hv; rewrite forallb_forall in FM; apply Nat.eqb_eq, FM, Hv).
      destruct (add_rows_t M E LE LM) as [-> L2]. apply IH. exact L2.
    + intros H. exfalso. clear -H. induction Rs as [|M' Rs IH]; [discriminate|]. apply IH. exact H.
Qed.
Lemma inner_t NE S T F : length S = n -> inner_eemd emd_of arrival c NE S T = Ok F ->
  inner_eemd emd_of' arrival' c (tN NE) (t S) T = Ok (map t F) /\ forall v, In v F -> length v = n.
Proof.
  intros LS. unfold inner_eemd. rewrite t_length, LS. destruct (open_pool c); [|discriminate]. cbn [bind].
  set (T' := match T with Some u => u | None => _ end).
  destruct (mapM (c_trial emd_of c NE S T') (zrange 0 (c_trials c))) as [Rs|] eqn:EM; [|discriminate]. cbn [bind].
  assert (EM' : mapM (c_trial emd_of' c (tN NE) (t S) T') (zrange 0 (c_trials c)) = Ok (tN Rs)).
  { revert Rs EM. induction (zrange 0 (c_trials c)) as [|i l IH]; intros Rs; cbn [mapM]; [intros E; apply ok_inv in E; subst; reflexivity|].
    intros E. apply bind_ok in E as (R & E1 & E). apply bind_ok in E as (Rs' & E2 & E). apply ok_inv in E. subst Rs.
    rewrite (c_trial_t _ _ _ _ _ LS E1). cbn [bind]. rewrite (IH _ E2). reflexivity. }
  rewrite EM'. cbn [bind].
  assert (P1 : Permutation (if c_parallel c then arrival Rs else Rs) Rs) by (destruct (c_parallel c); auto; symmetry; apply Ha).
  assert (P2 : Permutation (if c_parallel c then arrival' (tN Rs) else tN Rs) (tN Rs)) by (destruct (c_parallel c); auto; symmetry; apply Ha').
  rewrite (accumulate_perm _ _ _ _ P1), (accumulate_perm _ _ _ _ P2). intros E. apply bind_ok in E as (W & E1 & E). apply ok_inv in E. subst F.
  destruct (accumulate_t Rs [vzeros n] W) as [E2 L2]; auto.
  { intros v [<-|[]]. apply vzeros_length. }
  cbn [map] in E2. rewrite t_zeros in E2. rewrite E2. cbn [bind]. rewrite t_div_rows. split; auto.
  intros v Hv. unfold div_rows in Hv. apply in_map_iff in Hv as (w & <- & Hw). rewrite map_length. auto.
Qed.
Lemma t_power v : nsum (map nabs (t v)) = nsum (map nabs v).
Proof.
  destruct Ht as [-> | ->].
  - f_equal. rewrite map_map. apply map_ext. intros x. num_qc. replace (- x)%Qc with ((- (1)) * x)%Qc by ring. rewrite abs_mul.
    replace (Qc_abs (- (1))) with 1%Qc by reflexivity. ring.
  - rewrite map_rev. apply nsum_rev.
Qed.
Lemma t_residue S I : length S = n -> (forall v, In v I -> length v = n) ->
  vsub (t S) (sum_rows n (map t I)) = t (vsub S (sum_rows n I)) /\ length (vsub S (sum_rows n I)) = n.
Proof.
  intros LS LI. pose proof (sum_rows_length n I LI) as L. split; [|rewrite vsub_length; auto; congruence].
  rewrite t_sum_rows by auto. symmetry. apply t_vsub; auto. congruence.
Qed.
Lemma end_t S I m b : length S = n -> (forall v, In v I -> length v = n) ->
  c_end_condition emd_of c S I m = Ok b -> c_end_condition emd_of' c (t S) (map t I) m = Ok b.
Proof.
  intros LS LI. unfold c_end_condition. rewrite zlen_map, t_length, LS. destruct (_ && _); auto.
  destruct (t_residue S I LS LI) as [-> L]. set (R := vsub S (sum_rows n I)) in *. intros E. apply bind_ok in E as (W & E1 & E).
  rewrite (He _ _ _ _ L E1). cbn [bind]. rewrite zlen_map. destruct (zlen W =? 1); auto.
  apply bind_ok in E as (mx & E2 & E). apply bind_ok in E as (mn & E3 & E). destruct (t_range R mx mn E2 E3) as (mx' & mn' & -> & -> & Ew).
  cbn [bind]. rewrite t_power. num_qc. rewrite Ew. exact E.
Qed.
Lemma means_t NE T prev b k l : length prev = n -> forall a m, length a = n ->
  fold_left (mean_step emd_of c NE T prev b k) l (Ok a) = Ok m ->
  fold_left (mean_step emd_of' c (tN NE) T (t prev) b k) l (Ok (t a)) = Ok (t m) /\ length m = n.
Proof.
  intros Lp. induction l as [|i l IH]; intros a m La; cbn [fold_left].
  - intros E. apply ok_inv in E. subst m. auto.
  - destruct (mean_step emd_of c NE T prev b k (Ok a) i) as [a'|] eqn:E.
    + assert (E' : mean_step emd_of' c (tN NE) T (t prev) b k (Ok (t a)) i = Ok (t a') /\ length a' = n).
      { revert E. unfold mean_step. cbn [bind]. intros E. apply bind_ok in E as (I & E1 & E). apply bind_ok in E as (r & E2 & E).
        apply bind_ok in E as (R & E3 & E). apply bind_ok in E as (w & E4 & E). rewrite (py_get_map (map t) _ _ _ E1). cbn [bind]. rewrite zlen_map.
        assert (E2' : (if k <? zlen I then let! x := py_get (map t I) k in iadd (t prev) (vscale b x) else Ok (t prev)) = Ok (t r) /\ length r = n).
        { destruct (k <? zlen I).
          - apply bind_ok in E2 as (x & E5 & E2). rewrite (py_get_map t _ _ _ E5). cbn [bind]. rewrite <- t_scale.
            destruct (t_iadd _ _ _ E2) as [-> L]. split; auto. congruence.
          - apply ok_inv in E2. subst r. auto. }
        destruct E2' as [-> Lr]. cbn [bind]. rewrite (He _ _ _ _ Lr E3). cbn [bind]. rewrite (py_get_map t _ _ _ E4). cbn [bind].
        rewrite <- t_div. destruct (t_iadd _ _ _ E) as [-> L]. split; auto. congruence. }
      destruct E' as [-> L']. apply IH. exact L'.
    + intros H. exfalso. clear -H. induction l as [|j l IH]; [discriminate|]. apply IH. exact H.
Qed.
Lemma loop_t NE S T m : length S = n -> forall k I prev C, (forall v, In v I -> length v = n) -> length prev = n ->
  ceemdan_loop std emd_of k c NE S T m I prev = Ok C ->
  ceemdan_loop std emd_of' k c (tN NE) (t S) T m (map t I) (t prev) = Ok (map t C) /\ forall v, In v C -> length v = n.
Proof.
  intros LS. induction k as [|k IH]; intros I prev C LI Lp; cbn [ceemdan_loop].
  - intros E. apply ok_inv in E. subst C. auto.
  - intros E. apply bind_ok in E as (b & E1 & E). rewrite (end_t _ _ _ _ LS LI E1). cbn [bind]. destruct b.
    + apply ok_inv in E. subst C. auto.
    + apply bind_ok in E as (w & E2 & E). rewrite Hstd, zlen_map, t_length. rewrite LS in *.
      destruct (means_t _ _ _ _ _ _ Lp (vzeros n) w (vzeros_length n) E2) as [E3 Lw]. rewrite t_zeros in E3. rewrite E3. cbn [bind].
      assert (L2 : length (vsub prev w) = n) by (rewrite vsub_length; auto; congruence).
      specialize (IH (I ++ [vsub prev w]) w C). rewrite map_app in IH. cbn [map] in IH. rewrite t_vsub in IH by congruence. apply IH; auto.
      intros v Hv. apply in_app_iff in Hv as [Hv|[<-|[]]]; auto.
Qed.
Lemma rows_t N S T m C : (forall v, In v N -> length v = n) -> length S = n -> ceemdan_rows std emd_of arrival c N S T m = Ok C ->
  ceemdan_rows std emd_of' arrival' c (map t N) (t S) T m = Ok (map t C) /\ forall v, In v C -> length v = n.
Proof.
  intros LN LS. unfold ceemdan_rows. intros E. apply bind_ok in E as (NE & E1 & E). apply bind_ok in E as (F & E2 & E).
  apply bind_ok in E as (f & E3 & E). apply bind_ok in E as (I & E4 & E). apply ok_inv in E. subst C.
  rewrite (decompose_t _ _ LN E1). cbn [bind]. destruct (inner_t _ _ _ _ LS E2) as [-> LF]. cbn [bind].
  rewrite (py_get_map t _ _ _ E3). cbn [bind].
  assert (Lf : length f = n).
  { apply LF. unfold py_get in E3. destruct (_ <? 0); [discriminate|]. destruct (nth_error F _) eqn:EN; [|discriminate]. apply ok_inv in E3. subst. apply nth_error_In in EN. auto. }
  rewrite <- t_vsub by congruence. change [t f] with (map t [f]).
  assert (L1 : forall v, In v [f] -> length v = n) by (intros v [<-|[]]; exact Lf).
  assert (L2 : length (vsub S f) = n) by (rewrite vsub_length; congruence).
  destruct (loop_t NE S T m LS _ _ _ _ L1 L2 E4) as [-> LI]. cbn [bind].
  rewrite t_length, LS. destruct (t_residue S I LS LI) as [ER LR]. rewrite map_app. cbn [map]. rewrite ER. split; auto.
  intros v Hv. apply in_app_iff in Hv as [Hv|[<-|[]]]; auto.
Qed.

Theorem ceemdan_turn G (gen gen' : generator Qc G) o o2 S T m C o' N g : length S = n -> sized gen -> 
  all_noises gen c (c_random o) n = (Ok N, g) -> all_noises gen' c (c_random o2) n = (Ok (map t N), g) ->
  ceemdan gen std emd_of arrival c o S T m = (Ok C, o') ->
  exists o2', ceemdan gen' std emd_of' arrival' c o2 (t S) T m = (Ok (map t C), o2') /\ c_random o2' = c_random o' /\
    exists R, ceemdan_imfs_and_residue o' = Ok (C, R) /\ ceemdan_imfs_and_residue o2' = Ok (map t C, t R).
Proof.
  intros LS Hsz EN EN'. unfold ceemdan. rewrite Hstd, <- t_div, t_length. set (X := map (fun x => ndiv x (std S)) S).
  assert (LX : length X = n) by (unfold X; rewrite map_length; auto). rewrite LX, EN, EN'. cbn [bind].
  assert (LN : forall v, In v N -> length v = n) by (apply (all_noises_length gen _ _ _ _ _ Hsz EN)).
  destruct (ceemdan_rows std emd_of arrival c N X T m) as [Y|] eqn:ER; [|discriminate]. cbn [bind].
  destruct (rows_t _ _ _ _ _ LN LX ER) as [-> LY]. cbn [bind]. intros E. apply pair_inv in E as [E <-]. apply ok_inv in E. subst C.
  assert (EC : map (map (fun x => nmul x (std S))) (map t Y) = map t (map (map (fun x => nmul x (std S))) Y)).
  { rewrite !map_map. apply map_ext. intros v. symmetry. apply t_mul. }
  rewrite EC. eexists. split; [reflexivity|]. cbn [c_random]. split; auto. unfold ceemdan_imfs_and_residue. cbn [C_IMF c_residue].
  eexists. split; [reflexivity|]. f_equal. f_equal. rewrite <- t_mul. apply t_residue; [rewrite map_length; auto|].
  intros v Hv. apply in_map_iff in Hv as (w & <- & Hw). rewrite map_length. auto.
Qed.
End CEEMDAN.
End Turn.

(** ** Turned over, with PyEMD's EMD inside *)
Lemma over_turning : turning (map Qcopp).
Proof. left. reflexivity. Qed.
Lemma emd_turns_over spl fuel c T m X : responds Qcopp spl -> extrema_detection c = Simple -> (2 <= length X)%nat ->
  turns_inner (map Qcopp) (emd_decomposer spl fuel c) (emd_decomposer spl fuel c) T m X.
Proof.
  intros Hr Hd HX d d1 rows E d'. cbn [run emd_decomposer] in *. unfold emd_call in *.
  destruct (emd spl fuel c X (Some T) m) as [e|] eqn:E1; [|discriminate]. apply pair_inv in E as [E2 <-]. apply ok_inv in E2. subst rows.
  destruct (emd_negated spl fuel c X (Some T) m e Hr Hd HX E1) as (e' & E' & H0 & H1 & H2). rewrite E'. rewrite H0. eexists. split; [reflexivity|].
  intros i r. unfold trend_of, emd_decomposer, get_imfs_and_trend, get_imfs_and_residue. cbn [st_imfs st_residue bind]. rewrite H1, H2.
  assert (A : allclose0 (map Qcopp (residue e)) = allclose0 (residue e)).
  { unfold allclose0. generalize (residue e). intros w. induction w as [|x w IH]; auto. cbn [map forallb]. rewrite IH. f_equal.
    num_qc. replace (- x)%Qc with ((- (1)) * x)%Qc by ring. rewrite abs_mul. change (Qc_abs (- (1))) with 1%Qc. rewrite Qcmult_1_l. reflexivity. }
  rewrite A. destruct (allclose0 (residue e)).
  - intros ET. apply bind_ok in ET as (x & Ex & ET). apply ok_inv in ET. apply pair_inv in ET as [-> ->].
    rewrite (py_get_map (map Qcopp) _ _ _ Ex). cbn [bind]. f_equal. f_equal.
    destruct (imfs e) as [|y l _] using rev_ind; [reflexivity|]. rewrite map_app. cbn [map]. rewrite !py_slice_all_but_last. reflexivity.
  - intros ET. apply ok_inv in ET. apply pair_inv in ET as [-> ->]. reflexivity.
Qed.

Theorem eemd_over G (gen gen' : generator Qc G) spl fuel ec c o o2 S T m E o' :
  draws_turned (map Qcopp) gen gen' -> sized gen -> responds Qcopp spl -> extrema_detection ec = Simple -> (2 <= length S)%nat ->
  random o2 = random o ->
  eemd gen (emd_decomposer spl fuel ec) c o S T m = (Ok E, o') ->
  exists o2', eemd gen' (emd_decomposer spl fuel ec) c o2 (map Qcopp S) T m = (Ok (map (map Qcopp) E), o2') /\ random o2' = random o' /\
    exists r, eemd_imfs_and_residue o' = Ok (E, r) /\ eemd_imfs_and_residue o2' = Ok (map (map Qcopp) E, map Qcopp r).
Proof.
  intros Hg Hs Hr Hd HS Ho ER.
  assert (HE : exists mx mn, np_max S = Ok mx /\ np_min S = Ok mn).
  { destruct S as [|a [|b S]]; cbn in HS; try lia. rewrite np_max_qc, np_min_qc. eauto. }
  destruct HE as (mx & mn & E1 & E2). destruct (max_of_spread S mx mn E1 E2) as (I1 & I2 & B).
  refine (eemd_turn _ over_turning gen gen' Hg Hs _ _ c o o2 S T m E o' mx mn Ho I1 I2 B _ ER).
  intros T' g v g' _ EN. apply emd_turns_over; auto. rewrite map2_length, (noise_size gen Hs _ _ _ _ _ _ EN). lia.
Qed.

Lemma noises_over {G} (gen gen' : generator Qc G) c g n : draws_turned (map Qcopp) gen gen' ->
  all_noises gen' c g n = (match fst (all_noises gen c g n) with Ok N => Ok (map (map Qcopp) N) | Raise e => Raise e end, snd (all_noises gen c g n)).
Proof.
  intros Hg. unfold all_noises, c_generate_noise. destruct (c_noise_kind c); auto; destruct (c_trials c <? 0); auto;
    destruct (Hg g (Z.to_nat (c_trials c) * n)%nat) as [H1 H2].
  - rewrite H1. destruct (normal gen g _ _) as [w g']. cbn [fst snd]. rewrite reshape_map. reflexivity.
  - rewrite H2. destruct (uniform gen g _ _ _) as [w g']. cbn [fst snd]. rewrite reshape_map. reflexivity.
Qed.

Theorem ceemdan_over G (gen gen' : generator Qc G) std spl fuel ec arrival arrival' c o o2 S T m C o' :
  draws_turned (map Qcopp) gen gen' -> sized gen -> (forall v, std (map Qcopp v) = std v) -> reorders arrival -> reorders arrival' ->
  responds Qcopp spl -> extrema_detection ec = Simple -> (2 <= length S)%nat -> c_random o2 = c_random o ->
  ceemdan gen std (emd_fun spl fuel ec) arrival c o S T m = (Ok C, o') ->
  exists o2', ceemdan gen' std (emd_fun spl fuel ec) arrival' c o2 (map Qcopp S) T m = (Ok (map (map Qcopp) C), o2') /\ c_random o2' = c_random o' /\
    exists R, ceemdan_imfs_and_residue o' = Ok (C, R) /\ ceemdan_imfs_and_residue o2' = Ok (map (map Qcopp) C, map Qcopp R).
Proof.
  intros Hg Hs Hstd Ha Ha' Hr Hd HS Ho ER. destruct (all_noises gen c (c_random o) (length S)) as [[N|e] g] eqn:EN.
  - refine (ceemdan_turn _ over_turning std Hstd (length S) HS (emd_fun spl fuel ec) _ _ arrival arrival' Ha Ha' c G gen gen' o o2 S T m C o' N g eq_refl Hs EN _ ER).
    + intros X T' k R LX. unfold emd_fun. intros E. apply bind_ok in E as (e & E1 & E). apply ok_inv in E. subst R.
      destruct (emd_negated spl fuel ec X T' k e Hr Hd ltac:(lia) E1) as (e' & -> & H0 & _). cbn [bind]. rewrite H0. reflexivity.
    + rewrite Ho, (noises_over gen gen' c _ _ Hg), EN. reflexivity.
  - unfold ceemdan in ER. rewrite map_length, EN in ER. discriminate.
Qed.
