(** * CeemdanProofs: lemmas about the CEEMDAN model. *)
From Verif Require Import PyFacts QcFacts Ceemdan Spec EemdSpec CeemdanSpec EmdProofs EmdExact EemdExact EmdFlat.
From Coq Require Import ZifyBool ZifyNat QArith Qcanon Permutation.
Open Scope Z_scope.

Section Generic.
Context {A : Type} `{Num A} {G : Type}.
Variable gen : generator A G.
Variable std : list A -> A.
Variable emd_of : list A -> option (list A) -> Z -> res (list (list A)).
Variable arrival : list (list (list A)) -> list (list (list A)).
Notation vec := (list A).
Notation rows := (list (list A)).

Lemma iadd_length (x y z : vec) : iadd x y = Ok z -> length z = length x.
Proof.
  unfold iadd. destruct (broadcast2 nadd x y) as [w|e]; [|discriminate]. cbn [bind].
  destruct (Nat.eqb_spec (length w) (length x)); [|discriminate]. congruence.
Qed.
Lemma fold_raise {X Y} (f : res X -> Y -> res X) l e :
  (forall y, f (Raise e) y = Raise e) -> fold_left f l (Raise e) = Raise e.
Proof. intros Hf. induction l as [|y l IH]; [auto|]. cbn [fold_left]. rewrite Hf. auto. Qed.

Lemma mean_fold_length c noise T prev beta k l m m' :
  fold_left (mean_step emd_of c noise T prev beta k) l (Ok m) = Ok m' -> length m' = length m.
Proof.
  revert m. induction l as [|t l IH]; intros m; cbn [fold_left]; [congruence|].
  destruct (mean_step emd_of c noise T prev beta k (Ok m) t) as [m1|e] eqn:E.
  - intros F. apply IH in F. rewrite F. unfold mean_step in E. cbn [bind] in E.
    apply bind_ok in E as (x1 & _ & E). apply bind_ok in E as (x2 & _ & E).
    apply bind_ok in E as (x3 & _ & E). apply bind_ok in E as (x4 & _ & E).
    apply iadd_length in E. auto.
  - rewrite fold_raise; [discriminate|reflexivity].
Qed.

Lemma add_rows_shaped n E M : shaped n E -> shaped n M -> shaped n (add_rows n E M).
Proof.
  revert E. induction M as [|i M IH]; intros E HE HM.
  - destruct E; auto.
  - inversion HM as [|x y Hi HM']; subst. destruct E as [|e E]; cbn [add_rows].
    + constructor; [rewrite vadd_length; rewrite vzeros_length; auto|]. apply IH; auto.
    + inversion HE as [|x y He HE']; subst. constructor; [rewrite vadd_length; auto; congruence|].
      apply IH; auto.
Qed.
Lemma accumulate_shaped n l E E' : shaped n E -> fold_left (accumulate n) l (Ok E) = Ok E' ->
  shaped n E' /\ (length E <= length E')%nat.
Proof.
  revert E. induction l as [|M l IH]; intros E HE; cbn [fold_left].
  - intros X. injection X as <-. auto.
  - unfold accumulate at 2. cbn [bind]. destruct (forallb _ M) eqn:Ef.
    + intros X. apply IH in X as [X1 X2].
      * split; auto. assert (length E <= length (add_rows n E M))%nat; [|lia].
        clear. revert E. induction M as [|i M IHM]; intros [|e E]; cbn; try lia. specialize (IHM E). lia.
      * apply add_rows_shaped; auto. apply Forall_forall. intros r Hr. rewrite forallb_forall in Ef.
        apply Nat.eqb_eq. auto.
    + rewrite fold_raise; [discriminate|reflexivity].
Qed.

Lemma div_rows_shaped n (M : rows) s : shaped n M -> shaped n (div_rows M s).
Proof.
  intros HM. unfold div_rows, shaped in *. apply Forall_map. eapply Forall_impl; [|exact HM].
  cbn. intros r Hr. rewrite map_length. auto.
Qed.

Lemma inner_shaped c noise S T E : inner_eemd emd_of arrival c noise S T = Ok E ->
  shaped (length S) E /\ (1 <= length E)%nat.
Proof.
  unfold inner_eemd. intros E1. apply bind_ok in E1 as (u & _ & E1). apply bind_ok in E1 as (rs & _ & E1).
  apply bind_ok in E1 as (E0 & F & E1). injection E1 as <-.
  apply accumulate_shaped in F as [F1 F2].
  - split; [apply div_rows_shaped; auto|]. unfold div_rows. rewrite map_length. cbn in F2. auto.
  - constructor; [apply vzeros_length|constructor].
Qed.

(** The outer loop: shape, number of rows, reason for stopping. *)
Lemma loop_spec n c noise S T k cimfs prev C :
  ceemdan_loop std emd_of n c noise S T k cimfs prev = Ok C ->
  shaped (length S) cimfs -> length prev = length S ->
  shaped (length S) C /\ (length cimfs <= length C <= length cimfs + n)%nat /\
  (0 < k -> zlen cimfs <= k -> zlen C <= k) /\
  (length C = length cimfs + n \/ c_end_condition emd_of c S C k = Ok true)%nat.
Proof.
  revert cimfs prev. induction n as [|n IH]; intros cimfs prev; cbn [ceemdan_loop].
  - intros X HS HP. injection X as <-. repeat split; auto; try lia.
  - intros X HS HP. apply bind_ok in X as (stop & E1 & X). destruct stop.
    + injection X as <-. repeat split; auto; lia.
    + apply bind_ok in X as (m & Em & X). apply mean_fold_length in Em. rewrite vzeros_length in Em.
      apply IH in X as (X1 & X2 & X3 & X4).
      * rewrite app_length in X2, X4. cbn [length] in X2, X4. split; auto. split; [lia|]. split.
        -- intros Hk Hc. apply X3; auto. unfold c_end_condition in E1.
           destruct (Z.ltb_spec 0 k); [|lia]. destruct (Z.leb_spec k (zlen cimfs)); [discriminate|].
           rewrite zlen_app. change (zlen [vsub prev m]) with 1. lia.
        -- destruct X4 as [X4|X4]; [left; lia|right; auto].
      * apply Forall_app. split; auto. constructor; [|constructor]. rewrite vsub_length; congruence.
      * congruence.
Qed.

Lemma rows_spec c noises S T k C : ceemdan_rows std emd_of arrival c noises S T k = Ok C ->
  exists cimfs, C = cimfs ++ [vsub S (sum_rows (length S) cimfs)] /\ shaped (length S) cimfs /\
    (1 <= length cimfs <= Z.to_nat (loop_limit c) + 1)%nat /\ (1 <= k -> zlen cimfs <= k) /\
    (length cimfs = Z.to_nat (loop_limit c) + 1 \/ c_end_condition emd_of c S cimfs k = Ok true)%nat.
Proof.
  unfold ceemdan_rows. intros X. apply bind_ok in X as (ne & _ & X). apply bind_ok in X as (E & E1 & X).
  apply bind_ok in X as (first & E2 & X). apply bind_ok in X as (cimfs & E3 & X). injection X as <-.
  apply inner_shaped in E1 as [F1 F2]. apply py_get_in in E2.
  unfold shaped in F1. rewrite Forall_forall in F1. specialize (F1 _ E2).
  apply loop_spec in E3 as (L1 & L2 & L3 & L4).
  - exists cimfs. cbn [length] in *. split; [reflexivity|]. split; [assumption|]. split; [lia|]. split; [|intuition lia].
    intros Hk. apply L3; [lia|]. change (zlen [first]) with 1. lia.
  - constructor; auto.
  - rewrite vsub_length; auto.
Qed.

(** The result only depends on the state of the generator. *)
Lemma ceemdan_same c o1 o2 S T k : c_random o1 = c_random o2 ->
  let x1 := ceemdan gen std emd_of arrival c o1 S T k in
  let x2 := ceemdan gen std emd_of arrival c o2 S T k in
  fst x1 = fst x2 /\ c_random (snd x1) = c_random (snd x2) /\
  (forall C, fst x1 = Ok C -> ceemdan_imfs_and_residue (snd x1) = ceemdan_imfs_and_residue (snd x2)).
Proof.
  intros HG. cbv zeta. unfold ceemdan. rewrite HG. destruct (all_noises gen c (c_random o2) _) as [nz g].
  destruct (bind nz _) as [C|e]; cbn [fst snd c_random].
  - auto.
  - split; [auto|]. split; [auto|]. discriminate.
Qed.
End Generic.

(** ** Exact arithmetic *)
Section Exact.
Context {G : Type}.
Variable gen : generator Qc G.
Variable std : list Qc -> Qc.
Variable emd_of : list Qc -> option (list Qc) -> Z -> res (list (list Qc)).

Lemma total_scale s (M : rows) i : total_at (map (map (fun x => nmul x s)) M) i = (total_at M i * s)%Qc.
Proof.
  induction M as [|r M IH]; [unfold total_at; cbn; ring|].
  change (map (map (fun x => nmul x s)) (r :: M)) with ([map (fun x => nmul x s) r] ++ map (map (fun x => nmul x s)) M).
  change (r :: M) with ([r] ++ M). rewrite !total_at_app, !total_at_one, IH.
  assert (E : nth i (map (fun x => nmul x s) r) 0%Qc = (nth i r 0 * s)%Qc).
  { replace 0%Qc with ((fun x : Qc => nmul x s) 0%Qc) at 1 by (cbn; change (0 * s = 0)%Qc; ring).
    rewrite (map_nth (fun x : Qc => nmul x s)). reflexivity. }
  rewrite E. ring.
Qed.

Lemma ceemdan_spec arrival c o S T k C o' : std S <> 0%Qc ->
  ceemdan gen std emd_of arrival c o S T k = (Ok C, o') ->
  adds_up C S /\ shaped (length S) C /\
  (exists r, ceemdan_imfs_and_residue o' = Ok (C, r) /\ r = repeat 0%Qc (length S)).
Proof.
  intros Hs. unfold ceemdan. set (S1 := map (fun x => ndiv x (std S)) S).
  assert (HL : length S1 = length S) by (unfold S1; apply map_length).
  destruct (all_noises gen c (c_random o) (length S1)) as [nz g].
  destruct (bind nz _) as [C1|e] eqn:E; [|discriminate]. intros X. injection X as <- <-.
  apply bind_ok in E as (noises & _ & E). apply bind_ok in E as (cs & E & X). injection X as <-.
  apply rows_spec in E as (cimfs & -> & Hsh & _).
  set (all := cimfs ++ [vsub S1 (sum_rows (length S1) cimfs)]).
  assert (Hall : shaped (length S1) all).
  { apply Forall_app. split; auto. constructor; [|constructor].
    rewrite vsub_length; auto. rewrite shaped_sum_length; auto. }
  assert (Hadd : forall i, (i < length S)%nat -> total_at (map (map (fun x => nmul x (std S))) all) i = nth i S 0%Qc).
  { intros i Hi. rewrite total_scale. unfold all. rewrite total_at_app, total_at_one.
    assert (E : (total_at cimfs i + nth i (vsub S1 (sum_rows (length S1) cimfs)) 0 = nth i S1 0)%Qc)
      by (rewrite Qcplus_comm; apply residue_spec; auto).
    rewrite E. unfold S1. rewrite nth_indep with (d' := ndiv 0%Qc (std S)) by (rewrite map_length; auto).
    rewrite (map_nth (fun x => ndiv x (std S))). change (nth i S 0 / std S * std S = nth i S 0)%Qc. field. auto. }
  assert (Hsh2 : shaped (length S) (map (map (fun x => nmul x (std S))) all)).
  { apply Forall_map. rewrite <- HL. eapply Forall_impl; [|exact Hall]. cbn. intros r Hr. rewrite map_length. auto. }
  split; [exact Hadd|]. split; auto.
  eexists. split; [reflexivity|].
  apply nth_ext with (d := 0%Qc) (d' := 0%Qc).
  - rewrite repeat_length, vsub_length; rewrite map_length; auto.
    rewrite shaped_sum_length; rewrite HL; auto.
  - intros i Hi. rewrite nth_vsub by (rewrite map_length, shaped_sum_length; rewrite ?HL; auto).
    rewrite vsub_length in Hi by (rewrite map_length, shaped_sum_length; rewrite ?HL; auto).
    rewrite map_length, HL in Hi. rewrite nth_sum_rows by (rewrite HL; auto). rewrite Hadd by auto.
    rewrite nth_repeat_lt by auto.
    assert (E : nth i (map (fun x => nmul x (std S)) S1) 0%Qc = nth i S 0%Qc).
    { unfold S1. rewrite map_map.
      rewrite map_ext with (g := fun x => x); [rewrite map_id; auto|].
      intros x. change (x / std S * std S = x)%Qc. field. auto. }
    change (fun x : Qc => nmul x (std S)) with (fun x : Qc => (x * std S)%Qc) in E. rewrite E. ring.
Qed.

(** ** Scheduling *)
Lemma vadd_swap (e x y : vec) : vadd (vadd e x) y = vadd (vadd e y) x.
Proof.
  revert x y. induction e as [|a e IH]; intros [|b x] [|c y]; cbn; auto.
  f_equal; [change (a + b + c = a + c + b)%Qc; ring|apply IH].
Qed.
Lemma add_rows_swap n E M N : add_rows n (add_rows n E M) N = add_rows n (add_rows n E N) M.
Proof.
  revert E N. induction M as [|x M IH]; intros E N.
  - destruct N; [destruct E; auto|]. destruct E; cbn [add_rows]; auto.
  - destruct N as [|y N]; [destruct E; cbn [add_rows]; auto|].
    destruct E as [|e E]; cbn [add_rows]; rewrite vadd_swap, IH; reflexivity.
Qed.
Lemma accumulate_swap n (E : res rows) M N :
  accumulate n (accumulate n E M) N = accumulate n (accumulate n E N) M.
Proof.
  destruct E as [E|e]; [|reflexivity]. unfold accumulate at 2 4. cbn [bind].
  destruct (forallb (fun r => Nat.eqb (length r) n) M) eqn:EM, (forallb (fun r => Nat.eqb (length r) n) N) eqn:EN;
    unfold accumulate; cbn [bind]; rewrite ?EM, ?EN; try reflexivity. rewrite add_rows_swap. reflexivity.
Qed.
Lemma accumulate_perm n l l' E : Permutation l l' ->
  fold_left (accumulate n) l E = fold_left (accumulate n) l' E.
Proof.
  intros P. revert E. induction P as [|x l l' P IH|x y l|l1 l2 l3 P1 IH1 P2 IH2]; intros E; cbn [fold_left]; auto.
  - rewrite accumulate_swap. reflexivity.
  - rewrite IH1. auto.
Qed.

Definition serial_version (c : ceemdan_config Qc) : ceemdan_config Qc :=
  MkCCfg (c_trials c) (epsilon c) (noise_scale c) (c_range_thr c) (c_total_power_thr c) (beta_progress c)
         (c_noise_kind c) (loop_limit c) false (c_processes c).

Lemma inner_serial arrival c noise S T : reorders arrival -> (c_parallel c = true -> 1 <= c_processes c) ->
  inner_eemd emd_of arrival c noise S T = inner_eemd emd_of arrival (serial_version c) noise S T.
Proof.
  intros HA Hp. unfold inner_eemd. cbn [serial_version c_trials c_parallel].
  assert (E1 : open_pool c = Ok tt).
  { unfold open_pool. destruct (c_parallel c); cbn; auto. specialize (Hp eq_refl).
    replace (c_processes c <? 1) with false by lia. auto. }
  assert (E2 : open_pool (serial_version c) = Ok tt) by reflexivity.
  rewrite E1, E2. cbn [bind]. change (c_trial emd_of (serial_version c)) with (c_trial emd_of c).
  destruct (mapM _ _) as [rs|e]; [|reflexivity]. cbn [bind].
  destruct (c_parallel c); [|reflexivity].
  rewrite (accumulate_perm _ rs (arrival rs) _ (HA rs)). reflexivity.
Qed.
Lemma loop_serial n c noise S T k cimfs prev :
  ceemdan_loop std emd_of n c noise S T k cimfs prev =
  ceemdan_loop std emd_of n (serial_version c) noise S T k cimfs prev.
Proof.
  revert cimfs prev. induction n as [|n IH]; intros; cbn [ceemdan_loop]; auto.
  change (c_end_condition emd_of (serial_version c)) with (c_end_condition emd_of c).
  destruct (c_end_condition emd_of c S cimfs k) as [[|]|e]; cbn [bind]; auto.
  change (mean_step emd_of (serial_version c)) with (mean_step emd_of c).
  cbn [serial_version epsilon c_trials].
  destruct (fold_left _ _ _) as [m|e]; cbn [bind]; auto.
Qed.
Lemma ceemdan_serial arrival c o S T k : reorders arrival -> (c_parallel c = true -> 1 <= c_processes c) ->
  ceemdan gen std emd_of arrival c o S T k =
  ceemdan gen std emd_of (fun l => l) (serial_version c) o S T k.
Proof.
  intros HA Hp. unfold ceemdan.
  change (all_noises gen (serial_version c)) with (all_noises gen c).
  destruct (all_noises gen c (c_random o) _) as [nz g].
  assert (E : forall noises S, ceemdan_rows std emd_of arrival c noises S T k =
              ceemdan_rows std emd_of (fun l => l) (serial_version c) noises S T k).
  { intros noises S1. unfold ceemdan_rows.
    assert (Ed : decompose_noise std emd_of c noises = decompose_noise std emd_of (serial_version c) noises).
    { unfold decompose_noise. assert (E1 : open_pool c = Ok tt).
      { unfold open_pool. destruct (c_parallel c); cbn; auto. specialize (Hp eq_refl).
        replace (c_processes c <? 1) with false by lia. auto. }
      rewrite E1. reflexivity. }
    rewrite Ed. clear Ed. destruct (decompose_noise std emd_of (serial_version c) noises) as [ne|e]; cbn [bind]; auto.
    rewrite inner_serial by auto.
    change (inner_eemd emd_of arrival (serial_version c) ne S1 T) with (inner_eemd emd_of (fun l => l) (serial_version c) ne S1 T).
    destruct (inner_eemd emd_of (fun l => l) (serial_version c) ne S1 T) as [E|e]; cbn [bind]; auto.
    destruct (py_get E 0); cbn [bind]; auto. rewrite loop_serial. reflexivity. }
  destruct nz as [noises|e]; cbn [bind]; [rewrite E|]; reflexivity.
Qed.

(** ** Change of unit *)
Lemma ceemdan_scale arrival c o S T k a : (0 < a)%Qc ->
  std (map (fun x => (a * x)%Qc) S) = (a * std S)%Qc ->
  fst (ceemdan gen std emd_of arrival c o (map (fun x => (a * x)%Qc) S) T k) =
  match fst (ceemdan gen std emd_of arrival c o S T k) with
  | Ok C => Ok (map (map (fun x => (a * x)%Qc)) C)
  | Raise e => Raise e
  end.
Proof.
  intros Ha Hstd. unfold ceemdan. rewrite Hstd.
  assert (ES : map (fun x => ndiv x (a * std S)%Qc) (map (fun x => (a * x)%Qc) S) = map (fun x => ndiv x (std S)) S).
  { rewrite map_map. apply map_ext. intros x. change (a * x / (a * std S) = x / std S)%Qc.
    destruct (Qc_eq_dec (std S) 0) as [Hz|Hz].
    - rewrite Hz. replace (a * 0)%Qc with 0%Qc by ring. unfold Qcdiv. change (/ 0)%Qc with 0%Qc. ring.
    - field. split; auto. intros ->. apply Qclt_not_eq in Ha. congruence. }
  rewrite ES. destruct (all_noises gen c (c_random o) _) as [nz g].
  destruct nz as [noises|e]; cbn [bind]; [|reflexivity].
  destruct (ceemdan_rows _ _ _ _ _ _ _ _) as [C|e]; cbn [bind]; [|reflexivity].
  cbn [fst]. f_equal. rewrite map_map. apply map_ext. intros r. rewrite map_map. apply map_ext. intros x.
  change (x * (a * std S) = a * (x * std S))%Qc. ring.
Qed.
End Exact.

(** ** Noise of scale zero *)
Lemma reshape_zeros m n : reshape m n (repeat 0%Qc (m * n)) = repeat (repeat 0%Qc n) m.
Proof.
  induction m as [|m IH]; [reflexivity|]. cbn [reshape repeat Nat.mul]. rewrite repeat_app.
  rewrite firstn_app, firstn_all2, repeat_length, Nat.sub_diag by (rewrite repeat_length; auto).
  rewrite firstn_O, app_nil_r.
  rewrite skipn_app, repeat_length, Nat.sub_diag, skipn_all2 by (rewrite repeat_length; auto).
  cbn [skipn app]. rewrite IH. reflexivity.
Qed.

Lemma emd_zeros spl fuel cfg n : extrema_detection cfg <> OtherDetection -> (2 <= n)%nat ->
  2 <= MAX_ITERATION cfg -> (0 < fuel)%nat -> emd_fun spl fuel cfg (repeat 0%Qc n) None (-1) = Ok [].
Proof.
  intros Hd Hn HM Hf. unfold emd_fun.
  assert (Et : emd_time cfg (repeat 0%Qc n) None = Ok (PrepareProofs.tz n)).
  { unfold emd_time. rewrite repeat_length. cbn [bind].
    assert (E : timeline n = Ok (PrepareProofs.tz n)) by (destruct n; [lia|reflexivity]).
    rewrite E. cbn [bind]. apply EmdSimple.timeline_normal. auto. }
  rewrite (emd_constant spl fuel cfg 0%Qc n None (-1) _ Hd Hn Et) by (auto; unfold PrepareProofs.tz; rewrite map_length, zseq_length; auto).
  cbn [bind out].
  assert (E : allclose0 (repeat 0%Qc n) = true).
  { unfold allclose0. apply forallb_forall. intros x Hx. apply repeat_spec in Hx. subst. reflexivity. }
  rewrite E. reflexivity.
Qed.

Lemma ceemdan_quiet {G} (gen : generator Qc G) std spl fuel cfg arrival c o S T k :
  quiet gen -> noise_scale c = 0%Qc -> c_noise_kind c <> OtherNoise -> 0 < c_trials c ->
  (c_parallel c = true -> 1 <= c_processes c) -> (2 <= length S)%nat ->
  extrema_detection cfg <> OtherDetection -> 2 <= MAX_ITERATION cfg -> (0 < fuel)%nat ->
  fst (ceemdan gen std (emd_fun spl fuel cfg) arrival c o S T k) = Raise IndexError.
Proof.
  intros HQ Hs HK Ht Hp HS Hd HM Hf. unfold ceemdan. rewrite map_length.
  assert (EN : fst (all_noises gen c (c_random o) (length S)) =
               Ok (repeat (repeat 0%Qc (length S)) (Z.to_nat (c_trials c)))).
  { unfold all_noises, c_generate_noise. rewrite Hs.
    destruct (HQ (c_random o) (Z.to_nat (c_trials c) * length S)%nat) as [Q1 Q2].
    assert (Z1 : forall q, ndiv (nopp 0%Qc) q = 0%Qc) by (intros q; change (- 0 / q = 0)%Qc; unfold Qcdiv; ring).
    assert (Z2 : forall q, ndiv 0%Qc q = 0%Qc) by (intros q; change (0 / q = 0)%Qc; unfold Qcdiv; ring).
    rewrite Z1, Z2. replace (c_trials c <? 0) with false by lia.
    destruct (c_noise_kind c); [destruct (normal gen _ _ _) | destruct (uniform gen _ _ _ _) | congruence];
      cbn [fst] in *; subst; rewrite reshape_zeros; reflexivity. }
  destruct (all_noises gen c (c_random o) (length S)) as [nz g]. cbn [fst] in EN. subst nz. cbn [bind].
  set (S1 := map (fun x => ndiv x (std S)) S).
  assert (ER : ceemdan_rows std (emd_fun spl fuel cfg) arrival c
    (repeat (repeat 0%Qc (length S)) (Z.to_nat (c_trials c))) S1 T k = Raise IndexError).
  { unfold ceemdan_rows, decompose_noise.
    assert (Eo : open_pool c = Ok tt).
    { unfold open_pool. destruct (c_parallel c); cbn; auto. specialize (Hp eq_refl).
      replace (c_processes c <? 1) with false by lia. auto. }
    rewrite Eo. cbn [bind].
    assert (EM : forall m, mapM (fun noise => emd_fun spl fuel cfg noise None (-1)) (repeat (repeat 0%Qc (length S)) m) = Ok (repeat [] m)).
    { induction m as [|m IH]; [reflexivity|]. cbn [repeat mapM]. rewrite emd_zeros by auto. cbn [bind].
      rewrite IH. reflexivity. }
    rewrite EM. cbn [bind]. destruct (Z.to_nat (c_trials c)) as [|m] eqn:Em; [lia|].
    destruct (beta_progress c); [reflexivity|]. cbn [bind].
    unfold inner_eemd. rewrite Eo. cbn [bind].
    unfold zrange. replace (Z.to_nat (c_trials c - 0)) with (Datatypes.S m) by lia. cbn [zseq mapM].
    reflexivity. }
  rewrite ER. reflexivity.
Qed.

(** ** Corollaries *)
Lemma ceemdan_schedules {G} (gen : generator Qc G) std emd_of arrival1 arrival2 c o S T k :
  reorders arrival1 -> reorders arrival2 -> (c_parallel c = true -> 1 <= c_processes c) ->
  ceemdan gen std emd_of arrival1 c o S T k = ceemdan gen std emd_of arrival2 c o S T k.
Proof.
  intros H1 H2 Hp. rewrite (ceemdan_serial gen std emd_of arrival1), (ceemdan_serial gen std emd_of arrival2) by auto.
  reflexivity.
Qed.
Lemma ceemdan_parallel_serial {G} (gen : generator Qc G) std emd_of arrival1 arrival2 c1 c2 o S T k :
  reorders arrival1 -> reorders arrival2 -> c_parallel c1 = true -> 1 <= c_processes c1 ->
  c2 = MkCCfg (c_trials c1) (epsilon c1) (noise_scale c1) (c_range_thr c1) (c_total_power_thr c1)
              (beta_progress c1) (c_noise_kind c1) (loop_limit c1) false (c_processes c1) ->
  ceemdan gen std emd_of arrival1 c1 o S T k = ceemdan gen std emd_of arrival2 c2 o S T k.
Proof.
  intros H1 H2 Hp Hq ->. rewrite (ceemdan_serial gen std emd_of arrival1) by auto.
  rewrite (ceemdan_serial gen std emd_of arrival2) by (auto; discriminate). reflexivity.
Qed.
Lemma ceemdan_seeded {A} `{Num A} {G} (gen : generator A G) std emd_of arrival c s o1 o2 S T k :
  let x1 := ceemdan gen std emd_of arrival c (c_noise_seed gen o1 s) S T k in
  let x2 := ceemdan gen std emd_of arrival c (c_noise_seed gen o2 s) S T k in
  fst x1 = fst x2 /\
  forall C, fst x1 = Ok C -> ceemdan_imfs_and_residue (snd x1) = ceemdan_imfs_and_residue (snd x2).
Proof.
  cbv zeta.
  pose proof (ceemdan_same gen std emd_of arrival c (c_noise_seed gen o1 s) (c_noise_seed gen o2 s) S T k eq_refl) as (E1 & _ & E2).
  auto.
Qed.
