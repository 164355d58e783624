(** * ReturnsCeemdan: whom to blame when CEEMDAN raises (C94). *)
From Verif Require Import PyFacts QcFacts Eemd Ceemdan Spec EemdSpec CeemdanSpec
  EmdProofs EmdControl EmdExact EemdExact EmdSimple PrepareProofs CeemdanProofs CeemdanExact ReturnsEnsemble.
From Coq Require Import ZifyBool ZifyNat QArith Qcanon Permutation.
Open Scope Z_scope.

Lemma mapM_raise {X Y} (f : X -> res Y) l e : mapM f l = Raise e -> exists x, In x l /\ f x = Raise e.
Proof.
  induction l as [|x l IH]; cbn [mapM]; [discriminate|]. destruct (f x) as [y|e1] eqn:E; cbn [bind].
  - destruct (mapM f l) as [ys|e2]; [discriminate|]. cbn [bind]. intros Z. assert (e2 = e) as -> by congruence.
    destruct (IH eq_refl) as (z & H1 & H2). exists z. split; [right; auto|auto].
  - intros Z. assert (e1 = e) as -> by congruence. exists x. split; [left; auto|auto].
Qed.
Lemma py_get_first {X} (l : list X) e : py_get l 0 = Raise e -> e = IndexError /\ l = [].
Proof. intros E. split; [eapply py_get_raise; eauto|]. destruct l; auto. discriminate E. Qed.
Lemma py_get_end {X} (l : list X) e : py_get l (-1) = Raise e -> e = IndexError /\ l = [].
Proof. intros E. split; [eapply py_get_raise; eauto|]. destruct l as [|x l _] using rev_ind; auto. rewrite py_get_last in E. discriminate E. Qed.
Lemma broadcast_ok (x y : list Qc) : length y = length x -> exists z, broadcast2 nadd x y = Ok z /\ length z = length x.
Proof.
  intros E. rewrite broadcast2_eq by auto. eexists. split; [reflexivity|]. rewrite map2_length, E. apply Nat.min_id.
Qed.
Lemma iadd_ok (x y : list Qc) : length y = length x -> exists z, iadd x y = Ok z /\ length z = length x.
Proof.
  intros E. destruct (broadcast_ok x y E) as (z & E1 & E2). exists z. unfold iadd. rewrite E1. cbn [bind]. rewrite E2, Nat.eqb_refl. auto.
Qed.
Lemma nth_vsub0 (x y : list Qc) i : length x = length y -> (nth i (vsub x y) 0 = nth i x 0 - nth i y 0)%Qc.
Proof. intros E. apply nth_vsub; auto. Qed.

Lemma in_zseq lo n x : In x (zseq lo n) -> lo <= x < lo + Z.of_nat n.
Proof.
  intros H. apply (In_nth _ _ 0) in H as (i & Hi & <-). rewrite zseq_length in Hi. rewrite zseq_nth by auto. lia.
Qed.

Section Run.
Variable std : list Qc -> Qc.
Variable emd_of : list Qc -> option (list Qc) -> Z -> res (list (list Qc)).
Variable n : nat.
Hypothesis Hn : (1 <= n)%nat.
Hypothesis Hfits : fits emd_of.
Hypothesis Hempty : forall X T k, emd_of X T k = Ok [] -> negligible X.
Variable T : option (list Qc).
Hypothesis HNone : forall X, length X = n -> exists I, emd_of X None 1 = Ok I.
Hypothesis HT : forall X, length X = n -> exists I, emd_of X T 1 = Ok I.
Hypothesis HTt : forall X t, length X = n -> t = match T with Some t => t | None => map nofZ (zseq 0 n) end -> exists I, emd_of X (Some t) 1 = Ok I.

Variable arrival : list rows -> list rows.
Hypothesis Harr : reorders arrival.
Variable c : ceemdan_config Qc.
Hypothesis Hproc : c_parallel c = true -> 1 <= c_processes c.

Lemma pool_ok : open_pool c = Ok tt.
Proof. unfold open_pool. destruct (c_parallel c); auto. cbn [andb]. destruct (Z.ltb_spec (c_processes c) 1); auto. specialize (Hproc eq_refl). lia. Qed.

Lemma decompose_blame noises e : decompose_noise std emd_of c noises = Raise e ->
  exists w, In w noises /\ (emd_of w None (-1) = Raise e \/ (e = IndexError /\ negligible w)).
Proof.
  unfold decompose_noise. rewrite pool_ok. cbn [bind].
  destruct (mapM (fun noise => emd_of noise None (-1)) noises) as [all|e1] eqn:E; cbn [bind].
  - destruct (beta_progress c); [|discriminate].
    destruct (mapM _ all) as [stds|e2] eqn:E2; [discriminate|]. cbn [bind]. intros X. assert (e2 = e) as -> by congruence.
    apply mapM_raise in E2 as (imfs & I1 & I2).
    destruct (py_get imfs 0) as [f|e3] eqn:Eg; [discriminate|]. cbn [bind] in I2. assert (e3 = e) as -> by congruence.
    apply py_get_first in Eg as [-> ->]. apply mapM_forall2 in E.
    destruct (Forall2_in_r _ _ _ _ E I1) as (w & W1 & W2). exists w. split; auto. right. split; auto. eapply Hempty; eauto.
  - intros X. assert (e1 = e) as -> by congruence. apply mapM_raise in E as (w & W1 & W2). exists w. auto.
Qed.
Lemma modes_empty b w : modes_of std emd_of b w [] -> negligible w.
Proof.
  intros (D & E & H). destruct b; [|subst; eapply Hempty; eauto]. destruct H as (d & rest & -> & H). discriminate H.
Qed.

Variable noises : rows.
Hypothesis Hnoises : shaped n noises.
Hypothesis Hlen : zlen noises = c_trials c.
Variable modes : list rows.
Hypothesis Hmodes : decompose_noise std emd_of c noises = Ok modes.

Lemma modes_len : zlen modes = c_trials c.
Proof. apply decompose_spec, forall2_length in Hmodes. unfold zlen in *. lia. Qed.
Lemma modes_in M : In M modes -> shaped n M /\ exists w, In w noises /\ modes_of std emd_of (beta_progress c) w M.
Proof.
  intros H. pose proof (decompose_spec std emd_of _ _ _ Hmodes) as F. destruct (Forall2_in_r _ _ _ _ F H) as (w & W1 & W2).
  split; eauto. apply modes_shaped in W2; auto. unfold shaped in Hnoises. rewrite Forall_forall in Hnoises. rewrite (Hnoises w W1) in W2. exact W2.
Qed.
Lemma modes_get t : In t (zrange 0 (c_trials c)) -> exists M, py_get modes t = Ok M /\ In M modes.
Proof.
  intros H. unfold zrange in H. apply in_zseq in H. pose proof modes_len as L.
  destruct modes as [|M0 ms] eqn:EM; [unfold zlen in L; cbn in L; lia|]. rewrite <- EM in *. 
  exists (nth (Z.to_nat t) modes M0). split; [apply py_get_nonneg; lia|apply nth_In; unfold zlen in L; lia].
Qed.

Lemma inner_blame (S : list Qc) e : length S = n -> inner_eemd emd_of arrival c modes S T = Raise e ->
  e = IndexError /\ exists w, In w noises /\ negligible w.
Proof.
  intros HS. unfold inner_eemd. rewrite pool_ok. cbn [bind]. rewrite HS.
  set (t := match T with Some t => t | None => map nofZ (zseq 0 n) end).
  destruct (mapM (c_trial emd_of c modes S t) (zrange 0 (c_trials c))) as [rs|e1] eqn:E; cbn [bind].
  - intros X. exfalso.
    assert (HR : Forall (shaped n) (if c_parallel c then arrival rs else rs)).
    { assert (HR : Forall (shaped n) rs).
      { apply mapM_forall2 in E. apply Forall_forall. intros r Hr. destruct (Forall2_in_r _ _ _ _ E Hr) as (i & _ & Ei).
        unfold c_trial in Ei. apply bind_ok in Ei as (ms & M1 & Ei). apply bind_ok in Ei as (f & F1 & Ei). apply bind_ok in Ei as (x & X1 & Ei).
        assert (length x = n).
        { apply py_get_in in M1. destruct (modes_in _ M1) as [Sh _]. apply py_get_in in F1. unfold shaped in Sh. rewrite Forall_forall in Sh.
          destruct (broadcast_ok S (vscale (epsilon c) f)) as (z & Z1 & Z2); [unfold vscale; rewrite map_length, HS; auto|].
          assert (z = x) as <- by congruence. congruence. }
        apply Hfits in Ei. congruence. }
      destruct (c_parallel c); auto. apply Forall_forall. intros r Hr. rewrite Forall_forall in HR. apply HR.
      eapply Permutation_in; [apply Permutation_sym, Harr|exact Hr]. }
    assert (HA : forall l E0, Forall (shaped n) l -> exists E1, fold_left (accumulate n) l (Ok E0) = Ok E1).
    { induction l as [|r l IH]; intros E0 HF; cbn [fold_left]; [eauto|]. inversion HF; subst. unfold accumulate at 2. cbn [bind].
      replace (forallb _ r) with true; [apply IH; auto|]. symmetry. apply forallb_forall. intros x Hx. apply Nat.eqb_eq.
      match goal with H : shaped _ r |- _ => unfold shaped in H; rewrite Forall_forall in H; auto end. }
    destruct (HA _ [vzeros n] HR) as (E1 & EE). rewrite EE in X. discriminate X.
  - intros X. assert (e1 = e) as -> by congruence. apply mapM_raise in E as (i & I1 & I2).
    destruct (modes_get i I1) as (M & M1 & M2). unfold c_trial in I2. rewrite M1 in I2. cbn [bind] in I2.
    destruct (modes_in _ M2) as [Sh (w & W1 & W2)].
    destruct (py_get M 0) as [f|e2] eqn:Ef.
    + exfalso. cbn [bind] in I2. apply py_get_in in Ef. unfold shaped in Sh. rewrite Forall_forall in Sh.
      destruct (broadcast_ok S (vscale (epsilon c) f)) as (z & Z1 & Z2); [unfold vscale; rewrite map_length, HS; auto|].
      rewrite Z1 in I2. cbn [bind] in I2. destruct (HTt z t) as (I & EI); [congruence|reflexivity|]. congruence.
    + cbn [bind] in I2. assert (e2 = e) as -> by congruence. apply py_get_first in Ef as [-> ->]. split; auto. exists w. split; auto.
      eapply modes_empty; eauto.
Qed.

(** A trial of a later component. *)
Definition culprit (r : list Qc) (j : nat) : Prop :=
  exists w M X, In w noises /\ modes_of std emd_of (beta_progress c) w M /\
    match nth_error M j with Some d => noisy r (scaled (epsilon c * std r)%Qc d) X | None => X = r end /\ negligible X.
Lemma step_blame prev k m t e : length prev = n -> length m = n -> 0 <= k -> In t (zrange 0 (c_trials c)) ->
  mean_step emd_of c modes T prev (nmul (epsilon c) (std prev)) k (Ok m) t = Raise e -> e = IndexError /\ culprit prev (Z.to_nat k).
Proof.
  intros HP HM Hk Ht. unfold mean_step. cbn [bind]. destruct (modes_get t Ht) as (M & M1 & M2). rewrite M1. cbn [bind].
  destruct (modes_in _ M2) as [Sh (w & W1 & W2)].
  set (beta := nmul (epsilon c) (std prev)).
  assert (exists r, (if k <? zlen M then let! x := py_get M k in iadd prev (vscale beta x) else Ok prev) = Ok r /\ length r = n /\
    match nth_error M (Z.to_nat k) with Some d => noisy prev (scaled beta d) r | None => r = prev end) as (r & Er & Lr & Nr).
  { destruct (Z.ltb_spec k (zlen M)) as [L|L].
    - destruct (nth_error M (Z.to_nat k)) as [d|] eqn:En; [|apply nth_error_None in En; unfold zlen in L; lia].
      rewrite (py_get_nonneg M k d) by lia. cbn [bind]. rewrite (nth_error_nth _ _ d En).
      assert (Ld : length d = length prev).
      { apply nth_error_In in En. unfold shaped in Sh. rewrite Forall_forall in Sh. rewrite (Sh d En). auto. }
      destruct (iadd_ok prev (vscale beta d)) as (r & R1 & R2); [unfold vscale; rewrite map_length; auto|].
      exists r. split; auto. split; [congruence|]. apply iadd_noisy; [unfold scaled; rewrite map_length; auto|exact R1].
    - assert (En : nth_error M (Z.to_nat k) = None) by (apply nth_error_None; unfold zlen in L; lia). rewrite En. exists prev. auto. }
  rewrite Er. cbn [bind]. destruct (HT r Lr) as (I & EI). rewrite EI. cbn [bind].
  destruct (py_get I (-1)) as [la|e1] eqn:El; cbn [bind].
  - intros X. exfalso. apply Hfits in EI. apply py_get_in in El. unfold shaped in EI. rewrite Forall_forall in EI.
    destruct (iadd_ok m (map (fun x => ndiv x (nofZ (c_trials c))) la)) as (z & Z1 & _); [rewrite map_length, HM, (EI _ El); auto|]. congruence.
  - intros X. assert (e1 = e) as -> by congruence. apply py_get_end in El as [-> ->]. split; auto.
    exists w, M, r. split; auto. split; auto. split; [exact Nr|]. eapply Hempty; eauto.
Qed.
Lemma fold_blame prev k l : (forall t, In t l -> In t (zrange 0 (c_trials c))) -> forall m e, length prev = n -> length m = n -> 0 <= k ->
  fold_left (mean_step emd_of c modes T prev (nmul (epsilon c) (std prev)) k) l (Ok m) = Raise e -> e = IndexError /\ culprit prev (Z.to_nat k).
Proof.
  induction l as [|t l IH]; intros Hl m e HP HM Hk; cbn [fold_left]; [discriminate|].
  destruct (mean_step emd_of c modes T prev (nmul (epsilon c) (std prev)) k (Ok m) t) as [m1|e1] eqn:E.
  - apply IH; auto; [intros; apply Hl; right; auto|].
    assert (F : fold_left (mean_step emd_of c modes T prev (nmul (epsilon c) (std prev)) k) [t] (Ok m) = Ok m1) by exact E.
    apply mean_fold_length in F. congruence.
  - rewrite fold_raise by reflexivity. intros X. assert (e1 = e) as -> by congruence. eapply step_blame; eauto. apply Hl. left. auto.
Qed.

(** The remainder is the signal without the components. *)
Lemma remainder (S prev m : list Qc) cimfs : length S = n -> length prev = n -> length m = n -> shaped n cimfs ->
  vsub S (sum_rows n cimfs) = prev -> vsub S (sum_rows n (cimfs ++ [vsub prev m])) = m.
Proof.
  intros HS HP HM Hc E.
  assert (Lv : length (vsub prev m) = n) by (rewrite vsub_length; congruence).
  assert (Hc' : shaped n (cimfs ++ [vsub prev m])) by (apply Forall_app; split; auto).
  apply (nth_ext _ _ 0%Qc 0%Qc); [rewrite vsub_length; [congruence|rewrite shaped_sum_length; auto]|].
  intros i Hi. rewrite vsub_length in Hi by (rewrite shaped_sum_length; auto).
  rewrite nth_vsub0 by (rewrite shaped_sum_length; auto). rewrite nth_sum_rows by auto. rewrite total_at_app, total_at_one, nth_vsub0 by congruence.
  assert (Ei : (nth i S 0 - total_at cimfs i = nth i prev 0)%Qc).
  { rewrite <- E, nth_vsub0 by (rewrite shaped_sum_length; auto). rewrite nth_sum_rows by auto. reflexivity. }
  rewrite <- Ei. ring.
Qed.

Lemma end_ok (S : list Qc) cimfs k : length S = n -> shaped n cimfs -> exists b, c_end_condition emd_of c S cimfs k = Ok b.
Proof.
  intros HS Hc. unfold c_end_condition. destruct (_ && _); [eauto|]. rewrite HS. set (R := vsub S (sum_rows n cimfs)).
  assert (LR : length R = n) by (unfold R; rewrite vsub_length; [auto|rewrite shaped_sum_length; auto]).
  destruct (HNone R LR) as (I & ->). cbn [bind]. destruct (_ =? 1); [eauto|].
  assert (R <> []) as NR by (intros E; rewrite E in LR; cbn in LR; lia).
  destruct (np_max_ok R NR) as (a & ->). destruct (np_min_ok R NR) as (b & ->). cbn [bind]. destruct (nltb _ _); [eauto|]. destruct (nltb _ _); eauto.
Qed.
Lemma loop_blame turns : forall (S : list Qc) k cimfs prev e, length S = n -> length prev = n -> shaped n cimfs -> cimfs <> [] ->
  vsub S (sum_rows n cimfs) = prev ->
  ceemdan_loop std emd_of turns c modes S T k cimfs prev = Raise e ->
  e = IndexError /\ exists j cs, (length cimfs <= j)%nat /\ (1 <= k -> Z.of_nat j < k) /\ length cs = j /\ shaped n cs /\
    ceemdan_loop std emd_of turns c modes S T (Z.of_nat j) cimfs prev = Ok cs /\
    culprit (vsub S (sum_rows n cs)) j.
Proof.
  induction turns as [|turns IH]; intros S k cimfs prev e HS HP Hc Hne Hr; cbn [ceemdan_loop]; [discriminate|].
  destruct (end_ok S cimfs k HS Hc) as (b & Eb). rewrite Eb. cbn [bind]. destruct b; [discriminate|].
  assert (Hk : 1 <= k -> zlen cimfs < k).
  { intros Hk. unfold c_end_condition in Eb. destruct (Z.ltb_spec 0 k); [|lia]. destruct (Z.leb_spec k (zlen cimfs)); [discriminate|lia]. }
  assert (Hz : 0 < zlen cimfs) by (destruct cimfs; [congruence|unfold zlen; cbn; lia]).
  destruct (fold_left _ _ _) as [m|e1] eqn:Em; cbn [bind].
  - intros X. pose proof (mean_fold_length _ _ _ _ _ _ _ _ _ _ Em) as Lm. rewrite vzeros_length in Lm.
    assert (Hc' : shaped n (cimfs ++ [vsub prev m])).
    { apply Forall_app. split; auto. constructor; auto. rewrite vsub_length; congruence. }
    destruct (IH S k (cimfs ++ [vsub prev m]) m e) as (-> & j & cs & J1 & J2 & J3 & J3' & J4 & J5); auto; try congruence.
    { destruct cimfs; discriminate. }
    { apply remainder; auto. congruence. }
    split; auto. exists j, cs. rewrite app_length in J1. cbn [length] in J1.
    split; [lia|]. split; [auto|]. split; [auto|]. split; [auto|]. split; [|auto].
    replace (c_end_condition emd_of c S cimfs (Z.of_nat j)) with (@Ok bool false).
    { cbn [bind]. exact J4. }
    rewrite <- Eb. unfold c_end_condition. destruct (Z.leb_spec (Z.of_nat j) (zlen cimfs)); [unfold zlen in *; lia|]. rewrite andb_false_r.
    destruct (Z.leb_spec k (zlen cimfs)); [|rewrite andb_false_r; reflexivity].
    destruct (Z.ltb_spec 0 k); [specialize (Hk ltac:(lia)); lia|]. reflexivity.
  - intros X. assert (e1 = e) as -> by congruence. apply fold_blame in Em as [-> CC]; auto; try lia; [|rewrite vzeros_length; auto].
    split; auto. exists (length cimfs), cimfs. split; [lia|]. split; [exact Hk|]. split; [auto|]. split; [auto|].
    split; [|unfold zlen in CC; rewrite Nat2Z.id in CC; rewrite Hr; exact CC].
    unfold c_end_condition. change (Z.of_nat (length cimfs)) with (zlen cimfs). destruct (Z.ltb_spec 0 (zlen cimfs)); [|lia].
    rewrite Z.leb_refl. reflexivity.
Qed.
End Run.

(** ** With EMD inside *)
Section WithEmd.
Variable spl : spline_oracle Qc.
Hypothesis Hspl : interpolates spl.
Hypothesis Hfuel : forall kind pts t, spl kind pts t <> Raise OutOfFuel.
Variable cfg : emd_config Qc.
Hypothesis Hdet : extrema_detection cfg = Simple.
Hypothesis Hnb : 1 <= nbsym cfg.
Hypothesis Hkind : parse_kind (spline_kind cfg) <> None.
Context {G : Type}.
Variable gen : generator Qc G.
Variable std : list Qc -> Qc.
Variable fuel : nat.
Hypothesis Hf : (0 < fuel)%nat.
Notation emd_of := (emd_fun spl fuel cfg).

Lemma emd_fun_one X T : (2 <= length X)%nat -> (forall t, T = Some t -> length t = length X) -> exists I, emd_of X T 1 = Ok I.
Proof.
  intros HX HT. destruct (emd_simple_returns spl Hspl cfg Hdet Hnb Hkind fuel X T 1 Hfuel HX HT) as (o & E); [lia|cbn; lia|].
  unfold emd_fun. rewrite E. cbn [bind]. eauto.
Qed.
Lemma emd_fun_empty X T k : emd_of X T k = Ok [] -> negligible X.
Proof.
  unfold emd_fun. intros E. apply bind_ok in E as (o & E & E1). assert (E2 : out o = []) by congruence.
  destruct (emd_output _ _ _ _ _ _ _ E) as [[H1 H2]|[H1 H2]].
  - apply (emd_no_rows spl cfg _ _ _ _ _ E); auto. congruence.
  - exfalso. rewrite E2 in H2. destruct (imfs o); discriminate.
Qed.
Lemma emd_fun_fuel X k e : (2 <= length X)%nat -> emd_of X None k = Raise e -> e = OutOfFuel.
Proof.
  intros HX. unfold emd_fun. pose proof (emd_simple_fine spl Hspl cfg Hdet Hnb Hkind fuel X None k HX ltac:(discriminate)) as F.
  destruct (emd spl fuel cfg X None k) as [o|e1]; [discriminate|]. cbn [bind]. cbn in F. congruence.
Qed.

Theorem ceemdan_blame arrival c o S T k e o' : sized gen -> reorders arrival ->
  (2 <= length S)%nat -> (forall t, T = Some t -> length t = length S) ->
  c_noise_kind c <> OtherNoise -> 0 <= c_trials c -> (c_parallel c = true -> 1 <= c_processes c) ->
  ceemdan gen std emd_of arrival c o S T k = (Raise e, o') ->
  exists noises,
    draws gen (c_noise_kind c) (noise_scale c) (Z.to_nat (c_trials c) * length S) (c_random o) (concat noises) (c_random o') /\
    zlen noises = c_trials c /\ shaped (length S) noises /\
    ((e = OutOfFuel /\ exists w, In w noises /\ emd spl fuel cfg w None (-1) = Raise OutOfFuel) \/
     (e = IndexError /\ exists w, In w noises /\ negligible w) \/
     (e = IndexError /\ exists (j : nat) C o2 r w M X, (1 <= j)%nat /\ (1 <= k -> Z.of_nat j < k) /\
        ceemdan gen std emd_of arrival c o S T (Z.of_nat j) = (Ok C, o2) /\ length C = Datatypes.S j /\
        last C [] = map (fun x => (x * std S)%Qc) r /\ length r = length S /\
        In w noises /\ modes_of std emd_of (beta_progress c) w M /\
        match nth_error M j with Some d => noisy r (scaled (epsilon c * std r)%Qc d) X | None => X = r end /\ negligible X)).
Proof.
  intros Hsz Harr HS HT Hk Ht Hp. unfold ceemdan at 1. set (S1 := map (fun x => ndiv x (std S)) S).
  assert (HL : length S1 = length S) by apply map_length. rewrite HL.
  destruct (all_noises gen c (c_random o) (length S)) as [nz g] eqn:En.
  assert (exists noises, nz = Ok noises) as (noises & ->).
  { unfold all_noises, c_generate_noise in En. destruct (c_noise_kind c); [| |congruence]; destruct (Z.ltb_spec (c_trials c) 0); try lia.
    - destruct (normal gen _ _ _). injection En as <- <-. eauto.
    - destruct (uniform gen _ _ _ _). injection En as <- <-. eauto. }
  cbn [bind]. destruct (all_noises_spec gen std _ _ _ _ _ Hsz En) as (D1 & D2 & D3).
  destruct (ceemdan_rows std emd_of arrival c noises S1 T k) as [cs|e1] eqn:E; cbn [bind]; [discriminate|].
  intros X. assert (e1 = e /\ g = c_random o') as [-> ->] by (split; [congruence|injection X as _ <-; reflexivity]). clear X.
  exists noises. split; [exact D1|]. split; [exact D2|]. split; [exact D3|].
  assert (HwL : forall w, In w noises -> length w = length S) by (intros w Hw; unfold shaped in D3; rewrite Forall_forall in D3; auto).
  unfold ceemdan_rows in E. destruct (decompose_noise std emd_of c noises) as [modes|e1] eqn:Ed; cbn [bind] in E.
  2:{ assert (e1 = e) as -> by congruence.
      destruct (decompose_blame std emd_of (length S) ltac:(lia) emd_fun_empty T c Hp _ _ Ed) as (w & W1 & [W2|[-> W2]]).
      - left. pose proof (emd_fun_fuel w _ _ ltac:(rewrite HwL; auto) W2) as ->. split; auto. exists w. split; auto.
        unfold emd_fun in W2. destruct (emd spl fuel cfg w None (-1)); [discriminate|]. cbn [bind] in W2. congruence.
      - right. left. split; auto. exists w. auto. }
  assert (HN1 : forall X, length X = length S -> exists I, emd_of X None 1 = Ok I)
    by (intros X HX; apply emd_fun_one; [lia|discriminate]).
  assert (HT1 : forall X, length X = length S -> exists I, emd_of X T 1 = Ok I)
    by (intros X HX; apply emd_fun_one; [lia|intros t Et; rewrite HX; auto]).
  assert (HT2 : forall X t, length X = length S -> t = match T with Some t => t | None => map nofZ (zseq 0 (length S)) end ->
    exists I, emd_of X (Some t) 1 = Ok I).
  { intros X t HX Et. apply emd_fun_one; [lia|]. intros t' Et'. assert (t' = t) as -> by congruence. rewrite HX.
    destruct T as [t0|]; [subst; auto|]. subst t. rewrite map_length, zseq_length. reflexivity. }
  destruct (inner_eemd emd_of arrival c modes S1 T) as [E0|e1] eqn:Ei; cbn [bind] in E.
  2:{ assert (e1 = e) as -> by congruence. right. left.
      exact (inner_blame std emd_of (length S) ltac:(lia) (emd_fits spl fuel cfg) emd_fun_empty T HN1 HT1 HT2 arrival Harr c Hp noises D3 D2 modes Ed S1 e HL Ei). }
  destruct (inner_shaped emd_of arrival _ _ _ _ _ Ei) as [Sh1 Sh2]. rewrite HL in Sh1.
  destruct E0 as [|first E0]; [cbn in Sh2; lia|]. cbn [py_get] in E. change (py_get (first :: E0) 0) with (@Ok (list Qc) first) in E. cbn [bind] in E.
  assert (Lf : length first = length S) by (inversion Sh1; auto).
  destruct (ceemdan_loop _ _ _ _ _ _ _ _ _ _) as [cs|e1] eqn:El; cbn [bind] in E; [discriminate|]. assert (e1 = e) as -> by congruence.
  assert (Sf : shaped (length S) [first]) by (constructor; auto).
  assert (Lv : length (vsub S1 first) = length S) by (rewrite vsub_length; congruence).
  apply (loop_blame std emd_of (length S) ltac:(lia) (emd_fits spl fuel cfg) emd_fun_empty T HN1 HT1 HT2 c Hp noises D3 D2 modes Ed) in El
    as (-> & j & cs & J1 & J2 & J3 & J3' & J4 & (w & M & X & C1 & C2 & C3 & C4)); auto; try discriminate.
  2:{ apply (nth_ext _ _ 0%Qc 0%Qc); [rewrite !vsub_length; try congruence; rewrite shaped_sum_length; auto|].
      intros i Hi. rewrite !nth_vsub0 by (try congruence; rewrite shaped_sum_length; auto). rewrite nth_sum_rows by auto.
      rewrite total_at_one. reflexivity. }
  right. right. split; auto. set (r := vsub S1 (sum_rows (length S) cs)) in *.
  assert (exists o2, ceemdan gen std emd_of arrival c o S T (Z.of_nat j) =
    (Ok (map (map (fun x => nmul x (std S))) (cs ++ [r])), o2)) as (o2 & EJ).
  { unfold ceemdan. fold S1. rewrite HL, En. cbn [bind]. unfold ceemdan_rows. rewrite Ed. cbn [bind]. rewrite Ei. cbn [bind].
    change (py_get (first :: E0) 0) with (@Ok (list Qc) first). cbn [bind]. rewrite J4. cbn [bind]. rewrite HL. fold r. eauto. }
  exists j, (map (map (fun x => nmul x (std S))) (cs ++ [r])), o2, r, w, M, X.
  split; [exact J1|]. split; [exact J2|]. split; [exact EJ|].
  split; [rewrite map_length, app_length; cbn [length]; lia|].
  split; [rewrite map_app; cbn [map]; rewrite last_last; reflexivity|].
  split; [unfold r; rewrite vsub_length; [auto|rewrite shaped_sum_length; auto]|].
  repeat (split; [assumption|]). exact C4.
Qed.
End WithEmd.
