(** * CeemdanExact: the components computed by CEEMDAN. *)
From Verif Require Import PyFacts QcFacts Ceemdan Spec EemdSpec CeemdanSpec EmdProofs EmdExact EmdStop EemdExact EmdFlat CeemdanProofs.
From Coq Require Import ZifyBool ZifyNat QArith Qcanon Permutation.
Open Scope Z_scope.

(** Trials visited by number are the elements of the list. *)
Lemma by_number {X Y} (P : X -> Y -> Prop) pre l ys :
  Forall2 (fun t y => exists x, py_get (pre ++ l) t = Ok x /\ P x y) (zseq (zlen pre) (length l)) ys ->
  Forall2 P l ys.
Proof.
  revert pre ys. induction l as [|x l IH]; intros pre ys F; cbn [length zseq] in F.
  - inversion F. constructor.
  - inversion F as [|t y ts ys' (x' & E & Hp) F']; subst. constructor.
    + rewrite py_get_nonneg with (d := x) in E
        by (unfold zlen; rewrite app_length; cbn [length]; lia).
      unfold zlen in E. rewrite Nat2Z.id, app_nth2, Nat.sub_diag in E by lia. cbn in E. congruence.
    + apply IH with (pre := pre ++ [x]). rewrite <- app_assoc. rewrite zlen_app.
      change (zlen [x]) with 1. exact F'.
Qed.

Lemma mapM_forall2 {X Y} (f : X -> res Y) l ys : mapM f l = Ok ys -> Forall2 (fun x y => f x = Ok y) l ys.
Proof.
  revert ys. induction l as [|x l IH]; intros ys; cbn [mapM].
  - intros E. injection E as <-. constructor.
  - intros E. apply bind_ok in E as (y & E1 & E). apply bind_ok in E as (ys' & E2 & E). injection E as <-.
    constructor; auto.
Qed.

Lemma forall2_map_r {X Y Z} (P : X -> Z -> Prop) (f : Y -> Z) l l' :
  Forall2 (fun x y => P x (f y)) l l' -> Forall2 P l (map f l').
Proof. induction 1; constructor; auto. Qed.
Lemma forall2_impl {X Y} (P Q : X -> Y -> Prop) l l' : (forall x y, P x y -> Q x y) -> Forall2 P l l' -> Forall2 Q l l'.
Proof. intros HPQ. induction 1; constructor; auto. Qed.

Lemma forall2_length {X Y} (P : X -> Y -> Prop) l l' : Forall2 P l l' -> length l = length l'.
Proof. induction 1; cbn; auto. Qed.

Lemma nth_map0 (f : Qc -> Qc) v i : f 0%Qc = 0%Qc -> nth i (map f v) 0%Qc = f (nth i v 0%Qc).
Proof. intros E. rewrite <- E at 1. apply map_nth. Qed.

Lemma broadcast_noisy (x y z : list Qc) : length y = length x -> broadcast2 nadd x y = Ok z -> noisy x y z.
Proof.
  intros L. unfold broadcast2. rewrite L, Nat.eqb_refl. intros E. injection E as <-.
  assert (LL : length (map2 nadd x y) = length x) by (apply vadd_length; auto).
  repeat split; auto. intros i. exact (nth_vadd x y i (eq_sym L)).
Qed.
Lemma iadd_noisy (x y z : list Qc) : length y = length x -> iadd x y = Ok z -> noisy x y z.
Proof.
  intros L E. unfold iadd in E. apply bind_ok in E as (w & E & F). destruct (Nat.eqb _ _); [|discriminate].
  injection F as <-. apply broadcast_noisy; auto.
Qed.

Section Exact.
Context {G : Type}.
Variable gen : generator Qc G.
Variable std : vec -> Qc.
Variable emd_of : vec -> option vec -> Z -> res rows.
Hypothesis Hfits : fits emd_of.

Lemma add_rows_first n E M : shaped n E -> shaped n M -> E <> [] -> forall i, (i < n)%nat ->
  (nth i (nth 0 (add_rows n E M) []) 0 = nth i (nth 0 E []) 0 + nth i (nth 0 M (repeat 0 n)) 0)%Qc.
Proof.
  intros HE HM Hne i Hi. destruct E as [|e E]; [congruence|]. destruct M as [|x M]; cbn [add_rows nth].
  - rewrite nth_repeat_lt by auto. ring.
  - inversion HE; inversion HM; subst. apply nth_vadd. congruence.
Qed.
Lemma accumulate_first n l E E' : shaped n E -> E <> [] -> fold_left (accumulate n) l (Ok E) = Ok E' ->
  forall i, (i < n)%nat ->
  (nth i (nth 0 E' []) 0 = nth i (nth 0 E []) 0 + total_at (map (fun M => nth 0 M (repeat 0%Qc n)) l) i)%Qc.
Proof.
  revert E. induction l as [|M l IH]; intros E HE Hne; cbn [fold_left].
  - intros X. injection X as <-. intros. unfold total_at. cbn. ring.
  - unfold accumulate at 2. cbn [bind]. destruct (forallb _ M) eqn:Ef.
    + intros X i Hi.
      assert (HM : shaped n M).
      { apply Forall_forall. intros r Hr. rewrite forallb_forall in Ef. apply Nat.eqb_eq. auto. }
      assert (Hne' : add_rows n E M <> []) by (destruct E; [congruence|destruct M; discriminate]).
      rewrite (IH _ (add_rows_shaped n E M HE HM) Hne' X i Hi), add_rows_first by auto.
      cbn [map]. change (nth 0 M (repeat 0%Qc n) :: map (fun M => nth 0 M (repeat 0%Qc n)) l)
        with ([nth 0 M (repeat 0%Qc n)] ++ map (fun M => nth 0 M (repeat 0%Qc n)) l).
      rewrite total_at_app, total_at_one. ring.
    + rewrite fold_raise; [discriminate|reflexivity].
Qed.

Lemma mean_of (n : nat) (parts : rows) (m : vec) q : 0 < q -> zlen parts = q -> length m = n ->
  (forall i, (i < n)%nat -> (nth i m 0 = total_at parts i / nofZ q)%Qc) -> is_mean n parts m.
Proof.
  intros Hq HL Hn Hm. split; [destruct parts; [cbn in HL; lia|discriminate]|]. split; auto.
  intros i Hi. rewrite Hm by auto. unfold zlen in HL. rewrite HL. change (nofZ q) with (Qc_ofZ q).
  change (Q2Qc (inject_Z q)) with (Qc_ofZ q). field.
  change (Qc_ofZ q <> Qc_ofZ 0). rewrite Qc_ofZ_inj. lia.
Qed.

Lemma inner_first c modes S T E first : c_parallel c = false -> 0 < c_trials c ->
  zlen modes = c_trials c -> (forall M, In M modes -> shaped (length S) M) ->
  inner_eemd emd_of (fun l => l) c modes S T = Ok E -> py_get E 0 = Ok first ->
  exists t parts, match T with Some t' => t = t' | None => t = map Qc_ofZ (zseq 0 (length S)) end /\
    Forall2 (first_part emd_of (epsilon c) S t) modes parts /\ is_mean (length S) parts first.
Proof.
  intros Hp Ht Hm Hsh. unfold inner_eemd. rewrite Hp. intros X Hf.
  set (t := match T with Some t => t | None => _ end) in X.
  apply bind_ok in X as (u & _ & X). apply bind_ok in X as (rs & Er & X).
  apply bind_ok in X as (E0 & F & X). injection X as <-.
  apply mapM_forall2 in Er. unfold zrange in Er.
  assert (HL : length modes = Z.to_nat (c_trials c - 0)) by (unfold zlen in Hm; lia).
  rewrite <- HL in Er.
  set (parts := map (fun M => nth 0 M (repeat 0%Qc (length S))) rs).
  exists t, parts. split; [subst t; destruct T; reflexivity|].
  assert (HZ : shaped (length S) [@vzeros Qc _ (length S)]) by (constructor; [apply vzeros_length|constructor]).
  split.
  - apply by_number with (pre := []). change (zlen (@nil rows)) with 0. cbn [app]. subst parts.
    apply forall2_map_r. eapply forall2_impl; [|exact Er]. cbn. intros tr M Et.
    unfold c_trial in Et. apply bind_ok in Et as (imfs & E1 & Et). apply bind_ok in Et as (d & E2 & Et).
    apply bind_ok in Et as (x & E3 & Et). exists imfs. split; auto.
    destruct imfs as [|d' rest]; [discriminate|].
    assert (d' = d) by (unfold py_get in E2; cbn in E2; congruence). subst d'.
    exists d, rest, x, M. split; auto. split; [|auto].
    apply broadcast_noisy; auto. unfold vscale, scaled. rewrite map_length.
    assert (Hin : In (d :: rest) modes).
    { eapply py_get_in. exact E1. }
    specialize (Hsh _ Hin). inversion Hsh; auto.
  - apply mean_of with (q := c_trials c); auto.
    + subst parts. apply forall2_length in Er. rewrite zseq_length in Er. unfold zlen. rewrite map_length. lia.
    + apply accumulate_shaped in F as [F1 F2]; auto. apply py_get_in in Hf.
      apply div_rows_shaped with (s := nofZ (c_trials c)) in F1. unfold shaped in F1.
      rewrite Forall_forall in F1. auto.
    + intros i Hi. pose proof (accumulate_first _ _ _ _ HZ ltac:(discriminate) F i Hi) as FF.
      apply accumulate_shaped in F as [_ F2]; auto.
      destruct E0 as [|e0 E0]; [cbn in F2; lia|]. cbn [div_rows map] in Hf.
      unfold py_get in Hf. cbn in Hf. injection Hf as <-.
      rewrite nth_map0 by (change (0 / nofZ (c_trials c) = 0)%Qc; unfold Qcdiv; ring).
      cbn [nth] in FF. rewrite FF. fold parts. cbn [nth].
      assert (Ez : nth i (vzeros (length S)) 0%Qc = 0%Qc) by (unfold vzeros; apply nth_repeat_lt; auto).
      rewrite Ez. change ndiv with Qcdiv. f_equal. ring.
Qed.

Lemma mean_fold c modes T prev beta k l m m' : (forall M, In M modes -> shaped (length prev) M) ->
  length m = length prev -> 0 <= k ->
  fold_left (mean_step emd_of c modes T prev beta k) l (Ok m) = Ok m' ->
  exists parts, Forall2 (fun t p => exists D, py_get modes t = Ok D /\ later_part emd_of beta (Z.to_nat k) prev T D p) l parts /\
    forall i, (nth i m' 0 = nth i m 0 + total_at parts i / nofZ (c_trials c))%Qc.
Proof.
  intros Hsh Hl Hk. revert m Hl. induction l as [|t l IH]; intros m Hl; cbn [fold_left].
  - intros X. injection X as <-. exists []. split; [constructor|]. intros i. unfold total_at. cbn.
    unfold Qcdiv. ring.
  - destruct (mean_step emd_of c modes T prev beta k (Ok m) t) as [m1|e] eqn:E; [|rewrite fold_raise; [discriminate|reflexivity]].
    intros F. unfold mean_step in E. cbn [bind] in E.
    apply bind_ok in E as (D & E1 & E). apply bind_ok in E as (r & E2 & E).
    apply bind_ok in E as (I & E3 & E). apply bind_ok in E as (la & E4 & E).
    assert (HD : shaped (length prev) D) by (apply Hsh; eapply py_get_in; exact E1).
    assert (HN : match nth_error D (Z.to_nat k) with Some d => noisy prev (scaled beta d) r | None => r = prev end).
    { destruct (Z.ltb_spec k (zlen D)) as [Hlt|Hge].
      - apply bind_ok in E2 as (d & E2 & E5).
        assert (En : nth_error D (Z.to_nat k) = Some d).
        { rewrite py_get_nonneg with (d := d) in E2 by lia.
          rewrite (nth_error_nth' D d) by (unfold zlen in Hlt; lia). congruence. }
        rewrite En. apply iadd_noisy; auto. unfold vscale, scaled. rewrite map_length.
        apply nth_error_In in En. unfold shaped in HD. rewrite Forall_forall in HD. auto.
      - assert (En : nth_error D (Z.to_nat k) = None) by (apply nth_error_None; unfold zlen in Hge; lia).
        rewrite En. congruence. }
    assert (Hr : length r = length prev).
    { destruct (nth_error D (Z.to_nat k)); [destruct HN as (_ & HN & _); auto|congruence]. }
    assert (HI : I <> []) by (destruct I; [discriminate|discriminate]).
    assert (Hla : la = last I []).
    { destruct I as [|x I'] using rev_ind; [congruence|]. rewrite py_get_last in E4. rewrite last_last. congruence. }
    assert (Hlal : length la = length prev).
    { apply Hfits in E3. unfold shaped in E3. rewrite Forall_forall in E3.
      rewrite <- Hr. apply E3. subst la. destruct I as [|x I'] using rev_ind; [congruence|].
      rewrite last_last. apply in_or_app. right. left. auto. }
    apply iadd_noisy in E; [|rewrite map_length; congruence]. destruct E as (_ & Hm1 & E).
    destruct (IH m1 ltac:(congruence) F) as (parts & P1 & P2). exists (la :: parts). split.
    + constructor; auto. exists D. split; auto. exists r, I. repeat split; auto.
    + intros i. rewrite P2, E. change (la :: parts) with ([la] ++ parts).
      rewrite total_at_app, total_at_one.
      rewrite nth_map0 by (change (0 / nofZ (c_trials c) = 0)%Qc; unfold Qcdiv; ring).
      change ndiv with Qcdiv. unfold Qcdiv. ring.
Qed.

Lemma loop_chain n c modes S T k cimfs prev C : 0 < c_trials c -> zlen modes = c_trials c ->
  (forall M, In M modes -> shaped (length S) M) -> length prev = length S ->
  ceemdan_loop std emd_of n c modes S T k cimfs prev = Ok C ->
  exists cs, C = cimfs ++ cs /\ chain std emd_of (epsilon c) T modes (length cimfs) prev cs.
Proof.
  intros Ht Hm Hsh. revert cimfs prev. induction n as [|n IH]; intros cimfs prev Hp; cbn [ceemdan_loop].
  - intros X. injection X as <-. exists []. split; [rewrite app_nil_r; auto|constructor].
  - intros X. apply bind_ok in X as (stop & _ & X). destruct stop.
    { injection X as <-. exists []. split; [rewrite app_nil_r; auto|constructor]. }
    apply bind_ok in X as (m & Em & X).
    pose proof (mean_fold_length _ _ _ _ _ _ _ _ _ _ Em) as Hml. rewrite vzeros_length in Hml.
    apply IH in X as (cs & -> & Hc); [|auto].
    exists (vsub prev m :: cs). split; [rewrite <- app_assoc; reflexivity|].
    apply mean_fold in Em as (parts & P1 & P2);
      [|rewrite Hp; auto|rewrite vzeros_length; auto|unfold zlen; lia].
    unfold zlen in P1. rewrite Nat2Z.id in P1.
    assert (HL : length modes = Z.to_nat (c_trials c - 0)) by (unfold zlen in Hm; lia).
    apply chain_step with (parts := parts) (m := m).
    + apply by_number with (pre := []). change (zlen (@nil rows)) with 0. cbn [app].
      unfold zrange in P1. rewrite <- HL in P1. exact P1.
    + apply mean_of with (q := c_trials c); auto; [|congruence|].
      * apply forall2_length in P1. unfold zrange in P1. rewrite zseq_length in P1. unfold zlen. lia.
      * intros i Hi. rewrite P2.
        assert (Ez : nth i (vzeros (length S)) 0%Qc = 0%Qc) by (unfold vzeros; apply nth_repeat_lt; lia).
        rewrite Ez. ring.
    + assert (HL2 : length prev = length m) by congruence.
      split; [rewrite vsub_length; auto|]. split; auto. intros i. rewrite nth_vsub by auto. ring.
    + rewrite app_length in Hc. cbn [length] in Hc. rewrite Nat.add_1_r in Hc. exact Hc.
Qed.

Lemma decompose_spec c noises modes : decompose_noise std emd_of c noises = Ok modes ->
  Forall2 (modes_of std emd_of (beta_progress c)) noises modes.
Proof.
  unfold decompose_noise. intros X. apply bind_ok in X as (u & _ & X). apply bind_ok in X as (all & E & X).
  apply mapM_forall2 in E. unfold modes_of. destruct (beta_progress c).
  - apply bind_ok in X as (stds & E2 & X). injection X as <-. apply mapM_forall2 in E2.
    revert all stds E E2. induction noises as [|v noises IH]; intros all stds E E2.
    + inversion E; subst. constructor.
    + inversion E as [|a b l1 l2 Ea El]; subst. inversion E2 as [|a2 b2 l3 l4 Ea2 El2]; subst. cbn [map2].
      constructor; [|apply IH; auto]. exists b. split; auto.
      apply bind_ok in Ea2 as (d & Ea2 & Eb). injection Eb as <-. destruct b as [|d' rest]; [discriminate|].
      unfold py_get in Ea2. cbn in Ea2. injection Ea2 as ->. exists d, rest. split; auto.
  - injection X as <-. eapply forall2_impl; [|exact E]. cbn. intros v D Ed. exists D. auto.
Qed.

Lemma modes_shaped b noise M : modes_of std emd_of b noise M -> shaped (length noise) M.
Proof.
  intros (D & E & Hb). apply Hfits in E. destruct b; [|congruence].
  destruct Hb as (d & rest & _ & ->). apply Forall_map. eapply Forall_impl; [|exact E]. cbn. intros r Hr.
  rewrite map_length. auto.
Qed.

Lemma reshape_spec m n (v : vec) : length v = (m * n)%nat ->
  concat (reshape m n v) = v /\ length (reshape m n v) = m /\ shaped n (reshape m n v).
Proof.
  revert v. induction m as [|m IH]; intros v Hv; cbn [reshape].
  - destruct v; [|discriminate]. repeat split. constructor.
  - destruct (IH (skipn n v)) as (I1 & I2 & I3); [rewrite skipn_length; cbn in Hv; lia|].
    cbn [concat length]. rewrite I1, I2, firstn_skipn. repeat split. constructor; auto.
    rewrite firstn_length. cbn in Hv. lia.
Qed.

Lemma all_noises_spec c g n noises g' : sized gen -> all_noises gen c g n = (Ok noises, g') ->
  draws gen (c_noise_kind c) (noise_scale c) (Z.to_nat (c_trials c) * n) g (concat noises) g' /\
  zlen noises = c_trials c /\ shaped n noises.
Proof.
  intros Hs. unfold all_noises, c_generate_noise, draws.
  destruct (c_noise_kind c); [| |discriminate]; destruct (Z.ltb_spec (c_trials c) 0); try discriminate.
  - pose proof (Hs g (noise_scale c) (Z.to_nat (c_trials c) * n)%nat) as [HL _].
    destruct (normal gen _ _ _) as [v g1]. cbn [fst] in HL. intros X. injection X as <- <-.
    destruct (reshape_spec _ _ _ HL) as (R1 & R2 & R3). rewrite R1. unfold zlen. rewrite R2. repeat split; auto. lia.
  - pose proof (Hs g (noise_scale c) (Z.to_nat (c_trials c) * n)%nat) as [_ HL].
    specialize (HL (ndiv (nopp (noise_scale c)) n2) (ndiv (noise_scale c) n2)).
    destruct (uniform gen _ _ _ _) as [v g1] eqn:Eu. cbn [fst] in HL. intros X. injection X as <- <-.
    destruct (reshape_spec _ _ _ HL) as (R1 & R2 & R3). rewrite R1. unfold zlen. rewrite R2.
    split; [|split; [lia|auto]].
    exists (ndiv (nopp (noise_scale c)) n2), (ndiv (noise_scale c) n2).
    assert (T2 : (@n2 Qc _ : Qc) <> 0%Qc) by (vm_compute; discriminate).
    split; [|split; auto].
    + change (- noise_scale c / (1+1) + - noise_scale c / (1+1) = - noise_scale c)%Qc. field. exact T2.
    + change (noise_scale c / (1+1) + noise_scale c / (1+1) = noise_scale c)%Qc. field. exact T2.
Qed.

Lemma Forall2_in_r {X Y} (P : X -> Y -> Prop) l l' y : Forall2 P l l' -> In y l' -> exists x, In x l /\ P x y.
Proof. induction 1; [intros []|]. intros [<-|Hy]; [exists x; cbn; auto|]. destruct (IHForall2 Hy) as (z & ? & ?). exists z. cbn. auto. Qed.

Lemma ceemdan_components arrival c o S T k C o' : sized gen -> reorders arrival ->
  (c_parallel c = true -> 1 <= c_processes c) -> 0 < c_trials c ->
  ceemdan gen std emd_of arrival c o S T k = (Ok C, o') ->
  let S1 := map (fun x => (x / std S)%Qc) S in
  exists noises modes t parts c1 cs r,
    draws gen (c_noise_kind c) (noise_scale c) (Z.to_nat (c_trials c) * length S) (c_random o) (concat noises) (c_random o') /\
    zlen noises = c_trials c /\ shaped (length S) noises /\
    Forall2 (modes_of std emd_of (beta_progress c)) noises modes /\
    match T with Some t' => t = t' | None => t = map Qc_ofZ (zseq 0 (length S)) end /\
    Forall2 (first_part emd_of (epsilon c) S1 t) modes parts /\ is_mean (length S) parts c1 /\
    (exists r1, noisy c1 r1 S1 /\ chain std emd_of (epsilon c) T modes 1 r1 cs) /\
    adds_up (c1 :: cs ++ [r]) S1 /\ length r = length S /\
    C = map (map (fun x => (x * std S)%Qc)) (c1 :: cs ++ [r]).
Proof.
  intros Hsz HA Hp Ht X. cbv zeta. set (S1 := map (fun x => (x / std S)%Qc) S).
  rewrite ceemdan_serial in X by auto.
  assert (HL : length S1 = length S) by (unfold S1; apply map_length).
  unfold ceemdan in X. change (map (fun x => ndiv x (std S)) S) with S1 in X. cbv zeta in X.
  destruct (all_noises gen (serial_version c) (c_random o) (length S1)) as [nz g] eqn:En.
  destruct (bind nz _) as [C1|e] eqn:E; [|discriminate]. injection X as <- <-.
  destruct nz as [noises|e]; [|discriminate]. cbn [bind] in E.
  apply bind_ok in E as (all & E & F). injection F as <-.
  apply all_noises_spec in En as (N1 & N2 & N3); auto.
  cbn [serial_version c_noise_kind noise_scale c_trials] in N1, N2. rewrite HL in N1, N3.
  unfold ceemdan_rows in E. apply bind_ok in E as (modes & Em & E). apply bind_ok in E as (E0 & Ei & E).
  apply bind_ok in E as (c1 & E1 & E). apply bind_ok in E as (cimfs & E2 & E). injection E as <-.
  apply decompose_spec in Em. cbn [serial_version beta_progress] in Em.
  assert (HML : zlen modes = c_trials c) by (apply forall2_length in Em; unfold zlen in *; lia).
  assert (HMS : forall M, In M modes -> shaped (length S1) M).
  { intros M HM. destruct (Forall2_in_r _ _ _ _ Em HM) as (v & Hv & Hmv). apply modes_shaped in Hmv.
    unfold shaped in N3. rewrite Forall_forall in N3. rewrite (N3 _ Hv), <- HL in Hmv. auto. }
  pose proof (inner_shaped _ _ _ _ _ _ _ Ei) as [HE _].
  destruct (inner_first _ _ _ _ _ _ (eq_refl : c_parallel (serial_version c) = false) Ht HML HMS Ei E1) as (t & parts & P1 & P2 & P3).
  assert (Hc1 : length c1 = length S1) by (destruct P3 as (_ & P3 & _); auto).
  assert (Hsh : shaped (length S1) cimfs)
    by (apply (loop_spec std emd_of arrival) in E2; [exact (proj1 E2)|constructor; auto|rewrite vsub_length; auto]).
  apply loop_chain in E2 as (cs & -> & HC); [|exact Ht|exact HML|exact HMS|rewrite vsub_length; auto].
  cbn [app serial_version epsilon length] in HC, P2. rewrite HL in P3, P1.
  exists noises, modes, t, parts, c1, cs, (vsub S1 (sum_rows (length S1) (c1 :: cs))).
  split; [exact N1|]. split; [exact N2|]. split; [exact N3|]. split; [exact Em|]. split; [exact P1|].
  split; [exact P2|]. split; [exact P3|]. split.
  { exists (vsub S1 c1). split; auto. split; [rewrite vsub_length; congruence|]. split; auto.
    intros i. rewrite nth_vsub by auto. ring. }
  split; [|split; [rewrite vsub_length; auto; rewrite shaped_sum_length; auto|reflexivity]].
  intros i Hi. change (c1 :: cs ++ ?x) with ((c1 :: cs) ++ x). rewrite total_at_app, total_at_one, Qcplus_comm.
  apply residue_spec; auto.
Qed.
End Exact.

Lemma emd_fits spl fuel cfg : fits (emd_fun spl fuel cfg).
Proof.
  intros X T k D E. unfold emd_fun in E. apply bind_ok in E as (o & E & F). injection F as <-.
  destruct (emd_shape _ _ _ _ _ _ _ E) as (A1 & _). exact A1.
Qed.

(** ** Number of rows and reason for stopping *)
Lemma ceemdan_count {A} `{Num A} {G} (gen : generator A G) std emd_of arrival c o S T k C o' :
  ceemdan gen std emd_of arrival c o S T k = (Ok C, o') ->
  2 <= zlen C <= Z.max 0 (loop_limit c) + 2 /\ (1 <= k -> zlen C <= k + 1).
Proof.
  unfold ceemdan. set (S1 := map (fun x => ndiv x (std S)) S).
  destruct (all_noises gen c (c_random o) (length S1)) as [nz g].
  destruct (bind nz _) as [C1|e] eqn:E; [|discriminate]. intros X. injection X as <- <-.
  apply bind_ok in E as (noises & _ & E). apply bind_ok in E as (cs & E & X). injection X as <-.
  apply rows_spec in E as (cimfs & -> & _ & H1 & H2 & _).
  unfold zlen in *. rewrite map_length, app_length. cbn [length]. lia.
Qed.

Lemma ceemdan_stop {G} (gen : generator Qc G) std emd_of arrival c o S T k C o' : S <> [] ->
  ceemdan gen std emd_of arrival c o S T k = (Ok C, o') ->
  exists r, length r = length S /\ last C [] = map (fun x => (x * std S)%Qc) r /\
  (zlen C = Z.max 0 (loop_limit c) + 2 \/ (1 <= k /\ zlen C = k + 1) \/
   exists D, emd_of r None 1 = Ok D /\
     (zlen D = 1 \/
      (exists hi lo, greatest hi r /\ least lo r /\ (hi - lo < c_range_thr c)%Qc) \/
      (total (map Qc_abs r) < c_total_power_thr c)%Qc)).
Proof.
  intros HS. unfold ceemdan. set (S1 := map (fun x => ndiv x (std S)) S).
  assert (HL : length S1 = length S) by apply map_length.
  destruct (all_noises gen c (c_random o) (length S1)) as [nz g].
  destruct (bind nz _) as [C1|e] eqn:E; [|discriminate]. intros X. injection X as <- <-.
  apply bind_ok in E as (noises & _ & E). apply bind_ok in E as (cs & E & X). injection X as <-.
  apply rows_spec in E as (cimfs & -> & Hsh & H1 & H2 & H3).
  set (r := vsub S1 (sum_rows (length S1) cimfs)) in *.
  assert (Hr : length r = length S).
  { unfold r. rewrite vsub_length; auto. rewrite shaped_sum_length; auto. }
  exists r. split; auto. split; [rewrite map_app; cbn [map]; rewrite last_last; reflexivity|].
  match goal with |- context [zlen (map ?f ?l)] => assert (HC : zlen (map f l) = zlen cimfs + 1) end.
  { unfold zlen. rewrite map_length, app_length. cbn [length]. lia. }
  rewrite HC. destruct H3 as [H3|H3]; [left; unfold zlen; lia|right].
  unfold c_end_condition in H3. destruct (Z.ltb_spec 0 k) as [Hk|Hk].
  - destruct (Z.leb_spec k (zlen cimfs)) as [Hk2|Hk2]; cbn [andb] in H3.
    + left. specialize (H2 ltac:(lia)). lia.
    + right. fold r in H3. apply bind_ok in H3 as (D & ED & H3). exists D. split; auto.
      destruct (Z.eqb_spec (zlen D) 1); [left; auto|right].
      apply bind_ok in H3 as (hi & E1 & H3). apply bind_ok in H3 as (lo & E2 & H3).
      rewrite nsum_total in H3. apply np_max_spec in E1. apply np_min_spec in E2.
      destruct (nltb (nsub hi lo) (c_range_thr c)) eqn:E3.
      * left. exists hi, lo. split; auto. split; auto. apply Qc_ltb_lt. exact E3.
      * right. destruct (nltb (total (map nabs r)) (c_total_power_thr c)) eqn:E4; [|discriminate].
        apply Qc_ltb_lt. exact E4.
  - right. cbn [andb] in H3. fold r in H3. apply bind_ok in H3 as (D & ED & H3). exists D. split; auto.
    destruct (Z.eqb_spec (zlen D) 1); [left; auto|right].
    apply bind_ok in H3 as (hi & E1 & H3). apply bind_ok in H3 as (lo & E2 & H3).
    rewrite nsum_total in H3. apply np_max_spec in E1. apply np_min_spec in E2.
    destruct (nltb (nsub hi lo) (c_range_thr c)) eqn:E3.
    + left. exists hi, lo. split; auto. split; auto. apply Qc_ltb_lt. exact E3.
    + right. destruct (nltb (total (map nabs r)) (c_total_power_thr c)) eqn:E4; [|discriminate].
      apply Qc_ltb_lt. exact E4.
Qed.
