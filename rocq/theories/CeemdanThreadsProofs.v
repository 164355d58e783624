(** * CeemdanThreadsProofs: a call of ceemdan nobody disturbs is [ceemdan]; any call returns rows that add up. *)
From Verif Require Import PyFacts QcFacts Ceemdan Spec EemdSpec EemdThreadsSpec CeemdanThreads CeemdanThreadsSpec Steps StepsProofs EmdProofs EmdExact CeemdanProofs.
From Coq Require Import ZifyBool ZifyNat QArith Qcanon Lia.
Open Scope Z_scope.

Section Alone.
Context {A : Type} `{Num A} {G : Type}.
Variable gen : generator A G.
Variable std : list A -> A.
Variable emd_of : list A -> option (list A) -> Z -> res (list (list A)).
Variable c : ceemdan_config A.
Notation vec := (list A).
Notation rows := (list (list A)).
Hypothesis Hgen : gives_all gen.
Hypothesis Hfits : fits_any emd_of.
Hypothesis Hserial : c_parallel c = false.

Lemma trial_unaided t (a : holdings A G) : h_max a = 1 ->
  unaided (trial_steps emd_of c t) a = (c_trial emd_of c (h_modes a) (h_S a) (h_T a) t, a).
Proof.
  intros Hm. unfold trial_steps, c_trial. rewrite unaided_after. unfold try at 1. cbn [unaided fst snd].
  destruct (py_get (h_modes a) t) as [imfs|e]; cbn [bind]; [|reflexivity].
  destruct (py_get imfs 0) as [first|e]; cbn [bind]; [|reflexivity].
  rewrite unaided_after. unfold try. cbn [unaided fst snd]. destruct (broadcast2 _ _ _) as [x|e]; cbn [bind]; [|reflexivity].
  unfold look. cbn [Steps.after unaided]. rewrite Hm. reflexivity.
Qed.

Lemma add_in_rows n M : forall E : rows, shaped n E -> shaped n M ->
  add_in (E ++ repeat (vzeros n) (length M - length E)) M = Ok (add_rows n E M).
Proof.
  induction M as [|i M IH]; intros E HE HM.
  - cbn [length Nat.sub repeat]. rewrite app_nil_r. destruct E; reflexivity.
  - inversion HM as [|? ? Hi HM']; subst. destruct E as [|e E].
    + cbn [length Nat.sub repeat app add_in add_rows]. rewrite vzeros_length, Nat.eqb_refl.
      specialize (IH [] HE HM'). cbn [app length] in IH. rewrite Nat.sub_0_r in IH. rewrite IH. reflexivity.
    + inversion HE as [|? ? He HE']; subst. cbn [length Nat.sub app add_in add_rows]. rewrite He, Nat.eqb_refl.
      rewrite (IH E HE' HM'). reflexivity.
Qed.
Lemma shaped_forallb n (E : rows) : shaped n E -> forallb (fun r => Nat.eqb (length r) n) E = true.
Proof. intros HE. apply forallb_forall. intros r Hr. apply Nat.eqb_eq. exact (proj1 (Forall_forall _ _) HE r Hr). Qed.

Lemma trial_shaped M0 S T t D : Forall (shaped (length S)) M0 -> c_trial emd_of c M0 S T t = Ok D -> shaped (length S) D.
Proof.
  unfold c_trial. intros HM E. apply bind_ok in E as (imfs & E1 & E). apply bind_ok in E as (first & E2 & E).
  apply bind_ok in E as (x & E3 & E). apply Hfits in E. enough (L : length x = length S) by (rewrite L in E; exact E).
  apply py_get_in in E1, E2. pose proof (proj1 (Forall_forall _ _) HM _ E1) as Q. pose proof (proj1 (Forall_forall _ _) Q _ E2) as L.
  rewrite broadcast2_eq in E3 by (unfold vscale; rewrite map_length; auto). injection E3 as <-. rewrite map2_length_eq; auto.
  unfold vscale. rewrite map_length. cbn in L. congruence.
Qed.

Lemma sum_unaided l : forall (a : holdings A G), Forall (shaped (length (h_S a))) (h_modes a) -> shaped (length (h_S a)) (h_E a) -> h_max a = 1 ->
  match mapM (c_trial emd_of c (h_modes a) (h_S a) (h_T a)) l with
  | Raise e => exists E', unaided (sum_steps emd_of c (length (h_S a)) l) a = (Raise e, set_h_E E' a)
  | Ok rs => exists E', unaided (sum_steps emd_of c (length (h_S a)) l) a = (Ok tt, set_h_E E' a) /\
      fold_left (accumulate (length (h_S a))) rs (Ok (h_E a)) = Ok E'
  end.
Proof.
  induction l as [|t l IH]; intros a HM HE Hm.
  - cbn [mapM sum_steps unaided]. exists (h_E a). split; [destruct a; reflexivity|reflexivity].
  - cbn [mapM sum_steps]. rewrite unaided_after, trial_unaided by auto.
    destruct (c_trial emd_of c (h_modes a) (h_S a) (h_T a) t) as [D|e] eqn:ED; cbn [bind].
    2:{ exists (h_E a). destruct a; reflexivity. }
    pose proof (trial_shaped _ _ _ _ _ HM ED) as HD. set (n := length (h_S a)) in *.
    assert (HG : exists F, (F = h_E a ++ repeat (vzeros n) (length D - length (h_E a))) /\
      unaided (Steps.after (look h_E) (fun E => Steps.after (if zlen E <? zlen D then
                 Steps.after (look (fun a => zlen D - zlen (h_E a))) (fun d =>
                 Steps.after (try (fun a => (stack_zeros (h_E a) d n, a))) (fun E =>
                 write (set_h_E E)))
               else Done (Ok tt)) (fun _ =>
        Steps.after (try (fun a => match add_in (h_E a) D with Ok E => (Ok tt, set_h_E E a) | Raise e => (Raise e, a) end)) (fun _ =>
        sum_steps emd_of c n l)))) a = unaided (Steps.after (try (fun a => match add_in (h_E a) D with Ok E => (Ok tt, set_h_E E a) | Raise e => (Raise e, a) end)) (fun _ =>
        sum_steps emd_of c n l)) (set_h_E F a)).
    { eexists. split; [reflexivity|]. rewrite unaided_after. unfold look at 1. cbn [unaided]. rewrite unaided_after.
      destruct (Z.ltb_spec (zlen (h_E a)) (zlen D)) as [L|L].
      - rewrite unaided_after. unfold look. cbn [unaided]. rewrite unaided_after. unfold try at 1. cbn [unaided fst snd].
        unfold stack_zeros. rewrite (shaped_forallb n (h_E a) HE). replace (zlen D - zlen (h_E a) <? 0) with false by lia. cbn [orb negb].
        unfold write. cbn [unaided]. replace (Z.to_nat (zlen D - zlen (h_E a))) with (length D - length (h_E a))%nat by (unfold zlen; lia). reflexivity.
      - replace (length D - length (h_E a))%nat with 0%nat by (unfold zlen in L; lia). cbn [repeat unaided]. rewrite app_nil_r.
        replace (set_h_E (h_E a) a) with a by (destruct a; reflexivity). reflexivity. }
    destruct HG as (F & HF & ->). rewrite unaided_after. unfold try. cbn [unaided h_E set_h_E]. rewrite HF, add_in_rows by auto. cbn [fst snd].
    set (a1 := set_h_E (add_rows n (h_E a) D) a).
    replace (set_h_E (add_rows n (h_E a) D) (set_h_E (h_E a ++ repeat (vzeros n) (length D - length (h_E a))) a)) with a1 by reflexivity.
    specialize (IH a1 HM (add_rows_shaped n (h_E a) D HE HD) Hm).
    change (h_S a1) with (h_S a) in IH. change (h_modes a1) with (h_modes a) in IH. change (h_T a1) with (h_T a) in IH. fold n in IH.
    destruct (mapM (c_trial emd_of c (h_modes a) (h_S a) (h_T a)) l) as [rs|e]; cbn [bind].
    + destruct IH as (E' & H1 & H2). exists E'. split; [exact H1|]. cbn [fold_left]. unfold accumulate at 2. cbn [bind].
      rewrite (shaped_forallb n D HD). exact H2.
    + destruct IH as (E' & H1). exists E'. exact H1.
Qed.

(** What the first stage leaves alone. *)
Definition kept_by (a a' : holdings A G) : Prop :=
  h_random a' = h_random a /\ h_modes a' = h_modes a /\ h_C a' = h_C a /\ h_residue a' = h_residue a.
Lemma inner_unaided arrival S T (a : holdings A G) : Forall (shaped (length S)) (h_modes a) ->
  exists a', unaided (inner_steps emd_of c S T) a = (inner_eemd emd_of arrival c (h_modes a) S T, a') /\ kept_by a a'.
Proof.
  intros HM. unfold inner_steps, inner_eemd, open_pool. rewrite Hserial. cbn [andb bind].
  set (T' := match T with Some t => t | None => _ end).
  set (a1 := set_h_E [vzeros (length S)] (set_h_max 1 (set_h_T T' (set_h_S S a)))).
  unfold write. cbn [Steps.after unaided]. fold a1. rewrite unaided_after.
  assert (H1 : shaped (length S) [vzeros (length S)]) by (constructor; [apply vzeros_length|constructor]).
  pose proof (sum_unaided (zrange 0 (c_trials c)) a1 HM H1 eq_refl) as HS.
  change (h_modes a1) with (h_modes a) in HS. change (h_S a1) with S in HS. change (h_T a1) with T' in HS. change (h_E a1) with [vzeros (length S)] in HS.
  destruct (mapM _ _) as [rs|e]; cbn [bind].
  - destruct HS as (E' & -> & ->). cbn [bind]. unfold look. cbn [unaided]. eexists. split; [reflexivity|]. repeat split.
  - destruct HS as (E' & ->). eexists. split; [reflexivity|]. repeat split.
Qed.

Lemma mean_unaided T prev beta k l : forall m (a : holdings A G),
  unaided (mean_steps emd_of c T prev beta k l m) a = (fold_left (mean_step emd_of c (h_modes a) T prev beta k) l (Ok m), a).
Proof.
  induction l as [|t l IH]; intros m a; cbn [mean_steps fold_left]; [reflexivity|].
  unfold look. cbn [Steps.after unaided]. destruct (mean_step emd_of c (h_modes a) T prev beta k (Ok m) t) as [m'|e]; cbn [Steps.after].
  - apply IH.
  - cbn [unaided]. rewrite fold_raise by reflexivity. reflexivity.
Qed.
Lemma loop_unaided n S T k : forall cimfs prev (a : holdings A G),
  unaided (loop_steps std emd_of c n S T k cimfs prev) a = (ceemdan_loop std emd_of n c (h_modes a) S T k cimfs prev, a).
Proof.
  induction n as [|n IH]; intros cimfs prev a; cbn [loop_steps ceemdan_loop]; [reflexivity|].
  destruct (c_end_condition emd_of c S cimfs k) as [stop|e]; cbn [Steps.after bind]; [|reflexivity]. destruct stop; [reflexivity|].
  rewrite unaided_after, mean_unaided. destruct (fold_left _ _ _) as [m|e]; cbn [bind]; [apply IH|reflexivity].
Qed.

Lemma reshape_shaped m n : forall v : vec, length v = (m * n)%nat -> shaped n (reshape m n v).
Proof.
  induction m as [|m IH]; intros v L; cbn [reshape]; constructor.
  - rewrite firstn_length. lia.
  - apply IH. rewrite skipn_length. lia.
Qed.
Lemma noises_shaped g n noises g' : all_noises gen c g n = (Ok noises, g') -> shaped n noises.
Proof.
  unfold all_noises, c_generate_noise. destruct (c_noise_kind c); try discriminate.
  - destruct (_ <? 0); [discriminate|]. destruct (normal gen g _ _) as [v g1] eqn:E. intros Q. injection Q as <- <-.
    apply reshape_shaped. pose proof (proj1 (Hgen g (noise_scale c) (Z.to_nat (c_trials c) * n)%nat)) as L. rewrite E in L. exact L.
  - destruct (_ <? 0); [discriminate|]. destruct (uniform gen g _ _ _) as [v g1] eqn:E. intros Q. injection Q as <- <-.
    apply reshape_shaped. pose proof (proj2 (Hgen g (noise_scale c) (Z.to_nat (c_trials c) * n)%nat)) as L. specialize (L (ndiv (nopp (noise_scale c)) n2) (ndiv (noise_scale c) n2)).
    rewrite E in L. exact L.
Qed.
Lemma mapM_all {X Y} (P : X -> Prop) (Q : Y -> Prop) (f : X -> res Y) : (forall x y, P x -> f x = Ok y -> Q y) ->
  forall l ys, Forall P l -> mapM f l = Ok ys -> Forall Q ys.
Proof.
  intros HF. induction l as [|x l IH]; intros ys HP E; cbn [mapM] in E; [injection E as <-; constructor|].
  inversion HP as [|? ? P1 P2]; subst. apply bind_ok in E as (y & E1 & E). apply bind_ok in E as (zs & E2 & E). injection E as <-. constructor; eauto.
Qed.
Lemma modes_all n noises modes : shaped n noises -> decompose_noise std emd_of c noises = Ok modes -> Forall (shaped n) modes.
Proof.
  unfold decompose_noise. intros HN E. apply bind_ok in E as (u & _ & E). apply bind_ok in E as (all & E1 & E).
  assert (HA : Forall (shaped n) all).
  { refine (mapM_all _ _ _ _ _ _ HN E1). intros x y L Ex. cbn in L. apply Hfits in Ex. rewrite L in Ex. exact Ex. }
  destruct (beta_progress c); [|congruence]. apply bind_ok in E as (stds & _ & E). injection E as <-.
  clear - HA. revert stds. induction HA as [|M all HM HA IH]; intros [|s stds]; cbn [map2]; constructor; auto.
  apply div_rows_shaped; auto.
Qed.

(** A call of ceemdan that nobody disturbs is the function of [Ceemdan.v]. *)
Lemma ceemdan_unaided q (a : holdings A G) : let '(r, a') := unaided (ceemdan_method gen std emd_of c q) a in
  one_call gen std emd_of c (ceemdan_object a) q = (r, ceemdan_object a').
Proof.
  destruct q as [X T k]. unfold ceemdan_method, one_call, ceemdan_steps, ceemdan. cbn [q_S q_T q_max].
  set (s := std X). set (S := map (fun x => ndiv x s) X). cbn [ceemdan_object c_random].
  rewrite unaided_after. unfold try at 1. cbn [unaided].
  destruct (all_noises gen c (h_random a) (length S)) as [[noises|e] g] eqn:EN; cbn [fst snd bind]; [|reflexivity].
  pose proof (noises_shaped _ _ _ _ EN) as HN. unfold write at 1. cbn [Steps.after unaided]. unfold look at 1. cbn [Steps.after unaided h_noises set_h_noises].
  unfold ceemdan_rows. destruct (decompose_noise std emd_of c noises) as [modes|e] eqn:ED; cbn [Steps.after bind unaided]; [|reflexivity].
  pose proof (modes_all _ _ _ HN ED) as HM. unfold write at 1. cbn [Steps.after unaided].
  set (a1 := set_h_modes modes (set_h_noises noises (set_h_random g a))).
  rewrite unaided_after. destruct (inner_unaided (fun l => l) S T a1 HM) as (a2 & -> & K1 & K2 & K3 & K4).
  cbn [a1 h_modes set_h_modes] in *. cbn [h_random set_h_noises set_h_random h_C h_residue] in K1, K3, K4.
  destruct (inner_eemd emd_of _ c modes S T) as [E|e] eqn:EE; cbn [bind].
  2:{ cbn. unfold ceemdan_object. rewrite K1, K3, K4. reflexivity. }
  apply inner_shaped in EE as [SE _].
  destruct (py_get E 0) as [first|e] eqn:EF; cbn [Steps.after bind].
  2:{ cbn [unaided]. unfold ceemdan_object. rewrite K1, K3, K4. reflexivity. }
  apply py_get_in in EF. pose proof (proj1 (Forall_forall _ _) SE _ EF) as LF. cbn in LF. rewrite LF, Nat.eqb_refl. cbn [Steps.after].
  rewrite unaided_after, loop_unaided, K2.
  destruct (ceemdan_loop std emd_of _ c modes S T k [first] (vsub S first)) as [cimfs|e] eqn:EL; cbn [bind].
  2:{ unfold ceemdan_object. rewrite K1, K3, K4. reflexivity. }
  assert (SC : shaped (length S) cimfs).
  { eapply proj1, loop_spec; [exact (fun l => l)|exact EL| |].
    - constructor; [exact LF|constructor].
    - rewrite vsub_length; auto. }
  set (C := map (map (fun x => nmul x s)) (cimfs ++ [vsub S (sum_rows (length S) cimfs)])).
  unfold write at 1 2, look. cbn [Steps.after unaided h_C set_h_C].
  assert (HC : forallb (fun r => Nat.eqb (length r) (length (map (fun x => nmul x s) S))) C = true).
  { apply shaped_forallb. rewrite map_length. apply Forall_map. apply Forall_app. split.
    - eapply Forall_impl; [|exact SC]. cbn. intros r Hr. rewrite map_length. exact Hr.
    - constructor; [|constructor]. rewrite map_length, vsub_length; auto. rewrite sum_rows_length; auto. exact (proj1 (Forall_forall _ _) SC). }
  unfold residue_of. rewrite HC. cbn [Steps.after unaided]. unfold write. cbn [Steps.after unaided]. unfold ceemdan_object.
  cbn [h_random h_C h_residue set_h_residue set_h_C set_h_modes]. rewrite K1, map_length. reflexivity.
Qed.
End Alone.

(** ** Exact arithmetic, any schedule *)
Section Sound.
Context {G : Type}.
Variable gen : generator Qc G.
Variable std : list Qc -> Qc.
Variable emd_of : list Qc -> option (list Qc) -> Z -> res (list (list Qc)).
Variable c : ceemdan_config Qc.
Notation always := (@StepsProofs.always (holdings Qc G)).

Lemma mean_always T prev beta k l : forall m, always (fun m' => length m' = length m) (mean_steps emd_of c T prev beta k l m).
Proof.
  induction l as [|t l IH]; intros m; cbn [mean_steps]; [reflexivity|].
  eapply always_after; [apply always_true|]. intros M _. destruct (mean_step emd_of c M T prev beta k (Ok m) t) as [m'|e] eqn:E; cbn [Steps.after]; [|exact I].
  assert (L : length m' = length m) by (apply (mean_fold_length emd_of c M T prev beta k [t] m m'); exact E).
  rewrite <- L. apply IH.
Qed.
Lemma loop_always n S T k : forall cimfs prev, shaped (length S) cimfs -> length prev = length S ->
  always (shaped (length S)) (loop_steps std emd_of c n S T k cimfs prev).
Proof.
  induction n as [|n IH]; intros cimfs prev HC HP; cbn [loop_steps]; [exact HC|].
  destruct (c_end_condition emd_of c S cimfs k) as [stop|e]; cbn [Steps.after]; [|exact I]. destruct stop; [exact HC|].
  eapply always_after; [apply mean_always|]. cbn. intros m L. rewrite vzeros_length in L. apply IH; auto.
  apply Forall_app. split; auto. constructor; [|constructor]. rewrite vsub_length; congruence.
Qed.
Lemma call_always q : std (q_S q) <> 0%Qc ->
  always (fun C => shaped (length (q_S q)) C /\ adds_up C (q_S q)) (ceemdan_method gen std emd_of c q).
Proof.
  destruct q as [X T k]. cbn [q_S]. intros Hs. unfold ceemdan_method, ceemdan_steps. cbn [q_S q_T q_max].
  set (S1 := map (fun x => ndiv x (std X)) X).
  assert (HL : length S1 = length X) by (unfold S1; apply map_length).
  eapply always_after; [apply always_true|]. intros noises _. eapply always_after; [apply always_true|]. intros _ _.
  eapply always_after; [apply always_true|]. intros noises' _. eapply always_after; [apply always_true|]. intros modes _.
  eapply always_after; [apply always_true|]. intros _ _. eapply always_after; [apply always_true|]. intros E _.
  eapply always_after; [apply always_true|]. intros first _.
  destruct (Nat.eqb_spec (length first) (length S1)) as [LF|LF]; cbn [Steps.after]; [|exact I].
  eapply always_after.
  { apply loop_always; [constructor; [exact LF|constructor]|rewrite vsub_length; auto]. }
  cbn beta. intros cimfs Hsh.
  set (all := cimfs ++ [vsub S1 (sum_rows (length S1) cimfs)]).
  assert (Hall : shaped (length S1) all).
  { apply Forall_app. split; auto. constructor; [|constructor].
    rewrite vsub_length; auto. rewrite sum_rows_length; auto. exact (proj1 (Forall_forall _ _) Hsh). }
  eapply always_after; [apply always_true|]. intros _ _. eapply always_after; [apply always_true|]. intros _ _.
  eapply always_after; [apply always_true|]. intros C' _. cbn [Steps.after]. destruct (residue_of _ C') as [r|e]; [|exact I].
  eapply always_after; [apply always_true|]. intros _ _. cbn [StepsProofs.always]. split.
  - apply Forall_map. rewrite <- HL. eapply Forall_impl; [|exact Hall]. cbn. intros v Hv. rewrite map_length. auto.
  - intros i Hi. rewrite total_scale. unfold all. rewrite total_at_app, total_at_one.
    assert (EE : (total_at cimfs i + nth i (vsub S1 (sum_rows (length S1) cimfs)) 0 = nth i S1 0)%Qc)
      by (rewrite Qcplus_comm; apply residue_spec; auto; congruence).
    rewrite EE. unfold S1. rewrite nth_indep with (d' := ndiv 0%Qc (std X)) by (rewrite map_length; auto).
    rewrite (map_nth (fun x => ndiv x (std X))). change (nth i X 0 / std X * std X = nth i X 0)%Qc. field. auto.
Qed.
End Sound.
