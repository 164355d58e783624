(** * C109: an ensemble with little noise stays near the decomposition of the signal itself.

    The EMD object of the ensemble and the plain EMD have the same settings: straight-line envelopes and a
    fixed number n of sifts per component.  [robust_parts] and [part_error] are those of C107. *)
From Verif Require Import PyFacts QcFacts Emd Eemd Spec EemdSpec Demo EmdProofs EemdExact Kinds NearSpec NearProofs FaintSpec FaintProofs Props_Eemd Props_Near.
From Coq Require Import QArith Qcanon String List Lia.
Local Notation length := List.length.
Open Scope Z_scope.

(** Uniform noise of width w stays within half of w times the range of the signal. *)
Theorem C109_uniform :
  forall G (gen : generator Qc G) scale n e, confined gen -> (0 <= scale)%Qc -> (scale <= e + e)%Qc ->
  faint gen Uniform scale n e.
Proof. exact @confined_faint. Qed.
Print Assumptions C109_uniform.

(** If no noise sample exceeds e, component j of the ensemble is as near to component j of the signal as C107
    says for a change of e, provided every trial found more rows than j + 1 ([ensemble_count]). *)
Theorem C109_ensemble_near :
  forall G (gen : generator Qc G) k cfg n m fuel fuel' e c o S T T' mi mi' E o' r j,
  sized gen -> (forall w, spread S w -> faint gen (noise_kind c) (noise_width c * w)%Qc (length S) e) -> (0 <= e)%Qc ->
  0 < trials c -> separate_trends c = false ->
  extrema_detection cfg = Simple -> 1 <= nbsym cfg -> k = Linear \/ k = Slinear -> parse_kind (spline_kind cfg) = Some k ->
  FIXE cfg = Z.of_nat n -> (0 < n)%nat -> FIXE cfg < MAX_ITERATION cfg -> robust_parts cfg n m e S ->
  emd scipy_spl fuel cfg S T mi = Ok r -> eemd gen (emd_decomposer scipy_spl fuel' cfg) c o S T' mi' = (Ok E, o') ->
  (j < m)%nat -> (j < length (imfs r))%nat -> nth (Datatypes.S j) (ensemble_count (all_imfs o')) 0 = trials c ->
  close (part_error n j e) (nth j (imfs r) []) (nth j E []).
Proof. exact @ensemble_near. Qed.
Print Assumptions C109_ensemble_near.

(** So, as the width of uniform noise goes to zero, the components of the ensemble tend to those of the signal,
    whatever the generator draws, serially or in parallel. *)
Theorem C109_limit :
  forall k cfg n m e S j d,
  extrema_detection cfg = Simple -> 1 <= nbsym cfg -> k = Linear \/ k = Slinear -> parse_kind (spline_kind cfg) = Some k ->
  FIXE cfg = Z.of_nat n -> (0 < n)%nat -> FIXE cfg < MAX_ITERATION cfg ->
  S <> [] -> (0 < e)%Qc -> robust_parts cfg n m e S -> (j < m)%nat -> (0 < d)%Qc ->
  exists w0, (0 < w0)%Qc /\
  forall G (gen : generator Qc G) c o T T' fuel fuel' mi mi' E o' r,
  sized gen -> confined gen -> noise_kind c = Uniform -> (0 <= noise_width c)%Qc -> (noise_width c <= w0)%Qc ->
  0 < trials c -> separate_trends c = false ->
  emd scipy_spl fuel cfg S T mi = Ok r -> eemd gen (emd_decomposer scipy_spl fuel' cfg) c o S T' mi' = (Ok E, o') ->
  (j < length (imfs r))%nat -> nth (Datatypes.S j) (ensemble_count (all_imfs o')) 0 = trials c ->
  close d (nth j (imfs r) []) (nth j E []).
Proof. exact ensemble_limit. Qed.
Print Assumptions C109_limit.

(** ** Example: two trials, both components *)
Lemma demo_confined : confined demo_gen.
Proof.
  intros g lo hi n v H Hv. cbn [uniform demo_gen fst] in Hv. apply in_map_iff in Hv as (i & <- & _).
  pose proof (Z.mod_pos_bound (3 * g + 5 * i + i * i) 7 ltac:(lia)) as B. set (k := (_ mod 7)) in *.
  assert (L : (0 <= nlit k 7)%Qc /\ (nlit k 7 <= 1)%Qc).
  { assert (K : k = 0 \/ k = 1 \/ k = 2 \/ k = 3 \/ k = 4 \/ k = 5 \/ k = 6) by lia.
    destruct K as [->|[->|[->|[->|[->|[->| ->]]]]]]; split; vm_compute; intros C; discriminate. }
  destruct L as [L1 L2]. set (q := nlit k 7 : Qc) in *. clearbody q.
  assert (P : (0 <= (hi - lo) * q)%Qc) by (rewrite <- (Qcmult_0_l q); apply Qcmult_le_compat_r; auto; qclra).
  assert (R : ((hi - lo) * q <= (hi - lo) * 1)%Qc).
  { rewrite !(Qcmult_comm (hi - lo)). apply Qcmult_le_compat_r; auto. qclra. }
  replace ((hi - lo) * 1)%Qc with (hi - lo)%Qc in R by ring. set (z := ((hi - lo) * q)%Qc) in *. clearbody z. split; qclra.
Qed.
Definition faint_cfg : eemd_config Qc := MkECfg 2 (nlit 1 1450) false Uniform false 1.
Definition faint_run := eemd demo_gen (emd_decomposer scipy_spl 10 (near_cfg 1)) faint_cfg demo_obj parts_x None (-1).
Definition faint_two (w : res (list (list Qc)) * eemd_state Qc Z (emd_state Qc)) : bool :=
  match fst w with Ok _ => nth 2 (ensemble_count (all_imfs (snd w))) 0 =? 2 | Raise _ => false end.
Lemma faint_two_spec w : faint_two w = true -> exists E o', w = (Ok E, o') /\ nth 2 (ensemble_count (all_imfs o')) 0 = 2.
Proof.
  unfold faint_two. destruct w as [[E|x] o']; cbn [fst snd]; [|discriminate]. intros H. apply Z.eqb_eq in H. eauto.
Qed.
Example C109_nonvacuous : sized demo_gen /\ confined demo_gen /\ robust_parts (near_cfg 1) 1 2 hundredth parts_x /\
  (forall w, spread parts_x w -> faint demo_gen Uniform (nlit 1 1450 * w)%Qc 10 hundredth) /\
  exists r E o', parts_run parts_x = Ok r /\ faint_run = (Ok E, o') /\
    close (Q2Qc (6 # 100)) (nth 1 (imfs r) []) (nth 1 E []).
Proof.
  split; [exact demo_sized|]. split; [exact demo_confined|]. split; [exact near_robust_parts|].
  assert (F : forall w, spread parts_x w -> faint demo_gen Uniform (nlit 1 1450 * w)%Qc 10 hundredth).
  { intros w Hw. assert (W : spread parts_x (Qc_ofZ 29)).
    { exists (Qc_ofZ 15), (Qc_ofZ (-14)). split; [cbn; auto|]. split; [cbn; auto|]. split.
      - intros x Hx. repeat (destruct Hx as [<-|Hx]; [split; vm_compute; intros C; discriminate|]). destruct Hx.
      - apply Qc_is_canon; reflexivity. }
    rewrite (spread_fun _ _ _ Hw W). apply confined_faint; [exact demo_confined|vm_compute; intros C; discriminate|vm_compute; intros C; discriminate]. }
  split; [exact F|].
  destruct (parts_two_spec parts_x) as (r & R & N); [vm_compute; reflexivity|].
  destruct (faint_two_spec faint_run) as (E & o' & RE & HC); [vm_compute; reflexivity|].
  exists r, E, o'. split; [exact R|]. split; [exact RE|].
  assert (B : part_error 1 1 hundredth = Q2Qc (6 # 100)) by (apply Qc_is_canon; reflexivity). rewrite <- B.
  exact (C109_ensemble_near Z demo_gen Linear (near_cfg 1) 1 2 10 10 hundredth faint_cfg demo_obj parts_x None None (-1) (-1) E o' r 1
    demo_sized F ltac:(vm_compute; intros C; discriminate) ltac:(cbn; lia) eq_refl eq_refl ltac:(cbn; lia) (or_introl eq_refl) eq_refl eq_refl
    ltac:(lia) ltac:(cbn; lia) near_robust_parts R RE ltac:(lia) N HC).
Qed.

(** ** What does not hold: without the separation noise of a thousandth can bring out a component of height 1 in
    a signal that has none (the second row is the residue). *)
Definition dip_gen : generator Qc Z :=
  MkGen (fun g s n => (repeat 0%Qc n, g))
        (fun g lo hi n => (map (fun i => if Z.even i && negb (i =? 0) then lo else hi) (zseq 0 n), g))
        (fun s => s).
Definition dip_cfg : eemd_config Qc := MkECfg 1 (nlit 1 20000) false Uniform false 1.
Definition dip_run := eemd dip_gen (emd_decomposer scipy_spl 10 (near_cfg 1)) dip_cfg demo_obj steps_x None 1.
Definition dip_large (w : res (list (list Qc)) * eemd_state Qc Z (emd_state Qc)) : bool :=
  match fst w with Ok E => Nat.eqb (length E) 2 && existsb (fun v => Qc_leb (Qc_ofZ 1) v) (nth 0 E []) | Raise _ => false end.
Lemma dip_large_spec w : dip_large w = true -> exists E o' v, w = (Ok E, o') /\ length E = 2%nat /\ In v (nth 0 E []) /\ (Qc_ofZ 1 <= v)%Qc.
Proof.
  unfold dip_large. destruct w as [[E|x] o']; cbn [fst]; [|discriminate]. intros H. apply Bool.andb_true_iff in H as [L H].
  apply existsb_exists in H as (v & Hv & Hle). exists E, o', v. split; auto. split; [apply Nat.eqb_eq; auto|]. split; auto. apply Qc_leb_le; auto.
Qed.
Lemma dip_confined : confined dip_gen.
Proof.
  intros g lo hi n v H Hv. cbn [uniform dip_gen fst] in Hv. apply in_map_iff in Hv as (i & <- & _).
  destruct (_ && _); split; auto; apply Qcle_refl.
Qed.
Theorem C109_unseparated_refuted :
  exists (gen : generator Qc Z) c o S r E o' v,
  sized gen /\ confined gen /\ noise_kind c = Uniform /\ trials c = 1 /\
  (forall w, spread S w -> faint gen Uniform (noise_width c * w)%Qc (length S) (Q2Qc (1 # 1000))) /\
  emd scipy_spl 10 (near_cfg 1) S None 1 = Ok r /\ imfs r = [] /\
  eemd gen (emd_decomposer scipy_spl 10 (near_cfg 1)) c o S None 1 = (Ok E, o') /\
  length E = 2%nat /\ In v (nth 0 E []) /\ (Qc_ofZ 1 <= v)%Qc.
Proof.
  destruct (steps_none_spec steps_x) as (r & R & N); [vm_compute; reflexivity|].
  destruct (dip_large_spec dip_run) as (E & o' & v & RE & L & HI & HV); [vm_compute; reflexivity|].
  exists dip_gen, dip_cfg, demo_obj, steps_x, r, E, o', v.
  split. { intros g s n. cbn. rewrite repeat_length. split; auto. intros. rewrite map_length, zseq_length. auto. }
  split; [exact dip_confined|]. split; [reflexivity|]. split; [reflexivity|]. split.
  { intros w Hw. assert (W : spread steps_x (Qc_ofZ 40)).
    { exists (Qc_ofZ 40), (Qc_ofZ 0). split; [cbn; auto 20|]. split; [cbn; auto|]. split.
      - intros x Hx. repeat (destruct Hx as [<-|Hx]; [split; vm_compute; intros C; discriminate|]). destruct Hx.
      - apply Qc_is_canon; reflexivity. }
    rewrite (spread_fun _ _ _ Hw W). apply confined_faint; [exact dip_confined|vm_compute; intros C; discriminate|vm_compute; intros C; discriminate]. }
  split; [exact R|]. split; [exact N|]. split; [exact RE|]. split; [exact L|]. split; [exact HI|exact HV].
Qed.
Print Assumptions C109_unseparated_refuted.
