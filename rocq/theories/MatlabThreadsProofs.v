(** * MatlabThreadsProofs: an EMD_matlab object in several threads. *)
From Verif Require Import PyFacts QcFacts Emd EmdControl EmdExact Matlab MatlabInt Spec MatlabSpec MatlabRun MatlabIntProofs
  MatlabThreads MatlabThreadsSpec Steps StepsProofs Guarded.
From Coq Require Import QArith Qcanon Lia.
From Coq Require String.
Open Scope Z_scope.

Section Proofs.
Context {A : Type} `{Num A}.
Notation vec := (list A).
Variable spl : spline_oracle A.
Variable c : m_config A.

(** ** A thread that finds one type at all its steps *)
Fixpoint constant {R} (d : kept_type) (p : Steps.steps kept_type R) (r : res R) : Prop :=
  match p with
  | Done r' => r' = r
  | Step w k => w d = d /\ constant d (k d) r
  end.
Lemma constant_after {R R'} d (p : Steps.steps kept_type R) (k : R -> Steps.steps kept_type R') r r' :
  constant d p r -> match r with Ok x => constant d (k x) r' | Raise e => r' = Raise e end -> constant d (Steps.after p k) r'.
Proof.
  intros HP HK. induction p as [r0|w f IH]; cbn [Steps.after constant] in *.
  - subst r0. destruct r; [exact HK|]. subst r'. reflexivity.
  - destruct HP as [H1 H2]. split; auto.
Qed.
Lemma constant_done {R R'} d (r : res R) (k : R -> Steps.steps kept_type R') r' :
  match r with Ok x => constant d (k x) r' | Raise e => r' = Raise e end -> constant d (Steps.after (Done r) k) r'.
Proof. intros HK. eapply constant_after; [reflexivity|exact HK]. Qed.
Lemma constant_look {R'} d (k : kept_type -> Steps.steps kept_type R') r' :
  constant d (k d) r' -> constant d (Steps.after dtype_now k) r'.
Proof. intros HK. cbn. auto. Qed.
Lemma constant_unaided {R} d (p : Steps.steps kept_type R) r : constant d p r -> unaided p d = (r, d).
Proof. induction p as [r0|w f IH]; cbn [constant unaided]; [intros ->; reflexivity|]. intros [-> HC]. auto. Qed.

Definition extract_d (d : kept_type) := match d with AsFloat => extractMaxMinSpline spl | AsInt => extractMaxMinSpline_int spl end.
Definition sift_d (d : kept_type) := match d with AsFloat => m_sift spl | AsInt => m_sift_int spl end.
Definition loop_d (d : kept_type) := match d with AsFloat => m_loop spl | AsInt => m_loop_int spl end.
Lemma prepare_float n (T X : vec) e : preparePoints_as AsFloat AsFloat n T X e = preparePoints n T X e.
Proof. reflexivity. Qed.
Lemma prepare_int n (T X : vec) e : preparePoints_as AsInt AsInt n T X e = preparePoints_int n T X e.
Proof. reflexivity. Qed.
Lemma spline_float kind (T : vec) ext : splinePoints_as spl AsFloat kind T ext = splinePoints spl kind T ext.
Proof.
  unfold splinePoints_as, splinePoints. destruct (time_window T ext) as [t|]; cbn [bind]; [|reflexivity].
  cbn [as_type].
  destruct (parse_kind kind) as [[]|]; try reflexivity; try (destruct (spl _ _ _); reflexivity).
Qed.
Lemma spline_int kind (T : vec) ext : splinePoints_as spl AsInt kind T ext = splinePoints_int spl kind T ext.
Proof. reflexivity. Qed.
Lemma envelope_constant d (T X : vec) : constant d (envelope_steps spl c T X) (extract_d d c T X).
Proof.
  unfold envelope_steps. destruct d; cbn [extract_d].
  - unfold extractMaxMinSpline. apply constant_done. destruct (findExtrema T X) as [e|]; [|reflexivity]. cbn [bind].
    destruct (ext_no e <? 3); [reflexivity|]. do 2 apply constant_look. apply constant_done. rewrite prepare_float.
    destruct (preparePoints _ _ _ _) as [[maxE minE]|]; [|reflexivity]. cbn [bind fst snd]. apply constant_look, constant_done. rewrite spline_float.
    destruct (splinePoints _ _ _ maxE) as [maxs|]; [|reflexivity]. cbn [bind]. apply constant_look, constant_done. rewrite spline_float.
    destruct (splinePoints _ _ _ minE) as [mins|]; reflexivity.
  - unfold extractMaxMinSpline_int. apply constant_done. destruct (findExtrema T X) as [e|]; [|reflexivity]. cbn [bind].
    destruct (ext_no e <? 3); [reflexivity|]. do 2 apply constant_look. apply constant_done. rewrite prepare_int.
    destruct (preparePoints_int _ _ _ _) as [[maxE minE]|]; [|reflexivity]. cbn [bind fst snd]. apply constant_look, constant_done. rewrite spline_int.
    destruct (splinePoints_int _ _ _ maxE) as [maxs|]; [|reflexivity]. cbn [bind]. apply constant_look, constant_done. rewrite spline_int.
    destruct (splinePoints_int _ _ _ minE) as [mins|]; reflexivity.
Qed.
Lemma sift_constant d fuel (T : vec) : forall n n_h ext imf mean,
  constant d (m_sift_steps spl fuel c T n n_h ext imf mean) (sift_d d fuel c T n n_h ext imf mean).
Proof.
  induction fuel as [|fuel IH]; intros n n_h ext imf mean; [destruct d; reflexivity|].
  destruct d; cbn [m_sift_steps sift_d m_sift m_sift_int] in *.
  - destruct (m_MAX_ITERATION c <=? n); [reflexivity|]. apply constant_done. destruct (findExtrema T imf) as [e|]; [|reflexivity]. cbn [bind].
    destruct (2 <? ext_no e); [|reflexivity]. apply constant_done. destruct (broadcast2 _ _ _) as [imf1|]; [|reflexivity]. cbn [bind].
    eapply constant_after; [apply envelope_constant|]. cbn [extract_d]. destruct (extractMaxMinSpline _ _ _ _) as [[[up low]|]|]; cbn [bind]; try reflexivity.
    apply constant_done. destruct (broadcast2 _ _ _) as [sum|]; [|reflexivity]. cbn [bind].
    destruct (maxIteration c <? n + 1); [reflexivity|]. destruct (negb (m_FIXE c =? 0)).
    { destruct (m_FIXE c + 1 <=? n + 1); [reflexivity|apply IH]. }
    apply constant_done. destruct (findExtrema T imf1) as [e'|]; [|reflexivity]. cbn [bind]. destruct (negb (m_FIXE_H c =? 0)).
    { destruct (n + 1 =? 1); [apply IH|]. destruct (m_FIXE_H c <=? _); [reflexivity|apply IH]. }
    apply constant_done. destruct (stop_sifting _ _ _ _ _) as [f1|]; [|reflexivity]. cbn [bind]. destruct (f1 && _); [reflexivity|apply IH].
  - destruct (m_MAX_ITERATION c <=? n); [reflexivity|]. apply constant_done. destruct (findExtrema T imf) as [e|]; [|reflexivity]. cbn [bind].
    destruct (2 <? ext_no e); [|reflexivity]. apply constant_done. destruct (broadcast2 _ _ _) as [imf1|]; [|reflexivity]. cbn [bind].
    eapply constant_after; [apply envelope_constant|]. cbn [extract_d]. destruct (extractMaxMinSpline_int _ _ _ _) as [[[up low]|]|]; cbn [bind]; try reflexivity.
    apply constant_done. destruct (broadcast2 _ _ _) as [sum|]; [|reflexivity]. cbn [bind].
    destruct (maxIteration c <? n + 1); [reflexivity|]. destruct (negb (m_FIXE c =? 0)).
    { destruct (m_FIXE c + 1 <=? n + 1); [reflexivity|apply IH]. }
    apply constant_done. destruct (findExtrema T imf1) as [e'|]; [|reflexivity]. cbn [bind]. destruct (negb (m_FIXE_H c =? 0)).
    { destruct (n + 1 =? 1); [apply IH|]. destruct (m_FIXE_H c <=? _); [reflexivity|apply IH]. }
    apply constant_done. destruct (stop_sifting _ _ _ _ _) as [f1|]; [|reflexivity]. cbn [bind]. destruct (f1 && _); [reflexivity|apply IH].
Qed.
Lemma loop_constant d fuel (T : vec) k : forall Res imf rows ext,
  constant d (m_loop_steps spl fuel c T k Res imf rows ext) (loop_d d fuel c T k Res imf rows ext).
Proof.
  induction fuel as [|fuel IH]; intros Res imf rows ext; [destruct d; reflexivity|].
  destruct d; cbn [m_loop_steps loop_d m_loop m_loop_int] in *.
  - apply constant_done. destruct (broadcast2 _ _ _) as [R|]; [|reflexivity]. cbn [bind].
    eapply constant_after; [apply sift_constant|]. cbn [sift_d]. destruct (m_sift _ _ _ _ _ _ _ _ _) as [[[[imf1 n] ext1] nf]|]; [|reflexivity].
    cbn [bind]. destruct (_ =? k - 1); [reflexivity|]. destruct nf; [apply IH|reflexivity].
  - apply constant_done. destruct (broadcast2 _ _ _) as [R|]; [|reflexivity]. cbn [bind].
    eapply constant_after; [apply sift_constant|]. cbn [sift_d]. destruct (m_sift_int _ _ _ _ _ _ _ _ _) as [[[[imf1 n] ext1] nf]|]; [|reflexivity].
    cbn [bind]. destruct (_ =? k - 1); [reflexivity|]. destruct nf; [apply IH|reflexivity].
Qed.
(** The rest of [emd] after its assignment to [DTYPE]. *)
Definition emd_rest fuel (j : m_job A) : Steps.steps kept_type (list (m_row A) * Z) :=
  match m_emd_steps spl fuel c j with Step _ k => k AsFloat | p => p end.
Lemma emd_first fuel j : m_emd_steps spl fuel c j = Step (fun _ => kind_of j) (fun _ => emd_rest fuel j).
Proof. reflexivity. Qed.
Lemma emd_constant fuel j : constant (kind_of j) (emd_rest fuel j) (m_alone spl fuel c j).
Proof.
  unfold emd_rest, m_emd_steps, write. cbn [Steps.after]. apply constant_look. destruct j as [X T k|X T k]; cbn [kind_of m_alone signal_of times_of limit_of taken_as as_type].
  - unfold m_emd. destruct (negb _); [reflexivity|]. eapply constant_after; [apply loop_constant|]. cbn [loop_d].
    destruct (m_loop _ _ _ _ _ _ _ _ _) as [[rows ext]|]; reflexivity.
  - unfold m_emd_int. rewrite !map_length. destruct (negb _); [reflexivity|]. eapply constant_after; [apply loop_constant|]. cbn [loop_d].
    destruct (m_loop_int _ _ _ _ _ _ _ _ _) as [[rows ext]|]; [|reflexivity]. cbn [bind constant]. rewrite ?map_length. reflexivity.
Qed.
Lemma emd_unaided fuel j a : let '(r, a') := unaided (m_emd_steps spl fuel c j) a in m_one_call spl fuel c a j = (r, a').
Proof. rewrite emd_first. cbn [unaided]. rewrite (constant_unaided _ _ _ (emd_constant fuel j)). reflexivity. Qed.

(** ** All threads use arrays of one type *)
Definition stays (d : kept_type) (a b : kept_type) : Prop := a = d -> b = d.
Lemma constant_guarded {R} d (p : Steps.steps kept_type R) r : constant d p r ->
  guarded (fun _ => True) (stays d) (fun r' => r' = r) d p.
Proof.
  induction p as [r0|w f IH]; cbn [constant guarded]; auto. intros [E HC] a _ L. rewrite (L eq_refl).
  split; auto. split; [intros _; exact E|]. rewrite E. auto.
Qed.
Theorem same_kind fuel d jobs a s : (forall l j, In l jobs -> In j l -> kind_of j = d) ->
  forall i j r, In (i, j, r) (o_log (run_all (m_emd_steps spl fuel c) (opening a jobs) s)) -> r = m_alone spl fuel c j.
Proof.
  intros Hj. apply (workers_guarded (fun _ => True) (stays d) (fun a e => e) (fun a b e H1 H2 E => H2 (H1 E))
    (m_emd_steps spl fuel c) (fun j => kind_of j = d) (fun j r => r = m_alone spl fuel c j)); auto.
  intros j a0 <- _. rewrite emd_first. cbn [guarded]. intros a1 _ _. split; [auto|]. split; [intros _; reflexivity|].
  apply constant_guarded, emd_constant.
Qed.

(** ** Whatever types a thread finds *)
Notation always := (@StepsProofs.always kept_type).
Lemma always_done {R R'} (Q : R' -> Prop) (r : res R) (k : R -> Steps.steps kept_type R') :
  (forall x, r = Ok x -> always Q (k x)) -> always Q (Steps.after (Done r) k).
Proof. destruct r as [x|e]; cbn; auto. Qed.
Lemma sift_shape fuel (T : vec) : forall n n_h ext imf mean,
  always (fun o => length (fst (fst (fst o))) = length imf) (m_sift_steps spl fuel c T n n_h ext imf mean).
Proof.
  induction fuel as [|fuel IH]; intros n n_h ext imf mean; cbn [m_sift_steps]; [exact I|].
  destruct (m_MAX_ITERATION c <=? n); [reflexivity|]. apply always_done. intros e E1.
  destruct (Z.ltb_spec 2 (ext_no e)) as [L|L]; [|reflexivity].
  assert (L1 : length imf <> 1%nat).
  { intros L1. destruct imf as [|x [|? ?]]; try discriminate. apply one_sample in E1. lia. }
  apply always_done. intros imf1 E2. apply broadcast_length in E2; auto. rewrite <- E2.
  apply (always_after (fun _ => True)); [apply always_true|]. intros [[up low]|] _; [|reflexivity].
  apply always_done. intros sum _. cbv zeta.
  destruct (maxIteration c <? n + 1); [reflexivity|]. destruct (negb (m_FIXE c =? 0)).
  { destruct (m_FIXE c + 1 <=? n + 1); [reflexivity|apply IH]. }
  apply always_done. intros e' _. destruct (negb (m_FIXE_H c =? 0)).
  { destruct (n + 1 =? 1); [apply IH|]. destruct (m_FIXE_H c <=? _); [reflexivity|apply IH]. }
  apply always_done. intros f1 _. destruct (f1 && _); [reflexivity|apply IH].
Qed.
Lemma loop_shape n fuel (T : vec) k : forall Res imf rows ext,
  length Res = n -> length imf = n -> shaped n (map row_imf rows) ->
  always (fun o => shaped n (map row_imf (fst o))) (m_loop_steps spl fuel c T k Res imf rows ext).
Proof.
  induction fuel as [|fuel IH]; intros Res imf rows ext L1 L2 HI; cbn [m_loop_steps]; [exact I|].
  apply always_done. intros R E1. rewrite broadcast2_eq in E1 by congruence. injection E1 as <-.
  assert (LR : length (map2 nsub Res imf) = n) by (rewrite map2_length, L1, L2; apply Nat.min_id).
  eapply always_after; [apply sift_shape|]. intros [[[imf1 n1] ext1] nf] E2. cbn [fst] in E2. rewrite LR in E2.
  assert (HI' : shaped n (map row_imf (rows ++ [MkRow imf1 ext1 n1]))).
  { rewrite map_app. apply Forall_app. split; auto. constructor; auto. }
  destruct (_ =? k - 1); [exact HI'|]. destruct nf; [apply IH; auto|exact HI'].
Qed.
Definition ends_well (j : m_job A) (o : list (m_row A) * Z) : Prop :=
  exists rs ext, shaped (length (signal_of j)) (map row_imf rs) /\ snd o = zlen (fst o) /\
    let R := vsub (signal_of j) (sum_rows (length (signal_of j)) (map row_imf rs)) in
    fst o = (if nltb (nlit 1 (10 ^ 10)) (nsum (map nabs R)) then rs ++ [MkRow R ext 0] else rs).
Lemma taken_length d (j : m_job A) : length (taken_as d j) = length (signal_of j).
Proof. destruct j, d; cbn [taken_as signal_of as_type]; rewrite ?map_length; reflexivity. Qed.
Lemma emd_ends fuel j : always (ends_well j) (m_emd_steps spl fuel c j).
Proof.
  rewrite emd_first. cbn [StepsProofs.always]. intros _. unfold emd_rest, m_emd_steps, write. cbn [Steps.after dtype_now look StepsProofs.always].
  intros d. destruct (negb _); [exact I|]. eapply always_after; [apply (loop_shape (length (signal_of j)))|].
  - apply taken_length.
  - apply map_length.
  - constructor.
  - intros [rs ext] HS. cbn [fst StepsProofs.always] in *. exists rs, ext. auto.
Qed.
Theorem any_ends fuel jobs a s i j o : In (i, j, Ok o) (o_log (run_all (m_emd_steps spl fuel c) (opening a jobs) s)) -> ends_well j o.
Proof. apply (workers_sound (m_emd_steps spl fuel c) ends_well). intros; apply emd_ends. Qed.

(** ** One call after the other *)
Lemma row_outcomes fuel (log : list (nat * m_job A * res (list (m_row A) * Z))) : forall d,
  map snd log = results_in_row (m_one_call spl fuel c) d (map (fun x => snd (fst x)) log) ->
  forall i j r, In (i, j, r) log -> r = m_alone spl fuel c j.
Proof.
  induction log as [|[[i0 j0] r0] log IH]; intros d E i j r Hin; [destruct Hin|]. cbn [map results_in_row m_one_call fst snd] in E. injection E as E1 E2.
  destruct Hin as [Hin|Hin]; [injection Hin as <- <- <-; exact E1|eauto].
Qed.
Lemma last_cons {X} (l : list X) : forall x d, last (x :: l) d = last l x.
Proof. induction l as [|y l IH]; intros x d; [reflexivity|]. rewrite IH. change (last (x :: y :: l) d) with (last (y :: l) d). apply IH. Qed.
Lemma row_object fuel l : forall d, object_after (m_one_call spl fuel c) d l = last (map kind_of l) d.
Proof. induction l as [|j l IH]; intros d; [reflexivity|]. cbn [object_after m_one_call snd map]. rewrite IH, last_cons. reflexivity. Qed.
Lemma job_asked fuel a jobs s i j r : In (i, j, r) (o_log (run_all (m_emd_steps spl fuel c) (opening a jobs) s)) ->
  exists l, In l jobs /\ In j l.
Proof.
  apply (workers_guarded (fun _ => True) (fun _ _ => True) (fun _ => I) (fun _ _ _ _ _ => I)
    (m_emd_steps spl fuel c) (fun j => exists l, In l jobs /\ In j l) (fun j _ => exists l, In l jobs /\ In j l)); auto.
  - intros j0 a0 HJ _. generalize (m_emd_steps spl fuel c j0). intros p. revert a0. induction p as [|w f IH]; intros a0; cbn [guarded]; auto.
  - eauto.
Qed.
End Proofs.

Lemma ends_sum (j : m_job Qc) rows no : ends_well j (rows, no) ->
  shaped (length (signal_of j)) (map row_imf rows) /\ no = zlen rows /\
  (adds_up (map row_imf rows) (signal_of j) \/ exists R, remainder (signal_of j) (map row_imf rows) R /\ tiny R).
Proof.
  intros (rs & ext & HS & E & Er). cbn [fst snd] in *. cbv zeta in Er. set (X := signal_of j) in *. fold (residual X rs) in Er.
  split; [|split; auto].
  - destruct (nltb _ _) in Er; subst rows; auto. rewrite map_app. apply Forall_app. split; auto. constructor; [|constructor].
    cbn [row_imf]. unfold residual. rewrite vsub_length; auto. rewrite sum_rows_length; auto. unfold shaped in HS. rewrite Forall_forall in HS. auto.
  - destruct (nltb _ _) eqn:D in Er; subst rows.
    + left. intros i Hi. rewrite map_app, total_at_app. cbn [map row_imf]. rewrite total_at_one. rewrite Qcplus_comm. apply residue_spec. auto.
    + right. exists (residual X rs). split; [apply residual_remainder; auto|]. apply tiny_iff. exact D.
Qed.
