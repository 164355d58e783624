(** * MatlabIntCut: EMD_matlab on integer arrays is EMD_matlab with interpolation in whole numbers. *)
From Verif Require Import PyFacts QcFacts Emd EmdControl Matlab MatlabInt Spec MatlabSpec MatlabIntSpec MatlabRun MatlabIntProofs.
From Coq Require Import QArith Qcanon Qround.
From Coq Require String.
Open Scope Z_scope.

Lemma to_int_cut x : to_int x = towards_zero x.
Proof.
  unfold to_int, towards_zero. cbn [nofZ ntrunc QcNum]. unfold Qc_trunc.
  destruct x as [[n d] Hc]. cbn [this Qnum Qden] in *.
  destruct (Qclt_le_dec _ 0) as [L|L]; unfold Qclt, Qcle in L; cbn [this Q2Qc Qred] in L; unfold Qlt, Qle in L; cbn in L.
  - match goal with |- context [Qfloor ?a] => change (Qfloor a) with (- n / Z.pos d) end.
    unfold Qc_ofZ. apply Qc_is_canon. unfold Qcopp. cbn [this Q2Qc]. rewrite !Qred_correct. rewrite <- inject_Z_opp.
    assert (G : n ÷ Z.pos d = - (- n / Z.pos d)).
    { rewrite <- (Z.quot_div_nonneg (- n)) by lia. rewrite Z.quot_opp_l by lia. lia. }
    rewrite G. reflexivity.
  - unfold Qc_ofZ. f_equal. f_equal. change (Qfloor _) with (n / Z.pos d). apply Z.quot_div_nonneg; lia.
Qed.
Lemma cut_whole x : whole x -> to_int x = x.
Proof.
  intros [z ->]. unfold to_int. cbn [nofZ ntrunc QcNum]. change (Q2Qc (inject_Z z)) with (Qc_ofZ z).
  pose proof (trunc_ofZ [z]) as E. cbn [map ntrunc QcNum] in E. injection E as E. rewrite E. reflexivity.
Qed.
Lemma int_points_cut l : int_points l = whole_knots l.
Proof. unfold int_points, whole_knots. apply map_ext. intros p. rewrite !to_int_cut. reflexivity. Qed.

Lemma neqb_Qc_eq (a b : Qc) : to_int a = a -> to_int b = b -> neqb (to_int a) (to_int b) = neqb a b.
Proof. intros -> ->. reflexivity. Qed.
Definition whole_times (l : list (Qc * Qc)) : Prop := Forall (fun p => whole (fst p)) l.
Lemma dedupe_int l : whole_times l -> dedupe (int_points l) = int_points (dedupe l).
Proof.
  intros H. induction H as [|p l Hp Hl IH]; [reflexivity|]. destruct Hl as [|q l Hq Hl]; [reflexivity|].
  change (int_points (p :: q :: l)) with ((to_int (fst p), to_int (snd p)) :: int_points (q :: l)).
  change (dedupe ((to_int (fst p), to_int (snd p)) :: int_points (q :: l))) with
    (if neqb (to_int (fst q)) (to_int (fst p)) then dedupe (int_points (q :: l)) else (to_int (fst p), to_int (snd p)) :: dedupe (int_points (q :: l))).
  rewrite neqb_Qc_eq by (apply cut_whole; auto). rewrite IH. cbn [dedupe]. destruct (neqb (fst q) (fst p)); reflexivity.
Qed.
Lemma dedupe_incl (l : list (Qc * Qc)) p : In p (dedupe l) -> In p l.
Proof.
  induction l as [|a l IH]; [auto|]. destruct l as [|b l]; [auto|].
  change (dedupe (a :: b :: l)) with (if neqb (fst b) (fst a) then dedupe (b :: l) else a :: dedupe (b :: l)).
  destruct (neqb _ _).
  - intros G. right. auto.
  - intros [G|G]; [left; auto|right; auto].
Qed.
Lemma dedupe_times l : whole_times l -> whole_times (dedupe l).
Proof. unfold whole_times. rewrite !Forall_forall. intros H p Hp. apply H, dedupe_incl, Hp. Qed.

(** ** Whole instants *)
Definition wholes (l : list Qc) : Prop := Forall whole l.
Lemma take_wholes T idx v : wholes T -> py_take T idx = Ok v -> wholes v.
Proof.
  intros HT E. apply mapM_ok_iff in E. unfold wholes. induction E as [|i x idx v Hx E IH]; constructor; auto.
  apply py_get_in in Hx. unfold wholes in HT. rewrite Forall_forall in HT. auto.
Qed.
Lemma mirror_wholes T sym idx v : wholes T -> mirror T sym idx = Ok v -> wholes v.
Proof.
  intros HT E. unfold mirror in E. apply bind_ok in E as (c & E1 & E). apply bind_ok in E as (ts & E2 & E). injection E as <-.
  apply py_get_in in E1. apply take_wholes in E2; auto. unfold wholes in HT. rewrite Forall_forall in HT. apply HT in E1.
  unfold wholes. induction E2 as [|t ts Ht E2 IH]; cbn [map]; constructor; auto.
  apply whole_minus; auto. apply whole_mult; auto. exists 2. reflexivity.
Qed.
Lemma left_wholes nb T M m lM lm sym a b d e : wholes T -> mirror_left nb T M m lM lm sym = Ok (a, b, d, e) -> wholes a /\ wholes d.
Proof.
  intros HT E. unfold mirror_left in E. apply bind_ok in E as (t1 & E1 & E). apply bind_ok in E as (t2 & E2 & E).
  apply bind_ok in E as (x & _ & E). apply bind_ok in E as (y & _ & E). apply bind_ok in E as (bad & _ & E). destruct bad.
  - apply bind_ok in E as (z & _ & E). cbv zeta in E. destruct (sym =? 0); [discriminate|].
    apply bind_ok in E as (t3 & E3 & E). apply bind_ok in E as (t4 & E4 & E). injection E as <- <- <- <-.
    split; eapply mirror_wholes; eauto.
  - injection E as <- <- <- <-. split; eapply mirror_wholes; eauto.
Qed.
Lemma right_wholes nb T n M m lM lm sym a b d e : wholes T -> mirror_right nb T n M m lM lm sym = Ok (a, b, d, e) -> wholes a /\ wholes d.
Proof.
  intros HT E. unfold mirror_right in E. apply bind_ok in E as (t1 & E1 & E). apply bind_ok in E as (t2 & E2 & E).
  apply bind_ok in E as (x & _ & E). apply bind_ok in E as (y & _ & E). apply bind_ok in E as (bad & _ & E). destruct bad.
  - apply bind_ok in E as (z & _ & E). cbv zeta in E. destruct (sym =? n - 1); [discriminate|].
    apply bind_ok in E as (t3 & E3 & E). apply bind_ok in E as (t4 & E4 & E). injection E as <- <- <- <-.
    split; eapply mirror_wholes; eauto.
  - injection E as <- <- <- <-. split; eapply mirror_wholes; eauto.
Qed.
Lemma assemble_times T S tl l ind tr r v : wholes T -> wholes tl -> wholes tr -> assemble T S tl l ind tr r = Ok v -> whole_times v.
Proof.
  intros HT H1 H2 E. unfold assemble in E. apply bind_ok in E as (zl & _ & E). apply bind_ok in E as (zr & _ & E).
  apply bind_ok in E as (t & Et & E). apply bind_ok in E as (z & _ & E). injection E as <-. apply take_wholes in Et; auto.
  apply Forall_forall. intros [x y] Hp. apply in_combine_l in Hp. cbn [fst]. rewrite !in_app_iff in Hp.
  unfold wholes in *. rewrite Forall_forall in H1, H2, Et. destruct Hp as [Hp|[Hp|Hp]]; auto.
Qed.

Lemma prepare_cut nb T S e : wholes T ->
  match preparePoints nb T S e with
  | Ok (a, b) => preparePoints_int nb T S e = Ok (int_points a, int_points b) /\ whole_times a /\ whole_times b
  | Raise x => preparePoints_int nb T S e = Raise x
  end.
Proof.
  intros HT. unfold preparePoints, preparePoints_int.
  destruct (m_lookup T (min_pos e)) as [im|]; cbn [bind]; [|reflexivity].
  destruct (m_lookup T (max_pos e)) as [iM|]; cbn [bind]; [|reflexivity].
  destruct (left_bound nb S iM im) as [[[lM lm] ls]|]; cbn [bind]; [|reflexivity].
  destruct (right_bound nb S iM im) as [[[rM rm] rs]|]; cbn [bind]; [|reflexivity]. cbv zeta.
  destruct (mirror_left _ _ _ _ _ _ _) as [[[[tlM lM'] tlm] lm']|] eqn:EL; cbn [bind]; [|reflexivity].
  destruct (mirror_right _ _ _ _ _ _ _ _) as [[[[trM rM'] trm] rm']|] eqn:ER; cbn [bind]; [|reflexivity].
  apply left_wholes in EL as [L1 L2]; auto. apply right_wholes in ER as [R1 R2]; auto.
  destruct (assemble T S tlM lM' iM trM rM') as [a|] eqn:EA; cbn [bind]; [|reflexivity].
  destruct (assemble T S tlm lm' im trm rm') as [b|] eqn:EB; cbn [bind]; [|reflexivity].
  apply assemble_times in EA; auto. apply assemble_times in EB; auto.
  rewrite !dedupe_int by auto. split; auto using dedupe_times.
Qed.

(** ** Envelopes *)
Lemma window_int T l : whole_times l -> time_window T (int_points l) = time_window T l.
Proof.
  intros H. unfold time_window. assert (G : forall i, match py_get l i with
    | Ok p => whole (fst p) /\ py_get (int_points l) i = Ok (to_int (fst p), to_int (snd p))
    | Raise x => py_get (int_points l) i = Raise x end).
  { intros i. destruct (py_get l i) eqn:E.
    - split. { apply py_get_in in E. unfold whole_times in H. rewrite Forall_forall in H. auto. }
      unfold int_points. revert E. unfold py_get, zlen. rewrite map_length. destruct (i <? 0); destruct (_ <? _); try discriminate;
        rewrite nth_error_map; destruct (nth_error _ _); try discriminate; intros E; injection E as <-; reflexivity.
    - unfold int_points. revert E. unfold py_get, zlen. rewrite map_length. destruct (i <? 0); destruct (_ <? _); auto;
        rewrite nth_error_map; destruct (nth_error _ _); try discriminate; auto. }
  pose proof (G 0) as G0. pose proof (G (-1)) as G1. destruct (py_get l 0) as [p|]; [destruct G0 as [W0 G0]|]; rewrite G0; cbn [bind]; auto.
  destruct (py_get l (-1)) as [q|]; [destruct G1 as [W1 G1]|]; rewrite G1; cbn [bind]; auto. cbn [fst].
  rewrite !cut_whole by auto. reflexivity.
Qed.
Section Run.
Variables (spl : spline_oracle Qc) (c : m_config Qc) (kd : skind) (T : list Qc).
Hypothesis HT : wholes T.
Hypothesis HK : parse_kind (m_splineKind c) = Some kd.
Hypothesis HP : kd <> Pchip /\ kd <> CubicHermite.
Lemma spline_cut l : whole_times l ->
  splinePoints_int spl (m_splineKind c) T (int_points l) = splinePoints (cutting spl kd T) (m_splineKind (linearly c)) T l.
Proof.
  intros H. unfold splinePoints_int, splinePoints. rewrite window_int by auto. destruct (time_window T l) as [t|]; cbn [bind]; auto.
  rewrite HK. change (parse_kind (m_splineKind (linearly c))) with (Some Linear). cbv iota. unfold cutting. rewrite <- int_points_cut.
  assert (E : forall r : res (list Qc), (let! v := r in Ok (map to_int v)) = whole_values r).
  { intros [v|]; cbn [bind whole_values]; auto. apply f_equal. apply map_ext. exact to_int_cut. }
  destruct HP as [P1 P2]. destruct kd; try congruence; auto.
  unfold zlen. destruct (3 <? _); auto. rewrite <- E. destruct (cubic_spline_3pts _ _) as [[a b]|]; reflexivity.
Qed.
Lemma extract_cut x : extractMaxMinSpline_int spl c T x = extractMaxMinSpline (cutting spl kd T) (linearly c) T x.
Proof.
  unfold extractMaxMinSpline_int, extractMaxMinSpline. destruct (findExtrema T x) as [e|]; cbn [bind]; auto. destruct (_ <? 3); auto.
  change (m_nbsym (linearly c)) with (m_nbsym c). pose proof (prepare_cut (m_nbsym c) T x e HT) as G.
  destruct (preparePoints (m_nbsym c) T x e) as [[a b]|]; [destruct G as (G & Ga & Gb)|]; rewrite G; cbn [bind]; auto.
  rewrite (spline_cut a), (spline_cut b) by auto. reflexivity.
Qed.
Lemma sift_cut fuel n n_h ext imf mean :
  m_sift_int spl fuel c T n n_h ext imf mean = m_sift (cutting spl kd T) fuel (linearly c) T n n_h ext imf mean.
Proof.
  revert n n_h ext imf mean. induction fuel as [|fuel IH]; intros n n_h ext imf mean; [reflexivity|].
  cbn [m_sift m_sift_int]. change (m_MAX_ITERATION (linearly c)) with (m_MAX_ITERATION c). change (maxIteration (linearly c)) with (maxIteration c).
  change (m_FIXE (linearly c)) with (m_FIXE c). change (m_FIXE_H (linearly c)) with (m_FIXE_H c). change (reduceScale (linearly c)) with (reduceScale c).
  destruct (m_MAX_ITERATION c <=? n); auto. destruct (findExtrema T imf) as [e|]; cbn [bind]; auto. destruct (2 <? ext_no e); auto.
  destruct (broadcast2 _ _ _) as [imf1|]; cbn [bind]; auto. rewrite extract_cut. destruct (extractMaxMinSpline _ _ _ _) as [[[up low]|]|]; cbn [bind]; auto.
  destruct (broadcast2 nadd up low) as [sum|]; cbn [bind]; auto. rewrite !IH.
  destruct (findExtrema T imf1) as [e'|]; cbn [bind]; auto. rewrite !IH.
  change (stop_sifting (linearly c)) with (stop_sifting c). destruct (stop_sifting c _ _ _ _) as [f|]; cbn [bind]; rewrite ?IH; reflexivity.
Qed.
Lemma loop_cut fuel k Res imf rows ext :
  m_loop_int spl fuel c T k Res imf rows ext = m_loop (cutting spl kd T) fuel (linearly c) T k Res imf rows ext.
Proof.
  revert Res imf rows ext. induction fuel as [|fuel IH]; intros Res imf rows ext; [reflexivity|]. cbn [m_loop m_loop_int].
  destruct (broadcast2 _ _ _) as [R|]; cbn [bind]; auto. change (m_sift_fuel (linearly c)) with (m_sift_fuel c). rewrite sift_cut.
  destruct (m_sift _ _ _ _ _ _ _ _ _) as [[[[imf1 n1] ext1] nf]|]; cbn [bind]; auto. rewrite IH. reflexivity.
Qed.
End Run.

Lemma m_int_cut spl fuel c S T k kd : parse_kind (m_splineKind c) = Some kd -> kd <> Pchip -> kd <> CubicHermite ->
  let t := match T with Some t => t | None => zseq 0 (length S) end in
  m_emd_int spl fuel c S T k = m_emd (cutting spl kd (map Qc_ofZ t)) fuel (linearly c) (map Qc_ofZ S) (Some (map Qc_ofZ t)) k.
Proof.
  intros HK H1 H2 t. unfold m_emd_int, m_emd. fold t. rewrite !map_length. destruct (negb _); auto.
  rewrite (loop_cut spl c kd); auto. apply Forall_forall. intros x Hx. apply in_map_iff in Hx as (z & <- & _). exists z. reflexivity.
Qed.
