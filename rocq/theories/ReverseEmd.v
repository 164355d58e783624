(** * ReverseEmd: sifting and decomposing a signal read backwards (exact arithmetic). *)
From Verif Require Import PyFacts QcFacts Runs Emd Spec EmdProofs EmdExact EmdSimple ExtremaProofs ExtremaSpec PrepareProofs SplineProofs EmdStop EmdSym RevSpec Reverse Demo.
From Coq Require Import ZifyBool ZifyNat QArith Qcanon Permutation.
Open Scope Z_scope.

(** ** Zero crossings *)
Definition trues (m : list bool) : nat := length (filter (fun b => b) m).
Lemma nonzero_length m : length (nonzero m) = trues m.
Proof.
  unfold nonzero. generalize 0. induction m as [|b m IH]; intros k; cbn [nonzero_from trues filter]; auto.
  destruct b; cbn [length]; rewrite IH; reflexivity.
Qed.
Lemma filter_app' {X} (f : X -> bool) l m : filter f (l ++ m) = filter f l ++ filter f m.
Proof. apply filter_app. Qed.
Lemma filter_rev {X} (f : X -> bool) l : filter f (rev l) = rev (filter f l).
Proof.
  induction l as [|x l IH]; auto. cbn [rev filter]. rewrite filter_app', IH. cbn [filter].
  destruct (f x); cbn [rev]; auto using app_nil_r.
Qed.
Lemma trues_rev m : trues (rev m) = trues m.
Proof. unfold trues. rewrite filter_rev, rev_length. reflexivity. Qed.
Lemma existsb_rev {X} (f : X -> bool) l : existsb f (rev l) = existsb f l.
Proof.
  apply bool_iff. rewrite !existsb_exists. split; intros (x & Hx & Hf); exists x; split; auto.
  - apply in_rev. auto.
  - apply in_rev. rewrite rev_involutive. auto.
Qed.

Lemma mask_dd_rev m : mask_dd (rev m) = map Z.opp (rev (mask_dd m)).
Proof.
  unfold mask_dd, zdiff.
  replace (0 :: map b2z (rev m) ++ [0]) with (rev (0 :: map b2z m ++ [0])).
  2:{ cbn [rev]. rewrite rev_app_distr, map_rev. reflexivity. }
  rewrite adj_rev, map_rev, map_adj. f_equal. apply adj_ext. intros. lia.
Qed.
Lemma run_counts m : length (run_starts m) = length (run_ends m).
Proof. rewrite run_starts_fst, run_ends_snd, !map_length. reflexivity. Qed.
Lemma run_starts_rev m : length (run_starts (rev m)) = length (run_starts m).
Proof.
  rewrite (run_counts m). unfold run_starts, run_ends. rewrite !nonzero_length, mask_dd_rev, map_map.
  rewrite <- (trues_rev (map _ (mask_dd m))), map_rev. f_equal. f_equal. apply map_ext. intros z. lia.
Qed.

Lemma nonzero_rev m : nonzero (rev m) = rvl (length m) (nonzero m).
Proof.
  apply zincreasing_unique; [apply nonzero_increasing|apply rvl_increasing, nonzero_increasing|].
  intros x. rewrite In_rvl, !nonzero_In. unfold rv. split; intros [H1 H2].
  - assert (H3 : (Z.to_nat x < length (rev m))%nat) by (apply nth_error_Some; congruence). rewrite rev_length in H3.
    split; [lia|]. rewrite <- (rev_involutive m). rewrite nth_error_nth' with (d := false) by (rewrite !rev_length; lia).
    rewrite rev_nth by (rewrite !rev_length; lia). rewrite !rev_length.
    apply nth_error_nth with (d := false) in H2. rewrite <- H2. do 2 f_equal. lia.
  - assert (H3 : (Z.to_nat (Z.of_nat (length m) - 1 - x) < length m)%nat) by (apply nth_error_Some; congruence).
    split; [lia|]. rewrite nth_error_nth' with (d := false) by (rewrite !rev_length; lia). rewrite rev_nth by lia.
    apply nth_error_nth with (d := false) in H2. rewrite <- H2. do 2 f_equal. lia.
Qed.

Lemma zdiff_rvl n l : zdiff (rvl n l) = rev (zdiff l).
Proof.
  unfold zdiff, rvl. rewrite adj_map, adj_rev. f_equal. apply adj_ext. intros. unfold rv. lia.
Qed.

Lemma zero_crossings_rev (S : list Qc) : zlen (zero_crossings (rev S)) = zlen (zero_crossings S).
Proof.
  unfold zero_crossings. cbv zeta. rewrite adj_rev, !map_rev, existsb_rev.
  set (z := map (@is0 Qc _) S).
  assert (E1 : zlen (nonzero (rev (adj (fun a b : Qc => nltb (nmul b a) n0) S))) =
               zlen (nonzero (adj (fun a b : Qc => nltb (nmul a b) n0) S))).
  { unfold zlen. rewrite !nonzero_length, trues_rev. do 2 f_equal. apply adj_ext. intros. num_qc. f_equal. ring. }
  destruct (existsb _ z); auto. unfold zlen in *. rewrite !zsort_length, !app_length, !Nat2Z.inj_add, E1. f_equal.
  rewrite nonzero_rev, zdiff_rvl, existsb_rev. destruct (existsb _ (zdiff _)).
  - rewrite !map2_length, !map_length. rewrite <- !run_counts, run_starts_rev. reflexivity.
  - unfold rvl. rewrite map_length, rev_length. reflexivity.
Qed.

(** ** The three-point spline *)
Lemma div_neg (a b : Qc) : (- a / b = - (a / b))%Qc.
Proof. unfold Qcdiv. ring. Qed.
Lemma coeffs_turned (l x0 x1 x2 y0 y1 y2 : Qc) a1 b1 a2 b2 :
  spline3_coeffs x0 x1 x2 y0 y1 y2 = Ok (a1, b1, a2, b2) ->
  spline3_coeffs (l - x2)%Qc (l - x1)%Qc (l - x0)%Qc y2 y1 y0 = Ok (b2, a2, b1, a1).
Proof.
  unfold spline3_coeffs. cbv zeta. num_qc.
  replace (l - x1 - (l - x2))%Qc with (x2 - x1)%Qc by ring. replace (l - x0 - (l - x1))%Qc with (x1 - x0)%Qc by ring.
  rewrite orb_comm. destruct (_ || _); [discriminate|].
  set (p := (1 / (x1 - x0))%Qc). set (r := (1 / (x2 - x1))%Qc). set (w1 := (x1 - x0)%Qc). set (w2 := (x2 - x1)%Qc).
  unfold solve3. cbv zeta. unfold det3. num_qc. clearbody p r w1 w2.
  match goal with |- context [is0 ?d] => set (D := d) end.
  intros E. 
  match goal with |- context [is0 ?d] => match d with D => fail 1 | _ => replace d with D by (unfold D; ring) end | _ => idtac end.
  destruct (is0 D); [discriminate|]. cbn [bind] in *. apply ok_inv in E.
  apply pair_inv in E as [E ->]. apply pair_inv in E as [E ->]. apply pair_inv in E as [-> ->].
  clearbody D. unfold Qcdiv. f_equal. f_equal; [f_equal; [f_equal|]|]; ring.
Qed.

Lemma split_sorted {Y} (f1 f2 : Qc -> Y) x1 T : increasing T ->
  map f1 (filter (fun u => Qc_ltb u x1) T) ++ map f2 (filter (fun u => negb (Qc_ltb u x1)) T) =
  map (fun u => if Qc_ltb u x1 then f1 u else f2 u) T.
Proof.
  induction T as [|u T IH]; intros HI; auto.
  assert (HT : increasing T).
  { intros i Hi. apply (HI (Datatypes.S i)). cbn [length] in *. lia. }
  cbn [filter map]. destruct (Qc_ltb u x1) eqn:E; cbn [negb map app]; [f_equal; auto|].
  assert (G : forall w, In w T -> Qc_ltb w x1 = false).
  { intros w Hw. apply (In_nth _ _ 0%Qc) in Hw as (i & Hi & <-).
    assert (LE : forall j, (j < length T)%nat -> (u <= nth j T 0)%Qc).
    { clear -HI. induction j as [|j IHj]; intros Hj.
      - specialize (HI 0%nat). cbn [length nth] in HI. apply Qclt_le_weak, HI. lia.
      - eapply Qcle_trans; [apply IHj; lia|]. apply Qclt_le_weak. apply (HI (Datatypes.S j)). cbn [length]. lia. }
    apply Qc_ltb_ge. apply Qc_ltb_ge in E. eapply Qcle_trans; eauto. }
  assert (F0 : filter (fun w => Qc_ltb w x1) T = []).
  { clear -G. induction T as [|w T IH]; auto. cbn [filter]. rewrite G by (cbn; auto). apply IH. intros; apply G; cbn; auto. }
  rewrite F0. cbn [map app]. f_equal. rewrite <- IH, F0 by auto. reflexivity.
Qed.

Lemma tz_increasing n : increasing (tz n).
Proof.
  intros i Hi. rewrite tz_length in Hi.
  assert (E : forall k, (k < n)%nat -> nth k (tz n) 0%Qc = Qc_ofZ (Z.of_nat k)).
  { intros k Hk. pose proof (sample_tz n (Z.of_nat k) ltac:(lia)) as E. unfold sample in E. rewrite Nat2Z.id in E. exact E. }
  rewrite !E by lia. apply Qc_ofZ_lt. lia.
Qed.

(** All instants in the window: the three-point spline is one function of the instant. *)
Lemma cubic3_map x0 y0 x1 y1 x2 y2 T a1 b1 a2 b2 : increasing T -> (forall u, In u T -> (x0 <= u /\ u <= x2)%Qc) ->
  (x0 < x1)%Qc -> (x1 < x2)%Qc ->
  spline3_coeffs x0 x1 x2 y0 y1 y2 = Ok (a1, b1, a2, b2) ->
  exists t, cubic_spline_3pts [(x0, y0); (x1, y1); (x2, y2)] T =
    Ok (t, map (fun u => if Qc_ltb u x1 then spline_piece x0 (x1 - x0)%Qc y0 y1 a1 b1 u
                         else spline_piece x1 (x2 - x1)%Qc y1 y2 a2 b2 u) T).
Proof.
  intros HI HT G1 G2 E. unfold cubic_spline_3pts. rewrite E. cbn [bind]. eexists. f_equal. f_equal.
  rewrite <- split_sorted by auto. num_qc. f_equal; f_equal; apply filter_ext_in; intros u Hu; apply HT in Hu as [U1 U2].
  - apply Qc_leb_le in U1. rewrite U1. reflexivity.
  - apply Qc_leb_le in U2. rewrite U2, andb_true_r. apply bool_iff. rewrite negb_true_iff, Qc_ltb_ge, Qc_leb_le. tauto.
Qed.

Lemma cubic3_turned n x0 y0 x1 y1 x2 y2 t v : (x0 <= Qc_ofZ 0)%Qc -> (Qc_ofZ (Z.of_nat n - 1) <= x2)%Qc ->
  (x0 < x1)%Qc -> (x1 < x2)%Qc ->
  cubic_spline_3pts [(x0, y0); (x1, y1); (x2, y2)] (tz n) = Ok (t, v) ->
  exists t', cubic_spline_3pts (turned (L n) [(x0, y0); (x1, y1); (x2, y2)]) (tz n) = Ok (t', rev v).
Proof.
  intros W1 W2 G1 G2 E. set (l := L n) in *.
  assert (W2' : (l <= x2)%Qc) by exact W2.
  change (turned l [(x0, y0); (x1, y1); (x2, y2)]) with [((l - x2)%Qc, y2); ((l - x1)%Qc, y1); ((l - x0)%Qc, y0)].
  destruct (spline3_coeffs x0 x1 x2 y0 y1 y2) as [[[[a1 b1] a2] b2]|ex] eqn:EC.
  2:{ unfold cubic_spline_3pts in E. rewrite EC in E. discriminate. }
  pose proof (coeffs_turned l _ _ _ _ _ _ _ _ _ _ EC) as EC'.
  assert (HT : forall u, In u (tz n) -> (x0 <= u /\ u <= x2)%Qc).
  { intros u Hu. apply In_tz in Hu as (i & Hi & ->).
    split; [eapply Qcle_trans; [exact W1|]|eapply Qcle_trans; [|exact W2]]; apply Qc_ofZ_le; lia. }
  assert (HT' : forall u, In u (tz n) -> (l - x2 <= u /\ u <= l - x0)%Qc).
  { intros u Hu. rewrite <- (rev_tz n) in Hu. unfold trl in Hu. apply in_map_iff in Hu as (w & <- & Hw).
    apply in_rev, HT in Hw as [U1 U2]. fold l. split; qclra. }
  destruct (cubic3_map x0 y0 x1 y1 x2 y2 (tz n) a1 b1 a2 b2 (tz_increasing n) HT G1 G2 EC) as (s & E1).
  destruct (cubic3_map (l - x2) y2 (l - x1) y1 (l - x0) y0 (tz n) b2 a2 b1 a1 (tz_increasing n) HT' ltac:(qclra) ltac:(qclra) EC') as (s' & E2).
  rewrite E in E1. apply ok_inv in E1. apply pair_inv in E1 as [_ Ev]. exists s'. rewrite E2. f_equal. f_equal. rewrite <- Ev.
  rewrite <- (rev_tz n) at 1. unfold trl. fold l. rewrite map_map, <- map_rev. apply map_ext_in. intros u Hu.
  assert (N1 : (x1 - x0 <> 0)%Qc) by (intros Z; qclra). assert (N2 : (x2 - x1 <> 0)%Qc) by (intros Z; qclra).
  assert (EX : Qc_ltb (l - u) (l - x1) = Qc_ltb x1 u) by (apply bool_iff; rewrite !Qc_ltb_lt; split; intros; qclra).
  rewrite EX. unfold spline_piece. num_qc.
  replace (l - x1 - (l - x2))%Qc with (x2 - x1)%Qc by ring. replace (l - x0 - (l - x1))%Qc with (x1 - x0)%Qc by ring.
  replace (l - u - (l - x2))%Qc with ((x2 - x1) - (u - x1))%Qc by ring.
  replace (l - u - (l - x1))%Qc with ((x1 - x0) - (u - x0))%Qc by ring.
  assert (D : forall w a, w <> 0%Qc -> ((w - a) / w = 1 - a / w)%Qc) by (intros w a Hw; field; auto).
  destruct (Qc_ltb x1 u) eqn:C1, (Qc_ltb u x1) eqn:C2; qc_bool.
  - exfalso. qclra.
  - rewrite D by auto. generalize ((u - x1) / (x2 - x1))%Qc. intros w. ring.
  - rewrite D by auto. generalize ((u - x0) / (x1 - x0))%Qc. intros w. ring.
  - assert (u = x1) by (apply Qcle_antisym; auto). subst u. rewrite D by auto.
    replace ((x1 - x0) / (x1 - x0))%Qc with 1%Qc by (field; auto).
    replace ((x1 - x1) / (x2 - x1))%Qc with 0%Qc by (unfold Qcdiv; ring). ring.
Qed.

(** ** Envelopes *)
Lemma spline_turned spl kind n S M cl cr P S' M' cl' cr' v : turns spl ->
  env_ok n S M cl cr P -> env_ok n S' M' cl' cr' (turned (L n) P) ->
  spline_points spl kind (tz n) P = Ok v -> spline_points spl kind (tz n) (turned (L n) P) = Ok (rev v).
Proof.
  intros Ht O1 O2. unfold spline_points. rewrite (window_all _ _ _ _ _ _ O1), (window_all _ _ _ _ _ _ O2). cbn [bind].
  assert (G : forall k v, spl k P (tz n) = Ok v -> spl k (turned (L n) P) (tz n) = Ok (rev v)).
  { intros k w E. apply (Ht _ _ _ _ (L n) (env_inc _ _ _ _ _ _ O1)) in E. rewrite <- (rev_tz n) at 1. exact E. }
  destruct (parse_kind kind) as [k|]; [|discriminate]. destruct k; auto.
  assert (LZ : zlen (turned (L n) P) = zlen P) by (unfold turned; rewrite zlen_map, zlen_rev; reflexivity).
  rewrite LZ. destruct (Z.ltb_spec 3 (zlen P)) as [H4|H4]; auto.
  destruct O1 as [HI H3 _ (p & Ep & Lp) (q & Eq & Lq) _].
  destruct P as [|[x0 y0] [|[x1 y1] [|[x2 y2] [|? P]]]]; unfold zlen in *; cbn [length] in *; try lia.
  assert (G1 : (x0 < x1)%Qc) by (apply (HI 0%nat); simpl; lia).
  assert (G2 : (x1 < x2)%Qc) by (apply (HI 1%nat); simpl; lia).
  cbn in Ep, Eq. injection Ep as <-. injection Eq as <-. cbn [fst] in *.
  intros E. apply bind_ok in E as ([t w] & E & E'). apply ok_inv in E'. subst w.
  apply cubic3_turned in E; auto. destruct E as (t' & E). rewrite E. reflexivity.
Qed.

Lemma broadcast_rev {X Y Z} (f : X -> Y -> Z) x y v : broadcast2 f x y = Ok v -> broadcast2 f (rev x) (rev y) = Ok (rev v).
Proof.
  unfold broadcast2. rewrite !rev_length. destruct (Nat.eqb_spec (length x) (length y)) as [E|E].
  - intros H. apply ok_inv in H. subst v. rewrite map2_rev by auto. reflexivity.
  - destruct x as [|a [|b x]].
    + destruct y as [|c [|d y]]; try discriminate. intros H. apply ok_inv in H. subst v. reflexivity.
    + intros H. apply ok_inv in H. subst v. cbn [rev app]. rewrite map_rev. reflexivity.
    + destruct y as [|c [|d y]]; try discriminate. intros H. apply ok_inv in H. subst v. cbn [rev app] in *.
      rewrite <- map_rev. change (rev (a :: b :: x)) with ((rev x ++ [b]) ++ [a]).
      destruct ((rev x ++ [b]) ++ [a]) as [|u [|w z]] eqn:R; try reflexivity.
Qed.
Lemma assign_rev {X} n (x v : list X) : assign_all n x = Ok v -> assign_all n (rev x) = Ok (rev v).
Proof.
  unfold assign_all. rewrite rev_length. destruct (Nat.eqb n (length x)); [intros H; apply ok_inv in H; subst; auto|].
  destruct x as [|a [|b x]]; try discriminate. intros H. apply ok_inv in H. subst v. cbn [rev app]. f_equal.
  clear. induction n as [|n IH]; cbn [repeat rev]; auto. rewrite <- IH. clear. induction n; cbn; f_equal; auto.
Qed.

(** ** Detection *)
Lemma find_rev S e : (2 <= length S)%nat -> pointed S -> find_extrema Simple (tz (length S)) S = Ok e ->
  exists e' M m, find_extrema Simple (tz (length S)) (rev S) = Ok e' /\
    max_pos e = map Qc_ofZ M /\ min_pos e = map Qc_ofZ m /\
    max_pos e' = map Qc_ofZ (rvl (length S) M) /\ min_pos e' = map Qc_ofZ (rvl (length S) m) /\
    max_val e' = rev (max_val e) /\ min_val e' = rev (min_val e) /\
    zlen (indzer e') = zlen (indzer e) /\ zincreasing M /\ zincreasing m /\
    (forall i, In i M <-> hill S i i) /\ (forall i, In i m <-> valley S i i).
Proof.
  intros Hn HP. set (n := length S). assert (HS : length S = n) by reflexivity.
  cbn [find_extrema]. unfold find_extrema_simple. intros E.
  apply bind_ok in E as ([M m] & E0 & E). pose proof (extrema_idx_rev n S M m HS Hn HP E0) as E0'.
  destruct (extrema_idx_spec S) as (M1 & m1 & F & I1 & I2 & A1 & A2). rewrite E0 in F. apply ok_inv in F.
  apply pair_inv in F as [-> ->].
  assert (AM : forall i, In i M <-> hill S i i) by (intros i; rewrite A1, rep_max_iff; apply max_pointed; auto).
  assert (Am : forall i, In i m <-> valley S i i) by (intros i; rewrite A2, rep_min_iff; apply min_pointed; auto).
  assert (RM : forall i, In i M -> 0 <= i < Z.of_nat n).
  { intros i Hi. apply AM in Hi as (H1 & H2 & _). rewrite HS in H2. lia. }
  assert (Rm : forall i, In i m -> 0 <= i < Z.of_nat n).
  { intros i Hi. apply Am in Hi as (H1 & H2 & _). rewrite HS in H2. lia. }
  assert (RR : forall l, (forall i, In i l -> 0 <= i < Z.of_nat n) -> forall i, In i (rvl n l) -> 0 <= i < zlen (tz n)).
  { intros l Hl i Hi. apply In_rvl, Hl in Hi. unfold zlen. rewrite tz_length. unfold rv in *. lia. }
  rewrite E0'. cbn [bind]. rewrite (take_samples (tz n)) in E by (unfold zlen; rewrite tz_length; auto). cbn [bind] in E.
  rewrite (take_samples S) in E by (unfold zlen; rewrite HS; auto). cbn [bind] in E.
  rewrite (take_samples (tz n)) in E by (unfold zlen; rewrite tz_length; auto). cbn [bind] in E.
  rewrite (take_samples S) in E by (unfold zlen; rewrite HS; auto). cbn [bind] in E. apply ok_inv in E. subst e.
  rewrite (take_samples (tz n) (rvl n M)) by exact (RR M RM). cbn [bind]. rewrite take_rvl by auto. cbn [bind].
  rewrite (take_samples (tz n) (rvl n m)) by exact (RR m Rm). cbn [bind]. rewrite take_rvl by auto. cbn [bind].
  eexists _, M, m. split; [reflexivity|]. cbn [max_pos min_pos max_val min_val indzer].
  assert (RR' : forall l, (forall i, In i l -> 0 <= i < Z.of_nat n) -> forall i, In i (rvl n l) -> 0 <= i < Z.of_nat n).
  { intros l Hl i Hi. apply RR in Hi; auto. unfold zlen in Hi. rewrite tz_length in Hi. auto. }
  rewrite !map_sample_tz by first [exact RM | exact Rm | exact (RR' M RM) | exact (RR' m Rm)].
  repeat match goal with |- _ /\ _ => split; [first [exact Am | auto using zero_crossings_rev]|] end; exact Am.
Qed.

Lemma hills_apart S x : hill S x x -> valley S x x -> False.
Proof. intros (_ & _ & _ & A & _) (_ & _ & _ & B & _). qclra. Qed.

Lemma prepare_rev S nb e e' P Q : (2 <= length S)%nat -> pointed S -> 1 <= nb ->
  find_extrema Simple (tz (length S)) S = Ok e -> find_extrema Simple (tz (length S)) (rev S) = Ok e' ->
  2 < ext_no e -> prepare_points Simple nb (tz (length S)) S e = Ok (P, Q) ->
  prepare_points Simple nb (tz (length S)) (rev S) e' = Ok (turned (L (length S)) P, turned (L (length S)) Q).
Proof.
  intros Hn HP Hnb E E' H3. destruct (find_rev S e Hn HP E) as (e2 & M & m & E2 & EM & Em & EM' & Em' & _ & _ & _ & I1 & I2 & A1 & A2).
  rewrite E' in E2. apply ok_inv in E2. subst e2.
  unfold ext_no in H3. rewrite EM, Em, !zlen_map in H3.
  assert (AL1 : forall i j, In i M -> In j M -> i < j -> exists k, In k m /\ i < k < j).
  { intros i j. rewrite !A1, <- !(max_pointed (length S) S) by auto. rewrite <- !rep_max_iff. intros Hi Hj Hij.
    destruct (alternate S 1 i j (or_introl eq_refl) Hi Hj Hij) as (k & Hk & Hb). exists k. split; auto.
    rewrite A2, <- (min_pointed (length S)) by auto. apply rep_min_iff. auto. }
  assert (AL2 : forall i j, In i m -> In j m -> i < j -> exists k, In k M /\ i < k < j).
  { intros i j. rewrite !A2, <- !(min_pointed (length S) S) by auto. rewrite <- !rep_min_iff. intros Hi Hj Hij.
    destruct (alternate S (-1) i j (or_intror eq_refl) Hi Hj Hij) as (k & Hk & Hb). exists k. split; auto.
    rewrite A1, <- (max_pointed (length S)) by auto. apply rep_max_iff. auto. }
  pose proof (interleave_count M m I1 I2 AL1) as C1. pose proof (interleave_count m M I2 I1 AL2) as C2.
  assert (HnM : M <> []) by (intros ->; unfold zlen in H3; simpl in *; lia).
  assert (Hnm : m <> []) by (intros ->; unfold zlen in H3; simpl in *; lia).
  apply (prepare_rv (length S) S M m nb e e'); auto.
  - intros x Hx. apply A1 in Hx as (X1 & X2 & _). lia.
  - intros x Hx. apply A2 in Hx as (X1 & X2 & _). lia.
  - intros x Hx Hy. apply A1 in Hx. apply A2 in Hy. eapply hills_apart; eauto.
Qed.

(** ** Sums, extremes and stopping tests *)
Lemma total_perm l m : Permutation l m -> total l = total m.
Proof.
  induction 1; unfold total in *; cbn [fold_right]; auto; [rewrite IHPermutation; auto|ring|congruence].
Qed.
Lemma nsum_rev (l : list Qc) : nsum (rev l) = nsum l.
Proof. rewrite !nsum_total. apply total_perm, Permutation_sym, Permutation_rev. Qed.
Lemma np_max_rev (l : list Qc) : np_max (rev l) = np_max l.
Proof.
  destruct l as [|a l]; auto. destruct (np_max_ok (a :: l)) as [m E]; [discriminate|].
  destruct (np_max_ok (rev (a :: l))) as [m' E'].
  { intros C. apply (f_equal (@length Qc)) in C. rewrite rev_length in C. discriminate. }
  rewrite E, E'. f_equal. apply np_max_spec in E. apply np_max_spec in E'. apply (greatest_unique _ _ (a :: l)); auto.
  destruct E' as [E1 E2]. split; [apply in_rev; auto|]. intros x Hx. apply E2. apply -> in_rev. auto.
Qed.
Lemma np_min_rev (l : list Qc) : np_min (rev l) = np_min l.
Proof.
  destruct l as [|a l]; auto. destruct (np_min_ok (a :: l)) as [m E]; [discriminate|].
  destruct (np_min_ok (rev (a :: l))) as [m' E'].
  { intros C. apply (f_equal (@length Qc)) in C. rewrite rev_length in C. discriminate. }
  rewrite E, E'. f_equal. apply np_min_spec in E. apply np_min_spec in E'. apply (least_unique _ _ (a :: l)); auto.
  destruct E' as [E1 E2]. split; [apply in_rev; auto|]. intros x Hx. apply E2. apply -> in_rev. auto.
Qed.
Lemma existsb_turned (f : Qc -> bool) l pts : existsb (fun p => f (snd p)) (turned l pts) = existsb (fun p => f (snd p)) pts.
Proof.
  unfold turned. rewrite <- (existsb_rev _ pts). induction (rev pts) as [|p r IH]; auto. cbn [map existsb snd]. rewrite IH. auto.
Qed.
Lemma vsub_rev (x y : list Qc) : length x = length y -> vsub (rev x) (rev y) = rev (vsub x y).
Proof. apply map2_rev. Qed.
Lemma check_rev c l (new old : list Qc) P Q : length new = length old ->
  check_imf c (rev new) (rev old) (turned l P) (turned l Q) = check_imf c new old P Q.
Proof.
  intros HL. unfold check_imf.
  rewrite (existsb_turned (fun v => nltb v n0)), (existsb_turned (fun v => nltb n0 v)).
  rewrite vsub_rev, !map_rev, !nsum_rev, np_max_rev, np_min_rev, existsb_rev, map2_rev, nsum_rev; auto.
  unfold vsub. rewrite map2_length. lia.
Qed.
Lemma rev_repeat {X} (a : X) n : rev (repeat a n) = repeat a n.
Proof.
  induction n as [|n IH]; auto. cbn [repeat rev]. rewrite IH. clear IH. induction n as [|n IH]; auto. cbn [repeat app]. rewrite IH. auto.
Qed.
Lemma sum_rows_rev n (R : list (list Qc)) : shaped n R -> sum_rows n (map (@rev Qc) R) = rev (sum_rows n R).
Proof.
  induction R as [|r R IH] using rev_ind; intros HR.
  - cbn [map]. unfold sum_rows, vzeros. cbn [fold_left]. symmetry. apply rev_repeat.
  - apply Forall_app in HR as [HR Hr]. inversion Hr as [|r' l' Hr' _]; subst. rewrite map_app. cbn [map].
    rewrite !sum_rows_app, IH by auto. unfold vadd. apply map2_rev. rewrite sum_rows_length; auto.
    apply Forall_forall. exact HR.
Qed.
Lemma shaped_rev n (R : list (list Qc)) : shaped n R -> shaped n (map (@rev Qc) R).
Proof.
  intros HR. apply Forall_forall. intros r Hr. apply in_map_iff in Hr as (r' & <- & Hr). rewrite rev_length.
  revert r' Hr. apply Forall_forall. exact HR.
Qed.
Lemma rest_rev S (R : list (list Qc)) : shaped (length S) R ->
  vsub (rev S) (sum_rows (length (rev S)) (map (@rev Qc) R)) = rev (vsub S (sum_rows (length S) R)).
Proof.
  intros HR. rewrite rev_length, sum_rows_rev by auto. apply vsub_rev. symmetry. apply sum_rows_length.
  apply Forall_forall. exact HR.
Qed.
Lemma end_rev c S R : shaped (length S) R -> end_condition c (rev S) (map (@rev Qc) R) = end_condition c S R.
Proof.
  intros HR. unfold end_condition. rewrite rest_rev, map_rev, nsum_rev, np_max_rev, np_min_rev by auto. reflexivity.
Qed.
Lemma allclose_rev (l : list Qc) : allclose0 (rev l) = allclose0 l.
Proof.
  unfold allclose0. set (f := fun x => _). apply bool_iff. rewrite !forallb_forall. split; intros A x Hx; apply A;
  [apply -> in_rev|apply in_rev]; auto.
Qed.
Lemma removelast_map {X Y} (f : X -> Y) l : removelast (map f l) = map f (removelast l).
Proof. induction l as [|a l IH]; auto. destruct l; auto. cbn [map removelast] in *. rewrite <- IH. reflexivity. Qed.
Lemma finish_rev S R ext : shaped (length S) R ->
  emd_finish (rev S) (map (@rev Qc) R) ext =
  let o := emd_finish S R ext in MkOut (map (@rev Qc) (out o)) (map (@rev Qc) (imfs o)) (rev (residue o)).
Proof.
  intros HR. unfold emd_finish. cbv zeta. cbn [out imfs residue].
  rewrite removelast_map.
  replace (if ext <=? 2 then map (rev (A:=Qc)) (removelast R) else map (rev (A:=Qc)) R) with (map (@rev Qc) (if ext <=? 2 then removelast R else R))
    by (destruct (ext <=? 2); auto).
  set (R' := if ext <=? 2 then removelast R else R).
  assert (HR' : shaped (length S) R').
  { unfold R'. destruct (ext <=? 2); auto. apply Forall_forall. intros r Hr.
    unfold shaped in HR. rewrite Forall_forall in HR. apply HR.
    destruct R as [|a R0 _] using rev_ind; [destruct Hr|]. rewrite removelast_last in Hr. apply in_or_app. auto. }
  rewrite rest_rev, allclose_rev by auto. destruct (allclose0 _); f_equal. rewrite map_app. reflexivity.
Qed.

Section Run.
Variable spl : spline_oracle Qc.
Hypothesis Ht : turns spl.
Variable c : emd_config Qc.
Hypothesis Hdet : extrema_detection c = Simple.
Hypothesis Hnb : 1 <= nbsym c.

Lemma step_rev S x P Q : (2 <= length S)%nat -> pointed S -> sift_step spl c (tz (length S)) S = Ok (x, P, Q) ->
  sift_step spl c (tz (length S)) (rev S) = Ok (rev x, turned (L (length S)) P, turned (L (length S)) Q).
Proof.
  intros Hn HP. unfold sift_step, extract_max_min_spline. rewrite Hdet. intros E.
  apply bind_ok in E as ([[[max_env min_env] P'] Q'] & E1 & E).
  apply bind_ok in E1 as (e & F1 & E1).
  destruct (find_rev S e Hn HP F1) as (e' & M & m & F1' & EM & Em & EM' & Em' & _ & _ & _ & I1 & I2 & A1 & A2).
  rewrite F1'. cbn [bind].
  assert (NN : ext_no e' = ext_no e).
  { unfold ext_no. rewrite EM, Em, EM', Em', !zlen_map, !zlen_rvl. reflexivity. }
  unfold ext_no in NN. rewrite NN. destruct (Z.ltb_spec (zlen (max_pos e) + zlen (min_pos e)) 3) as [|H3]; [discriminate|].
  apply bind_ok in E1 as ([P1 Q1] & F2 & E1). apply bind_ok in E1 as (v1 & F3 & E1). apply bind_ok in E1 as (v2 & F4 & E1).
  apply ok_inv in E1. apply pair_inv in E1 as [E1 ->]. apply pair_inv in E1 as [E1 ->]. apply pair_inv in E1 as [-> ->].
  pose proof (prepare_rev S (nbsym c) e e' P1 Q1 Hn HP Hnb F1 F1' ltac:(unfold ext_no; lia) F2) as F2'.
  rewrite F2'. cbn [bind].
  destruct (detect_prepare S (nbsym c) Hnb) as (e1 & M1 & m1 & D1 & DM & Dm & _ & _ & DP).
  rewrite F1 in D1. apply ok_inv in D1. subst e1. rewrite DM, Dm, !zlen_map in H3.
  destruct (DP ltac:(lia)) as (P2 & Q2 & cl & cr & D2 & O1 & O2 & _). rewrite F2 in D2. apply ok_inv in D2.
  apply pair_inv in D2 as [-> ->].
  destruct (detect_prepare (rev S) (nbsym c) Hnb) as (e2 & M2 & m2 & D1' & DM' & Dm' & _ & _ & DP').
  rewrite rev_length in D1', DP'. rewrite F1' in D1'. apply ok_inv in D1'. subst e2.
  rewrite DM', Dm', DM, Dm, !zlen_map in NN.
  destruct (DP' ltac:(lia)) as (P3 & Q3 & cl' & cr' & D2' & O1' & O2' & _). rewrite F2' in D2'. apply ok_inv in D2'.
  apply pair_inv in D2' as [-> ->].
  rewrite (spline_turned spl _ _ _ _ _ _ _ _ _ _ _ _ Ht O1 O1' F3). cbn [bind].
  rewrite (spline_turned spl _ _ _ _ _ _ _ _ _ _ _ _ Ht O2 O2' F4). cbn [bind].
  apply bind_ok in E as (sum & G1 & E). apply bind_ok in E as (mean & G2 & E).
  apply ok_inv in E. apply pair_inv in E as [E ->]. apply pair_inv in E as [-> ->].
  rewrite (broadcast_rev _ _ _ _ G1). cbn [bind]. rewrite rev_length, map_rev, (assign_rev _ _ _ G2). cbn [bind].
  unfold vsub. rewrite map2_rev; auto. symmetry. exact (assign_all_length _ _ _ G2).
Qed.

Lemma sift_rev fuel : forall n n_h ext k S R, (2 <= length S)%nat -> MAX_ITERATION c <= n + Z.of_nat k ->
  (forall z, sifted spl c k S z -> pointed z) ->
  sift spl fuel c (tz (length S)) n n_h ext S = Ok R ->
  sift spl fuel c (tz (length S)) n n_h ext (rev S) = Ok (let '(x, e, f) := R in (rev x, e, f)).
Proof.
  induction fuel as [|fuel IH]; intros n n_h ext k S R Hn Hk HP; cbn [sift]; [discriminate|].
  destruct (Z.leb_spec (MAX_ITERATION c) (n + 1)) as [Hm|Hm]. { intros E. apply ok_inv in E. subst R. reflexivity. }
  rewrite Hdet. intros E. apply bind_ok in E as (e & E1 & E).
  assert (NF : forall z e, pointed z -> length z = length S -> find_extrema Simple (tz (length S)) z = Ok e ->
    exists e', find_extrema Simple (tz (length S)) (rev z) = Ok e' /\ ext_no e' = ext_no e /\ zlen (indzer e') = zlen (indzer e)).
  { intros z e0 Hz Lz Fz. rewrite <- Lz in Fz |- *. destruct (find_rev z e0) as (e' & M & m & A1 & A2 & A3 & A4 & A5 & _ & _ & A6 & _); auto; [lia|].
    exists e'. split; auto. split; auto. unfold ext_no. rewrite A2, A3, A4, A5, !zlen_map, !zlen_rvl. reflexivity. }
  destruct (NF S e) as (e' & E1' & N1 & _); auto. { apply HP. constructor. }
  rewrite E1'. cbn [bind]. rewrite N1. destruct (2 <? ext_no e).
  2:{ apply ok_inv in E. subst R. reflexivity. }
  apply bind_ok in E as ([[x P] Q] & E2 & E). rewrite (step_rev S x P Q) by (auto; apply HP; constructor). cbn [bind].
  pose proof (sift_step_length _ _ _ _ _ _ _ E2) as Lx.
  destruct k as [|k]; [lia|].
  assert (HPx : forall z, sifted spl c k x z -> pointed z).
  { intros z Hz. apply HP. eapply sifted_once; [rewrite arange_tz; exact E2|exact Hz]. }
  assert (Px : pointed x) by (apply HPx; constructor).
  assert (REC : forall h e0, sift spl fuel c (tz (length S)) (n + 1) h e0 x = Ok R ->
    sift spl fuel c (tz (length S)) (n + 1) h e0 (rev x) = Ok (let '(x, e, f) := R in (rev x, e, f))).
  { intros h e0 E3. rewrite <- Lx in E3 |- *. apply (IH (n + 1) h e0 k x R); auto; lia. }
  destruct (negb (FIXE c =? 0)).
  { destruct (FIXE c <=? n + 1); auto. apply ok_inv in E. subst R. reflexivity. }
  destruct (negb (FIXE_H c =? 0)).
  - apply bind_ok in E as (e2 & E3 & E). destruct (NF x e2 Px Lx E3) as (e2' & E3' & N2 & Z2). rewrite E3'. cbn [bind].
    rewrite N2, Z2. destruct (n + 1 =? 1); auto.
    destruct (FIXE_H c <=? _); auto. apply ok_inv in E. subst R. reflexivity.
  - apply bind_ok in E as (e2 & E3 & E). destruct (NF x e2 Px Lx E3) as (e2' & E3' & N2 & Z2). rewrite E3'. cbn [bind].
    rewrite N2, Z2, check_rev by auto. apply bind_ok in E as (f1 & E4 & E). rewrite E4. cbn [bind].
    destruct (f1 && _); auto. apply ok_inv in E. subst R. reflexivity.
Qed.

Lemma minus_rest S (R : list (list Qc)) j : shaped (length S) R ->
  minus_first j R S = vsub S (sum_rows (length S) (firstn j R)).
Proof.
  intros HR. assert (HJ : shaped (length S) (firstn j R)).
  { apply Forall_forall. intros r Hr. unfold shaped in HR. rewrite Forall_forall in HR. apply HR.
    rewrite <- (firstn_skipn j R). apply in_or_app. auto. }
  assert (HL : length (sum_rows (length S) (firstn j R)) = length S).
  { apply sum_rows_length. apply Forall_forall. exact HJ. }
  apply (nth_ext _ _ 0%Qc 0%Qc).
  - unfold minus_first. rewrite map_length, seq_length, vsub_length; lia.
  - unfold minus_first. rewrite map_length, seq_length. intros i Hi. rewrite nth_vsub, nth_sum_rows by auto.
    rewrite (nth_indep _ 0%Qc (nth (length S) S 0 - total_at (firstn j R) (length S))%Qc) by (rewrite map_length, seq_length; lia).
    rewrite (map_nth (fun i => nth i S 0 - total_at (firstn j R) i)%Qc (seq 0 (length S)) (length S) i), seq_nth by lia. reflexivity.
Qed.

Lemma loop_rev fuel : forall S k IMF ext IMF' ext', (2 <= length S)%nat -> shaped (length S) IMF ->
  emd_loop spl fuel c S (tz (length S)) k IMF ext = Ok (IMF', ext') ->
  (forall j z, (j < length IMF')%nat -> sifted spl c (Z.to_nat (MAX_ITERATION c)) (minus_first j IMF' S) z -> pointed z) ->
  emd_loop spl fuel c (rev S) (tz (length S)) k (map (@rev Qc) IMF) ext = Ok (map (@rev Qc) IMF', ext').
Proof.
  induction fuel as [|fuel IH]; intros S k IMF ext IMF' ext' Hn HS; cbn [emd_loop]; [discriminate|]. cbv zeta.
  rewrite rest_rev by auto. intros E HP.
  pose proof E as E0. apply bind_ok in E as ([[imf e1] fin] & E1 & E). apply bind_ok in E as (st & E2 & E).
  set (rest := vsub S (sum_rows (length S) IMF)) in *.
  assert (HL : length rest = length S).
  { unfold rest. rewrite vsub_length; auto. rewrite sum_rows_length; auto. apply Forall_forall. exact HS. }
  assert (HS' : shaped (length S) (IMF ++ [imf])).
  { apply Forall_app. split; auto. constructor; auto. apply sift_length in E1. lia. }
  assert (HX : exists X, IMF' = IMF ++ [imf] ++ X).
  { destruct (st || _). { apply ok_inv in E. apply pair_inv in E as [-> _]. exists []. rewrite app_nil_r. auto. }
    destruct fin. { apply ok_inv in E. apply pair_inv in E as [-> _]. exists []. rewrite app_nil_r. auto. }
    apply emd_loop_prefix in E as (X & _ & ->). exists X. rewrite app_assoc. reflexivity. }
  assert (SH : shaped (length S) IMF').
  { destruct (st || _). { apply ok_inv in E. apply pair_inv in E as [-> _]. auto. }
    destruct fin. { apply ok_inv in E. apply pair_inv in E as [-> _]. auto. }
    apply emd_loop_shape in E; auto. }
  assert (PZ : forall z, sifted spl c (Z.to_nat (MAX_ITERATION c)) rest z -> pointed z).
  { intros z Hz. destruct HX as [X HX]. apply (HP (length IMF) z).
    - rewrite HX, !app_length. cbn [length]. lia.
    - rewrite minus_rest by auto. rewrite HX, firstn_app, Nat.sub_diag, firstn_all. cbn [firstn]. rewrite app_nil_r. exact Hz. }
  rewrite <- HL in E1 |- *.
  rewrite (sift_rev (sift_fuel c) 0 0 ext (Z.to_nat (MAX_ITERATION c)) rest _ ltac:(lia) ltac:(lia) PZ E1). cbn [bind].
  change [rev imf] with (map (@rev Qc) [imf]). rewrite <- map_app, end_rev by auto. rewrite E2. cbn [bind].
  rewrite zlen_map. destruct (st || _). { apply ok_inv in E. apply pair_inv in E as [-> ->]. reflexivity. }
  destruct fin. { apply ok_inv in E. apply pair_inv in E as [-> ->]. reflexivity. }
  rewrite HL. apply IH; auto.
Qed.

Theorem emd_rev fuel S T T' k o : (2 <= length S)%nat ->
  (forall t, T' = Some t -> length t = length S) ->
  emd spl fuel c S T k = Ok o ->
  (forall j z, (j <= length (imfs o))%nat ->
     sifted spl c (Z.to_nat (MAX_ITERATION c)) (minus_first j (imfs o) S) z -> pointed z) ->
  emd spl fuel c (rev S) T' k = Ok (MkOut (map (@rev Qc) (out o)) (map (@rev Qc) (imfs o)) (rev (residue o))).
Proof.
  intros Hn HT' E HP. unfold emd in E |- *. apply bind_ok in E as (t & Et & E).
  assert (t = tz (length S)).
  { assert (HT : forall u, T = Some u -> length u = length S).
    { intros u ->. unfold emd_time in Et. destruct (Nat.eqb_spec (length S) (length u)); [auto|discriminate]. }
    rewrite (simple_time c Hdet S T Hn HT) in Et. apply ok_inv in Et. auto. }
  subst t. rewrite (simple_time c Hdet (rev S) T') by (rewrite ?rev_length; auto). cbn [bind]. rewrite !rev_length.
  destruct (negb _); [discriminate|]. apply bind_ok in E as ([IMF' ext'] & El & E). apply ok_inv in E. subst o.
  assert (SH : shaped (length S) IMF') by (eapply emd_loop_shape; [|exact El]; constructor).
  change (@nil (list Qc)) with (map (@rev Qc) []).
  rewrite (loop_rev fuel S k [] (-1) IMF' ext'); auto.
  - cbn [bind]. rewrite finish_rev by auto. reflexivity.
  - constructor.
  - intros j z Hj Hz. unfold emd_finish in HP. cbv zeta in HP. cbn [imfs] in HP.
    destruct (ext' <=? 2).
    + destruct IMF' as [|x I0 _] using rev_ind; [cbn [length] in Hj; lia|]. rewrite removelast_last in HP.
      rewrite app_length in Hj. cbn [length] in Hj. apply (HP j z); [lia|].
      unfold minus_first in *. rewrite firstn_app in Hz. replace (j - length I0)%nat with O in Hz by lia. cbn [firstn] in Hz.
      rewrite app_nil_r in Hz. exact Hz.
    + apply (HP j z); auto. lia.
Qed.
End Run.

(** ** The statements of Props_Reverse.v *)
Lemma ofZ_trl n l : map Qc_ofZ (rvl n l) = map (fun u => L n - u)%Qc (rev (map Qc_ofZ l)).
Proof.
  unfold rvl. rewrite <- map_rev, !map_map. apply map_ext. intros i. unfold rv, L. rewrite <- Qc_ofZ_sub. f_equal. 
Qed.
Lemma extrema_reversed (S : list Qc) e : (2 <= length S)%nat -> pointed S ->
  find_extrema Simple (arange (length S)) S = Ok e ->
  exists e', find_extrema Simple (arange (length S)) (rev S) = Ok e' /\
    max_pos e' = map (fun u => Qc_ofZ (Z.of_nat (length S) - 1) - u)%Qc (rev (max_pos e)) /\ max_val e' = rev (max_val e) /\
    min_pos e' = map (fun u => Qc_ofZ (Z.of_nat (length S) - 1) - u)%Qc (rev (min_pos e)) /\ min_val e' = rev (min_val e).
Proof.
  rewrite arange_tz. intros Hn HP E. destruct (find_rev S e Hn HP E) as (e' & M & m & A1 & A2 & A3 & A4 & A5 & A6 & A7 & _).
  exists e'. rewrite A2, A3, A4, A5. split; auto. split; [apply ofZ_trl|]. split; auto. split; auto. apply ofZ_trl.
Qed.
Lemma points_reversed (S : list Qc) nb e e' P Q : (2 <= length S)%nat -> pointed S -> 1 <= nb ->
  find_extrema Simple (arange (length S)) S = Ok e -> find_extrema Simple (arange (length S)) (rev S) = Ok e' ->
  2 < ext_no e -> prepare_points Simple nb (arange (length S)) S e = Ok (P, Q) ->
  prepare_points Simple nb (arange (length S)) (rev S) e' =
    Ok (turned (Qc_ofZ (Z.of_nat (length S) - 1)) P, turned (Qc_ofZ (Z.of_nat (length S) - 1)) Q).
Proof. rewrite arange_tz. apply prepare_rev. Qed.
Lemma crossings_reversed (T S : list Qc) e e' : find_extrema Simple T S = Ok e -> find_extrema Simple T (rev S) = Ok e' ->
  length (indzer e') = length (indzer e).
Proof.
  cbn [find_extrema]. unfold find_extrema_simple. intros E E'.
  apply bind_ok in E as ([M m] & _ & E). apply bind_ok in E as (a1 & _ & E). apply bind_ok in E as (a2 & _ & E).
  apply bind_ok in E as (a3 & _ & E). apply bind_ok in E as (a4 & _ & E). apply ok_inv in E. subst e.
  apply bind_ok in E' as ([M' m'] & _ & E). apply bind_ok in E as (b1 & _ & E). apply bind_ok in E as (b2 & _ & E).
  apply bind_ok in E as (b3 & _ & E). apply bind_ok in E as (b4 & _ & E). apply ok_inv in E. subst e'. cbn [indzer].
  pose proof (zero_crossings_rev S) as Z. unfold zlen in Z. lia.
Qed.
Lemma emd_reversed spl fuel c S T max_imf o : turns spl -> extrema_detection c = Simple -> 1 <= nbsym c -> (2 <= length S)%nat ->
  emd spl fuel c S T max_imf = Ok o ->
  (forall j z, (j <= length (imfs o))%nat ->
     sifted spl c (Z.to_nat (MAX_ITERATION c)) (minus_first j (imfs o) S) z -> pointed z) ->
  exists o', emd spl fuel c (rev S) T max_imf = Ok o' /\
    out o' = map (@rev Qc) (out o) /\ imfs o' = map (@rev Qc) (imfs o) /\ residue o' = rev (residue o).
Proof.
  intros Ht Hd Hnb Hn E HP. eexists. split.
  - apply (emd_rev spl Ht c Hd Hnb fuel S T T max_imf o); auto. intros u ->. unfold emd, emd_time in E.
    destruct (Nat.eqb_spec (length S) (length u)); [auto|discriminate].
  - auto.
Qed.

(** No two neighbouring samples equal: a way to check [pointed]. *)
Definition no_ties (x : list Qc) : bool := forallb negb (adj (fun a b => if Qc_eq_dec a b then true else false) x).
Lemma no_ties_ne x i : no_ties x = true -> 0 <= i < Z.of_nat (length x) - 1 -> sample x i <> sample x (i + 1).
Proof.
  unfold no_ties. rewrite forallb_forall. intros H Hi C.
  specialize (H true). cbn [negb] in H. assert (true = true -> False); [|tauto]. intros _.
  assert (In true (adj (fun a b : Qc => if Qc_eq_dec a b then true else false) x)); [|specialize (H H0); discriminate].
  unfold adj. unfold sample in C. replace (Z.to_nat (i + 1)) with (Datatypes.S (Z.to_nat i)) in C by lia.
  set (k := Z.to_nat i) in *. assert (Hk : (Datatypes.S k < length x)%nat) by lia. clearbody k. clear H Hi i.
  revert k C Hk. induction x as [|a x IH]; intros k C Hk; cbn [length] in Hk; [lia|]. destruct x as [|b x]; cbn [length] in Hk; [lia|].
  cbn [tl map2]. destruct k as [|k].
  - left. cbn [nth] in C. destruct (Qc_eq_dec a b); congruence.
  - right. apply (IH k); cbn [length]; auto. lia.
Qed.
Lemma no_ties_pointed x : (2 <= length x)%nat -> no_ties x = true -> pointed x.
Proof.
  intros Hn HT. pose proof (fun i => no_ties_ne x i HT) as N. split; [|split; [|split]].
  - intros a b (H1 & H2 & H3 & _). destruct (Z.eq_dec a b); auto. destruct (N a); [lia|]. symmetry. apply H3. lia.
  - intros a b (H1 & H2 & H3 & _). destruct (Z.eq_dec a b); auto. destruct (N a); [lia|]. symmetry. apply H3. lia.
  - apply N. lia.
  - replace (Z.of_nat (length x) - 1) with (Z.of_nat (length x) - 2 + 1) by ring. apply N. lia.
Qed.
Fixpoint orbit (spl : spline_oracle Qc) (c : emd_config Qc) (k : nat) (x : list Qc) : list (list Qc) :=
  x :: match k with
       | O => []
       | Datatypes.S k => match sift_step spl c (arange (length x)) x with Ok (y, _, _) => orbit spl c k y | _ => [] end
       end.
Lemma sifted_orbit spl c k x z : sifted spl c k x z -> In z (orbit spl c k x).
Proof.
  induction 1 as [k x|k x y z P Q E _ IH].
  - destruct k; left; reflexivity.
  - cbn [orbit]. rewrite E. right. exact IH.
Qed.
Definition orbits_pointed (spl : spline_oracle Qc) (c : emd_config Qc) (k : nat) (S : list Qc) (o : emd_out Qc) : bool :=
  forallb (fun j => forallb (fun z => (2 <=? length z)%nat && no_ties z) (orbit spl c k (minus_first j (imfs o) S)))
    (seq 0 (Datatypes.S (length (imfs o)))).
Lemma orbits_pointed_ok spl c k S o : orbits_pointed spl c k S o = true ->
  forall j z, (j <= length (imfs o))%nat -> sifted spl c k (minus_first j (imfs o) S) z -> pointed z.
Proof.
  unfold orbits_pointed. rewrite forallb_forall. intros H j z Hj Hz. specialize (H j ltac:(apply in_seq; lia)).
  rewrite forallb_forall in H. specialize (H z (sifted_orbit _ _ _ _ _ Hz)). apply andb_prop in H as [H1 H2].
  apply no_ties_pointed; auto. apply Nat.leb_le. auto.
Qed.
