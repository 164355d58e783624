(** * KindsCubic: the not-a-knot cubic spline (exact arithmetic). *)
From Verif Require Import PyFacts QcFacts Emd Spec Demo EmdProofs EmdSimple ReverseLin RevSpec SymSpec Compact CompactSpec CompactProofs.
From Verif Require Import Runs EmdSym Kinds KindsSpec KindsProofs KindsRules.
From Coq Require Import ZifyBool ZifyNat QArith Qcanon Lia.
Open Scope Z_scope.
Notation knot := (Qc * Qc * Qc)%type.

(** ** The rows handed to the solver *)
Definition cubic_rows p0 p1 p2 r0 r1 r2 (pts : list (Qc * Qc)) : list (Qc * Qc * Qc * Qc) :=
  row_first p0 p1 p2 :: map row3 (triples pts) ++ [row_last r2 r1 r0].
Lemma zip4_cols (rows : list (Qc * Qc * Qc * Qc)) :
  zip4 (map (fun r => fst (fst (fst r))) rows) (map (fun r => snd (fst (fst r))) rows) (map (fun r => snd (fst r)) rows) (map snd rows) = rows.
Proof. induction rows as [|[[[a b] c] d] rows IH]; auto. cbn [map zip4 fst snd]. f_equal. exact IH. Qed.
Lemma cubic_ok pts p0 p1 p2 r0 r1 r2 : ends pts p0 p1 p2 r0 r1 r2 -> (4 <= length pts)%nat ->
  cubic_slopes pts = Ok (solve 0 0 (cubic_rows p0 p1 p2 r0 r1 r2 pts)).
Proof.
  intros (l & m & E1 & E2) H4. destruct l as [|p3 l]; [rewrite E1 in H4; cbn in H4; lia|]. subst pts.
  unfold cubic_slopes. cbv beta iota. rewrite E2. cbv beta iota zeta.
  rewrite tdma_solve; [|discriminate|rewrite !map_length; reflexivity|rewrite !map_length; reflexivity|rewrite !map_length; reflexivity].
  f_equal. f_equal. fold (cubic_rows p0 p1 p2 r0 r1 r2 (p0 :: p1 :: p2 :: p3 :: l)).
  set (R := cubic_rows _ _ _ _ _ _ _). rewrite <- (zip4_cols R) at 5. reflexivity.
Qed.
Lemma cubic_three p q r : cubic_slopes [p; q; r] =
  Ok [((1 + 1) * chord p q - grad3 (p, q, r))%Qc; grad3 (p, q, r); ((1 + 1) * chord q r - grad3 (p, q, r))%Qc].
Proof. unfold cubic_slopes. num_qc. rewrite two_qc. reflexivity. Qed.

Lemma solve_length r : forall cp dp, length (solve cp dp r) = length r.
Proof.
  induction r as [|[[[a b] c] d] r IH]; intros cp dp; auto. cbn [solve]. destruct r as [|x r]; auto.
  cbn [length] in *. rewrite IH. reflexivity.
Qed.
Definition scale_row (k : Qc) (r : Qc * Qc * Qc * Qc) : Qc * Qc * Qc * Qc := (fst r, k * snd r)%Qc.
Lemma solve_scale k r : forall cp dp, solve cp (k * dp)%Qc (map (scale_row k) r) = map (Qcmult k) (solve cp dp r).
Proof.
  induction r as [|[[[a b] c] d] r IH]; intros cp dp; auto.
  assert (E : ((k * d - a * (k * dp)) / (b - a * cp) = k * ((d - a * dp) / (b - a * cp)))%Qc) by (unfold Qcdiv; ring).
  destruct r as [|x r].
  - cbn [map scale_row fst snd solve]. rewrite E. reflexivity.
  - change (map (scale_row k) ((a, b, c, d) :: x :: r)) with ((a, b, c, (k * d)%Qc) :: scale_row k x :: map (scale_row k) r).
    assert (U : forall a b c d y ys cp dp, solve cp dp ((a, b, c, d) :: y :: ys) =
      let xs := solve (c / (b - a * cp))%Qc ((d - a * dp) / (b - a * cp))%Qc (y :: ys) in
      ((d - a * dp) / (b - a * cp) - c / (b - a * cp) * hd 0 xs)%Qc :: xs) by reflexivity.
    rewrite !U. cbv zeta. rewrite E. specialize (IH (c / (b - a * cp))%Qc ((d - a * dp) / (b - a * cp))%Qc).
    change (map (scale_row k) (x :: r)) with (scale_row k x :: map (scale_row k) r) in IH. rewrite IH.
    cbn [map]. f_equal.
    assert (G : forall l, hd 0%Qc (map (Qcmult k) l) = (k * hd 0 l)%Qc) by (intros [|y l]; cbn; ring).
    rewrite G. ring.
Qed.

Lemma row3_aff a b p q r : row3 (aff a b p, aff a b q, aff a b r) = scale_row a (row3 (p, q, r)).
Proof. unfold row3, scale_row. cbn [fst snd]. rewrite !gap_aff, !chord_aff. num_qc. f_equal. ring. Qed.
Lemma row_first_aff a b p q r : row_first (aff a b p) (aff a b q) (aff a b r) = scale_row a (row_first p q r).
Proof. unfold row_first, scale_row. cbn [fst snd]. rewrite !gap_aff, !chord_aff. num_qc. f_equal. unfold Qcdiv. ring. Qed.
Lemma row_last_aff a b p q r : row_last (aff a b p) (aff a b q) (aff a b r) = scale_row a (row_last p q r).
Proof. unfold row_last, scale_row. cbn [fst snd]. rewrite !gap_aff, !chord_aff. num_qc. f_equal. unfold Qcdiv. ring. Qed.

(** ** Positive pivots *)
Lemma div_between (x y : Qc) : (0 < x)%Qc -> (x < y)%Qc -> (0 < x / y /\ x / y < 1)%Qc.
Proof.
  intros H0 H1. assert (Hy : (0 < y)%Qc) by qclra. assert (E : (x = x / y * y)%Qc) by (field; intros C; qclra).
  split; qcnra.
Qed.
Lemma row3_pivots cp p q l r1 r0 m :
  increasing (map fst (p :: q :: l)) -> rev (p :: q :: l) = r0 :: r1 :: m ->
  (0 < cp)%Qc -> (cp < 1)%Qc -> l <> [] ->
  forall r2, (exists m', m = r2 :: m') ->
  all_pivots cp (map row3 (triples (p :: q :: l)) ++ [row_last r2 r1 r0]).
Proof.
  revert cp p q r1 r0 m. induction l as [|r l IH]; intros cp p q r1 r0 m HI ER H0 H1 Hn r2 HM; [congruence|].
  pose proof (increasing_hd _ _ _ HI) as G1. pose proof (increasing_hd _ _ _ (increasing_tl _ _ HI)) as G2. cbn [fst] in G1, G2.
  rewrite triples_cons. cbn [map app]. set (h1 := (fst q - fst p)%Qc). set (h2 := (fst r - fst q)%Qc).
  assert (P1 : (0 < h1)%Qc) by (unfold h1; qclra). assert (P2 : (0 < h2)%Qc) by (unfold h2; qclra).
  assert (PV : (h1 < (1 + 1) * (h1 + h2) - h2 * cp)%Qc) by qcnra.
  assert (PV2 : (h1 + h2 < (1 + 1) * (h1 + h2) - h2 * cp)%Qc) by qcnra.
  change (row3 (p, q, r)) with (h2, (Qc_ofZ 2 * (h1 + h2))%Qc, h1, (nofZ 3 * (h2 * chord p q + h1 * chord q r))%Qc).
  cbn [all_pivots]. rewrite two_qc. split; [intros C; qclra|].
  destruct (div_between _ _ P1 PV) as [D1 D2].
  destruct l as [|s l].
  - change (map row3 (triples [q; r])) with (@nil (Qc * Qc * Qc * Qc)). cbn [app].
    cbn [rev app] in ER. injection ER as <- <- <-. destruct HM as (m' & EM). injection EM as <- _.
    change (row_last p q r) with ((h1 + h2)%Qc, h1, n0 (A := Qc), snd (row_last p q r)). cbn [all_pivots]. split; auto.
    set (v := ((1 + 1) * (h1 + h2) - h2 * cp)%Qc) in *.
    assert (E : (h1 / v * v = h1)%Qc) by (field; intros C; qclra). intros C. 
    assert (H : (h1 * v = (h1 + h2) * h1)%Qc).
    { rewrite <- E at 3. transitivity (((h1 + h2) * (h1 / v)) * v)%Qc; [|ring].
      replace ((h1 + h2) * (h1 / v))%Qc with h1; auto. 
      transitivity (h1 - 0)%Qc; [ring|]. rewrite <- C. ring. }
    clear - PV2 P1 H. clearbody v h1 h2.
    assert (0 < h1 * (v - (h1 + h2)))%Qc by (apply Qc_mul_pos; [auto|qclra]). qcnra.
  - apply IH with (m := firstn (length m - 1) m).
    + exact (increasing_tl _ _ HI).
    + change (rev (p :: q :: r :: s :: l)) with (rev (q :: r :: s :: l) ++ [p]) in ER.
      assert (EL : (3 <= length (rev (q :: r :: s :: l)))%nat) by (rewrite rev_length; cbn; lia).
      destruct (rev (q :: r :: s :: l)) as [|a [|b m']]; cbn [length] in EL; try lia.
      cbn [app] in ER. injection ER as -> -> <-. rewrite app_length. cbn [length].
      replace (length m' + 1 - 1)%nat with (length m') by lia. rewrite firstn_app, firstn_all, Nat.sub_diag. cbn. rewrite app_nil_r. reflexivity.
    + exact D1.
    + exact D2.
    + discriminate.
    + destruct HM as (m' & ->). assert (LM := f_equal (@length _) ER). rewrite rev_length in LM. cbn [length] in LM.
      destruct m' as [|x m']; [cbn in LM; lia|]. cbn [length]. replace (Datatypes.S (Datatypes.S (length m')) - 1)%nat with (Datatypes.S (length m')) by lia.
      exists (firstn (length m') (x :: m')). reflexivity.
Qed.
Lemma cubic_pivots pts p0 p1 p2 r0 r1 r2 : ends pts p0 p1 p2 r0 r1 r2 -> (4 <= length pts)%nat -> increasing (map fst pts) ->
  all_pivots 0 (cubic_rows p0 p1 p2 r0 r1 r2 pts).
Proof.
  intros (l & m & E1 & E2) H4 HI. destruct l as [|p3 l]; [rewrite E1 in H4; cbn in H4; lia|].
  assert (HI0 := HI). rewrite E1 in HI. pose proof (increasing_hd _ _ _ HI) as G1. pose proof (increasing_hd _ _ _ (increasing_tl _ _ HI)) as G2. cbn [fst] in G1, G2.
  unfold cubic_rows. rewrite E1 at 1. rewrite triples_cons. cbn [map app].
  set (h1 := (fst p1 - fst p0)%Qc). set (h2 := (fst p2 - fst p1)%Qc).
  assert (P1 : (0 < h1)%Qc) by (unfold h1; qclra). assert (P2 : (0 < h2)%Qc) by (unfold h2; qclra).
  change (row_first p0 p1 p2) with (n0 (A := Qc), h2, (h1 + h2)%Qc, snd (row_first p0 p1 p2)).
  change (row3 (p0, p1, p2)) with (h2, (Qc_ofZ 2 * (h1 + h2))%Qc, h1, snd (row3 (p0, p1, p2))).
  cbn [all_pivots]. change (@n0 Qc _) with 0%Qc. replace (h2 - 0 * 0)%Qc with h2 by ring. split; [intros C; qclra|].
  rewrite two_qc. assert (EP : ((1 + 1) * (h1 + h2) - h2 * ((h1 + h2) / h2) = h1 + h2)%Qc) by (field; intros C; qclra).
  rewrite EP. split; [intros C; qclra|].
  assert (PV : (h1 < h1 + h2)%Qc) by qclra. destruct (div_between _ _ P1 PV) as [D1 D2].
  assert (E2' := E2). rewrite E1 in E2'. change (rev (p0 :: p1 :: p2 :: p3 :: l)) with (rev (p1 :: p2 :: p3 :: l) ++ [p0]) in E2'.
  assert (EL : (3 <= length (rev (p1 :: p2 :: p3 :: l)))%nat) by (rewrite rev_length; cbn; lia).
  destruct (rev (p1 :: p2 :: p3 :: l)) as [|a [|b [|c m']]] eqn:ER; cbn [length] in EL; try lia.
  cbn [app] in E2'. injection E2' as -> -> -> _.
  apply row3_pivots with (m := r2 :: m'); auto; [exact (increasing_tl _ _ HI)|discriminate|eauto].
Qed.

(** ** The equations for the slopes *)
Definition eq3 (w : knot * knot * knot) : Prop :=
  let '(P, Q, R) := w in
  let h1 := gap (fst P) (fst Q) in let h2 := gap (fst Q) (fst R) in
  (h2 * snd P + (1 + 1) * (h1 + h2) * snd Q + h1 * snd R = (1 + 1 + 1) * (h2 * chord (fst P) (fst Q) + h1 * chord (fst Q) (fst R)))%Qc.
Definition eqF (P Q R : knot) : Prop :=
  let h1 := gap (fst P) (fst Q) in let h2 := gap (fst Q) (fst R) in
  (h2 * snd P + (h1 + h2) * snd Q = snd (row_first (fst P) (fst Q) (fst R)))%Qc.
Definition eqL (P Q R : knot) : Prop :=
  let h1 := gap (fst P) (fst Q) in let h2 := gap (fst Q) (fst R) in
  ((h1 + h2) * snd Q + h1 * snd R = snd (row_last (fst P) (fst Q) (fst R)))%Qc.
Definition spline_eqs (ks : list knot) : Prop :=
  Forall eq3 (triples ks) /\
  (forall P Q R l, ks = P :: Q :: R :: l -> eqF P Q R) /\
  (forall P Q R m, rev ks = R :: Q :: P :: m -> eqL P Q R).

Fixpoint last2 (P Q : knot) (l : list knot) : knot * knot :=
  match l with [] => (P, Q) | R :: l' => last2 Q R l' end.
Lemma last2_rev P Q l : exists m, rev (P :: Q :: l) = snd (last2 P Q l) :: fst (last2 P Q l) :: m.
Proof.
  revert P Q. induction l as [|R l IH]; intros P Q; [exists []; reflexivity|].
  destruct (IH Q R) as (m & E). exists (m ++ [P]). change (rev (P :: Q :: R :: l)) with (rev (Q :: R :: l) ++ [P]).
  rewrite E. reflexivity.
Qed.
Lemma system_rows a b c d P Q l :
  system (snd P) (map row3 (triples (map fst (P :: Q :: l))) ++ [(a, b, c, d)]) (map snd (Q :: l)) <->
  Forall eq3 (triples (P :: Q :: l)) /\ (a * snd (fst (last2 P Q l)) + b * snd (snd (last2 P Q l)) = d)%Qc.
Proof.
  revert P Q. induction l as [|R l IH]; intros P Q.
  - cbn. split; [intros [E _]; split; [constructor|rewrite <- E; ring]|intros [_ <-]; split; [ring|exact I]].
  - specialize (IH Q R).
    change (last2 P Q (R :: l)) with (last2 Q R l).
    change (triples (P :: Q :: R :: l)) with ((P, Q, R) :: triples (Q :: R :: l)).
    change (triples (map fst (P :: Q :: R :: l))) with ((fst P, fst Q, fst R) :: triples (map fst (Q :: R :: l))).
    rewrite Forall_cons_iff.
    change (map row3 ((fst P, fst Q, fst R) :: triples (map fst (Q :: R :: l))) ++ [(a, b, c, d)])
      with (row3 (fst P, fst Q, fst R) :: (map row3 (triples (map fst (Q :: R :: l))) ++ [(a, b, c, d)])).
    remember (map row3 (triples (map fst (Q :: R :: l))) ++ [(a, b, c, d)]) as rest eqn:HR.
    assert (HX : exists x y, rest = x :: y) by (rewrite HR; destruct (map row3 _); cbn; eauto).
    destruct HX as (x & y & HX).
    assert (EQ : system (snd P) (row3 (fst P, fst Q, fst R) :: rest) (map snd (Q :: R :: l)) <->
      eq3 (P, Q, R) /\ system (snd Q) rest (map snd (R :: l))).
    { unfold row3. num_qc. cbn [system map]. rewrite HX at 1. cbn [hd]. rewrite two_qc, three_qc. unfold eq3. tauto. }
    rewrite EQ, IH. tauto.
Qed.
Lemma eqs_system ks P Q R l P' Q' R' m : ks = P :: Q :: R :: l -> rev ks = R' :: Q' :: P' :: m ->
  (system 0 (cubic_rows (fst P) (fst Q) (fst R) (fst R') (fst Q') (fst P') (map fst ks)) (map snd ks) <-> spline_eqs ks).
Proof.
  intros E1 E2. destruct (last2_rev P Q (R :: l)) as (m' & EL). rewrite <- E1, E2 in EL. injection EL as EQ1 EQ2 _.
  unfold cubic_rows, spline_eqs. rewrite E1 at 1 2 3.
  destruct (row_last (fst P') (fst Q') (fst R')) as [[[a b] c] d] eqn:ERL.
  pose proof (system_rows a b c d P Q (R :: l)) as SR. change (last2 P Q (R :: l)) with (last2 Q R l) in SR. rewrite <- EQ1, <- EQ2 in SR.
  assert (EF : system 0 (row_first (fst P) (fst Q) (fst R) :: map row3 (triples (map fst (P :: Q :: R :: l))) ++ [(a, b, c, d)])
     (map snd (P :: Q :: R :: l)) <-> eqF P Q R /\ system (snd P) (map row3 (triples (map fst (P :: Q :: R :: l))) ++ [(a, b, c, d)]) (map snd (Q :: R :: l))).
  { remember (map row3 (triples (map fst (P :: Q :: R :: l))) ++ [(a, b, c, d)]) as rest eqn:HR.
    assert (HX : exists x y, rest = x :: y) by (rewrite HR; destruct (map row3 _); cbn; eauto).
    destruct HX as (x & y & HX).
    change (row_first (fst P) (fst Q) (fst R)) with
      (0%Qc, gap (fst Q) (fst R), (gap (fst P) (fst Q) + gap (fst Q) (fst R))%Qc, snd (row_first (fst P) (fst Q) (fst R))).
    cbn [system map]. rewrite HX at 1. cbn [hd]. unfold eqF.
    replace (0 * 0 + gap (fst Q) (fst R) * snd P)%Qc with (gap (fst Q) (fst R) * snd P)%Qc by ring. tauto. }
  rewrite EF, SR. clear EF SR.
  assert (GL : eqL P' Q' R' <-> (a * snd Q' + b * snd R' = d)%Qc).
  { unfold eqL. change (row_last (fst P') (fst Q') (fst R')) with
      ((gap (fst P') (fst Q') + gap (fst Q') (fst R'))%Qc, gap (fst P') (fst Q'), 0%Qc, snd (row_last (fst P') (fst Q') (fst R'))) in ERL.
    injection ERL as <- <- _ <-. tauto. }
  rewrite <- GL, <- E1. split.
  - intros (A1 & A2 & A3). split; [exact A2|]. split.
    + intros X Y Z l0 EX. rewrite E1 in EX. injection EX as <- <- <- _. exact A1.
    + intros X Y Z l0 EX. rewrite E2 in EX. injection EX as <- <- <- _. exact A3.
  - intros (A2 & A1 & A3). split; [exact (A1 _ _ _ _ E1)|]. split; [exact A2|]. exact (A3 _ _ _ _ E2).
Qed.
Lemma combine_shape (pts : list (Qc * Qc)) (ds : list Qc) : length ds = length pts -> (4 <= length pts)%nat ->
  exists P Q R l, combine pts ds = P :: Q :: R :: l /\ l <> [].
Proof.
  intros Ld H4. destruct pts as [|p0 [|p1 [|p2 [|p3 l]]]], ds as [|d0 [|d1 [|d2 [|d3 e]]]]; cbn [length] in *; try lia.
  cbn [combine]. do 4 eexists. split; [reflexivity|discriminate].
Qed.
Lemma cubic_iff pts ds : (4 <= length pts)%nat -> increasing (map fst pts) ->
  (cubic_slopes pts = Ok ds <-> length ds = length pts /\ spline_eqs (combine pts ds)).
Proof.
  intros H4 HI. destruct (ends_ex pts ltac:(lia)) as (p0 & p1 & p2 & r0 & r1 & r2 & HE).
  rewrite (cubic_ok _ _ _ _ _ _ _ HE H4). pose proof (cubic_pivots _ _ _ _ _ _ _ HE H4 HI) as HP.
  assert (EX : forall x, Ok (solve 0 0 (cubic_rows p0 p1 p2 r0 r1 r2 pts)) = Ok x <->
     system (0 - 0 * hd 0 x)%Qc (cubic_rows p0 p1 p2 r0 r1 r2 pts) x).
  { intros x. rewrite <- solve_iff; [|discriminate|exact HP]. split; [intros E; apply ok_inv in E; auto|intros ->; auto]. }
  rewrite EX. assert (EZ : (0 - 0 * hd 0 ds = 0)%Qc) by ring. rewrite EZ.
  assert (LL : system 0 (cubic_rows p0 p1 p2 r0 r1 r2 pts) ds -> length ds = length pts).
  { rewrite <- EZ at 1. rewrite <- EX. intros E. apply ok_inv in E. rewrite E, solve_length. unfold cubic_rows.
    cbn [length]. rewrite app_length, map_length, triples_length. cbn [length]. lia. }
  assert (KEY : length ds = length pts -> (system 0 (cubic_rows p0 p1 p2 r0 r1 r2 pts) ds <-> spline_eqs (combine pts ds))).
  { intros Ld. destruct (combine_shape pts ds Ld H4) as (P & Q & R & l & EC & Hl).
    assert (ER : exists R' Q' P' m, rev (combine pts ds) = R' :: Q' :: P' :: m).
    { pose proof (rev_length (combine pts ds)) as RL. rewrite combine_length, Ld, Nat.min_id in RL.
      destruct (rev (combine pts ds)) as [|R' [|Q' [|P' m]]]; cbn [length] in RL; try lia. eauto. }
    destruct ER as (R' & Q' & P' & m & ER). pose proof (eqs_system _ _ _ _ _ _ _ _ _ EC ER) as K.
    rewrite combine_fst, combine_snd in K by auto. rewrite <- K.
    destruct HE as (l1 & m1 & E1 & E2).
    assert (F1 := combine_fst pts ds Ld). rewrite EC, E1 in F1. cbn [map] in F1. injection F1 as -> -> -> _.
    assert (F2 := f_equal (@rev _) (combine_fst pts ds Ld)). rewrite <- map_rev, ER, E2 in F2. cbn [map] in F2. injection F2 as -> -> -> _.
    tauto. }
  split; [intros HS; split; [auto|apply KEY; auto]|intros [Ld HS]; apply KEY; auto].
Qed.

(** ** The rule *)
Definition turn3 (L : Qc) (k : knot) : knot := (turn1 L (fst k), - snd k)%Qc.
Lemma row_first_turn L p q r : snd (row_first (turn1 L r) (turn1 L q) (turn1 L p)) = (- snd (row_last p q r))%Qc.
Proof. unfold row_first, row_last. cbn [snd]. rewrite !gap_turn, !chord_turn. num_qc. rewrite (Qcplus_comm (gap q r) (gap p q)). unfold Qcdiv. ring. Qed.
Lemma row_last_turn L p q r : snd (row_last (turn1 L r) (turn1 L q) (turn1 L p)) = (- snd (row_first p q r))%Qc.
Proof. unfold row_first, row_last. cbn [snd]. rewrite !gap_turn, !chord_turn. num_qc. rewrite (Qcplus_comm (gap q r) (gap p q)). unfold Qcdiv. ring. Qed.
Lemma neg_eq (x y : Qc) : x = y -> (- x = - y)%Qc. Proof. congruence. Qed.
Lemma spline_eqs_turn L ks : spline_eqs ks -> spline_eqs (turned3 L ks).
Proof.
  change (turned3 L ks) with (map (turn3 L) (rev ks)).
  intros (A1 & A2 & A3). split; [|split].
  - rewrite triples_map, triples_rev, map_rev, map_map. apply Forall_rev. rewrite Forall_map.
    eapply Forall_impl; [|exact A1]. intros [[P Q] R] E. cbn [fst snd]. unfold eq3 in *.
    cbn [turn3 fst snd]. rewrite !gap_turn, !chord_turn. apply neg_eq in E.
    transitivity (- (gap (fst Q) (fst R) * snd P + (1 + 1) * (gap (fst P) (fst Q) + gap (fst Q) (fst R)) * snd Q + gap (fst P) (fst Q) * snd R))%Qc; [ring|].
    rewrite E. ring.
  - intros P Q R l E. destruct (rev ks) as [|R' [|Q' [|P' m]]] eqn:ER; try discriminate E. cbn [map] in E. injection E as <- <- <- _.
    pose proof (A3 _ _ _ _ eq_refl) as G. unfold eqF, eqL in *. cbn [turn3 fst snd]. rewrite !gap_turn, row_first_turn.
    rewrite <- G. ring.
  - intros P Q R m E. rewrite <- map_rev, rev_involutive in E.
    destruct ks as [|P' [|Q' [|R' l]]]; try discriminate E. cbn [map] in E. injection E as <- <- <- _.
    pose proof (A2 _ _ _ _ eq_refl) as G. unfold eqF, eqL in *. cbn [turn3 fst snd]. rewrite !gap_turn, row_last_turn.
    rewrite <- G. ring.
Qed.

Lemma cubic_len pts ds : cubic_slopes pts = Ok ds -> (3 <= length pts)%nat.
Proof. intros E. destruct pts as [|p0 [|p1 [|p2 l]]]; try discriminate. cbn. lia. Qed.
Lemma cubic_rule : rule cubic_slopes.
Proof.
  split.
  - intros pts ds E. pose proof (cubic_len _ _ E) as H3.
    destruct (le_lt_dec 4 (length pts)) as [H4|H4].
    + destruct (ends_ex pts H3) as (p0 & p1 & p2 & r0 & r1 & r2 & HE). rewrite (cubic_ok _ _ _ _ _ _ _ HE H4) in E.
      apply ok_inv in E. rewrite E, solve_length. unfold cubic_rows. cbn [length]. rewrite app_length, map_length, triples_length. cbn [length]. lia.
    + destruct pts as [|p [|q [|r [|s l]]]]; cbn [length] in *; try lia. rewrite cubic_three in E. apply ok_inv in E. subst ds. reflexivity.
  - intros pts _ H3. unfold zlen in H3. destruct (le_lt_dec 4 (length pts)) as [H4|H4].
    + destruct (ends_ex pts ltac:(lia)) as (p0 & p1 & p2 & r0 & r1 & r2 & HE). eexists. apply (cubic_ok _ _ _ _ _ _ _ HE H4).
    + destruct pts as [|p [|q [|r [|s l]]]]; cbn [length] in *; try lia. eexists. apply cubic_three.
  - intros a b pts ds E. pose proof (cubic_len _ _ E) as H3.
    change (fun p : Qc * Qc => (fst p, a * snd p + b)%Qc) with (aff a b).
    destruct (le_lt_dec 4 (length pts)) as [H4|H4].
    + destruct (ends_ex pts H3) as (p0 & p1 & p2 & r0 & r1 & r2 & HE). rewrite (cubic_ok _ _ _ _ _ _ _ HE H4) in E.
      apply ok_inv in E. subst ds.
      rewrite (cubic_ok _ _ _ _ _ _ _ (ends_map (aff a b) _ _ _ _ _ _ _ HE)) by (rewrite map_length; auto). f_equal.
      rewrite <- solve_scale. replace (a * 0)%Qc with 0%Qc by ring. f_equal. unfold cubic_rows. cbn [map].
      rewrite row_first_aff, map_app, row_last_aff. f_equal. f_equal. rewrite triples_map, !map_map.
      apply map_ext. intros [[p q] r]. apply row3_aff.
    + destruct pts as [|p [|q [|r [|s l]]]]; cbn [length] in *; try lia. rewrite cubic_three in E. apply ok_inv in E. subst ds.
      cbn [map]. rewrite cubic_three, !chord_aff.
      assert (EG : grad3 (aff a b p, aff a b q, aff a b r) = (a * grad3 (p, q, r))%Qc)
        by (unfold grad3; rewrite !gap_aff, !chord_aff; num_qc; unfold Qcdiv; ring).
      rewrite EG. f_equal. f_equal; [ring|]. f_equal. f_equal. ring.
  - intros L pts ds HI E. pose proof (cubic_len _ _ E) as H3.
    destruct (le_lt_dec 4 (length pts)) as [H4|H4].
    + apply cubic_iff in E as [Ld E]; auto. apply cubic_iff.
      * unfold turned. rewrite map_length, rev_length. auto.
      * apply increasing_turned; auto.
      * split; [unfold turned; rewrite rev_length, !map_length, rev_length; auto|].
        rewrite turned3_combine by auto. apply spline_eqs_turn. exact E.
    + destruct pts as [|p [|q [|r [|s l]]]]; cbn [length] in *; try lia. rewrite cubic_three in E. apply ok_inv in E. subst ds.
      change (turned L [p; q; r]) with [turn1 L r; turn1 L q; turn1 L p]. rewrite cubic_three, grad3_sym, !chord_turn.
      cbn [map rev app]. f_equal. f_equal; [ring|]. f_equal. f_equal. ring.
Qed.

(** ** The spline has continuous bends, and is the only curve that has *)
Lemma bend_iff P Q R : (fst (fst P) < fst (fst Q))%Qc -> (fst (fst Q) < fst (fst R))%Qc ->
  (eq3 (P, Q, R) <->
   bend (piece_of (fst (fst P)) (snd (fst P)) (snd P) (fst (fst Q)) (snd (fst Q)) (snd Q)) (fst (fst Q) - fst (fst P))%Qc
   = bend (piece_of (fst (fst Q)) (snd (fst Q)) (snd Q) (fst (fst R)) (snd (fst R)) (snd R)) 0%Qc).
Proof.
  destruct P as [[x0 y0] d0], Q as [[x1 y1] d1], R as [[x2 y2] d2]. cbn [fst snd]. intros H1 H2.
  unfold eq3, chord, gap, bend, piece_of. num_qc. cbn [fst snd k0 k1 k2 k3].
  set (h1 := (x1 - x0)%Qc). set (h2 := (x2 - x1)%Qc).
  assert (N1 : h1 <> 0%Qc) by (apply gap_ne; auto). assert (N2 : h2 <> 0%Qc) by (apply gap_ne; auto).
  set (s1 := ((y1 - y0) / h1)%Qc). set (s2 := ((y2 - y1) / h2)%Qc). clearbody h1 h2 s1 s2.
  set (A := ((1 + 1) * ((s1 - d0) / h1 - (d0 + d1 - (1 + 1) * s1) / h1) + (1 + 1 + 1 + 1 + 1 + 1) * ((d0 + d1 - (1 + 1) * s1) / h1 / h1) * h1)%Qc).
  set (B := ((1 + 1) * ((s2 - d1) / h2 - (d1 + d2 - (1 + 1) * s2) / h2) + (1 + 1 + 1 + 1 + 1 + 1) * ((d1 + d2 - (1 + 1) * s2) / h2 / h2) * 0)%Qc).
  assert (EAB : (h1 * h2 * (A - B) = (1 + 1) * ((h2 * d0 + (1 + 1) * (h1 + h2) * d1 + h1 * d2) - (1 + 1 + 1) * (h2 * s1 + h1 * s2)))%Qc)
    by (unfold A, B; field; auto).
  clearbody A B.
  split; intros E.
  - rewrite E in EAB. assert (Z0 : (h1 * h2 * (A - B) = 0)%Qc) by (rewrite EAB; ring).
    apply Qcmult_integral in Z0 as [Z0|Z0]; [apply Qcmult_integral in Z0 as [?|?]; contradiction|]. transitivity (A - B + B)%Qc; [ring|]. rewrite Z0. ring.
  - subst B. match type of EAB with _ = ((1 + 1) * (?u - ?v))%Qc => assert (Z0 : ((1 + 1) * (u - v) = 0)%Qc) by (rewrite <- EAB; ring);
      apply Qcmult_integral in Z0 as [Z0|Z0]; [discriminate Z0|]; transitivity (u - v + v)%Qc; [ring|]; rewrite Z0; ring end.
Qed.
Definition piece2 (P Q : knot) : piece := piece_of (fst (fst P)) (snd (fst P)) (snd P) (fst (fst Q)) (snd (fst Q)) (snd Q).
Lemma first_iff P Q R : (fst (fst P) < fst (fst Q))%Qc -> (fst (fst Q) < fst (fst R))%Qc -> eq3 (P, Q, R) ->
  (eqF P Q R <-> k3 (piece2 P Q) = k3 (piece2 Q R)) /\ (eqL P Q R <-> k3 (piece2 P Q) = k3 (piece2 Q R)).
Proof.
  unfold piece2. destruct P as [[x0 y0] d0], Q as [[x1 y1] d1], R as [[x2 y2] d2]. cbn [fst snd]. intros H1 H2.
  unfold eq3, eqF, eqL, row_first, row_last, chord, gap, piece_of. num_qc. rewrite !two_qc. cbn [fst snd k0 k1 k2 k3].
  assert (HS : (x1 - x0 + (x2 - x1) <> 0)%Qc) by (intros C; qclra).
  set (h1 := (x1 - x0)%Qc) in *. set (h2 := (x2 - x1)%Qc) in *.
  assert (N1 : h1 <> 0%Qc) by (apply gap_ne; auto). assert (N2 : h2 <> 0%Qc) by (apply gap_ne; auto).
  set (s1 := ((y1 - y0) / h1)%Qc). set (s2 := ((y2 - y1) / h2)%Qc). clearbody h1 h2 s1 s2. intros E3.
  set (A := ((d0 + d1 - (1 + 1) * s1) / h1 / h1)%Qc). set (B := ((d1 + d2 - (1 + 1) * s2) / h2 / h2)%Qc).
  assert (KA : (h1 * h1 * h2 * h2 * (A - B) = h2 * h2 * (d0 + d1 - (1 + 1) * s1) - h1 * h1 * (d1 + d2 - (1 + 1) * s2))%Qc) by (unfold A, B; field; auto).
  clearbody A B.
  assert (N4 : (h1 * h1 * h2 * h2 <> 0)%Qc) by (repeat (intros C; apply Qcmult_integral in C as [C|C]; revert C); auto).
  assert (ZZ : forall u v w : Qc, (w <> 0)%Qc -> (w * (u - v) = 0)%Qc -> u = v).
  { intros u v w Hw E. apply Qcmult_integral in E as [E|E]; [contradiction|]. transitivity (u - v + v)%Qc; [ring|]. rewrite E. ring. }
  assert (E3' : (h2 * d0 + (1 + 1) * (h1 + h2) * d1 + h1 * d2 - (1 + 1 + 1) * (h2 * s1 + h1 * s2) = 0)%Qc) by (rewrite E3; ring).
  assert (Df : forall u : Qc, ((h1 + h2) * (u / (h1 + h2)) = u)%Qc) by (intros u; field; auto).
  split; split; intros E.
  - apply (ZZ _ _ _ N4). rewrite KA.
    match type of E with (?l = ?u / _)%Qc => assert (E' : ((h1 + h2) * l = u)%Qc) by (rewrite E; apply Df) end.
    transitivity ((h1 + h2) * (h2 * d0 + (h1 + h2) * d1) - ((h1 + (1 + 1) * (h1 + h2)) * h2 * s1 + h1 * h1 * s2)
      - h1 * (h2 * d0 + (1 + 1) * (h1 + h2) * d1 + h1 * d2 - (1 + 1 + 1) * (h2 * s1 + h1 * s2)))%Qc; [ring|]. rewrite E3', E'. ring.
  - apply (ZZ _ _ _ HS). match goal with |- (_ * (?l - ?u / _) = 0)%Qc => transitivity ((h1 + h2) * l - (h1 + h2) * (u / (h1 + h2)))%Qc; [ring|rewrite Df] end.
    assert (K0 : (h2 * h2 * (d0 + d1 - (1 + 1) * s1) - h1 * h1 * (d1 + d2 - (1 + 1) * s2) = 0)%Qc) by (rewrite <- KA, E; ring).
    transitivity ((h2 * h2 * (d0 + d1 - (1 + 1) * s1) - h1 * h1 * (d1 + d2 - (1 + 1) * s2)) +
      h1 * (h2 * d0 + (1 + 1) * (h1 + h2) * d1 + h1 * d2 - (1 + 1 + 1) * (h2 * s1 + h1 * s2)))%Qc; [ring|]. rewrite E3', K0. ring.
  - apply (ZZ _ _ _ N4). rewrite KA.
    match type of E with (?l = ?u / _)%Qc => assert (E' : ((h1 + h2) * l = u)%Qc) by (rewrite E; apply Df) end.
    transitivity (h2 * (h2 * d0 + (1 + 1) * (h1 + h2) * d1 + h1 * d2 - (1 + 1 + 1) * (h2 * s1 + h1 * s2))
      - ((h1 + h2) * ((h1 + h2) * d1 + h1 * d2) - (h2 * h2 * s1 + ((1 + 1) * (h1 + h2) + h2) * h1 * s2)))%Qc; [ring|]. rewrite E3', E'. ring.
  - apply (ZZ _ _ _ HS). match goal with |- (_ * (?l - ?u / _) = 0)%Qc => transitivity ((h1 + h2) * l - (h1 + h2) * (u / (h1 + h2)))%Qc; [ring|rewrite Df] end.
    assert (K0 : (h2 * h2 * (d0 + d1 - (1 + 1) * s1) - h1 * h1 * (d1 + d2 - (1 + 1) * s2) = 0)%Qc) by (rewrite <- KA, E; ring).
    transitivity (h2 * (h2 * d0 + (1 + 1) * (h1 + h2) * d1 + h1 * d2 - (1 + 1 + 1) * (h2 * s1 + h1 * s2)) -
      (h2 * h2 * (d0 + d1 - (1 + 1) * s1) - h1 * h1 * (d1 + d2 - (1 + 1) * s2)))%Qc; [ring|]. rewrite E3', K0. ring.
Qed.
