(** * KindsRules: the slope rules of cubic_hermite, pchip and akima (exact arithmetic). *)
From Verif Require Import PyFacts QcFacts Emd Spec Demo EmdProofs EmdSimple ReverseLin RevSpec SymSpec.
From Verif Require Import Runs EmdSym Kinds KindsSpec KindsProofs.
From Coq Require Import ZifyBool ZifyNat QArith Qcanon Lia.
Open Scope Z_scope.

(** ** Windows *)
Lemma triples_cons {X} (a b c : X) l : triples (a :: b :: c :: l) = (a, b, c) :: triples (b :: c :: l).
Proof. reflexivity. Qed.
Lemma triples_length {X} (l : list X) : length (triples l) = (length l - 2)%nat.
Proof.
  induction l as [|a l IH]; auto. destruct l as [|b [|c l]]; auto. rewrite triples_cons. cbn [length] in *. lia.
Qed.
Lemma triples_map {X Y} (f : X -> Y) l :
  triples (map f l) = map (fun w => (f (fst (fst w)), f (snd (fst w)), f (snd w))) (triples l).
Proof.
  induction l as [|a l IH]; auto. destruct l as [|b [|c l]]; auto. cbn [map] in *. rewrite !triples_cons.
  cbn [map fst snd]. f_equal. exact IH.
Qed.
Lemma triples_end {X} (l : list X) a b c : triples (l ++ [a; b; c]) = triples (l ++ [a; b]) ++ [(a, b, c)].
Proof.
  induction l as [|x l IH]; auto. destruct l as [|y [|z l]]; auto.
  cbn [app] in *. rewrite !triples_cons. cbn [app]. f_equal. exact IH.
Qed.
Lemma triples_rev {X} (l : list X) : triples (rev l) = rev (map (fun w => (snd w, snd (fst w), fst (fst w))) (triples l)).
Proof.
  induction l as [|a l IH]; auto. destruct l as [|b [|c l]]; auto. rewrite triples_cons.
  cbn [rev map fst snd]. rewrite <- IH. cbn [rev]. rewrite <- !app_assoc. cbn [app]. apply triples_end.
Qed.
Lemma quads_cons {X} (a b c d : X) l : quads (a :: b :: c :: d :: l) = (a, b, c, d) :: quads (b :: c :: d :: l).
Proof. reflexivity. Qed.
Lemma quads_length {X} (l : list X) : length (quads l) = (length l - 3)%nat.
Proof.
  induction l as [|a l IH]; auto. destruct l as [|b [|c [|d l]]]; auto. rewrite quads_cons. cbn [length] in *. lia.
Qed.
Lemma quads_map {X Y} (f : X -> Y) l :
  quads (map f l) = map (fun w => (f (fst (fst (fst w))), f (snd (fst (fst w))), f (snd (fst w)), f (snd w))) (quads l).
Proof.
  induction l as [|a l IH]; auto. destruct l as [|b [|c [|d l]]]; auto. cbn [map] in *. rewrite !quads_cons.
  cbn [map fst snd]. f_equal. exact IH.
Qed.
Lemma quads_end {X} (l : list X) a b c d : quads (l ++ [a; b; c; d]) = quads (l ++ [a; b; c]) ++ [(a, b, c, d)].
Proof.
  induction l as [|x l IH]; auto. destruct l as [|y [|z [|w l]]]; auto.
  cbn [app] in *. rewrite !quads_cons. cbn [app]. f_equal. exact IH.
Qed.
Lemma quads_rev {X} (l : list X) :
  quads (rev l) = rev (map (fun w => (snd w, snd (fst w), snd (fst (fst w)), fst (fst (fst w)))) (quads l)).
Proof.
  induction l as [|a l IH]; auto. destruct l as [|b [|c [|d l]]]; auto. rewrite quads_cons.
  cbn [rev map fst snd]. rewrite <- IH. cbn [rev]. rewrite <- !app_assoc. cbn [app]. apply quads_end.
Qed.

(** ** Knots with the values scaled and moved, and knots seen from the other end *)
Definition aff (a b : Qc) (p : Qc * Qc) : Qc * Qc := (fst p, a * snd p + b)%Qc.
Definition turn1 (L : Qc) (p : Qc * Qc) : Qc * Qc := (L - fst p, snd p)%Qc.
Lemma gap_aff a b p q : gap (aff a b p) (aff a b q) = gap p q.
Proof. reflexivity. Qed.
Lemma chord_aff a b p q : chord (aff a b p) (aff a b q) = (a * chord p q)%Qc.
Proof. unfold chord. rewrite gap_aff. num_qc. cbn [aff snd]. unfold Qcdiv. ring. Qed.
Lemma gap_turn L p q : gap (turn1 L q) (turn1 L p) = gap p q.
Proof. unfold gap. num_qc. cbn [turn1 fst]. ring. Qed.
Lemma chord_turn L p q : chord (turn1 L q) (turn1 L p) = ((- (1)) * chord p q)%Qc.
Proof. unfold chord. rewrite gap_turn. num_qc. cbn [turn1 snd]. unfold Qcdiv. ring. Qed.

Lemma opp1 (x : Qc) : (- (1) * x = - x)%Qc. Proof. ring. Qed.

(** The first three and the last three knots. *)
Definition ends (pts : list (Qc * Qc)) p0 p1 p2 r0 r1 r2 : Prop :=
  exists l m, pts = p0 :: p1 :: p2 :: l /\ rev pts = r0 :: r1 :: r2 :: m.
Lemma ends_ex pts : (3 <= length pts)%nat -> exists p0 p1 p2 r0 r1 r2, ends pts p0 p1 p2 r0 r1 r2.
Proof.
  intros H3. pose proof (rev_length pts) as Lr.
  destruct pts as [|p0 [|p1 [|p2 l]]]; cbn [length] in H3; try lia.
  destruct (rev (p0 :: p1 :: p2 :: l)) as [|r0 [|r1 [|r2 m]]] eqn:E; cbn [length] in Lr; try lia.
  exists p0, p1, p2, r0, r1, r2, l, m. auto.
Qed.
Lemma ends_length pts p0 p1 p2 r0 r1 r2 : ends pts p0 p1 p2 r0 r1 r2 -> (3 <= length pts)%nat.
Proof. intros (l & m & -> & _). cbn. lia. Qed.
Lemma ends_map f pts p0 p1 p2 r0 r1 r2 : ends pts p0 p1 p2 r0 r1 r2 ->
  ends (map f pts) (f p0) (f p1) (f p2) (f r0) (f r1) (f r2).
Proof.
  intros (l & m & E1 & E2). exists (map f l), (map f m). split; [rewrite E1; reflexivity|].
  rewrite <- map_rev, E2. reflexivity.
Qed.
Lemma ends_rev pts p0 p1 p2 r0 r1 r2 : ends pts p0 p1 p2 r0 r1 r2 -> ends (rev pts) r0 r1 r2 p0 p1 p2.
Proof. intros (l & m & E1 & E2). exists m, l. split; auto. rewrite rev_involutive. auto. Qed.
Lemma ends_turned L pts p0 p1 p2 r0 r1 r2 : ends pts p0 p1 p2 r0 r1 r2 ->
  ends (turned L pts) (turn1 L r0) (turn1 L r1) (turn1 L r2) (turn1 L p0) (turn1 L p1) (turn1 L p2).
Proof. intros E. apply (ends_map (turn1 L)), ends_rev, E. Qed.

(** A rule with one formula inside and one at either end. *)
Section Local.
Variable slopes : list (Qc * Qc) -> res (list Qc).
Variable e e' : Qc * Qc -> Qc * Qc -> Qc * Qc -> Qc.
Variable f : (Qc * Qc) * (Qc * Qc) * (Qc * Qc) -> Qc.
Hypothesis Hok : forall pts p0 p1 p2 r0 r1 r2, ends pts p0 p1 p2 r0 r1 r2 ->
  slopes pts = Ok (e p0 p1 p2 :: map f (triples pts) ++ [e' r0 r1 r2]).
Hypothesis Hbad : forall pts ds, slopes pts = Ok ds -> (3 <= length pts)%nat.
Hypothesis Ha : forall a b p q r, e (aff a b p) (aff a b q) (aff a b r) = (a * e p q r)%Qc /\
  e' (aff a b p) (aff a b q) (aff a b r) = (a * e' p q r)%Qc /\
  f (aff a b p, aff a b q, aff a b r) = (a * f (p, q, r))%Qc.
Hypothesis Ht : forall L p q r, e (turn1 L p) (turn1 L q) (turn1 L r) = (- e' p q r)%Qc /\
  e' (turn1 L p) (turn1 L q) (turn1 L r) = (- e p q r)%Qc /\
  f (turn1 L r, turn1 L q, turn1 L p) = (- f (p, q, r))%Qc.

Lemma local_rule : rule slopes.
Proof.
  split.
  - intros pts ds E. pose proof (Hbad _ _ E) as H3.
    destruct (ends_ex pts H3) as (p0 & p1 & p2 & r0 & r1 & r2 & HE).
    rewrite (Hok _ _ _ _ _ _ _ HE) in E. injection E as <-.
    cbn [length]. rewrite app_length, map_length, triples_length. cbn [length]. lia.
  - intros pts _ H3. destruct (ends_ex pts) as (p0 & p1 & p2 & r0 & r1 & r2 & HE); [unfold zlen in H3; lia|].
    eexists. apply (Hok _ _ _ _ _ _ _ HE).
  - intros a b pts ds E. destruct (ends_ex pts (Hbad _ _ E)) as (p0 & p1 & p2 & r0 & r1 & r2 & HE).
    rewrite (Hok _ _ _ _ _ _ _ HE) in E. injection E as <-.
    change (fun p : Qc * Qc => (fst p, a * snd p + b)%Qc) with (aff a b).
    rewrite (Hok _ _ _ _ _ _ _ (ends_map (aff a b) _ _ _ _ _ _ _ HE)). f_equal. cbn [map].
    rewrite (proj1 (Ha a b p0 p1 p2)). f_equal. rewrite map_app. cbn [map].
    rewrite (proj1 (proj2 (Ha a b r0 r1 r2))). f_equal.
    rewrite triples_map, !map_map. apply map_ext. intros [[p q] r]. apply (Ha a b p q r).
  - intros L pts ds _ E. destruct (ends_ex pts (Hbad _ _ E)) as (p0 & p1 & p2 & r0 & r1 & r2 & HE).
    rewrite (Hok _ _ _ _ _ _ _ HE) in E. injection E as <-.
    rewrite (Hok _ _ _ _ _ _ _ (ends_turned L _ _ _ _ _ _ _ HE)). f_equal. cbn [map rev].
    rewrite map_app, rev_app_distr. cbn [map rev app].
    rewrite (proj1 (Ht L r0 r1 r2)). f_equal. rewrite (proj1 (proj2 (Ht L p0 p1 p2))). f_equal.
    change (turned L pts) with (map (turn1 L) (rev pts)).
    rewrite triples_map, triples_rev, map_map. rewrite !map_rev, !map_map. f_equal. apply map_ext. intros [[p q] r].
    cbn [fst snd]. apply (Ht L p q r).
Qed.
End Local.

(** ** cubic_hermite *)
Lemma grad3_sym L p q r : grad3 (turn1 L r, turn1 L q, turn1 L p) = (- grad3 (p, q, r))%Qc.
Proof.
  unfold grad3. rewrite !gap_turn, !chord_turn. num_qc. unfold Qcdiv.
  rewrite (Qcplus_comm (gap q r) (gap p q)). ring.
Qed.
Lemma gradient_rule : rule gradient_slopes.
Proof.
  apply (local_rule _ (fun p q _ => chord p q) (fun r0 r1 _ => chord r1 r0) grad3).
  - intros pts p0 p1 p2 r0 r1 r2 (l & m & -> & E2). unfold gradient_slopes. cbv beta iota. rewrite E2. reflexivity.
  - intros pts ds E. destruct pts as [|p0 [|p1 [|p2 l]]]; try discriminate. cbn. lia.
  - intros a b p q r. rewrite !chord_aff. split; auto. split; auto. unfold grad3. rewrite !gap_aff, !chord_aff.
    num_qc. unfold Qcdiv. ring.
  - intros L p q r. rewrite !chord_turn. split; [ring|]. split; [ring|]. apply grad3_sym.
Qed.

(** ** pchip *)
Lemma nsign_pos a m : (0 < a)%Qc -> nsign (a * m)%Qc = nsign m.
Proof.
  intros Hp. unfold nsign. num_qc. destruct (Qc_ltb (Q2Qc 0) m) eqn:E1; qc_bool.
  - replace (Qc_ltb (Q2Qc 0) (a * m)) with true; auto. symmetry. qc_bool. apply Qc_mul_pos; auto.
  - replace (Qc_ltb (Q2Qc 0) (a * m)) with false by (symmetry; qc_bool; qcnra).
    destruct (Qc_ltb m (Q2Qc 0)) eqn:E2; qc_bool.
    + replace (Qc_ltb (a * m) (Q2Qc 0)) with true; auto. symmetry. qc_bool. qcnra.
    + replace (Qc_ltb (a * m) (Q2Qc 0)) with false; auto. symmetry. qc_bool. qcnra.
Qed.
Lemma nsign_opp m : nsign (- m)%Qc = - nsign m.
Proof.
  unfold nsign. num_qc. destruct (Qc_ltb (Q2Qc 0) m) eqn:E1; qc_bool.
  - replace (Qc_ltb (Q2Qc 0) (- m)) with false by (symmetry; qc_bool; qclra).
    replace (Qc_ltb (- m) (Q2Qc 0)) with true by (symmetry; qc_bool; qclra). reflexivity.
  - destruct (Qc_ltb m (Q2Qc 0)) eqn:E2; qc_bool.
    + replace (Qc_ltb (Q2Qc 0) (- m)) with true by (symmetry; qc_bool; qclra). reflexivity.
    + replace (Qc_ltb (Q2Qc 0) (- m)) with false by (symmetry; qc_bool; qclra).
      replace (Qc_ltb (- m) (Q2Qc 0)) with false by (symmetry; qc_bool; qclra). reflexivity.
Qed.
Lemma nsign_zero : nsign 0%Qc = 0. Proof. reflexivity. Qed.
(** Two signs agree before scaling if and only if they do after. *)
Lemma nsign_eq a x y : a <> 0%Qc -> (nsign (a * x)%Qc =? nsign (a * y)%Qc) = (nsign x =? nsign y).
Proof.
  intros Hz. destruct (Qclt_le_dec 0 a) as [Hp|Hn]; [rewrite !nsign_pos; auto|].
  replace a with (- - a)%Qc by ring. assert (Hp : (0 < - a)%Qc) by qclra.
  replace (- - a * x)%Qc with (- (- a * x))%Qc by ring. replace (- - a * y)%Qc with (- (- a * y))%Qc by ring.
  rewrite !nsign_opp, !nsign_pos by auto. lia.
Qed.
Lemma eqb0_scale a x : a <> 0%Qc -> Qc_eqb (a * x) (Q2Qc 0) = Qc_eqb x (Q2Qc 0).
Proof.
  intros Hz. destruct (Qc_eqb x (Q2Qc 0)) eqn:E; qc_bool.
  - subst x. change (Q2Qc 0) with 0%Qc. ring.
  - intros C. apply Qcmult_integral in C as [C|C]; auto.
Qed.
Lemma abs_scale a x : Qc_abs (a * x) = (Qc_abs a * Qc_abs x)%Qc.
Proof.
  unfold Qc_abs. destruct (Qc_ltb a 0) eqn:E1, (Qc_ltb x 0) eqn:E2, (Qc_ltb (a * x) 0) eqn:E3; qc_bool; try ring; qcnra.
Qed.
Lemma abs_pos a : a <> 0%Qc -> (0 < Qc_abs a)%Qc.
Proof. intros Hz. unfold Qc_abs. destruct (Qc_ltb a 0) eqn:E; qc_bool; [qclra|]. qclra. Qed.
Lemma ltb_scale a x y : (0 < a)%Qc -> Qc_ltb (a * x) (a * y) = Qc_ltb x y.
Proof. intros Hp. destruct (Qc_ltb x y) eqn:E; qc_bool; qcnra. Qed.
Lemma inv_inv (a : Qc) : (/ / a = a)%Qc.
Proof. apply Qc_is_canon. unfold Qcinv, Q2Qc. cbn [this]. rewrite !Qred_correct. apply Qinv_involutive. Qed.

Lemma pchip3_core h1 h2 m1 m2 a :
  let f m1 m2 := if negb (nsign m2 =? nsign m1) || Qc_eqb m2 (Q2Qc 0) || Qc_eqb m1 (Q2Qc 0) then Q2Qc 0 else
    let w1 := (Qc_ofZ 2 * h2 + h1)%Qc in let w2 := (h2 + Qc_ofZ 2 * h1)%Qc in (Q2Qc 1 / ((w1 / m1 + w2 / m2) / (w1 + w2)))%Qc in
  f (a * m1)%Qc (a * m2)%Qc = (a * f m1 m2)%Qc.
Proof.
  intros f. unfold f. destruct (Qc_eq_dec a 0) as [->|Hz].
  - replace (0 * m1)%Qc with 0%Qc by ring. replace (0 * m2)%Qc with 0%Qc by ring. change (nsign 0%Qc) with 0. cbn [Z.eqb negb orb].
    change (Qc_eqb 0 (Q2Qc 0)) with true. cbn [orb]. change (Q2Qc 0) with 0%Qc. ring.
  - rewrite nsign_eq, !eqb0_scale by auto. destruct (negb _ || _ || _); [change (Q2Qc 0) with 0%Qc; ring|].
    cbv zeta. unfold Qcdiv. rewrite !Qcinv_mult_distr.
    rewrite (Qcmult_assoc _ (/ a)%Qc), (Qcmult_assoc _ (/ a)%Qc (/ m2)%Qc).
    replace (((Qc_ofZ 2 * h2 + h1) * / a * / m1 + (h2 + Qc_ofZ 2 * h1) * / a * / m2))%Qc
      with (/ a * ((Qc_ofZ 2 * h2 + h1) * / m1 + (h2 + Qc_ofZ 2 * h1) * / m2))%Qc by ring.
    rewrite Qcinv_mult_distr, inv_inv. ring.
Qed.
Lemma pchip3_swap L p q r : pchip3 (turn1 L r, turn1 L q, turn1 L p) = (- pchip3 (p, q, r))%Qc.
Proof.
  unfold pchip3. rewrite !gap_turn, !chord_turn. num_qc.
  rewrite (pchip3_core (gap q r) (gap p q) (chord q r) (chord p q) (- (1))%Qc).
  rewrite (Z.eqb_sym (nsign (chord p q)) (nsign (chord q r))).
  destruct (nsign (chord q r) =? nsign (chord p q)); cbn [negb orb]; [|ring].
  destruct (Qc_eqb (chord p q) (Q2Qc 0)), (Qc_eqb (chord q r) (Q2Qc 0)); cbn [orb]; try ring.
  cbv zeta. set (A := chord p q). set (B := chord q r). set (h := gap p q). set (k := gap q r).
  replace (Qc_ofZ 2 * h + k)%Qc with (k + Qc_ofZ 2 * h)%Qc by ring. replace (h + Qc_ofZ 2 * k)%Qc with (Qc_ofZ 2 * k + h)%Qc by ring.
  rewrite (Qcplus_comm ((k + Qc_ofZ 2 * h) / B)), (Qcplus_comm (k + Qc_ofZ 2 * h)). ring.
Qed.
Lemma pchip_edge_scale h0 h1 m0 m1 a : pchip_edge h0 h1 (a * m0)%Qc (a * m1)%Qc = (a * pchip_edge h0 h1 m0 m1)%Qc.
Proof.
  unfold pchip_edge. num_qc.
  replace (((Qc_ofZ 2 * h0 + h1) * (a * m0) - h0 * (a * m1)) / (h0 + h1))%Qc
    with (a * (((Qc_ofZ 2 * h0 + h1) * m0 - h0 * m1) / (h0 + h1)))%Qc by (unfold Qcdiv; ring).
  set (d := (((Qc_ofZ 2 * h0 + h1) * m0 - h0 * m1) / (h0 + h1))%Qc). destruct (Qc_eq_dec a 0) as [->|Hz].
  - replace (0 * m1)%Qc with 0%Qc by ring. replace (0 * m0)%Qc with 0%Qc by ring. replace (0 * d)%Qc with 0%Qc by ring.
    change (nsign 0%Qc) with 0. cbn [Z.eqb negb andb]. ring.
  - rewrite !nsign_eq by auto. destruct (nsign d =? nsign m0); cbn [negb]; [|change (Q2Qc 0) with 0%Qc; ring].
    rewrite !abs_scale. replace (Qc_ofZ 3 * (Qc_abs a * Qc_abs m0))%Qc with (Qc_abs a * (Qc_ofZ 3 * Qc_abs m0))%Qc by ring.
    rewrite ltb_scale by (apply abs_pos; auto). destruct (negb _ && _); ring.
Qed.
Lemma pchip_rule : rule pchip_slopes.
Proof.
  apply (local_rule _ (fun p0 p1 p2 => pchip_edge (gap p0 p1) (gap p1 p2) (chord p0 p1) (chord p1 p2))
    (fun r0 r1 r2 => pchip_edge (gap r1 r0) (gap r2 r1) (chord r1 r0) (chord r2 r1)) pchip3).
  - intros pts p0 p1 p2 r0 r1 r2 (l & m & -> & E2). unfold pchip_slopes. cbv beta iota. rewrite E2. reflexivity.
  - intros pts ds E. destruct pts as [|p0 [|p1 [|p2 l]]]; try discriminate. cbn. lia.
  - intros a b p q r. rewrite !gap_aff, !chord_aff, !pchip_edge_scale. split; auto. split; auto.
    unfold pchip3. rewrite !gap_aff, !chord_aff. num_qc. apply (pchip3_core (gap p q) (gap q r) (chord p q) (chord q r) a).
  - intros L p q r. rewrite !gap_turn, !chord_turn, !pchip_edge_scale. split; [apply opp1|]. split; [apply opp1|]. apply pchip3_swap.
Qed.

(** ** akima *)
Lemma chords_aff a b pts : chords (map (aff a b) pts) = map (Qcmult a) (chords pts).
Proof.
  induction pts as [|p pts IH]; auto. destruct pts as [|q pts]; auto. cbn [map chords] in *. rewrite IH, chord_aff. reflexivity.
Qed.
Lemma chords_end pts p q : chords (pts ++ [p; q]) = chords (pts ++ [p]) ++ [chord p q].
Proof. induction pts as [|a pts IH]; auto. destruct pts as [|b pts]; auto. cbn [app chords] in *. rewrite IH. reflexivity. Qed.
Lemma chords_turn L pts : chords (turned L pts) = rev (map (Qcmult (- (1))%Qc) (chords pts)).
Proof.
  unfold turned. change (fun p : Qc * Qc => ((L - fst p)%Qc, snd p)) with (turn1 L).
  induction pts as [|p pts IH]; auto. destruct pts as [|q pts]; auto.
  cbn [rev] in *. rewrite !map_app in *. cbn [map] in *. rewrite <- app_assoc. cbn [app]. rewrite chords_end, IH.
  change (chords (p :: q :: pts)) with (chord p q :: chords (q :: pts)). cbn [map rev]. rewrite chord_turn. reflexivity.
Qed.
Lemma chords_length pts : length (chords pts) = (length pts - 1)%nat.
Proof. induction pts as [|p [|q pts] IH]; auto. cbn [chords length] in *. lia. Qed.

Lemma akima_chords_scale a ms : akima_chords (map (Qcmult a) ms) = map (Qcmult a) (akima_chords ms).
Proof.
  destruct ms as [|m2 [|m3 l]]; auto. unfold akima_chords. cbn [map]. cbv beta iota.
  change (rev (a * m2 :: a * m3 :: map (Qcmult a) l))%Qc with (rev (map (Qcmult a) (m2 :: m3 :: l))). rewrite <- map_rev.
  destruct (rev (m2 :: m3 :: l)) as [|k2 [|k3 m]]; auto. cbn [map]. rewrite map_app. cbn [map].
  num_qc. f_equal; [ring|]. f_equal; [ring|].
  change (a * m2 :: a * m3 :: map (Qcmult a) l)%Qc with (map (Qcmult a) (m2 :: m3 :: l)).
  change ((a * m2)%Qc :: (a * m3)%Qc :: map (Qcmult a) l) with (map (Qcmult a) (m2 :: m3 :: l)).
  apply f_equal. f_equal; [ring|]. f_equal. ring.
Qed.
Lemma akima_chords_eq ms m2 m3 l k2 k3 m : ms = m2 :: m3 :: l -> rev ms = k2 :: k3 :: m ->
  akima_chords ms = ((1 + 1) * ((1 + 1) * m2 - m3) - m2 :: (1 + 1) * m2 - m3 ::
    ms ++ [(1 + 1) * k2 - k3; (1 + 1) * ((1 + 1) * k2 - k3) - k2])%Qc.
Proof. intros -> E. unfold akima_chords. cbv beta iota. rewrite E. num_qc. rewrite two_qc. reflexivity. Qed.
Lemma akima_chords_rev ms : akima_chords (rev ms) = rev (akima_chords ms).
Proof.
  pose proof (rev_length ms) as Lr.
  destruct ms as [|m2 [|m3 l]]; [reflexivity|reflexivity|].
  destruct (rev (m2 :: m3 :: l)) as [|k2 [|k3 m]] eqn:E; cbn [length] in Lr; try lia.
  rewrite (akima_chords_eq _ _ _ _ _ _ _ eq_refl E).
  rewrite (akima_chords_eq (k2 :: k3 :: m) k2 k3 m m2 m3 l eq_refl) by (rewrite <- E; apply rev_involutive).
  assert (G : forall (a b c d : Qc) X, rev (a :: b :: X ++ [c; d]) = d :: c :: rev X ++ [b; a]).
  { intros. cbn [rev]. rewrite rev_app_distr. cbn [rev app]. rewrite <- app_assoc. reflexivity. }
  rewrite G, E. reflexivity.
Qed.
Lemma akima_chords_length ms : (2 <= length ms)%nat -> length (akima_chords ms) = (length ms + 4)%nat.
Proof.
  intros H2. unfold akima_chords. pose proof (rev_length ms) as Lr. destruct ms as [|m2 [|m3 l]]; cbn [length] in H2; try lia.
  destruct (rev (m2 :: m3 :: l)) as [|k2 [|k3 m]]; cbn [length] in Lr; try lia.
  cbn [length]. rewrite app_length. cbn [length]. lia.
Qed.

Definition top (l : list Qc) : Qc := fold_left (fun m y => if Qc_ltb m y then y else m) l 0%Qc.
Lemma top_from l : forall m, (m <= fold_left (fun m y => if Qc_ltb m y then y else m) l m)%Qc /\
  (forall x, In x l -> (x <= fold_left (fun m y => if Qc_ltb m y then y else m) l m)%Qc) /\
  (fold_left (fun m y => if Qc_ltb m y then y else m) l m = m \/ In (fold_left (fun m y => if Qc_ltb m y then y else m) l m) l).
Proof.
  induction l as [|y l IH]; intros m; cbn [fold_left]; [split; [apply Qcle_refl|split; [intros x []|auto]]|].
  destruct (IH (if Qc_ltb m y then y else m)) as (H1 & H2 & H3).
  set (R := fold_left _ l _) in *. assert (G : (m <= (if Qc_ltb m y then y else m) /\ y <= (if Qc_ltb m y then y else m))%Qc).
  { destruct (Qc_ltb m y) eqn:E; qc_bool; split; qclra. }
  destruct G as [G1 G2]. split; [eapply Qcle_trans; eauto|]. split.
  - intros x [<-|Hx]; [eapply Qcle_trans; eauto|auto].
  - destruct H3 as [H3|H3]; [|right; right; auto]. destruct (Qc_ltb m y); [right; left; auto|left; auto].
Qed.
Lemma top_same l l' : (forall x, In x l <-> In x l') -> top l = top l'.
Proof.
  intros HE. destruct (top_from l 0%Qc) as (A1 & A2 & A3), (top_from l' 0%Qc) as (B1 & B2 & B3).
  apply Qcle_antisym.
  - change (top l <= top l')%Qc. unfold top at 1. destruct A3 as [->|A3]; auto. apply B2, HE, A3.
  - change (top l' <= top l)%Qc. unfold top at 1. destruct B3 as [->|B3]; auto. apply A2, HE, B3.
Qed.
Lemma top_scale a l : (0 <= a)%Qc -> top (map (Qcmult a) l) = (a * top l)%Qc.
Proof.
  intros Ha. unfold top. replace 0%Qc with (a * 0)%Qc at 1 by ring. generalize 0%Qc. induction l as [|y l IH]; intros m; auto.
  cbn [map fold_left]. rewrite <- IH. f_equal. destruct (Qc_eq_dec a 0) as [->|Hz].
  - replace (0 * m)%Qc with 0%Qc by ring. replace (0 * y)%Qc with 0%Qc by ring.
    replace (0 * (if Qc_ltb m y then y else m))%Qc with 0%Qc by ring. reflexivity.
  - rewrite ltb_scale by qclra. destruct (Qc_ltb m y); reflexivity.
Qed.
Lemma abs_minus x y : Qc_abs (x - y) = Qc_abs (y - x).
Proof. unfold Qc_abs. destruct (Qc_ltb (x - y) 0) eqn:E1, (Qc_ltb (y - x) 0) eqn:E2; qc_bool; try ring; qclra. Qed.

Definition scale4 (a : Qc) (w : Qc * Qc * Qc * Qc) : Qc * Qc * Qc * Qc :=
  (a * fst (fst (fst w)), a * snd (fst (fst w)), a * snd (fst w), a * snd w)%Qc.
Definition swap4 (w : Qc * Qc * Qc * Qc) : Qc * Qc * Qc * Qc := (snd w, snd (fst w), snd (fst (fst w)), fst (fst (fst w))).
Lemma weight_scale a w : akima_weight (scale4 a w) = (Qc_abs a * akima_weight w)%Qc.
Proof.
  destruct w as [[[x y] z] t]. unfold akima_weight, scale4. num_qc. cbn [fst snd].
  replace (a * t - a * z)%Qc with (a * (t - z))%Qc by ring. replace (a * y - a * x)%Qc with (a * (y - x))%Qc by ring.
  rewrite !abs_scale. ring.
Qed.
Lemma weight_swap w : akima_weight (swap4 w) = akima_weight w.
Proof.
  destruct w as [[[x y] z] t]. unfold akima_weight, swap4. num_qc. cbn [fst snd].
  rewrite (abs_minus x y), (abs_minus z t). ring.
Qed.
Lemma half_qc : @nhalf Qc _ = (1 / (1 + 1))%Qc.
Proof. apply Qc_is_canon. reflexivity. Qed.
Lemma akima4_scale a thr w : akima4 (Qc_abs a * thr)%Qc (scale4 a w) = (a * akima4 thr w)%Qc.
Proof.
  destruct w as [[[x y] z] t]. unfold akima4, scale4. cbn [fst snd]. rewrite half_qc. num_qc.
  replace (a * t - a * z)%Qc with (a * (t - z))%Qc by ring. replace (a * y - a * x)%Qc with (a * (y - x))%Qc by ring.
  rewrite !abs_scale. destruct (Qc_eq_dec a 0) as [->|Hz].
  - change (Qc_abs 0) with 0%Qc.
    replace (0 * thr)%Qc with 0%Qc by ring. replace (0 * Qc_abs (t - z) + 0 * Qc_abs (y - x))%Qc with 0%Qc by ring.
    change (Qc_ltb 0 0) with false. cbv iota. destruct (Qc_ltb thr _); ring.
  - pose proof (abs_pos a Hz) as Hp.
    replace (Qc_abs a * Qc_abs (t - z) + Qc_abs a * Qc_abs (y - x))%Qc
      with (Qc_abs a * (Qc_abs (t - z) + Qc_abs (y - x)))%Qc by ring.
    rewrite ltb_scale by auto. destruct (Qc_ltb thr _); [|ring].
    unfold Qcdiv. rewrite Qcinv_mult_distr.
    assert (E : (Qc_abs a * / Qc_abs a = 1)%Qc) by (apply Qcmult_inv_r; intros C; qclra).
    transitivity (a * ((Qc_abs (t - z) * y + Qc_abs (y - x) * z) * / (Qc_abs (t - z) + Qc_abs (y - x))) * (Qc_abs a * / Qc_abs a))%Qc; [ring|].
    rewrite E. ring.
Qed.
Lemma akima4_swap thr w : akima4 thr (swap4 w) = akima4 thr w.
Proof.
  destruct w as [[[x y] z] t]. unfold akima4, swap4. cbn [fst snd]. num_qc.
  rewrite (abs_minus x y), (abs_minus z t). rewrite (Qcplus_comm (Qc_abs (y - x))).
  destruct (Qc_ltb thr _); [|ring]. unfold Qcdiv. ring.
Qed.

Definition akima_of (ws : list (Qc * Qc * Qc * Qc)) : list Qc :=
  map (akima4 (nlit 1 1000000000 * top (map akima_weight ws))%Qc) ws.
Lemma akima_ok pts : (3 <= length pts)%nat -> akima_slopes pts = Ok (akima_of (quads (akima_chords (chords pts)))).
Proof. intros H3. destruct pts as [|p0 [|p1 [|p2 l]]]; cbn [length] in H3; try lia. reflexivity. Qed.
Lemma akima_of_scale a ws : akima_of (map (scale4 a) ws) = map (Qcmult a) (akima_of ws).
Proof.
  unfold akima_of. rewrite !map_map.
  assert (E : top (map (fun w => akima_weight (scale4 a w)) ws) = (Qc_abs a * top (map akima_weight ws))%Qc).
  { rewrite <- top_scale by apply Qc_abs_nonneg. rewrite map_map. f_equal. apply map_ext, weight_scale. }
  rewrite E. apply map_ext. intros w. rewrite <- akima4_scale. f_equal. ring.
Qed.
Lemma akima_of_rev ws : akima_of (rev (map swap4 ws)) = rev (akima_of ws).
Proof.
  unfold akima_of. rewrite !map_rev, map_map. rewrite <- map_rev.
  assert (E : top (rev (map (fun w => akima_weight (swap4 w)) ws)) = top (map akima_weight ws)).
  { apply top_same. intros x. rewrite <- in_rev. rewrite (map_ext _ _ weight_swap). tauto. }
  rewrite !map_map. rewrite E. rewrite map_rev. f_equal. apply map_ext. intros w. apply akima4_swap.
Qed.
Lemma akima_rule : rule akima_slopes.
Proof.
  assert (H3 : forall pts ds, akima_slopes pts = Ok ds -> (3 <= length pts)%nat).
  { intros pts ds E. destruct pts as [|p0 [|p1 [|p2 l]]]; try discriminate. cbn. lia. }
  split.
  - intros pts ds E. pose proof (H3 _ _ E) as H. rewrite akima_ok in E by auto. injection E as <-.
    unfold akima_of. rewrite map_length, quads_length, akima_chords_length, chords_length; [lia|].
    rewrite chords_length. lia.
  - intros pts _ H. eexists. apply akima_ok. unfold zlen in H. lia.
  - intros a b pts ds E. pose proof (H3 _ _ E) as H. rewrite akima_ok in E by auto. injection E as <-.
    change (fun p : Qc * Qc => (fst p, a * snd p + b)%Qc) with (aff a b).
    rewrite akima_ok by (rewrite map_length; auto). f_equal.
    rewrite chords_aff, akima_chords_scale, quads_map. apply akima_of_scale.
  - intros L pts ds _ E. pose proof (H3 _ _ E) as H. rewrite akima_ok in E by auto. injection E as <-.
    rewrite akima_ok by (unfold turned; rewrite map_length, rev_length; auto). f_equal.
    rewrite chords_turn, akima_chords_rev, akima_chords_scale, quads_rev, quads_map.
    change (fun w : Qc * Qc * Qc * Qc => (snd w, snd (fst w), snd (fst (fst w)), fst (fst (fst w)))) with swap4.
    rewrite akima_of_rev. f_equal.
    rewrite (map_ext Qcopp (Qcmult (- (1))%Qc)) by (intros; ring). rewrite <- akima_of_scale. reflexivity.
Qed.
