(** * SplineProofs: the three-point cubic spline (splines.py:5-43) in exact arithmetic. *)
From Verif Require Import PyFacts QcFacts Spline Spec EmdExact.
From Coq Require Import QArith Qcanon Qcabs.
Open Scope Z_scope.

Lemma ofZ2 : Qc_ofZ 2 = (1 + 1)%Qc. Proof. apply Qc_is_canon. reflexivity. Qed.
Lemma ofZ3 : Qc_ofZ 3 = (1 + 1 + 1)%Qc. Proof. apply Qc_is_canon. reflexivity. Qed.

Lemma solve3_spec (m11 m12 m13 m21 m22 m23 m31 m32 m33 v1 v2 v3 k0 k1 k2 : Qc) :
  solve3 m11 m12 m13 m21 m22 m23 m31 m32 m33 v1 v2 v3 = Ok (k0, k1, k2) ->
  (m11 * k0 + m12 * k1 + m13 * k2 = v1 /\ m21 * k0 + m22 * k1 + m23 * k2 = v2 /\
   m31 * k0 + m32 * k1 + m33 * k2 = v3)%Qc.
Proof.
  unfold solve3, is0. cbv zeta. destruct (neqb _ _) eqn:E; [discriminate|].
  num_qc. apply Qc_eqb_neq in E. intros H. injection H as <- <- <-.
  unfold det3 in *. num_qc. repeat split; field; exact E.
Qed.

Definition spline_poly (xa w ya yb a b : Qc) : list Qc :=
  let c0 := ya in let c1 := ((yb - ya + a) / w)%Qc in
  let c2 := ((b - (1 + 1) * a) / (w * w))%Qc in let c3 := ((a - b) / (w * w * w))%Qc in
  [(c0 - c1 * xa + c2 * xa * xa - c3 * xa * xa * xa)%Qc;
   (c1 - (1 + 1) * c2 * xa + (1 + 1 + 1) * c3 * xa * xa)%Qc; (c2 - (1 + 1 + 1) * c3 * xa)%Qc; c3].

Lemma spline_piece_poly xa w ya yb a b u : w <> 0%Qc ->
  spline_piece xa w ya yb a b u = peval (spline_poly xa w ya yb a b) u.
Proof. intros Hw. unfold spline_piece, spline_poly, peval. num_qc. simpl fold_right. field. exact Hw. Qed.

Lemma spline3_natural x0 x1 x2 y0 y1 y2 a1 b1 a2 b2 :
  (x0 < x1)%Qc -> (x1 < x2)%Qc ->
  spline3_coeffs x0 x1 x2 y0 y1 y2 = Ok (a1, b1, a2, b2) ->
  natural_spline x0 x1 x2 y0 y1 y2 (spline_poly x0 (x1 - x0) y0 y1 a1 b1)%Qc
                                   (spline_poly x1 (x2 - x1) y1 y2 a2 b2)%Qc.
Proof.
  intros H1 H2. unfold spline3_coeffs. cbv zeta. destruct (_ || _); [discriminate|].
  intros E. apply bind_ok in E as ([[k0 k1] k2] & E & E').
  injection E' as <- <- <- <-. apply solve3_spec in E as (E1 & E2 & E3). num_qc.
  rewrite ?ofZ2, ?ofZ3 in *.
  assert (N1 : (x1 - x0)%Qc <> 0%Qc) by (intros E; qclra).
  assert (N2 : (x2 - x1)%Qc <> 0%Qc) by (intros E; qclra).
  set (h := (x1 - x0)%Qc) in *. set (g := (x2 - x1)%Qc) in *.
  assert (X1 : x1 = (x0 + h)%Qc) by (unfold h; ring).
  assert (X2 : x2 = (x0 + h + g)%Qc) by (unfold g, h; ring).
  clearbody h g. subst x1 x2.
  assert (K1 : k1 = ((1 + 1 + 1) * (y1 - y0) / h - (1 + 1) * k0)%Qc).
  { transitivity (((1 + 1) * (1 / h) * k0 + 1 / h * k1 + 0 * k2) * h - (1 + 1) * k0)%Qc; [field; auto|].
    change (Q2Qc 0) with 0%Qc in E1. change (Q2Qc 1) with 1%Qc in E1. rewrite E1. field. auto. }
  assert (K2 : k1 = ((1 + 1 + 1) * (y2 - y1) / g - (1 + 1) * k2)%Qc).
  { transitivity ((0 * k0 + 1 / g * k1 + (1 + 1) * (1 / g) * k2) * g - (1 + 1) * k2)%Qc; [field; auto|].
    change (Q2Qc 0) with 0%Qc in E3. change (Q2Qc 1) with 1%Qc in E3. rewrite E3. field. auto. }
  unfold natural_spline, spline_poly. cbv zeta.
  split; [simpl; lia|]. split; [simpl; lia|].
  unfold peval, pderiv. cbn [tl pderiv_from fold_right].
  split; [field; auto|]. split; [field; auto|]. split; [field; auto|]. split; [field; auto|].
  split; [field; auto|].
  split; [|split].
  - change (Q2Qc 0) with 0%Qc in E2. change (Q2Qc 1) with 1%Qc in E2.
    transitivity (((1 + 1) * (k0 + (1 + 1) * k1) / h - (1 + 1) * (1 + 1 + 1) * (y1 - y0) / (h * h)))%Qc;
      [field; auto|].
    transitivity ((1 + 1) * (1 + 1 + 1) * (y2 - y1) / (g * g) - (1 + 1) * ((1 + 1) * k1 + k2) / g)%Qc;
      [|field; auto].
    apply (f_equal (fun z => z * (1 + 1))%Qc) in E2.
    apply (f_equal (fun z => z - (1 + 1) * ((1 + 1) * k1 + k2) / g - (1 + 1) * (1 + 1 + 1) * (y1 - y0) / (h * h))%Qc) in E2.
    etransitivity; [|etransitivity; [exact E2|]]; field; auto.
  - rewrite K1. field. auto.
  - transitivity (((1 + 1) * (k1 + (1 + 1) * k2) / g - (1 + 1) * (1 + 1 + 1) * (y2 - y1) / (g * g)))%Qc; [field; auto|].
    rewrite K2. field. auto.
Qed.

(** The system is never singular. *)
Lemma spline3_total x0 x1 x2 y0 y1 y2 : (x0 < x1)%Qc -> (x1 < x2)%Qc ->
  exists r, spline3_coeffs x0 x1 x2 y0 y1 y2 = Ok r.
Proof.
  intros H1 H2. unfold spline3_coeffs. cbv zeta. unfold is0, solve3, is0. num_qc.
  assert (N1 : (0 < x1 - x0)%Qc) by qclra. assert (N2 : (0 < x2 - x1)%Qc) by qclra.
  set (h := (x1 - x0)%Qc) in *. set (g := (x2 - x1)%Qc) in *. clearbody h g.
  assert (M1 : h <> 0%Qc) by (intros ->; discriminate). assert (M2 : g <> 0%Qc) by (intros ->; discriminate).
  rewrite (proj2 (Qc_eqb_neq h (Q2Qc 0))), (proj2 (Qc_eqb_neq g (Q2Qc 0))) by auto. cbn [orb].
  match goal with |- context [Qc_eqb ?d (Q2Qc 0)] => assert (D : d <> 0%Qc) end.
  { unfold det3. num_qc. rewrite !ofZ2. change (Q2Qc 0) with 0%Qc. change (Q2Qc 1) with 1%Qc.
    pose proof (Qcinv_pos _ N1) as P1. pose proof (Qcinv_pos _ N2) as P2.
    match goal with |- ?d <> _ =>
      let z := constr:((/ h * / g * (/ h + / g))%Qc) in
      replace d with (z + z + z + z + z + z)%Qc by (field; auto) end.
    set (a := (/ h)%Qc) in *. set (b := (/ g)%Qc) in *. clearbody a b.
    pose proof (Qc_mul_pos _ _ P1 P2) as P3. assert (P4 : (0 < a + b)%Qc) by qclra.
    pose proof (Qc_mul_pos _ _ P3 P4) as P5. set (z := (a * b * (a + b))%Qc) in *. clearbody z.
    intros E. qclra. }
  rewrite (proj2 (Qc_eqb_neq _ _) D). cbn [bind]. eexists. reflexivity.
Qed.

(** ** Evaluation instants *)
Lemma filter_split (P Q R : Qc -> bool) l :
  (forall u, In u l -> P u = (Q u || R u)%bool) -> (forall u, In u l -> Q u = true -> R u = false) ->
  length (filter P l) = (length (filter Q l) + length (filter R l))%nat.
Proof.
  induction l as [|u l IH]; simpl; auto. intros H1 H2.
  rewrite H1 by auto. specialize (H2 u (or_introl eq_refl)) as H2u.
  rewrite <- ?IH by (intros; auto). destruct (Q u) eqn:EQ.
  - rewrite H2u by auto. simpl. f_equal. apply IH; auto.
  - destruct (R u); simpl; rewrite IH by auto; lia.
Qed.

Lemma increasing_tl x l : increasing (x :: l) -> increasing l.
Proof. intros Hl i Hi. apply (Hl (Datatypes.S i)). simpl. lia. Qed.
Lemma increasing_head x l y : increasing (x :: l) -> In y l -> (x < y)%Qc.
Proof.
  revert x. induction l as [|z l IH]; intros x Hl Hy; [destruct Hy|].
  assert (x < z)%Qc by (apply (Hl O); simpl; lia).
  destruct Hy as [<-|Hy]; auto. apply Qclt_trans with z; auto. apply IH; auto. eapply increasing_tl; eauto.
Qed.

Lemma filter_none {X} (P : X -> bool) l : (forall x, In x l -> P x = false) -> filter P l = [].
Proof. induction l as [|x l IH]; simpl; auto. intros Hl. rewrite Hl by auto. apply IH. auto. Qed.
Lemma filter_split_sorted x0 x1 x2 l : (x0 < x1)%Qc -> (x1 < x2)%Qc -> increasing l ->
  filter (fun u => Qc_leb x0 u && Qc_leb u x2) l =
  filter (fun u => Qc_leb x0 u && Qc_ltb u x1) l ++ filter (fun u => Qc_leb x1 u && Qc_leb u x2) l.
Proof.
  intros H1 H2. induction l as [|u l IH]; intros Hl; auto. simpl.
  rewrite IH by (eapply increasing_tl; eauto).
  destruct (Qc_leb x0 u) eqn:A; destruct (Qc_leb u x2) eqn:B;
  destruct (Qc_ltb u x1) eqn:C; destruct (Qc_leb x1 u) eqn:D; simpl; auto;
  try (exfalso; qclra).
  assert (E : filter (fun u0 => Qc_leb x0 u0 && Qc_ltb u0 x1) l = []).
  { apply filter_none. intros v Hv. pose proof (increasing_head _ _ _ Hl Hv).
    apply andb_false_intro2. qclra. }
  rewrite E. reflexivity.
Qed.

(** The number of values equals the number of instants. *)
Lemma cubic3_length x0 y0 x1 y1 x2 y2 T : (x0 < x1)%Qc -> (x1 < x2)%Qc ->
  exists t q, cubic_spline_3pts [(x0, y0); (x1, y1); (x2, y2)] T = Ok (t, q) /\
    t = filter (fun u => Qc_leb x0 u && Qc_leb u x2) T /\ length q = length t.
Proof.
  intros H1 H2. cbn [cubic_spline_3pts]. destruct (spline3_total x0 x1 x2 y0 y1 y2 H1 H2) as ([[[a1 b1] a2] b2] & E).
  rewrite E. cbn [bind]. eexists _, _. split; [reflexivity|]. split; [reflexivity|].
  rewrite app_length, !map_length. symmetry. num_qc. apply filter_split.
  - intros u _. destruct (Qc_leb x0 u) eqn:A; destruct (Qc_leb u x2) eqn:B;
    destruct (Qc_ltb u x1) eqn:C; destruct (Qc_leb x1 u) eqn:D; simpl; auto; exfalso; qclra.
  - intros u _ Hu. apply andb_prop in Hu as [_ Hu]. destruct (Qc_leb x1 u) eqn:D; auto. exfalso. qclra.
Qed.

Lemma cubic3_spec x0 y0 x1 y1 x2 y2 T : (x0 < x1)%Qc -> (x1 < x2)%Qc -> increasing T ->
  exists p q v, natural_spline x0 x1 x2 y0 y1 y2 p q /\
    cubic_spline_3pts [(x0, y0); (x1, y1); (x2, y2)] T =
      Ok (filter (fun u => Qc_leb x0 u && Qc_leb u x2) T, v) /\
    v = map (fun u => if Qc_ltb u x1 then peval p u else peval q u)
            (filter (fun u => Qc_leb x0 u && Qc_leb u x2) T).
Proof.
  intros H1 H2 HT. destruct (spline3_total x0 x1 x2 y0 y1 y2 H1 H2) as ([[[a1 b1] a2] b2] & E).
  pose proof (spline3_natural _ _ _ _ _ _ _ _ _ _ H1 H2 E) as HN.
  assert (N1 : (x1 - x0)%Qc <> 0%Qc) by (intros E0; qclra).
  assert (N2 : (x2 - x1)%Qc <> 0%Qc) by (intros E0; qclra).
  eexists _, _, _. split; [exact HN|]. cbn [cubic_spline_3pts]. rewrite E. cbn [bind]. num_qc.
  split; [reflexivity|]. rewrite (filter_split_sorted x0 x1 x2 T H1 H2 HT). rewrite map_app. f_equal.
  - apply map_ext_in. intros u Hu. apply filter_In in Hu as [_ Hu]. apply andb_prop in Hu as [_ Hu].
    rewrite Hu. apply spline_piece_poly. auto.
  - apply map_ext_in. intros u Hu. apply filter_In in Hu as [_ Hu]. apply andb_prop in Hu as [Hu _].
    rewrite (proj2 (Qc_ltb_ge u x1)) by (apply Qc_leb_le; auto). apply spline_piece_poly. auto.
Qed.

(** The natural spline is unique. *)
Lemma peval4 p : (length p <= 4)%nat -> exists a b c d, forall u,
  (peval p u = a + b * u + c * u * u + d * u * u * u /\
  peval (pderiv p) u = b + (1 + 1) * c * u + (1 + 1 + 1) * d * u * u /\
  peval (pderiv (pderiv p)) u = (1 + 1) * c + (1 + 1) * (1 + 1 + 1) * d * u)%Qc.
Proof.
  intros Hl. exists (nth 0 p 0%Qc), (nth 1 p 0%Qc), (nth 2 p 0%Qc), (nth 3 p 0%Qc). intros u.
  destruct p as [|a [|b [|c [|d [|e p]]]]]; simpl in Hl; try lia;
  unfold peval, pderiv; cbn [tl pderiv_from fold_right nth]; repeat split; ring.
Qed.

Lemma Qc_cancel h x : h <> 0%Qc -> (h * x = 0)%Qc -> x = 0%Qc.
Proof. intros Hh E. apply Qcmult_integral in E as [E|E]; auto. contradiction. Qed.

Lemma natural_unique x0 x1 x2 y0 y1 y2 p q p' q' : (x0 < x1)%Qc -> (x1 < x2)%Qc ->
  natural_spline x0 x1 x2 y0 y1 y2 p q -> natural_spline x0 x1 x2 y0 y1 y2 p' q' ->
  forall u, peval p u = peval p' u /\ peval q u = peval q' u.
Proof.
  intros H1 H2 (L1 & L2 & E1 & E2 & E3 & E4 & E5 & E6 & E7 & E8)
    (L1' & L2' & F1 & F2 & F3 & F4 & F5 & F6 & F7 & F8) u.
  destruct (peval4 p L1) as (a0 & a1 & a2 & a3 & P).
  destruct (peval4 q L2) as (b0 & b1 & b2 & b3 & Q).
  destruct (peval4 p' L1') as (c0 & c1 & c2 & c3 & P').
  destruct (peval4 q' L2') as (d0 & d1 & d2 & d3 & Q').
  repeat match goal with
  | H : context [peval (pderiv (pderiv p)) ?x] |- _ => rewrite (proj2 (proj2 (P x))) in H
  | H : context [peval (pderiv (pderiv q)) ?x] |- _ => rewrite (proj2 (proj2 (Q x))) in H
  | H : context [peval (pderiv (pderiv p')) ?x] |- _ => rewrite (proj2 (proj2 (P' x))) in H
  | H : context [peval (pderiv (pderiv q')) ?x] |- _ => rewrite (proj2 (proj2 (Q' x))) in H
  | H : peval (pderiv p) ?x = _ |- _ => rewrite (proj1 (proj2 (P x))) in H
  | H : _ = peval (pderiv q) ?x |- _ => rewrite (proj1 (proj2 (Q x))) in H
  | H : peval (pderiv p') ?x = _ |- _ => rewrite (proj1 (proj2 (P' x))) in H
  | H : _ = peval (pderiv q') ?x |- _ => rewrite (proj1 (proj2 (Q' x))) in H
  | H : peval p ?x = _ |- _ => rewrite (proj1 (P x)) in H
  | H : peval q ?x = _ |- _ => rewrite (proj1 (Q x)) in H
  | H : peval p' ?x = _ |- _ => rewrite (proj1 (P' x)) in H
  | H : peval q' ?x = _ |- _ => rewrite (proj1 (Q' x)) in H
  end.
  rewrite (proj1 (P u)), (proj1 (Q u)), (proj1 (P' u)), (proj1 (Q' u)). clear P Q P' Q'.
  set (A0 := (a0 - c0)%Qc). set (A1 := (a1 - c1)%Qc). set (A2 := (a2 - c2)%Qc). set (A3 := (a3 - c3)%Qc).
  set (B0 := (b0 - d0)%Qc). set (B1 := (b1 - d1)%Qc). set (B2 := (b2 - d2)%Qc). set (B3 := (b3 - d3)%Qc).
  assert (G : forall a b c d : Qc, a = c -> b = d -> (a - b = c - d)%Qc) by (intros; subst; auto).
  pose proof (G _ _ _ _ E1 F1) as K1. pose proof (G _ _ _ _ E2 F2) as K2.
  pose proof (G _ _ _ _ E3 F3) as K3. pose proof (G _ _ _ _ E4 F4) as K4.
  pose proof (G _ _ _ _ E5 F5) as K5. pose proof (G _ _ _ _ E6 F6) as K6.
  pose proof (G _ _ _ _ E7 F7) as K7. pose proof (G _ _ _ _ E8 F8) as K8.
  assert (J1 : (A0 + A1 * x0 + A2 * x0 * x0 + A3 * x0 * x0 * x0 = 0)%Qc)
    by (transitivity (y0 - y0)%Qc; [rewrite <- K1; unfold A0, A1, A2, A3; ring|ring]).
  assert (J2 : (A0 + A1 * x1 + A2 * x1 * x1 + A3 * x1 * x1 * x1 = 0)%Qc)
    by (transitivity (y1 - y1)%Qc; [rewrite <- K2; unfold A0, A1, A2, A3; ring|ring]).
  assert (J3 : (B0 + B1 * x1 + B2 * x1 * x1 + B3 * x1 * x1 * x1 = 0)%Qc)
    by (transitivity (y1 - y1)%Qc; [rewrite <- K3; unfold B0, B1, B2, B3; ring|ring]).
  assert (J4 : (B0 + B1 * x2 + B2 * x2 * x2 + B3 * x2 * x2 * x2 = 0)%Qc)
    by (transitivity (y2 - y2)%Qc; [rewrite <- K4; unfold B0, B1, B2, B3; ring|ring]).
  assert (J5 : (A1 + (1 + 1) * A2 * x1 + (1 + 1 + 1) * A3 * x1 * x1 =
                B1 + (1 + 1) * B2 * x1 + (1 + 1 + 1) * B3 * x1 * x1)%Qc).
  { match type of K5 with ?l = ?r => transitivity l; [unfold A1, A2, A3; ring|rewrite K5; unfold B1, B2, B3; ring] end. }
  assert (J6 : ((1 + 1) * A2 + (1 + 1) * (1 + 1 + 1) * A3 * x1 =
                (1 + 1) * B2 + (1 + 1) * (1 + 1 + 1) * B3 * x1)%Qc).
  { match type of K6 with ?l = ?r => transitivity l; [unfold A2, A3; ring|rewrite K6; unfold B2, B3; ring] end. }
  assert (J7 : ((1 + 1) * A2 + (1 + 1) * (1 + 1 + 1) * A3 * x0 = 0)%Qc).
  { match type of K7 with ?l = ?r => transitivity l; [unfold A2, A3; ring|rewrite K7; ring] end. }
  assert (J8 : ((1 + 1) * B2 + (1 + 1) * (1 + 1 + 1) * B3 * x2 = 0)%Qc).
  { match type of K8 with ?l = ?r => transitivity l; [unfold B2, B3; ring|rewrite K8; ring] end. }
  assert (Two : (1 + 1)%Qc <> 0%Qc) by discriminate.
  assert (S1 : A2 = (- ((1 + 1 + 1) * A3 * x0))%Qc).
  { assert (X : (A2 + (1 + 1 + 1) * A3 * x0 = 0)%Qc) by (apply (Qc_cancel _ _ Two); rewrite <- J7; ring).
    transitivity (A2 + (1 + 1 + 1) * A3 * x0 - (1 + 1 + 1) * A3 * x0)%Qc; [ring|rewrite X; ring]. }
  assert (S2 : B2 = (- ((1 + 1 + 1) * B3 * x2))%Qc).
  { assert (X : (B2 + (1 + 1 + 1) * B3 * x2 = 0)%Qc) by (apply (Qc_cancel _ _ Two); rewrite <- J8; ring).
    transitivity (B2 + (1 + 1 + 1) * B3 * x2 - (1 + 1 + 1) * B3 * x2)%Qc; [ring|rewrite X; ring]. }
  assert (N1 : (x1 - x0)%Qc <> 0%Qc) by (intros E; qclra).
  assert (N2 : (x2 - x1)%Qc <> 0%Qc) by (intros E; qclra).
  assert (S3 : A1 = (- (A2 * (x1 + x0) + A3 * (x1 * x1 + x1 * x0 + x0 * x0)))%Qc).
  { assert (X : (A1 + (A2 * (x1 + x0) + A3 * (x1 * x1 + x1 * x0 + x0 * x0)) = 0)%Qc).
    { apply (Qc_cancel _ _ N1). transitivity (0 - 0)%Qc; [|ring]. rewrite <- J2 at 1. rewrite <- J1. ring. }
    match type of X with ?l = _ => transitivity (l - (A2 * (x1 + x0) + A3 * (x1 * x1 + x1 * x0 + x0 * x0)))%Qc end; [ring|rewrite X; ring]. }
  assert (S4 : B1 = (- (B2 * (x1 + x2) + B3 * (x1 * x1 + x1 * x2 + x2 * x2)))%Qc).
  { assert (X : (B1 + (B2 * (x1 + x2) + B3 * (x1 * x1 + x1 * x2 + x2 * x2)) = 0)%Qc).
    { apply (Qc_cancel _ _ N2). transitivity (0 - 0)%Qc; [|ring]. rewrite <- J4 at 1. rewrite <- J3. ring. }
    match type of X with ?l = _ => transitivity (l - (B2 * (x1 + x2) + B3 * (x1 * x1 + x1 * x2 + x2 * x2)))%Qc end; [ring|rewrite X; ring]. }
  assert (T1 : (A3 * (x1 - x0) + B3 * (x2 - x1) = 0)%Qc).
  { apply (Qc_cancel _ _ Two). apply (Qc_cancel (1 + 1 + 1)%Qc); [discriminate|].
    rewrite S1, S2 in J6. match type of J6 with ?l = ?r => transitivity (l - r)%Qc end; [ring|rewrite J6; ring]. }
  assert (T2 : (A3 * (x1 - x0) * (x1 - x0) - B3 * (x2 - x1) * (x2 - x1) = 0)%Qc).
  { apply (Qc_cancel _ _ Two). rewrite S3, S4, S1, S2 in J5.
    match type of J5 with ?l = ?r => transitivity (l - r)%Qc end; [ring|rewrite J5; ring]. }
  assert (ZB3 : B3 = 0%Qc).
  { assert (N3 : (x2 - x0)%Qc <> 0%Qc) by (intros E; qclra).
    apply (Qc_cancel _ _ N2), (Qc_cancel _ _ N3).
    transitivity ((A3 * (x1 - x0) + B3 * (x2 - x1)) * (x1 - x0) -
       (A3 * (x1 - x0) * (x1 - x0) - B3 * (x2 - x1) * (x2 - x1)))%Qc; [ring|rewrite T1, T2; ring]. }
  assert (ZA3 : A3 = 0%Qc).
  { apply (Qc_cancel _ _ N1). rewrite ZB3 in T1. rewrite <- T1. ring. }
  rewrite ZA3 in *. rewrite ZB3 in *.
  assert (ZA2 : A2 = 0%Qc) by (rewrite S1; ring). assert (ZB2 : B2 = 0%Qc) by (rewrite S2; ring).
  rewrite ZA2 in *. rewrite ZB2 in *.
  assert (ZA1 : A1 = 0%Qc) by (rewrite S3; ring). assert (ZB1 : B1 = 0%Qc) by (rewrite S4; ring).
  rewrite ZA1 in *. rewrite ZB1 in *.
  assert (ZA0 : A0 = 0%Qc) by (rewrite <- J1; ring). assert (ZB0 : B0 = 0%Qc) by (rewrite <- J3; ring).
  assert (X : forall a c : Qc, (a - c = 0)%Qc -> a = c)
    by (intros a c E; transitivity (a - c + c)%Qc; [ring|rewrite E; ring]).
  rewrite (X _ _ ZA0), (X _ _ ZA1), (X _ _ ZA2), (X _ _ ZA3), (X _ _ ZB0), (X _ _ ZB1), (X _ _ ZB2), (X _ _ ZB3).
  auto.
Qed.
