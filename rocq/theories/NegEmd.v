(** * NegEmd: the decomposition of the negated signal, for every symmetric arithmetic (lemmas). *)
From Verif Require Import PyFacts Emd Spec Runs EmdProofs EmdSym NegGen.
From Coq Require Import ZifyBool ZifyNat.
From Coq Require Import List.
Import ListNotations.
Open Scope Z_scope.

Section Neg.
Context {A : Type} `{Num A}.
Variable ng : A -> A -> Prop.
Hypothesis L : symmetric ng.
Notation F2 := (Forall2 ng).
Definition ngp (p q : A * A) : Prop := fst q = fst p /\ ng (snd p) (snd q).
Notation P2 := (Forall2 ngp).

(** ** Boundary points *)
Lemma left_ng nb S S' M m x y c : F2 S S' -> hd_error M <> hd_error m -> left_bound nb S M m = Ok (x, y, c) -> left_bound nb S' m M = Ok (y, x, c).
Proof.
  unfold left_bound. cbv zeta. intros HS Hd E.
  apply bind_ok in E as (M0 & E1 & E). apply bind_ok in E as (m0 & E2 & E). apply bind_ok in E as (S0 & E3 & E).
  assert (Hne : M0 <> m0).
  { intros ->. apply Hd. destruct M, m; try discriminate. unfold py_get in E1, E2. cbn in E1, E2. cbn. congruence. }
  rewrite E2. cbn [bind]. rewrite E1. cbn [bind]. destruct (get_rel ng _ _ _ _ HS E3) as (S0' & -> & H0). cbn [bind].
  destruct (Z.ltb_spec M0 m0) as [X|X]; destruct (Z.ltb_spec m0 M0) as [X'|X']; try lia;
    apply bind_ok in E as (v & E4 & E); destruct (get_rel ng _ _ _ _ HS E4) as (v' & -> & Hv); cbn [bind].
  - rewrite (s_ltb _ L S0 S0' v v') by auto. destruct (nltb v S0); apply ok_inv in E; injection E as -> -> ->; reflexivity.
  - rewrite (s_ltb _ L v v' S0 S0') by auto. destruct (nltb S0 v); apply ok_inv in E; injection E as -> -> ->; reflexivity.
Qed.
Lemma right_ng nb S S' M m x y c : F2 S S' -> hd_error (rev M) <> hd_error (rev m) -> right_bound nb S M m = Ok (x, y, c) -> right_bound nb S' m M = Ok (y, x, c).
Proof.
  unfold right_bound. cbv zeta. intros HS Hd E. rewrite (F2_zlen _ _ _ HS).
  apply bind_ok in E as (M0 & E1 & E). apply bind_ok in E as (m0 & E2 & E). apply bind_ok in E as (S0 & E3 & E).
  assert (Hne : M0 <> m0) by (intros ->; apply Hd; apply py_get_last_rev in E1, E2; congruence).
  rewrite E2. cbn [bind]. rewrite E1. cbn [bind]. destruct (get_rel ng _ _ _ _ HS E3) as (S0' & -> & H0). cbn [bind].
  destruct (Z.ltb_spec M0 m0) as [X|X]; destruct (Z.ltb_spec m0 M0) as [X'|X']; try lia;
    apply bind_ok in E as (v & E4 & E); destruct (get_rel ng _ _ _ _ HS E4) as (v' & -> & Hv); cbn [bind].
  - rewrite (s_ltb _ L v v' S0 S0') by auto. destruct (nltb S0 v); apply ok_inv in E; injection E as -> -> ->; reflexivity.
  - rewrite (s_ltb _ L S0 S0' v v') by auto. destruct (nltb v S0); apply ok_inv in E; injection E as -> -> ->; reflexivity.
Qed.
Lemma mirror_len' (T : list A) c idx t : mirror T c idx = Ok t -> length t = length idx.
Proof.
  unfold mirror. intros E. apply bind_ok in E as (x & _ & E). apply bind_ok in E as (ts & E1 & E).
  apply ok_inv in E. subst t. rewrite map_length. exact (mapM_ok_length _ _ _ E1).
Qed.
Lemma mirror_left_swap' nb (T : list A) M m lmax lmin c M0 m0 t1 l1 t2 l2 :
  py_get M 0 = Ok M0 -> py_get m 0 = Ok m0 -> M0 <> m0 -> c = M0 \/ c = m0 \/ c = 0 ->
  lmax <> [] -> lmin <> [] ->
  mirror_left nb T M m lmax lmin c = Ok (t1, l1, t2, l2) ->
  mirror_left nb T m M lmin lmax c = Ok (t2, l2, t1, l1).
Proof.
  intros EM Em Hne Hc H1 H2. unfold mirror_left. cbv zeta. intros E.
  apply bind_ok in E as (tn & E1 & E). apply bind_ok in E as (tx & E2 & E). apply bind_ok in E as (t0 & E3 & E).
  apply bind_ok in E as (hn & E4 & E). apply bind_ok in E as (bad & E5 & E).
  rewrite E2. cbn [bind]. rewrite E1. cbn [bind]. rewrite E3. cbn [bind].
  assert (Ex : exists hx, py_get tx 0 = Ok hx).
  { apply (get0_ok tx (length lmax)); [apply (mirror_len' _ _ _ _ E2)|]. destruct lmax; [congruence|cbn; lia]. }
  destruct Ex as (hx & Ex). rewrite Ex, E4 in *. cbn [bind] in *.
  assert (Hb : bad = nltb t0 hn || nltb t0 hx) by (destruct (nltb t0 hn); apply ok_inv in E5; auto).
  assert (Hb' : (if nltb t0 hx then Ok true else Ok (nltb t0 hn)) = Ok bad)
    by (rewrite Hb; destruct (nltb t0 hx); [rewrite orb_true_r|rewrite orb_false_r]; reflexivity).
  rewrite Hb'. cbn [bind]. clear Hb Hb' E5. destruct bad.
  - rewrite Em. rewrite EM in E. cbn [bind] in *. destruct (Z.eqb_spec c 0) as [Z0|Z0]; [discriminate|].
    assert (EE : (c =? m0) = negb (c =? M0)) by lia. rewrite EE. destruct (c =? M0); cbn [negb];
      apply bind_ok in E as (x & F1 & E); apply bind_ok in E as (y & F2 & E); rewrite F2; cbn [bind]; rewrite F1;
      cbn [bind]; apply ok_inv in E; injection E as <- <- <- <-; reflexivity.
  - apply ok_inv in E. injection E as <- <- <- <-. reflexivity.
Qed.
Lemma mirror_right_swap' nb (T : list A) n M m rmax rmin c M0 m0 t1 l1 t2 l2 :
  py_get M (-1) = Ok M0 -> py_get m (-1) = Ok m0 -> M0 <> m0 -> c = M0 \/ c = m0 \/ c = n - 1 ->
  rmax <> [] -> rmin <> [] ->
  mirror_right nb T n M m rmax rmin c = Ok (t1, l1, t2, l2) ->
  mirror_right nb T n m M rmin rmax c = Ok (t2, l2, t1, l1).
Proof.
  intros EM Em Hne Hc H1 H2. unfold mirror_right. cbv zeta. intros E.
  apply bind_ok in E as (tn & E1 & E). apply bind_ok in E as (tx & E2 & E). apply bind_ok in E as (t0 & E3 & E).
  apply bind_ok in E as (hn & E4 & E). apply bind_ok in E as (bad & E5 & E).
  rewrite E2. cbn [bind]. rewrite E1. cbn [bind]. rewrite E3. cbn [bind].
  assert (Ex : exists hx, py_get tx (-1) = Ok hx).
  { apply (getl_ok tx (length rmax)); [apply (mirror_len' _ _ _ _ E2)|]. destruct rmax; [congruence|cbn; lia]. }
  destruct Ex as (hx & Ex). rewrite Ex, E4 in *. cbn [bind] in *.
  assert (Hb : bad = nltb hn t0 || nltb hx t0) by (destruct (nltb hn t0); apply ok_inv in E5; auto).
  assert (Hb' : (if nltb hx t0 then Ok true else Ok (nltb hn t0)) = Ok bad)
    by (rewrite Hb; destruct (nltb hx t0); [rewrite orb_true_r|rewrite orb_false_r]; reflexivity).
  rewrite Hb'. cbn [bind]. clear Hb Hb' E5. destruct bad.
  - rewrite Em. rewrite EM in E. cbn [bind] in *. destruct (Z.eqb_spec c (n - 1)) as [Z0|Z0]; [discriminate|].
    assert (EE : (c =? m0) = negb (c =? M0)) by lia. rewrite EE. destruct (c =? M0); cbn [negb];
      apply bind_ok in E as (x & F1 & E); apply bind_ok in E as (y & F2 & E); rewrite F2; cbn [bind]; rewrite F1;
      cbn [bind]; apply ok_inv in E; injection E as <- <- <- <-; reflexivity.
  - apply ok_inv in E. injection E as <- <- <- <-. reflexivity.
Qed.
Lemma left_sym' nb (S : list A) M m x y c M0 m0 : py_get M 0 = Ok M0 -> py_get m 0 = Ok m0 ->
  left_bound nb S M m = Ok (x, y, c) -> c = M0 \/ c = m0 \/ c = 0.
Proof.
  unfold left_bound. cbv zeta. intros -> ->. cbn [bind]. intros E. apply bind_ok in E as (s & _ & E).
  destruct (_ <? _); apply bind_ok in E as (v & _ & E); destruct (nltb _ _); apply ok_inv in E; injection E as _ _ <-; auto.
Qed.
Lemma right_sym' nb (S : list A) M m x y c M0 m0 : py_get M (-1) = Ok M0 -> py_get m (-1) = Ok m0 ->
  right_bound nb S M m = Ok (x, y, c) -> c = M0 \/ c = m0 \/ c = zlen S - 1.
Proof.
  unfold right_bound. cbv zeta. intros -> ->. cbn [bind]. intros E. apply bind_ok in E as (s & _ & E).
  destruct (_ <? _); apply bind_ok in E as (v & _ & E); destruct (nltb _ _); apply ok_inv in E; injection E as _ _ <-; auto.
Qed.
Lemma combine_ng (t v v' : list A) : F2 v v' -> P2 (combine t v) (combine t v').
Proof. intros HF. revert t. induction HF; intros [|a t]; cbn; constructor; auto. split; auto. Qed.
Lemma assemble_ng T S S' tl l ind tr r P : F2 S S' -> assemble T S tl l ind tr r = Ok P -> exists P', assemble T S' tl l ind tr r = Ok P' /\ P2 P P'.
Proof.
  intros HS. unfold assemble. intros E. apply bind_ok in E as (zl & E1 & E). apply bind_ok in E as (zr & E2 & E).
  apply bind_ok in E as (t & E3 & E). apply bind_ok in E as (z & E4 & E).
  destruct (take_rel ng _ _ _ _ HS E1) as (zl' & -> & R1). destruct (take_rel ng _ _ _ _ HS E2) as (zr' & -> & R2).
  destruct (take_rel ng _ _ _ _ HS E4) as (z' & -> & R4). rewrite E3. cbn [bind]. apply ok_inv in E. subst P.
  eexists. split; [reflexivity|]. apply combine_ng. repeat apply Forall2_app; auto.
Qed.
Lemma dedupe_ng P P' : P2 P P' -> P2 (dedupe P) (dedupe P').
Proof.
  induction 1 as [|p p' P P' Hp HP IH]; [constructor|]. destruct HP as [|q q' P P' Hq HP]; [constructor; auto|].
  change (dedupe (p :: q :: P)) with (if neqb (fst q) (fst p) then dedupe (q :: P) else p :: dedupe (q :: P)).
  change (dedupe (p' :: q' :: P')) with (if neqb (fst q') (fst p') then dedupe (q' :: P') else p' :: dedupe (q' :: P')).
  rewrite (proj1 Hp), (proj1 Hq). destruct (neqb _ _); auto.
Qed.
Lemma prepare_ng nb T S S' e e' P Q : F2 S S' -> swapped ng e e' ->
  hd_error (map ntrunc (max_pos e)) <> hd_error (map ntrunc (min_pos e)) ->
  hd_error (rev (map ntrunc (max_pos e))) <> hd_error (rev (map ntrunc (min_pos e))) ->
  prepare_points_simple nb T S e = Ok (P, Q) ->
  exists P' Q', prepare_points_simple nb T S' e' = Ok (Q', P') /\ P2 P P' /\ P2 Q Q'.
Proof.
  intros HS (Es1 & Es2 & _). unfold prepare_points_simple. cbv zeta. intros H1 H2 E. rewrite Es1, Es2, (F2_zlen _ _ _ HS).
  set (M := map ntrunc (max_pos e)) in *. set (m := map ntrunc (min_pos e)) in *. clearbody M m.
  apply bind_ok in E as ([[lx ln] cl] & E1 & E). apply bind_ok in E as ([[rx rn] cr] & E2 & E).
  assert (G1 : exists M0 m0, py_get M 0 = Ok M0 /\ py_get m 0 = Ok m0).
  { unfold left_bound in E1. apply bind_ok in E1 as (M0 & F1 & E1). apply bind_ok in E1 as (m0 & F2 & E1). eauto. }
  assert (G2 : exists M0 m0, py_get M (-1) = Ok M0 /\ py_get m (-1) = Ok m0).
  { unfold right_bound in E2. apply bind_ok in E2 as (M0 & F1 & E2). apply bind_ok in E2 as (m0 & F2 & E2). eauto. }
  destruct G1 as (M0 & m0 & F1 & F2). destruct G2 as (Ml & ml & F3 & F4).
  assert (N1 : M0 <> m0).
  { intros ->. apply H1. destruct M, m; try discriminate. unfold py_get in F1, F2. cbn in F1, F2. cbn. congruence. }
  assert (N2 : Ml <> ml) by (intros ->; apply H2; apply py_get_last_rev in F3, F4; congruence).
  assert (HM : M <> []) by (intros ->; discriminate). assert (Hm : m <> []) by (intros ->; discriminate).
  pose proof (left_sym' _ _ _ _ _ _ _ _ _ F1 F2 E1) as C1. pose proof (right_sym' _ _ _ _ _ _ _ _ _ F3 F4 E2) as C2.
  rewrite (left_ng _ _ _ _ _ _ _ _ HS H1 E1). cbn [bind]. rewrite (right_ng _ _ _ _ _ _ _ _ HS H2 E2). cbn [bind].
  apply bind_ok in E as ([[[t1 l1] t2] l2] & E3 & E). apply bind_ok in E as ([[[t3 l3] t4] l4] & E4 & E).
  apply bind_ok in E as (mx & E5 & E). apply bind_ok in E as (mn & E6 & E).
  destruct (assemble_ng _ _ _ _ _ _ _ _ _ HS E5) as (mx' & E5' & R5). destruct (assemble_ng _ _ _ _ _ _ _ _ _ HS E6) as (mn' & E6' & R6).
  apply ok_inv in E. apply pair_inv in E as [-> ->].
  rewrite (mirror_left_swap' _ _ _ _ _ _ _ _ _ _ _ _ _ F1 F2 N1 C1 (or_default_ne _ _ HM) (or_default_ne _ _ Hm) E3). cbn [bind].
  rewrite (mirror_right_swap' _ _ _ _ _ _ _ _ _ _ _ _ _ _ F3 F4 N2 C2 (or_default_ne _ _ HM) (or_default_ne _ _ Hm) E4). cbn [bind].
  rewrite E6'. cbn [bind]. rewrite E5'. cbn [bind]. do 2 eexists. split; [reflexivity|]. split; apply dedupe_ng; auto.
Qed.

(** ** Envelopes *)
(** An interpolation routine that answers negated values with negated values. *)
Definition odd_spline (spl : spline_oracle A) : Prop :=
  forall kind pts pts' t v, P2 pts pts' -> spl kind pts t = Ok v -> exists v', spl kind pts' t = Ok v' /\ F2 v v'.


Ltac ngc := repeat first [ assumption | apply (s_add _ L) | apply (s_sub _ L) | apply (s_mull _ L) | apply (s_mulr _ L) | apply (s_div _ L) | apply (s_opp _ L) ].

Lemma solve_ng m11 m12 m13 m21 m22 m23 m31 m32 m33 v1 v2 v3 v1' v2' v3' k0 k1 k2 : ng v1 v1' -> ng v2 v2' -> ng v3 v3' ->
  solve3 m11 m12 m13 m21 m22 m23 m31 m32 m33 v1 v2 v3 = Ok (k0, k1, k2) ->
  exists k0' k1' k2', solve3 m11 m12 m13 m21 m22 m23 m31 m32 m33 v1' v2' v3' = Ok (k0', k1', k2') /\ ng k0 k0' /\ ng k1 k1' /\ ng k2 k2'.
Proof.
  intros H1 H2 H3. unfold solve3. cbv zeta. destruct (is0 _); [discriminate|]. intros E. apply ok_inv in E. injection E as -> -> ->.
  do 3 eexists. split; [reflexivity|]. unfold det3. repeat split; ngc.
Qed.
Lemma coeffs_ng x0 x1 x2 y0 y1 y2 y0' y1' y2' a1 b1 a2 b2 : ng y0 y0' -> ng y1 y1' -> ng y2 y2' ->
  spline3_coeffs x0 x1 x2 y0 y1 y2 = Ok (a1, b1, a2, b2) ->
  exists a1' b1' a2' b2', spline3_coeffs x0 x1 x2 y0' y1' y2' = Ok (a1', b1', a2', b2') /\ ng a1 a1' /\ ng b1 b1' /\ ng a2 a2' /\ ng b2 b2'.
Proof.
  intros H0 H1 H2. unfold spline3_coeffs. cbv zeta. destruct (_ || _); [discriminate|]. intros E.
  apply bind_ok in E as ([[k0 k1] k2] & E1 & E).
  eapply solve_ng in E1 as (k0' & k1' & k2' & E1' & K0 & K1 & K2); [rewrite E1'; cbn [bind]|..].
  - apply ok_inv in E. injection E as -> -> -> ->. do 4 eexists. split; [reflexivity|]. repeat split; ngc.
  - ngc.
  - ngc.
  - ngc.
Qed.
Lemma piece_ng xa w ya yb a b u ya' yb' a' b' : ng ya ya' -> ng yb yb' -> ng a a' -> ng b b' -> ng (spline_piece xa w ya yb a b u) (spline_piece xa w ya' yb' a' b' u).
Proof. intros. unfold spline_piece. cbv zeta. ngc. Qed.
Lemma F2_map_fun {X} (f g : X -> A) l : (forall x, ng (f x) (g x)) -> F2 (map f l) (map g l).
Proof. intros HF. induction l; cbn; constructor; auto. Qed.
Lemma cubic3_ng P P' T t v : P2 P P' -> cubic_spline_3pts P T = Ok (t, v) -> exists v', cubic_spline_3pts P' T = Ok (t, v') /\ F2 v v'.
Proof.
  intros HP. destruct HP as [|[x0 y0] [x0' y0'] P P' [X0 Y0] HP]; [discriminate|].
  destruct HP as [|[x1 y1] [x1' y1'] P P' [X1 Y1] HP]; [discriminate|].
  destruct HP as [|[x2 y2] [x2' y2'] P P' [X2 Y2] HP]; [discriminate|].
  destruct HP; [|discriminate]. cbn [fst snd] in *. subst x0' x1' x2'. cbn [cubic_spline_3pts]. intros E.
  apply bind_ok in E as ([[[a1 b1] a2] b2] & E1 & E).
  eapply coeffs_ng in E1 as (a1' & b1' & a2' & b2' & E1 & C1 & C2 & C3 & C4); [rewrite E1; cbn [bind]|eassumption..].
  apply ok_inv in E. injection E as -> ->. eexists. split; [reflexivity|].
  apply Forall2_app; apply F2_map_fun; intros u; apply piece_ng; auto.
Qed.
Lemma window_ng T P P' t : P2 P P' -> time_window T P = Ok t -> time_window T P' = Ok t.
Proof.
  intros HP. unfold time_window. intros E. apply bind_ok in E as (p & E1 & E). apply bind_ok in E as (q & E2 & E).
  destruct (get_rel ngp _ _ _ _ HP E1) as (p' & -> & [R1 _]). destruct (get_rel ngp _ _ _ _ HP E2) as (q' & -> & [R2 _]). cbn [bind].
  rewrite R1, R2. exact E.
Qed.
Lemma spline_ng spl kind T P P' v : odd_spline spl -> P2 P P' -> spline_points spl kind T P = Ok v -> exists v', spline_points spl kind T P' = Ok v' /\ F2 v v'.
Proof.
  intros Hs HP. unfold spline_points. intros E. apply bind_ok in E as (t & E1 & E). rewrite (window_ng _ _ _ _ HP E1). cbn [bind].
  destruct (parse_kind kind) as [[]|]; try (eapply Hs; eauto); [|discriminate]. rewrite (F2_zlen _ _ _ HP).
  destruct (3 <? zlen P); [eapply Hs; eauto|]. apply bind_ok in E as ([u w] & E2 & E).
  destruct (cubic3_ng _ _ _ _ _ HP E2) as (w' & -> & R). cbn [bind]. apply ok_inv in E. subst v. eauto.
Qed.

(** ** One sift *)
Variable spl : spline_oracle A.
Hypothesis Hs : odd_spline spl.
Variable c : emd_config A.
Hypothesis Hd : extrema_detection c = Simple.
Variable T : list A.
Hypothesis HT : apart_times T.

Lemma extract_ng S S' M m P Q : F2 S S' -> extract_max_min_spline spl c T S = Ok (M, m, P, Q) ->
  exists M' m' P' Q', extract_max_min_spline spl c T S' = Ok (m', M', Q', P') /\ F2 M M' /\ F2 m m' /\ P2 P P' /\ P2 Q Q'.
Proof.
  intros HS. unfold extract_max_min_spline. rewrite Hd. intros E. apply bind_ok in E as (e & E1 & E).
  destruct (find_ng ng L _ _ _ _ HS E1) as (e' & E1' & Hsw). rewrite E1'. cbn [bind].
  pose proof (swapped_no ng _ _ Hsw) as Hn. unfold ext_no in Hn. rewrite Hn.
  destruct (Z.ltb_spec (zlen (max_pos e) + zlen (min_pos e)) 3) as [|H3]; [discriminate|].
  destruct (heads_apart ng L _ _ _ HT E1 ltac:(unfold ext_no; lia)) as [N1 N2].
  apply bind_ok in E as ([P0 Q0] & E2 & E). cbn [prepare_points] in *.
  destruct (prepare_ng _ _ _ _ _ _ _ _ HS Hsw N1 N2 E2) as (P0' & Q0' & -> & RP & RQ). cbn [bind].
  apply bind_ok in E as (u & E3 & E). apply bind_ok in E as (v & E4 & E). apply ok_inv in E. injection E as -> -> -> ->.
  destruct (spline_ng _ _ _ _ _ _ Hs RP E3) as (u' & E3' & R3). destruct (spline_ng _ _ _ _ _ _ Hs RQ E4) as (v' & E4' & R4).
  rewrite E4'. cbn [bind]. rewrite E3'. cbn [bind]. do 4 eexists. split; [reflexivity|]. auto.
Qed.
Lemma broadcast_ng M M' m m' s : F2 M M' -> F2 m m' -> broadcast2 nadd M m = Ok s -> exists s', broadcast2 nadd m' M' = Ok s' /\ F2 s s'.
Proof.
  intros HM Hm. unfold broadcast2. rewrite (F2_length _ _ _ HM), (F2_length _ _ _ Hm), (Nat.eqb_sym (length m)).
  destruct (Nat.eqb_spec (length M) (length m)) as [EL|EL].
  - intros E. apply ok_inv in E. subst s. eexists. split; [reflexivity|]. rewrite (map2_comm nadd (s_comm _ L)).
    apply (map2_rel ng ng); auto. intros. apply (s_add _ L); auto.
  - assert (G : forall x x' l l', ng x x' -> F2 l l' -> F2 (map (nadd x) l) (map (fun y => nadd y x') l')).
    { intros. apply (map_rel ng ng); auto. intros. rewrite (s_comm _ L b). apply (s_add _ L); auto. }
    assert (G' : forall x x' l l', ng x x' -> F2 l l' -> F2 (map (fun y => nadd y x) l) (map (nadd x') l')).
    { intros. apply (map_rel ng ng); auto. intros. rewrite (s_comm _ L x'). apply (s_add _ L); auto. }
    destruct HM as [|x x' M M' Hx [|x2 x2' M2 M2' Hx2 HM]].
    + destruct Hm as [|y y' m m' Hy [|y2 y2' m2 m2' Hy2 Hm]]; cbn in EL; try discriminate; try lia.
      intros E. apply ok_inv in E. subst s. eexists. split; [reflexivity|]. constructor.
    + destruct Hm as [|y y' m m' Hy [|y2 y2' m2 m2' Hy2 Hm]]; cbn in EL; try lia.
      * intros E. apply ok_inv in E. subst s. eexists. split; [reflexivity|]. constructor.
      * intros E. apply ok_inv in E. subst s. eexists. split; [reflexivity|]. apply G; auto.
    + destruct Hm as [|y y' m m' Hy [|y2 y2' m2 m2' Hy2 Hm]]; try discriminate.
      intros E. apply ok_inv in E. subst s. eexists. split; [reflexivity|]. apply G'; auto.
Qed.
Lemma assign_ng n s s' t : F2 s s' -> assign_all n s = Ok t -> exists t', assign_all n s' = Ok t' /\ F2 t t'.
Proof.
  intros HS. unfold assign_all. rewrite (F2_length _ _ _ HS). destruct (Nat.eqb _ _).
  - intros E. apply ok_inv in E. subst t. eauto.
  - destruct HS as [|x x' s s' Hx [|]]; try discriminate. intros E. apply ok_inv in E. subst t. eexists. split; [reflexivity|].
    induction n; cbn; constructor; auto.
Qed.
Lemma vsub_ng x x' y y' : F2 x x' -> F2 y y' -> F2 (vsub x y) (vsub x' y').
Proof. intros. apply (map2_rel ng ng); auto. intros. apply (s_sub _ L); auto. Qed.
Lemma vadd_ng x x' y y' : F2 x x' -> F2 y y' -> F2 (vadd x y) (vadd x' y').
Proof. intros. apply (map2_rel ng ng); auto. intros. apply (s_add _ L); auto. Qed.
Lemma zeros_ng n : F2 (vzeros n) (vzeros n).
Proof. unfold vzeros. induction n; cbn; constructor; auto. apply (s_zero _ L). Qed.
Lemma sum_rows_ng n M M' : Forall2 (Forall2 ng) M M' -> F2 (sum_rows n M) (sum_rows n M').
Proof.
  unfold sum_rows. intros HM. pose proof (zeros_ng n) as HZ. revert HZ. generalize (@vzeros A _ n) at 1 3. generalize (@vzeros A _ n).
  induction HM; intros z z' HZ; cbn [fold_left]; auto. apply IHHM. apply vadd_ng; auto.
Qed.
Lemma step_ng S S' x P Q : F2 S S' -> sift_step spl c T S = Ok (x, P, Q) ->
  exists x' P' Q', sift_step spl c T S' = Ok (x', Q', P') /\ F2 x x' /\ P2 P P' /\ P2 Q Q'.
Proof.
  intros HS. unfold sift_step. intros E. apply bind_ok in E as ([[[M m] P0] Q0] & E1 & E).
  destruct (extract_ng _ _ _ _ _ _ HS E1) as (M' & m' & P' & Q' & -> & RM & Rm & RP & RQ). cbn [bind]. rewrite (F2_length _ _ _ HS).
  apply bind_ok in E as (s & E2 & E). apply bind_ok in E as (mean & E3 & E). apply ok_inv in E. injection E as -> -> ->.
  destruct (broadcast_ng _ _ _ _ _ RM Rm E2) as (s' & -> & Rs). cbn [bind].
  destruct (assign_ng _ _ (map (nmul nhalf) s') _ (map_rel ng ng _ _ _ _ Rs (fun a b => s_mull _ L nhalf a b)) E3) as (mean' & -> & Rm'). cbn [bind].
  do 3 eexists. split; [reflexivity|]. split; [apply vsub_ng; auto|auto].
Qed.
(** The range. *)
Lemma find_nan_ng S S' : F2 S S' -> match find not_a_number S, find not_a_number S' with None, None => True | Some x, Some x' => ng x x' | _, _ => False end.
Proof. induction 1 as [|x x' S S' Hx HS IH]; cbn; auto. rewrite (s_nan _ L x x' Hx). destruct (not_a_number x); auto. Qed.
Lemma range_ng S S' mx mn : F2 S S' -> np_max S = Ok mx -> np_min S = Ok mn -> exists mx' mn', np_max S' = Ok mx' /\ np_min S' = Ok mn' /\ ng mx mn' /\ ng mn mx'.
Proof.
  intros HS. pose proof (find_nan_ng _ _ HS) as HN. destruct HS as [|x x' S S' Hx HS]; [discriminate|]. unfold np_max, np_min.
  destruct (find _ (x :: S)) as [v|], (find _ (x' :: S')) as [v'|]; try contradiction; intros E1 E2; apply ok_inv in E1, E2; subst; do 2 eexists; do 2 (split; [reflexivity|]); auto.
  clear HN. split.
  - revert x x' Hx. induction HS as [|y y' S S' Hy HS IH]; intros x x' Hx; cbn [fold_left]; auto. apply IH.
    rewrite (s_ltb _ L y y' x x') by auto. destruct (nltb x y); auto.
  - revert x x' Hx. induction HS as [|y y' S S' Hy HS IH]; intros x x' Hx; cbn [fold_left]; auto. apply IH.
    rewrite (s_ltb _ L x x' y y') by auto. destruct (nltb y x); auto.
Qed.
Lemma existsb_rel {X Y} (R : X -> Y -> Prop) f g l l' : Forall2 R l l' -> (forall a b, R a b -> g b = f a) -> existsb g l' = existsb f l.
Proof. intros HF Hfg. induction HF; cbn; f_equal; auto. Qed.
Lemma check_ng x x' y y' P P' Q Q' b : F2 x x' -> F2 y y' -> P2 P P' -> P2 Q Q' -> check_imf c x y P Q = Ok b -> check_imf c x' y' Q' P' = Ok b.
Proof.
  intros Hx Hy HP HQ. unfold check_imf. cbv zeta.
  rewrite (existsb_rel ngp (fun p => nltb n0 (snd p)) (fun p => nltb (snd p) n0) _ _ HQ) by (intros p q [_ R]; apply (neg0 ng L); auto).
  rewrite (existsb_rel ngp (fun p => nltb (snd p) n0) (fun p => nltb n0 (snd p)) _ _ HP) by (intros p q [_ R]; apply (neg0 ng L); auto).
  rewrite orb_comm. destruct (_ || _); auto.
  assert (SQ : forall u u', F2 u u' -> map (fun z => nmul z z) u' = map (fun z => nmul z z) u).
  { intros u u' Hu. apply (map_same ng); auto. intros. apply (s_sq _ L). auto. }
  rewrite (SQ x x' Hx), (SQ y y' Hy), (SQ (vsub x y) (vsub x' y')) by (apply vsub_ng; auto).
  destruct (nltb _ _); auto. intros E. apply bind_ok in E as (mx & E1 & E). apply bind_ok in E as (mn & E2 & E).
  destruct (range_ng _ _ _ _ Hy E1 E2) as (mx' & mn' & -> & -> & R1 & R2). cbn [bind].
  destruct (s_swap _ L mx mx' mn mn' R1 R2) as (_ & Z & EQ). rewrite Z.
  rewrite (existsb_rel ng is0 is0 _ _ Hx) by (intros; apply (s_is0 _ L); auto).
  rewrite (map2_same ng (fun d x => nmul (ndiv d x) (ndiv d x)) (fun d x => nmul (ndiv d x) (ndiv d x)) (vsub x y) (vsub x' y') x x')
    by (try apply vsub_ng; auto; intros; apply (s_ratio _ L); auto).
  destruct (is0 (nsub mx mn)) eqn:E0; cbn [negb andb] in *; [exact E|]. rewrite EQ by auto. exact E.
Qed.
Lemma end_ng S S' I I' b : F2 S S' -> Forall2 (Forall2 ng) I I' -> end_condition c S I = Ok b -> end_condition c S' I' = Ok b.
Proof.
  intros HS HI. unfold end_condition. cbv zeta. rewrite (F2_length _ _ _ HS).
  assert (R : F2 (vsub S (sum_rows (length S) I)) (vsub S' (sum_rows (length S) I'))) by (apply vsub_ng; auto; apply sum_rows_ng; auto).
  intros E. apply bind_ok in E as (mx & E1 & E). apply bind_ok in E as (mn & E2 & E).
  destruct (range_ng _ _ _ _ R E1 E2) as (mx' & mn' & -> & -> & R1 & R2). cbn [bind].
  destruct (s_swap _ L mx mx' mn mn' R1 R2) as (-> & _).
  rewrite (map_same ng nabs nabs _ _ R) by (intros; apply (s_abs _ L); auto). exact E.
Qed.
Lemma find_no S S' e : F2 S S' -> find_extrema Simple T S = Ok e -> exists e', find_extrema Simple T S' = Ok e' /\ ext_no e' = ext_no e /\ indzer e' = indzer e.
Proof.
  intros HS E. destruct (find_ng ng L _ _ _ _ HS E) as (e' & E' & Hsw). exists e'. split; auto. split; [apply (swapped_no ng); auto|]. destruct Hsw. tauto.
Qed.
Lemma sift_ng fuel n nh ext x x' y ext' fin : F2 x x' -> sift spl fuel c T n nh ext x = Ok (y, ext', fin) ->
  exists y', sift spl fuel c T n nh ext x' = Ok (y', ext', fin) /\ F2 y y'.
Proof.
  revert n nh ext x x'. induction fuel as [|fuel IH]; intros n nh ext x x' Hx; [discriminate|]. cbn [sift]. cbv zeta.
  assert (DONE : forall (a a' : list A) e f, F2 a a' -> Ok (a, e, f) = Ok (y, ext', fin) -> exists y', Ok (a', e, f) = Ok (y', ext', fin) /\ F2 y y').
  { intros a a' e f Ha E. apply ok_inv in E. injection E as -> -> ->. eauto. }
  destruct (MAX_ITERATION c <=? n + 1); [apply DONE; auto|]. rewrite Hd. intros E. apply bind_ok in E as (e & E1 & E).
  destruct (find_no _ _ _ Hx E1) as (e' & -> & N & Z). cbn [bind]. rewrite N.
  destruct (2 <? ext_no e); [|revert E; apply DONE; auto].
  apply bind_ok in E as ([[x1 P] Q] & E2 & E). destruct (step_ng _ _ _ _ _ Hx E2) as (x1' & P' & Q' & -> & R1 & RP & RQ). cbn [bind].
  destruct (negb (FIXE c =? 0)).
  { destruct (FIXE c <=? n + 1); [revert E; apply DONE; auto|]. eapply IH; eauto. }
  destruct (negb (FIXE_H c =? 0)).
  { apply bind_ok in E as (e2 & E3 & E). destruct (find_no _ _ _ R1 E3) as (e2' & -> & N2 & Z2). cbn [bind]. rewrite N2, Z2.
    destruct (n + 1 =? 1); [eapply IH; eauto|]. destruct (FIXE_H c <=? _); [revert E; apply DONE; auto|]. eapply IH; eauto. }
  apply bind_ok in E as (e2 & E3 & E). destruct (find_no _ _ _ R1 E3) as (e2' & -> & N2 & Z2). cbn [bind]. rewrite N2, Z2.
  apply bind_ok in E as (f1 & E4 & E). rewrite (check_ng _ _ _ _ _ _ _ _ _ R1 Hx RP RQ E4). cbn [bind].
  destruct (f1 && _); [revert E; apply DONE; auto|]. eapply IH; eauto.
Qed.
Lemma loop_ng fuel S S' k I I' ext J ext' : F2 S S' -> Forall2 (Forall2 ng) I I' -> emd_loop spl fuel c S T k I ext = Ok (J, ext') ->
  exists J', emd_loop spl fuel c S' T k I' ext = Ok (J', ext') /\ Forall2 (Forall2 ng) J J'.
Proof.
  revert I I' ext. induction fuel as [|fuel IH]; intros I I' ext HS HI; [discriminate|]. cbn [emd_loop]. cbv zeta. rewrite (F2_length _ _ _ HS).
  intros E. apply bind_ok in E as ([[imf e1] fin] & E1 & E).
  destruct (sift_ng _ _ _ _ _ (vsub S' (sum_rows (length S) I')) _ _ _ (vsub_ng _ _ _ _ HS (sum_rows_ng _ _ _ HI)) E1) as (imf' & -> & RI). cbn [bind].
  assert (HI' : Forall2 (Forall2 ng) (I ++ [imf]) (I' ++ [imf'])) by (apply Forall2_app; auto).
  apply bind_ok in E as (stop & E2 & E). rewrite (end_ng _ _ _ _ _ HS HI' E2). cbn [bind]. rewrite (F2_zlen _ _ _ HI').
  destruct (stop || _). { apply ok_inv in E. injection E as -> ->. eauto. }
  destruct fin. { apply ok_inv in E. injection E as -> ->. eauto. }
  eapply IH; eauto.
Qed.
Lemma removelast_rel {X Y} (R : X -> Y -> Prop) l l' : Forall2 R l l' -> Forall2 R (removelast l) (removelast l').
Proof. induction 1 as [|x y l l' Hx HF IH]; cbn; [constructor|]. destruct HF; [constructor|]. constructor; auto. Qed.
Lemma allclose_ng r r' : F2 r r' -> allclose0 r' = allclose0 r.
Proof. unfold allclose0. induction 1 as [|x x' r r' Hx HF IH]; cbn [forallb]; auto. rewrite IH, (s_abs _ L _ _ Hx). reflexivity. Qed.
Lemma finish_ng S S' I I' ext : F2 S S' -> Forall2 (Forall2 ng) I I' ->
  Forall2 (Forall2 ng) (out (emd_finish S I ext)) (out (emd_finish S' I' ext)) /\
  Forall2 (Forall2 ng) (imfs (emd_finish S I ext)) (imfs (emd_finish S' I' ext)) /\
  F2 (residue (emd_finish S I ext)) (residue (emd_finish S' I' ext)).
Proof.
  intros HS HI. unfold emd_finish. cbv zeta. cbn [out imfs residue]. rewrite (F2_length _ _ _ HS).
  set (K := if ext <=? 2 then removelast I else I). set (K' := if ext <=? 2 then removelast I' else I').
  assert (HK : Forall2 (Forall2 ng) K K') by (unfold K, K'; destruct (ext <=? 2); auto; apply removelast_rel; auto). clearbody K K'.
  assert (HR : F2 (vsub S (sum_rows (length S) K)) (vsub S' (sum_rows (length S) K'))) by (apply vsub_ng; auto; apply sum_rows_ng; auto).
  rewrite (allclose_ng _ _ HR). repeat split; auto. destruct (allclose0 _); auto. apply Forall2_app; auto.
Qed.
End Neg.

Lemma emd_ng {A} `{Num A} (ng : A -> A -> Prop) (L : symmetric ng) spl c fuel S S' T k o :
  odd_spline ng spl -> extrema_detection c = Simple ->
  (forall t, emd_time c S T = Ok t -> apart_times t) ->
  Forall2 ng S S' -> emd spl fuel c S T k = Ok o ->
  exists o', emd spl fuel c S' T k = Ok o' /\ Forall2 (Forall2 ng) (out o) (out o') /\ Forall2 (Forall2 ng) (imfs o) (imfs o') /\ Forall2 ng (residue o) (residue o').
Proof.
  intros Hs Hd HT HS. unfold emd. intros E. apply bind_ok in E as (t & E1 & E).
  assert (E1' : emd_time c S' T = Ok t) by (unfold emd_time in *; rewrite (F2_length _ _ _ HS); exact E1).
  rewrite E1'. cbn [bind]. rewrite (F2_length _ _ _ HS). destruct (negb _); [discriminate|].
  apply bind_ok in E as ([I ext] & E2 & E). apply ok_inv in E. subst o.
  destruct (loop_ng ng L spl Hs c Hd t (HT t E1) _ _ _ _ _ _ _ _ _ HS (Forall2_nil _) E2) as (I' & -> & HI). cbn [bind].
  eexists. split; [reflexivity|]. apply finish_ng; auto.
Qed.
