(** * EmdSym: how EMD in 'simple' mode reacts to a change of sign, unit or offset of the signal
    (exact arithmetic). *)
From Verif Require Import PyFacts QcFacts Emd Spec EmdProofs EmdExact EmdSimple ExtremaProofs ExtremaSpec PrepareProofs EmdStop SymSpec Demo.
From Coq Require Import ZifyBool ZifyNat QArith Qcanon.
Open Scope Z_scope.

(** ** Maps through arrays *)
Lemma pair_inv {X Y} (x x' : X) (y y' : Y) : (x, y) = (x', y') -> x = x' /\ y = y'.
Proof. split; congruence. Qed.
Lemma ok_inv {X} (x y : X) : Ok x = Ok y -> y = x.
Proof. congruence. Qed.
Lemma py_get_map {X Y} (f : X -> Y) l i x : py_get l i = Ok x -> py_get (map f l) i = Ok (f x).
Proof.
  unfold py_get. rewrite zlen_map. destruct (_ <? 0); [discriminate|]. rewrite nth_error_map.
  destruct (nth_error _ _); cbn; congruence.
Qed.
Lemma py_take_map {X Y} (f : X -> Y) l idx v : py_take l idx = Ok v -> py_take (map f l) idx = Ok (map f v).
Proof.
  unfold py_take. revert v. induction idx as [|i idx IH]; cbn [mapM]; intros v E.
  - injection E as <-. reflexivity.
  - apply bind_ok in E as (x & E1 & E). apply bind_ok in E as (v' & E2 & E). injection E as <-.
    rewrite (py_get_map f _ _ _ E1). cbn [bind]. rewrite (IH _ E2). reflexivity.
Qed.
Lemma adj_map {X Y Z} (f : Y -> Y -> Z) (g : X -> Y) l : adj f (map g l) = adj (fun a b => f (g a) (g b)) l.
Proof.
  unfold adj. replace (tl (map g l)) with (map g (tl l)) by (destruct l; reflexivity).
  rewrite map2_map_l, map2_map_r. reflexivity.
Qed.
Lemma adj_ext {X Y} (f f' : X -> X -> Y) l : (forall a b, f a b = f' a b) -> adj f l = adj f' l.
Proof. intros E. apply map2_ext. auto. Qed.
Lemma map_adj {X Y Z} (h : Y -> Z) (f : X -> X -> Y) l : map h (adj f l) = adj (fun a b => h (f a b)) l.
Proof. unfold adj. apply map_map2. Qed.

Lemma map_rep {X Y} (f : X -> Y) x n : map f (repeat x n) = repeat (f x) n.
Proof. induction n; cbn; f_equal; auto. Qed.

Section Affine.
Variables k a : Qc.
Hypothesis Hk : k <> 0%Qc.
Definition g (y : Qc) : Qc := (k * y + a)%Qc.
Definition gp (p : Qc * Qc) : Qc * Qc := (fst p, g (snd p)).
Definition flip : bool := Qc_ltb k 0.
Definition sw {X} (p : X * X) : X * X := if flip then (snd p, fst p) else p.

Lemma k_pos : flip = false -> (0 < k)%Qc.
Proof. unfold flip. intros E. qc_bool. destruct (Qc_dec k 0) as [[X|X]|X]; auto; [qclra|congruence]. Qed.
Lemma k_neg : flip = true -> (k < 0)%Qc.
Proof. unfold flip. intros E. qc_bool. auto. Qed.

Lemma bool_iff (x y : bool) : (x = true <-> y = true) -> x = y.
Proof. destruct x, y; intuition congruence. Qed.
Lemma mul_lt_pos x y : (0 < k)%Qc -> (k * x < k * y <-> x < y)%Qc.
Proof. intros HP. split; intros L; qcnra. Qed.
Lemma mul_lt_neg x y : (k < 0)%Qc -> (k * x < k * y <-> y < x)%Qc.
Proof. intros HP. split; intros L; qcnra. Qed.

Lemma g_ltb x y : Qc_ltb (g x) (g y) = if flip then Qc_ltb y x else Qc_ltb x y.
Proof.
  unfold g. destruct flip eqn:F; [apply k_neg in F|apply k_pos in F]; apply bool_iff; rewrite !Qc_ltb_lt.
  - rewrite <- (mul_lt_neg x y F). split; intros; qclra.
  - rewrite <- (mul_lt_pos x y F). split; intros; qclra.
Qed.
Lemma k_ltb0 x : Qc_ltb (k * x) 0 = if flip then Qc_ltb 0 x else Qc_ltb x 0.
Proof.
  destruct flip eqn:F; [apply k_neg in F|apply k_pos in F]; apply bool_iff; rewrite !Qc_ltb_lt.
  - rewrite <- (mul_lt_neg x 0 F). rewrite Qcmult_0_r. reflexivity.
  - rewrite <- (mul_lt_pos x 0 F). rewrite Qcmult_0_r. reflexivity.
Qed.
Lemma k_0ltb x : Qc_ltb 0 (k * x) = if flip then Qc_ltb x 0 else Qc_ltb 0 x.
Proof.
  destruct flip eqn:F; [apply k_neg in F|apply k_pos in F]; apply bool_iff; rewrite !Qc_ltb_lt.
  - rewrite <- (mul_lt_neg 0 x F). rewrite Qcmult_0_r. reflexivity.
  - rewrite <- (mul_lt_pos 0 x F). rewrite Qcmult_0_r. reflexivity.
Qed.
Lemma k_is0 x : @is0 Qc _ (k * x)%Qc = is0 x.
Proof.
  unfold is0. num_qc. apply bool_iff. rewrite !Qc_eqb_eq. split.
  - intros E. apply Qcmult_integral in E as [E|E]; congruence.
  - intros ->. apply Qcmult_0_r.
Qed.
Lemma k_prod_neg x y : Qc_ltb ((k * x) * (k * y)) 0 = Qc_ltb (x * y) 0.
Proof.
  apply bool_iff. rewrite !Qc_ltb_lt.
  assert (P : (0 < k * k)%Qc) by (destruct flip eqn:F; [apply k_neg in F|apply k_pos in F]; qcnra).
  replace ((k * x) * (k * y))%Qc with ((k * k) * (x * y))%Qc by ring.
  set (w := (x * y)%Qc). set (kk := (k * k)%Qc) in *. clearbody w kk. split; intros; qcnra.
Qed.

(** ** Extrema *)
Lemma ndiff_g S : ndiff (map g S) = map (Qcmult k) (ndiff S).
Proof. unfold ndiff. rewrite adj_map, map_adj. apply adj_ext. intros. unfold g. num_qc. ring. Qed.

Lemma strict_g d :
  (strict_max_idx (map (Qcmult k) d), strict_min_idx (map (Qcmult k) d)) = sw (strict_max_idx d, strict_min_idx d).
Proof.
  unfold strict_max_idx, strict_min_idx, sw. rewrite !adj_map.
  assert (E : forall f f' : Qc -> Qc -> bool, (forall x y, f x y = f' x y) ->
    map (fun i => i + 1) (nonzero (adj f d)) = map (fun i => i + 1) (nonzero (adj f' d)))
    by (intros f f' Ef; do 2 f_equal; apply adj_ext; auto).
  destruct flip eqn:F; cbn [fst snd]; f_equal; apply E; intros x y; num_qc; rewrite k_prod_neg; f_equal;
    rewrite ?k_ltb0, ?k_0ltb, F; reflexivity.
Qed.
Lemma bad_g d : map is0 (map (Qcmult k) d) = map (@is0 Qc _) d.
Proof. rewrite map_map. apply map_ext, k_is0. Qed.

Lemma masks_g (b c : list Qc) :
  (map2 (fun b a => nltb n0 b && nltb a n0) (map (Qcmult k) b) (map (Qcmult k) c),
   map2 (fun b a => nltb b n0 && nltb n0 a) (map (Qcmult k) b) (map (Qcmult k) c)) =
  sw (map2 (fun b a => nltb n0 b && nltb a n0) b c, map2 (fun b a => nltb b n0 && nltb n0 a) b c).
Proof.
  unfold sw. rewrite !map2_map_l, !map2_map_r.
  destruct flip eqn:F; cbn [fst snd]; f_equal; apply map2_ext; intros x y; num_qc;
    rewrite k_ltb0, k_0ltb, F; reflexivity.
Qed.

Lemma extrema_idx_g S r : extrema_idx S = Ok r -> extrema_idx (map g S) = Ok (sw r).
Proof.
  unfold extrema_idx. cbv zeta. rewrite ndiff_g, bad_g, zlen_map. set (d := ndiff S).
  pose proof (strict_g d) as HS.
  destruct (existsb _ (map is0 d)).
  2:{ intros E. injection E as <-. rewrite <- HS. reflexivity. }
  set (runs := drop_last_run _ _). destruct runs as [|r0 runs'] eqn:Er.
  { intros E. injection E as <-. rewrite <- HS. reflexivity. }
  rewrite <- Er. clear Er. intros E.
  apply bind_ok in E as (b & E1 & E). apply bind_ok in E as (c & E2 & E).
  rewrite (py_take_map _ _ _ _ E1). cbn [bind]. rewrite (py_take_map _ _ _ _ E2). cbn [bind].
  pose proof (masks_g b c) as HM. apply ok_inv in E. subst r. unfold sw in *.
  destruct flip; cbn [fst snd] in *; apply pair_inv in HS as [-> ->]; apply pair_inv in HM as [-> ->]; reflexivity.
Qed.

Lemma find_g T S e : find_extrema Simple T S = Ok e ->
  exists e', find_extrema Simple T (map g S) = Ok e' /\
    (max_pos e', min_pos e') = sw (max_pos e, min_pos e) /\
    indzer e = zero_crossings S /\ indzer e' = zero_crossings (map g S).
Proof.
  cbn [find_extrema]. unfold find_extrema_simple. intros E.
  apply bind_ok in E as ([M m] & E0 & E). apply extrema_idx_g in E0. rewrite E0. clear E0.
  apply bind_ok in E as (mp & E1 & E). apply bind_ok in E as (mv & E2 & E).
  apply bind_ok in E as (np & E3 & E). apply bind_ok in E as (nv & E4 & E). injection E as <-.
  apply (py_take_map g) in E2. apply (py_take_map g) in E4.
  unfold sw. destruct flip; cbn [bind fst snd]; rewrite E1, E3; cbn [bind]; rewrite E2, E4; cbn [bind];
    eexists; (split; [reflexivity|]); auto.
Qed.

(** ** Boundary points *)
Definition sw3 {X Y} (p : X * X * Y) : X * X * Y := let '(x, y, z) := p in if flip then (y, x, z) else p.

Lemma left_g nb S M m r : hd_error M <> hd_error m -> left_bound nb S M m = Ok r ->
  left_bound nb (map g S) (fst (sw (M, m))) (snd (sw (M, m))) = Ok (sw3 r).
Proof.
  unfold left_bound. cbv zeta. intros Hd E.
  apply bind_ok in E as (M0 & E1 & E). apply bind_ok in E as (m0 & E2 & E). apply bind_ok in E as (S0 & E3 & E).
  assert (Hne : M0 <> m0).
  { intros ->. apply Hd. destruct M, m; try discriminate. unfold py_get in E1, E2. cbn in E1, E2. cbn. congruence. }
  unfold sw, sw3. destruct flip eqn:F; cbn [fst snd].
  - rewrite E2. cbn [bind]. rewrite E1. cbn [bind]. rewrite (py_get_map g _ _ _ E3). cbn [bind].
    destruct (Z.ltb_spec M0 m0) as [L|L]; destruct (Z.ltb_spec m0 M0) as [L'|L']; try lia.
    + apply bind_ok in E as (v & E4 & E). rewrite (py_get_map g _ _ _ E4). cbn [bind]. num_qc. rewrite g_ltb, F.
      destruct (Qc_ltb v S0); injection E as <-; reflexivity.
    + apply bind_ok in E as (v & E4 & E). rewrite (py_get_map g _ _ _ E4). cbn [bind]. num_qc. rewrite g_ltb, F.
      destruct (Qc_ltb S0 v); injection E as <-; reflexivity.
  - rewrite E1. cbn [bind]. rewrite E2. cbn [bind]. rewrite (py_get_map g _ _ _ E3). cbn [bind].
    destruct (M0 <? m0); apply bind_ok in E as (v & E4 & E); rewrite (py_get_map g _ _ _ E4); cbn [bind]; num_qc;
      rewrite g_ltb, F; destruct (Qc_ltb _ _); injection E as <-; reflexivity.
Qed.

Lemma py_get_last_rev {X} (l : list X) x : py_get l (-1) = Ok x -> hd_error (rev l) = Some x.
Proof.
  destruct l as [|y l'] using rev_ind; [discriminate|]. rewrite py_get_last, rev_app_distr. cbn. congruence.
Qed.

Lemma right_g nb S M m r : hd_error (rev M) <> hd_error (rev m) -> right_bound nb S M m = Ok r ->
  right_bound nb (map g S) (fst (sw (M, m))) (snd (sw (M, m))) = Ok (sw3 r).
Proof.
  unfold right_bound. cbv zeta. rewrite zlen_map. intros Hd E.
  apply bind_ok in E as (M0 & E1 & E). apply bind_ok in E as (m0 & E2 & E). apply bind_ok in E as (S0 & E3 & E).
  assert (Hne : M0 <> m0).
  { intros ->. apply Hd. apply py_get_last_rev in E1, E2. congruence. }
  unfold sw, sw3. destruct flip eqn:F; cbn [fst snd].
  - rewrite E2. cbn [bind]. rewrite E1. cbn [bind]. rewrite (py_get_map g _ _ _ E3). cbn [bind].
    destruct (Z.ltb_spec M0 m0) as [L|L]; destruct (Z.ltb_spec m0 M0) as [L'|L']; try lia.
    + apply bind_ok in E as (v & E4 & E). rewrite (py_get_map g _ _ _ E4). cbn [bind]. num_qc. rewrite g_ltb, F.
      destruct (Qc_ltb S0 v); injection E as <-; reflexivity.
    + apply bind_ok in E as (v & E4 & E). rewrite (py_get_map g _ _ _ E4). cbn [bind]. num_qc. rewrite g_ltb, F.
      destruct (Qc_ltb v S0); injection E as <-; reflexivity.
  - rewrite E1. cbn [bind]. rewrite E2. cbn [bind]. rewrite (py_get_map g _ _ _ E3). cbn [bind].
    destruct (M0 <? m0); apply bind_ok in E as (v & E4 & E); rewrite (py_get_map g _ _ _ E4); cbn [bind]; num_qc;
      rewrite g_ltb, F; destruct (Qc_ltb _ _); injection E as <-; reflexivity.
Qed.

(** The mirrored positions do not depend on the values: maxima and minima change roles. *)
Lemma mirror_len T c idx t : mirror T c idx = Ok t -> length t = length idx.
Proof.
  unfold mirror. intros E. apply bind_ok in E as (x & _ & E). apply bind_ok in E as (ts & E1 & E).
  apply ok_inv in E. subst t. rewrite map_length. exact (mapM_ok_length _ _ _ E1).
Qed.
Lemma get0_ok {X} (l : list X) n : length l = n -> (0 < n)%nat -> exists x, py_get l 0 = Ok x.
Proof. intros L H. destruct l as [|x l]; [cbn in L; lia|]. exists x. reflexivity. Qed.
Lemma getl_ok {X} (l : list X) n : length l = n -> (0 < n)%nat -> exists x, py_get l (-1) = Ok x.
Proof. intros L H. destruct l as [|x l _] using rev_ind; [cbn in L; lia|]. exists x. apply py_get_last. Qed.

Lemma mirror_left_swap nb T M m lmax lmin c M0 m0 t1 l1 t2 l2 :
  py_get M 0 = Ok M0 -> py_get m 0 = Ok m0 -> M0 <> m0 -> c = M0 \/ c = m0 \/ c = 0 ->
  lmax <> [] -> lmin <> [] ->
  mirror_left nb T M m lmax lmin c = Ok (t1, l1, t2, l2) ->
  mirror_left nb T m M lmin lmax c = Ok (t2, l2, t1, l1).
Proof.
  intros EM Em Hne Hc H1 H2. unfold mirror_left. cbv zeta. intros E.
  apply bind_ok in E as (tn & E1 & E). apply bind_ok in E as (tx & E2 & E). apply bind_ok in E as (t0 & E3 & E).
  apply bind_ok in E as (hn & E4 & E). apply bind_ok in E as (bad & E5 & E).
  rewrite E2. cbn [bind]. rewrite E1. cbn [bind]. rewrite E3. cbn [bind].
  assert (Ex : exists hx, py_get tx 0 = Ok hx).
  { apply (get0_ok tx (length lmax)); [apply (mirror_len _ _ _ _ E2)|]. destruct lmax; [congruence|cbn; lia]. }
  destruct Ex as (hx & Ex). rewrite Ex, E4 in *. cbn [bind] in *.
  assert (Hb : bad = nltb t0 hn || nltb t0 hx) by (destruct (nltb t0 hn); apply ok_inv in E5; auto).
  assert (Hb' : (if nltb t0 hx then Ok true else Ok (nltb t0 hn)) = Ok bad)
    by (rewrite Hb; destruct (nltb t0 hx); [rewrite orb_true_r|rewrite orb_false_r]; reflexivity).
  rewrite Hb'. cbn [bind]. clear Hb Hb' E5. destruct bad.
  - rewrite Em. rewrite EM in E. cbn [bind] in *. destruct (Z.eqb_spec c 0) as [Z0|Z0]; [discriminate|].
    assert (EE : (c =? m0) = negb (c =? M0)) by lia. rewrite EE. destruct (c =? M0); cbn [negb];
      apply bind_ok in E as (x & F1 & E); apply bind_ok in E as (y & F2 & E); rewrite F2; cbn [bind]; rewrite F1;
      cbn [bind]; apply ok_inv in E; injection E as <- <- <- <-; reflexivity.
  - apply ok_inv in E. injection E as <- <- <- <-. reflexivity.
Qed.

Lemma mirror_right_swap nb T n M m rmax rmin c M0 m0 t1 l1 t2 l2 :
  py_get M (-1) = Ok M0 -> py_get m (-1) = Ok m0 -> M0 <> m0 -> c = M0 \/ c = m0 \/ c = n - 1 ->
  rmax <> [] -> rmin <> [] ->
  mirror_right nb T n M m rmax rmin c = Ok (t1, l1, t2, l2) ->
  mirror_right nb T n m M rmin rmax c = Ok (t2, l2, t1, l1).
Proof.
  intros EM Em Hne Hc H1 H2. unfold mirror_right. cbv zeta. intros E.
  apply bind_ok in E as (tn & E1 & E). apply bind_ok in E as (tx & E2 & E). apply bind_ok in E as (t0 & E3 & E).
  apply bind_ok in E as (hn & E4 & E). apply bind_ok in E as (bad & E5 & E).
  rewrite E2. cbn [bind]. rewrite E1. cbn [bind]. rewrite E3. cbn [bind].
  assert (Ex : exists hx, py_get tx (-1) = Ok hx).
  { apply (getl_ok tx (length rmax)); [apply (mirror_len _ _ _ _ E2)|]. destruct rmax; [congruence|cbn; lia]. }
  destruct Ex as (hx & Ex). rewrite Ex, E4 in *. cbn [bind] in *.
  assert (Hb : bad = nltb hn t0 || nltb hx t0) by (destruct (nltb hn t0); apply ok_inv in E5; auto).
  assert (Hb' : (if nltb hx t0 then Ok true else Ok (nltb hn t0)) = Ok bad)
    by (rewrite Hb; destruct (nltb hx t0); [rewrite orb_true_r|rewrite orb_false_r]; reflexivity).
  rewrite Hb'. cbn [bind]. clear Hb Hb' E5. destruct bad.
  - rewrite Em. rewrite EM in E. cbn [bind] in *. destruct (Z.eqb_spec c (n - 1)) as [Z0|Z0]; [discriminate|].
    assert (EE : (c =? m0) = negb (c =? M0)) by lia. rewrite EE. destruct (c =? M0); cbn [negb];
      apply bind_ok in E as (x & F1 & E); apply bind_ok in E as (y & F2 & E); rewrite F2; cbn [bind]; rewrite F1;
      cbn [bind]; apply ok_inv in E; injection E as <- <- <- <-; reflexivity.
  - apply ok_inv in E. injection E as <- <- <- <-. reflexivity.
Qed.

Lemma left_sym nb (S : list Qc) M m x y c M0 m0 : py_get M 0 = Ok M0 -> py_get m 0 = Ok m0 ->
  left_bound nb S M m = Ok (x, y, c) -> c = M0 \/ c = m0 \/ c = 0.
Proof.
  unfold left_bound. cbv zeta. intros -> ->. cbn [bind]. intros E. apply bind_ok in E as (s & _ & E).
  destruct (_ <? _); apply bind_ok in E as (v & _ & E); destruct (nltb _ _); apply ok_inv in E; injection E as _ _ <-; auto.
Qed.
Lemma right_sym nb (S : list Qc) M m x y c M0 m0 : py_get M (-1) = Ok M0 -> py_get m (-1) = Ok m0 ->
  right_bound nb S M m = Ok (x, y, c) -> c = M0 \/ c = m0 \/ c = zlen S - 1.
Proof.
  unfold right_bound. cbv zeta. intros -> ->. cbn [bind]. intros E. apply bind_ok in E as (s & _ & E).
  destruct (_ <? _); apply bind_ok in E as (v & _ & E); destruct (nltb _ _); apply ok_inv in E; injection E as _ _ <-; auto.
Qed.

Lemma combine_g (t v : list Qc) : combine t (map g v) = map gp (combine t v).
Proof. revert v. induction t as [|x t IH]; intros [|y v]; cbn; f_equal; auto. Qed.
Lemma assemble_g T S tl l ind tr r P : assemble T S tl l ind tr r = Ok P ->
  assemble T (map g S) tl l ind tr r = Ok (map gp P).
Proof.
  unfold assemble. intros E. apply bind_ok in E as (zl & E1 & E). apply bind_ok in E as (zr & E2 & E).
  apply bind_ok in E as (t & E3 & E). apply bind_ok in E as (z & E4 & E).
  rewrite (py_take_map g _ _ _ E1), (py_take_map g _ _ _ E2), E3, (py_take_map g _ _ _ E4). cbn [bind].
  apply ok_inv in E. subst P. rewrite <- !map_app, combine_g. reflexivity.
Qed.
Lemma dedupe_g P : dedupe (map gp P) = map gp (dedupe P).
Proof.
  induction P as [|p P IH]; auto. destruct P as [|q P]; auto.
  change (dedupe (map gp (p :: q :: P))) with
    (if neqb (fst (gp q)) (fst (gp p)) then dedupe (map gp (q :: P)) else gp p :: dedupe (map gp (q :: P))).
  rewrite IH. change (dedupe (p :: q :: P)) with (if neqb (fst q) (fst p) then dedupe (q :: P) else p :: dedupe (q :: P)).
  change (fst (gp q)) with (fst q). change (fst (gp p)) with (fst p). destruct (neqb _ _); reflexivity.
Qed.

Lemma or_default_ne x d : d <> [] -> or_default x d <> [].
Proof. destruct x; auto. discriminate. Qed.

Lemma prepare_g nb T S e e' P Q :
  (max_pos e', min_pos e') = sw (max_pos e, min_pos e) ->
  hd_error (map ntrunc (max_pos e)) <> hd_error (map ntrunc (min_pos e)) ->
  hd_error (rev (map ntrunc (max_pos e))) <> hd_error (rev (map ntrunc (min_pos e))) ->
  prepare_points_simple nb T S e = Ok (P, Q) ->
  prepare_points_simple nb T (map g S) e' = Ok (sw (map gp P, map gp Q)).
Proof.
  unfold prepare_points_simple. cbv zeta. intros Es H1 H2 E. rewrite zlen_map.
  set (M := map ntrunc (max_pos e)) in *. set (m := map ntrunc (min_pos e)) in *.
  assert (EM : map ntrunc (max_pos e') = fst (sw (M, m)) /\ map ntrunc (min_pos e') = snd (sw (M, m))).
  { unfold sw in *. destruct flip; cbn [fst snd] in *; apply pair_inv in Es as [-> ->]; auto. }
  destruct EM as [-> ->]. clearbody M m.
  apply bind_ok in E as ([[lx ln] cl] & E1 & E). apply bind_ok in E as ([[rx rn] cr] & E2 & E).
  assert (G1 : exists M0 m0, py_get M 0 = Ok M0 /\ py_get m 0 = Ok m0).
  { unfold left_bound in E1. apply bind_ok in E1 as (M0 & F1 & E1). apply bind_ok in E1 as (m0 & F2 & E1). eauto. }
  assert (G2 : exists M0 m0, py_get M (-1) = Ok M0 /\ py_get m (-1) = Ok m0).
  { unfold right_bound in E2. apply bind_ok in E2 as (M0 & F1 & E2). apply bind_ok in E2 as (m0 & F2 & E2). eauto. }
  destruct G1 as (M0 & m0 & F1 & F2). destruct G2 as (Ml & ml & F3 & F4).
  assert (N1 : M0 <> m0).
  { intros ->. apply H1. destruct M, m; try discriminate. unfold py_get in F1, F2. cbn in F1, F2. cbn. congruence. }
  assert (N2 : Ml <> ml) by (intros ->; apply H2; apply py_get_last_rev in F3, F4; congruence).
  assert (HM : M <> []) by (intros ->; discriminate). assert (Hm : m <> []) by (intros ->; discriminate).
  pose proof (left_sym _ _ _ _ _ _ _ _ _ F1 F2 E1) as C1. pose proof (right_sym _ _ _ _ _ _ _ _ _ F3 F4 E2) as C2.
  rewrite (left_g _ _ _ _ _ H1 E1). cbn [bind]. rewrite (right_g _ _ _ _ _ H2 E2). cbn [bind].
  apply bind_ok in E as ([[[t1 l1] t2] l2] & E3 & E). apply bind_ok in E as ([[[t3 l3] t4] l4] & E4 & E).
  apply bind_ok in E as (mx & E5 & E). apply bind_ok in E as (mn & E6 & E).
  apply assemble_g in E5. apply assemble_g in E6.
  apply ok_inv in E. apply pair_inv in E as [-> ->].
  unfold sw3, sw. destruct flip; cbn [fst snd bind].
  - rewrite (mirror_left_swap _ _ _ _ _ _ _ _ _ _ _ _ _ F1 F2 N1 C1 (or_default_ne _ _ HM) (or_default_ne _ _ Hm) E3). cbn [bind].
    rewrite (mirror_right_swap _ _ _ _ _ _ _ _ _ _ _ _ _ _ F3 F4 N2 C2 (or_default_ne _ _ HM) (or_default_ne _ _ Hm) E4). cbn [bind].
    rewrite E6. cbn [bind]. rewrite E5. cbn [bind]. rewrite !dedupe_g. reflexivity.
  - rewrite E3. cbn [bind]. rewrite E4. cbn [bind].
    rewrite E5. cbn [bind]. rewrite E6. cbn [bind]. rewrite !dedupe_g. reflexivity.
Qed.

(** ** Envelopes *)
(** An interpolation routine that commutes with [g]. *)
Definition commutes (spl : spline_oracle Qc) : Prop :=
  forall kind pts t v, spl kind pts t = Ok v -> spl kind (map gp pts) t = Ok (map g v).

Lemma window_g T P t : time_window T P = Ok t -> time_window T (map gp P) = Ok t.
Proof.
  unfold time_window. intros E. apply bind_ok in E as (p & E1 & E). apply bind_ok in E as (q & E2 & E).
  rewrite (py_get_map gp _ _ _ E1), (py_get_map gp _ _ _ E2). exact E.
Qed.

Lemma coeffs_g x0 x1 x2 y0 y1 y2 a1 b1 a2 b2 :
  spline3_coeffs x0 x1 x2 y0 y1 y2 = Ok (a1, b1, a2, b2) ->
  spline3_coeffs x0 x1 x2 (g y0) (g y1) (g y2) = Ok (k * a1, k * b1, k * a2, k * b2)%Qc.
Proof.
  unfold spline3_coeffs. cbv zeta. destruct (_ || _); [discriminate|]. intros E.
  apply bind_ok in E as ([[k0 k1] k2] & E1 & E).
  assert (E1' : forall m11 m12 m13 m21 m22 m23 m31 m32 m33 v1 v2 v3 v1' v2' v3',
    v1' = (k * v1)%Qc -> v2' = (k * v2)%Qc -> v3' = (k * v3)%Qc ->
    solve3 m11 m12 m13 m21 m22 m23 m31 m32 m33 v1 v2 v3 = Ok (k0, k1, k2) ->
    solve3 m11 m12 m13 m21 m22 m23 m31 m32 m33 v1' v2' v3' = Ok (k * k0, k * k1, k * k2)%Qc).
  { clear. intros * -> -> ->. unfold solve3. cbv zeta. destruct (is0 _); [discriminate|].
    intros E. apply ok_inv in E. injection E as -> -> ->. do 2 f_equal; [f_equal|];
      unfold det3; num_qc; unfold Qcdiv; ring. }
  eapply E1' in E1; [rewrite E1| | |].
  - cbn [bind]. apply ok_inv in E. injection E as -> -> -> ->. unfold g. num_qc.
    do 2 f_equal; [f_equal; [f_equal|]|]; ring.
  - unfold g. num_qc. ring.
  - unfold g. num_qc. ring.
  - unfold g. num_qc. ring.
Qed.
Lemma piece_g xa w ya yb c d u :
  spline_piece xa w (g ya) (g yb) (k * c)%Qc (k * d)%Qc u = g (spline_piece xa w ya yb c d u).
Proof. unfold spline_piece, g. cbv zeta. num_qc. set (t := ((u - xa) / w)%Qc). ring. Qed.

Lemma cubic3_g P T t v : cubic_spline_3pts P T = Ok (t, v) -> cubic_spline_3pts (map gp P) T = Ok (t, map g v).
Proof.
  destruct P as [|[x0 y0] [|[x1 y1] [|[x2 y2] [|]]]]; try discriminate.
  cbn [map gp fst snd cubic_spline_3pts]. intros E. apply bind_ok in E as ([[[a1 b1] a2] b2] & E1 & E).
  rewrite (coeffs_g _ _ _ _ _ _ _ _ _ _ E1). cbn [bind]. apply ok_inv in E. injection E as -> ->.
  rewrite map_app, !map_map. do 3 f_equal; apply map_ext; intros u; apply piece_g.
Qed.

Lemma spline_g spl kind T P v : commutes spl -> spline_points spl kind T P = Ok v ->
  spline_points spl kind T (map gp P) = Ok (map g v).
Proof.
  intros Hs. unfold spline_points. intros E. apply bind_ok in E as (t & E1 & E).
  rewrite (window_g _ _ _ E1). cbn [bind]. rewrite zlen_map.
  destruct (parse_kind kind) as [[]|]; try discriminate; try (apply Hs; exact E).
  destruct (3 <? zlen P); [apply Hs; exact E|].
  apply bind_ok in E as ([t' v'] & E2 & E). rewrite (cubic3_g _ _ _ _ E2). cbn [bind]. apply ok_inv in E. subst. reflexivity.
Qed.

(** ** One sift *)
Lemma heads_differ n S e : find_extrema Simple (tz n) S = Ok e -> n = length S -> 2 < ext_no e ->
  hd_error (map ntrunc (max_pos e)) <> hd_error (map ntrunc (min_pos e)) /\
  hd_error (rev (map ntrunc (max_pos e))) <> hd_error (rev (map ntrunc (min_pos e))).
Proof.
  intros E -> H3. destruct (simple_counts (tz (length S)) S e (tz_length _) E) as [_ HP].
  destruct (HP H3) as [P1 P2]. clear HP.
  destruct (detect_prepare S 1 ltac:(lia)) as (e' & M & m & E' & EM & Em & R1 & R2 & _).
  rewrite E' in E. apply ok_inv in E. subst e'. rewrite EM, Em, !zlen_map in *.
  assert (TR : forall l, map ntrunc (map Qc_ofZ l) = l).
  { intros l. rewrite map_map. rewrite <- map_id. apply map_ext. apply Qc_trunc_ofZ. }
  rewrite !TR.
  assert (D : forall i, In i M -> In i m -> False).
  { intros i. rewrite R1, R2. intros A B. exact (rep_disjoint S i A B). }
  split.
  - destruct M as [|x M], m as [|y m]; unfold zlen in *; cbn [length hd_error] in *; try lia.
    intros X. injection X as ->. apply (D y); left; auto.
  - rewrite <- (rev_involutive M), <- (rev_involutive m) in *.
    set (M' := rev M) in *. set (m' := rev m) in *. clearbody M' m'. rewrite !rev_involutive in *.
    rewrite !zlen_rev in *.
    destruct M' as [|x M'], m' as [|y m']; unfold zlen in *; cbn [length hd_error] in *; try lia.
    intros X. injection X as ->. apply (D y); rewrite <- in_rev; left; auto.
Qed.

Lemma ext_no_sw (e e' : extrema_out Qc) : (max_pos e', min_pos e') = sw (max_pos e, min_pos e) -> ext_no e' = ext_no e.
Proof.
  unfold sw, ext_no. destruct flip; cbn [fst snd]; intros X; apply pair_inv in X as [-> ->]; lia.
Qed.

Lemma extract_g spl c S M m P Q : commutes spl -> extrema_detection c = Simple ->
  extract_max_min_spline spl c (tz (length S)) S = Ok (M, m, P, Q) ->
  extract_max_min_spline spl c (tz (length S)) (map g S) =
    Ok (fst (sw (map g M, map g m)), snd (sw (map g M, map g m)),
        fst (sw (map gp P, map gp Q)), snd (sw (map gp P, map gp Q))).
Proof.
  intros Hs Hd. unfold extract_max_min_spline. rewrite Hd. intros E.
  apply bind_ok in E as (e & E1 & E).
  destruct (find_g _ _ _ E1) as (e' & E1' & Hsw & _). rewrite E1'. cbn [bind].
  pose proof (ext_no_sw _ _ Hsw) as Hn. unfold ext_no in Hn. rewrite Hn.
  destruct (Z.ltb_spec (zlen (max_pos e) + zlen (min_pos e)) 3) as [|H3]; [discriminate|].
  destruct (heads_differ _ _ _ E1 eq_refl ltac:(unfold ext_no; lia)) as [N1 N2].
  apply bind_ok in E as ([P' Q'] & E2 & E). cbn [prepare_points] in *.
  rewrite (prepare_g _ _ _ _ _ _ _ Hsw N1 N2 E2). cbn [bind].
  apply bind_ok in E as (u & E3 & E). apply bind_ok in E as (v & E4 & E). apply ok_inv in E. injection E as -> -> -> ->.
  apply (spline_g _ _ _ _ _ Hs) in E3. apply (spline_g _ _ _ _ _ Hs) in E4.
  unfold sw. destruct flip; cbn [fst snd]; [rewrite E4; cbn [bind]; rewrite E3|rewrite E3; cbn [bind]; rewrite E4]; reflexivity.
Qed.

Lemma map2_comm {X Y} (f : X -> X -> Y) : (forall x y, f x y = f y x) -> forall l m, map2 f l m = map2 f m l.
Proof. intros Hf. induction l as [|x l IH]; intros [|y m]; cbn; f_equal; auto. Qed.

(** Sifting the image of a signal: the mean of the envelopes is the image of the mean. *)
Lemma sift_step_g spl c S x P Q : commutes spl -> extrema_detection c = Simple ->
  sift_step spl c (tz (length S)) S = Ok (x, P, Q) ->
  sift_step spl c (tz (length S)) (map g S) =
    Ok (map (Qcmult k) x, fst (sw (map gp P, map gp Q)), snd (sw (map gp P, map gp Q))).
Proof.
  intros Hs Hd. unfold sift_step. intros E. apply bind_ok in E as ([[[M m] P'] Q'] & E1 & E).
  rewrite (extract_g _ _ _ _ _ _ _ Hs Hd E1). cbn [bind]. rewrite map_length.
  apply bind_ok in E as (s & E2 & E). apply bind_ok in E as (mean & E3 & E). apply ok_inv in E. injection E as -> -> ->.
  set (h := fun y => (k * y + (a + a))%Qc).
  assert (HS : broadcast2 nadd (fst (sw (map g M, map g m))) (snd (sw (map g M, map g m))) = Ok (map h s)).
  { assert (HB : broadcast2 nadd (map g M) (map g m) = Ok (map h s) /\ broadcast2 nadd (map g m) (map g M) = Ok (map h s)).
    { unfold broadcast2 in *. rewrite !map_length, (Nat.eqb_sym (length m)).
      destruct (Nat.eqb (length M) (length m)).
      - apply ok_inv in E2. subst s. rewrite map_map2, !map2_map_l, !map2_map_r. split.
        + f_equal. apply map2_ext. intros. unfold h, g. num_qc. ring.
        + f_equal. rewrite map2_comm by (intros; unfold g; num_qc; ring). 
          apply map2_ext. intros. unfold h, g. num_qc. ring.
      - destruct M as [|x1 [|x2 M]].
        + destruct m as [|y1 [|y2 m]]; try discriminate. apply ok_inv in E2. subst s. split; reflexivity.
        + destruct m as [|y1 [|y2 m]]; apply ok_inv in E2; subst s; cbn [map]; split; try reflexivity;
            rewrite ?map_map; do 3 f_equal; unfold h, g; num_qc; try ring.
          all: try (apply map_ext; intros; ring).
        + destruct m as [|y1 [|y2 m]]; try discriminate. apply ok_inv in E2. subst s. cbn [map].
          split; do 2 f_equal; try (unfold h, g; num_qc; ring); f_equal; try (unfold h, g; num_qc; ring);
          rewrite ?map_map; apply map_ext; intros; unfold h, g; num_qc; ring. }
    unfold sw. destruct flip; cbn [fst snd]; tauto. }
  rewrite HS. cbn [bind].
  assert (HA : assign_all (length S) (map (nmul nhalf) (map h s)) = Ok (map g mean)).
  { assert (Eh : map (nmul nhalf) (map h s) = map g (map (nmul nhalf) s)).
    { rewrite !map_map. apply map_ext. intros y. unfold h, g. change (@nhalf Qc _) with (Q2Qc (1 # 2)). num_qc.
      assert (Ha : (Q2Qc (1 # 2) * (a + a) = a)%Qc)
        by (apply Qc_is_canon; rewrite this_mult, this_plus, this_Q2Qc; ring).
      set (q := Q2Qc (1 # 2)) in *. clearbody q.
      transitivity (k * (q * y) + q * (a + a))%Qc; [ring|rewrite Ha; reflexivity]. }
    rewrite Eh. unfold assign_all in *. rewrite map_length. destruct (Nat.eqb _ _).
    - apply ok_inv in E3. subst mean. reflexivity.
    - destruct (map (nmul nhalf) s) as [|y [|]]; try discriminate. apply ok_inv in E3. subst mean. cbn [map].
      rewrite map_rep. reflexivity. }
  rewrite HA. cbn [bind]. do 3 f_equal. unfold vsub. rewrite map2_map_l, map2_map_r, map_map2.
  apply map2_ext. intros. unfold g. num_qc. ring.
Qed.

End Affine.

(** ** Change of unit or sign *)
Definition sc (k : Qc) (v : list Qc) : list Qc := map (Qcmult k) v.
Definition unit_cfg (k : Qc) (c : emd_config Qc) : emd_config Qc := rescaled (Qc_abs k) c.

Lemma g_sc k l : map (g k 0) l = sc k l.
Proof. apply map_ext. intros. unfold g. ring. Qed.
Lemma abs_mul k x : Qc_abs (k * x) = (Qc_abs k * Qc_abs x)%Qc.
Proof.
  unfold Qc_abs. destruct (Qc_ltb k 0) eqn:E1, (Qc_ltb x 0) eqn:E2, (Qc_ltb (k * x) 0) eqn:E3; qc_bool; try ring;
    try (exfalso; qcnra); apply Qc_is_canon; qcnra.
Qed.

Lemma zero_crossings_sc k S : k <> 0%Qc -> zero_crossings (sc k S) = zero_crossings S.
Proof.
  intros Hk. unfold zero_crossings, sc. rewrite adj_map, map_map.
  replace (map (fun x => is0 (k * x)%Qc) S) with (map (@is0 Qc _) S) by (apply map_ext; intros; rewrite k_is0; auto).
  replace (adj (fun a b => nltb (nmul (k * a) (k * b))%Qc n0) S) with (adj (fun a b : Qc => nltb (nmul a b) n0) S)
    by (apply adj_ext; intros; num_qc; rewrite k_prod_neg; auto).
  reflexivity.
Qed.

Lemma find_sc k T S e : k <> 0%Qc -> find_extrema Simple T S = Ok e ->
  exists e', find_extrema Simple T (sc k S) = Ok e' /\ ext_no e' = ext_no e /\ indzer e' = indzer e.
Proof.
  intros Hk E. destruct (find_g k 0 Hk _ _ _ E) as (e' & E' & Hs & Z & Z'). rewrite g_sc in E', Z'.
  exists e'. split; auto. split; [apply (ext_no_sw k _ _ Hs)|]. rewrite Z, Z'. apply zero_crossings_sc. auto.
Qed.

Lemma fold_pick k (l : list Qc) x : k <> 0%Qc ->
  (fold_left (fun m y => if Qc_ltb m y then y else m) (sc k l) (k * x) =
   k * fold_left (fun m y => if (if flip k then Qc_ltb y m else Qc_ltb m y) then y else m) l x)%Qc /\
  (fold_left (fun m y => if Qc_ltb y m then y else m) (sc k l) (k * x) =
   k * fold_left (fun m y => if (if flip k then Qc_ltb m y else Qc_ltb y m) then y else m) l x)%Qc.
Proof.
  intros Hk. assert (G : forall x y, Qc_ltb (k * x) (k * y) = if flip k then Qc_ltb y x else Qc_ltb x y).
  { intros u v. rewrite <- (g_ltb k 0 Hk). unfold g. rewrite !Qcplus_0_r. reflexivity. }
  revert x. induction l as [|y l IH]; intros x; cbn [sc map fold_left]; [auto|]. fold (sc k l).
  rewrite !G. destruct (flip k); destruct (Qc_ltb x y), (Qc_ltb y x); split; try apply IH.
Qed.
Lemma np_extremes_sc k l mx mn : k <> 0%Qc -> np_max l = Ok mx -> np_min l = Ok mn ->
  np_max (sc k l) = Ok (k * (if flip k then mn else mx))%Qc /\ np_min (sc k l) = Ok (k * (if flip k then mx else mn))%Qc.
Proof.
  intros Hk. destruct l as [|x l]; [discriminate|]. cbn [sc map]. fold (sc k l). rewrite !np_max_qc, !np_min_qc. num_qc.
  intros E1 E2. apply ok_inv in E1, E2. destruct (fold_pick k l x Hk) as [-> ->]. subst.
  destruct (flip k); auto.
Qed.
Lemma range_sc k l mx mn mx' mn' : k <> 0%Qc -> np_max l = Ok mx -> np_min l = Ok mn ->
  np_max (sc k l) = Ok mx' -> np_min (sc k l) = Ok mn' -> (mx' - mn' = Qc_abs k * (mx - mn))%Qc.
Proof.
  intros Hk E1 E2. destruct (np_extremes_sc k l mx mn Hk E1 E2) as [-> ->]. intros X Y. apply ok_inv in X, Y. subst.
  unfold Qc_abs, flip. destruct (Qc_ltb k 0); ring.
Qed.

Lemma total_sc k l : total (sc k l) = (k * total l)%Qc.
Proof. unfold total, sc. induction l as [|x l IH]; cbn [map fold_right]; [ring|]. rewrite IH. ring. Qed.

Lemma sc_length k v : length (sc k v) = length v.
Proof. apply map_length. Qed.
Lemma vsub_sc k x y : vsub (sc k x) (sc k y) = sc k (vsub x y).
Proof. unfold vsub, sc. rewrite map2_map_l, map2_map_r, map_map2. apply map2_ext. intros. num_qc. ring. Qed.
Lemma vadd_sc k x y : vadd (sc k x) (sc k y) = sc k (vadd x y).
Proof. unfold vadd, sc. rewrite map2_map_l, map2_map_r, map_map2. apply map2_ext. intros. num_qc. ring. Qed.
Lemma sum_rows_sc k n M : sum_rows n (map (sc k) M) = sc k (sum_rows n M).
Proof.
  unfold sum_rows. assert (Z : @vzeros Qc _ n = sc k (vzeros n)).
  { unfold vzeros, sc. rewrite map_rep. f_equal. num_qc. ring. }
  rewrite Z at 1. generalize (@vzeros Qc _ n) as z. induction M as [|r M IH]; intros z; cbn [map fold_left]; auto.
  rewrite vadd_sc. apply IH.
Qed.

Lemma abs_pos k : k <> 0%Qc -> (0 < Qc_abs k)%Qc.
Proof.
  intros Hk. unfold Qc_abs. destruct (Qc_ltb k 0) eqn:E; qc_bool; [qclra|].
  destruct (Qc_dec k 0) as [[X|X]|X]; auto; [qclra|congruence].
Qed.
Lemma abs_ltb k x y : k <> 0%Qc -> Qc_ltb (Qc_abs k * x) (Qc_abs k * y) = Qc_ltb x y.
Proof.
  intros Hk. apply abs_pos in Hk. set (p := Qc_abs k) in *. clearbody p.
  apply bool_iff. rewrite !Qc_ltb_lt. apply mul_lt_pos; auto. intros ->. qclra.
Qed.

Lemma end_condition_sc k c S IMF b : k <> 0%Qc -> end_condition c S IMF = Ok b ->
  end_condition (unit_cfg k c) (sc k S) (map (sc k) IMF) = Ok b.
Proof.
  intros Hk. unfold end_condition. cbv zeta. rewrite sc_length, sum_rows_sc, vsub_sc.
  set (tmp := vsub S (sum_rows (length S) IMF)). intros E.
  apply bind_ok in E as (mx & E1 & E). apply bind_ok in E as (mn & E2 & E).
  destruct (np_extremes_sc k tmp mx mn Hk E1 E2) as [F1 F2].
  pose proof (range_sc k tmp _ _ _ _ Hk E1 E2 F1 F2) as R. rewrite F1, F2. cbn [bind]. num_qc. rewrite R.
  cbn [unit_cfg rescaled range_thr total_power_thr]. rewrite abs_ltb by auto.
  destruct (Qc_ltb (mx - mn) (range_thr c)); auto.
  assert (A : nsum (map Qc_abs (sc k tmp)) = (Qc_abs k * nsum (map Qc_abs tmp))%Qc).
  { rewrite !nsum_total, <- total_sc. f_equal. unfold sc. rewrite !map_map. apply map_ext. apply abs_mul. }
  rewrite A, abs_ltb by auto. auto.
Qed.

(** The test of check_imf does not see a change of sign. *)
Lemma existsb_ext_map {X Y} (f : Y -> bool) (h : X -> Y) (f' : X -> bool) l :
  (forall x, f (h x) = f' x) -> existsb f (map h l) = existsb f' l.
Proof. intros E. induction l; cbn; f_equal; auto. Qed.
Lemma neg_eq (x y : Qc) : (- x = - y)%Qc -> x = y.
Proof. intros E. rewrite <- (Qcopp_involutive x), E. apply Qcopp_involutive. Qed.

Lemma check_neg c x y P Q b : let k := (- (1))%Qc in check_imf c x y P Q = Ok b ->
  check_imf c (sc k x) (sc k y) (map (gp k 0) Q) (map (gp k 0) P) = Ok b.
Proof.
  intros k. assert (Hk : k <> 0%Qc) by discriminate. unfold check_imf. cbv zeta.
  assert (GN : forall v, g k 0 v = (- v)%Qc) by (intros v; unfold g, k; ring).
  rewrite (existsb_ext_map _ (gp k 0) (fun p => nltb n0 (snd p)) Q).
  2:{ intros p. unfold gp. cbn [snd]. rewrite GN. num_qc. apply bool_iff. rewrite !Qc_ltb_lt. split; intros; qclra. }
  rewrite (existsb_ext_map _ (gp k 0) (fun p => nltb (snd p) n0) P).
  2:{ intros p. unfold gp. cbn [snd]. rewrite GN. num_qc. apply bool_iff. rewrite !Qc_ltb_lt. split; intros; qclra. }
  rewrite orb_comm. destruct (_ || _); auto.
  assert (SQ : forall v, map (fun u => nmul u u) (sc k v) = map (fun u : Qc => nmul u u) v).
  { intros v. unfold sc. rewrite map_map. apply map_ext. intros u. num_qc. subst k. ring. }
  rewrite !SQ, vsub_sc, SQ. destruct (nltb _ _); auto. intros E.
  apply bind_ok in E as (mx & E1 & E). apply bind_ok in E as (mn & E2 & E).
  destruct (np_extremes_sc k y mx mn Hk E1 E2) as [F1 F2].
  pose proof (range_sc k y _ _ _ _ Hk E1 E2 F1 F2) as R. rewrite F1, F2. cbn [bind]. num_qc. rewrite R.
  replace (Qc_abs k * (mx - mn))%Qc with (mx - mn)%Qc by (change (Qc_abs k) with 1%Qc; ring).
  destruct (_ && _); auto.
  assert (EX : existsb is0 (sc k x) = existsb is0 x) by (apply existsb_ext_map; intros; apply k_is0; auto).
  rewrite EX.
  replace (map2 (fun d x0 : Qc => (d / x0) * (d / x0))%Qc (sc k (vsub x y)) (sc k x))
    with (map2 (fun d x0 : Qc => (d / x0) * (d / x0))%Qc (vsub x y) x).
  { exact E. }
  unfold sc. rewrite map2_map_l, map2_map_r. apply map2_ext. intros d u.
  assert (D : ((k * d) / (k * u) = d / u)%Qc).
  { destruct (Qc_eq_dec u 0) as [->|Hu].
    - rewrite Qcmult_0_r. unfold Qcdiv. change (/ 0)%Qc with 0%Qc. rewrite !Qcmult_0_r. reflexivity.
    - field. split; auto. }
  rewrite D. reflexivity.
Qed.

Lemma gp0 k p : gp k 0 p = (fst p, k * snd p)%Qc.
Proof. unfold gp, g. rewrite Qcplus_0_r. reflexivity. Qed.

Section Unit.
Variable k : Qc.
Hypothesis Hk : k <> 0%Qc.
Variable spl : spline_oracle Qc.
Hypothesis Hs : commutes k 0 spl.
Variable c : emd_config Qc.
Hypothesis Hd : extrema_detection c = Simple.
Hypothesis Hm : k = (- (1))%Qc \/ FIXE c <> 0 \/ FIXE_H c <> 0.

Lemma step_sc S x P Q : sift_step spl c (tz (length S)) S = Ok (x, P, Q) ->
  sift_step spl (unit_cfg k c) (tz (length S)) (sc k S) =
    Ok (sc k x, fst (sw k (map (gp k 0) P, map (gp k 0) Q)), snd (sw k (map (gp k 0) P, map (gp k 0) Q))).
Proof. intros E. apply (sift_step_g k 0 Hk _ _ _ _ _ _ Hs Hd) in E. rewrite g_sc in E. exact E. Qed.

Lemma sift_sc fuel n nh ext x y ext' fin : sift spl fuel c (tz (length x)) n nh ext x = Ok (y, ext', fin) ->
  sift spl fuel (unit_cfg k c) (tz (length x)) n nh ext (sc k x) = Ok (sc k y, ext', fin).
Proof.
  revert n nh ext x. induction fuel as [|fuel IH]; intros n nh ext x; [discriminate|].
  cbn [sift]. cbv zeta. cbn [unit_cfg rescaled MAX_ITERATION extrema_detection FIXE FIXE_H].
  destruct (MAX_ITERATION c <=? n + 1). { intros E. apply ok_inv in E. injection E as -> -> ->. reflexivity. }
  rewrite Hd. intros E. apply bind_ok in E as (e & E1 & E).
  destruct (find_sc k _ _ _ Hk E1) as (e' & E1' & N & Z). rewrite E1'. cbn [bind]. rewrite N.
  destruct (2 <? ext_no e). 2:{ apply ok_inv in E. injection E as -> -> ->. reflexivity. }
  apply bind_ok in E as ([[x' P] Q] & E2 & E).
  assert (L : length x' = length x) by (eapply sift_step_length; exact E2).
  apply step_sc in E2. change (rescaled (Qc_abs k) c) with (unit_cfg k c). rewrite E2. cbn [bind].
  destruct (negb (FIXE c =? 0)) eqn:EF.
  { destruct (FIXE c <=? n + 1). { apply ok_inv in E. injection E as -> -> ->. reflexivity. }
    rewrite <- L in *. apply IH. exact E. }
  destruct (negb (FIXE_H c =? 0)) eqn:EH.
  { apply bind_ok in E as (e2 & E3 & E). destruct (find_sc k _ _ _ Hk E3) as (e2' & E3' & N2 & Z2).
    rewrite E3'. cbn [bind]. rewrite N2, Z2. destruct (n + 1 =? 1). { rewrite <- L in *. apply IH. exact E. }
    destruct (FIXE_H c <=? _). { apply ok_inv in E. injection E as -> -> ->. reflexivity. }
    rewrite <- L in *. apply IH. exact E. }
  destruct Hm as [Hm1|[Hm1|Hm1]]; [|lia|lia].
  apply bind_ok in E as (e2 & E3 & E). destruct (find_sc k _ _ _ Hk E3) as (e2' & E3' & N2 & Z2).
  rewrite E3'. cbn [bind]. rewrite N2, Z2. apply bind_ok in E as (f1 & E4 & E).
  apply check_neg in E4. cbv zeta in E4. rewrite <- Hm1 in E4.
  assert (FL : flip k = true) by (rewrite Hm1; reflexivity). unfold sw. rewrite FL. cbn [fst snd].
  change (check_imf (unit_cfg k c)) with (check_imf c). rewrite E4. cbn [bind].
  destruct (f1 && _). { apply ok_inv in E. injection E as -> -> ->. reflexivity. }
  rewrite <- L in *. apply IH. exact E.
Qed.

Lemma loop_sc fuel S max_imf IMF ext IMF' ext' : shaped (length S) IMF ->
  emd_loop spl fuel c S (tz (length S)) max_imf IMF ext = Ok (IMF', ext') ->
  emd_loop spl fuel (unit_cfg k c) (sc k S) (tz (length S)) max_imf (map (sc k) IMF) ext = Ok (map (sc k) IMF', ext').
Proof.
  revert IMF ext. induction fuel as [|fuel IH]; intros IMF ext HI; [discriminate|].
  cbn [emd_loop]. cbv zeta. rewrite sc_length, sum_rows_sc, vsub_sc. intros E.
  apply bind_ok in E as ([[imf e1] fin] & E1 & E).
  assert (HL : length (vsub S (sum_rows (length S) IMF)) = length S).
  { apply vsub_length. symmetry. apply sum_rows_length. apply Forall_forall. assumption. }
  assert (L1 : length imf = length S) by (apply sift_length in E1; congruence).
  rewrite <- HL in E1 at 1. apply sift_sc in E1. rewrite HL in E1.
  change (sift_fuel (unit_cfg k c)) with (sift_fuel c). rewrite E1. cbn [bind].
  apply bind_ok in E as (stop & E2 & E).
  change [sc k imf] with (map (sc k) [imf]). rewrite <- map_app.
  rewrite (end_condition_sc k _ _ _ _ Hk E2). cbn [bind]. rewrite zlen_map.
  destruct (stop || _). { apply ok_inv in E. injection E as -> ->. reflexivity. }
  destruct fin. { apply ok_inv in E. injection E as -> ->. reflexivity. }
  apply IH; auto. apply Forall_app. split; auto.
Qed.

Lemma map_removelast {X Y} (f : X -> Y) l : map f (removelast l) = removelast (map f l).
Proof. induction l as [|x [|y l] IH]; auto. cbn [removelast map] in *. rewrite IH. reflexivity. Qed.

Lemma emd_sc fuel S T max_imf o : (2 <= length S)%nat -> emd spl fuel c S T max_imf = Ok o ->
  exists o', emd spl fuel (unit_cfg k c) (sc k S) T max_imf = Ok o' /\
    imfs o' = map (sc k) (imfs o) /\ residue o' = sc k (residue o) /\
    (k = (- (1))%Qc -> out o' = map (sc k) (out o)).
Proof.
  intros HS. unfold emd. intros E. apply bind_ok in E as (t & E1 & E).
  assert (ET : emd_time (unit_cfg k c) (sc k S) T = Ok t).
  { unfold emd_time in *. rewrite sc_length. exact E1. }
  rewrite ET. cbn [bind]. rewrite sc_length.
  assert (Ht : t = tz (length S)).
  { rewrite (simple_time c Hd S T HS) in E1; [apply ok_inv in E1; auto|].
    intros t' ->. unfold emd_time in E1. destruct (Nat.eqb_spec (length S) (length t')) as [L|L]; auto. discriminate. }
  destruct (negb _); [discriminate|]. subst t.
  apply bind_ok in E as ([IMF ext] & E2 & E). apply loop_sc in E2; [|constructor].
  cbn [map] in E2. rewrite E2. cbn [bind]. apply ok_inv in E. subst o.
  eexists. split; [reflexivity|]. unfold emd_finish. cbv zeta. cbn [imfs residue out].
  rewrite sc_length.
  assert (EI : (if ext <=? 2 then removelast (map (sc k) IMF) else map (sc k) IMF) =
               map (sc k) (if ext <=? 2 then removelast IMF else IMF))
    by (destruct (ext <=? 2); [symmetry; apply map_removelast|reflexivity]).
  rewrite EI, sum_rows_sc, vsub_sc. split; auto. split; auto. intros Hm1.
  set (I := if ext <=? 2 then _ else _). set (r := vsub S _).
  assert (AC : allclose0 (sc k r) = allclose0 r).
  { unfold allclose0, sc. clear -Hm1. induction r as [|x r IH]; auto. cbn [map forallb]. rewrite IH. f_equal.
    num_qc. rewrite abs_mul, Hm1. change (Qc_abs (- (1))) with 1%Qc. rewrite Qcmult_1_l. reflexivity. }
  rewrite AC. destruct (allclose0 r); auto. rewrite map_app. reflexivity.
Qed.
End Unit.

(** ** Offset *)
Definition sh (a : Qc) (v : list Qc) : list Qc := map (fun y => y + a)%Qc v.
Lemma g_sh a l : map (g 1 a) l = sh a l.
Proof. apply map_ext. intros. unfold g. ring. Qed.
Lemma sh_length a v : length (sh a v) = length v.
Proof. apply map_length. Qed.
Lemma one_ne : 1%Qc <> 0%Qc.
Proof. discriminate. Qed.
Lemma sc_one v : map (Qcmult 1) v = v.
Proof. rewrite <- map_id. apply map_ext. intros. ring. Qed.

Lemma np_extremes_sh a l mx mn : np_max l = Ok mx -> np_min l = Ok mn ->
  np_max (sh a l) = Ok (mx + a)%Qc /\ np_min (sh a l) = Ok (mn + a)%Qc.
Proof.
  destruct l as [|x l]; [discriminate|]. cbn [sh map]. fold (sh a l). rewrite !np_max_qc, !np_min_qc. num_qc.
  intros E1 E2. apply ok_inv in E1, E2. subst.
  assert (G : forall x y, Qc_ltb (x + a) (y + a) = Qc_ltb x y).
  { intros u v. apply bool_iff. rewrite !Qc_ltb_lt. split; intros; qclra. }
  split; f_equal; revert x; induction l as [|y l IH]; intros x; cbn [sh map fold_left]; auto; fold (sh a l);
    rewrite G; destruct (Qc_ltb _ _); apply IH.
Qed.

Lemma abs_sum_nonneg l : (0 <= nsum (map Qc_abs l))%Qc.
Proof.
  rewrite nsum_total. unfold total. induction l as [|x l IH]; cbn [map fold_right]; [qclra|].
  pose proof (Qc_abs_nonneg x). qclra.
Qed.

Section Offset.
Variable a : Qc.
Variable spl : spline_oracle Qc.
Hypothesis Hs : commutes 1 a spl.
Variable c : emd_config Qc.
Hypothesis Hd : extrema_detection c = Simple.
Hypothesis Hm : FIXE c <> 0 \/ FIXE_H c <> 0.
Hypothesis Hit : 1 < MAX_ITERATION c.
Hypothesis Hp : (total_power_thr c <= 0)%Qc.

Lemma step_sh S x P Q : sift_step spl c (tz (length S)) S = Ok (x, P, Q) ->
  exists P' Q', sift_step spl c (tz (length S)) (sh a S) = Ok (x, P', Q').
Proof.
  intros E. apply (sift_step_g 1 a one_ne _ _ _ _ _ _ Hs Hd) in E. rewrite g_sh, sc_one in E. eauto.
Qed.

Lemma sift_sh fuel ext x y ext' fin : sift spl fuel c (tz (length x)) 0 0 ext x = Ok (y, ext', fin) ->
  (ext' <= 2 /\ fin = true /\ y = x /\ sift spl fuel c (tz (length x)) 0 0 ext (sh a x) = Ok (sh a x, ext', true)) \/
  sift spl fuel c (tz (length x)) 0 0 ext (sh a x) = Ok (y, ext', fin).
Proof.
  destruct fuel as [|fuel]; [discriminate|]. cbn [sift]. cbv zeta. change (0 + 1) with 1.
  destruct (Z.leb_spec (MAX_ITERATION c) 1) as [|_]; [lia|].
  rewrite Hd. intros E. apply bind_ok in E as (e & E1 & E).
  destruct (find_g 1 a one_ne _ _ _ E1) as (e' & E1' & Hsw & _). rewrite g_sh in E1'. rewrite E1'. cbn [bind].
  rewrite (ext_no_sw 1 _ _ Hsw). destruct (Z.ltb_spec 2 (ext_no e)) as [H3|H3].
  2:{ left. apply ok_inv in E. injection E as -> -> ->. auto. }
  right. apply bind_ok in E as ([[x' P] Q] & E2 & E). destruct (step_sh _ _ _ _ E2) as (P' & Q' & E2').
  rewrite E2'. cbn [bind]. destruct (negb (FIXE c =? 0)) eqn:EF; [exact E|].
  destruct (negb (FIXE_H c =? 0)) eqn:EH; [exact E|]. lia.
Qed.

Lemma power_off l : Qc_ltb (nsum (map Qc_abs l)) (total_power_thr c) = false.
Proof. apply Qc_ltb_ge. eapply Qcle_trans; [exact Hp|apply abs_sum_nonneg]. Qed.

Lemma vsub_sh x y : vsub (sh a x) y = sh a (vsub x y).
Proof. unfold vsub, sh. rewrite map2_map_l, map_map2. apply map2_ext. intros. num_qc. ring. Qed.

Lemma end_condition_sh S IMF b : end_condition c S IMF = Ok b -> end_condition c (sh a S) IMF = Ok b.
Proof.
  unfold end_condition. cbv zeta. rewrite sh_length, vsub_sh. set (tmp := vsub S _). intros E.
  apply bind_ok in E as (mx & E1 & E). apply bind_ok in E as (mn & E2 & E).
  destruct (np_extremes_sh a tmp mx mn E1 E2) as [F1 F2]. rewrite F1, F2. cbn [bind]. num_qc.
  replace (mx + a - (mn + a))%Qc with (mx - mn)%Qc by ring.
  rewrite power_off in *. exact E.
Qed.

Definition same_trend (S : list Qc) (A B : list (list Qc) * Z) : Prop :=
  snd A = snd B /\
  ((snd A <= 2 /\ exists I r, fst A = I ++ [r] /\ fst B = I ++ [sh a r]) \/ fst A = fst B).

Lemma loop_sh fuel S max_imf IMF ext R : shaped (length S) IMF ->
  emd_loop spl fuel c S (tz (length S)) max_imf IMF ext = Ok R ->
  exists R', emd_loop spl fuel c (sh a S) (tz (length S)) max_imf IMF ext = Ok R' /\ same_trend S R R'.
Proof.
  revert IMF ext. induction fuel as [|fuel IH]; intros IMF ext HI; [discriminate|].
  cbn [emd_loop]. cbv zeta. rewrite sh_length, vsub_sh. intros E.
  apply bind_ok in E as ([[imf e1] fin] & E1 & E). set (r := vsub S (sum_rows (length S) IMF)) in *.
  assert (HL0 : length (sum_rows (length S) IMF) = length S).
  { apply sum_rows_length. apply Forall_forall. assumption. }
  assert (HL : length r = length S) by (apply vsub_length; auto).
  assert (L1 : length imf = length S) by (apply sift_length in E1; congruence).
  rewrite <- HL in E1 at 1. apply sift_sh in E1. rewrite HL in E1.
  apply bind_ok in E as (stop & E2 & E).
  destruct E1 as [(A1 & A2 & A3 & A4)|E1].
  - rewrite A4. cbn [bind]. subst fin imf.
    assert (Estop : end_condition c (sh a S) (IMF ++ [sh a r]) = Ok stop).
    { rewrite <- E2. unfold end_condition. cbv zeta. rewrite sh_length.
      replace (vsub (sh a S) (sum_rows (length S) (IMF ++ [sh a r]))) with (vsub S (sum_rows (length S) (IMF ++ [r]))); auto.
      rewrite !sum_rows_app. clear -HL HL0. clearbody r. revert HL HL0.
      generalize (sum_rows (length S) IMF) as z. intros z HL HL0. unfold vsub, vadd, sh. revert r z HL HL0.
      induction S as [|s S IHS]; intros [|u r] [|v z] HL HL0; cbn in *; try discriminate; auto.
      f_equal; [num_qc; ring|]. apply IHS; congruence. }
    rewrite Estop. cbn [bind]. replace (zlen (IMF ++ [sh a r])) with (zlen (IMF ++ [r])) by (rewrite !zlen_app; reflexivity).
    exists (IMF ++ [sh a r], e1). split; [destruct (stop || _); reflexivity|].
    assert (ER : R = (IMF ++ [r], e1)) by (destruct (stop || _); apply ok_inv in E; auto). subst R.
    split; auto. left. split; auto. exists IMF, r. auto.
  - rewrite E1. cbn [bind]. rewrite (end_condition_sh _ _ _ E2). cbn [bind].
    destruct (stop || _). { exists R. split; auto. split; auto. }
    destruct fin. { exists R. split; auto. split; auto. }
    apply IH; auto. apply Forall_app. split; auto.
Qed.

Lemma emd_sh fuel S T max_imf o : (2 <= length S)%nat -> emd spl fuel c S T max_imf = Ok o ->
  exists o', emd spl fuel c (sh a S) T max_imf = Ok o' /\ imfs o' = imfs o /\ residue o' = sh a (residue o).
Proof.
  intros HS. unfold emd. intros E. apply bind_ok in E as (t & E1 & E).
  assert (ET : emd_time c (sh a S) T = Ok t) by (unfold emd_time in *; rewrite sh_length; exact E1).
  rewrite ET. cbn [bind]. rewrite sh_length.
  assert (Ht : t = tz (length S)).
  { rewrite (simple_time c Hd S T HS) in E1; [apply ok_inv in E1; auto|].
    intros t' ->. unfold emd_time in E1. destruct (Nat.eqb_spec (length S) (length t')) as [L|L]; auto. discriminate. }
  destruct (negb _); [discriminate|]. subst t.
  apply bind_ok in E as ([IMF ext] & E2 & E). destruct (loop_sh _ _ _ _ _ _ (Forall_nil _) E2) as ([IMF' ext'] & E2' & Hx & HT).
  cbn [fst snd] in *. subst ext'. rewrite E2'. cbn [bind]. apply ok_inv in E. subst o.
  eexists. split; [reflexivity|]. unfold emd_finish. cbv zeta. cbn [imfs residue].
  assert (EI : (if ext <=? 2 then removelast IMF' else IMF') = (if ext <=? 2 then removelast IMF else IMF)).
  { destruct HT as [(H2 & I & r & -> & ->)| ->]; auto. destruct (Z.leb_spec ext 2); [|lia]. rewrite !removelast_last. reflexivity. }
  rewrite EI, sh_length, vsub_sh. auto.
Qed.
End Offset.

(** ** The statements *)
Lemma responds_commutes k a f spl : (forall y, f y = g k a y) -> responds f spl -> commutes k a spl.
Proof.
  intros Hf Hr kind pts t v E. apply Hr in E.
  replace (map (gp k a) pts) with (map (fun p => (fst p, f (snd p))) pts).
  - rewrite E. f_equal. apply map_ext. auto.
  - apply map_ext. intros p. unfold gp. rewrite Hf. reflexivity.
Qed.

Lemma rescaled_one c : rescaled 1 c = c.
Proof. unfold rescaled. rewrite !Qcmult_1_l. destruct c; reflexivity. Qed.

Lemma opp_sc v : map Qcopp v = sc (- (1))%Qc v.
Proof. apply map_ext. intros. ring. Qed.

Theorem emd_negated spl fuel c S T max_imf o : responds Qcopp spl -> extrema_detection c = Simple ->
  (2 <= length S)%nat -> emd spl fuel c S T max_imf = Ok o ->
  exists o', emd spl fuel c (map Qcopp S) T max_imf = Ok o' /\
    out o' = map (map Qcopp) (out o) /\ imfs o' = map (map Qcopp) (imfs o) /\ residue o' = map Qcopp (residue o).
Proof.
  intros Hr Hd HS E. set (k := (- (1))%Qc).
  assert (Hk : k <> 0%Qc) by discriminate.
  assert (Hc : commutes k 0 spl) by (apply (responds_commutes k 0 Qcopp); auto; intros; unfold g, k; ring).
  destruct (emd_sc k Hk spl Hc c Hd (or_introl eq_refl) fuel S T max_imf o HS E) as (o' & E' & H1 & H2 & H3).
  assert (EC : unit_cfg k c = c) by (unfold unit_cfg; change (Qc_abs k) with 1%Qc; apply rescaled_one).
  rewrite EC in E'. rewrite !opp_sc.
  assert (EM : forall M, map (map Qcopp) M = map (sc k) M) by (intros; apply map_ext; intros; apply opp_sc).
  rewrite !EM. exists o'. split; [exact E'|]. split; [exact (H3 eq_refl)|]. split; [exact H1|exact H2].
Qed.

Lemma extrema_idx_swap S M m : extrema_idx S = Ok (M, m) -> extrema_idx (map Qcopp S) = Ok (m, M).
Proof.
  intros E. apply (extrema_idx_g (- (1))%Qc 0 ltac:(discriminate)) in E. rewrite g_sc in E. rewrite opp_sc. exact E.
Qed.
Theorem extrema_negated (T S : list Qc) e : find_extrema Simple T S = Ok e ->
  find_extrema Simple T (map Qcopp S) =
    Ok (MkExt (min_pos e) (map Qcopp (min_val e)) (max_pos e) (map Qcopp (max_val e)) (indzer e)).
Proof.
  cbn [find_extrema]. unfold find_extrema_simple. intros E. apply bind_ok in E as ([M m] & E0 & E).
  rewrite (extrema_idx_swap _ _ _ E0). cbn [bind].
  apply bind_ok in E as (mp & E1 & E). apply bind_ok in E as (mv & E2 & E).
  apply bind_ok in E as (np & E3 & E). apply bind_ok in E as (nv & E4 & E).
  apply (py_take_map Qcopp) in E2. apply (py_take_map Qcopp) in E4.
  rewrite E3. cbn [bind]. rewrite E4. cbn [bind]. rewrite E1. cbn [bind]. rewrite E2. cbn [bind].
  apply ok_inv in E. subst e. cbn [min_pos min_val max_pos max_val indzer].
  rewrite (opp_sc S), zero_crossings_sc by discriminate. reflexivity.
Qed.

Theorem emd_unit spl fuel c S T max_imf k r o : (0 < r)%Qc -> k = r \/ k = (- r)%Qc ->
  responds (Qcmult k) spl -> extrema_detection c = Simple ->
  FIXE c <> 0 \/ FIXE_H c <> 0 -> (2 <= length S)%nat -> emd spl fuel c S T max_imf = Ok o ->
  exists o', emd spl fuel (rescaled r c) (map (Qcmult k) S) T max_imf = Ok o' /\
    imfs o' = map (map (Qcmult k)) (imfs o) /\ residue o' = map (Qcmult k) (residue o).
Proof.
  intros Hr0 Hkr Hr Hd Hm HS E.
  assert (Hk : k <> 0%Qc) by (intros ->; destruct Hkr; qclra).
  assert (Hk' : Qc_abs k = r) by (unfold Qc_abs; destruct (Qc_ltb k 0) eqn:L; qc_bool; destruct Hkr; subst; qclra).
  assert (Hc : commutes k 0 spl) by (apply (responds_commutes k 0 (Qcmult k)); auto; intros; unfold g; ring).
  destruct (emd_sc k Hk spl Hc c Hd (or_intror Hm) fuel S T max_imf o HS E) as (o' & E' & H1 & H2 & _).
  unfold unit_cfg in E'. rewrite Hk' in E'. exists o'. auto.
Qed.

Theorem emd_offset spl fuel c S T max_imf a o : responds (fun y => y + a)%Qc spl -> extrema_detection c = Simple ->
  FIXE c <> 0 \/ FIXE_H c <> 0 -> 1 < MAX_ITERATION c -> (total_power_thr c <= 0)%Qc ->
  (2 <= length S)%nat -> emd spl fuel c S T max_imf = Ok o ->
  exists o', emd spl fuel c (map (fun y => y + a)%Qc S) T max_imf = Ok o' /\
    imfs o' = imfs o /\ residue o' = map (fun y => y + a)%Qc (residue o).
Proof.
  intros Hr Hd Hm Hi Hp HS E.
  assert (Hc : commutes 1 a spl) by (apply (responds_commutes 1 a (fun y => y + a)%Qc); auto; intros; unfold g; ring).
  exact (emd_sh a spl Hc c Hd Hm Hi Hp fuel S T max_imf o HS E).
Qed.

(** Piecewise linear interpolation commutes with affine maps. *)
Lemma lin_at_affine k a pts u v : lin_at pts u = Ok v -> lin_at (map (gp k a) pts) u = Ok (g k a v).
Proof.
  induction pts as [|[x0 y0] [|[x1 y1] pts] IH]; try discriminate. cbn [map] in *.
  unfold gp at 1 2. cbn [fst snd]. cbn [lin_at].
  destruct (nltb u x0); [discriminate|]. destruct (nleb u x1).
  - intros E. apply ok_inv in E. subst v. f_equal. unfold g. num_qc. unfold Qcdiv. ring.
  - intros E. apply IH. exact E.
Qed.
Lemma lin_responds k a f : (forall y, f y = g k a y) -> responds f lin_spl.
Proof.
  intros Hf kind pts t v. unfold lin_spl. revert v. induction t as [|u t IH]; cbn [mapM]; intros v E.
  - apply ok_inv in E. subst v. reflexivity.
  - apply bind_ok in E as (w & E1 & E). apply bind_ok in E as (v' & E2 & E). apply ok_inv in E. subst v.
    assert (EP : map (fun p => (fst p, f (snd p))) pts = map (gp k a) pts)
      by (apply map_ext; intros; unfold gp; rewrite Hf; reflexivity).
    rewrite EP in *. rewrite (lin_at_affine k a _ _ _ E1). cbn [bind]. rewrite (IH _ E2). cbn [bind map].
    rewrite Hf. reflexivity.
Qed.
