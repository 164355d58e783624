(** * LocalProofs: sifting with local envelopes is local. *)
From Verif Require Import PyFacts QcFacts Emd Spec Demo EmdProofs EmdExact EmdTop EmdSimple DemoFacts EmdSym.
From Verif Require Import Runs ExtremaProofs ExtremaSpec PrepareProofs SplineProofs ReverseLin ReverseEmd Envelope.
From Verif Require Import RevSpec SymSpec Kinds KindsSpec KindsProofs KindsRules KindsCubic KindsOnly KindsMono KindsAll KindsExact ParabolProofs LocalSpec.
From Coq Require Import ZifyBool ZifyNat QArith Qcanon Lia.
Open Scope Z_scope.

(** ** Extrema *)
Lemma rep_in_window x s a b p : 0 <= a -> b < zlen x -> no_flat x a b -> a < p < b -> s <> 0 ->
  rep x s p <-> (sgn x (p - 1) = s /\ sgn x p = - s).
Proof.
  intros Ha Hb HF Hp Hs.
  assert (NZ : forall j, a <= j < b -> sgn x j <> 0).
  { intros j Hj C. apply (HF j Hj). destruct (sgn_cases x j) as [[E ?]|[[E ?]|[E ?]]]; try lia. congruence. }
  split.
  - intros (u & v & Huv & HZ & Hv & E & HC).
    pose proof (round_half_bounds u v ltac:(lia)) as HB. rewrite Z.add_comm in E. rewrite <- E in HB.
    assert (u = v).
    { destruct (Z.eq_dec u v); auto. exfalso. destruct (Z.eq_dec p v).
      - apply (NZ (v - 1) ltac:(lia)). apply HZ. lia.
      - apply (NZ p ltac:(lia)). apply HZ. lia. }
    subst v. assert (EP : p = u) by lia. clear E HB. subst p. split; auto. destruct HC as [(_ & _ & HC)|[(HC & _)|(H0 & HC & _)]]; auto; exfalso; lia.
  - intros [H1 H2]. exists p, p. split; [lia|]. split; [intros; lia|]. split; auto. split.
    + pose proof (round_half_bounds p p ltac:(lia)). lia.
    + left. split; auto. split; auto; lia.
Qed.
Lemma rep_peak x a b p : 0 <= a -> b < zlen x -> no_flat x a b -> a < p < b -> rep x 1 p <-> peak x p.
Proof.
  intros Ha Hb HF Hp. rewrite (rep_in_window x 1 a b p) by (auto; lia). unfold peak.
  destruct (sgn_cases x (p - 1)) as [[E1 F1]|[[E1 F1]|[E1 F1]]], (sgn_cases x p) as [[E2 F2]|[[E2 F2]|[E2 F2]]];
    rewrite E1, E2; replace (p - 1 + 1) with p in F1 by lia; split; intros [G1 G2]; try lia; try (split; auto; fail); exfalso; qclra.
Qed.
Lemma rep_trough x a b p : 0 <= a -> b < zlen x -> no_flat x a b -> a < p < b -> rep x (-1) p <-> trough x p.
Proof.
  intros Ha Hb HF Hp. rewrite (rep_in_window x (-1) a b p) by (auto; lia). unfold trough.
  destruct (sgn_cases x (p - 1)) as [[E1 F1]|[[E1 F1]|[E1 F1]]], (sgn_cases x p) as [[E2 F2]|[[E2 F2]|[E2 F2]]];
    rewrite E1, E2; replace (p - 1 + 1) with p in F1 by lia; split; intros [G1 G2]; try lia; try (split; auto; fail); exfalso; qclra.
Qed.

(** ** Increasing lists of points *)
Local Notation pt := (Qc * Qc)%type.
Definition inside (lo hi : Qc) (p : pt) : bool := Qc_leb lo (fst p) && Qc_leb (fst p) hi.
Lemma inside_iff lo hi p : inside lo hi p = true <-> (lo <= fst p)%Qc /\ (fst p <= hi)%Qc.
Proof. unfold inside. rewrite Bool.andb_true_iff, !Qc_leb_le. tauto. Qed.

Lemma inside_block lo hi (P : list pt) : increasing (map fst P) -> exists A B, P = A ++ filter (inside lo hi) P ++ B.
Proof.
  induction P as [|p P IH]; intros HI; [exists [], []; reflexivity|].
  pose proof (SplineProofs.increasing_tl _ _ HI) as HI'. destruct (IH HI') as (A & B & E). cbn [filter].
  assert (HL : forall q, In q P -> (fst p < fst q)%Qc).
  { intros q Hq. apply (SplineProofs.increasing_head _ (map fst P)); auto. apply in_map; auto. }
  destruct (inside lo hi p) eqn:Ep.
  - exists []. cbn [app]. destruct A as [|a A].
    + exists B. cbn [app] in E. rewrite E at 1. reflexivity.
    + destruct (filter (inside lo hi) P) as [|f F] eqn:EF.
      * exists (a :: A ++ B). rewrite E at 1. reflexivity.
      * exfalso. apply inside_iff in Ep as [E1 E2].
        assert (Ha : In a P) by (rewrite E; left; auto).
        assert (Hf : In f (filter (inside lo hi) P)) by (rewrite EF; left; auto).
        apply filter_In in Hf as [_ Hf]. apply inside_iff in Hf as [F1 F2].
        assert (L1 : (fst a < fst f)%Qc).
        { rewrite E in HI'. cbn [app map] in HI'. apply (SplineProofs.increasing_head _ _ _ HI').
          apply (in_map fst (A ++ f :: F ++ B)). apply in_or_app. right. left. reflexivity. }
        pose proof (HL a Ha) as L2. assert (Ia : inside lo hi a = true) by (apply inside_iff; split; qclra).
        assert (Hin : In a (f :: F)) by (rewrite <- EF; apply filter_In; auto).
        rewrite E in HI'. cbn [app map] in HI'.
        assert (fst a < fst a)%Qc; [|qclra].
        apply (SplineProofs.increasing_head _ _ _ HI'). apply (in_map fst (A ++ f :: F ++ B)). apply in_or_app. right. destruct Hin as [->|Hin]; [left; auto|right; apply in_or_app; auto].
  - exists (p :: A), B. cbn [app]. rewrite E at 1. reflexivity.
Qed.

Lemma increasing_filt f (P : list pt) : increasing (map fst P) -> increasing (map fst (filter f P)).
Proof.
  induction P as [|p P IH]; intros HI; auto. cbn [filter]. pose proof (SplineProofs.increasing_tl _ _ HI) as HI'.
  destruct (f p); auto. cbn [map]. apply ParabolProofs.increasing_cons; auto.
  intros y Hy. apply in_map_iff in Hy as (q & <- & Hq). apply filter_In in Hq as [Hq _].
  apply (SplineProofs.increasing_head _ (map fst P)); auto. apply in_map; auto.
Qed.

Lemma increasing_unique (P Q : list pt) : increasing (map fst P) -> increasing (map fst Q) ->
  (forall p, In p P <-> In p Q) -> P = Q.
Proof.
  revert Q. induction P as [|p P IH]; intros [|q Q] HP HQ H; auto.
  - exfalso. apply (H q). left; auto.
  - exfalso. apply (H p). left; auto.
  - assert (LP : forall u, In u P -> (fst p < fst u)%Qc).
    { intros u Hu. apply (SplineProofs.increasing_head _ (map fst P)); auto. apply in_map; auto. }
    assert (LQ : forall u, In u Q -> (fst q < fst u)%Qc).
    { intros u Hu. apply (SplineProofs.increasing_head _ (map fst Q)); auto. apply in_map; auto. }
    assert (p = q).
    { destruct (proj1 (H p) (or_introl eq_refl)) as [E|E]; auto. destruct (proj2 (H q) (or_introl eq_refl)) as [F|F]; auto.
      apply LQ in E. apply LP in F. exfalso. qclra. }
    subst q. f_equal. apply IH; try (eapply SplineProofs.increasing_tl; eauto).
    intros u. split; intros Hu.
    + destruct (proj1 (H u) (or_intror Hu)) as [<-|E]; auto. apply LP in Hu. exfalso. qclra.
    + destruct (proj2 (H u) (or_intror Hu)) as [<-|E]; auto. apply LQ in Hu. exfalso. qclra.
Qed.

Lemma split_at u (F : list pt) : increasing (map fst F) -> (forall p, In p F -> fst p <> u) ->
  exists L R, F = L ++ R /\ (forall p, In p L -> (fst p < u)%Qc) /\ (forall p, In p R -> (u < fst p)%Qc).
Proof.
  induction F as [|p F IH]; intros HI HN; [exists [], []; repeat split; intros p []|].
  destruct (Qclt_le_dec u (fst p)) as [H|H].
  - exists [], (p :: F). split; auto. split; [intros ? []|]. intros q [<-|Hq]; auto.
    pose proof (SplineProofs.increasing_head _ (map fst F) (fst q) HI (in_map fst _ _ Hq)). qclra.
  - destruct IH as (L & R & E & H1 & H2).
    + eapply SplineProofs.increasing_tl; eauto.
    + intros q Hq. apply HN. right; auto.
    + exists (p :: L), R. split; [rewrite E; reflexivity|]. split; auto. intros q [<-|Hq]; auto.
      apply Qcle_lt_or_eq in H as [H|H]; auto. exfalso. apply (HN p); [left|]; auto.
Qed.

Lemma last_one {X} (L : list X) p : In p L -> exists L' x, L = L' ++ [x].
Proof.
  intros Hp. destruct (exists_last (l := L)) as (L' & x & E); [intros ->; destruct Hp|]. eauto.
Qed.
Lemma last_two {X} (L : list X) o p : In o L -> In p L -> o <> p -> exists L' x y, L = L' ++ [x; y].
Proof.
  intros Ho Hp N. destruct (last_one L p Hp) as (L1 & y & ->).
  destruct L1 as [|z L1]; [cbn in *; intuition congruence|].
  destruct (last_one (z :: L1) z) as (L2 & x & E); [left; auto|]. rewrite E. exists L2, x, y. rewrite <- app_assoc. reflexivity.
Qed.
Lemma first_two {X} (L : list X) o p : In o L -> In p L -> o <> p -> exists x y L', L = x :: y :: L'.
Proof. destruct L as [|x [|y L]]; cbn; intros; try tauto; [intuition congruence|eauto]. Qed.

(** ** Interpolation *)
Lemma pchip_nth a o p q b : forall ds, pchip_slopes (a ++ o :: p :: q :: b) = Ok ds -> nth_error ds (Datatypes.S (length a)) = Some (pchip3 (o, p, q)).
Proof.
  intros ds E. pose proof (triples_nth a o p q b) as HT. set (pts := a ++ o :: p :: q :: b) in *.
  assert (H3 : (3 <= length pts)%nat) by (unfold pts; rewrite app_length; cbn [length]; lia). clearbody pts.
  destruct (ends_ex pts H3) as (p0 & p1 & p2 & r0 & r1 & r2 & l & m & EP & ER).
  subst pts. unfold pchip_slopes in E. cbv beta iota in E. rewrite ER in E. apply ok_inv in E. subst ds. cbn [nth_error].
  rewrite nth_error_app1.
  - rewrite nth_error_map, HT. reflexivity.
  - rewrite map_length. apply nth_error_Some. rewrite HT. discriminate.
Qed.

Lemma combine_at {X Y} c (p q : X) b (ds : list Y) d d' : length ds = length (c ++ p :: q :: b) ->
  nth_error ds (length c) = Some d -> nth_error ds (Datatypes.S (length c)) = Some d' ->
  exists a' b', combine (c ++ p :: q :: b) ds = a' ++ (p, d) :: (q, d') :: b'.
Proof.
  revert ds. induction c as [|x c IH]; intros ds Ld N1 N2.
  - destruct ds as [|e [|e' ds]]; try discriminate. cbn [nth_error length app] in *. injection N1 as ->. injection N2 as ->.
    exists [], (combine b ds). reflexivity.
  - destruct ds as [|e ds]; [discriminate|]. cbn [length app nth_error] in *. destruct (IH ds) as (a' & b' & EC); auto.
    exists ((x, e) :: a'), b'. cbn [combine]. rewrite EC. reflexivity.
Qed.

(** The value between p and q depends on o, p, q and r only. *)
Lemma draw_local slopes (f : pt * pt * pt -> Qc) a o p q r b t v : rule slopes ->
  (forall a o p q b ds, slopes (a ++ o :: p :: q :: b) = Ok ds -> nth_error ds (Datatypes.S (length a)) = Some (f (o, p, q))) ->
  draw slopes (a ++ o :: p :: q :: r :: b) t = Ok v ->
  forall i u, nth_error t i = Some u -> (fst p <= u)%Qc -> (u <= fst q)%Qc ->
  nth_error v i = Some (hermite_at (fst p) (snd p) (f (o, p, q)) (fst q) (snd q) (f (p, q, r)) u).
Proof.
  intros HR HN E i u Hi U0 U1. destruct (draw_inv _ HR _ _ _ E) as (ds & Ed & Ld & HI & Ev).
  pose proof (HN a o p q (r :: b) ds Ed) as N1.
  assert (EA : a ++ o :: p :: q :: r :: b = (a ++ [o]) ++ p :: q :: r :: b) by (rewrite <- app_assoc; reflexivity).
  assert (N2 : nth_error ds (Datatypes.S (length (a ++ [o]))) = Some (f (p, q, r))).
  { rewrite EA in Ed. apply (HN (a ++ [o]) p q r b). exact Ed. }
  assert (Lc : length (a ++ [o]) = Datatypes.S (length a)) by (rewrite app_length; cbn; lia). rewrite <- Lc in N1.
  destruct (combine_at (a ++ [o]) p q (r :: b) ds _ _ ltac:(rewrite <- EA; auto) N1 N2) as (a' & b' & EC).
  assert (HI' : increasing (map fst (map fst (combine (a ++ o :: p :: q :: r :: b) ds)))) by (rewrite combine_fst; auto).
  rewrite EA in HI', Ev. rewrite EC in Ev, HI'. destruct (mapM_nth _ _ _ Ev i _ Hi) as (z & Ez & Fz). rewrite Ez. f_equal.
  destruct p as [x0 y0], q as [x1 y1]. cbn [fst snd] in *. rewrite seg_ppoly in Fz; auto. apply ok_inv in Fz. auto.
Qed.

Lemma linear_local a p q b t v : increasing (map fst (a ++ p :: q :: b)) -> lin_spl Linear (a ++ p :: q :: b) t = Ok v ->
  forall i u, nth_error t i = Some u -> (fst p <= u)%Qc -> (u <= fst q)%Qc ->
  nth_error v i = Some (seg (fst p) (snd p) (fst q) (snd q) u).
Proof.
  intros HI E i u Hi U0 U1. unfold lin_spl in E. destruct p as [x0 y0], q as [x1 y1]. cbn [fst snd] in *.
  destruct (mapM_nth _ _ _ E i _ Hi) as (z & Ez & Fz). rewrite Ez. f_equal.
  rewrite seg_lin_at in Fz; auto. apply ok_inv in Fz. auto.
Qed.

(** The neighbours needed on either side. *)
Definition enough (k : skind) (L : list pt) (u : Qc) : Prop :=
  match k with
  | Linear | Slinear => exists p q, In p L /\ In q L /\ (fst p <= u)%Qc /\ (u <= fst q)%Qc
  | Pchip | CubicHermite => exists o p q r, In o L /\ In p L /\ In q L /\ In r L /\
      (fst o < fst p)%Qc /\ (fst p <= u)%Qc /\ (u <= fst q)%Qc /\ (fst q < fst r)%Qc
  | _ => False
  end.

Lemma interpolation_local k A F B A' B' t t' v v' i u :
  increasing (map fst (A ++ F ++ B)) -> increasing (map fst (A' ++ F ++ B')) -> increasing (map fst F) ->
  enough k F u -> scipy_spl k (A ++ F ++ B) t = Ok v -> scipy_spl k (A' ++ F ++ B') t' = Ok v' ->
  nth_error t i = Some u -> nth_error t' i = Some u ->
  exists w, nth_error v i = Some w /\ nth_error v' i = Some w.
Proof.
  intros HI HI' HF HE E E' Hi Hi'.
  destruct (in_dec Qc_eq_dec u (map fst F)) as [HK|HK].
  { apply in_map_iff in HK as (p & <- & Hp). exists (snd p).
    split; [apply (kinds_pass k _ _ _ HI E)|apply (kinds_pass k _ _ _ HI' E')]; auto; apply in_or_app; right; apply in_or_app; auto. }
  destruct (split_at u F HF) as (L & R & EF & HL & HR).
  { intros p Hp C. apply HK. rewrite <- C. apply in_map; auto. }
  assert (NE : forall p, In p F -> fst p <> u) by (intros p Hp C; apply HK; rewrite <- C; apply in_map; auto).
  assert (InL : forall p, In p F -> (fst p <= u)%Qc -> In p L).
  { intros p Hp Hu. rewrite EF in Hp. apply in_app_or in Hp as [?|Hp]; auto. apply HR in Hp. exfalso. qclra. }
  assert (InR : forall p, In p F -> (u <= fst p)%Qc -> In p R).
  { intros p Hp Hu. rewrite EF in Hp. apply in_app_or in Hp as [Hp|?]; auto. apply HL in Hp. exfalso. qclra. }
  subst F.
  assert (TL : forall k, k = Linear \/ k = Slinear -> enough k (L ++ R) u -> lin_spl Linear (A ++ (L ++ R) ++ B) t = Ok v -> lin_spl Linear (A' ++ (L ++ R) ++ B') t' = Ok v' ->
     exists w, nth_error v i = Some w /\ nth_error v' i = Some w).
  { clear k HE E E'. intros k Hk HE E E'.
    assert (HE' : exists p q, In p (L ++ R) /\ In q (L ++ R) /\ (fst p <= u)%Qc /\ (u <= fst q)%Qc) by (destruct Hk as [->| ->]; exact HE).
    destruct HE' as (p0 & q0 & I1 & I2 & U1 & U2).
    destruct (last_one L p0 (InL _ I1 U1)) as (L' & p & ->). pose proof (InR _ I2 U2) as I3. destruct R as [|q R]; [destruct I3|].
    assert (EE : forall A B : list pt, A ++ ((L' ++ [p]) ++ q :: R) ++ B = (A ++ L') ++ p :: q :: (R ++ B)) by (intros; rewrite <- !app_assoc; reflexivity).
    rewrite EE in E, E', HI, HI'.
    assert (V1 : (fst p <= u)%Qc) by (apply Qclt_le_weak, HL, in_or_app; right; left; auto).
    assert (V2 : (u <= fst q)%Qc) by (apply Qclt_le_weak, HR; left; auto).
    rewrite (linear_local _ _ _ _ _ _ HI E i u), (linear_local _ _ _ _ _ _ HI' E' i u); eauto. }
  assert (TH : forall k slopes f, k = Pchip \/ k = CubicHermite -> rule slopes ->
     (forall a o p q b ds, slopes (a ++ o :: p :: q :: b) = Ok ds -> nth_error ds (Datatypes.S (length a)) = Some (f (o, p, q))) ->
     enough k (L ++ R) u -> draw slopes (A ++ (L ++ R) ++ B) t = Ok v -> draw slopes (A' ++ (L ++ R) ++ B') t' = Ok v' ->
     exists w, nth_error v i = Some w /\ nth_error v' i = Some w).
  { clear k HE E E'. intros k slopes f Hk HRu HN HE E E'.
    assert (HE' : exists o p q r, In o (L ++ R) /\ In p (L ++ R) /\ In q (L ++ R) /\ In r (L ++ R) /\
      (fst o < fst p)%Qc /\ (fst p <= u)%Qc /\ (u <= fst q)%Qc /\ (fst q < fst r)%Qc) by (destruct Hk as [->| ->]; exact HE).
    destruct HE' as (o0 & p0 & q0 & r0 & I0 & I1 & I2 & I3 & U0 & U1 & U2 & U3).
    destruct (last_two L o0 p0) as (L' & o & p & ->); [apply InL; auto; qclra|apply InL; auto|intros ->; qclra|].
    destruct (first_two R q0 r0) as (q & r & R' & ->); [apply InR; auto|apply InR; auto; qclra|intros ->; qclra|].
    assert (EE : forall A B : list pt, A ++ ((L' ++ [o; p]) ++ q :: r :: R') ++ B = (A ++ L') ++ o :: p :: q :: r :: (R' ++ B)) by (intros; rewrite <- !app_assoc; reflexivity).
    rewrite EE in E, E', HI, HI'.
    assert (V1 : (fst p <= u)%Qc) by (apply Qclt_le_weak, HL, in_or_app; right; right; left; auto).
    assert (V2 : (u <= fst q)%Qc) by (apply Qclt_le_weak, HR; left; auto).
    rewrite (draw_local _ f _ _ _ _ _ _ _ _ HRu HN E i u), (draw_local _ f _ _ _ _ _ _ _ _ HRu HN E' i u); eauto. }
  destruct k; try (destruct HE; fail); cbn [scipy_spl] in E, E'.
  - exact (TH Pchip _ pchip3 (or_introl eq_refl) pchip_rule pchip_nth HE E E').
  - exact (TH CubicHermite _ grad3 (or_intror eq_refl) gradient_rule gradient_nth HE E E').
  - exact (TL Slinear (or_intror eq_refl) HE E E').
  - exact (TL Linear (or_introl eq_refl) HE E E').
Qed.

(** ** Envelopes *)
Lemma fst_unique (P : list pt) p q : increasing (map fst P) -> In p P -> In q P -> fst p = fst q -> p = q.
Proof.
  induction P as [|x P IH]; intros HI Hp Hq E; [destruct Hp|].
  assert (L : forall u, In u P -> (fst x < fst u)%Qc).
  { intros u Hu. apply (SplineProofs.increasing_head _ (map fst P)); auto. apply in_map; auto. }
  destruct Hp as [<-|Hp], Hq as [<-|Hq]; auto.
  - apply L in Hq. exfalso. qclra.
  - apply L in Hp. exfalso. qclra.
  - apply IH; auto. eapply SplineProofs.increasing_tl; eauto.
Qed.

Lemma inside_points n S M cl cr P lo hi : env_ok n S M cl cr P -> In lo M -> In hi M ->
  forall p, In p (filter (inside (Qc_ofZ lo) (Qc_ofZ hi)) P) <->
            exists m, In m M /\ lo <= m <= hi /\ p = (Qc_ofZ m, sample S m).
Proof.
  intros [HI _ HO _ _ HA] Hlo Hhi p. rewrite filter_In, inside_iff. split.
  - intros (Hp & G1 & G2). destruct (HA p Hp) as (j & _ & Ev & [(Hj & Ef)|[(Ef & HL)|(Ef & HL)]]).
    + exists j. split; auto. rewrite Ef in G1, G2. pose proof (proj1 (Qc_ofZ_le _ _) G1). pose proof (proj1 (Qc_ofZ_le _ _) G2). split; [lia|]. destruct p. cbn [fst snd] in *. congruence.
    + exists lo. split; auto. assert (lo <= hi) by (apply Qc_ofZ_le; qclra). split; [lia|].
      apply (fst_unique P); auto. cbn [fst]. pose proof (HL _ Hlo). apply Qcle_antisym; auto.
    + exists hi. split; auto. assert (lo <= hi) by (apply Qc_ofZ_le; qclra). split; [lia|].
      apply (fst_unique P); auto. cbn [fst]. pose proof (HL _ Hhi). apply Qcle_antisym; auto.
  - intros (m & Hm & Hr & ->). cbn [fst]. split; auto. split; apply Qc_ofZ_le; lia.
Qed.

Lemma envelope_local k kind kind' n n' S S' M M' cl cr cl' cr' P P' v v' lo hi i :
  env_ok n S M cl cr P -> env_ok n' S' M' cl' cr' P' ->
  In lo M -> In hi M -> In lo M' -> In hi M' ->
  (forall m, lo <= m <= hi -> (In m M <-> In m M')) ->
  (forall m, lo <= m <= hi -> sample S m = sample S' m) ->
  framed k (fun m => In m M) (lo - 1) (hi + 1) i ->
  parse_kind kind = Some k -> parse_kind kind' = Some k ->
  spline_points scipy_spl kind (tz n) P = Ok v -> spline_points scipy_spl kind' (tz n') P' = Ok v' ->
  0 <= i < Z.of_nat n -> i < Z.of_nat n' -> sample v i = sample v' i.
Proof.
  intros HE HE' L1 L2 L1' L2' HM HS HF K K' E E' Hi Hi'.
  pose proof (window_all _ _ _ _ _ _ HE) as HW. pose proof (window_all _ _ _ _ _ _ HE') as HW'.
  pose proof (env_inc _ _ _ _ _ _ HE) as HI. pose proof (env_inc _ _ _ _ _ _ HE') as HI'.
  unfold spline_points in E, E'. rewrite HW in E. rewrite HW' in E'. cbn [bind] in E, E'. rewrite K in E. rewrite K' in E'.
  assert (EF : filter (inside (Qc_ofZ lo) (Qc_ofZ hi)) P = filter (inside (Qc_ofZ lo) (Qc_ofZ hi)) P').
  { apply increasing_unique; try (apply increasing_filt; auto). intros p.
    rewrite (inside_points _ _ _ _ _ _ _ _ HE L1 L2), (inside_points _ _ _ _ _ _ _ _ HE' L1' L2').
    split; intros (m & Hm & Hr & ->); exists m; (split; [apply HM; auto|]); (split; auto); rewrite HS; auto. }
  assert (HN : enough k (filter (inside (Qc_ofZ lo) (Qc_ofZ hi)) P) (Qc_ofZ i)).
  { assert (G : forall m, In m M -> lo <= m <= hi -> In (Qc_ofZ m, sample S m) (filter (inside (Qc_ofZ lo) (Qc_ofZ hi)) P)).
    { intros m Hm Hr. apply (inside_points _ _ _ _ _ _ _ _ HE L1 L2). eauto. }
    destruct k; cbn [framed enough] in *; auto.
    - destruct HF as (o & p & q & r & ? & ? & ? & ? & ? & ? & ?).
      exists (Qc_ofZ o, sample S o), (Qc_ofZ p, sample S p), (Qc_ofZ q, sample S q), (Qc_ofZ r, sample S r). cbn [fst].
      repeat split; try (apply G; auto; lia); try (apply Qc_ofZ_lt; lia); try (apply Qc_ofZ_le; lia).
    - destruct HF as (o & p & q & r & ? & ? & ? & ? & ? & ? & ?).
      exists (Qc_ofZ o, sample S o), (Qc_ofZ p, sample S p), (Qc_ofZ q, sample S q), (Qc_ofZ r, sample S r). cbn [fst].
      repeat split; try (apply G; auto; lia); try (apply Qc_ofZ_lt; lia); try (apply Qc_ofZ_le; lia).
    - destruct HF as (p & q & ? & ? & ? & ?). exists (Qc_ofZ p, sample S p), (Qc_ofZ q, sample S q). cbn [fst].
      repeat split; try (apply G; auto; lia); apply Qc_ofZ_le; lia.
    - destruct HF as (p & q & ? & ? & ? & ?). exists (Qc_ofZ p, sample S p), (Qc_ofZ q, sample S q). cbn [fst].
      repeat split; try (apply G; auto; lia); apply Qc_ofZ_le; lia. }
  destruct (inside_block (Qc_ofZ lo) (Qc_ofZ hi) P HI) as (A & B & EP).
  destruct (inside_block (Qc_ofZ lo) (Qc_ofZ hi) P' HI') as (A' & B' & EP'). rewrite <- EF in EP'.
  pose proof (increasing_filt (inside (Qc_ofZ lo) (Qc_ofZ hi)) P HI) as HIF.
  set (F := filter (inside (Qc_ofZ lo) (Qc_ofZ hi)) P) in *. clearbody F.
  assert (G : exists w, nth_error v (Z.to_nat i) = Some w /\ nth_error v' (Z.to_nat i) = Some w).
  { assert (E0 : scipy_spl k P (tz n) = Ok v) by (destruct k; auto; destruct HF).
    assert (E0' : scipy_spl k P' (tz n') = Ok v') by (destruct k; auto; destruct HF).
    rewrite EP in E0, HI. rewrite EP' in E0', HI'.
    apply (interpolation_local k A F B A' B' (tz n) (tz n') v v' _ (Qc_ofZ i)); auto; apply tz_nth; lia. }
  destruct G as (w & G1 & G2). unfold sample. rewrite (nth_error_nth _ _ _ G1), (nth_error_nth _ _ _ G2). reflexivity.
Qed.

(** ** Sifting *)
Lemma framed_ends k ext a b i : framed k ext a b i ->
  exists lo hi, a < lo <= i /\ i <= hi < b /\ ext lo /\ ext hi /\ framed k ext (lo - 1) (hi + 1) i.
Proof.
  destruct k; cbn [framed]; try tauto.
  - intros (o & p & q & r & ? & ? & ? & ? & ? & ? & ?). exists o, r. repeat split; auto; try lia.
    exists o, p, q, r. repeat split; auto; lia.
  - intros (o & p & q & r & ? & ? & ? & ? & ? & ? & ?). exists o, r. repeat split; auto; try lia.
    exists o, p, q, r. repeat split; auto; lia.
  - intros (p & q & ? & ? & ? & ?). exists p, q. repeat split; auto; try lia. exists p, q. repeat split; auto; lia.
  - intros (p & q & ? & ? & ? & ?). exists p, q. repeat split; auto; try lia. exists p, q. repeat split; auto; lia.
Qed.
Lemma framed_sub k (ext ext' : Z -> Prop) a b i : (forall m, a < m < b -> ext m -> ext' m) -> framed k ext a b i -> framed k ext' a b i.
Proof.
  intros HX. destruct k; cbn [framed]; auto.
  - intros (o & p & q & r & ? & ? & ? & ? & ? & ? & ?). exists o, p, q, r. repeat split; try lia; apply HX; auto; lia.
  - intros (o & p & q & r & ? & ? & ? & ? & ? & ? & ?). exists o, p, q, r. repeat split; try lia; apply HX; auto; lia.
  - intros (p & q & ? & ? & ? & ?). exists p, q. repeat split; try lia; apply HX; auto; lia.
  - intros (p & q & ? & ? & ? & ?). exists p, q. repeat split; try lia; apply HX; auto; lia.
Qed.

Lemma agree_peak x x' a b p : agree x x' a b -> a < p < b -> peak x p <-> peak x' p.
Proof. intros H Hp. unfold peak. rewrite !H by lia. tauto. Qed.
Lemma agree_trough x x' a b p : agree x x' a b -> a < p < b -> trough x p <-> trough x' p.
Proof. intros H Hp. unfold trough. rewrite !H by lia. tauto. Qed.
Lemma agree_flat x x' a b : agree x x' a b -> no_flat x a b -> no_flat x' a b.
Proof. intros H HF j Hj. rewrite <- !H by lia. apply HF; auto. Qed.

Lemma sift_local k c c' x x' a b i y y' :
  extrema_detection c = Simple -> extrema_detection c' = Simple -> 1 <= nbsym c -> 1 <= nbsym c' ->
  parse_kind (spline_kind c) = Some k -> parse_kind (spline_kind c') = Some k ->
  0 <= a -> b < zlen x -> b < zlen x' -> agree x x' a b -> no_flat x a b ->
  framed k (peak x) a b i -> framed k (trough x) a b i ->
  one_sift scipy_spl c (arange (length x)) x y -> one_sift scipy_spl c' (arange (length x')) x' y' ->
  sample y i = sample y' i.
Proof.
  intros D D' N N' K K' Ha Hb Hb' HA HF FM Fm H1 H1'.
  destruct (sift_at_extrema _ kinds_pass _ _ _ D N H1) as (up & lo & P & Q & E & _ & G & _).
  destruct (sift_at_extrema _ kinds_pass _ _ _ D' N' H1') as (up' & lo' & P' & Q' & E' & _ & G' & _).
  assert (Hi : a < i < b).
  { destruct (framed_ends _ _ _ _ _ FM) as (l & h & ? & ? & _). lia. }
  rewrite G, G' by lia. rewrite (HA i) by lia.
  enough (sample up i = sample up' i /\ sample lo i = sample lo' i) as [-> ->] by reflexivity.
  clear G G' H1 H1'. pose proof (agree_flat _ _ _ _ HA HF) as HF'.
  rewrite arange_tz in E, E'. unfold extract_max_min_spline in E, E'. rewrite D in E. rewrite D' in E'.
  destruct (detect_prepare x (nbsym c) N) as (e & M & m & Ee & E1 & E2 & R1 & R2 & HP).
  destruct (detect_prepare x' (nbsym c') N') as (e' & M' & m' & Ee' & E1' & E2' & R1' & R2' & HP').
  rewrite Ee in E. rewrite Ee' in E'. cbn [bind] in E, E'. rewrite E1, E2, !zlen_map in E. rewrite E1', E2', !zlen_map in E'.
  destruct (Z.ltb_spec (zlen M + zlen m) 3) as [C|C]; [discriminate E|].
  destruct (Z.ltb_spec (zlen M' + zlen m') 3) as [C'|C']; [discriminate E'|].
  destruct (HP ltac:(lia)) as (P0 & Q0 & cl & cr & EP & O1 & O2 & _). rewrite EP in E. cbn [bind] in E.
  apply bind_ok in E as (u & F3 & E). apply bind_ok in E as (w & F4 & E). injection E as -> -> -> ->.
  destruct (HP' ltac:(lia)) as (P0' & Q0' & cl' & cr' & EP' & O1' & O2' & _). rewrite EP' in E'. cbn [bind] in E'.
  apply bind_ok in E' as (u' & F3' & E'). apply bind_ok in E' as (w' & F4' & E'). injection E' as -> -> -> ->.
  assert (IM : forall p, a < p < b -> (In p M <-> peak x p)) by (intros; rewrite R1; apply (rep_peak x a b); auto).
  assert (IM' : forall p, a < p < b -> (In p M' <-> peak x p)).
  { intros p Hp. rewrite R1', (rep_peak x' a b) by auto. symmetry. eapply agree_peak; eauto. }
  assert (Im : forall p, a < p < b -> (In p m <-> trough x p)) by (intros; rewrite R2; apply (rep_trough x a b); auto).
  assert (Im' : forall p, a < p < b -> (In p m' <-> trough x p)).
  { intros p Hp. rewrite R2', (rep_trough x' a b) by auto. symmetry. eapply agree_trough; eauto. }
  unfold zlen in Hb, Hb'. split.
  - destruct (framed_ends _ _ _ _ _ FM) as (l & h & B1 & B2 & X1 & X2 & FM').
    apply (envelope_local k (spline_kind c) (spline_kind c') _ _ _ _ _ _ _ _ _ _ _ _ _ _ l h i O1 O1'); auto; try (apply IM; auto; lia); try (apply IM'; auto; lia); try lia.
    + intros p Hp. rewrite IM, IM' by lia. tauto.
    + intros p Hp. apply HA. lia.
    + eapply framed_sub; [|exact FM']. intros p Hp. apply IM. lia.
  - destruct (framed_ends _ _ _ _ _ Fm) as (l & h & B1 & B2 & X1 & X2 & FM').
    apply (envelope_local k (spline_kind c) (spline_kind c') _ _ _ _ _ _ _ _ _ _ _ _ _ _ l h i O2 O2'); auto; try (apply Im; auto; lia); try (apply Im'; auto; lia); try lia.
    + intros p Hp. rewrite Im, Im' by lia. tauto.
    + intros p Hp. apply HA. lia.
    + eapply framed_sub; [|exact FM']. intros p Hp. apply Im. lia.
Qed.

Lemma sift_shielded k c c' n : forall x x' a b i l l',
  extrema_detection c = Simple -> extrema_detection c' = Simple -> 1 <= nbsym c -> 1 <= nbsym c' ->
  parse_kind (spline_kind c) = Some k -> parse_kind (spline_kind c') = Some k ->
  0 <= a -> b < zlen x -> b < zlen x' -> agree x x' a b -> shielded c k n x a b i ->
  iterates (one_sift scipy_spl c (arange (length x))) (x :: l) ->
  iterates (one_sift scipy_spl c' (arange (length x'))) (x' :: l') -> length l = n -> length l' = n ->
  sample (last l x) i = sample (last l' x') i.
Proof.
  induction n as [|n IH]; intros x x' a b i l l' D D' N N' K K' Ha Hb Hb' HA HS HI HI' Ll Ll'.
  - destruct l, l'; try discriminate. cbn [last shielded] in *. apply HA. auto.
  - destruct l as [|y l], l' as [|y' l']; try discriminate. inversion HI as [|? ? ? H1 H2]; subst. inversion HI' as [|? ? ? H1' H2']; subst.
    cbn [shielded] in HS. destruct HS as [HF HS]. destruct (HS y H1) as (a' & b' & Hab & Hfr & Hsh).
    destruct (one_sift_mean _ _ _ _ _ H1) as (_ & _ & _ & _ & _ & _ & _ & _ & _ & _ & Ly & _).
    destruct (one_sift_mean _ _ _ _ _ H1') as (_ & _ & _ & _ & _ & _ & _ & _ & _ & _ & Ly' & _).
    assert (Hin : forall j, a' <= j <= b' -> a < j < b).
    { intros j Hj. destruct (framed_ends _ _ _ _ _ (proj1 (Hfr j Hj))) as (lo & hi & ? & ? & _). lia. }
    pose proof (Hin a' ltac:(lia)). pose proof (Hin b' ltac:(lia)).
    assert (EL : forall (z d d' : list Qc) m, last (z :: m) d = last (z :: m) d').
    { intros z d d' m. revert z. induction m as [|w m IHm]; intros z; [reflexivity|]. apply (IHm w). }
    assert (EC : forall (z d : list Qc) m, last (z :: m) d = last m z).
    { intros z d [|w m]; [reflexivity|]. apply (EL w d z m). }
    rewrite !EC. rewrite <- Ly in H2. rewrite <- Ly' in H2'. unfold zlen in *.
    apply (IH y y' a' b'); auto; try lia.
    intros j Hj. destruct (Hfr j Hj) as [Q1 Q2].
    apply (sift_local k c c' x x' a b j y y'); auto.
Qed.

Lemma none_time (c : emd_config Qc) x t : extrema_detection c = Simple -> emd_time c x None = Ok t -> t = arange (length x).
Proof.
  intros D Et. destruct x as [|z [|w x]].
  - exfalso. apply emd_time_nonempty in Et. auto.
  - unfold emd_time in Et. cbn [bind length] in Et. vm_compute in Et. first [discriminate Et | injection Et as <-; reflexivity].
  - rewrite (simple_time c D (z :: w :: x) None) in Et; [|cbn; lia|discriminate]. apply ok_inv in Et. rewrite arange_tz. auto.
Qed.

Lemma first_local k c c' n fuel fuel' x x' mi mi' o o' a b i :
  extrema_detection c = Simple -> extrema_detection c' = Simple -> 1 <= nbsym c -> 1 <= nbsym c' ->
  parse_kind (spline_kind c) = Some k -> parse_kind (spline_kind c') = Some k ->
  FIXE c = Z.of_nat n -> FIXE c' = Z.of_nat n -> (0 < n)%nat -> FIXE c < MAX_ITERATION c -> FIXE c' < MAX_ITERATION c' ->
  0 <= a -> b < zlen x -> b < zlen x' -> agree x x' a b -> shielded c k n x a b i ->
  emd scipy_spl fuel c x None mi = Ok o -> emd scipy_spl fuel' c' x' None mi' = Ok o' ->
  imfs o <> [] -> imfs o' <> [] ->
  sample (nth 0 (imfs o) []) i = sample (nth 0 (imfs o') []) i.
Proof.
  intros D D' N N' K K' Fx Fx' Hn M1 M2 Ha Hb Hb' HA HS E E' O O'.
  destruct (fixe_top _ _ _ _ _ _ _ E ltac:(lia)) as (t & Et & G).
  destruct (fixe_top _ _ _ _ _ _ _ E' ltac:(lia)) as (t' & Et' & G').
  destruct (G 0%nat) as (l & I & La & Ln). { destruct (imfs o); [congruence|cbn; lia]. }
  destruct (G' 0%nat) as (l' & I' & La' & Ln'). { destruct (imfs o'); [congruence|cbn; lia]. }
  clear G G'.
  apply none_time in Et; auto. apply none_time in Et'; auto. subst t t'.
  assert (Z0 : forall z : list Qc, vsub z (sum_rows (length z) []) = z).
  { intros z. change (sum_rows (length z) []) with (@vzeros Qc _ (length z)). apply vsub_zeros. }
  cbn [firstn] in I, I'. rewrite Z0 in I, I'. unfold zlen in Ln, Ln'.
  rewrite <- La, <- La'.
  assert (EL : forall (m : list (list Qc)) d d', m <> [] -> last m d = last m d').
  { intros m d d'. induction m as [|z [|w m] IHm]; intros C; [congruence|reflexivity|]. apply IHm. discriminate. }
  rewrite (EL l _ x), (EL l' _ x') by (intros ->; cbn [length] in *; lia).
  apply (sift_shielded k c c' n x x' a b); auto; lia.
Qed.

(** ** All components *)
Lemma iterates_length c t x l : iterates (one_sift scipy_spl c t) (x :: l) -> length (last l x) = length x.
Proof.
  revert x. induction l as [|y l IH]; intros x HI; [reflexivity|].
  inversion HI as [|? ? ? H1 H2]; subst.
  assert (EC : forall (z d : list Qc) m, last (z :: m) d = last m z).
  { intros z d m. revert z d. induction m as [|w m IHm]; intros z d; [reflexivity|]. change (last (w :: m) d = last (w :: m) z). rewrite (IHm w d), (IHm w z). reflexivity. }
  rewrite EC, (IH _ H2).
  destruct (one_sift_mean _ _ _ _ _ H1) as (_ & _ & _ & _ & _ & _ & _ & _ & _ & _ & Ly & _). exact Ly.
Qed.

Lemma vsub_more (S a r : list Qc) : length a = length S -> length r = length S -> vsub S (vadd a r) = vsub (vsub S a) r.
Proof.
  revert a r. induction S as [|s S IH]; intros [|u a] [|w r] La Lr; try discriminate; try reflexivity.
  cbn [length] in *. unfold vsub, vadd in *. cbn [map2]. rewrite IH by lia. f_equal. num_qc. ring.
Qed.

Lemma fixe_peels c n fuel x mi o : extrema_detection c = Simple -> FIXE c = Z.of_nat n -> (0 < n)%nat -> FIXE c < MAX_ITERATION c ->
  emd scipy_spl fuel c x None mi = Ok o -> peels c n x (imfs o).
Proof.
  intros D Fx Hn M1 E. destruct (fixe_top _ _ _ _ _ _ _ E ltac:(lia)) as (t & Et & G). apply none_time in Et; auto. subst t.
  set (I := imfs o) in *. clearbody I. clear E.
  assert (K : forall j, (j <= length I)%nat -> length (vsub x (sum_rows (length x) (firstn j I))) = length x /\
     length (sum_rows (length x) (firstn j I)) = length x ->
     peels c n (vsub x (sum_rows (length x) (firstn j I))) (skipn j I)).
  { intros j Hj. remember (length I - j)%nat as d eqn:Hd. revert j Hj Hd. induction d as [|d IH]; intros j Hj Hd [HL HL2].
    - rewrite skipn_all2 by lia. constructor.
    - destruct (G j ltac:(lia)) as (l & HI & La & Ln). unfold zlen in Ln.
      assert (Ne : l <> []) by (intros ->; cbn [length] in Ln; lia).
      assert (EL : forall (m : list (list Qc)) d d', m <> [] -> last m d = last m d').
      { intros m u u'. induction m as [|z [|w m] IHm]; intros C; [congruence|reflexivity|]. apply IHm. discriminate. }
      assert (SK : skipn j I = nth j I [] :: skipn (Datatypes.S j) I).
      { clear - Hj Hd. assert (H : (j < length I)%nat) by lia. clear Hj Hd. revert I H. induction j as [|j IHj]; intros [|z I] H; cbn [length] in H; try lia; [reflexivity|]. cbn [skipn nth]. apply IHj. lia. }
      assert (FS : firstn (Datatypes.S j) I = firstn j I ++ [nth j I []]).
      { clear - Hj Hd. assert (H : (j < length I)%nat) by lia. clear Hj Hd. revert I H. induction j as [|j IHj]; intros [|z I] H; cbn [length] in H; try lia; [reflexivity|]. cbn [firstn nth app]. f_equal. apply IHj. lia. }
      rewrite SK, <- La. rewrite (EL l [] (vsub x (sum_rows (length x) (firstn j I)))) by auto.
      rewrite <- HL in HI at 1. pose proof (iterates_length _ _ _ _ HI) as LL.
      assert (LP : last l (vsub x (sum_rows (length x) (firstn j I))) = nth j I []) by (rewrite <- La; apply EL; auto).
      apply peels_one; auto; [lia|].
      assert (NX : vsub x (sum_rows (length x) (firstn (Datatypes.S j) I)) =
                   vsub (vsub x (sum_rows (length x) (firstn j I))) (last l (vsub x (sum_rows (length x) (firstn j I))))).
      { rewrite FS, sum_rows_app, <- LP. apply vsub_more; congruence. }
      rewrite <- NX. apply IH; try lia. rewrite NX. split.
      + unfold vsub at 1. rewrite map2_length_eq; congruence.
      + rewrite FS, sum_rows_app, <- LP. unfold vadd. rewrite map2_length_eq; congruence. }
  assert (Z0 : vsub x (sum_rows (length x) (firstn 0 I)) = x).
  { cbn [firstn]. change (sum_rows (length x) []) with (@vzeros Qc _ (length x)). apply vsub_zeros. }
  specialize (K 0%nat ltac:(lia)). rewrite Z0 in K. apply K. split; auto. cbn [firstn].
  change (sum_rows (length x) []) with (@vzeros Qc _ (length x)). apply vzeros_length.
Qed.

Lemma sample_vsub (x y : list Qc) i : length x = length y -> sample (vsub x y) i = (sample x i - sample y i)%Qc.
Proof.
  intros HL. unfold sample. generalize (Z.to_nat i). clear i. revert y HL. induction x as [|u x IH]; intros [|w y] HL k; try discriminate.
  - destruct k; cbn; ring.
  - destruct k as [|k]; cbn [vsub map2 nth]; [reflexivity|]. apply IH. cbn [length] in HL. lia.
Qed.

Lemma part_local k c c' n m : forall x x' comps comps' a b i,
  extrema_detection c = Simple -> extrema_detection c' = Simple -> 1 <= nbsym c -> 1 <= nbsym c' ->
  parse_kind (spline_kind c) = Some k -> parse_kind (spline_kind c') = Some k ->
  0 <= a -> b < zlen x -> b < zlen x' -> agree x x' a b -> shielded_part c k n m x a b i ->
  peels c n x comps -> peels c' n x' comps' -> (m < length comps)%nat -> (m < length comps')%nat ->
  sample (nth m comps []) i = sample (nth m comps' []) i.
Proof.
  induction m as [|m IH]; intros x x' comps comps' a b i D D' N N' K K' Ha Hb Hb' HA HS HP HP' L L';
    inversion HP as [|? l rest HI Ll HR]; subst; cbn [length] in L; try lia;
    inversion HP' as [|? l' rest' HI' Ll' HR']; subst; cbn [length] in L'; try lia; cbn [nth].
  - cbn [shielded_part] in HS. eapply (sift_shielded k c c' (length l)); eauto.
  - cbn [shielded_part] in HS. destruct HS as (a' & b' & A1 & B1 & HJ & HN).
    pose proof (iterates_length _ _ _ _ HI) as LL. pose proof (iterates_length _ _ _ _ HI') as LL'.
    assert (V : forall z w : list Qc, length w = length z -> length (vsub z w) = length z) by (intros; apply map2_length_eq; auto).
    apply (IH (vsub x (last l x)) (vsub x' (last l' x')) rest rest' a' b' i); auto; try lia.
    + unfold zlen in *. rewrite V by auto. lia.
    + unfold zlen in *. rewrite V by auto. lia.
    + intros j Hj. rewrite !sample_vsub by auto. rewrite (HA j) by lia.
      rewrite (sift_shielded k c c' (length l) x x' a b j l l'); auto.
Qed.

Lemma component_local k c c' n m fuel fuel' x x' mi mi' o o' a b i :
  extrema_detection c = Simple -> extrema_detection c' = Simple -> 1 <= nbsym c -> 1 <= nbsym c' ->
  parse_kind (spline_kind c) = Some k -> parse_kind (spline_kind c') = Some k ->
  FIXE c = Z.of_nat n -> FIXE c' = Z.of_nat n -> (0 < n)%nat -> FIXE c < MAX_ITERATION c -> FIXE c' < MAX_ITERATION c' ->
  0 <= a -> b < zlen x -> b < zlen x' -> agree x x' a b -> shielded_part c k n m x a b i ->
  emd scipy_spl fuel c x None mi = Ok o -> emd scipy_spl fuel' c' x' None mi' = Ok o' ->
  (m < length (imfs o))%nat -> (m < length (imfs o'))%nat ->
  sample (nth m (imfs o) []) i = sample (nth m (imfs o') []) i.
Proof.
  intros D D' N N' K K' Fx Fx' Hn M1 M2 Ha Hb Hb' HA HS E E' O O'.
  exact (part_local k c c' n m x x' (imfs o) (imfs o') a b i D D' N N' K K' Ha Hb Hb' HA HS
    (fixe_peels c n fuel x mi o D Fx Hn M1 E) (fixe_peels c' n fuel' x' mi' o' D' Fx' Hn M2 E') O O').
Qed.
