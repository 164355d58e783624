(** * StreamProofs: extrema detection when samples are appended (C104). *)
From Verif Require Import PyFacts QcFacts Extrema Spec ExtremaSpec ParabolProofs ParabolAlt PoolEnsemble.
From Coq Require Import QArith Qcanon Lia.
Open Scope Z_scope.

Lemma ok_same {X} (a b : X) : Ok a = Ok b -> a = b.
Proof. congruence. Qed.

Section Prefix.
Lemma sample_app S X i : 0 <= i < zlen S -> sample (S ++ X) i = sample S i.
Proof. unfold sample, zlen. intros Hi. apply app_nth1. lia. Qed.

Lemma prefix_of (M M' : list Z) : zincreasing M -> zincreasing M' ->
  (forall i, In i M -> In i M') -> (forall j, In j M' -> In j M \/ forall i, In i M -> i < j) ->
  exists N, M' = M ++ N.
Proof.
  revert M'. induction M as [|x M IH]; intros M' I1 I2 H1 H2; [exists M'; reflexivity|].
  destruct M' as [|y M']; [destruct (H1 x); left; reflexivity|].
  destruct I1 as (I1 & I1'). destruct I2 as (I2 & I2').
  assert (y = x) as ->.
  { destruct (H2 y) as [Hy|Hy]; [left; reflexivity| |].
    - destruct Hy as [->|Hy]; auto. destruct (H1 x) as [->|Hx]; [left; reflexivity|auto|].
      pose proof (I1 _ Hy). pose proof (I2 _ Hx). lia.
    - pose proof (Hy x ltac:(left; reflexivity)). destruct (H1 x) as [->|Hx]; [left; reflexivity|auto|].
      pose proof (I2 _ Hx). lia. }
  destruct (IH M' I1' I2') as (N & ->); [| |exists N; reflexivity].
  - intros i Hi. destruct (H1 i) as [E|Hm]; [right; auto| |auto]. pose proof (I1 _ Hi). lia.
  - intros j Hj. destruct (H2 j) as [[E|Hm]|Hm]; [right; auto| | |].
    + pose proof (I2 _ Hj). lia.
    + auto.
    + right. intros i Hi. apply Hm. right. auto.
Qed.

Lemma map_sample_app T U M : (forall i, In i M -> 0 <= i < zlen T) -> map (sample (T ++ U)) M = map (sample T) M.
Proof. intros HM. apply map_ext_in. intros i Hi. apply sample_app. auto. Qed.

Lemma flat_app S X a b : 0 <= a -> b < zlen S -> flat (S ++ X) a b <-> flat S a b.
Proof.
  intros Ha Hb. unfold flat. split; intros F k Hk.
  - specialize (F k Hk). rewrite !sample_app in F by lia. exact F.
  - specialize (F k Hk). rewrite !sample_app by lia. exact F.
Qed.

Lemma hill_app S X a b : b < zlen S - 1 -> hill (S ++ X) a b <-> hill S a b.
Proof.
  intros Hb. unfold hill. pose proof (zlen_app S X) as L. unfold zlen in *.
  assert (0 <= Z.of_nat (length X)) by lia.
  split; intros (H1 & H2 & H3 & H4 & H5).
  - rewrite !sample_app in H4, H5 by (unfold zlen; lia). rewrite flat_app in H3 by (unfold zlen; lia). repeat split; auto; lia.
  - rewrite !sample_app by (unfold zlen; lia). rewrite flat_app by (unfold zlen; lia). repeat split; auto; lia.
Qed.
Lemma valley_app S X a b : b < zlen S - 1 -> valley (S ++ X) a b <-> valley S a b.
Proof.
  intros Hb. unfold valley. pose proof (zlen_app S X) as L. unfold zlen in *.
  assert (0 <= Z.of_nat (length X)) by lia.
  split; intros (H1 & H2 & H3 & H4 & H5).
  - rewrite !sample_app in H4, H5 by (unfold zlen; lia). rewrite flat_app in H3 by (unfold zlen; lia). repeat split; auto; lia.
  - rewrite !sample_app by (unfold zlen; lia). rewrite flat_app by (unfold zlen; lia). repeat split; auto; lia.
Qed.

Lemma mid_between a b i : a <= b -> rounded_mid a b i -> a <= i <= b.
Proof. intros Hab [E|(E & [E'|E'])]; try lia; destruct E as (q & ->); lia. Qed.

(** A later hill lies after an earlier one. *)
Lemma hills_apart S a b a' b' : hill S a b -> hill S a' b' -> b < b' -> b < a'.
Proof.
  intros (H1 & H2 & H3 & H4 & H5) (G1 & G2 & G3 & G4 & G5) Hb.
  destruct (Z_lt_le_dec b a'); auto. exfalso.
  rewrite (G3 b), (G3 (b + 1)) in H5 by lia. exact (Qclt_not_eq _ _ H5 eq_refl).
Qed.
Lemma valleys_apart S a b a' b' : valley S a b -> valley S a' b' -> b < b' -> b < a'.
Proof.
  intros (H1 & H2 & H3 & H4 & H5) (G1 & G2 & G3 & G4 & G5) Hb.
  destruct (Z_lt_le_dec b a'); auto. exfalso.
  rewrite (G3 b), (G3 (b + 1)) in H5 by lia. exact (Qclt_not_eq _ _ H5 eq_refl).
Qed.

Lemma reported_hill S i : sample S 0 <> sample S 1 ->
  reported_max S i <-> exists a b, hill S a b /\ (a = b \/ 2 <= a) /\ rounded_mid a b i.
Proof.
  intros N. unfold reported_max. split; [|auto]. intros [?|(b & (Hb & F & _) & _)]; auto.
  exfalso. apply N. symmetry. apply F. lia.
Qed.
Lemma reported_valley S i : sample S 0 <> sample S 1 ->
  reported_min S i <-> exists a b, valley S a b /\ (a = b \/ 2 <= a) /\ rounded_mid a b i.
Proof.
  intros N. unfold reported_min. split; [|auto]. intros [?|(b & (Hb & F & _) & _)]; auto.
  exfalso. apply N. symmetry. apply F. lia.
Qed.

Definition begins {X} (l' l : list X) : Prop := exists more, l' = l ++ more.

Lemma begins_map {X Y} (f : X -> Y) l' l : begins l' l -> begins (map f l') (map f l).
Proof. intros (m & ->). exists (map f m). apply map_app. Qed.

Theorem stream_simple T U S X e e' :
  length T = length S -> length U = length X -> 2 <= zlen S -> sample S 0 <> sample S 1 ->
  find_extrema Simple T S = Ok e -> find_extrema Simple (T ++ U) (S ++ X) = Ok e' ->
  begins (max_pos e') (max_pos e) /\ begins (max_val e') (max_val e) /\
  begins (min_pos e') (min_pos e) /\ begins (min_val e') (min_val e).
Proof.
  intros HL HU Hn N E E'.
  destruct (simple_plateau T S HL) as (f & M & m & Ef & P1 & P2 & P3 & P4 & I1 & I2 & HM & Hm).
  destruct (simple_plateau (T ++ U) (S ++ X)) as (f' & M' & m' & Ef' & P1' & P2' & P3' & P4' & I1' & I2' & HM' & Hm').
  { rewrite !app_length. lia. }
  rewrite E in Ef. injection Ef as <-. rewrite E' in Ef'. injection Ef' as <-.
  assert (N' : sample (S ++ X) 0 <> sample (S ++ X) 1) by (rewrite !sample_app by lia; exact N).
  assert (LS : zlen T = zlen S) by (unfold zlen; lia).
  assert (RM : forall i, In i M -> 0 <= i < zlen S).
  { intros i Hi. apply HM, reported_hill in Hi as (a & b & (H1 & H2 & _) & _ & Hr); auto.
    apply mid_between in Hr; unfold zlen; lia. }
  assert (Rm : forall i, In i m -> 0 <= i < zlen S).
  { intros i Hi. apply Hm, reported_valley in Hi as (a & b & (H1 & H2 & _) & _ & Hr); auto.
    apply mid_between in Hr; unfold zlen; lia. }
  assert (BM : begins M' M).
  { apply prefix_of; auto.
    - intros i Hi. apply HM, reported_hill in Hi as (a & b & Hh & Hc & Hr); auto.
      apply HM', reported_hill; auto. exists a, b. split; auto. apply hill_app; auto.
      destruct Hh as (_ & H2 & _). exact H2.
    - intros j Hj. apply HM', reported_hill in Hj as (a' & b' & Hh' & Hc' & Hr'); auto.
      destruct (Z_lt_le_dec b' (zlen S - 1)) as [Hb|Hb].
      + left. apply HM, reported_hill; auto. exists a', b'. split; auto. exact (proj1 (hill_app S X a' b' Hb) Hh').
      + right. intros i Hi. apply HM, reported_hill in Hi as (a & b & Hh & Hc & Hr); auto.
        assert (Hb1 : b < zlen S - 1) by (destruct Hh as (_ & H2 & _); exact H2).
        apply (hill_app S X) in Hh; auto. pose proof (hills_apart _ _ _ _ _ Hh Hh' ltac:(lia)).
        destruct Hh as (H1 & _). destruct Hh' as (H1' & _).
        apply mid_between in Hr; [|lia]. apply mid_between in Hr'; lia. }
  assert (Bm : begins m' m).
  { apply prefix_of; auto.
    - intros i Hi. apply Hm, reported_valley in Hi as (a & b & Hh & Hc & Hr); auto.
      apply Hm', reported_valley; auto. exists a, b. split; auto. apply valley_app; auto.
      destruct Hh as (_ & H2 & _). exact H2.
    - intros j Hj. apply Hm', reported_valley in Hj as (a' & b' & Hh' & Hc' & Hr'); auto.
      destruct (Z_lt_le_dec b' (zlen S - 1)) as [Hb|Hb].
      + left. apply Hm, reported_valley; auto. exists a', b'. split; auto. exact (proj1 (valley_app S X a' b' Hb) Hh').
      + right. intros i Hi. apply Hm, reported_valley in Hi as (a & b & Hh & Hc & Hr); auto.
        assert (Hb1 : b < zlen S - 1) by (destruct Hh as (_ & H2 & _); exact H2).
        apply (valley_app S X) in Hh; auto. pose proof (valleys_apart _ _ _ _ _ Hh Hh' ltac:(lia)).
        destruct Hh as (H1 & _). destruct Hh' as (H1' & _).
        apply mid_between in Hr; [|lia]. apply mid_between in Hr'; lia. }
  rewrite P1, P2, P3, P4, P1', P2', P3', P4'.
  rewrite <- (map_sample_app T U M), <- (map_sample_app S X M), <- (map_sample_app T U m), <- (map_sample_app S X m)
    by (rewrite ?LS; auto).
  auto using begins_map.
Qed.

(** ** Zero crossings *)
Theorem stream_zeros d T U S X e e' :
  length T = length S -> length U = length X -> 1 <= zlen S -> sample S (zlen S - 1) <> 0%Qc ->
  find_extrema d T S = Ok e -> find_extrema d (T ++ U) (S ++ X) = Ok e' ->
  begins (indzer e') (indzer e).
Proof.
  intros HL HU Hn N E E'.
  destruct (any_zeros d T S e HL E) as (I1 & H1).
  destruct (any_zeros d (T ++ U) (S ++ X) e') as (I2 & H2); auto.
  { rewrite !app_length. lia. }
  assert (LX : zlen (S ++ X) = zlen S + zlen X) by apply zlen_app.
  assert (PX : 0 <= zlen X) by (unfold zlen; lia).
  assert (Run : forall a b, zero_run S a b -> b < zlen S - 1).
  { intros a b (A1 & A2 & A3 & _). fold (zlen S) in A2. destruct (Z.eq_dec b (zlen S - 1)) as [->|]; [|lia].
    exfalso. apply N. apply A3. lia. }
  apply prefix_of; auto.
  - intros i Hi. apply H2. apply H1 in Hi as [(Hi & O)|(a & b & R & Hm)].
    + left. split; [lia|]. rewrite !sample_app by lia. exact O.
    + right. exists a, b. split; auto. pose proof (Run _ _ R) as Hb. destruct R as (A1 & A2 & A3 & A4 & A5).
      unfold zero_run. fold (zlen (S ++ X)). split; [lia|]. split; [lia|]. split; [|split].
      * intros k Hk. rewrite sample_app by lia. auto.
      * destruct A4 as [->|A4]; [left; auto|right]. rewrite sample_app; auto.
        destruct (Z.eq_dec a 0) as [->|]; [|lia]. exfalso. apply A4.
        unfold sample. change (Z.to_nat (0 - 1)) with 0%nat. change 0%nat with (Z.to_nat 0). apply A3. lia.
      * destruct A5 as [A5|A5]; [unfold zlen in Hb; lia|right]. rewrite sample_app; auto; lia.
  - intros j Hj. apply H2 in Hj as [(Hj & O)|(a & b & R & Hm)].
    + destruct (Z_lt_le_dec j (zlen S - 1)) as [L|L].
      * left. apply H1. left. split; [lia|]. rewrite !sample_app in O by lia. exact O.
      * right. intros i Hi. apply H1 in Hi as [(Hi & _)|(a & b & R & Hm)]; [lia|].
        pose proof (Run _ _ R). destruct R as (A1 & _). apply mid_between in Hm; lia.
    + destruct R as (A1 & A2 & A3 & A4 & A5). fold (zlen (S ++ X)) in A2, A5.
      destruct (Z_lt_le_dec b (zlen S - 1)) as [L|L].
      * left. apply H1. right. exists a, b. split; auto. unfold zero_run. split; [lia|]. fold (zlen S). split; [lia|].
        split; [|split].
        -- intros k Hk. rewrite <- (A3 k Hk). rewrite sample_app; auto; lia.
        -- destruct A4 as [A4|A4]; [left; auto|]. destruct (Z.eq_dec a 0); [left; auto|right].
           rewrite sample_app in A4 by lia. exact A4.
        -- destruct A5 as [A5|A5]; [lia|right]. rewrite sample_app in A5 by lia. exact A5.
      * assert (La : zlen S - 1 < a).
        { destruct (Z_lt_le_dec (zlen S - 1) a); auto. exfalso. apply N.
          rewrite <- (A3 (zlen S - 1)) by lia. rewrite sample_app by lia. reflexivity. }
        right. intros i Hi. apply mid_between in Hm; [|lia].
        apply H1 in Hi as [(Hi & _)|(a' & b' & R & Hm')]; [lia|].
        pose proof (Run _ _ R). destruct R as (B1 & _). apply mid_between in Hm'; lia.
Qed.

(** ** Parabolic extrema *)
Definition kept (S : list Qc) : list bool :=
  map3 (fun p c n => negb (neqb c p && neqb c n)) S (tl S) (tl (tl S)).

Lemma kept_app P y z X : kept (P ++ [y; z] ++ X) = kept (P ++ [y; z]) ++ kept ([y; z] ++ X).
Proof.
  induction P as [|p P IH]; [reflexivity|]. destruct P as [|q P].
  - reflexivity.
  - destruct P as [|r P].
    + reflexivity.
    + cbn [app] in *.
      change (kept (p :: q :: r :: ?l)) with (negb (neqb q p && neqb q r) :: kept (q :: r :: l)).
      rewrite IH. reflexivity.
Qed.
Lemma kept_length S : length (kept S) = (length S - 2)%nat.
Proof.
  induction S as [|a S IH]; [reflexivity|]. destruct S as [|b [|c S]]; [reflexivity|reflexivity|].
  change (kept (a :: b :: c :: S)) with (negb (neqb b a && neqb b c) :: kept (b :: c :: S)).
  cbn [length] in *. rewrite IH. lia.
Qed.
Lemma mask_app {Y} (l1 l2 : list Y) m1 m2 : length l1 = length m1 -> mask (l1 ++ l2) (m1 ++ m2) = mask l1 m1 ++ mask l2 m2.
Proof.
  revert m1. induction l1 as [|x l1 IH]; intros [|b m1] E; try discriminate; [reflexivity|].
  cbn. rewrite IH by (cbn in E; lia). destruct b; reflexivity.
Qed.
Lemma zseq_app lo n k : zseq lo (n + k) = zseq lo n ++ zseq (lo + Z.of_nat n) k.
Proof.
  revert lo. induction n as [|n IH]; intros lo; cbn [zseq Nat.add app].
  - f_equal. lia.
  - rewrite IH. do 3 f_equal. lia.
Qed.
Lemma mask_in {Y} (l : list Y) m x : In x (mask l m) -> In x l.
Proof. revert m. induction l as [|y l IH]; intros [|[] m] Hx; cbn in *; firstorder. Qed.
Lemma zseq_bounds a n x : In x (zseq a n) -> a <= x < a + Z.of_nat n.
Proof.
  revert a. induction n as [|n IH]; intros a; [intros []|]. cbn [zseq]. intros [<-|Hx]; [lia|]. apply IH in Hx. lia.
Qed.

Lemma not_duplicate_app P y z X : y <> z ->
  exists more, not_duplicate (P ++ [y; z] ++ X) = not_duplicate (P ++ [y; z]) ++ more.
Proof.
  intros N. destruct X as [|x X]; [exists []; rewrite !app_nil_r; reflexivity|].
  unfold not_duplicate. fold (kept (P ++ [y; z] ++ x :: X)). fold (kept (P ++ [y; z])).
  rewrite kept_app. unfold zrange. rewrite !zlen_app.
  change (zlen [y; z]) with 2.
  replace (Z.to_nat (zlen P + (2 + zlen (x :: X)) - 1 - 1)) with (length P + length (x :: X))%nat
    by (unfold zlen; lia).
  replace (Z.to_nat (zlen P + 2 - 1 - 1)) with (length P) by (unfold zlen; lia).
  rewrite zseq_app, mask_app by (rewrite kept_length, zseq_length, app_length; cbn [length]; lia).
  cbn [app]. unfold kept at 2. cbn [tl map3].
  replace (neqb z y) with false.
  2: { symmetry. apply Qc_eqb_neq. congruence. }
  cbn [andb negb]. cbn [length zseq mask].
  eexists. rewrite <- !app_assoc. cbn [app]. f_equal. f_equal.
  replace (1 + Z.of_nat (length P)) with (zlen P + 2 - 1) by (unfold zlen; lia). reflexivity.
Qed.

Lemma take_app {Y} (l m : list Y) idx : (forall i, In i idx -> 0 <= i < zlen l) -> py_take (l ++ m) idx = py_take l idx.
Proof.
  intros Hi. unfold py_take. induction idx as [|i idx IH]; [reflexivity|]. cbn [mapM].
  rewrite IH by (intros; apply Hi; right; auto).
  replace (py_get (l ++ m) i) with (py_get l i); [reflexivity|].
  specialize (Hi i ltac:(left; reflexivity)). unfold py_get. rewrite zlen_app.
  destruct (Z.ltb_spec i 0); [lia|]. destruct (Z.ltb_spec i 0); [lia|].
  rewrite nth_error_app1 by (unfold zlen in Hi; lia). reflexivity.
Qed.

Lemma scan_app (T U S V : list Qc) : length T = length S ->
  exists more, parabol_scan (T ++ U) (S ++ V) = parabol_scan T S ++ more.
Proof.
  revert S. induction T as [|t T IH]; intros [|s S] E; try discriminate; [eexists; reflexivity|].
  destruct (IH S ltac:(cbn in E; lia)) as (more & IE).
  destruct T as [|t1 [|t2 T]], S as [|s1 [|s2 S]]; cbn in E; try lia; cbn [app] in *.
  - exists (parabol_scan (t :: U) (s :: V)). reflexivity.
  - exists (parabol_scan (t :: t1 :: U) (s :: s1 :: V)). reflexivity.
  - cbn [parabol_scan] in *. rewrite IE.
    destruct (parabol_vertex t t1 t2 s s1 s2); exists more; reflexivity.
Qed.

Lemma begins_filter {Y} (f : Y -> bool) l' l : begins l' l -> begins (filter f l') (filter f l).
Proof. intros (m & ->). exists (filter f m). apply filter_app. Qed.

Lemma mapM_same_length {X Y Z} (f : X -> res Y) (g : X -> res Z) l u v :
  mapM f l = Ok u -> mapM g l = Ok v -> length u = length v.
Proof.
  revert u v. induction l as [|x l IH]; intros u v E1 E2; cbn in *.
  - injection E1 as <-. injection E2 as <-. reflexivity.
  - destruct (f x); [|discriminate]. destruct (g x); [|discriminate]. cbn in *.
    destruct (mapM f l); [|discriminate]. destruct (mapM g l); [|discriminate]. cbn in *.
    injection E1 as <-. injection E2 as <-. cbn. f_equal. auto.
Qed.

Theorem stream_parabol T U S X e e' :
  length T = length S -> length U = length X -> 2 <= zlen S -> sample S (zlen S - 2) <> sample S (zlen S - 1) ->
  find_extrema Parabol T S = Ok e -> find_extrema Parabol (T ++ U) (S ++ X) = Ok e' ->
  begins (max_pos e') (max_pos e) /\ begins (max_val e') (max_val e) /\
  begins (min_pos e') (min_pos e) /\ begins (min_val e') (min_val e).
Proof.
  intros HL HU Hn N E E'.
  assert (HS : exists P y z, S = P ++ [y; z] /\ y <> z).
  { destruct (rev S) as [|z [|y P]] eqn:R; apply (f_equal (@rev Qc)) in R; rewrite rev_involutive in R;
      subst S; cbn [rev] in *; try (cbn in Hn; lia).
    exists (rev P), y, z. rewrite <- app_assoc in *. split; [reflexivity|].
    revert N. unfold sample, zlen. rewrite !app_length, !rev_length. cbn [length app].
    replace (Z.to_nat (Z.of_nat (length P + (1 + 1)) - 2)) with (length (rev P)) by (rewrite rev_length; lia).
    replace (Z.to_nat (Z.of_nat (length P + (1 + 1)) - 1)) with (Datatypes.S (length (rev P))) by (rewrite rev_length; lia).
    generalize (rev P). intros Q.
    replace (nth (length Q) (Q ++ [y; z]) 0%Qc) with y
      by (rewrite app_nth2 by lia; rewrite Nat.sub_diag; reflexivity).
    replace (nth (Datatypes.S (length Q)) (Q ++ [y; z]) 0%Qc) with z; [auto|].
    rewrite app_nth2 by lia. replace (Datatypes.S (length Q) - length Q)%nat with 1%nat by lia. reflexivity. }
  destruct HS as (P & y & z & -> & Nyz).
  set (S := P ++ [y; z]) in *.
  cbn [find_extrema] in E, E'. unfold find_extrema_parabol in E, E'.
  destruct (not_duplicate_app P y z X Nyz) as (more & ND).
  assert (EX : S ++ X = P ++ [y; z] ++ X) by (unfold S; rewrite <- app_assoc; reflexivity).
  assert (RI : forall i, In i (not_duplicate S) -> 0 <= i < zlen S).
  { intros i [<-|Hi]; [lia|]. apply in_app_or in Hi as [Hi|[<-|[]]]; [|lia].
    apply mask_in in Hi. unfold zrange in Hi. apply zseq_bounds in Hi. lia. }
  destruct (py_get T 1) as [t1|]; [|discriminate]. destruct (py_get T 0) as [t0|]; [|discriminate].
  destruct (py_get (T ++ U) 1) as [t1'|]; [|discriminate]. destruct (py_get (T ++ U) 0) as [t0'|]; [|discriminate].
  cbn [bind] in E, E'.
  destruct (py_take T (not_duplicate S)) as [Tk|] eqn:ET; [|discriminate].
  destruct (py_take S (not_duplicate S)) as [Sk|] eqn:ES; [|discriminate].
  cbn [bind] in E. injection E as <-.
  destruct (py_take (T ++ U) (not_duplicate (S ++ X))) as [Tk'|] eqn:ET'; [|discriminate].
  destruct (py_take (S ++ X) (not_duplicate (S ++ X))) as [Sk'|] eqn:ES'; [|discriminate].
  cbn [bind] in E'. injection E' as <-. cbn [max_pos max_val min_pos min_val].
  rewrite EX in ET' at 1. rewrite EX in ES' at 2. rewrite ND in ET', ES'. fold S in ET', ES'. unfold py_take in ET', ES'.
  apply mapM_app_ok in ET' as (Tu & Tv & ET1 & ET2 & ->). apply mapM_app_ok in ES' as (Su & Sv & ES1 & ES2 & ->).
  fold (py_take (T ++ U) (not_duplicate S)) in ET1. rewrite take_app in ET1 by (intros; replace (zlen T) with (zlen S) by (unfold zlen; lia); auto).
  fold (py_take (S ++ X) (not_duplicate S)) in ES1. rewrite take_app in ES1 by auto.
  rewrite ET in ET1. injection ET1 as <-. rewrite ES in ES1. injection ES1 as <-.
  assert (LL : length Tk = length Sk) by (eapply mapM_same_length; [exact ET|exact ES]).
  assert (B : begins (parabol_scan (Tk ++ Tv) (Sk ++ Sv)) (parabol_scan Tk Sk)) by (apply scan_app; auto).
  auto 10 using begins_map, begins_filter.
Qed.

(** ** Parabolic extrema of a signal that ends flat *)
Lemma vertex_flat Tp T0 Tn Sp S0 : (Tp < T0)%Qc -> (T0 < Tn)%Qc -> Sp <> S0 ->
  parabol_vertex Tp T0 Tn Sp S0 S0 = None.
Proof.
  intros O1 O2 N. apply vertex_none; auto.
  - intros (b & c & H1 & H2 & H3). apply N.
    assert (B : (b * (Tn - T0) = 0)%Qc).
    { transitivity ((0 * Tn * Tn + b * Tn + c) - (0 * T0 * T0 + b * T0 + c))%Qc; [ring|].
      unfold on_parabola in *. rewrite <- H2, <- H3. ring. }
    apply Qcmult_integral in B as [->|B].
    + unfold on_parabola in *. rewrite H1, H2. ring.
    + exfalso. assert (Tn = T0) by (rewrite <- (Qcplus_0_l T0), <- B; ring). subst. exact (Qclt_not_eq _ _ O2 eq_refl).
  - intros (_ & F). exact (Qclt_not_eq _ _ F eq_refl).
  - intros (_ & F). exact (Qclt_not_eq _ _ F eq_refl).
Qed.

Lemma scan_cons (a a1 a2 b b1 b2 : Qc) A B :
  parabol_scan (a :: a1 :: a2 :: A) (b :: b1 :: b2 :: B) =
  match parabol_vertex a a1 a2 b b1 b2 with
  | Some v => v :: parabol_scan (a1 :: a2 :: A) (b1 :: b2 :: B)
  | None => parabol_scan (a1 :: a2 :: A) (b1 :: b2 :: B)
  end.
Proof. reflexivity. Qed.
Lemma scan_last (A B : list Qc) t1 t2 t s1 s2 s : length A = length B -> parabol_vertex t1 t2 t s1 s2 s = None ->
  parabol_scan (A ++ [t1; t2; t]) (B ++ [s1; s2; s]) = parabol_scan (A ++ [t1; t2]) (B ++ [s1; s2]).
Proof.
  revert B. induction A as [|a A IH]; intros [|b B] E V; try discriminate.
  - cbn [app]. rewrite scan_cons, V. reflexivity.
  - specialize (IH B ltac:(cbn in E; lia) V).
    destruct A as [|a1 [|a2 A]], B as [|b1 [|b2 B]]; cbn [length] in E; try lia; cbn [app] in *;
      rewrite (scan_cons a), (scan_cons a), IH; reflexivity.
Qed.

Lemma flat_tail (S : list Qc) : S <> [] ->
  exists z, S = repeat z (length S) \/ exists P y k, S = P ++ y :: repeat z (Datatypes.S k) /\ y <> z.
Proof.
  induction S as [|x S IH] using rev_ind; [congruence|]. intros _. exists x.
  destruct S as [|u S]; [left; reflexivity|]. destruct IH as (z & D); [congruence|].
  destruct (Qc_eq_dec z x) as [->|N].
  - destruct D as [D|(P & y & k & D & N)].
    + left. rewrite D at 1. rewrite app_length. cbn [length]. rewrite Nat.add_1_r.
      rewrite <- repeat_cons. reflexivity.
    + right. exists P, y, (Datatypes.S k). split; auto. rewrite D, <- app_assoc. f_equal.
      cbn [app]. f_equal. rewrite <- repeat_cons. reflexivity.
  - right. destruct D as [D|(P & y & k & D & N')].
    + exists (repeat z (length S)), z, 0%nat. split; auto. rewrite D. cbn [length repeat].
      rewrite repeat_cons, <- app_assoc. reflexivity.
    + exists (P ++ y :: repeat z k), z, 0%nat. split; auto. rewrite D. cbn [repeat].
      rewrite repeat_cons. rewrite <- !app_assoc. cbn [app]. rewrite <- app_assoc. reflexivity.
Qed.

Lemma kept_flat z k : kept (repeat z (2 + k)) = repeat false k.
Proof.
  induction k as [|k IH]; [reflexivity|].
  change (kept (repeat z (2 + Datatypes.S k))) with (negb (neqb z z && neqb z z) :: kept (repeat z (2 + k))).
  rewrite IH. replace (neqb z z) with true; [reflexivity|]. symmetry. apply Qc_eqb_eq. reflexivity.
Qed.
Lemma mask_false {Y} (l : list Y) k : mask l (repeat false k) = [].
Proof. revert l. induction k as [|k IH]; intros [|x l]; cbn; auto. Qed.

Lemma not_duplicate_flat P y z k : y <> z ->
  not_duplicate (P ++ y :: repeat z (2 + k)) = not_duplicate (P ++ [y; z]) ++ [zlen P + 2 + Z.of_nat k].
Proof.
  intros N. change (y :: repeat z (2 + k)) with ([y; z] ++ z :: repeat z k).
  unfold not_duplicate. fold (kept (P ++ [y; z] ++ z :: repeat z k)). fold (kept (P ++ [y; z])).
  rewrite kept_app. unfold zrange. rewrite !zlen_app.
  change (zlen [y; z]) with 2.
  replace (zlen (z :: repeat z k)) with (1 + Z.of_nat k) by (unfold zlen; cbn [length]; rewrite repeat_length; lia).
  replace (Z.to_nat (zlen P + (2 + (1 + Z.of_nat k)) - 1 - 1)) with (length P + Datatypes.S k)%nat by (unfold zlen; lia).
  replace (Z.to_nat (zlen P + 2 - 1 - 1)) with (length P) by (unfold zlen; lia).
  rewrite zseq_app, mask_app by (rewrite kept_length, zseq_length, app_length; cbn [length]; lia).
  change (kept ([y; z] ++ z :: repeat z k)) with (negb (neqb z y && neqb z z) :: kept (repeat z (2 + k))).
  replace (neqb z y) with false.
  2: { symmetry. apply Qc_eqb_neq. congruence. }
  cbn [andb negb zseq mask]. rewrite kept_flat, mask_false.
  cbn [app]. f_equal. rewrite <- !app_assoc. f_equal. cbn [app]. f_equal; [unfold zlen; lia|]. f_equal. lia.
Qed.

Lemma not_duplicate_end P y z : y <> z ->
  exists M, not_duplicate (P ++ [y; z]) = M ++ [zlen P; zlen P + 1].
Proof.
  intros N. destruct P as [|x P _] using rev_ind; [exists []; reflexivity|].
  unfold not_duplicate. fold (kept ((P ++ [x]) ++ [y; z])).
  replace (kept ((P ++ [x]) ++ [y; z])) with (kept (P ++ [x; y] ++ [z])) by (rewrite <- app_assoc; reflexivity).
  rewrite kept_app. unfold zrange. rewrite !zlen_app. change (zlen [y; z]) with 2. change (zlen [x]) with 1.
  replace (Z.to_nat (zlen P + 1 + 2 - 1 - 1)) with (length P + 1)%nat by (unfold zlen; lia).
  rewrite zseq_app, mask_app by (rewrite kept_length, zseq_length, app_length; cbn [length]; lia).
  change (kept ([x; y] ++ [z])) with [negb (neqb y x && neqb y z)].
  replace (neqb y z) with false.
  2: { symmetry. apply Qc_eqb_neq. congruence. }
  rewrite andb_false_r. cbn [negb zseq mask].
  exists (0 :: mask (zseq 1 (length P)) (kept (P ++ [x; y]))). cbn [app]. f_equal. rewrite <- app_assoc. f_equal.
  cbn [app]. f_equal; [unfold zlen; lia|]. f_equal. lia.
Qed.

Lemma increasing_far T i j : increasing T -> 0 <= i < j -> j < zlen T -> (sample T i < sample T j)%Qc.
Proof.
  intros HI Hi Hj. unfold sample. replace (Z.to_nat j) with (Z.to_nat i + Datatypes.S (Z.to_nat (j - i - 1)))%nat by lia.
  assert (K : forall k a, (a + Datatypes.S k < length T)%nat -> (nth a T 0 < nth (a + Datatypes.S k) T 0)%Qc).
  { induction k as [|k IH]; intros a Ha.
    - rewrite Nat.add_1_r. apply HI. lia.
    - apply Qclt_trans with (nth (a + Datatypes.S k) T 0%Qc); [apply IH; lia|].
      rewrite (Nat.add_succ_r a (Datatypes.S k)). apply HI. lia. }
  apply K. unfold zlen in Hj. lia.
Qed.

Lemma scan_of T S : length T = length S -> 2 <= zlen S ->
  find_extrema Parabol T S =
    (let vs := parabol_scan (map (sample T) (not_duplicate S)) (map (sample S) (not_duplicate S)) in
     let maxs := filter (fun v => nltb (fst (fst v)) n0) vs in
     let mins := filter (fun v => nltb n0 (fst (fst v))) vs in
     Ok (MkExt (map (fun v => snd (fst v)) maxs) (map snd maxs) (map (fun v => snd (fst v)) mins) (map snd mins)
           (zero_crossings S))).
Proof.
  intros HL Hn. assert (LT : zlen T = zlen S) by (unfold zlen; lia).
  cbn [find_extrema]. unfold find_extrema_parabol.
  rewrite (py_get_nonneg T 1 0%Qc), (py_get_nonneg T 0 0%Qc) by lia. cbn [bind].
  rewrite !take_sample; [reflexivity| |];
    intros i [<-|Hi]; try lia; apply in_app_or in Hi as [Hi|[<-|[]]]; try lia;
    apply mask_in in Hi; unfold zrange in Hi; apply zseq_bounds in Hi; lia.
Qed.

Theorem stream_parabol_increasing T U S X e e' :
  length T = length S -> length U = length X -> increasing T ->
  find_extrema Parabol T S = Ok e -> find_extrema Parabol (T ++ U) (S ++ X) = Ok e' ->
  begins (max_pos e') (max_pos e) /\ begins (max_val e') (max_val e) /\
  begins (min_pos e') (min_pos e) /\ begins (min_val e') (min_val e).
Proof.
  intros HL HU HI E E'.
  assert (LT : zlen T = zlen S) by (unfold zlen; lia).
  assert (Hn : 2 <= zlen S).
  { rewrite <- LT. destruct T as [|t0 [|t1 T]]; cbn in E; [discriminate|discriminate|]. unfold zlen. cbn [length]. lia. }
  destruct (flat_tail S) as (z & D); [intros ->; cbn in Hn; lia|].
  rewrite scan_of in E by auto.
  rewrite scan_of in E' by (rewrite ?app_length, ?zlen_app; unfold zlen in *; lia).
  cbv zeta in E, E'. apply ok_same in E. apply ok_same in E'. subst e e'. cbn [max_pos max_val min_pos min_val].
  assert (B : begins (parabol_scan (map (sample (T ++ U)) (not_duplicate (S ++ X))) (map (sample (S ++ X)) (not_duplicate (S ++ X))))
                     (parabol_scan (map (sample T) (not_duplicate S)) (map (sample S) (not_duplicate S))));
    [|auto 10 using begins_map, begins_filter].
  destruct D as [D|(P & y & k & D & N)].
  - (* all samples equal *)
    assert (ND : not_duplicate S = [0; zlen S - 1]).
    { unfold not_duplicate. fold (kept S). rewrite D at 2.
      replace (length S) with (2 + (length S - 2))%nat at 1 by (unfold zlen in Hn; lia).
      rewrite kept_flat, mask_false. reflexivity. }
    rewrite ND. cbn [map parabol_scan]. eexists. reflexivity.
  - (* the last sample that differs from its successor, and a flat end *)
    destruct (not_duplicate_app P y z (repeat z k ++ X) N) as (more & NX).
    replace (not_duplicate (S ++ X)) with (not_duplicate (P ++ [y; z]) ++ more).
    2: { rewrite <- NX, D. f_equal. rewrite <- app_assoc. reflexivity. }
    destruct (not_duplicate_end P y z N) as (M & NE).
    assert (LS : zlen S = zlen P + 2 + Z.of_nat k).
    { rewrite D, zlen_app. unfold zlen. cbn [length]. rewrite repeat_length. lia. }
    assert (PP : 0 <= zlen P) by (unfold zlen; lia).
    assert (RI : forall i, In i (not_duplicate (P ++ [y; z])) -> 0 <= i < zlen S).
    { intros i [<-|Hi]; [lia|]. rewrite zlen_app in Hi. change (zlen [y; z]) with 2 in Hi.
      apply in_app_or in Hi as [Hi|[<-|[]]]; [|lia].
      apply mask_in in Hi. unfold zrange in Hi. apply zseq_bounds in Hi. lia. }
    rewrite !map_app.
    rewrite (map_sample_app T U), (map_sample_app S X) by (rewrite ?LT; exact RI).
    assert (Old : parabol_scan (map (sample T) (not_duplicate S)) (map (sample S) (not_duplicate S)) =
                  parabol_scan (map (sample T) (not_duplicate (P ++ [y; z]))) (map (sample S) (not_duplicate (P ++ [y; z])))).
    { destruct k as [|k]; [rewrite D; reflexivity|].
      assert (Sy : sample S (zlen P) = y).
      { rewrite D. unfold sample, zlen. rewrite Nat2Z.id, app_nth2, Nat.sub_diag by lia. reflexivity. }
      assert (Sz : forall j, 1 <= j <= 1 + Z.of_nat (Datatypes.S k) -> sample S (zlen P + j) = z).
      { intros j Hj. rewrite D. unfold sample, zlen. rewrite app_nth2 by lia.
        replace (Z.to_nat (Z.of_nat (length P) + j) - length P)%nat with (Datatypes.S (Z.to_nat (j - 1))) by lia.
        cbn [nth]. eapply repeat_spec. apply nth_In. rewrite repeat_length. lia. }
      replace (not_duplicate S) with (not_duplicate (P ++ [y; z]) ++ [zlen P + 2 + Z.of_nat k]).
      2: { rewrite D. symmetry. apply not_duplicate_flat. exact N. }
      rewrite NE, <- app_assoc, !map_app. cbn [app map].
      rewrite Sy, (Sz 1) by lia. replace (zlen P + 2 + Z.of_nat k) with (zlen P + (2 + Z.of_nat k)) by lia.
      rewrite Sz by lia. rewrite scan_last; [reflexivity|rewrite !map_length; reflexivity|].
      apply vertex_flat; auto; apply increasing_far; auto; lia. }
    rewrite Old. apply scan_app. rewrite !map_length. reflexivity.
Qed.
End Prefix.
