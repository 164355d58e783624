(** * ParabolPrepare: mirroring in 'parabol' mode covers the time range (exact arithmetic). *)
From Verif Require Import PyFacts QcFacts Emd Spec Runs EmdProofs EmdControl EmdExact EmdTop ExtremaSpec.
From Verif Require Import PrepareProofs SplineProofs ParabolProofs ParabolSpec EmdSimple.
From Coq Require Import ZifyBool ZifyNat QArith Qcanon.
Open Scope Z_scope.

Ltac clra := repeat match goal with H : _ /\ _ |- _ => destruct H end; qclra.

(** ** Increasing lists of rationals *)
Lemma inc_cons x l : increasing (x :: l) <-> (forall y, In y l -> (x < y)%Qc) /\ increasing l.
Proof.
  split; [|intros [? ?]; apply increasing_cons; auto].
  intros Hl. split; [intros y Hy; apply (increasing_head _ _ _ Hl Hy)|eapply increasing_tl; eauto].
Qed.
Lemma inc_app a b : increasing (a ++ b) <->
  increasing a /\ increasing b /\ (forall x y, In x a -> In y b -> (x < y)%Qc).
Proof.
  induction a as [|z a IH]; simpl app.
  - split; [intros Hb; split; [intros i Hi; simpl in Hi; lia|split; [auto|intros ? ? []]]|tauto].
  - rewrite !inc_cons, IH. split.
    + intros (H1 & H2 & H3 & H4). split; [split; auto; intros y Hy; apply H1; apply in_or_app; auto|].
      split; auto. intros x y [<-|Hx] Hy; auto. apply H1. apply in_or_app; auto.
    + intros ((H1 & H2) & H3 & H4). split; [intros y Hy; apply in_app_or in Hy as [?|?]; auto; apply H4; simpl; auto|].
      split; auto. split; auto. intros x y Hx Hy. apply H4; simpl; auto.
Qed.
Lemma inc_nil : increasing [].
Proof. intros i Hi. simpl in Hi. lia. Qed.
Lemma inc_one x : increasing [x].
Proof. intros i Hi. simpl in Hi. lia. Qed.
Lemma inc_firstn n l : increasing l -> increasing (firstn n l).
Proof. intros Hl. rewrite <- (firstn_skipn n l) in Hl. apply inc_app in Hl. tauto. Qed.
Lemma inc_skipn n l : increasing l -> increasing (skipn n l).
Proof. intros Hl. rewrite <- (firstn_skipn n l) in Hl. apply inc_app in Hl. tauto. Qed.
Lemma inc_slice l a b : increasing l -> increasing (py_slice l a b).
Proof. intros Hl. unfold py_slice. apply inc_firstn, inc_skipn. auto. Qed.
Lemma inc_from l a : increasing l -> increasing (py_from l a).
Proof. intros Hl. unfold py_from. apply inc_skipn. auto. Qed.
Lemma inc_refl c l : increasing l -> increasing (rev (map (fun t => (c - t)%Qc) l)).
Proof.
  induction l as [|x l IH]; [auto|]. rewrite inc_cons. intros [H1 H2]. cbn [map rev].
  apply inc_app. split; auto. split; [apply inc_one|].
  intros u v Hu [<-|[]]. apply in_rev, in_map_iff in Hu as (w & <- & Hw). apply H1 in Hw. qclra.
Qed.
Lemma inc_first l x y : increasing (y :: l) -> In x (y :: l) -> (y <= x)%Qc.
Proof. intros Hl [->|Hx]; [apply Qcle_refl|]. apply Qclt_le_weak, (increasing_head _ _ _ Hl Hx). Qed.
Lemma inc_last l x y : increasing (l ++ [y]) -> In x (l ++ [y]) -> (x <= y)%Qc.
Proof.
  intros Hl Hx. apply inc_app in Hl as (_ & _ & H3). apply in_app_or in Hx as [Hx|[->|[]]]; [|apply Qcle_refl].
  apply Qclt_le_weak, H3; simpl; auto.
Qed.

(** ** Slices *)
Lemma slice_len {X Y} (l : list X) (m : list Y) a b : length l = length m ->
  length (py_slice l a b) = length (py_slice m a b).
Proof. intros E. unfold py_slice, zlen. rewrite !firstn_length, !skipn_length, E. reflexivity. Qed.
Lemma from_len {X Y} (l : list X) (m : list Y) a : length l = length m ->
  length (py_from l a) = length (py_from m a).
Proof. intros E. unfold py_from, zlen. rewrite !skipn_length, E. reflexivity. Qed.

Lemma slice_head {X} (x : X) l nb : 1 <= nb -> In x (py_slice (x :: l) 0 nb).
Proof.
  intros Hn. unfold py_slice. rewrite zlen_cons. pose proof (zlen_nonneg l).
  rewrite (clip_in _ 0) by lia. change (Z.to_nat 0) with O. cbn [skipn].
  unfold clip_bound. destruct (Z.ltb_spec nb 0); [lia|].
  destruct (Z.to_nat (Z.max 0 (Z.min (zlen l + 1) nb) - 0)) as [|k] eqn:E; [lia|]. simpl. auto.
Qed.
Lemma slice_tail {X} (x y : X) l nb : 1 <= nb ->
  In y (py_slice (x :: y :: l) 1 (nb + 1)) /\ forall z, In z (py_slice (x :: y :: l) 1 (nb + 1)) -> In z (y :: l).
Proof.
  intros Hn. unfold py_slice. rewrite !zlen_cons. pose proof (zlen_nonneg l).
  rewrite (clip_in _ 1) by lia. change (Z.to_nat 1) with 1%nat. cbn [skipn].
  unfold clip_bound. destruct (Z.ltb_spec (nb + 1) 0); [lia|].
  destruct (Z.to_nat (Z.max 0 (Z.min (zlen l + 1 + 1) (nb + 1)) - 1)) as [|k] eqn:E; [lia|]. cbn [firstn].
  split; [simpl; auto|]. intros z [->|Hz]; [simpl; auto|right; eapply In_firstn; eauto].
Qed.
Lemma from_last {X} (x : X) l nb : 1 <= nb -> In x (py_from (l ++ [x]) (Z.max 0 (zlen (l ++ [x]) - nb))).
Proof.
  intros Hn. unfold py_from. rewrite zlen_app. change (zlen [x]) with 1. pose proof (zlen_nonneg l).
  rewrite clip_in by lia. rewrite skipn_app. apply in_or_app. right.
  replace (Z.to_nat (Z.max 0 (zlen l + 1 - nb)) - length l)%nat with O by (unfold zlen in *; lia). simpl; auto.
Qed.
Lemma slice_init {X} (x y : X) l nb : 1 <= nb ->
  let m := l ++ [y; x] in
  In y (py_slice m (Z.max 0 (zlen m - nb - 1)) (-1)) /\
  forall z, In z (py_slice m (Z.max 0 (zlen m - nb - 1)) (-1)) -> In z (l ++ [y]).
Proof.
  intros Hn m. unfold m. replace (l ++ [y; x]) with ((l ++ [y]) ++ [x]) by (rewrite <- app_assoc; reflexivity).
  set (k := l ++ [y]). assert (Hk : 1 <= zlen k) by (unfold k; rewrite zlen_app; change (zlen [y]) with 1; pose proof (zlen_nonneg l); lia).
  rewrite py_slice_init by (rewrite zlen_app; change (zlen [x]) with 1; lia).
  rewrite zlen_app. change (zlen [x]) with 1. set (i := Z.max 0 _).
  assert (Hi : 0 <= i < zlen k) by (unfold i; lia).
  rewrite skipn_app. replace (Z.to_nat i - length k)%nat with O by (unfold zlen in *; lia). cbn [skipn].
  replace (Z.to_nat (zlen k + 1 - 1 - i)) with (length (skipn (Z.to_nat i) k) + 0)%nat
    by (rewrite skipn_length; unfold zlen in *; lia).
  rewrite firstn_app_2. cbn [firstn]. rewrite app_nil_r. split.
  - unfold k. rewrite skipn_app. apply in_or_app. right.
    replace (Z.to_nat i - length l)%nat with O; [simpl; auto|].
    unfold k in Hi. rewrite zlen_app in Hi. change (zlen [y]) with 1 in Hi. unfold zlen in *. lia.
  - intros z. apply In_skipn.
Qed.

(** ** One envelope *)
Lemma map_fst_combine {X Y} (a : list X) (b : list Y) : length a = length b -> map fst (combine a b) = a.
Proof. revert b. induction a as [|x a IH]; intros [|y b]; simpl; intros E; try discriminate; auto. f_equal. auto. Qed.

Definition lside (t0 c : Qc) (M l v : list Qc) : Prop :=
  increasing l /\ length l = length v /\ (forall x m, In x l -> In m M -> (c + c < x + m)%Qc) /\
  exists x, In x l /\ (c + c - x <= t0)%Qc.
Definition rside (tN c : Qc) (M l v : list Qc) : Prop :=
  increasing l /\ length l = length v /\ (forall x m, In x l -> In m M -> (x + m < c + c)%Qc) /\
  exists x, In x l /\ (tN <= c + c - x)%Qc.

Definition refl (c : Qc) (l : list Qc) := map (fun t => nsub (nmul n2 c) t) l.
Lemma refl_eq c l : refl c l = map (fun t => (c + c - t)%Qc) l.
Proof. unfold refl. apply map_ext. intros t. unfold n2. num_qc. change (Qc_ofZ 2) with (1 + 1)%Qc. ring. Qed.

Lemma one_envelope t0 tN cl cr M V l lv r rv : increasing M -> M <> [] -> length M = length V ->
  lside t0 cl M l lv -> rside tN cr M r rv ->
  covers t0 tN (combine M V) (combine (rev (refl cl l)) (rev lv) ++ combine M V ++ combine (rev (refl cr r)) (rev rv)).
Proof.
  intros HM HMn HMV (L1 & L2 & L3 & (xl & L4 & L5)) (R1 & R2 & R3 & (xr & R4 & R5)).
  assert (EL : length (rev (refl cl l)) = length (rev lv)) by (unfold refl; rewrite !rev_length, map_length; auto).
  assert (ER : length (rev (refl cr r)) = length (rev rv)) by (unfold refl; rewrite !rev_length, map_length; auto).
  set (P := _ ++ _).
  assert (EP : map fst P = rev (refl cl l) ++ M ++ rev (refl cr r))
    by (unfold P; rewrite !map_app, !map_fst_combine; auto).
  destruct M as [|m0 M']; [congruence|].
  assert (HI : increasing (map fst P)).
  { rewrite EP. rewrite !refl_eq. apply inc_app. split; [apply inc_refl; auto|]. split.
    - apply inc_app. split; auto. split; [apply inc_refl; auto|].
      intros x y Hx Hy. apply in_rev, in_map_iff in Hy as (w & <- & Hw).
      specialize (R3 w x Hw Hx). qclra.
    - intros x y Hx Hy. apply in_rev, in_map_iff in Hx as (w & <- & Hw).
      apply in_app_or in Hy as [Hy|Hy]; [specialize (L3 w y Hw Hy); qclra|].
      apply in_rev, in_map_iff in Hy as (u & <- & Hu).
      specialize (L3 w m0 Hw (or_introl eq_refl)). specialize (R3 u m0 Hu (or_introl eq_refl)). qclra. }
  assert (Hl : In (cl + cl - xl)%Qc (map fst P)).
  { rewrite EP, !refl_eq. apply in_or_app. left. apply -> in_rev. apply in_map_iff. eauto. }
  assert (Hr : In (cr + cr - xr)%Qc (map fst P)).
  { rewrite EP, !refl_eq. apply in_or_app. right. apply in_or_app. right. apply -> in_rev. apply in_map_iff. eauto. }
  assert (HL : (3 <= length P)%nat).
  { rewrite <- (map_length fst), EP, !app_length, !rev_length. unfold refl. rewrite !map_length.
    destruct l; [destruct L4|]. destruct r; [destruct R4|]. simpl. lia. }
  unfold covers. split; auto. split; auto. split; [|split].
  - intros p Hp. unfold P. apply in_or_app. right. apply in_or_app. auto.
  - destruct P as [|p P']; [simpl in HL; lia|]. exists p. split; auto. simpl in HI, Hl.
    eapply Qcle_trans; [|exact L5]. eapply inc_first; eauto.
  - destruct (@exists_last _ P) as (P' & p & E); [intros E; rewrite E in HL; simpl in HL; lia|].
    rewrite E in *. rewrite app_length. exists p. split.
    + replace (length P' + length [p] - 1)%nat with (length P') by (simpl; lia).
      rewrite nth_error_app2, Nat.sub_diag by lia. reflexivity.
    + rewrite map_app in HI, Hr. eapply Qcle_trans; [exact R5|]. eapply inc_last; [exact HI|exact Hr].
Qed.

(** ** Both ends *)
Section Ends.
Variables (nb : Z) (t0 tN s0 sN : Qc) (maxp maxv minp minv : list Qc).
Hypothesis Hnb : 1 <= nb.
Hypothesis IM : increasing maxp.
Hypothesis Im : increasing minp.
Hypothesis LM : length maxp = length maxv.
Hypothesis Lm : length minp = length minv.
Hypothesis InM : forall x, In x maxp -> (t0 < x)%Qc /\ (x < tN)%Qc.
Hypothesis Inm : forall x, In x minp -> (t0 < x)%Qc /\ (x < tN)%Qc.

Definition left_end (M0 m0 mv0 Mv0 : Qc) :=
  let d_pos := nsub M0 m0 in
    if nltb d_pos n0 then
      if nltb mv0 s0 && nltb (nsub M0 t0) (nabs d_pos) then
        (refl M0 (py_slice maxp 1 (nb + 1)), refl M0 (py_slice minp 0 nb),
         py_slice maxv 1 (nb + 1), py_slice minv 0 nb)
      else
        (refl t0 (py_slice maxp 0 nb), refl t0 (t0 :: py_slice minp 0 (nb - 1)),
         py_slice maxv 0 nb, s0 :: py_slice minv 0 (nb - 1))
    else
      if nltb s0 Mv0 && nltb (nsub m0 t0) (nabs d_pos) then
        (refl m0 (py_slice maxp 0 nb), refl m0 (py_slice minp 1 (nb + 1)),
         py_slice maxv 0 nb, py_slice minv 1 (nb + 1))
      else
        (refl t0 (t0 :: py_slice maxp 0 (nb - 1)), refl t0 (py_slice minp 0 nb),
         s0 :: py_slice maxv 0 (nb - 1), py_slice minv 0 nb).

Definition right_end (Ml ml mvl Mvl : Qc) :=
  let end_min := zlen minp in
  let end_max := zlen maxp in
  let d_pos := nsub Ml ml in
    if negb (nltb n0 d_pos) then
      if nltb sN Mvl && nltb (nsub tN ml) (nabs d_pos) then
        let idx_max := Z.max 0 (end_max - nb) in
        let idx_min := Z.max 0 (end_min - nb - 1) in
        (refl ml (py_from maxp idx_max), refl ml (py_slice minp idx_min (-1)),
         py_from maxv idx_max, py_slice minv idx_min (-1))
      else
        let idx_max := Z.max 0 (end_max - nb + 1) in
        let idx_min := Z.max 0 (end_min - nb) in
        (refl tN (py_from maxp idx_max ++ [tN]), refl tN (py_from minp idx_min),
         py_from maxv idx_max ++ [sN], py_from minv idx_min)
    else
      if nltb mvl sN && (1 <? zlen maxp) && nltb (nsub tN Ml) (nabs d_pos) then
        let idx_max := Z.max 0 (end_max - nb - 1) in
        let idx_min := Z.max 0 (end_min - nb) in
        (refl Ml (py_slice maxp idx_max (-1)), refl Ml (py_from minp idx_min),
         py_slice maxv idx_max (-1), py_from minv idx_min)
      else
        let idx_max := Z.max 0 (end_max - nb) in
        let idx_min := Z.max 0 (end_min - nb + 1) in
        (refl tN (py_from maxp idx_max), refl tN (py_from minp idx_min ++ [tN]),
         py_from maxv idx_max, py_from minv idx_min ++ [sN]).

(** Mirroring about the first (last) instant. *)
Lemma lside_t0 M V : increasing M -> length M = length V -> M <> [] -> (forall x, In x M -> (t0 < x)%Qc /\ (x < tN)%Qc) ->
  lside t0 t0 M (py_slice M 0 nb) (py_slice V 0 nb).
Proof.
  intros H1 H2 H3 H4. split; [apply inc_slice; auto|]. split; [apply slice_len; auto|]. split.
  - intros x m Hx Hm. apply py_slice_incl in Hx. apply H4 in Hx, Hm. clra.
  - destruct M as [|m M]; [congruence|]. exists m. split; [apply slice_head; auto|].
    destruct (H4 m (or_introl eq_refl)). clra.
Qed.
Lemma lside_t0_cons M V s : increasing M -> length M = length V -> (forall x, In x M -> (t0 < x)%Qc /\ (x < tN)%Qc) ->
  lside t0 t0 M (t0 :: py_slice M 0 (nb - 1)) (s :: py_slice V 0 (nb - 1)).
Proof.
  intros H1 H2 H4. split; [|split; [simpl; f_equal; apply slice_len; auto|split]].
  - apply inc_cons. split; [|apply inc_slice; auto]. intros y Hy. apply py_slice_incl in Hy. apply H4; auto.
  - intros x m [<-|Hx] Hm; [|apply py_slice_incl in Hx; apply H4 in Hx]; apply H4 in Hm; clra.
  - exists t0. split; [simpl; auto|clra].
Qed.
Lemma rside_tN M V : increasing M -> length M = length V -> M <> [] -> (forall x, In x M -> (t0 < x)%Qc /\ (x < tN)%Qc) ->
  rside tN tN M (py_from M (Z.max 0 (zlen M - nb))) (py_from V (Z.max 0 (zlen M - nb))).
Proof.
  intros H1 H2 H3 H4. split; [apply inc_from; auto|]. split; [apply from_len; auto|]. split.
  - intros x m Hx Hm. apply py_from_incl in Hx. apply H4 in Hx, Hm. clra.
  - destruct (exists_last H3) as (M' & m & ->). exists m. split; [apply from_last; auto|].
    destruct (H4 m) as [? ?]; [apply in_or_app; simpl; auto|]. clra.
Qed.
Lemma rside_tN_app M V s i : increasing M -> length M = length V -> (forall x, In x M -> (t0 < x)%Qc /\ (x < tN)%Qc) ->
  rside tN tN M (py_from M i ++ [tN]) (py_from V i ++ [s]).
Proof.
  intros H1 H2 H4. split; [|split; [rewrite !app_length; f_equal; apply from_len; auto|split]].
  - apply inc_app. split; [apply inc_from; auto|]. split; [apply inc_one|].
    intros x y Hx [<-|[]]. apply py_from_incl in Hx. apply H4; auto.
  - intros x m Hx Hm. apply H4 in Hm. apply in_app_or in Hx as [Hx|[<-|[]]]; [apply py_from_incl in Hx; apply H4 in Hx|]; clra.
  - exists tN. split; [apply in_or_app; simpl; auto|clra].
Qed.

(** Mirroring about the first extremum, of the kind [M]; the other kind is [m]. *)
Lemma lside_first M V M0 M1 Mr m0 : M = M0 :: M1 :: Mr -> increasing M -> length M = length V ->
  (m0 < M1)%Qc -> (M0 - t0 < m0 - M0)%Qc ->
  lside t0 M0 M (py_slice M 1 (nb + 1)) (py_slice V 1 (nb + 1)).
Proof.
  intros -> H1 H2 H3 H4. destruct (slice_tail M0 M1 Mr nb Hnb) as [A1 A2].
  pose proof H1 as H1'. apply inc_cons in H1' as [B1 B2].
  split; [apply inc_slice; auto|]. split; [apply slice_len; auto|]. split.
  - intros x m Hx Hm. apply A2 in Hx. apply B1 in Hx. pose proof (inc_first _ m M0 H1 Hm). clra.
  - exists M1. split; auto. clra.
Qed.
Lemma lside_other m V M0 m0 mr : m = m0 :: mr -> increasing m -> length m = length V ->
  (M0 < m0)%Qc -> (M0 - t0 < m0 - M0)%Qc ->
  lside t0 M0 m (py_slice m 0 nb) (py_slice V 0 nb).
Proof.
  intros -> H1 H2 H3 H4. split; [apply inc_slice; auto|]. split; [apply slice_len; auto|]. split.
  - intros x y Hx Hy. apply py_slice_incl in Hx. pose proof (inc_first _ x m0 H1 Hx). pose proof (inc_first _ y m0 H1 Hy). clra.
  - exists m0. split; [apply slice_head; auto|clra].
Qed.
Lemma rside_first M V M' Ma Ml ml : M = M' ++ [Ma; Ml] -> increasing M -> length M = length V ->
  (Ma < ml)%Qc -> (tN - Ml < Ml - ml)%Qc ->
  rside tN Ml M (py_slice M (Z.max 0 (zlen M - nb - 1)) (-1)) (py_slice V (Z.max 0 (zlen M - nb - 1)) (-1)).
Proof.
  intros -> H1 H2 H3 H4. destruct (slice_init Ml Ma M' nb Hnb) as [A1 A2].
  assert (E : M' ++ [Ma; Ml] = (M' ++ [Ma]) ++ [Ml]) by (rewrite <- app_assoc; reflexivity).
  pose proof H1 as H1'. rewrite E in H1'. pose proof H1' as H1''. apply inc_app in H1' as (_ & _ & B1).
  split; [apply inc_slice; auto|]. split; [apply slice_len; auto|]. split.
  - intros x m Hx Hm. apply A2 in Hx. specialize (B1 x Ml Hx (or_introl eq_refl)).
    rewrite E in Hm. pose proof (inc_last _ m Ml H1'' Hm). clra.
  - exists Ma. split; auto. clra.
Qed.
Lemma rside_other m V m' ml Ml : m = m' ++ [ml] -> increasing m -> length m = length V ->
  (ml < Ml)%Qc -> (tN - Ml < Ml - ml)%Qc ->
  rside tN Ml m (py_from m (Z.max 0 (zlen m - nb))) (py_from V (Z.max 0 (zlen m - nb))).
Proof.
  intros -> H1 H2 H3 H4. split; [apply inc_from; auto|]. split; [apply from_len; auto|]. split.
  - intros x y Hx Hy. apply py_from_incl in Hx. pose proof (inc_last _ x ml H1 Hx). pose proof (inc_last _ y ml H1 Hy). clra.
  - exists ml. split; [apply from_last; auto|clra].
Qed.

(** The first three extrema alternate; so do the last three. *)
Definition alt_left (M m : list Qc) : Prop :=
  exists M0 M1 Mr m0 mr, M = M0 :: M1 :: Mr /\ m = m0 :: mr /\ (M0 < m0)%Qc /\ (m0 < M1)%Qc.
Definition alt_right (M m : list Qc) : Prop :=
  exists M' Ma Ml m' ml, M = M' ++ [Ma; Ml] /\ m = m' ++ [ml] /\ (Ma < ml)%Qc /\ (ml < Ml)%Qc.

Lemma abs_diff x y : (x < y)%Qc -> Qc_abs (x - y) = (y - x)%Qc.
Proof. intros H. unfold Qc_abs. assert (E : Qc_ltb (x - y) 0 = true) by (apply Qc_ltb_lt; clra). rewrite E. ring. Qed.
Lemma abs_diff' x y : (y < x)%Qc -> Qc_abs (x - y) = (x - y)%Qc.
Proof. intros H. unfold Qc_abs. assert (E : Qc_ltb (x - y) 0 = false) by (apply Qc_ltb_ge; clra). rewrite E. ring. Qed.

Definition ends_l (q : list Qc * list Qc * list Qc * list Qc) : Prop :=
  let '(a, b, av, bv) := q in
  exists c la lb, a = refl c la /\ b = refl c lb /\ lside t0 c maxp la av /\ lside t0 c minp lb bv.
Definition ends_r (q : list Qc * list Qc * list Qc * list Qc) : Prop :=
  let '(a, b, av, bv) := q in
  exists c la lb, a = refl c la /\ b = refl c lb /\ rside tN c maxp la av /\ rside tN c minp lb bv.

Lemma left_end_ok M0 m0 mv0 Mv0 : (alt_left maxp minp \/ alt_left minp maxp) ->
  nth_error maxp 0 = Some M0 -> nth_error minp 0 = Some m0 -> ends_l (left_end M0 m0 mv0 Mv0).
Proof.
  intros HA E1 E2. assert (NM : maxp <> []) by (intros E; rewrite E in E1; discriminate).
  assert (Nm : minp <> []) by (intros E; rewrite E in E2; discriminate).
  unfold left_end. cbv zeta. num_qc.
  destruct HA as [(M0' & M1 & Mr & m0' & mr & EM & Em & O1 & O2)|(m0' & m1 & mr & M0' & Mr & Em & EM & O1 & O2)].
  - assert (M0' = M0) by (rewrite EM in E1; injection E1; auto). assert (m0' = m0) by (rewrite Em in E2; injection E2; auto). subst M0' m0'.
    assert (D : Qc_ltb (M0 - m0) 0 = true) by (apply Qc_ltb_lt; clra). rewrite D, abs_diff by auto.
    destruct (_ && _) eqn:C.
    + apply andb_prop in C as [_ C]. qc_bool. exists M0, (py_slice maxp 1 (nb + 1)), (py_slice minp 0 nb).
      split; [reflexivity|]. split; [reflexivity|]. split.
      * eapply lside_first; eauto.
      * eapply lside_other; eauto.
    + exists t0, (py_slice maxp 0 nb), (t0 :: py_slice minp 0 (nb - 1)).
      split; [reflexivity|]. split; [reflexivity|]. split; [apply lside_t0; auto|apply lside_t0_cons; auto].
  - assert (M0' = M0) by (rewrite EM in E1; injection E1; auto). assert (m0' = m0) by (rewrite Em in E2; injection E2; auto). subst M0' m0'.
    assert (D : Qc_ltb (M0 - m0) 0 = false) by (apply Qc_ltb_ge; clra). rewrite D, abs_diff' by auto.
    destruct (_ && _) eqn:C.
    + apply andb_prop in C as [_ C]. qc_bool. exists m0, (py_slice maxp 0 nb), (py_slice minp 1 (nb + 1)).
      split; [reflexivity|]. split; [reflexivity|]. split.
      * eapply lside_other; eauto.
      * eapply lside_first; eauto.
    + exists t0, (t0 :: py_slice maxp 0 (nb - 1)), (py_slice minp 0 nb).
      split; [reflexivity|]. split; [reflexivity|]. split; [apply lside_t0_cons; auto|apply lside_t0; auto].
Qed.

Lemma last_eq {X} (l l' : list X) x y : l ++ [x] = l' ++ [y] -> x = y.
Proof. intros E. apply app_inj_tail in E. tauto. Qed.

Lemma right_end_ok M' m' Ml ml mvl Mvl : (alt_right maxp minp \/ alt_right minp maxp) ->
  maxp = M' ++ [Ml] -> minp = m' ++ [ml] -> ends_r (right_end Ml ml mvl Mvl).
Proof.
  intros HA E1 E2. assert (NM : maxp <> []) by (intros E; rewrite E in E1; destruct M'; discriminate).
  assert (Nm : minp <> []) by (intros E; rewrite E in E2; destruct m'; discriminate).
  unfold right_end. cbv zeta. num_qc.
  destruct HA as [(Mx & Ma & Ml' & mx & ml' & EM & Em & O1 & O2)|(mx & ma & ml' & Mx & Ml' & Em & EM & O1 & O2)].
  - assert (Ml' = Ml).
    { replace (Mx ++ [Ma; Ml']) with ((Mx ++ [Ma]) ++ [Ml']) in EM by (rewrite <- app_assoc; reflexivity).
      eapply last_eq. rewrite <- EM, E1. reflexivity. }
    assert (ml' = ml) by (eapply last_eq; rewrite <- Em, E2; reflexivity). subst Ml' ml'.
    assert (D : Qc_ltb 0 (Ml - ml) = true) by (apply Qc_ltb_lt; clra). rewrite D, abs_diff' by auto. cbn [negb].
    destruct (_ && _) eqn:C.
    + apply andb_prop in C as [_ C]. qc_bool. eexists Ml, _, _.
      split; [reflexivity|]. split; [reflexivity|]. split.
      * eapply rside_first; eauto.
      * eapply rside_other; eauto.
    + eexists tN, _, _.
      split; [reflexivity|]. split; [reflexivity|]. split; [apply rside_tN; auto|apply rside_tN_app; auto].
  - assert (ml' = ml).
    { replace (mx ++ [ma; ml']) with ((mx ++ [ma]) ++ [ml']) in Em by (rewrite <- app_assoc; reflexivity).
      eapply last_eq. rewrite <- Em, E2. reflexivity. }
    assert (Ml' = Ml) by (eapply last_eq; rewrite <- EM, E1; reflexivity). subst Ml' ml'.
    assert (D : Qc_ltb 0 (Ml - ml) = false) by (apply Qc_ltb_ge; clra). rewrite D, abs_diff by auto. cbn [negb].
    destruct (_ && _) eqn:C.
    + apply andb_prop in C as [_ C]. qc_bool. eexists ml, _, _.
      split; [reflexivity|]. split; [reflexivity|]. split.
      * eapply rside_other; eauto.
      * eapply rside_first; eauto.
    + eexists tN, _, _.
      split; [reflexivity|]. split; [reflexivity|]. split; [apply rside_tN_app; auto|apply rside_tN; auto].
Qed.
End Ends.

Lemma get0 {X} (l : list X) x r : l = x :: r -> py_get l 0 = Ok x.
Proof. intros ->. rewrite (py_get_nonneg _ 0 x); [reflexivity|rewrite zlen_cons; pose proof (zlen_nonneg r); lia]. Qed.
Lemma getl {X} (l : list X) x r : l = r ++ [x] -> py_get l (-1) = Ok x.
Proof.
  intros ->. pose proof (zlen_nonneg r). rewrite (py_get_neg _ (-1) x); [|rewrite zlen_app; change (zlen [x]) with 1; lia].
  f_equal. rewrite zlen_app. change (zlen [x]) with 1. replace (Z.to_nat (-1 + (zlen r + 1))) with (length r) by (unfold zlen; lia).
  rewrite app_nth2, Nat.sub_diag by lia. reflexivity.
Qed.

Theorem parabol_covers nb T S e : 1 <= nb -> (2 <= length T)%nat -> S <> [] ->
  increasing (max_pos e) -> increasing (min_pos e) ->
  length (max_pos e) = length (max_val e) -> length (min_pos e) = length (min_val e) ->
  (forall x, In x (max_pos e) \/ In x (min_pos e) -> (sample T 0 < x)%Qc /\ (x < sample T (zlen T - 1))%Qc) ->
  (alt_left (max_pos e) (min_pos e) \/ alt_left (min_pos e) (max_pos e)) ->
  (alt_right (max_pos e) (min_pos e) \/ alt_right (min_pos e) (max_pos e)) ->
  exists P Q, prepare_points_parabol nb T S e = Ok (P, Q) /\
    covers (sample T 0) (sample T (zlen T - 1)) (combine (max_pos e) (max_val e)) P /\
    covers (sample T 0) (sample T (zlen T - 1)) (combine (min_pos e) (min_val e)) Q.
Proof.
  intros Hnb HT HS IM Im LM Lm HIn HL HR. unfold prepare_points_parabol.
  assert (NM : max_pos e <> []) by (destruct HL as [(? & ? & ? & ? & ? & -> & _)|(? & ? & ? & ? & ? & _ & -> & _)]; discriminate).
  assert (Nm : min_pos e <> []) by (destruct HL as [(? & ? & ? & ? & ? & _ & -> & _)|(? & ? & ? & ? & ? & -> & _)]; discriminate).
  assert (NMv : max_val e <> []) by (destruct (max_pos e), (max_val e); try congruence; discriminate).
  assert (Nmv : min_val e <> []) by (destruct (min_pos e), (min_val e); try congruence; discriminate).
  assert (G0 : forall X (l : list X), l <> [] -> exists x r, l = x :: r) by (intros X [|x r] N; [congruence|eauto]).
  assert (Gl : forall X (l : list X), l <> [] -> exists x r, l = r ++ [x]) by (intros X l N; destruct (exists_last N) as (r & x & E); eauto).
  destruct (G0 _ _ NM) as (M0 & Mr & EM0). destruct (G0 _ _ Nm) as (m0 & mr & Em0).
  destruct (G0 _ _ NMv) as (Mv0 & Mvr & EMv0). destruct (G0 _ _ Nmv) as (mv0 & mvr & Emv0).
  destruct (G0 _ _ HS) as (s0 & sr & Es0).
  destruct (Gl _ _ NM) as (Ml & M' & EMl). destruct (Gl _ _ Nm) as (ml & m' & Eml).
  destruct (Gl _ _ NMv) as (Mvl & Mv' & EMvl). destruct (Gl _ _ Nmv) as (mvl & mv' & Emvl).
  destruct (Gl _ _ HS) as (sl & s' & Esl).
  rewrite (get0 _ _ _ EM0), (get0 _ _ _ Em0), (get0 _ _ _ EMv0), (get0 _ _ _ Emv0), (get0 _ _ _ Es0).
  rewrite (getl _ _ _ EMl), (getl _ _ _ Eml), (getl _ _ _ EMvl), (getl _ _ _ Emvl), (getl _ _ _ Esl).
  rewrite get_sample, get_sample_last by (unfold zlen; lia). cbn [bind].
  set (t0 := sample T 0) in *. set (tN := sample T (zlen T - 1)) in *. cbv zeta.
  assert (EL := left_end_ok nb t0 tN s0 (max_pos e) (max_val e) (min_pos e) (min_val e) Hnb IM Im LM Lm
    ltac:(auto) ltac:(auto) M0 m0 mv0 Mv0 HL ltac:(rewrite EM0; reflexivity) ltac:(rewrite Em0; reflexivity)).
  assert (ER := right_end_ok nb t0 tN sl (max_pos e) (max_val e) (min_pos e) (min_val e) Hnb IM Im LM Lm
    ltac:(auto) ltac:(auto) M' m' Ml ml mvl Mvl HR EMl Eml).
  unfold left_end, right_end in EL, ER. cbv zeta in EL, ER. unfold refl in EL, ER.
  destruct (if nltb (nsub M0 m0) n0 then _ else _) as [[[la lb] lav] lbv].
  destruct (if negb _ then _ else _) as [[[ra rb] rav] rbv].
  destruct EL as (cl & la' & lb' & -> & -> & L1 & L2). destruct ER as (cr & ra' & rb' & -> & -> & R1 & R2).
  eexists _, _. split; [reflexivity|]. split; apply one_envelope; auto.
Qed.
