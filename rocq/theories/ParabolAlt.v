(** * ParabolAlt: on signals without terraces and straight stretches the extrema of 'parabol' mode
    alternate, and a sift succeeds (exact arithmetic). *)
From Verif Require Import PyFacts QcFacts Emd Spec Runs EmdProofs EmdControl EmdExact EmdTop ExtremaSpec.
From Verif Require Import PrepareProofs SplineProofs ParabolProofs ParabolSpec EmdSimple ParabolPrepare.
From Coq Require Import ZifyBool ZifyNat QArith Qcanon.
Open Scope Z_scope.

Definition coef (v : Qc * Qc * Qc) : Qc := fst (fst v).
Definition first_max (V : list (Qc * Qc * Qc)) : Prop := match V with [] => True | v :: _ => (coef v < 0)%Qc end.
Definition first_min (V : list (Qc * Qc * Qc)) : Prop := match V with [] => True | v :: _ => (0 < coef v)%Qc end.
Fixpoint alternating (V : list (Qc * Qc * Qc)) : Prop :=
  match V with
  | [] => True
  | v :: V' => alternating V' /\ (((coef v < 0)%Qc /\ first_min V') \/ ((0 < coef v)%Qc /\ first_max V'))
  end.

(** ** One triple *)
Definition aligned (Tp T0 Tn Sp S0 Sn : Qc) : Prop := exists b c, tri Tp T0 Tn Sp S0 Sn 0 b c.

Lemma vertex_is_max Tp T0 Tn Sp S0 Sn : (Tp < T0)%Qc -> (T0 < Tn)%Qc -> (Sp <= S0)%Qc -> (Sn < S0)%Qc ->
  exists v, parabol_vertex Tp T0 Tn Sp S0 Sn = Some v /\ (coef v < 0)%Qc.
Proof.
  intros O1 O2 X Y. destruct (proj2 (vertex_max_rule Tp T0 Tn Sp S0 Sn O1 O2) (conj X Y)) as (t & v & Hv).
  apply (vertex_max _ _ _ _ _ _ O1 O2) in Hv as (x & E & Hx). exists (x, t, v). auto.
Qed.
Lemma vertex_is_min Tp T0 Tn Sp S0 Sn : (Tp < T0)%Qc -> (T0 < Tn)%Qc -> (S0 <= Sp)%Qc -> (S0 < Sn)%Qc ->
  exists v, parabol_vertex Tp T0 Tn Sp S0 Sn = Some v /\ (0 < coef v)%Qc.
Proof.
  intros O1 O2 X Y. destruct (proj2 (vertex_min_rule Tp T0 Tn Sp S0 Sn O1 O2) (conj X Y)) as (t & v & a & b & c & X1 & X2 & X3 & X4).
  destruct (proj2 (vertex_min Tp T0 Tn Sp S0 Sn O1 O2 t v)) as (x & E & Hx); [exists a, b, c; auto|].
  exists (x, t, v). auto.
Qed.
Lemma some3 {X Y Z} (a x : X) (b y : Y) (c z : Z) : Some (a, b, c) = Some (x, y, z) -> a = x.
Proof. congruence. Qed.
Lemma vertex_none Tp T0 Tn Sp S0 Sn : (Tp < T0)%Qc -> (T0 < Tn)%Qc -> ~ aligned Tp T0 Tn Sp S0 Sn ->
  ~ ((Sp <= S0)%Qc /\ (Sn < S0)%Qc) -> ~ ((S0 <= Sp)%Qc /\ (S0 < Sn)%Qc) ->
  parabol_vertex Tp T0 Tn Sp S0 Sn = None.
Proof.
  intros O1 O2 HA N1 N2. destruct (parabol_vertex Tp T0 Tn Sp S0 Sn) as [[[x t] v]|] eqn:E; auto. exfalso.
  destruct (Qclt_le_dec x 0) as [Hx|Hx].
  - apply N1. apply (vertex_max_rule Tp T0 Tn Sp S0 Sn O1 O2). exists t, v. apply (vertex_max _ _ _ _ _ _ O1 O2). eauto.
  - destruct (Qclt_le_dec 0 x) as [Hx'|Hx'].
    + destruct (proj1 (vertex_min Tp T0 Tn Sp S0 Sn O1 O2 t v)) as (a & b & c & X1 & X2 & X3); [eauto|].
      destruct X3 as [[Ha V]|[Ha V]].
      * apply N2. apply (vertex_min_rule Tp T0 Tn Sp S0 Sn O1 O2). exists t, v, a, b, c. auto.
      * subst a. apply HA. exists b, c. exact X1.
    + assert (x = 0%Qc) by qclra. subst x. rewrite vertex_compute in E by auto.
      destruct (_ && _); [|discriminate]. apply some3 in E.
      match type of E with (if ?q then _ else _) = _ => destruct q eqn:Eq end; [discriminate E|].
      apply Qc_eqb_neq in Eq. contradiction.
Qed.

(** ** The scan *)
Definition bent (T S : list Qc) : Prop :=
  forall preT preS Tp T0 Tn Sp S0 Sn postT postS, length preT = length preS ->
    T = preT ++ Tp :: T0 :: Tn :: postT -> S = preS ++ Sp :: S0 :: Sn :: postS -> ~ aligned Tp T0 Tn Sp S0 Sn.
Definition unterraced (S : list Qc) : Prop :=
  forall pre a b d post, S = pre ++ a :: b :: b :: d :: post ->
    ~ ((a < b)%Qc /\ (b < d)%Qc) /\ ~ ((b < a)%Qc /\ (d < b)%Qc).

Definition opening (S : list Qc) (V : list (Qc * Qc * Qc)) : Prop :=
  match S with
  | s0 :: s1 :: S' =>
      ((s0 < s1)%Qc -> first_max V) /\ ((s1 < s0)%Qc -> first_min V) /\
      (s0 = s1 -> match S' with
                  | [] => V = []
                  | s2 :: _ => ((s2 < s1)%Qc -> first_max V) /\ ((s1 < s2)%Qc -> first_min V)
                  end)
  | _ => True
  end.

Lemma aligned_flat Tp T0 Tn s : aligned Tp T0 Tn s s s.
Proof. exists 0%Qc, s. unfold tri, on_parabola. repeat split; ring. Qed.

Lemma first_max_cons v V : (coef v < 0)%Qc -> first_max (v :: V). Proof. auto. Qed.

Lemma scan_alternates S : forall T, length T = length S -> increasing T -> bent T S -> unterraced S ->
  alternating (parabol_scan T S) /\ opening S (parabol_scan T S).
Proof.
  induction S as [|p S IH]; intros T HL HT HB HU.
  { destruct T; [|discriminate]. simpl. auto. }
  destruct T as [|tp T]; [discriminate|]. destruct S as [|q S].
  { destruct T; [|discriminate]. simpl. auto. }
  destruct T as [|tq T]; [discriminate|]. destruct S as [|r S].
  { destruct T; [|discriminate]. simpl. auto. }
  destruct T as [|tr T]; [discriminate|].
  assert (O1 : (tp < tq)%Qc) by (apply inc_cons in HT as [HT _]; apply HT; simpl; auto).
  assert (HT' : increasing (tq :: tr :: T)) by (apply inc_cons in HT as [_ HT]; exact HT).
  assert (O2 : (tq < tr)%Qc) by (apply inc_cons in HT' as [HT2 _]; apply HT2; simpl; auto).
  assert (HL' : length (tq :: tr :: T) = length (q :: r :: S)) by (simpl in *; lia).
  destruct (IH (tq :: tr :: T) HL' HT') as [A O].
  { intros preT preS Tp T0 Tn Sp S0 Sn postT postS El E1 E2.
    apply (HB (tp :: preT) (p :: preS) Tp T0 Tn Sp S0 Sn postT postS); [simpl; auto| |]; cbn [app]; f_equal; assumption. }
  { intros pre a b d post E. apply (HU (p :: pre) a b d post). cbn [app]. f_equal. exact E. }
  pose proof (HB [] [] tp tq tr p q r T S eq_refl eq_refl eq_refl) as HN.
  change (parabol_scan (tp :: tq :: tr :: T) (p :: q :: r :: S))
    with (match parabol_vertex tp tq tr p q r with Some v => v :: parabol_scan (tq :: tr :: T) (q :: r :: S)
          | None => parabol_scan (tq :: tr :: T) (q :: r :: S) end).
  set (V := parabol_scan (tq :: tr :: T) (q :: r :: S)) in *.
  assert (TR : forall x y : Qc, (x < y)%Qc \/ x = y \/ (y < x)%Qc).
  { intros x y. destruct (Qclt_le_dec x y); auto. destruct (Qclt_le_dec y x); auto. right; left. qclra. }
  destruct O as (Oup & Odn & Oeq).
  destruct (TR q r) as [Hqr|[Hqr|Hqr]].
  - (* q < r *)
    destruct (Qclt_le_dec p q) as [Hpq|Hpq].
    + rewrite vertex_none; auto; [|intros [? ?]; clra|intros [? ?]; clra].
      split; auto. unfold opening. split; [intros _; apply Oup; auto|]. split; [intros; exfalso; clra|].
      intros ->. exfalso; clra.
    + destruct (vertex_is_min tp tq tr p q r O1 O2) as (v & -> & Hv); auto.
      split; [split; auto; right; split; auto|].
      unfold opening. split; [intros; exfalso; clra|]. split; [intros _; exact Hv|].
      intros _. split; [intros; exfalso; clra|intros _; exact Hv].
  - (* q = r *)
    subst r. destruct (TR p q) as [Hpq|[Hpq|Hpq]].
    + rewrite vertex_none; auto; [|intros [? ?]; clra|intros [? ?]; clra].
      split; auto. unfold opening. split; [|split; [intros; exfalso; clra|intros ->; exfalso; clra]].
      intros _. specialize (Oeq eq_refl). destruct S as [|s S]; [rewrite Oeq; exact I|].
      destruct Oeq as [E1 E2]. destruct (TR s q) as [Hs|[Hs|Hs]]; auto.
      * exfalso. subst s. destruct T as [|ts T]; [discriminate HL|].
        exact (HB [tp] [p] tq tr ts q q q T S eq_refl eq_refl eq_refl (aligned_flat _ _ _ _)).
      * exfalso. apply (proj1 (HU [] p q s S eq_refl)). auto.
    + exfalso. subst q. apply HN. apply aligned_flat.
    + rewrite vertex_none; auto; [|intros [? ?]; clra|intros [? ?]; clra].
      split; auto. unfold opening. split; [intros; exfalso; clra|]. split; [|intros ->; exfalso; clra].
      intros _. specialize (Oeq eq_refl). destruct S as [|s S]; [rewrite Oeq; exact I|].
      destruct Oeq as [E1 E2]. destruct (TR s q) as [Hs|[Hs|Hs]]; auto.
      * exfalso. apply (proj2 (HU [] p q s S eq_refl)). auto.
      * exfalso. subst s. destruct T as [|ts T]; [discriminate HL|].
        exact (HB [tp] [p] tq tr ts q q q T S eq_refl eq_refl eq_refl (aligned_flat _ _ _ _)).
  - (* r < q *)
    destruct (Qclt_le_dec q p) as [Hpq|Hpq].
    + rewrite vertex_none; auto; [|intros [? ?]; clra|intros [? ?]; clra].
      split; auto. unfold opening. split; [intros; exfalso; clra|]. split; [intros _; apply Odn; auto|].
      intros ->. exfalso; clra.
    + destruct (vertex_is_max tp tq tr p q r O1 O2) as (v & -> & Hv); auto.
      split; [split; auto; left; split; auto|].
      unfold opening. split; [intros _; exact Hv|]. split; [intros; exfalso; clra|].
      intros _. split; [intros _; exact Hv|intros; exfalso; clra].
Qed.

(** ** From samples to kept samples *)
Lemma next_kept S j k : (2 <= length S)%nat -> 0 <= j < k -> k < zlen S ->
  (forall m, j < m < k -> ~ kept S m) -> k = j + 1 \/ flat S j k.
Proof.
  intros Hn Hj Hk HK. destruct (Z.eq_dec k (j + 1)) as [E|E]; [auto|right].
  assert (D : forall m, j < m < k -> sample S m = sample S (m - 1) /\ sample S m = sample S (m + 1)).
  { intros m Hm. destruct (Qc_eq_dec (sample S m) (sample S (m - 1))) as [E1|E1].
    - destruct (Qc_eq_dec (sample S m) (sample S (m + 1))) as [E2|E2]; auto.
      exfalso. apply (HK m Hm). unfold kept. fold (zlen S). split; [lia|]. right; right. tauto.
    - exfalso. apply (HK m Hm). unfold kept. fold (zlen S). split; [lia|]. right; right. tauto. }
  intros m Hm. assert (Em : m = j + Z.of_nat (Z.to_nat (m - j))) by lia. rewrite Em. clear Em.
  assert (Hd : (Z.to_nat (m - j) <= Z.to_nat (k - j))%nat) by lia.
  induction (Z.to_nat (m - j)) as [|d IHd]; [rewrite Z.add_0_r; auto|].
  rewrite <- IHd by lia. destruct (Z.eq_dec (j + Z.of_nat (Datatypes.S d)) k) as [Ek|Ek].
  - rewrite <- (Z.add_simpl_r (j + Z.of_nat d) 1). rewrite Z.add_simpl_r.
    destruct (D (j + Z.of_nat d)) as [_ E2]; [lia|]. rewrite E2. f_equal. lia.
  - destruct (D (j + Z.of_nat (Datatypes.S d))) as [E1 _]; [lia|]. rewrite E1. f_equal. lia.
Qed.

Lemma app_map_split {X Y} (f : X -> Y) l pre post : map f l = pre ++ post ->
  exists l1 l2, l = l1 ++ l2 /\ map f l1 = pre /\ map f l2 = post.
Proof. apply map_eq_app. Qed.

Lemma curved_scan T S : increasing T -> (2 <= length S)%nat -> length T = length S -> curved T S ->
  alternating (vs_of T S).
Proof.
  intros HT Hn HL [HC HTr]. destruct (not_duplicate_spec S Hn) as [HK HI]. unfold vs_of.
  set (K := not_duplicate S) in *.
  assert (HR : forall i, In i K -> 0 <= i < zlen S) by (intros i Hi; apply HI in Hi as [Hi _]; unfold zlen; lia).
  apply scan_alternates.
  - rewrite !map_length. reflexivity.
  - clear HI. induction K as [|x K IH]; [apply inc_nil|]. destruct HK as [HK1 HK2].
    cbn [map]. apply inc_cons. split; [|apply IH; auto; intros i Hi; apply HR; right; auto].
    intros y Hy. apply in_map_iff in Hy as (z & <- & Hz). pose proof (HK1 z Hz).
    pose proof (HR x (or_introl eq_refl)). pose proof (HR z (or_intror Hz)).
    apply sample_lt; auto; [lia|]. unfold zlen in *. lia.
  - intros preT preS Tp T0 Tn Sp S0 Sn postT postS El ET ES (b & c & X).
    apply app_map_split in ET as (K1 & K2 & EK & F1 & F2).
    destruct K2 as [|i [|j [|k K2]]]; try discriminate. cbn [map] in F2. injection F2 as Ei Ej Ek _.
    assert (ES' : map (sample S) K1 ++ map (sample S) (i :: j :: k :: K2) = preS ++ Sp :: S0 :: Sn :: postS)
      by (rewrite <- map_app, <- EK; exact ES).
    apply app_eq_app in ES'.
    assert (Hlen : length (map (sample S) K1) = length preS) by (rewrite <- El, <- F1, !map_length; reflexivity).
    assert (Hx : preS = map (sample S) K1 /\ map (sample S) (i :: j :: k :: K2) = Sp :: S0 :: Sn :: postS).
    { destruct ES' as (l & [[E1 E2]|[E1 E2]]).
      - rewrite E1, app_length in Hlen. destruct l; [|simpl in Hlen; lia]. rewrite app_nil_r in E1. auto.
      - rewrite E1, app_length in Hlen. destruct l; [|simpl in Hlen; lia]. rewrite app_nil_r in E1. auto. }
    destruct Hx as [_ Hx]. cbn [map] in Hx. injection Hx as Fi Fj Fk _.
    destruct (proj1 (consecutive K i j k HK)) as (A1 & A2 & A3 & A4 & A5); [eauto|].
    apply (HC i j k).
    + unfold kept_triple. rewrite <- !HI. repeat (split; [assumption|]). intros m Hm. apply A5. apply HI; auto.
    + exists b, c. unfold parabola_through. subst. exact X.
  - intros pre a b d post ES.
    apply app_map_split in ES as (K1 & K2 & EK & F1 & F2).
    destruct K2 as [|i [|j [|k [|l K2]]]]; try discriminate. cbn [map] in F2. injection F2 as Ei Ej Ek El _.
    destruct (proj1 (consecutive K i j k HK)) as (A1 & A2 & A3 & A4 & A5); [eauto|].
    destruct (proj1 (consecutive K j k l HK)) as (B1 & B2 & B3 & B4 & B5).
    { exists (K1 ++ [i]), K2. rewrite <- app_assoc. exact EK. }
    pose proof (HR i A1). pose proof (HR j A2). pose proof (HR k A3). pose proof (HR l B3).
    assert (NK : forall x y m, (forall q, In q K -> x < q < y -> False) -> x < m < y -> ~ kept S m).
    { intros x y m Q Hm Km. apply (Q m); auto. apply HI; auto. }
    assert (Fjk : flat S j k).
    { destruct (next_kept S j k Hn) as [E|F]; auto; try lia.
      - intros m Hm Km. apply HI in Km. assert (m = j) by (apply A5; [auto|lia]). lia.
      - intros m Hm. assert (D : m = j \/ m = k) by lia. destruct D as [-> | ->]; congruence. }
    assert (Eij : sample S i <> sample S j -> j = i + 1).
    { intros N. destruct (next_kept S i j Hn) as [E|F]; auto; try lia.
      - intros m Hm Km. apply HI in Km. assert (m = j) by (apply A5; [auto|lia]). lia.
      - exfalso. apply N. symmetry. apply F. lia. }
    assert (Ekl : sample S k <> sample S l -> l = k + 1).
    { intros N. destruct (next_kept S k l Hn) as [E|F]; auto; try lia.
      - intros m Hm Km. apply HI in Km. assert (m = k) by (apply B5; [auto|lia]). lia.
      - exfalso. apply N. symmetry. apply F. lia. }
    assert (GO : sample S i <> sample S j -> sample S k <> sample S l ->
      ((sample S i < sample S j /\ sample S k < sample S l)%Qc \/ (sample S j < sample S i /\ sample S l < sample S k)%Qc) -> False).
    { intros N1 N2 X. apply Eij in N1. apply Ekl in N2. apply (HTr j k). unfold terrace. fold (zlen S).
      split; [lia|]. split; [lia|]. split; auto.
      replace (j - 1) with i by lia. replace (k + 1) with l by lia. exact X. }
    rewrite Ei, Ej, Ek, El in GO. split; intros [X Y]; apply GO; auto; intros ->; clra.
Qed.

(** ** Maxima and minima of an alternating list *)
Definition time_of (v : Qc * Qc * Qc) : Qc := snd (fst v).
Definition maxima_of (V : list (Qc * Qc * Qc)) := map time_of (filter (fun v => Qc_ltb (fst (fst v)) 0) V).
Definition minima_of (V : list (Qc * Qc * Qc)) := map time_of (filter (fun v => Qc_ltb 0 (fst (fst v))) V).

Lemma is_neg v : (coef v < 0)%Qc -> Qc_ltb (fst (fst v)) 0 = true /\ Qc_ltb 0 (fst (fst v)) = false.
Proof. intros H. unfold coef in H. split; [apply Qc_ltb_lt; auto|apply Qc_ltb_ge; clra]. Qed.
Lemma is_pos v : (0 < coef v)%Qc -> Qc_ltb (fst (fst v)) 0 = false /\ Qc_ltb 0 (fst (fst v)) = true.
Proof. intros H. unfold coef in H. split; [apply Qc_ltb_ge; clra|apply Qc_ltb_lt; auto]. Qed.

Lemma alternating_sign V v : alternating V -> In v V -> (coef v < 0)%Qc \/ (0 < coef v)%Qc.
Proof.
  induction V as [|w V IH]; [intros _ []|]. intros [A1 A2] [->|Hv]; [destruct A2 as [[? _]|[? _]]; auto|auto].
Qed.
Lemma alternating_app V W : alternating (V ++ W) -> alternating W.
Proof. induction V as [|v V IH]; auto. simpl. intros [A _]. auto. Qed.
Lemma alternating_count V : alternating V -> zlen (maxima_of V) + zlen (minima_of V) = zlen V.
Proof.
  unfold maxima_of, minima_of. rewrite !zlen_map.
  induction V as [|v V IH]; [reflexivity|]. intros HA. pose proof (alternating_sign _ v HA (or_introl eq_refl)) as Hs.
  destruct HA as [HA _]. specialize (IH HA). cbn [filter].
  destruct Hs as [Hs|Hs]; [destruct (is_neg v Hs) as [E1 E2]|destruct (is_pos v Hs) as [E1 E2]]; rewrite E1, E2, !zlen_cons; lia.
Qed.

Lemma alternating_left V : alternating V -> increasing (map time_of V) -> 2 < zlen V ->
  alt_left (maxima_of V) (minima_of V) \/ alt_left (minima_of V) (maxima_of V).
Proof.
  intros HA HI HL. destruct V as [|a [|b [|d V]]]; unfold zlen in HL; cbn [length] in HL; try lia. clear HL.
  cbn [map] in HI. apply inc_cons in HI as [I1 HI]. apply inc_cons in HI as [I2 HI].
  assert (Lab : (time_of a < time_of b)%Qc) by (apply I1; simpl; auto).
  assert (Lbd : (time_of b < time_of d)%Qc) by (apply I2; simpl; auto).
  destruct HA as [HA [[Sa Sb]|[Sa Sb]]]; destruct HA as [HA [[Sb' Sd]|[Sb' Sd]]]; cbn [first_max first_min] in *; try (exfalso; clra).
  - left. unfold maxima_of, minima_of. cbn [filter].
    destruct (is_neg a Sa) as [-> ->]. destruct (is_pos b Sb) as [-> ->]. destruct (is_neg d Sd) as [-> ->].
    cbn [map]. eexists _, _, _, _, _. eauto.
  - right. unfold maxima_of, minima_of. cbn [filter].
    destruct (is_pos a Sa) as [-> ->]. destruct (is_neg b Sb) as [-> ->]. destruct (is_pos d Sd) as [-> ->].
    cbn [map]. eexists _, _, _, _, _. eauto.
Qed.

Lemma last3 {X} (l : list X) : 2 < zlen l -> exists l' a b d, l = l' ++ [a; b; d].
Proof.
  intros H. assert (N : l <> []) by (intros ->; unfold zlen in H; simpl in H; lia).
  destruct (exists_last N) as (l1 & d & ->). rewrite zlen_app in H. change (zlen [d]) with 1 in H.
  assert (N1 : l1 <> []) by (intros ->; unfold zlen in H; simpl in H; lia).
  destruct (exists_last N1) as (l2 & b & ->). rewrite zlen_app in H. change (zlen [b]) with 1 in H.
  assert (N2 : l2 <> []) by (intros ->; unfold zlen in H; simpl in H; lia).
  destruct (exists_last N2) as (l3 & a & ->). exists l3, a, b, d. rewrite <- !app_assoc. reflexivity.
Qed.

Lemma alternating_right V : alternating V -> increasing (map time_of V) -> 2 < zlen V ->
  alt_right (maxima_of V) (minima_of V) \/ alt_right (minima_of V) (maxima_of V).
Proof.
  intros HA HI HL. destruct (last3 V HL) as (W & a & b & d & ->). clear HL.
  apply alternating_app in HA. rewrite map_app in HI. apply inc_app in HI as (_ & HI & _).
  cbn [map] in HI. apply inc_cons in HI as [I1 HI]. apply inc_cons in HI as [I2 HI].
  assert (Lab : (time_of a < time_of b)%Qc) by (apply I1; simpl; auto).
  assert (Lbd : (time_of b < time_of d)%Qc) by (apply I2; simpl; auto).
  destruct HA as [HA [[Sa Sb]|[Sa Sb]]]; destruct HA as [HA [[Sb' Sd]|[Sb' Sd]]]; cbn [first_max first_min] in *; try (exfalso; clra).
  - left. unfold maxima_of, minima_of. rewrite !filter_app, !map_app. cbn [filter].
    destruct (is_neg a Sa) as [-> ->]. destruct (is_pos b Sb) as [-> ->]. destruct (is_neg d Sd) as [-> ->].
    cbn [map]. eexists _, _, _, _, _. eauto.
  - right. unfold maxima_of, minima_of. rewrite !filter_app, !map_app. cbn [filter].
    destruct (is_pos a Sa) as [-> ->]. destruct (is_neg b Sb) as [-> ->]. destruct (is_pos d Sd) as [-> ->].
    cbn [map]. eexists _, _, _, _, _. eauto.
Qed.

Lemma vs_inside T S v : increasing T -> (2 <= length S)%nat -> length T = length S -> In v (vs_of T S) ->
  (sample T 0 < time_of v)%Qc /\ (time_of v < sample T (zlen T - 1))%Qc.
Proof.
  intros HT Hn HL Hv. apply In_vs in Hv as (i & j & k & K & V); auto.
  destruct (triple_times T S i j k HT HL K) as [O1 O2]. destruct v as [[x t] v].
  destruct (vertex_window _ _ _ _ _ _ O1 O2 _ _ _ V) as [W1 W2]. unfold time_of. cbn [fst snd].
  destruct K as ((A1 & _) & (A2 & _) & (A3 & _) & A4 & _).
  assert (L0 : (sample T 0 <= sample T i)%Qc).
  { destruct (Z.eq_dec i 0) as [->|N]; [apply Qcle_refl|]. apply Qclt_le_weak, sample_lt; auto; unfold zlen; lia. }
  assert (LN : (sample T k <= sample T (zlen T - 1))%Qc).
  { destruct (Z.eq_dec k (zlen T - 1)) as [->|N]; [apply Qcle_refl|]. apply Qclt_le_weak, sample_lt; auto; unfold zlen in *; lia. }
  split; clra.
Qed.

(** ** A curved signal is mirrored to cover the time range *)
Theorem curved_covers nb T S e : 1 <= nb -> increasing T -> (2 <= length S)%nat -> length T = length S ->
  curved T S -> find_extrema Parabol T S = Ok e -> 2 < zlen (max_pos e) + zlen (min_pos e) ->
  exists P Q, prepare_points Parabol nb T S e = Ok (P, Q) /\
    covers (sample T 0) (sample T (zlen T - 1)) (combine (max_pos e) (max_val e)) P /\
    covers (sample T 0) (sample T (zlen T - 1)) (combine (min_pos e) (min_val e)) Q.
Proof.
  intros Hnb HT Hn HL HC He H3. pose proof (curved_scan T S HT Hn HL HC) as HA.
  destruct (parabol_ordered T S HT Hn HL) as (e' & Ee & I1 & I2 & L1 & L2).
  rewrite Ee in He. injection He as ->.
  assert (EM : max_pos e = maxima_of (vs_of T S) /\ min_pos e = minima_of (vs_of T S)).
  { rewrite parabol_result in Ee by auto. injection Ee as <-. split; reflexivity. }
  destruct EM as [EM Em].
  assert (HI : increasing (map time_of (vs_of T S))).
  { destruct (not_duplicate_spec S Hn) as [HK HI]. apply (scan_increasing T S (not_duplicate S) HT HK).
    intros i Hi. apply HI in Hi as [Hi _]. unfold zlen. lia. }
  assert (H3' : 2 < zlen (vs_of T S)) by (rewrite <- alternating_count, <- EM, <- Em; auto).
  unfold prepare_points. apply parabol_covers; auto; try lia.
  - destruct S; [simpl in Hn; lia|discriminate].
  - intros x Hx. rewrite EM, Em in Hx. unfold maxima_of, minima_of in Hx.
    assert (Hx' : exists v, In v (vs_of T S) /\ time_of v = x).
    { destruct Hx as [Hx|Hx]; apply in_map_iff in Hx as (v & E & Hv); apply filter_In in Hv as [Hv _]; eauto. }
    destruct Hx' as (v & Hv & <-). apply (vs_inside T S); auto.
  - rewrite EM, Em. apply alternating_left; auto.
  - rewrite EM, Em. apply alternating_right; auto.
Qed.

(** ** A sift of a curved signal succeeds *)
Section Sift.
Variable spl : spline_oracle Qc.
Hypothesis Hspl : interpolates spl.
Variable c : emd_config Qc.
Hypothesis Hdet : extrema_detection c = Parabol.
Hypothesis Hnb : 1 <= nbsym c.
Hypothesis Hkind : parse_kind (spline_kind c) <> None.

Lemma covered_time T u : increasing T -> In u T -> (sample T 0 <= u)%Qc /\ (u <= sample T (zlen T - 1))%Qc.
Proof.
  intros HT Hu. apply (In_nth _ _ 0%Qc) in Hu as (i & Hi & <-).
  change (nth i T 0%Qc) with (nth i T 0%Qc). assert (E : nth i T 0%Qc = sample T (Z.of_nat i)) by (unfold sample; rewrite Nat2Z.id; auto).
  rewrite E. split.
  - destruct i; [apply Qcle_refl|]. apply Qclt_le_weak, sample_lt; auto; unfold zlen; lia.
  - destruct (Z.eq_dec (Z.of_nat i) (zlen T - 1)) as [->|N]; [apply Qcle_refl|]. apply Qclt_le_weak, sample_lt; auto; unfold zlen in *; lia.
Qed.

Lemma covered_spline T orig P : increasing T -> covers (sample T 0) (sample T (zlen T - 1)) orig P ->
  exists v, spline_points spl (spline_kind c) T P = Ok v /\ length v = length T.
Proof.
  intros HT (HI & H3 & _ & (p & Ep & Lp) & (q & Eq & Lq)).
  assert (HW : time_window T P = Ok T).
  { unfold time_window. rewrite (py_get_nonneg P 0 p) by (unfold zlen; lia). rewrite (py_get_neg P (-1) q) by (unfold zlen; lia). cbn [bind].
    change (Z.to_nat 0) with O. rewrite (nth_error_nth P 0 p Ep).
    replace (Z.to_nat (-1 + zlen P)) with (length P - 1)%nat by (unfold zlen; lia).
    rewrite (nth_error_nth P _ q Eq). f_equal. apply filter_all. intros u Hu.
    destruct (covered_time T u HT Hu). num_qc. apply andb_true_intro. split; apply Qc_leb_le; clra. }
  assert (Hgo : forall k, exists v, spl k P T = Ok v /\ length v = length T).
  { intros k. apply (Hspl k P T HI); [unfold zlen; lia|]. intros u Hu. exists p, q. split; auto. split; auto.
    destruct (covered_time T u HT Hu). split; clra. }
  unfold spline_points. rewrite HW. cbn [bind].
  destruct (parse_kind (spline_kind c)) as [k|]; [|congruence].
  destruct k; auto. destruct (Z.ltb_spec 3 (zlen P)) as [H4|H4]; auto.
  destruct P as [|[x0 y0] [|[x1 y1] [|[x2 y2] [|? P]]]]; unfold zlen in *; cbn [length] in *; try lia.
  assert (G1 : (x0 < x1)%Qc) by (apply (HI 0%nat); simpl; lia).
  assert (G2 : (x1 < x2)%Qc) by (apply (HI 1%nat); simpl; lia).
  destruct (cubic3_length x0 y0 x1 y1 x2 y2 T G1 G2) as (t & v & E & Et & Lv). rewrite E. cbn [bind].
  exists v. split; auto. rewrite Lv, Et, filter_all; auto.
  intros u Hu. destruct (covered_time T u HT Hu). injection Ep as <-. injection Eq as <-. cbn [fst] in *.
  apply andb_true_intro. split; apply Qc_leb_le; unfold zlen in *; clra.
Qed.

Lemma curved_sift T S e : increasing T -> (2 <= length S)%nat -> length T = length S -> curved T S ->
  find_extrema Parabol T S = Ok e -> 2 < ext_no e ->
  exists y eM em, sift_step spl c T S = Ok (y, eM, em) /\ length y = length S.
Proof.
  intros HT Hn HL HC He H3. unfold sift_step, extract_max_min_spline. rewrite Hdet, He. cbn [bind]. unfold ext_no in H3.
  destruct (Z.ltb_spec (zlen (max_pos e) + zlen (min_pos e)) 3) as [|_]; [lia|].
  destruct (curved_covers (nbsym c) T S e Hnb HT Hn HL HC He H3) as (P & Q & EP & CP & CQ). rewrite EP. cbn [bind].
  destruct (covered_spline T _ P HT CP) as (v & Ev & Lv). destruct (covered_spline T _ Q HT CQ) as (w & Ew & Lw).
  rewrite Ev. cbn [bind]. rewrite Ew. cbn [bind].
  rewrite broadcast2_eq by congruence. cbn [bind].
  assert (L : length (map (nmul nhalf) (map2 nadd v w)) = length S)
    by (rewrite map_length, map2_length_eq; congruence).
  rewrite assign_all_eq by auto. cbn [bind].
  eexists _, _, _. split; [reflexivity|]. apply vsub_length. auto.
Qed.

(** ** Only signals that are not curved make the decomposition raise *)
Variable t S : list Qc.
Hypothesis Ht : increasing t.
Hypothesis Hn : (2 <= length S)%nat.
Hypothesis HL : length t = length S.

Definition blames {X} (r : res X) : Prop :=
  match r with
  | Ok _ => True
  | Raise e => e = OutOfFuel \/ exists x, met spl c t S x /\ sift_step spl c t x = Raise e /\ ~ curved t x
  end.
Lemma blames_bind {X Y} (r : res X) (f : X -> res Y) :
  blames r -> (forall x, r = Ok x -> blames (f x)) -> blames (bind r f).
Proof. destruct r; simpl; auto. Qed.
Lemma fine_blames {X} (r : res X) : fine r -> blames r.
Proof. destruct r; simpl; auto. Qed.

Lemma sift_blames fuel : forall n nh ext x, met spl c t S x -> length x = length S ->
  blames (sift spl fuel c t n nh ext x).
Proof.
  induction fuel as [|fuel IH]; intros n nh ext x Hm Lx; [left; reflexivity|].
  cbn [sift]. destruct (_ <=? _); [exact I|]. rewrite Hdet.
  assert (FO : forall z, length z = length S -> exists e, find_extrema Parabol t z = Ok e).
  { intros z Lz. destruct (parabol_ordered t z Ht) as (e & E & _); try lia; eauto. }
  destruct (FO x Lx) as (e & Ee). rewrite Ee. cbn [bind].
  destruct (Z.ltb_spec 2 (ext_no e)) as [He|He]; [|exact I].
  apply blames_bind.
  { destruct (sift_step spl c t x) as [q|er] eqn:Es; [exact I|]. right. exists x. split; auto. split; auto.
    intros HC. destruct (curved_sift t x e) as (y & eM & em & E & _); auto; try lia. congruence. }
  intros [[y eM] em] Es.
  assert (Ly : length y = length S).
  { unfold sift_step in Es. apply bind_ok in Es as ([[[mx mn] eM'] em'] & _ & Es).
    apply bind_ok in Es as (s & _ & Es). apply bind_ok in Es as (mean & E2 & Es).
    apply assign_all_length in E2. injection Es as <- _ _. rewrite vsub_length; congruence. }
  assert (My : met spl c t S y) by (eapply met_sift; eauto).
  destruct (FO y Ly) as (e' & Ee').
  destruct (negb (FIXE c =? 0)); [destruct (_ <=? _); [exact I|apply IH; auto]|].
  destruct (negb (FIXE_H c =? 0)).
  - rewrite Ee'. cbn [bind]. destruct (_ =? 1); [apply IH; auto|].
    destruct (FIXE_H c <=? _); [exact I|apply IH; auto].
  - rewrite Ee'. cbn [bind]. apply blames_bind.
    + apply fine_blames, check_ok. intros ->. simpl in Lx. lia.
    + intros f1 _. destruct (_ && _); [exact I|apply IH; auto].
Qed.

Lemma loop_blames fuel k : forall IMF ext, found spl c t S IMF -> shaped (length S) IMF ->
  blames (emd_loop spl fuel c S t k IMF ext).
Proof.
  induction fuel as [|fuel IH]; intros IMF ext HF HI; [left; reflexivity|].
  cbn [emd_loop].
  assert (HLv : length (vsub S (sum_rows (length S) IMF)) = length S).
  { apply vsub_length. symmetry. apply sum_rows_length. apply Forall_forall. assumption. }
  apply blames_bind.
  { apply sift_blames; auto. apply met_rest; auto. }
  intros [[imf e1] fin] Es. pose proof Es as Es'. apply sift_length in Es. rewrite HLv in Es.
  assert (HI' : shaped (length S) (IMF ++ [imf])) by (apply Forall_app; split; auto).
  assert (HL' : length (vsub S (sum_rows (length S) (IMF ++ [imf]))) = length S).
  { apply vsub_length. symmetry. apply sum_rows_length. apply Forall_forall. assumption. }
  assert (Hne' : vsub S (sum_rows (length S) (IMF ++ [imf])) <> []).
  { intros E. rewrite E in HL'. simpl in HL'. lia. }
  apply blames_bind.
  { unfold end_condition. cbv zeta. destruct (np_max_ok _ Hne') as (a & ->). destruct (np_min_ok _ Hne') as (b & ->).
    cbn [bind]. destruct (nltb _ _); [exact I|]. destruct (nltb _ _); exact I. }
  intros stop _. destruct (_ || _); [exact I|]. destruct fin; [exact I|]. apply IH; auto.
  eapply found_next; eauto.
Qed.
End Sift.

(** ** The time axis *)
Lemma normal_increasing T : (2 <= length T)%nat -> increasing T ->
  exists t, normalize_time T = Ok t /\ increasing t /\ length t = length T.
Proof.
  intros Hn HT. unfold normalize_time. cbv zeta.
  assert (D : forall d, In d (ndiff T) -> (0 < d)%Qc).
  { intros d Hd. apply (In_nth _ _ 0%Qc) in Hd as (i & Hi & <-). rewrite ndiff_length in Hi.
    rewrite nth_ndiff by lia. pose proof (HT i ltac:(lia)). clra. }
  destruct (existsb is0 (ndiff T)) eqn:E.
  { exfalso. apply existsb_exists in E as (d & Hd & E). apply D in Hd. unfold is0, neqb, n0 in E. simpl in E. apply Qc_eqb_eq in E. subst d. discriminate Hd. }
  rewrite get_sample by (unfold zlen; lia). cbn [bind].
  destruct (np_min (ndiff T)) as [m|er] eqn:Em.
  - cbn [bind]. apply np_min_spec in Em as [Hm _]. apply D in Hm. eexists. split; [reflexivity|].
    rewrite map_length. split; auto. intros i Hi. rewrite map_length in Hi.
    set (f := fun x : Qc => ndiv (nsub x (sample T 0)) m).
    assert (Ef : forall j, (j < length T)%nat -> nth j (map f T) 0%Qc = f (nth j T 0%Qc)).
    { intros j Hj. rewrite (nth_indep _ 0%Qc (f 0%Qc)) by (rewrite map_length; lia). apply map_nth. }
    rewrite !Ef by lia. unfold f. pose proof (HT i Hi) as HTi. num_qc.
    assert (Hi' : (0 < / m)%Qc).
    { destruct (Qclt_le_dec 0 (/ m)) as [|N]; auto. exfalso.
      assert (X : (m * / m = 1)%Qc) by (apply Qcmult_inv_r; intros Z; rewrite Z in Hm; clra).
      assert (m * / m <= 0)%Qc by qcnra. rewrite X in H. apply H. reflexivity. }
    unfold Qcdiv. qcnra.
  - exfalso. destruct (ndiff T) eqn:Ed; [|discriminate].
    apply (f_equal (@length _)) in Ed. rewrite ndiff_length in Ed. simpl in Ed. lia.
Qed.

Lemma zseq_inc n : forall a, zincreasing (zseq a n).
Proof.
  induction n as [|n IH]; intros a; simpl; auto. split; auto.
  intros y Hy. apply (In_nth _ _ 0) in Hy as (i & Hi & <-). rewrite zseq_length in Hi. rewrite zseq_nth by auto. lia.
Qed.

Lemma parabol_time c S T : extrema_detection c = Parabol -> (2 <= length S)%nat ->
  (forall x, T = Some x -> increasing x /\ length x = length S) ->
  exists t, emd_time c S T = Ok t /\ increasing t /\ length t = length S.
Proof.
  intros Hd Hn HT. unfold emd_time. rewrite Hd. destruct T as [x|].
  - destruct (HT x eq_refl) as [H1 H2]. rewrite <- H2, Nat.eqb_refl. cbn [bind].
    destruct (normal_increasing x) as (t & E & I & L); try lia; auto. exists t. auto.
  - cbn [bind]. assert (E : timeline (length S) = Ok (tz (length S))) by (destruct (length S); [lia|reflexivity]).
    rewrite E. cbn [bind]. exists (tz (length S)). split; [apply timeline_normal; auto|].
    split; [apply increasing_of_Z; apply zseq_inc|apply tz_length].
Qed.

Theorem emd_parabol_blames spl c S T fuel k e : interpolates spl -> extrema_detection c = Parabol ->
  1 <= nbsym c -> parse_kind (spline_kind c) <> None -> (2 <= length S)%nat ->
  (forall x, T = Some x -> increasing x /\ length x = length S) ->
  emd spl fuel c S T k = Raise e ->
  e = OutOfFuel \/ exists t x, emd_time c S T = Ok t /\ met spl c t S x /\ sift_step spl c t x = Raise e /\ ~ curved t x.
Proof.
  intros Hs Hd Hb Hk Hn HT HE. destruct (parabol_time c S T Hd Hn HT) as (t & Et & It & Lt).
  unfold emd in HE. rewrite Et in HE. cbn [bind] in HE. rewrite Lt, Nat.eqb_refl in HE. cbn [negb] in HE.
  pose proof (loop_blames spl Hs c Hd Hb Hk t S It Hn Lt fuel k [] (-1) (found_none _ _ _ _) (Forall_nil _)) as HB.
  destruct (emd_loop spl fuel c S t k [] (-1)) as [[IMF x]|er]; cbn [bind] in HE; [discriminate|].
  injection HE as ->. destruct HB as [HB|(x & HB)]; [auto|]. right. exists t, x. split; auto.
Qed.

(** ** Between two maxima there is a minimum, and conversely *)
Lemma alternating_between V : alternating V -> increasing (map time_of V) ->
  (forall p q, In p (maxima_of V) -> In q (maxima_of V) -> (p < q)%Qc -> exists m, In m (minima_of V) /\ (p < m)%Qc /\ (m < q)%Qc) /\
  (forall p q, In p (minima_of V) -> In q (minima_of V) -> (p < q)%Qc -> exists m, In m (maxima_of V) /\ (p < m)%Qc /\ (m < q)%Qc).
Proof.
  intros HA HI.
  assert (GO : forall v w, In v V -> In w V -> (time_of v < time_of w)%Qc ->
    exists B' b, In b V /\ (time_of v < time_of b)%Qc /\ (w = b \/ (time_of b < time_of w)%Qc) /\
      (((coef v < 0)%Qc /\ (0 < coef b)%Qc) \/ ((0 < coef v)%Qc /\ (coef b < 0)%Qc)) /\ B' = b).
  { intros v w Hv Hw Hlt. apply in_split in Hv as (A & B & ->). apply alternating_app in HA.
    rewrite map_app in HI. apply inc_app in HI as (I1 & I2 & I3). cbn [map] in I2, I3.
    apply in_app_or in Hw as [Hw|[<-|Hw]].
    - exfalso. specialize (I3 (time_of w) (time_of v) (in_map _ _ _ Hw) (or_introl eq_refl)). clra.
    - exfalso. clra.
    - destruct B as [|b B]; [destruct Hw|]. destruct HA as [_ HA]. cbn [first_min first_max] in HA.
      cbn [map] in I2. apply inc_cons in I2 as [J1 J2]. apply inc_cons in J2 as [J2 _].
      exists b, b. split; [apply in_or_app; simpl; auto|]. split; [apply J1; simpl; auto|]. split; [|auto].
      destruct Hw as [->|Hw]; [auto|]. right. apply J2. apply in_map. auto. }
  unfold maxima_of, minima_of. split; intros p q Hp Hq Hlt;
    apply in_map_iff in Hp as (v & <- & Hv); apply filter_In in Hv as [Hv Cv];
    apply in_map_iff in Hq as (w & <- & Hw); apply filter_In in Hw as [Hw Cw];
    apply Qc_ltb_lt in Cv, Cw; fold (coef v) in Cv; fold (coef w) in Cw;
    destruct (GO v w Hv Hw Hlt) as (_ & b & Hb & L1 & L2 & D & _);
    (destruct D as [[D1 D2]|[D1 D2]]; [|try (exfalso; clra)]); try (exfalso; clra);
    (destruct L2 as [->|L2]; [exfalso; clra|]);
    exists (time_of b); (split; [|auto]); apply in_map; apply filter_In; split; auto; apply Qc_ltb_lt; exact D2.
Qed.

Theorem curved_alternates T S e : increasing T -> (2 <= length S)%nat -> length T = length S ->
  curved T S -> find_extrema Parabol T S = Ok e ->
  (forall p q, In p (max_pos e) -> In q (max_pos e) -> (p < q)%Qc -> exists m, In m (min_pos e) /\ (p < m)%Qc /\ (m < q)%Qc) /\
  (forall p q, In p (min_pos e) -> In q (min_pos e) -> (p < q)%Qc -> exists m, In m (max_pos e) /\ (p < m)%Qc /\ (m < q)%Qc).
Proof.
  intros HT Hn HL HC He. pose proof (curved_scan T S HT Hn HL HC) as HA.
  assert (EM : max_pos e = maxima_of (vs_of T S) /\ min_pos e = minima_of (vs_of T S)).
  { rewrite parabol_result in He by auto. injection He as <-. split; reflexivity. }
  destruct EM as [-> ->]. apply alternating_between; auto.
  destruct (not_duplicate_spec S Hn) as [HK HI]. apply (scan_increasing T S (not_duplicate S) HT HK).
  intros i Hi. apply HI in Hi as [Hi _]. unfold zlen. lia.
Qed.

(** A sufficient condition in terms of the samples. *)
Lemma curved_sufficient T S : length T = length S ->
  (forall i, 0 <= i < zlen S - 1 -> sample S i <> sample S (i + 1)) ->
  (forall i, 0 <= i < zlen S - 2 ->
     ((sample S (i + 1) - sample S i) * (sample T (i + 2) - sample T (i + 1)) <>
      (sample S (i + 2) - sample S (i + 1)) * (sample T (i + 1) - sample T i))%Qc) -> curved T S.
Proof.
  intros HL HD HC.
  assert (KA : forall m, 0 <= m < zlen S -> kept S m).
  { intros m Hm. unfold kept. fold (zlen S). split; auto. destruct (Z.eq_dec m 0); auto. right; right. intros [E _].
    apply (HD (m - 1)); [lia|]. rewrite Z.sub_add. auto. }
  split.
  - intros i j k ((A1 & _) & (A2 & _) & (A3 & _) & A4 & A5) (b & c & X1 & X2 & X3). fold (zlen S) in *.
    assert (Ej : i + 1 = j) by (apply A5; [apply KA; lia|lia]).
    assert (Ek : j + 1 = k).
    { destruct (Z.eq_dec (j + 1) k) as [|N]; auto. assert (j + 1 = j) by (apply A5; [apply KA; lia|lia]). lia. }
    apply (HC i); [lia|]. replace (i + 2) with k by lia. rewrite Ej.
    unfold on_parabola in *. rewrite X1, X2, X3. ring.
  - intros a b (H1 & H2 & HF & _). fold (zlen S) in *. apply (HD a); [lia|]. symmetry. apply HF. lia.
Qed.

(** ** Minima of a curved signal *)
Theorem curved_min T S t v : increasing T -> (2 <= length S)%nat -> length T = length S ->
  (forall i j k, kept_triple S i j k -> ~ straight T S i j k) ->
  forall e, find_extrema Parabol T S = Ok e ->
  In (t, v) (combine (min_pos e) (min_val e)) <->
  exists i j k a b c, kept_triple S i j k /\ parabola_through a b c T S i j k /\ (0 < a)%Qc /\
    is_vertex a b c t v /\ in_window (sample T i) (sample T j) (sample T k) t.
Proof.
  intros HT Hn HL HC e He. rewrite (parabol_min T S t v HT Hn HL e He). split.
  - intros (i & j & k & a & b & c & K & P & W & [[A V]|[A V]]).
    + exists i, j, k, a, b, c. tauto.
    + exfalso. subst a. apply (HC i j k K). exists b, c. auto.
  - intros (i & j & k & a & b & c & K & P & A & V & W). exists i, j, k, a, b, c. tauto.
Qed.
