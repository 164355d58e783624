(** * SharedProofs: sharing an EMD object changes no result (C101). *)
From Verif Require Import PyFacts QcFacts SharedEmd SharedSpec Spec EemdSpec EmdProofs EmdExact EmdSym EemdProofs EemdExact EnsembleUnit.
From Coq Require Import QArith Qcanon Lia.
Open Scope Z_scope.

Lemma put_same {X} (l : list X) i x y : nth_error l i = Some y -> nth_error (put l i x) i = Some x.
Proof. revert i. induction l as [|z l IH]; intros [|i] E; cbn in *; try discriminate; auto. Qed.
Lemma put_other {X} (l : list X) i j x : i <> j -> nth_error (put l i x) j = nth_error l j.
Proof.
  revert i j. induction l as [|z l IH]; intros [|i] [|j] N; cbn; auto; congruence.
Qed.

Section Shared.
Context {A : Type} `{Num A} {G : Type}.
Variable gen : generator A G.
Variable std : list A -> A.
Variable arrival : list (list (list A)) -> list (list (list A)).
Variable spl : spline_oracle A.
Variable fuel : nat.
Variable leaves : emd_state A -> ceemdan_config A -> ceemdan_state A G -> list A -> option (list A) -> Z -> emd_state A.
Notation perform := (perform gen std arrival spl fuel leaves).
Notation perform_all := (perform_all gen std arrival spl fuel leaves).

Lemma heard_app {X} who (a b : list (speaker * X)) : heard who (a ++ b) = heard who a ++ heard who b.
Proof. unfold heard. rewrite filter_app, map_app. reflexivity. Qed.

Lemma eemd_alike {D} (dec : decomposer A D) (HF : forgetful dec) c o1 o2 S T k : same_but_emd o1 o2 ->
  fst (eemd gen dec c o1 S T k) = fst (eemd gen dec c o2 S T k) /\
  same_but_emd (snd (eemd gen dec c o1 S T k)) (snd (eemd gen dec c o2 S T k)).
Proof.
  destruct o1 as [g d1 E0 r0 a0], o2 as [g2 d2 E2 r2 a2]. intros (H1 & H2 & H3 & H4).
  cbn in H1, H2, H3, H4. subst g2 E2 r2 a2. unfold eemd. cbn [random inner E_IMF e_residue all_imfs].
  destruct (bind _ _) as [[T' scale]|e]; [|cbn; unfold same_but_emd; cbn; auto].
  destruct (parallel c) eqn:Ep.
  - assert (X : pool_map (processes c) (trial_update gen dec c scale S T' k) (trials c) (g, d1) =
               pool_map (processes c) (trial_update gen dec c scale S T' k) (trials c) (g, d2)).
    { unfold pool_map. destruct (processes c <? 1); auto. apply pool_same; assumption. }
    rewrite X. destruct (pool_map _ _ _ (g, d2)) as [ts [e|]]; cbn [fst snd all_imfs random]; [unfold same_but_emd; cbn; auto|].
    destruct (mapM _ _); [|unfold same_but_emd; cbn; auto].
    destruct (ensemble_mean _); [|unfold same_but_emd; cbn; auto].
    destruct (minus_rows _ _); unfold same_but_emd; cbn; auto.
  - destruct (run_trials_same gen dec HF c scale S T' k (Z.to_nat (trials c)) g d1 d2) as [F1 F2].
    destruct (run_trials _ (Z.to_nat (trials c)) (g, d1)) as [[ts1 x1] [g1 e1]].
    destruct (run_trials _ (Z.to_nat (trials c)) (g, d2)) as [[ts2 x2] [g2 e2]].
    cbn [fst snd] in *. injection F1 as -> ->. subst g2.
    destruct x2 as [e|]; cbn [fst snd all_imfs random]; [unfold same_but_emd; cbn; auto|].
    destruct (mapM _ _); [|unfold same_but_emd; cbn; auto].
    destruct (ensemble_mean _); [|unfold same_but_emd; cbn; auto].
    destruct (minus_rows _ _); unfold same_but_emd; cbn; auto.
Qed.

Lemma alike_lend (o : eemd_state A G unit) d (x : eemd_state A G (emd_state A)) :
  same_but_emd o x -> same_but_emd (lend o d) x.
Proof. intros (H1 & H2 & H3 & H4). repeat split; assumption. Qed.
Lemma alike_back (o x : eemd_state A G (emd_state A)) : same_but_emd o x -> same_but_emd (give_back o) x.
Proof. intros (H1 & H2 & H3 & H4). repeat split; assumption. Qed.

Theorem eemd_unaware p : forall (b : bench A G) i o x, nth_error (b_eemd b) i = Some o -> same_but_emd o x ->
  let '(l, b') := perform_all b p in
  let '(l0, x') := eemd_alone gen spl fuel i (b_cfg b) x p in
  heard (AnEemd i) l = l0 /\ exists o', nth_error (b_eemd b') i = Some o' /\ same_but_emd o' x'.
Proof.
  induction p as [|t p IH]; intros b i o x E Hx; [cbn; eauto|].
  cbn [SharedEmd.perform_all].
  destruct t as [cfg|X T k|j s|j c X T k|j s|j c X T k]; cbn [SharedEmd.perform eemd_alone].
  - specialize (IH (MkBench cfg (b_emd b) (b_eemd b) (b_ceemdan b)) i o x E Hx). cbn [b_cfg] in IH.
    destruct (perform_all _ p) as [l b']. exact IH.
  - destruct (emd_call _ _ _ _ _ _ _) as [r d].
    specialize (IH (MkBench (b_cfg b) d (b_eemd b) (b_ceemdan b)) i o x E Hx). cbn [b_cfg] in IH.
    destruct (perform_all _ p) as [l b']. exact IH.
  - destruct (Nat.eqb_spec i j) as [->|N].
    + rewrite E. set (o1 := give_back _).
      specialize (IH (MkBench (b_cfg b) (b_emd b) (put (b_eemd b) j o1) (b_ceemdan b)) j o1 (noise_seed gen x s)).
      cbn [b_cfg b_eemd] in IH. destruct (perform_all _ p) as [l b'].
      apply IH; [eapply put_same; exact E|]. destruct Hx as (H1 & H2 & H3 & H4). repeat split; assumption.
    + destruct (nth_error (b_eemd b) j) as [oj|].
      * set (o1 := give_back _).
        specialize (IH (MkBench (b_cfg b) (b_emd b) (put (b_eemd b) j o1) (b_ceemdan b)) i o x).
        cbn [b_cfg b_eemd] in IH. destruct (perform_all _ p) as [l b'].
        apply IH; [rewrite put_other; [exact E|congruence]|exact Hx].
      * specialize (IH b i o x E Hx). destruct (perform_all _ p) as [l b']. exact IH.
  - destruct (Nat.eqb_spec i j) as [->|N].
    + rewrite E.
      pose proof (eemd_alike (emd_decomposer spl fuel (b_cfg b)) (emd_forgetful _ _ _) c (lend o (b_emd b)) x X T k
                    (alike_lend o (b_emd b) x Hx)) as [F1 F2].
      destruct (eemd _ _ _ (lend o (b_emd b)) _ _ _) as [r o1].
      destruct (eemd _ _ _ x _ _ _) as [r2 x1]. cbn [fst snd] in F1, F2. subst r2.
      specialize (IH (MkBench (b_cfg b) (inner o1) (put (b_eemd b) j (give_back o1)) (b_ceemdan b)) j (give_back o1) x1).
      cbn [b_cfg b_eemd] in IH. destruct (perform_all _ p) as [l b'].
      destruct (eemd_alone _ _ _ j (b_cfg b) x1 p) as [l0 x2].
      destruct IH as [I1 I2]; [eapply put_same; exact E|apply alike_back; exact F2|].
      split; [|exact I2]. rewrite heard_app, I1. unfold heard. cbn. rewrite Nat.eqb_refl. reflexivity.
    + destruct (nth_error (b_eemd b) j) as [oj|].
      * destruct (eemd _ _ _ (lend oj (b_emd b)) _ _ _) as [r o1].
        specialize (IH (MkBench (b_cfg b) (inner o1) (put (b_eemd b) j (give_back o1)) (b_ceemdan b)) i o x).
        cbn [b_cfg b_eemd] in IH. destruct (perform_all _ p) as [l b'].
        destruct (eemd_alone _ _ _ i (b_cfg b) x p) as [l0 x2].
        destruct IH as [I1 I2]; [rewrite put_other; [exact E|congruence]|exact Hx|].
        split; [|exact I2]. rewrite heard_app, I1. unfold heard. cbn.
        destruct (Nat.eqb_spec i j); [contradiction|reflexivity].
      * specialize (IH b i o x E Hx). destruct (perform_all _ p) as [l b']. exact IH.
  - destruct (nth_error (b_ceemdan b) j) as [oj|].
    + set (l1 := put _ _ _). specialize (IH (MkBench (b_cfg b) (b_emd b) (b_eemd b) l1) i o x E Hx). cbn [b_cfg] in IH.
      destruct (perform_all _ p) as [l b']. exact IH.
    + specialize (IH b i o x E Hx). destruct (perform_all _ p) as [l b']. exact IH.
  - destruct (nth_error (b_ceemdan b) j) as [oj|].
    + destruct (ceemdan _ _ _ _ _ _ _ _ _) as [r o1]. set (l1 := put _ _ _). set (d1 := leaves _ _ _ _ _ _).
      specialize (IH (MkBench (b_cfg b) d1 (b_eemd b) l1) i o x E Hx). cbn [b_cfg] in IH.
      destruct (perform_all _ p) as [l b']. exact IH.
    + specialize (IH b i o x E Hx). destruct (perform_all _ p) as [l b']. exact IH.
Qed.

Theorem ceemdan_unaware p : forall (b : bench A G) i o, nth_error (b_ceemdan b) i = Some o ->
  let '(l, b') := perform_all b p in
  let '(l0, o') := ceemdan_alone gen std arrival spl fuel i (b_cfg b) o p in
  heard (ACeemdan i) l = l0 /\ nth_error (b_ceemdan b') i = Some o'.
Proof.
  induction p as [|t p IH]; intros b i o E; [cbn; eauto|].
  cbn [SharedEmd.perform_all].
  destruct t as [cfg|X T k|j s|j c X T k|j s|j c X T k]; cbn [SharedEmd.perform ceemdan_alone].
  - specialize (IH (MkBench cfg (b_emd b) (b_eemd b) (b_ceemdan b)) i o E). cbn [b_cfg] in IH.
    destruct (perform_all _ p) as [l b']. exact IH.
  - destruct (emd_call _ _ _ _ _ _ _) as [r d].
    specialize (IH (MkBench (b_cfg b) d (b_eemd b) (b_ceemdan b)) i o E). cbn [b_cfg] in IH.
    destruct (perform_all _ p) as [l b']. exact IH.
  - destruct (nth_error (b_eemd b) j) as [oj|].
    + set (l1 := put _ _ _). specialize (IH (MkBench (b_cfg b) (b_emd b) l1 (b_ceemdan b)) i o E). cbn [b_cfg] in IH.
      destruct (perform_all _ p) as [l b']. exact IH.
    + specialize (IH b i o E). destruct (perform_all _ p) as [l b']. exact IH.
  - destruct (nth_error (b_eemd b) j) as [oj|].
    + destruct (eemd _ _ _ _ _ _ _) as [r o1]. set (l1 := put _ _ _).
      specialize (IH (MkBench (b_cfg b) (inner o1) l1 (b_ceemdan b)) i o E). cbn [b_cfg] in IH.
      destruct (perform_all _ p) as [l b']. exact IH.
    + specialize (IH b i o E). destruct (perform_all _ p) as [l b']. exact IH.
  - destruct (Nat.eqb_spec i j) as [->|N].
    + rewrite E. set (o1 := c_noise_seed _ _ _).
      specialize (IH (MkBench (b_cfg b) (b_emd b) (b_eemd b) (put (b_ceemdan b) j o1)) j o1).
      cbn [b_cfg b_ceemdan] in IH. destruct (perform_all _ p) as [l b'].
      apply IH. eapply put_same; exact E.
    + destruct (nth_error (b_ceemdan b) j) as [oj|].
      * set (o1 := c_noise_seed _ _ _).
        specialize (IH (MkBench (b_cfg b) (b_emd b) (b_eemd b) (put (b_ceemdan b) j o1)) i o).
        cbn [b_cfg b_ceemdan] in IH. destruct (perform_all _ p) as [l b'].
        apply IH. rewrite put_other; [exact E|congruence].
      * specialize (IH b i o E). destruct (perform_all _ p) as [l b']. exact IH.
  - destruct (Nat.eqb_spec i j) as [->|N].
    + rewrite E. destruct (ceemdan _ _ _ _ _ _ _ _ _) as [r o1]. set (d1 := leaves _ _ _ _ _ _).
      specialize (IH (MkBench (b_cfg b) d1 (b_eemd b) (put (b_ceemdan b) j o1)) j o1).
      cbn [b_cfg b_ceemdan] in IH. destruct (perform_all _ p) as [l b'].
      destruct (ceemdan_alone _ _ _ _ _ j (b_cfg b) o1 p) as [l0 x2].
      destruct IH as [I1 I2]; [eapply put_same; exact E|].
      split; [|exact I2]. rewrite heard_app, I1. unfold heard. cbn. rewrite Nat.eqb_refl. reflexivity.
    + destruct (nth_error (b_ceemdan b) j) as [oj|].
      * destruct (ceemdan _ _ _ _ _ oj _ _ _) as [r o1]. set (d1 := leaves _ _ _ _ _ _).
        specialize (IH (MkBench (b_cfg b) d1 (b_eemd b) (put (b_ceemdan b) j o1)) i o).
        cbn [b_cfg b_ceemdan] in IH. destruct (perform_all _ p) as [l b'].
        destruct (ceemdan_alone _ _ _ _ _ i (b_cfg b) o p) as [l0 x2].
        destruct IH as [I1 I2]; [rewrite put_other; [exact E|congruence]|].
        split; [|exact I2]. rewrite heard_app, I1. unfold heard. cbn.
        destruct (Nat.eqb_spec i j); [contradiction|reflexivity].
      * specialize (IH b i o E). destruct (perform_all _ p) as [l b']. exact IH.
Qed.

Theorem emd_unaware p : forall b : bench A G,
  heard TheEmd (fst (perform_all b p)) = emd_alone spl fuel (b_cfg b) p.
Proof.
  induction p as [|t p IH]; intros b; [reflexivity|].
  cbn [SharedEmd.perform_all].
  assert (HS : forall l b1, perform b t = (l, b1) ->
    heard TheEmd (fst (let '(l', b2) := perform_all b1 p in (l ++ l', b2))) =
    heard TheEmd l ++ emd_alone spl fuel (b_cfg b1) p).
  { intros l b1 _. specialize (IH b1). destruct (perform_all b1 p) as [l' b2]. cbn [fst] in *.
    rewrite heard_app, IH. reflexivity. }
  destruct (perform b t) as [l b1] eqn:E. rewrite (HS l b1 eq_refl). clear HS.
  destruct t as [cfg|X T k|j s|j c X T k|j s|j c X T k]; cbn [SharedEmd.perform emd_alone] in *.
  - apply pair_inv in E as [<- <-]. reflexivity.
  - unfold emd_call in *. destruct (emd _ _ _ _ _ _); apply pair_inv in E as [<- <-]; reflexivity.
  - destruct (nth_error _ _); apply pair_inv in E as [<- <-]; reflexivity.
  - destruct (nth_error _ _); [destruct (eemd _ _ _ _ _ _ _)|]; apply pair_inv in E as [<- <-]; reflexivity.
  - destruct (nth_error _ _); apply pair_inv in E as [<- <-]; reflexivity.
  - destruct (nth_error _ _); [destruct (ceemdan _ _ _ _ _ _ _ _ _)|]; apply pair_inv in E as [<- <-]; reflexivity.
Qed.
End Shared.

(** ** What the common EMD object reports afterwards *)
Lemma run_trials_last {A} `{Num A} {G D} (step : G * D -> res (trial (A := A)) * (G * D)) n st ts st' :
  run_trials step (Datatypes.S n) st = (ts, None, st') -> exists st0 t, step st0 = (Ok t, st').
Proof.
  revert st ts st'. induction n as [|n IH]; intros st ts st' E.
  - cbn in E. destruct (step st) as [[t|e] st1] eqn:Es; [|discriminate].
    apply pair_inv in E as [_ <-]. eauto.
  - remember (Datatypes.S n) as m. cbn [run_trials] in E. subst m.
    destruct (step st) as [[t|e] st1] eqn:Es; [|discriminate].
    destruct (run_trials step (Datatypes.S n) st1) as [[ts1 x1] st2] eqn:Er.
    apply pair_inv in E as [E <-]. apply pair_inv in E as [_ ->]. eapply IH; eauto.
Qed.

Section Reports.
Context {G : Type}.
Variable gen : generator Qc G.
Hypothesis Hsz : sized gen.
Variable std : list Qc -> Qc.
Variable arrival : list (list (list Qc)) -> list (list (list Qc)).
Variable spl : spline_oracle Qc.
Variable fuel : nat.
Variable leaves : emd_state Qc -> ceemdan_config Qc -> ceemdan_state Qc G -> list Qc -> option (list Qc) -> Z -> emd_state Qc.

Lemma eemd_serial_last cfg c (o : eemd_state Qc G (emd_state Qc)) S T k E o' :
  parallel c = false -> 1 <= trials c ->
  eemd gen (emd_decomposer spl fuel cfg) c o S T k = (Ok E, o') ->
  exists T' w g v X e, spread S w /\
    match T with Some t => T' = t | None => timeline (length S) = Ok T' end /\
    draws gen (noise_kind c) (noise_width c * w)%Qc (length S) g v (random o') /\ noisy S v X /\
    emd spl fuel cfg X (Some T') k = Ok e /\
    inner o' = MkState (Some (imfs e)) (Some (residue e)).
Proof.
  intros Hp Ht He. unfold eemd in He. rewrite Hp in He.
  destruct (bind _ _) as [[T' scale]|e] eqn:Es in He; [|discriminate].
  assert (HT : exists w, spread S w /\ scale = (noise_width c * w)%Qc /\
     match T with Some t => T' = t | None => timeline (length S) = Ok T' end).
  { apply bind_ok in Es as (T1 & E1 & Es). apply bind_ok in Es as (mx & E2 & Es). apply bind_ok in Es as (mn & E3 & Es).
    apply ok_inv in Es. apply pair_inv in Es as [-> ->].
    destruct (max_of_spread _ _ _ E2 E3) as (I1 & I2 & I3). exists (mx - mn)%Qc. split; [|split].
    - exists mx, mn. repeat split; auto; apply I3; auto.
    - change (noise_width c * Qc_abs (mx - mn) = noise_width c * (mx - mn))%Qc. f_equal.
      destruct (I3 mx I1) as [I4 _]. destruct (Qc_abs_spec (mx - mn)) as [A1 [A2|A2]]; auto.
      assert ((mx - mn = 0)%Qc) as H by (rewrite A2 in A1; qclra). rewrite A2, H. reflexivity.
    - destruct T; [apply ok_inv in E1; auto|exact E1]. }
  destruct HT as (w & Hw & -> & HT).
  destruct (Z.to_nat (trials c)) as [|n] eqn:En; [lia|].
  destruct (run_trials _ (Datatypes.S n) _) as [[ts [x|]] st] eqn:Er; [discriminate|].
  apply run_trials_last in Er as ((g, d) & t & Et).
  assert (Ho : random o' = fst st /\ inner o' = snd st).
  { destruct (mapM _ _); [|discriminate]. destruct (ensemble_mean _); [|discriminate].
    destruct (minus_rows _ _); [|discriminate]. apply pair_inv in He as [_ <-]. cbn. auto. }
  destruct Ho as [-> ->]. unfold trial_update in Et. cbn [fst snd] in Et.
  destruct (generate_noise _ _ _ _ _) as [[v|x] g'] eqn:Eg; [|discriminate].
  cbn [run emd_decomposer trend_of] in Et. unfold emd_call in Et.
  destruct (emd spl fuel cfg (vadd S v) (Some T') k) as [e|x] eqn:Ee; [|discriminate].
  assert (Hst : st = (g', MkState (Some (imfs e)) (Some (residue e)))).
  { destruct (separate_trends c).
    - destruct (get_imfs_and_trend _) as [[i tr]|x]; [|discriminate]. apply pair_inv in Et as [_ <-]. reflexivity.
    - apply pair_inv in Et as [_ <-]. reflexivity. }
  subst st. cbn [fst snd].
  assert (Hlen : length v = length S).
  { eapply (generate_length gen Hsz c g). rewrite Eg. reflexivity. }
  exists T', w, g, v, (vadd S v), e. split; [exact Hw|]. split; [exact HT|].
  split; [apply generate_draws; exact Eg|]. split; [|auto].
  split; [exact Hlen|]. split; [rewrite vadd_length; auto|]. intros j. apply nth_vadd. auto.
Qed.

Notation perform := (perform gen std arrival spl fuel leaves).
Theorem serial_report b i c S T k E b' : parallel c = false -> 1 <= trials c ->
  perform b (RunEemd i c S T k) = ([(AnEemd i, Ok E)], b') ->
  exists T' w g v X rows r o', spread S w /\
    match T with Some t => T' = t | None => timeline (length S) = Ok T' end /\
    nth_error (b_eemd b') i = Some o' /\
    draws gen (noise_kind c) (noise_width c * w)%Qc (length S) g v (random o') /\ noisy S v X /\
    (exists e, emd spl fuel (b_cfg b) X (Some T') k = Ok e /\ rows = imfs e /\ r = residue e) /\
    get_imfs_and_residue (b_emd b') = Ok (rows, r) /\ adds_up (rows ++ [r]) X.
Proof.
  intros Hp Ht Ep. cbn [SharedEmd.perform] in Ep. destruct (nth_error (b_eemd b) i) as [o|] eqn:Eo; [|discriminate].
  destruct (eemd _ _ _ (lend o (b_emd b)) _ _ _) as [r0 o1] eqn:Er. apply pair_inv in Ep as [Ep <-].
  injection Ep as ->.
  destruct (eemd_serial_last _ _ _ _ _ _ _ _ Hp Ht Er) as (T' & w & g & v & X & e & H1 & H2 & H3 & H4 & H5 & H6).
  exists T', w, g, v, X, (imfs e), (residue e), (give_back o1). cbn [b_eemd b_emd].
  split; [exact H1|]. split; [exact H2|]. split; [eapply put_same; exact Eo|]. split; [exact H3|].
  split; [exact H4|]. split; [eauto|]. split; [rewrite H6; reflexivity|]. eapply emd_adds_up; eauto.
Qed.

Theorem parallel_report b i c S T k : parallel c = true -> b_emd (snd (perform b (RunEemd i c S T k))) = b_emd b.
Proof.
  intros Hp. cbn [SharedEmd.perform]. destruct (nth_error (b_eemd b) i) as [o|]; [|reflexivity].
  unfold eemd. destruct (bind _ _) as [[T' scale]|e]; [|reflexivity]. rewrite Hp.
  destruct (pool_map _ _ _ _) as [ts [x|]]; [reflexivity|]. cbn [all_imfs random inner E_IMF e_residue fst snd].
  destruct (mapM _ _); [|reflexivity]. destruct (ensemble_mean _); [|reflexivity].
  destruct (minus_rows _ _); reflexivity.
Qed.
End Reports.

(** ** Leaving out the other objects' statements *)
Section Only.
Context {A : Type} `{Num A} {G : Type}.
Variable gen : generator A G.
Variable std : list A -> A.
Variable arrival : list (list (list A)) -> list (list (list A)).
Variable spl : spline_oracle A.
Variable fuel : nat.
Variable leaves : emd_state A -> ceemdan_config A -> ceemdan_state A G -> list A -> option (list A) -> Z -> emd_state A.
Notation perform_all := (perform_all gen std arrival spl fuel leaves).

Lemma eemd_alone_part i p : forall cfg x, eemd_alone gen spl fuel i cfg x (part_of (AnEemd i) p) = eemd_alone gen spl fuel i cfg x p.
Proof.
  induction p as [|t p IH]; intros cfg x; [reflexivity|].
  destruct t as [c|X T k|j s|j c X T k|j s|j c X T k]; cbn; auto.
  - destruct (Nat.eqb i j) eqn:E; cbn; rewrite ?E; auto.
  - destruct (Nat.eqb i j) eqn:E; cbn; rewrite ?E; auto.
    destruct (eemd _ _ _ _ _ _ _) as [r o]. unfold part_of in IH. rewrite IH. reflexivity.
Qed.
Lemma ceemdan_alone_part i p : forall cfg x,
  ceemdan_alone gen std arrival spl fuel i cfg x (part_of (ACeemdan i) p) = ceemdan_alone gen std arrival spl fuel i cfg x p.
Proof.
  induction p as [|t p IH]; intros cfg x; [reflexivity|].
  destruct t as [c|X T k|j s|j c X T k|j s|j c X T k]; cbn; auto.
  - destruct (Nat.eqb i j) eqn:E; cbn; rewrite ?E; auto.
  - destruct (Nat.eqb i j) eqn:E; cbn; rewrite ?E; auto.
    destruct (ceemdan _ _ _ _ _ _ _ _ _) as [r o]. unfold part_of in IH. rewrite IH. reflexivity.
Qed.
Lemma emd_alone_part p : forall cfg, emd_alone spl fuel cfg (part_of TheEmd p) = emd_alone spl fuel cfg p.
Proof.
  induction p as [|t p IH]; intros cfg; [reflexivity|]. unfold part_of in *.
  destruct t as [c|X T k|j s|j c X T k|j s|j c X T k]; cbn; rewrite ?IH; auto.
Qed.

Lemma cfg_part who p : forall b b1 : bench A G, b_cfg b = b_cfg b1 ->
  b_cfg (snd (perform_all b p)) = b_cfg (snd (perform_all b1 (part_of who p))).
Proof.
  assert (HP : forall b t, (forall c, t <> Adjust c) ->
    b_cfg (snd (SharedEmd.perform gen std arrival spl fuel leaves b t)) = b_cfg b).
  { intros b [c|X T k|j s|j c X T k|j s|j c X T k] Hn; cbn.
    - exfalso. eapply Hn. reflexivity.
    - destruct (emd_call _ _ _ _ _ _ _); reflexivity.
    - destruct (nth_error _ _); reflexivity.
    - destruct (nth_error _ _); [destruct (eemd _ _ _ _ _ _ _)|]; reflexivity.
    - destruct (nth_error _ _); reflexivity.
    - destruct (nth_error _ _); [destruct (ceemdan _ _ _ _ _ _ _ _ _)|]; reflexivity. }
  induction p as [|t p IH]; intros b b1 E; [exact E|]. unfold part_of in *. cbn [filter SharedEmd.perform_all].
  assert (HS : forall (b0 : bench A G) l, b_cfg (snd (let '(l', b2) := perform_all b0 p in (l ++ l', b2))) = b_cfg (snd (perform_all b0 p))).
  { intros b0 l. destruct (perform_all b0 p). reflexivity. }
  destruct (SharedEmd.perform gen std arrival spl fuel leaves b t) as [l b2] eqn:Eb. rewrite HS.
  assert (Hc : (exists c, t = Adjust c) \/ forall c, t <> Adjust c) by (destruct t; [left; eauto|right; congruence..]).
  destruct Hc as [[c ->]|Hc].
  - cbn [concerns]. cbn in Eb. apply pair_inv in Eb as [<- <-]. cbn.
    match goal with |- context [perform_all ?x (filter _ p)] => specialize (IH (MkBench c (b_emd b) (b_eemd b) (b_ceemdan b)) x eq_refl) end.
    rewrite IH. destruct (perform_all _ (filter _ p)). reflexivity.
  - pose proof (HP b t Hc) as E2. rewrite Eb in E2. cbn [snd] in E2.
    destruct (concerns who t).
    + cbn [SharedEmd.perform_all]. pose proof (HP b1 t Hc) as E3.
      destruct (SharedEmd.perform gen std arrival spl fuel leaves b1 t) as [l3 b3]. cbn [snd] in E3.
      specialize (IH b2 b3 ltac:(congruence)). rewrite IH. destruct (perform_all b3 _). reflexivity.
    + apply IH. congruence.
Qed.

Theorem only_own (b : bench A G) p who : present b who ->
  heard who (fst (perform_all b p)) = heard who (fst (perform_all b (part_of who p))) /\
  keeps (snd (perform_all b p)) (snd (perform_all b (part_of who p))) who.
Proof.
  destruct who as [|i|i]; cbn [present keeps]; intros Hp.
  - split; [|apply cfg_part; reflexivity]. rewrite !emd_unaware, emd_alone_part. reflexivity.
  - destruct (nth_error (b_eemd b) i) as [o|] eqn:E; [|apply nth_error_None in E; lia].
    assert (Hx : same_but_emd o (lend o emd_init)) by (repeat split; reflexivity).
    pose proof (eemd_unaware gen std arrival spl fuel leaves p b i o _ E Hx) as U1.
    pose proof (eemd_unaware gen std arrival spl fuel leaves (part_of (AnEemd i) p) b i o _ E Hx) as U2.
    rewrite eemd_alone_part in U2.
    destruct (perform_all b p) as [l1 b1]. destruct (perform_all b (part_of (AnEemd i) p)) as [l2 b2].
    destruct (eemd_alone _ _ _ _ _ _ p) as [l0 x].
    destruct U1 as (V1 & [g1 [] E1 r1 a1] & W1 & (X1 & X2 & X3 & X4)).
    destruct U2 as (V2 & [g2 [] E2 r2 a2] & W2 & (Y1 & Y2 & Y3 & Y4)).
    cbn [fst snd]. split; [congruence|]. rewrite W1, W2. cbn in *. congruence.
  - destruct (nth_error (b_ceemdan b) i) as [o|] eqn:E; [|apply nth_error_None in E; lia].
    pose proof (ceemdan_unaware gen std arrival spl fuel leaves p b i o E) as U1.
    pose proof (ceemdan_unaware gen std arrival spl fuel leaves (part_of (ACeemdan i) p) b i o E) as U2.
    rewrite ceemdan_alone_part in U2.
    destruct (perform_all b p) as [l1 b1]. destruct (perform_all b (part_of (ACeemdan i) p)) as [l2 b2].
    destruct (ceemdan_alone _ _ _ _ _ _ _ _ p) as [l0 x].
    destruct U1 as [V1 W1]. destruct U2 as [V2 W2]. cbn [fst snd]. split; congruence.
Qed.
End Only.
