(** * EmdStop: the stop test and the outer loop's stop condition in exact arithmetic. *)
From Verif Require Import PyFacts QcFacts Emd Spec EmdProofs EmdControl EmdExact.
From Coq Require Import ZifyBool ZifyNat.

Lemma nsum_total (l : list Qc) : nsum l = total l.
Proof.
  unfold nsum, total. rewrite fold_symmetric.
  - reflexivity.
  - intros. num_qc. ring.
  - intros. num_qc. ring.
Qed.
Lemma map2_combine {X Y Z} (f : X -> Y -> Z) l m :
  map2 f l m = map (fun p => f (fst p) (snd p)) (combine l m).
Proof. revert m; induction l as [|x l IH]; intros [|y m]; simpl; f_equal; auto. Qed.
Lemma vsub_pointwise (x y : list Qc) : vsub x y = pointwise Qcminus x y.
Proof. apply map2_combine. Qed.

Lemma existsb_false {X} (f : X -> bool) l : existsb f l = false <-> forall x, In x l -> f x = false.
Proof.
  split.
  - intros E x Hx. destruct (f x) eqn:D; auto.
    assert (existsb f l = true) by (apply existsb_exists; eauto). congruence.
  - intros Hx. destruct (existsb f l) eqn:E; auto.
    apply existsb_exists in E as (x & Hin & D). rewrite Hx in D by auto. discriminate.
Qed.

Lemma greatest_unique a b l : greatest a l -> greatest b l -> a = b.
Proof. intros [A1 A2] [B1 B2]. specialize (A2 _ B1). specialize (B2 _ A1). qclra. Qed.
Lemma least_unique a b l : least a l -> least b l -> a = b.
Proof. intros [A1 A2] [B1 B2]. specialize (A2 _ B1). specialize (B2 _ A1). qclra. Qed.

Lemma Qc_minus_eq0 a b : (a - b)%Qc = 0%Qc <-> a = b.
Proof. split; intros E; [qclra|subst; ring]. Qed.

Lemma check_imf_spec c new old eM em :
  old <> [] ->
  (check_imf c new old eM em = Ok true <->
   converged (svar_thr c) (std_thr c) (energy_ratio_thr c) new old eM em).
Proof.
  intros Ho. unfold check_imf.
  assert (HM : existsb (fun p : Qc * Qc => nltb (snd p) n0) eM = false <->
               forall p, In p eM -> (0 <= snd p)%Qc).
  { rewrite existsb_false. num_qc. split; intros Hx p Hp; specialize (Hx p Hp); qc_bool; auto. }
  assert (Hm : existsb (fun p : Qc * Qc => nltb n0 (snd p)) em = false <->
               forall p, In p em -> (snd p <= 0)%Qc).
  { rewrite existsb_false. num_qc. split; intros Hx p Hp; specialize (Hx p Hp); qc_bool; auto. }
  unfold converged.
  destruct (existsb (fun p : Qc * Qc => nltb (snd p) n0) eM) eqn:EM.
  { simpl. split; [discriminate|]. intros [Hx _]. apply HM in Hx. discriminate. }
  destruct (existsb (fun p : Qc * Qc => nltb n0 (snd p)) em) eqn:Em.
  { simpl. split; [discriminate|]. intros (_ & Hx & _). apply Hm in Hx. discriminate. }
  cbn [orb]. rewrite !nsum_total. rewrite vsub_pointwise, map2_combine.
  change (map (fun x => nmul x x)) with squares.
  num_qc. change (nlit 1 (10 ^ 10)) with (Q2Qc (1 # 10000000000)).
  destruct (Qc_ltb (total (squares new)) (Q2Qc (1 # 10000000000))) eqn:E1.
  { split; [discriminate|]. intros (_ & _ & Hx & _). qc_bool. exfalso. qclra. }
  destruct (np_max_ok old Ho) as [hi Ehi]. destruct (np_min_ok old Ho) as [lo Elo].
  rewrite Ehi, Elo. cbn [bind].
  apply np_max_spec in Ehi. apply np_min_spec in Elo.
  set (d := pointwise Qcminus new old).
  replace (map (fun p : Qc * Qc => (fst p / snd p * (fst p / snd p))%Qc) (combine d new))
    with (squares (pointwise Qcdiv d new))
    by (unfold squares, pointwise; rewrite map_map; reflexivity).
  assert (C1 : negb (is0 (hi - lo)%Qc) && Qc_ltb (total (squares d) / (hi - lo)) (svar_thr c) = true <->
    exists hi lo, greatest hi old /\ least lo old /\ hi <> lo /\
      (total (squares d) / (hi - lo) < svar_thr c)%Qc).
  { rewrite andb_true_iff, negb_true_iff. unfold is0. num_qc. split.
    - intros [A1 A2]. qc_bool. exists hi, lo. split; auto. split; auto. split; auto.
      intros ->. apply A1. ring.
    - intros (hi' & lo' & G & L & N & B).
      rewrite (greatest_unique _ _ _ G Ehi), (least_unique _ _ _ L Elo) in N, B.
      split; qc_bool; auto. rewrite Qc_minus_eq0. exact N. }
  assert (C2 : negb (existsb is0 new) && Qc_ltb (total (squares (pointwise Qcdiv d new))) (std_thr c) = true <->
    (forall x, In x new -> x <> 0%Qc) /\ (total (squares (pointwise Qcdiv d new)) < std_thr c)%Qc).
  { rewrite andb_true_iff, negb_true_iff, existsb_is0_false, Qc_ltb_lt. reflexivity. }
  assert (C3 : negb (is0 (total (squares old))) && Qc_ltb (total (squares d) / total (squares old)) (energy_ratio_thr c) = true <->
    total (squares old) <> 0%Qc /\ (total (squares d) / total (squares old) < energy_ratio_thr c)%Qc).
  { rewrite andb_true_iff, negb_true_iff. unfold is0. num_qc.
    rewrite Qc_eqb_neq, Qc_ltb_lt. reflexivity. }
  rewrite <- C1, <- C2, <- C3.
  assert (B1 : (Q2Qc (1 # 10000000000) <= total (squares new))%Qc) by (qc_bool; auto).
  apply proj1 in HM. specialize (HM eq_refl). apply proj1 in Hm. specialize (Hm eq_refl).
  destruct (negb (is0 (hi - lo)%Qc) && _); [tauto|].
  destruct (negb (existsb is0 new) && _); [tauto|].
  destruct (negb (is0 (total (squares old))) && _); intuition discriminate.
Qed.

(** ** The outer stop condition, EMD.end_condition *)
Lemma end_condition_spec c S IMF :
  S <> [] -> shaped (length S) IMF ->
  exists b, end_condition c S IMF = Ok b /\
  (b = true <->
   exists r, length r = length S /\
     (forall i, (i < length S)%nat -> nth i r 0%Qc = (nth i S 0 - total_at IMF i)%Qc) /\
     ((exists hi lo, greatest hi r /\ least lo r /\ (hi - lo < range_thr c)%Qc) \/
      (total (map Qc_abs r) < total_power_thr c)%Qc)).
Proof.
  intros HS Hsh. unfold end_condition. set (r := vsub S (sum_rows (length S) IMF)).
  assert (Hl : length (sum_rows (length S) IMF) = length S).
  { apply sum_rows_length. unfold shaped in Hsh. rewrite Forall_forall in Hsh. auto. }
  assert (Hr : length r = length S) by (apply vsub_length; auto).
  assert (Hn : forall i, nth i r 0%Qc = (nth i S 0 - total_at IMF i)%Qc).
  { intros i. unfold r. rewrite nth_vsub, nth_sum_rows by auto. reflexivity. }
  assert (Hr0 : r <> []).
  { intros E. rewrite E in Hr. destruct S; [congruence|discriminate]. }
  destruct (np_max_ok r Hr0) as [hi Ehi]. destruct (np_min_ok r Hr0) as [lo Elo].
  rewrite Ehi, Elo. cbn [bind]. rewrite nsum_total. num_qc.
  apply np_max_spec in Ehi. apply np_min_spec in Elo.
  assert (Hu : forall r', length r' = length S ->
    (forall i, (i < length S)%nat -> nth i r' 0%Qc = (nth i S 0 - total_at IMF i)%Qc) -> r' = r).
  { intros r' L Hx. apply (nth_ext _ _ 0%Qc 0%Qc); [congruence|].
    intros i Hi. rewrite Hx, Hn by congruence. reflexivity. }
  destruct (Qc_ltb (hi - lo) (range_thr c)) eqn:E1.
  { exists true. split; auto. split; auto. intros _. exists r. split; auto. split; auto.
    left. exists hi, lo. qc_bool. auto. }
  destruct (Qc_ltb (total (map Qc_abs r)) (total_power_thr c)) eqn:E2.
  { exists true. split; auto. split; auto. intros _. exists r. qc_bool. auto. }
  exists false. split; auto. split; [discriminate|].
  intros (r' & L & Hx & Hc). rewrite (Hu r' L Hx) in Hc. exfalso. qc_bool.
  destruct Hc as [(hi' & lo' & G & L' & B)|B].
  - rewrite (greatest_unique _ _ _ G Ehi), (least_unique _ _ _ L' Elo) in B. qclra.
  - qclra.
Qed.

(** ** Why the outer loop stopped *)
Lemma emd_loop_stop {A} `{Num A} spl fuel c S T k IMF ext IMF' ext' :
  emd_loop spl fuel c S T k IMF ext = Ok (IMF', ext') ->
  exists M imf e0 fin, IMF' = M ++ [imf] /\
    sift spl (sift_fuel c) c T 0 0 e0 (vsub S (sum_rows (length S) M)) = Ok (imf, ext', fin) /\
    (end_condition c S IMF' = Ok true \/ zlen IMF' = k \/ fin = true).
Proof.
  revert IMF ext. induction fuel as [|fuel IH]; intros IMF ext E; [discriminate|].
  cbn [emd_loop] in E.
  apply bind_ok in E as ([[imf e1] fin] & Es & E).
  apply bind_ok in E as (stop & Ee & E).
  destruct (stop || (zlen (IMF ++ [imf]) =? k)) eqn:D.
  - injection E as <- <-. exists IMF, imf, ext, fin. split; auto. split; auto.
    apply orb_true_iff in D as [->|D]; auto. right. left. lia.
  - destruct fin.
    + injection E as <- <-. exists IMF, imf, ext, true. auto.
    + apply (IH _ _ E).
Qed.
