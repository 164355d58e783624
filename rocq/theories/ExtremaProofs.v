(** * ExtremaProofs: what simple extrema detection reports (exact arithmetic). *)
From Verif Require Import PyFacts QcFacts Extrema Spec Runs EmdExact EmdStop.
From Coq Require Import ZifyBool ZifyNat.

(** Sign of the step from sample [i] to sample [i + 1]. *)
Definition sgn (S : list Qc) (i : Z) : Z :=
  if Qc_ltb (sample S i) (sample S (i + 1)) then 1
  else if Qc_ltb (sample S (i + 1)) (sample S i) then -1 else 0.

(** [i] is reported as an extremum of kind [s] (1: maximum, -1: minimum). *)
Definition rep (S : list Qc) (s i : Z) : Prop :=
  exists a b, a <= b <= zlen S - 2 /\ (forall k, a <= k < b -> sgn S k = 0) /\
    sgn S b = - s /\ i = round_half (b + a) /\
    ((a = b /\ 1 <= a /\ sgn S (a - 1) = s) \/
     (a < b /\ 2 <= a /\ sgn S (a - 1) = s) \/
     (a = 0 /\ 0 < b /\ sgn S (zlen S - 2) = s)).

Lemma sgn_cases S i : (sgn S i = 1 /\ (sample S i < sample S (i + 1))%Qc) \/
  (sgn S i = -1 /\ (sample S (i + 1) < sample S i)%Qc) \/
  (sgn S i = 0 /\ sample S (i + 1) = sample S i).
Proof.
  unfold sgn. destruct (Qc_ltb (sample S i) (sample S (i + 1))) eqn:E1; [left; split; auto; qc_bool; auto|].
  destruct (Qc_ltb (sample S (i + 1)) (sample S i)) eqn:E2; [right; left; split; auto; qc_bool; auto|].
  right. right. split; auto. qclra.
Qed.
Lemma sgn_pos S i : sgn S i = 1 <-> (sample S i < sample S (i + 1))%Qc.
Proof. destruct (sgn_cases S i) as [[E ?]|[[E ?]|[E ?]]]; rewrite E; split; intros; auto; try lia; try qclra. Qed.
Lemma sgn_neg S i : sgn S i = -1 <-> (sample S (i + 1) < sample S i)%Qc.
Proof. destruct (sgn_cases S i) as [[E ?]|[[E ?]|[E ?]]]; rewrite E; split; intros; auto; try lia; try qclra. Qed.
Lemma sgn_zero S i : sgn S i = 0 <-> sample S (i + 1) = sample S i.
Proof. destruct (sgn_cases S i) as [[E ?]|[[E ?]|[E ?]]]; rewrite E; split; intros; auto; try lia; try qclra. Qed.

(** Step value. *)
Definition dv (S : list Qc) (i : Z) : Qc := (sample S (i + 1) - sample S i)%Qc.
Lemma dv_pos S i : (0 < dv S i)%Qc <-> sgn S i = 1.
Proof. rewrite sgn_pos. unfold dv. split; intros; qclra. Qed.
Lemma dv_neg S i : (dv S i < 0)%Qc <-> sgn S i = -1.
Proof. rewrite sgn_neg. unfold dv. split; intros; qclra. Qed.
Lemma dv_zero S i : dv S i = 0%Qc <-> sgn S i = 0.
Proof. rewrite sgn_zero. unfold dv. rewrite Qc_minus_eq0. reflexivity. Qed.

Lemma zlen_ndiff (S : list Qc) : S <> [] -> zlen (ndiff S) = zlen S - 1.
Proof. intros HS. unfold zlen. rewrite ndiff_length. destruct S; [congruence|]. simpl length. lia. Qed.
Lemma ndiff_get S i : 0 <= i < zlen S - 1 -> nth_error (ndiff S) (Z.to_nat i) = Some (dv S i).
Proof.
  intros Hi. unfold zlen in Hi. rewrite (nth_error_nth' _ 0%Qc).
  - f_equal. rewrite nth_ndiff by lia. unfold dv, sample. f_equal. f_equal. lia.
  - rewrite ndiff_length. lia.
Qed.
Lemma py_get_ndiff S i : 0 <= i < zlen S - 1 -> py_get (ndiff S) i = Ok (dv S i).
Proof.
  intros Hi. unfold py_get. replace (i <? 0) with false by lia.
  replace (i <? 0) with false by lia. rewrite ndiff_get by auto. reflexivity.
Qed.
Lemma py_get_ndiff_wrap S : 2 <= zlen S -> py_get (ndiff S) (-1) = Ok (dv S (zlen S - 2)).
Proof.
  intros Hn. assert (S <> []) by (intros ->; unfold zlen in Hn; simpl in Hn; lia).
  unfold py_get. rewrite zlen_ndiff by auto. replace (-1 <? 0) with true by lia.
  replace (-1 + (zlen S - 1) <? 0) with false by lia.
  replace (-1 + (zlen S - 1)) with (zlen S - 2) by lia. rewrite ndiff_get by lia. reflexivity.
Qed.

Lemma nth_error_adj {X Y} (f : X -> X -> Y) l i :
  nth_error (adj f l) i =
  match nth_error l i, nth_error l (S i) with Some a, Some b => Some (f a b) | _, _ => None end.
Proof.
  unfold adj. rewrite nth_error_map2. destruct l as [|x l]; simpl; auto. destruct i; auto.
Qed.

Lemma In_strict_max S i :
  In i (strict_max_idx (ndiff S)) <-> 1 <= i <= zlen S - 2 /\ sgn S (i - 1) = 1 /\ sgn S i = -1.
Proof.
  unfold strict_max_idx. rewrite in_map_iff. split.
  - intros (x & <- & Hx). apply nonzero_In in Hx as [Hx E]. rewrite nth_error_adj in E.
    destruct (nth_error (ndiff S) (Z.to_nat x)) eqn:E1; [|discriminate].
    destruct (nth_error (ndiff S) (Datatypes.S (Z.to_nat x))) eqn:E2; [|discriminate].
    assert (L : (Datatypes.S (Z.to_nat x) < length (ndiff S))%nat) by (apply nth_error_Some; congruence).
    rewrite ndiff_length in L.
    rewrite ndiff_get in E1 by (unfold zlen; lia). injection E1 as <-.
    replace (Datatypes.S (Z.to_nat x)) with (Z.to_nat (x + 1)) in E2 by lia.
    rewrite ndiff_get in E2 by (unfold zlen; lia). injection E2 as <-.
    injection E as E. apply andb_prop in E as [Ea Eb]. num_qc. qc_bool.
    split; [unfold zlen; lia|]. rewrite Z.add_simpl_r. rewrite <- dv_pos, <- dv_neg. split; auto.
    apply Qc_mul_neg in Ea as [[? ?]|[? ?]]; auto. exfalso. qclra.
  - intros (Hi & H1 & H2). exists (i - 1). split; [lia|]. apply nonzero_In. split; [lia|].
    rewrite nth_error_adj. replace (Datatypes.S (Z.to_nat (i - 1))) with (Z.to_nat i) by lia.
    rewrite !ndiff_get by lia. f_equal. num_qc. apply andb_true_intro.
    apply dv_pos in H1. apply dv_neg in H2. split; qc_bool; auto.
    apply Qc_mul_neg. auto.
Qed.
Lemma In_strict_min S i :
  In i (strict_min_idx (ndiff S)) <-> 1 <= i <= zlen S - 2 /\ sgn S (i - 1) = -1 /\ sgn S i = 1.
Proof.
  unfold strict_min_idx. rewrite in_map_iff. split.
  - intros (x & <- & Hx). apply nonzero_In in Hx as [Hx E]. rewrite nth_error_adj in E.
    destruct (nth_error (ndiff S) (Z.to_nat x)) eqn:E1; [|discriminate].
    destruct (nth_error (ndiff S) (Datatypes.S (Z.to_nat x))) eqn:E2; [|discriminate].
    assert (L : (Datatypes.S (Z.to_nat x) < length (ndiff S))%nat) by (apply nth_error_Some; congruence).
    rewrite ndiff_length in L.
    rewrite ndiff_get in E1 by (unfold zlen; lia). injection E1 as <-.
    replace (Datatypes.S (Z.to_nat x)) with (Z.to_nat (x + 1)) in E2 by lia.
    rewrite ndiff_get in E2 by (unfold zlen; lia). injection E2 as <-.
    injection E as E. apply andb_prop in E as [Ea Eb]. num_qc. qc_bool.
    split; [unfold zlen; lia|]. rewrite Z.add_simpl_r. rewrite <- dv_pos, <- dv_neg. split; auto.
    apply Qc_mul_neg in Ea as [[? ?]|[? ?]]; auto. exfalso. qclra.
  - intros (Hi & H1 & H2). exists (i - 1). split; [lia|]. apply nonzero_In. split; [lia|].
    rewrite nth_error_adj. replace (Datatypes.S (Z.to_nat (i - 1))) with (Z.to_nat i) by lia.
    rewrite !ndiff_get by lia. f_equal. num_qc. apply andb_true_intro.
    apply dv_pos in H2. apply dv_neg in H1. split; qc_bool; auto.
    apply Qc_mul_neg. auto.
Qed.
Lemma strict_max_increasing (d : list Qc) : zincreasing (strict_max_idx d).
Proof. apply zincreasing_map; [apply nonzero_increasing|]. intros. lia. Qed.
Lemma strict_min_increasing (d : list Qc) : zincreasing (strict_min_idx d).
Proof. apply zincreasing_map; [apply nonzero_increasing|]. intros. lia. Qed.

(** The mask of zero steps. *)
Lemma bad_mask S i : S <> [] ->
  (zmask (map is0 (ndiff S)) i = true <-> 0 <= i < zlen S - 1 /\ sgn S i = 0).
Proof.
  intros HS. rewrite zmask_true, zlen_map, zlen_ndiff by auto. split.
  - intros [Hi E]. split; auto. rewrite nth_error_map, ndiff_get in E by auto. simpl in E.
    injection E as E. unfold is0 in E. num_qc. qc_bool. apply dv_zero. exact E.
  - intros [Hi E]. split; auto. rewrite nth_error_map, ndiff_get by auto. simpl. f_equal.
    unfold is0. num_qc. qc_bool. apply dv_zero. exact E.
Qed.

(** ** Dropping the first and the last plateau *)
Lemma drop_first_In l p :
  chain l -> (forall p, In p l -> 0 <= fst p < snd p) ->
  (In p (drop_first_run l) <-> In p l /\ fst p <> 1).
Proof.
  destruct l as [|[a b] l]; simpl; [tauto|]. intros [C1 C2] Hb.
  pose proof (Hb (a, b) (or_introl eq_refl)) as Hab. simpl in Hab.
  destruct (Z.eqb_spec a 1) as [->|D]; simpl.
  - split.
    + intros Hp. split; auto. apply C1 in Hp. unfold pair_lt in Hp. simpl in Hp. lia.
    + intros [[<-|Hp] Hn]; auto. simpl in Hn. lia.
  - split.
    + intros [<-|Hp]; simpl; split; auto. apply C1 in Hp. unfold pair_lt in Hp. simpl in Hp. lia.
    + intros [Hp _]. exact Hp.
Qed.
Lemma drop_first_chain l : chain l -> chain (drop_first_run l).
Proof. destruct l as [|[a b] l]; simpl; auto. intros [C1 C2]. destruct (a =? 1); simpl; auto. Qed.
Lemma drop_last_In n l p :
  chain l -> (forall p, In p l -> fst p < snd p <= n - 1) ->
  (In p (drop_last_run n l) <-> In p l /\ snd p <> n - 1).
Proof.
  intros C Hb. unfold drop_last_run.
  destruct l as [|[a b] l _] using rev_ind; [simpl; tauto|].
  rewrite rev_app_distr. simpl. apply chain_app in C as (C1 & C2 & C3).
  pose proof (Hb (a, b)) as Hab. rewrite in_app_iff in Hab. simpl in Hab.
  specialize (Hab (or_intror (or_introl eq_refl))).
  assert (Hl : forall p, In p l -> snd p < n - 1).
  { intros p' Hp. specialize (C3 p' (a, b) Hp (or_introl eq_refl)). unfold pair_lt in C3.
    simpl in C3. lia. }
  destruct (Z.eqb_spec b (n - 1)) as [->|D].
  - rewrite rev_involutive, in_app_iff. split.
    + intros Hp. split; auto. apply Hl in Hp. lia.
    + intros [[Hp|[<-|[]]] Hn]; auto. simpl in Hn. lia.
  - rewrite in_app_iff. split.
    + intros [Hp|[<-|[]]]; split; auto; simpl; auto. apply Hl in Hp. lia.
    + tauto.
Qed.
Lemma drop_last_chain n l : chain l -> chain (drop_last_run n l).
Proof.
  intros C. unfold drop_last_run. destruct l as [|[a b] l _] using rev_ind; simpl; auto.
  rewrite rev_app_distr. simpl. destruct (b =? n - 1); auto.
  rewrite rev_involutive. apply chain_app in C. tauto.
Qed.

(** The plateaus examined by the code. *)
Definition plateaus (S : list Qc) : list (Z * Z) :=
  drop_last_run (zlen S) (drop_first_run (runs (map is0 (ndiff S)))).
Lemma plateaus_In S a b : S <> [] ->
  (In (a, b) (plateaus S) <->
   0 <= a < b /\ b <= zlen S - 2 /\ a <> 1 /\ (forall k, a <= k < b -> sgn S k = 0) /\
   (a = 0 \/ sgn S (a - 1) <> 0) /\ sgn S b <> 0).
Proof.
  intros HS. unfold plateaus.
  destruct (runs_chain (map is0 (ndiff S))) as [C B].
  assert (B' : forall p, In p (runs (map is0 (ndiff S))) -> fst p < snd p <= zlen S - 1).
  { intros [a' b'] Hp. apply runs_In, isrun_bounds in Hp. rewrite zlen_map, zlen_ndiff in Hp by auto.
    simpl. lia. }
  rewrite drop_last_In, drop_first_In, runs_In; auto.
  2: apply drop_first_chain; auto.
  2:{ intros p Hp. apply drop_first_In in Hp as [Hp _]; auto. }
  assert (M : forall i, zmask (map is0 (ndiff S)) i = false <-> ~ (0 <= i < zlen S - 1 /\ sgn S i = 0)).
  { intros i. rewrite <- bad_mask by auto. destruct (zmask _ i); split; congruence. }
  simpl. split.
  - intros [[R Ha] Hb]. pose proof (isrun_bounds _ _ _ R) as Hbd.
    rewrite zlen_map, zlen_ndiff in Hbd by auto.
    destruct R as (R1 & R2 & R3 & R4). rewrite M in R3, R4.
    split; [lia|]. split; [lia|]. split; auto. split.
    + intros k Hk. apply R2 in Hk. apply bad_mask in Hk; tauto.
    + split; [|intros E; apply R4; split; auto; lia].
      destruct (Z.eq_dec a 0); auto. right. intros E. apply R3. split; auto. lia.
  - intros (H1 & H2 & H3 & H4 & H5 & H6). split; [|lia]. split; auto.
    split; [lia|]. split; [|split].
    + intros k Hk. apply bad_mask; auto. split; [lia|]. auto.
    + rewrite M. intros [? E]. destruct H5; [lia|contradiction].
    + rewrite M. intros [? E]. contradiction.
Qed.
Lemma plateaus_chain S : chain (plateaus S).
Proof. apply drop_last_chain, drop_first_chain, runs_chain. Qed.

(** ** Assembling *)
Lemma mask_filter {R X Y Z} (f : R -> X) (g : Y -> Z -> bool) (h1 : R -> Y) (h2 : R -> Z) l :
  mask (map f l) (map2 g (map h1 l) (map h2 l)) = map f (filter (fun r => g (h1 r) (h2 r)) l).
Proof. induction l as [|r l IH]; simpl; auto. destruct (g (h1 r) (h2 r)); simpl; rewrite IH; auto. Qed.
Lemma existsb_mask {R Y Z} (g : Y -> Z -> bool) (h1 : R -> Y) (h2 : R -> Z) l :
  existsb (fun b => b) (map2 g (map h1 l) (map h2 l)) = existsb (fun r => g (h1 r) (h2 r)) l.
Proof. induction l as [|r l IH]; simpl; auto. rewrite IH. auto. Qed.
Lemma chain_filter f l : chain l -> chain (filter f l).
Proof.
  induction l as [|x l IH]; simpl; auto. intros [C1 C2]. destruct (f x); simpl; auto.
  split; auto. intros q Hq. apply filter_In in Hq. apply C1. tauto.
Qed.
Lemma chain_mid_increasing l :
  chain l -> (forall p, In p l -> fst p < snd p) ->
  zincreasing (map (fun r => round_half (snd r + fst r)) l).
Proof.
  induction l as [|[a b] l IH]; simpl; auto. intros [C1 C2] Hb. split; auto.
  intros y Hy. apply in_map_iff in Hy as ([a' b'] & <- & Hp).
  pose proof (C1 _ Hp) as L. unfold pair_lt in L. simpl in L.
  pose proof (Hb (a, b) (or_introl eq_refl)). pose proof (Hb _ (or_intror Hp)). simpl in *.
  rewrite (Z.add_comm b a), (Z.add_comm b' a').
  pose proof (round_half_bounds a b ltac:(lia)). pose proof (round_half_bounds a' b' ltac:(lia)). lia.
Qed.

(** Extrema of one kind: the strict ones and the plateau midpoints selected by [sel]. *)
Lemma merge_spec S (strict : list Z) (sel : Z * Z -> bool) s :
  S <> [] -> s = 1 \/ s = -1 ->
  zincreasing strict ->
  (forall i, In i strict <-> 1 <= i <= zlen S - 2 /\ sgn S (i - 1) = s /\ sgn S i = - s) ->
  (forall a b, In (a, b) (plateaus S) ->
     (sel (a, b) = true <-> (if a =? 0 then sgn S (zlen S - 2) else sgn S (a - 1)) = s /\ sgn S b = - s)) ->
  let mids := map (fun r => round_half (snd r + fst r)) (filter sel (plateaus S)) in
  let l := if existsb sel (plateaus S) then zsort (strict ++ mids) else strict in
  zincreasing l /\ forall i, In i l <-> rep S s i.
Proof.
  intros HS Hs Hinc Hstrict Hsel mids l.
  assert (Hmid : zincreasing mids).
  { apply chain_mid_increasing; [apply chain_filter, plateaus_chain|].
    intros [a b] Hp. apply filter_In in Hp as [Hp _]. apply plateaus_In in Hp; auto. simpl. lia. }
  assert (HIn : forall i, In i l <-> In i strict \/ In i mids).
  { intros i. unfold l. destruct (existsb sel (plateaus S)) eqn:E.
    - rewrite zsort_In, in_app_iff. reflexivity.
    - split; auto. intros [Hi|Hi]; auto. exfalso. unfold mids in Hi.
      apply in_map_iff in Hi as (r & _ & Hr). apply filter_In in Hr as [Hr Hr'].
      rewrite existsb_false in E. rewrite E in Hr' by auto. discriminate. }
  assert (Hmids : forall i, In i mids <-> exists a b, In (a, b) (plateaus S) /\ i = round_half (b + a) /\
     (if a =? 0 then sgn S (zlen S - 2) else sgn S (a - 1)) = s /\ sgn S b = - s).
  { intros i. unfold mids. rewrite in_map_iff. split.
    - intros ([a b] & <- & Hr). apply filter_In in Hr as [Hr Hr']. exists a, b.
      split; auto. split; auto. apply Hsel; auto.
    - intros (a & b & Hr & -> & Hr'). exists (a, b). split; auto. apply filter_In. split; auto.
      apply Hsel; auto. }
  split.
  - unfold l. destruct (existsb sel (plateaus S)); auto. apply zsort_increasing.
    assert (Hd : forall x, In x strict -> ~ In x mids).
    { intros x Hx Hx'. apply Hstrict in Hx as (_ & X1 & X2).
      apply Hmids in Hx' as (a & b & Hp & E & _ & _). apply plateaus_In in Hp; auto.
      destruct Hp as (P1 & P2 & P3 & P4 & _).
      pose proof (round_half_bounds a b ltac:(lia)) as Hrb. rewrite Z.add_comm, <- E in Hrb.
      destruct (Z.eq_dec x b) as [->|D].
      - rewrite P4 in X1 by lia. lia.
      - rewrite P4 in X2 by lia. lia. }
    apply zincreasing_NoDup in Hinc. apply zincreasing_NoDup in Hmid.
    clear - Hinc Hmid Hd. induction strict as [|x st IH]; simpl; auto.
    inversion Hinc; subst. constructor.
    + rewrite in_app_iff. intros [Hx|Hx]; auto. apply (Hd x); simpl; auto.
    + apply IH; auto. intros y Hy. apply Hd. simpl. auto.
  - intros i. rewrite HIn, Hstrict, Hmids. split.
    + intros [(H1 & H2 & H3)|(a & b & Hp & E & H1 & H2)].
      * exists i, i. split; [lia|]. split; [intros; lia|]. split; auto.
        split; [|left; auto with zarith].
        pose proof (round_half_bounds i i ltac:(lia)). lia.
      * apply plateaus_In in Hp; auto. destruct Hp as (P1 & P2 & P3 & P4 & P5 & P6).
        exists a, b. split; [lia|]. split; auto. split; auto. split; auto.
        destruct (Z.eqb_spec a 0) as [->|D].
        -- right. right. auto with zarith.
        -- right. left. split; [lia|]. split; [lia|]. auto.
    + intros (a & b & Hab & Hz & Hb & E & Hc).
      destruct Hc as [(-> & Ha & Hc)|[(Hlt & Ha & Hc)|(-> & Hlt & Hc)]].
      * left. pose proof (round_half_bounds b b ltac:(lia)).
        assert (i = b) by lia. subst i. replace (round_half (b + b)) with b in * by lia.
        split; [lia|]. auto.
      * right. exists a, b. rewrite plateaus_In by auto. split.
        -- repeat split; auto; try lia.
        -- replace (a =? 0) with false by lia. auto.
      * right. exists 0, b. rewrite plateaus_In by auto. split.
        -- repeat split; auto; try lia.
        -- auto.
Qed.

Lemma nil_no_rep s i : ~ rep [] s i.
Proof. intros (a & b & Hab & _ & _ & _ & Hc). unfold zlen in Hab. simpl in Hab. lia. Qed.

Lemma extrema_idx_spec S :
  exists M m, extrema_idx S = Ok (M, m) /\ zincreasing M /\ zincreasing m /\
    (forall i, In i M <-> rep S 1 i) /\ (forall i, In i m <-> rep S (-1) i).
Proof.
  destruct (list_eq_dec Qc_eq_dec S []) as [->|HS].
  { exists [], []. repeat split; auto; try (intros []; fail); intros Hr; exfalso; eapply nil_no_rep; eauto. }
  unfold extrema_idx.
  set (strM := strict_max_idx (ndiff S)). set (strm := strict_min_idx (ndiff S)).
  assert (PM : zincreasing strM /\ (forall i, In i strM <-> 1 <= i <= zlen S - 2 /\ sgn S (i - 1) = 1 /\ sgn S i = - (1))).
  { split; [apply strict_max_increasing|apply In_strict_max]. }
  assert (Pm : zincreasing strm /\ (forall i, In i strm <-> 1 <= i <= zlen S - 2 /\ sgn S (i - 1) = -1 /\ sgn S i = - (-1))).
  { split; [apply strict_min_increasing|apply In_strict_min]. }
  destruct PM as [PM1 PM2], Pm as [Pm1 Pm2].
  assert (Hnop : plateaus S = [] ->
     exists M m, Ok (strM, strm) = Ok (M, m) /\ zincreasing M /\ zincreasing m /\
    (forall i, In i M <-> rep S 1 i) /\ (forall i, In i m <-> rep S (-1) i)).
  { intros E. exists strM, strm. split; auto.
    pose proof (merge_spec S strM (fun _ => false) 1 HS (or_introl eq_refl) PM1 PM2) as QM.
    pose proof (merge_spec S strm (fun _ => false) (-1) HS (or_intror eq_refl) Pm1 Pm2) as Qm.
    rewrite E in QM, Qm. simpl in QM, Qm. specialize (QM ltac:(tauto)). specialize (Qm ltac:(tauto)).
    tauto. }
  destruct (existsb (fun b => b) (map is0 (ndiff S))) eqn:Eb.
  - rewrite runs_spec. fold (plateaus S).
    destruct (plateaus S) as [|p0 ps] eqn:Ep; [apply Hnop; auto|].
    rewrite <- Ep in *. clear Hnop.
    set (before := fun r : Z * Z => if fst r =? 0 then dv S (zlen S - 2) else dv S (fst r - 1)).
    set (aft := fun r : Z * Z => dv S (snd r)).
    assert (E1 : py_take (ndiff S) (map (fun r => fst r - 1) (plateaus S)) = Ok (map before (plateaus S))).
    { unfold py_take. rewrite (mapM_map_ok _ (fun i => if i =? -1 then dv S (zlen S - 2) else dv S i)).
      - f_equal. rewrite map_map. apply map_ext. intros r. unfold before.
        destruct (Z.eqb_spec (fst r) 0); destruct (Z.eqb_spec (fst r - 1) (-1)); auto; lia.
      - intros x Hx. apply in_map_iff in Hx as ([a b] & <- & Hr). apply plateaus_In in Hr; auto. simpl.
        destruct (Z.eqb_spec (a - 1) (-1)) as [->|D].
        + apply py_get_ndiff_wrap. lia.
        + apply py_get_ndiff. lia. }
    assert (E2 : py_take (ndiff S) (map snd (plateaus S)) = Ok (map aft (plateaus S))).
    { unfold py_take. rewrite (mapM_map_ok _ (dv S)).
      - rewrite map_map. reflexivity.
      - intros x Hx. apply in_map_iff in Hx as ([a b] & <- & Hr). apply plateaus_In in Hr; auto. simpl.
        apply py_get_ndiff. lia. }
    rewrite E1, E2. cbn [bind]. rewrite !mask_filter, !existsb_mask.
    replace (match plateaus S with [] => Ok (strM, strm) | _ :: _ => _ end) with
      (Ok (if existsb (fun r => nltb n0 (before r) && nltb (aft r) n0) (plateaus S)
           then zsort (strM ++ map (fun r => round_half (snd r + fst r))
             (filter (fun r => nltb n0 (before r) && nltb (aft r) n0) (plateaus S))) else strM,
           if existsb (fun r => nltb (before r) n0 && nltb n0 (aft r)) (plateaus S)
           then zsort (strm ++ map (fun r => round_half (snd r + fst r))
             (filter (fun r => nltb (before r) n0 && nltb n0 (aft r)) (plateaus S))) else strm))
      by (rewrite Ep; reflexivity).
    eexists _, _. split; [reflexivity|].
    assert (SM : forall a b, In (a, b) (plateaus S) ->
      ((fun r => nltb n0 (before r) && nltb (aft r) n0) (a, b) = true <->
       (if a =? 0 then sgn S (zlen S - 2) else sgn S (a - 1)) = 1 /\ sgn S b = - (1))).
    { intros a b _. rewrite andb_true_iff. num_qc. rewrite !Qc_ltb_lt. unfold before, aft. simpl.
      rewrite dv_neg. destruct (a =? 0); rewrite dv_pos; reflexivity. }
    assert (Sm : forall a b, In (a, b) (plateaus S) ->
      ((fun r => nltb (before r) n0 && nltb n0 (aft r)) (a, b) = true <->
       (if a =? 0 then sgn S (zlen S - 2) else sgn S (a - 1)) = -1 /\ sgn S b = - (-1))).
    { intros a b _. rewrite andb_true_iff. num_qc. rewrite !Qc_ltb_lt. unfold before, aft. simpl.
      rewrite dv_pos. destruct (a =? 0); rewrite dv_neg; reflexivity. }
    pose proof (merge_spec S strM _ 1 HS (or_introl eq_refl) PM1 PM2 SM) as QM.
    pose proof (merge_spec S strm _ (-1) HS (or_intror eq_refl) Pm1 Pm2 Sm) as Qm.
    simpl in QM, Qm. tauto.
  - apply Hnop. destruct (plateaus S) as [|[a b] ps] eqn:Ep; auto. exfalso.
    assert (Hp : In (a, b) (plateaus S)) by (rewrite Ep; left; auto).
    apply plateaus_In in Hp as (P1 & P2 & P3 & P4 & _); auto.
    rewrite existsb_false in Eb. specialize (P4 a ltac:(lia)).
    assert (zmask (map is0 (ndiff S)) a = true) by (apply bad_mask; auto; lia).
    apply zmask_true in H as [_ H]. apply nth_error_In in H. apply Eb in H. discriminate.
Qed.
