(** * PoolEnsemble: EEMD and CEEMDAN under every schedule of their workers. *)
From Verif Require Import PyFacts Pool PoolSpec PoolProofs EemdProofs CeemdanSpec CeemdanProofs.
From Coq Require Import QArith Qcanon List Permutation Lia Arith.
Import ListNotations.
Open Scope nat_scope.

(** ** EEMD *)
Section Eemd.
Context {A : Type} `{Num A} {G D : Type}.
Variable gen : generator A G.
Variable dec : decomposer A D.
Notation stepf := (G * D -> res (trial (A := A)) * (G * D))%type.

(** All chunks start from the same copy, so that all that fail fail alike. *)
Lemma runs_same_exn (step : stepf) a b st ts1 ts2 e1 e2 st1 st2 :
  run_trials step a st = (ts1, Some e1, st1) -> run_trials step b st = (ts2, Some e2, st2) -> e1 = e2.
Proof.
  revert b st ts1 ts2. induction a as [|a IH]; intros b st ts1 ts2; cbn [run_trials]; [discriminate|].
  destruct b as [|b]; [discriminate|]. cbn [run_trials]. destruct (step st) as [[t|e] st0]; [|congruence].
  destruct (run_trials step a st0) as [[us1 x1] s1] eqn:E1, (run_trials step b st0) as [[us2 x2] s2] eqn:E2.
  intros X1 X2. assert (x1 = Some e1 /\ s1 = st1) as [-> ->] by (split; congruence). assert (x2 = Some e2 /\ s2 = st2) as [-> ->] by (split; congruence).
  eapply IH; eauto.
Qed.
Lemma chunks_ok (step : stepf) st lens : (forall i, i < length lens -> exists v, chunk_outcome step st lens i = Ok v) ->
  pool_chunks step st lens = (flat_map (fun i => value_of (chunk_outcome step st lens i)) (seq 0 (length lens)), None).
Proof.
  induction lens as [|n lens IH]; intros Hok; [reflexivity|]. cbn [pool_chunks length seq flat_map].
  destruct (Hok 0) as (v & Hv); [cbn; lia|]. unfold chunk_outcome in Hv |- * at 1. cbn [nth] in *.
  destruct (run_trials step n st) as [[ts [e|]] st'] eqn:E; [discriminate|]. cbn [value_of].
  rewrite IH. 2:{ intros i Hi. apply (Hok (Datatypes.S i)). cbn. lia. }
  f_equal. f_equal. rewrite <- seq_shift. rewrite !flat_map_concat_map, map_map. reflexivity.
Qed.
Lemma chunks_fail (step : stepf) st lens i e : i < length lens -> chunk_outcome step st lens i = Raise e ->
  snd (pool_chunks step st lens) = Some e.
Proof.
  revert i. induction lens as [|n lens IH]; intros i Hi He; [cbn in Hi; lia|]. cbn [pool_chunks].
  destruct (run_trials step n st) as [[ts [e'|]] st'] eqn:E.
  - cbn [snd]. f_equal. unfold chunk_outcome in He. destruct (run_trials step (nth i (n :: lens) O) st) as [[ts2 [e2|]] st2] eqn:E2; [|discriminate].
    assert (e2 = e) by congruence. subst. eapply runs_same_exn; eauto.
  - destruct i as [|i]; [unfold chunk_outcome in He; cbn [nth] in He; rewrite E in He; discriminate|].
    cbn [length] in Hi. specialize (IH i ltac:(lia) He). destruct (pool_chunks step st lens). exact IH.
Qed.
(** The outcome of [pool.map] does not depend on the schedule. *)
Lemma outcome_unique procs (step : stepf) n st out : pool_outcome procs step n st out ->
  snd out = snd (pool_map procs step n st) /\ (snd out = None -> fst out = fst (pool_map procs step n st)).
Proof.
  unfold pool_outcome, pool_map. destruct (Z.ltb_spec procs 1); [intros ->; auto|].
  set (lens := chunk_lengths _ _ _). intros (f & HC & HM). apply completes_feasible in HC as [HP _].
  destruct (perm_members f _ HP) as [Hin _].
  destruct (fails_split (chunk_outcome step st lens) f) as [Hok|(i & e & Hi & HF)].
  - assert (HO : forall j, j < length lens -> exists v, chunk_outcome step st lens j = Ok v) by (intros j Hj; apply Hok, Hin, Hj).
    rewrite (map_all_ok _ _ _ HP HO) in HM. rewrite (chunks_ok step st lens HO). destruct out as [ts [e|]]; cbn [fst snd] in *; [discriminate|].
    split; auto. congruence.
  - rewrite (map_fails _ _ _ i e HP HF) in HM. destruct HF as [HF _]. rewrite (chunks_fail step st lens i e (proj1 (Hin i) Hi) HF).
    destruct out as [ts [e'|]]; cbn [fst snd] in *; [split; congruence|discriminate].
Qed.
Lemma seq_feasible procs n : 1 <= procs -> feasible procs n (seq 0 n).
Proof. intros Hp. split; [reflexivity|]. intros k i Hk. assert (k < n) by (rewrite <- (seq_length n 0); apply nth_error_Some; congruence).
  apply (nth_error_nth _ _ 0) in Hk. rewrite seq_nth in Hk by auto. lia. Qed.
Lemma outcome_exists procs (step : stepf) n st : pool_outcome procs step n st (pool_map procs step n st).
Proof.
  unfold pool_outcome, pool_map. destruct (Z.ltb_spec procs 1); [reflexivity|]. set (lens := chunk_lengths _ _ _).
  exists (seq 0 (length lens)). assert (HF : feasible (Z.to_nat procs) (length lens) (seq 0 (length lens))) by (apply seq_feasible; lia).
  split; [apply feasible_completes; [lia|auto]|]. destruct HF as [HP _].
  destruct (fails_split (chunk_outcome step st lens) (seq 0 (length lens))) as [Hok|(i & e & Hi & HF)].
  - assert (HO : forall j, j < length lens -> exists v, chunk_outcome step st lens j = Ok v) by (intros j Hj; apply Hok, in_seq; lia).
    rewrite (map_all_ok _ _ _ HP HO), (chunks_ok step st lens HO). reflexivity.
  - rewrite (map_fails _ _ _ i e HP HF). destruct HF as [HF _]. apply in_seq in Hi. rewrite (chunks_fail step st lens i e ltac:(lia) HF). reflexivity.
Qed.
Lemma eemd_with_pool_map c o S T k : eemd_with gen dec (fun step st => pool_map (processes c) step (trials c) st) c o S T k = eemd gen dec c o S T k.
Proof. reflexivity. Qed.
Lemma eemd_with_same p1 p2 c o S T k :
  (forall step st, snd (p1 step st) = snd (p2 step st) /\ (snd (p1 step st) = None -> fst (p1 step st) = fst (p2 step st))) ->
  eemd_with gen dec p1 c o S T k = eemd_with gen dec p2 c o S T k.
Proof.
  intros HP. unfold eemd_with. destruct (bind _ _) as [[T' scale]|e]; [|reflexivity].
  destruct (parallel c); [|reflexivity]. specialize (HP (trial_update gen dec c scale S T' k) (random o, inner o)).
  destruct (p1 _ _) as [ts1 x1], (p2 _ _) as [ts2 x2]. cbn [fst snd] in HP. destruct HP as [-> HP]. destruct x2 as [e|]; [reflexivity|].
  rewrite (HP eq_refl). reflexivity.
Qed.
Theorem eemd_can_iff c o S T k result : eemd_can gen dec c o S T k result <-> result = eemd gen dec c o S T k.
Proof.
  split.
  - intros (pooled & HP & ->). rewrite <- eemd_with_pool_map. apply eemd_with_same. intros step st. apply outcome_unique, HP.
  - intros ->. exists (fun step st => pool_map (processes c) step (trials c) st). split; [|reflexivity]. intros step st. apply outcome_exists.
Qed.
End Eemd.

(** ** CEEMDAN: the noises *)
Lemma zrange_seq n : zrange 0 n = map Z.of_nat (seq 0 (Z.to_nat n)).
Proof.
  unfold zrange. rewrite Z.sub_0_r. apply (nth_ext _ _ 0%Z 0%Z); [rewrite zseq_length, map_length, seq_length; auto|].
  intros i Hi. rewrite zseq_length in Hi. rewrite zseq_nth by auto. change 0%Z with (Z.of_nat 0) at 2. rewrite map_nth, seq_nth by auto. lia.
Qed.
Lemma mapM_map_in {X Y Z} (h : X -> Y) (g : Y -> res Z) l : mapM g (map h l) = mapM (fun x => g (h x)) l.
Proof. induction l as [|x l IH]; [auto|]. cbn [map mapM]. rewrite IH. auto. Qed.
Lemma mapM_app_ok {X Y} (g : X -> res Y) a b r : mapM g (a ++ b) = Ok r <-> exists u v, mapM g a = Ok u /\ mapM g b = Ok v /\ r = u ++ v.
Proof.
  revert r. induction a as [|x a IH]; intros r; cbn [app mapM].
  - split; [intros E; exists [], r; auto|]. intros (u & v & E1 & E2 & ->). assert (u = []) by congruence. subst. auto.
  - split.
    + intros E. apply bind_ok in E as (y & E1 & E). apply bind_ok in E as (ys & E2 & E). apply IH in E2 as (u & v & F1 & F2 & ->).
      exists (y :: u), v. rewrite E1. cbn [bind]. rewrite F1. cbn [bind]. split; auto. split; auto. cbn [app]. congruence.
    + intros (u & v & E1 & E2 & ->). apply bind_ok in E1 as (y & F1 & E1). apply bind_ok in E1 as (ys & F2 & E1). assert (u = y :: ys) by congruence. subst u.
      rewrite F1. cbn [bind]. rewrite (proj2 (IH (ys ++ v))); [reflexivity|]. eauto.
Qed.
Lemma mapM_slices {X Y} (g : X -> res Y) : forall lens l, fold_right Nat.add 0 lens = length l ->
  forall r, mapM g l = Ok r <->
    (forall i, i < length lens -> exists v, mapM g (nth i (slices lens l) []) = Ok v) /\
    r = flat_map (fun i => value_of (mapM g (nth i (slices lens l) []))) (seq 0 (length lens)).
Proof.
  induction lens as [|n lens IH]; intros l HL r.
  - destruct l; [|discriminate]. cbn. split; [intros E; split; [intros; lia|congruence]|]. intros [_ ->]. reflexivity.
  - cbn [fold_right] in HL. cbn [slices length seq flat_map nth]. rewrite <- seq_shift, flat_map_concat_map, map_map, <- flat_map_concat_map.
    assert (HL2 : fold_right Nat.add 0 lens = length (skipn n l)) by (rewrite skipn_length; lia).
    rewrite <- (firstn_skipn n l) at 1. rewrite mapM_app_ok. split.
    + intros (u & v & E1 & E2 & ->). apply (IH _ HL2) in E2 as [E2 ->]. split.
      * intros [|i] Hi; [eauto|]. apply E2. lia.
      * rewrite E1. reflexivity.
    + intros [HO ->]. destruct (HO 0) as (u & Hu); [lia|]. cbn [nth] in Hu. rewrite Hu. cbn [value_of]. eexists _, _. split; [reflexivity|]. split; [|reflexivity].
      apply (IH _ HL2). split; auto. intros i Hi. apply (HO (Datatypes.S i)). lia.
Qed.

Section Ceemdan.
Context {A : Type} `{Num A}.
Notation vec := (list A).
Notation rows := (list (list A)).
Variable std : vec -> A.
Variable emd_of : vec -> option vec -> Z -> res rows.
Lemma noise_lens_sum c (noises : rows) : (1 <= c_processes c)%Z -> fold_right Nat.add 0 (noise_lens c noises) = length noises.
Proof.
  intros Hp. unfold noise_lens. destruct noises as [|x noises]; [reflexivity|]. set (l := x :: noises).
  assert (0 < zlen l)%Z by (unfold zlen, l; cbn; lia).
  destruct (chunk_lengths_spec (length l) (chunksize (zlen l) (c_processes c)) (zlen l)) as [E _].
  - apply chunksize_pos; auto.
  - unfold zlen. lia.
  - rewrite E. unfold zlen. lia.
Qed.
Lemma noise_by f c noises : c_parallel c = true -> (1 <= c_processes c)%Z ->
  completes (Z.to_nat (c_processes c)) (length (noise_lens c noises)) f ->
  forall r, decompose_noise_by emd_of std f c noises = Ok r <-> decompose_noise std emd_of c noises = Ok r.
Proof.
  intros Hpar Hp HC r. apply completes_feasible in HC as [HP _]. destruct (perm_members f _ HP) as [Hin _].
  unfold decompose_noise_by, decompose_noise.
  assert (EO : open_pool c = Ok tt) by (unfold open_pool; rewrite Hpar; replace (c_processes c <? 1)%Z with false by lia; auto).
  rewrite EO. cbn [bind].
  destruct (fails_split (noise_outcome emd_of c noises) f) as [Hok|(i & e & Hi & HF)].
  - assert (HO : forall j, j < length (noise_lens c noises) -> exists v, noise_outcome emd_of c noises j = Ok v) by (intros j Hj; apply Hok, Hin, Hj).
    rewrite (map_all_ok _ _ _ HP HO).
    rewrite (proj2 (mapM_slices (fun noise => emd_of noise None (-1)%Z) (noise_lens c noises) noises (noise_lens_sum c noises Hp) _)) by (split; [exact HO|reflexivity]).
    reflexivity.
  - rewrite (map_fails _ _ _ i e HP HF). cbn [bind]. split; [discriminate|]. intros E. apply bind_ok in E as (all & E & _).
    apply (mapM_slices (fun noise => emd_of noise None (-1)%Z) (noise_lens c noises) noises (noise_lens_sum c noises Hp)) in E as [E _].
    destruct (E i (proj1 (Hin i) Hi)) as (v & Hv). destruct HF as [HF _]. unfold noise_outcome in HF. congruence.
Qed.

(** ** CEEMDAN: the trials *)
Lemma by_fold n (out : nat -> res rows) f E0 R :
  fold_left (fun E i => let! E := E in let! M := out i in accumulate n (Ok E) M) f E0 = Ok R <->
  exists Ms, mapM out f = Ok Ms /\ fold_left (accumulate n) Ms E0 = Ok R.
Proof.
  revert E0. induction f as [|i f IH]; intros E0; cbn [fold_left mapM].
  - split; [intros ->; exists []; auto|]. intros (Ms & E & F). assert (Ms = []) by congruence. subst. auto.
  - rewrite IH. clear IH. destruct (out i) as [M|e] eqn:EM; cbn [bind].
    + split.
      * intros (Ms & E & F). rewrite E. cbn [bind]. exists (M :: Ms). split; [reflexivity|exact F].
      * intros (Ms & E & F). apply bind_ok in E as (Ms' & E & E'). assert (Ms = M :: Ms') by congruence. subst. exists Ms'. split; [exact E|exact F].
    + split; [|intros (Ms & E & F); discriminate]. intros (Ms & E & F). exfalso.
      assert (X : forall e l, fold_left (accumulate n) l (Raise e) <> Ok R). { intros e0 l. induction l as [|m l IH]; [discriminate|exact IH]. }
      destruct E0; cbn [bind] in F; apply X in F; auto.
Qed.
(** Which exception: if the rows fit, that of the first trial to fail. *)
Lemma by_blame c noise_emd S T f e : c_parallel c = true -> (1 <= c_processes c)%Z ->
  (forall i M, In i f -> c_outcome emd_of c noise_emd S (match T with Some t => t | None => map nofZ (zseq 0 (length S)) end) i = Ok M -> forallb (fun r => Nat.eqb (length r) (length S)) M = true) ->
  (inner_eemd_by emd_of f c noise_emd S T = Raise e <->
   exists i, fails_first (c_outcome emd_of c noise_emd S (match T with Some t => t | None => map nofZ (zseq 0 (length S)) end)) f i e).
Proof.
  intros Hpar Hp HS. unfold inner_eemd_by.
  assert (EO : open_pool c = Ok tt) by (unfold open_pool; rewrite Hpar; replace (c_processes c <? 1)%Z with false by lia; auto).
  rewrite EO. cbn [bind]. set (out := c_outcome _ _ _ _ _) in *. clearbody out.
  generalize [vzeros (length S)] as E0. revert HS. generalize (length S) as n. intros n HS.
  induction f as [|i f IH]; intros E0; cbn [fold_left].
  - cbn [bind]. split; [discriminate|]. intros (i & _ & g & h & E & _). destruct g; discriminate.
  - cbn [bind]. destruct (out i) as [M|e0] eqn:EM; cbn [bind].
    + unfold accumulate at 2. cbn [bind]. rewrite (HS i M) by (auto; left; auto). rewrite IH by (intros j M' Hj; apply HS; right; auto). split.
      * intros (j & Hj & g & h & -> & Hg). exists j. split; auto. exists (i :: g), h. split; auto. intros x [<-|Hx]; eauto.
      * intros (j & Hj & g & h & E & Hg). exists j. split; auto. destruct g as [|x g]; cbn [app] in E.
        -- assert (i = j) by congruence. congruence.
        -- assert (i = x /\ f = g ++ j :: h) as [-> ->] by (split; congruence). exists g, h. split; auto. intros y Hy. apply Hg. right. auto.
    + assert (X : fold_left (fun E i => let! E := E in let! M := out i in accumulate n (Ok E) M) f (Raise e0) = Raise e0) by (clear; induction f as [|j f IH]; [auto|exact IH]).
      rewrite X. cbn [bind]. split.
      * intros Y. assert (e0 = e) by congruence. subst. exists i. split; auto. exists [], f. split; auto. intros j [].
      * intros (j & Hj & g & h & E & Hg). destruct g as [|x g]; cbn [app] in E; [congruence|].
        assert (i = x) by congruence. subst. destruct (Hg x) as (? & ?); [left; auto|congruence].
Qed.
End Ceemdan.

Section CeemdanQc.
Notation vec := (list Qc).
Notation rows := (list (list Qc)).
Variable std : vec -> Qc.
Variable emd_of : vec -> option vec -> Z -> res rows.
Lemma mapM_values {X Y} (g : X -> res Y) d l Ms : mapM g l = Ok Ms -> Ms = map (fun x => match g x with Ok y => y | Raise _ => d end) l.
Proof.
  revert Ms. induction l as [|x l IH]; intros Ms E; cbn [mapM map] in *; [congruence|].
  apply bind_ok in E as (y & E1 & E). apply bind_ok in E as (ys & E2 & E). rewrite E1, <- (IH ys E2). congruence.
Qed.
Lemma mapM_all_ok {X Y} (g : X -> res Y) l : (exists Ms, mapM g l = Ok Ms) <-> forall x, In x l -> exists y, g x = Ok y.
Proof.
  split.
  - intros (Ms & E). apply mapM_ok_iff in E. induction E as [|x y l r E F IH]; [intros x []|]. intros z [<-|Hz]; eauto.
  - induction l as [|x l IH]; intros HO; [exists []; auto|]. destruct (HO x) as (y & Hy); [left; auto|]. destruct IH as (ys & E); [intros; apply HO; right; auto|].
    exists (y :: ys). cbn [mapM]. rewrite Hy. cbn [bind]. rewrite E. reflexivity.
Qed.
Lemma trials_by f arrival c noise_emd S T : reorders arrival -> c_parallel c = true -> (1 <= c_processes c)%Z ->
  Permutation f (seq 0 (Z.to_nat (c_trials c))) ->
  forall R, inner_eemd_by emd_of f c noise_emd S T = Ok R <-> inner_eemd emd_of arrival c noise_emd S T = Ok R.
Proof.
  intros HA Hpar Hp HP R. unfold inner_eemd_by, inner_eemd.
  assert (EO : open_pool c = Ok tt) by (unfold open_pool; rewrite Hpar; replace (c_processes c <? 1)%Z with false by lia; auto).
  rewrite EO, Hpar. cbn [bind]. set (T' := match T with Some t => t | None => _ end). rewrite zrange_seq, mapM_map_in. fold (c_outcome emd_of c noise_emd S T').
  change (fun x => c_trial emd_of c noise_emd S T' (Z.of_nat x)) with (c_outcome emd_of c noise_emd S T').
  set (out := c_outcome emd_of c noise_emd S T'). set (n := Z.to_nat (c_trials c)) in *.
  assert (SAME : forall Ms Ms' E0, mapM out f = Ok Ms -> mapM out (seq 0 n) = Ok Ms' -> fold_left (accumulate (length S)) Ms E0 = fold_left (accumulate (length S)) (arrival Ms') E0).
  { intros Ms Ms' E0 E1 E2. apply (mapM_values out []) in E1. apply (mapM_values out []) in E2. subst. rewrite <- (accumulate_perm _ _ _ _ (HA _)). apply accumulate_perm, Permutation_map, HP. }
  assert (EX : (exists Ms, mapM out f = Ok Ms) <-> exists Ms, mapM out (seq 0 n) = Ok Ms).
  { rewrite !mapM_all_ok. split; intros HO x Hx; apply HO; [eapply Permutation_in; [symmetry; exact HP|auto]|eapply Permutation_in; [exact HP|auto]]. }
  split; intros E.
  - apply bind_ok in E as (E1 & E2 & E). apply by_fold in E2 as (Ms & E2 & F). destruct (proj1 EX (ex_intro _ Ms E2)) as (Ms' & E3).
    rewrite E3. cbn [bind]. rewrite <- (SAME Ms Ms') by auto. rewrite F. exact E.
  - apply bind_ok in E as (Ms' & E3 & E). apply bind_ok in E as (E1 & F & E). destruct (proj2 EX (ex_intro _ Ms' E3)) as (Ms & E2).
    rewrite <- (SAME Ms Ms') in F by auto. rewrite (proj2 (by_fold (length S) out f (Ok [vzeros (length S)]) E1)); [exact E|]. eauto.
Qed.
Lemma rows_by fn ft arrival c noises S T k : reorders arrival -> c_parallel c = true -> (1 <= c_processes c)%Z ->
  completes (Z.to_nat (c_processes c)) (Z.to_nat (c_trials c)) ft ->
  completes (Z.to_nat (c_processes c)) (length (noise_lens c noises)) fn ->
  forall C, ceemdan_rows_by emd_of std fn ft c noises S T k = Ok C <-> ceemdan_rows std emd_of arrival c noises S T k = Ok C.
Proof.
  intros HA Hpar Hp HT HN C. apply completes_feasible in HT as [HT _]. unfold ceemdan_rows_by, ceemdan_rows. split; intros E.
  - apply bind_ok in E as (ne & E1 & E). apply bind_ok in E as (E2 & E3 & E). apply (noise_by std emd_of fn c noises Hpar Hp HN) in E1.
    apply (trials_by ft arrival c ne S T HA Hpar Hp HT) in E3. rewrite E1. cbn [bind]. rewrite E3. exact E.
  - apply bind_ok in E as (ne & E1 & E). apply bind_ok in E as (E2 & E3 & E). apply (noise_by std emd_of fn c noises Hpar Hp HN) in E1.
    apply (trials_by ft arrival c ne S T HA Hpar Hp HT) in E3. rewrite E1. cbn [bind]. rewrite E3. exact E.
Qed.
(** Either every schedule gives the same result, or every schedule raises; the object is the same. *)
Theorem ceemdan_can_spec {G} (gen : generator Qc G) arrival c o S T k result : reorders arrival -> c_parallel c = true ->
  ceemdan_can emd_of gen std c o S T k result ->
  snd result = snd (ceemdan gen std emd_of arrival c o S T k) /\
  forall C, fst result = Ok C <-> fst (ceemdan gen std emd_of arrival c o S T k) = Ok C.
Proof.
  intros HA Hpar (fn & ft & -> & HC). unfold ceemdan_by, ceemdan. rewrite map_length.
  destruct (all_noises gen c (c_random o) (length S)) as [[noises|e] g] eqn:EN; cbn [bind]; [|split; reflexivity].
  cbn [fst] in HC. set (S' := map (fun x => ndiv x (std S)) S).
  assert (X : forall C, ceemdan_rows_by emd_of std fn ft c noises S' T k = Ok C <-> ceemdan_rows std emd_of arrival c noises S' T k = Ok C).
  { destruct (Z.ltb_spec (c_processes c) 1) as [L|L].
    - assert (EO : open_pool c = Raise ValueError) by (unfold open_pool; rewrite Hpar; replace (c_processes c <? 1)%Z with true by lia; auto).
      intros C. unfold ceemdan_rows_by, ceemdan_rows, decompose_noise_by, decompose_noise. rewrite EO. cbn [bind]. reflexivity.
    - destruct (HC L) as [HC1 HC2]. apply rows_by; auto. }
  destruct (ceemdan_rows_by emd_of std fn ft c noises S' T k) as [C|e1] eqn:E1, (ceemdan_rows std emd_of arrival c noises S' T k) as [C2|e2] eqn:E2; cbn [bind fst snd].
  - assert (E : C = C2) by (pose proof (proj1 (X C) eq_refl); congruence). subst. split; reflexivity.
  - exfalso. pose proof (proj1 (X C) eq_refl). discriminate.
  - exfalso. pose proof (proj2 (X C2) eq_refl). discriminate.
  - split; [reflexivity|]. intros C. split; discriminate.
Qed.
End CeemdanQc.
