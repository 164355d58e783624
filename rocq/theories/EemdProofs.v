(** * EemdProofs: lemmas about the EEMD model. *)
From Verif Require Import PyFacts QcFacts Eemd Spec EemdSpec EmdProofs EmdExact.
From Coq Require Import ZifyBool ZifyNat QArith Qcanon.
Open Scope Z_scope.

(** ** The ensemble dictionary *)
Section Dict.
Context {A : Type} `{Num A}.
Notation vec := (list A).
Notation rows := (list (list A)).

Definition tab (s : Z) (C : list rows) : list (Z * rows) := combine (zseq s (length C)) C.
Lemma tab_keys s C : map fst (tab s C) = zseq s (length C).
Proof. unfold tab. revert s. induction C; intros s; simpl; f_equal; auto. Qed.
Lemma tab_vals s C : map snd (tab s C) = C.
Proof. unfold tab. revert s. induction C; intros s; simpl; f_equal; auto. Qed.
Lemma tab_app s C C' : tab s (C ++ C') = tab s C ++ tab (s + zlen C) C'.
Proof.
  unfold tab. revert s. induction C as [|c C IH]; intros s; simpl.
  - f_equal. f_equal. unfold zlen. simpl. lia.
  - rewrite IH. do 3 f_equal; rewrite zlen_cons; f_equal; lia.
Qed.
Lemma In_zseq x lo n : In x (zseq lo n) <-> lo <= x < lo + Z.of_nat n.
Proof. revert lo. induction n as [|n IH]; intros lo; simpl; [lia|]. rewrite IH. lia. Qed.

Lemma append_found (pre : list (Z * rows)) k c rest v : ~ In k (map fst pre) ->
  dict_append (pre ++ (k, c) :: rest) k v = pre ++ (k, c ++ [v]) :: rest.
Proof.
  induction pre as [|[k' l] pre IH]; simpl; intros Hk.
  - rewrite Z.eqb_refl. reflexivity.
  - destruct (Z.eqb_spec k' k); [tauto|]. rewrite IH; auto.
Qed.
Lemma append_new (d : list (Z * rows)) k v : ~ In k (map fst d) -> dict_append d k v = d ++ [(k, [v])].
Proof.
  induction d as [|[k' l] d IH]; simpl; intros Hk; auto.
  destruct (Z.eqb_spec k' k); [tauto|]. rewrite IH; auto.
Qed.

Fixpoint addcols (C : list rows) (imfs : rows) : list rows :=
  match imfs, C with
  | [], _ => C
  | x :: imfs', [] => [x] :: addcols [] imfs'
  | x :: imfs', c :: C' => (c ++ [x]) :: addcols C' imfs'
  end.

Lemma enum_tab (imfs : rows) s (C : list rows) pre : (forall k, In k (map fst pre) -> k < s) ->
  enumerate_append s (pre ++ tab s C) imfs = pre ++ tab s (addcols C imfs).
Proof.
  revert s C pre. induction imfs as [|x imfs IH]; intros s C pre Hp; [reflexivity|].
  cbn [enumerate_append]. destruct C as [|c C].
  - cbn [addcols]. unfold tab at 1. cbn [length zseq combine]. rewrite app_nil_r.
    rewrite append_new by (intros X; apply Hp in X; lia).
    replace (pre ++ [(s, [x])]) with ((pre ++ [(s, [x])]) ++ tab (s + 1) []) by apply app_nil_r.
    rewrite IH.
    + rewrite <- app_assoc. reflexivity.
    + intros k Hk. rewrite map_app in Hk. apply in_app_or in Hk as [Hk|[<-|[]]]; [apply Hp in Hk|simpl]; lia.
  - cbn [addcols]. change (tab s (c :: C)) with ((s, c) :: tab (s + 1) C).
    rewrite append_found by (intros X; apply Hp in X; lia).
    replace (pre ++ (s, c ++ [x]) :: tab (s + 1) C) with ((pre ++ [(s, c ++ [x])]) ++ tab (s + 1) C)
      by (rewrite <- app_assoc; reflexivity).
    rewrite IH.
    + rewrite <- app_assoc. reflexivity.
    + intros k Hk. rewrite map_app in Hk. apply in_app_or in Hk as [Hk|[<-|[]]]; [apply Hp in Hk|simpl]; lia.
Qed.

Definition cols (rs : list rows) : list rows := fold_left addcols rs [].

Lemma collect_plain (ts : list trial) C : (forall t, In t ts -> snd t = None) ->
  fold_left collect_one ts (tab 0 C) = tab 0 (fold_left addcols (map fst ts) C).
Proof.
  revert C. induction ts as [|t ts IH]; intros C Ht; [reflexivity|]. cbn [fold_left map].
  rewrite <- IH by (intros; apply Ht; right; auto). f_equal. unfold collect_one.
  rewrite (Ht t) by (left; auto). apply (enum_tab (fst t) 0 C []). simpl. tauto.
Qed.
Lemma collect_trends (ts : list trial) C vs tr : vs <> [] -> map snd ts = map Some tr ->
  fold_left collect_one ts ((-1, vs) :: tab 0 C) =
  (-1, vs ++ tr) :: tab 0 (fold_left addcols (map fst ts) C).
Proof.
  revert C vs tr. induction ts as [|t ts IH]; intros C vs tr Hv Ht.
  - destruct tr; [|discriminate]. cbn. rewrite app_nil_r. reflexivity.
  - destruct tr as [|v tr]; [discriminate|]. cbn [map] in Ht. injection Ht as Hv1 Ht.
    cbn [fold_left map].
    replace (vs ++ v :: tr) with ((vs ++ [v]) ++ tr) by (rewrite <- app_assoc; reflexivity).
    rewrite <- (IH _ (vs ++ [v]) tr); auto; [|destruct vs; discriminate].
    f_equal. unfold collect_one. rewrite Hv1. cbn [dict_append]. rewrite Z.eqb_refl.
    apply (enum_tab (fst t) 0 C [(-1, vs ++ [v])]). intros k [<-|[]]. simpl. lia.
Qed.

Lemma dict_get_tab s C : 0 <= s -> dict_get (tab s C) (-1) = None.
Proof.
  revert s. induction C as [|c C IH]; intros s Hs; [reflexivity|].
  change (tab s (c :: C)) with ((s, c) :: tab (s + 1) C). cbn [dict_get].
  destruct (Z.eqb_spec s (-1)); [lia|]. apply IH. lia.
Qed.
Lemma dict_del_tab s C : 0 <= s -> dict_del (tab s C) (-1) = tab s C.
Proof.
  revert s. induction C as [|c C IH]; intros s Hs; [reflexivity|].
  change (tab s (c :: C)) with ((s, c) :: tab (s + 1) C). unfold dict_del. cbn [filter fst].
  destruct (Z.eqb_spec s (-1)); [lia|]. cbn [negb]. f_equal. apply IH. lia.
Qed.
Lemma dict_set_tab s C l : dict_set (tab s C) (s + zlen C) l = tab s (C ++ [l]).
Proof.
  revert s. induction C as [|c C IH]; intros s.
  - cbn. f_equal. f_equal. unfold zlen. simpl. lia.
  - change (tab s (c :: C)) with ((s, c) :: tab (s + 1) C). cbn [dict_set].
    rewrite zlen_cons. pose proof (zlen_nonneg C).
    destruct (Z.eqb_spec s (s + (zlen C + 1))); [lia|].
    replace (s + (zlen C + 1)) with (s + 1 + zlen C) by lia. rewrite IH. reflexivity.
Qed.
Lemma tab_length s C : length (tab s C) = length C.
Proof. unfold tab. rewrite combine_length, zseq_length. lia. Qed.

(** Without trends: one entry per order, in order. *)
Lemma rename_plain (ts : list trial) : (forall t, In t ts -> snd t = None) ->
  rename_trend (collect ts) = tab 0 (cols (map fst ts)).
Proof.
  intros Ht. unfold rename_trend, collect. change (@nil (Z * rows)) with (tab 0 []).
  rewrite collect_plain by auto. rewrite dict_get_tab by lia. reflexivity.
Qed.
(** With trends: the trends of all trials come last. *)
Lemma rename_trends (ts : list trial) tr : ts <> [] -> map snd ts = map Some tr ->
  rename_trend (collect ts) = tab 0 (cols (map fst ts) ++ [tr]).
Proof.
  intros Hne Ht. destruct ts as [|t ts]; [congruence|]. destruct tr as [|v tr]; [discriminate|].
  cbn [map] in Ht. injection Ht as Hv Ht.
  assert (E : collect (t :: ts) = (-1, v :: tr) :: tab 0 (cols (map fst (t :: ts)))).
  { unfold collect. cbn [fold_left]. unfold collect_one at 2. rewrite Hv. cbn [dict_append].
    change [(-1, [v])] with ([(-1, [v])] ++ tab 0 []). rewrite (enum_tab (fst t) 0 [] [(-1, [v])]);
      [|intros k [<-|[]]; simpl; lia].
    cbn [app]. rewrite (collect_trends ts _ [v] tr) by (auto; discriminate). reflexivity. }
  rewrite E. unfold rename_trend. cbn [dict_get]. rewrite Z.eqb_refl.
  set (C := cols (map fst (t :: ts))).
  assert (E2 : dict_del ((-1, v :: tr) :: tab 0 C) (-1) = tab 0 C).
  { unfold dict_del. cbn [filter fst]. rewrite Z.eqb_refl. cbn [negb]. apply (dict_del_tab 0). lia. }
  rewrite E2. replace (zlen (tab 0 C)) with (0 + zlen C) by (unfold zlen; rewrite tab_length; lia).
  apply dict_set_tab.
Qed.

(** ** Columns *)
Lemma nth_addcols C r k :
  nth k (addcols C r) [] = nth k C [] ++ match nth_error r k with Some x => [x] | None => [] end.
Proof.
  revert C k. induction r as [|x r IH]; intros C k.
  - cbn [addcols]. destruct k; cbn [nth_error]; rewrite app_nil_r; reflexivity.
  - destruct C as [|c C]; cbn [addcols]; destruct k; cbn [nth nth_error]; auto.
    rewrite IH. destruct k; reflexivity.
Qed.
Lemma length_addcols C r : length (addcols C r) = Nat.max (length C) (length r).
Proof.
  revert C. induction r as [|x r IH]; intros C; [cbn; lia|].
  destruct C as [|c C]; cbn [addcols length]; rewrite IH; cbn [length]; lia.
Qed.
Lemma cols_gen rs C :
  (forall k, nth k (fold_left addcols rs C) [] = nth k C [] ++ column k rs) /\
  length (fold_left addcols rs C) = fold_right Nat.max (length C) (map (@length _) rs).
Proof.
  revert C. induction rs as [|r rs IH]; intros C.
  - cbn. split; auto. intros k. rewrite app_nil_r. reflexivity.
  - cbn [fold_left map fold_right]. destruct (IH (addcols C r)) as [I1 I2]. split.
    + intros k. rewrite I1, nth_addcols. unfold column. cbn [flat_map]. rewrite <- app_assoc. reflexivity.
    + rewrite I2, length_addcols. clear. induction rs as [|r' rs IHr]; cbn [map fold_right]; lia.
Qed.
Lemma cols_nth rs k : nth k (cols rs) [] = column k rs.
Proof. unfold cols. rewrite (proj1 (cols_gen rs [])). destruct k; reflexivity. Qed.
Lemma cols_length rs : length (cols rs) = fold_right Nat.max O (map (@length _) rs).
Proof. apply (proj2 (cols_gen rs [])). Qed.
Lemma column_count k (rs : list rows) :
  length (column k rs) = length (filter (fun r => Nat.ltb k (length r)) rs).
Proof.
  unfold column. induction rs as [|r rs IH]; [reflexivity|]. cbn [flat_map filter].
  rewrite app_length, IH. destruct (nth_error r k) eqn:E.
  - assert (k < length r)%nat by (apply nth_error_Some; congruence).
    destruct (Nat.ltb_spec k (length r)); [reflexivity|lia].
  - apply nth_error_None in E. destruct (Nat.ltb_spec k (length r)); [lia|reflexivity].
Qed.
Lemma column_nonempty k (rs : list rows) : (k < fold_right Nat.max O (map (@length _) rs))%nat ->
  column k rs <> [].
Proof.
  intros Hk. induction rs as [|r rs IH]; cbn [map fold_right] in Hk; [lia|].
  unfold column. cbn [flat_map]. destruct (nth_error r k) eqn:E; [discriminate|].
  apply nth_error_None in E. cbn [app]. apply IH. lia.
Qed.
Lemma column_empty k (rs : list rows) : (fold_right Nat.max O (map (@length _) rs) <= k)%nat ->
  column k rs = [].
Proof.
  intros Hk. induction rs as [|r rs IH]; cbn [map fold_right] in Hk; [reflexivity|].
  unfold column. cbn [flat_map]. replace (nth_error r k) with (@None vec).
  - cbn [app]. apply IH. lia.
  - symmetry. apply nth_error_None. lia.
Qed.
Lemma In_column x k (rs : list rows) : In x (column k rs) -> exists r, In r rs /\ In x r.
Proof.
  unfold column. intros Hx. apply in_flat_map in Hx as (r & Hr & Hx). exists r. split; auto.
  destruct (nth_error r k) eqn:E; [|destruct Hx]. destruct Hx as [<-|[]]. eapply nth_error_In; eauto.
Qed.
Lemma cols_map rs : cols rs = map (fun k => column k rs) (seq 0 (length (cols rs))).
Proof.
  apply nth_ext with (d := []) (d' := []).
  - rewrite map_length, seq_length. reflexivity.
  - intros k Hk. rewrite cols_nth.
    rewrite nth_indep with (d' := column (length (cols rs)) rs) (n := k) by (rewrite map_length, seq_length; auto).
    rewrite (map_nth (fun k => column k rs)). rewrite seq_nth by auto. reflexivity.
Qed.
End Dict.

(** ** Trials *)
Section Trials.
Context {A : Type} `{Num A} {G D : Type}.
Variable gen : generator A G.
Variable dec : decomposer A D.
Notation vec := (list A).
Notation rows := (list (list A)).

(** A trial: a decomposition of the signal plus given noise. *)
Definition trial_on (sep : bool) (S T : vec) (k : Z) (noise : vec) (t : rows * option vec) : Prop :=
  exists d d' imfs, run dec d (vadd S noise) T k = (Ok imfs, d') /\
    if sep then exists i tr, trend_of dec d' = Ok (i, tr) /\ t = (i, Some tr) else t = (imfs, None).

(** State of the generator after [i] draws, and the [i]-th draw. *)
Fixpoint gstate (c : eemd_config A) (scale : A) (n : nat) (i : nat) (g : G) : G :=
  match i with
  | O => g
  | S i' => gstate c scale n i' (snd (generate_noise gen c g scale n))
  end.
Definition draw (c : eemd_config A) (scale : A) (n : nat) (i : nat) (g : G) : res vec :=
  fst (generate_noise gen c (gstate c scale n i g) scale n).

Lemma trial_update_spec c scale S T k st t st' :
  trial_update gen dec c scale S T k st = (Ok t, st') ->
  (exists noise, fst (generate_noise gen c (fst st) scale (length S)) = Ok noise /\
     trial_on (separate_trends c) S T k noise t) /\
  fst st' = snd (generate_noise gen c (fst st) scale (length S)).
Proof.
  unfold trial_update. destruct (generate_noise gen c (fst st) scale (length S)) as [[noise|e] g]; [|discriminate].
  destruct (run dec (snd st) (vadd S noise) T k) as [[imfs|e] d] eqn:E; [|discriminate].
  cbn [fst snd]. unfold trial_on. destruct (separate_trends c).
  - destruct (trend_of dec d) as [[i tr]|e] eqn:E2; [|discriminate]. intros X. injection X as <- <-.
    split; [|reflexivity]. exists noise. split; auto. exists (snd st), d, imfs. split; auto. exists i, tr. auto.
  - intros X. injection X as <- <-. split; [|reflexivity]. exists noise. split; auto.
    exists (snd st), d, imfs. auto.
Qed.

Lemma run_trials_nth c scale S T k n st ts x st' i t :
  run_trials (trial_update gen dec c scale S T k) n st = (ts, x, st') -> nth_error ts i = Some t ->
  exists noise, draw c scale (length S) i (fst st) = Ok noise /\
    trial_on (separate_trends c) S T k noise t.
Proof.
  revert st ts x st' i. induction n as [|n IH]; intros st ts x st' i; cbn [run_trials].
  - intros X. injection X as <- <- <-. destruct i; discriminate.
  - destruct (trial_update gen dec c scale S T k st) as [[t1|e] st1] eqn:Es.
    + destruct (run_trials _ n st1) as [[ts1 x1] st2] eqn:E. intros X. injection X as <- <- <-.
      destruct (trial_update_spec _ _ _ _ _ _ _ _ Es) as [(noise & E1 & E2) E3].
      destruct i as [|i]; cbn [nth_error].
      * intros X. injection X as <-. exists noise. auto.
      * intros Hi. destruct (IH _ _ _ _ _ E Hi) as (noise' & F1 & F2). exists noise'. split; auto.
        unfold draw in *. cbn [gstate]. rewrite <- E3. exact F1.
    + intros X. injection X as <- <- <-. destruct i; discriminate.
Qed.

Lemma run_trials_gstate c scale S T k n st ts st' :
  run_trials (trial_update gen dec c scale S T k) n st = (ts, None, st') ->
  fst st' = gstate c scale (length S) n (fst st).
Proof.
  revert st ts. induction n as [|n IH]; intros st ts; cbn [run_trials gstate].
  - intros X. injection X as <- <-. reflexivity.
  - destruct (trial_update gen dec c scale S T k st) as [[t1|e] st1] eqn:Es; [|discriminate].
    destruct (run_trials _ n st1) as [[ts1 x1] st2] eqn:E. intros X. injection X as <- -> <-.
    apply IH in E. rewrite E. apply trial_update_spec in Es as [_ ->]. reflexivity.
Qed.

Section Step.
Variable step : G * D -> res (@trial A) * (G * D).

Lemma run_trials_length n st ts st' : run_trials step n st = (ts, None, st') -> length ts = n.
Proof.
  revert st ts st'. induction n as [|n IH]; intros st ts st'; cbn [run_trials].
  - intros X. injection X as <- <-. reflexivity.
  - destruct (step st) as [[t|e] st1]; [|discriminate].
    destruct (run_trials step n st1) as [[ts1 x1] st2] eqn:E. intros X. injection X as <- -> <-.
    cbn. f_equal. eapply IH; eauto.
Qed.
(** A shorter serial run is a prefix of a longer one. *)
Lemma run_trials_prefix n m st ts st' : (m <= n)%nat -> run_trials step n st = (ts, None, st') ->
  exists st'', run_trials step m st = (firstn m ts, None, st'').
Proof.
  revert m st ts st'. induction n as [|n IH]; intros m st ts st' Hm.
  - replace m with O by lia. cbn. eauto.
  - destruct m as [|m]; [cbn; eauto|]. cbn [run_trials].
    destruct (step st) as [[t|e] st1]; [|discriminate].
    destruct (run_trials step n st1) as [[ts1 x1] st2] eqn:E. intros X. injection X as <- -> <-.
    destruct (IH m st1 ts1 st2 ltac:(lia) E) as (st'' & E2). rewrite E2. cbn [firstn]. eauto.
Qed.

Lemma chunk_lengths_spec fuel size n : 0 < size -> (Z.to_nat n <= fuel)%nat ->
  fold_right Nat.add O (chunk_lengths fuel size n) = Z.to_nat n /\
  (forall l, In l (chunk_lengths fuel size n) -> (0 < l <= Z.to_nat size)%nat).
Proof.
  intros Hs. revert n. induction fuel as [|fuel IH]; intros n Hn; cbn [chunk_lengths].
  - split; [cbn; lia|intros l []].
  - destruct (Z.leb_spec n 0); [split; [cbn; lia|intros l []]|].
    destruct (IH (n - size)) as [I1 I2]; [lia|]. cbn [fold_right In]. split; [lia|].
    intros l [<-|Hl]; [lia|auto].
Qed.

(** The results of a pool: chunk by chunk, prefixes of one and the same serial run. *)
Lemma pool_chunks_spec st lens ts :
  pool_chunks step st lens = (ts, None) ->
  exists parts, ts = concat parts /\
    Forall2 (fun n p => exists st', run_trials step n st = (p, None, st')) lens parts.
Proof.
  revert ts. induction lens as [|n lens IH]; intros ts; cbn [pool_chunks].
  - intros X. injection X as <-. exists []. split; auto.
  - destruct (run_trials step n st) as [[p [e|]] st'] eqn:E; [discriminate|].
    destruct (pool_chunks step st lens) as [ts' x'] eqn:E2. intros X. injection X as <- ->.
    destruct (IH ts' eq_refl) as (parts & -> & F). exists (p :: parts). split; auto. constructor; eauto.
Qed.

Lemma chunksize_pos n procs : 1 <= procs -> 0 < n -> 0 < chunksize n procs.
Proof.
  intros Hp Hn. unfold chunksize. assert (0 < procs * 4) by lia.
  pose proof (Z.div_pos n (procs * 4) ltac:(lia) ltac:(lia)).
  destruct (Z.eqb_spec (n mod (procs * 4)) 0) as [E|E]; [|lia].
  apply Z.mod_divide in E as [k Hk]; [|lia]. subst n. rewrite Z.div_mul by lia. nia.
Qed.

Lemma pool_map_length procs n st ts : pool_map procs step n st = (ts, None) -> length ts = Z.to_nat n.
Proof.
  unfold pool_map. destruct (Z.ltb_spec procs 1); [discriminate|]. intros E.
  apply pool_chunks_spec in E as (parts & -> & F).
  destruct (Z.leb_spec n 0) as [Hn|Hn].
  { replace (Z.to_nat n) with O in * by lia. cbn [chunk_lengths] in F. inversion F. reflexivity. }
  destruct (chunk_lengths_spec (Z.to_nat n) (chunksize n procs) n) as [S1 S2];
    [apply chunksize_pos; lia|lia|]. rewrite <- S1. clear - F.
  induction F as [|l p ls ps (st' & E) F IH]; [reflexivity|].
  cbn [concat fold_right]. rewrite app_length, IH. f_equal. eapply run_trials_length; eauto.
Qed.

(** The [i]-th result of a pool is the result number [i mod chunksize] of a serial run. *)
Lemma chunks_nth fuel size n st ts i t : 0 < size -> (Z.to_nat n <= fuel)%nat ->
  pool_chunks step st (chunk_lengths fuel size n) = (ts, None) -> nth_error ts (Z.to_nat i) = Some t ->
  0 <= i ->
  exists m ps st', run_trials step m st = (ps, None, st') /\ nth_error ps (Z.to_nat (i mod size)) = Some t.
Proof.
  intros Hs. revert n ts i. induction fuel as [|fuel IH]; intros n ts i Hn; cbn [chunk_lengths].
  - cbn. intros X. injection X as <-. destruct (Z.to_nat i); discriminate.
  - destruct (Z.leb_spec n 0).
    { cbn. intros X. injection X as <-. destruct (Z.to_nat i); discriminate. }
    cbn [pool_chunks]. destruct (run_trials step (Z.to_nat (Z.min size n)) st) as [[p [e|]] st'] eqn:E; [discriminate|].
    destruct (pool_chunks step st (chunk_lengths fuel size (n - size))) as [ts' x'] eqn:E2.
    intros X. injection X as <- ->. intros Hi Hi0.
    pose proof (run_trials_length _ _ _ _ E) as HL.
    destruct (Z.ltb_spec i size).
    + rewrite Z.mod_small by lia. destruct (Z.ltb_spec i n).
      * rewrite nth_error_app1 in Hi by lia. eauto 6.
      * exfalso. assert (X : ts' = []).
        { destruct fuel; cbn [chunk_lengths] in E2; [|destruct (Z.leb_spec (n - size) 0); [|lia]];
          cbn in E2; congruence. }
        subst ts'. rewrite app_nil_r in Hi. assert (Z.to_nat i < length p)%nat by (apply nth_error_Some; congruence). lia.
    + destruct (Z.leb_spec n size).
      { exfalso. assert (X : ts' = []).
        { destruct fuel; cbn [chunk_lengths] in E2; [|destruct (Z.leb_spec (n - size) 0); [|lia]];
          cbn in E2; congruence. }
        subst ts'. rewrite app_nil_r in Hi. assert (Z.to_nat i < length p)%nat by (apply nth_error_Some; congruence). lia. }
      rewrite nth_error_app2 in Hi by lia.
      replace (Z.to_nat i - length p)%nat with (Z.to_nat (i - size)) in Hi by lia.
      destruct (IH (n - size) ts' (i - size)) as (m & ps & st'' & F1 & F2); auto; try lia.
      exists m, ps, st''. split; auto. rewrite <- F2. f_equal. f_equal.
      rewrite <- (Z_mod_plus_full (i - size) 1 size). f_equal. lia.
Qed.
Lemma pool_map_nth procs n st ts i t : pool_map procs step n st = (ts, None) ->
  nth_error ts i = Some t ->
  exists m ps st', run_trials step m st = (ps, None, st') /\
    nth_error ps (Z.to_nat (Z.of_nat i mod chunksize n procs)) = Some t.
Proof.
  intros E Hi. pose proof (pool_map_length _ _ _ _ E) as HL.
  assert (i < length ts)%nat by (apply nth_error_Some; congruence).
  unfold pool_map in E. destruct (Z.ltb_spec procs 1); [discriminate|].
  rewrite <- (Nat2Z.id i) in Hi. eapply chunks_nth; eauto; try lia. apply chunksize_pos; lia.
Qed.
End Step.

(** Which draw of the generator trial number [i] uses. *)
Definition draw_index (c : eemd_config A) (i : nat) : nat :=
  if parallel c then Z.to_nat (Z.of_nat i mod chunksize (trials c) (processes c)) else i.

(** What a successful call of [eemd] leaves behind. *)
Lemma eemd_ok c o S T k E o' :
  eemd gen dec c o S T k = (Ok E, o') ->
  exists T' mx mn ts r, length ts = Z.to_nat (trials c) /\
    match T with Some t => T' = t | None => timeline (length S) = Ok T' end /\
    np_max S = Ok mx /\ np_min S = Ok mn /\
    (forall i t, nth_error ts i = Some t -> exists noise,
       draw c (nmul (noise_width c) (nabs (nsub mx mn))) (length S) (draw_index c i) (random o) = Ok noise /\
       trial_on (separate_trends c) S T' k noise t) /\
    all_imfs o' = rename_trend (collect ts) /\
    E = map (fun p => mean_rows (snd p)) (all_imfs o') /\
    Forall (fun p => exists n, shaped n (snd p)) (all_imfs o') /\
    E_IMF o' = Some E /\ e_residue o' = Some r /\ minus_rows S E = Ok r /\
    (if parallel c then random o' = random o /\ 1 <= processes c else
       random o' = gstate c (nmul (noise_width c) (nabs (nsub mx mn))) (length S) (Z.to_nat (trials c)) (random o)).
Proof.
  unfold eemd.
  assert (HT : forall x, (let! T0 := match T with Some t => Ok t | None => timeline (length S) end in
     let! mx := np_max S in let! mn := np_min S in
     Ok (T0, nmul (noise_width c) (nabs (nsub mx mn)))) = Ok x ->
     exists mx mn, match T with Some t => fst x = t | None => timeline (length S) = Ok (fst x) end /\
       np_max S = Ok mx /\ np_min S = Ok mn /\ snd x = nmul (noise_width c) (nabs (nsub mx mn))).
  { intros x Es. destruct T as [t|].
    - cbn [bind] in Es. destruct (np_max S) as [mx|]; [|discriminate]. destruct (np_min S) as [mn|]; [|discriminate].
      cbn [bind] in Es. injection Es as <-. exists mx, mn. auto.
    - destruct (timeline (length S)) as [t|]; [|discriminate]. cbn [bind] in Es.
      destruct (np_max S) as [mx|]; [|discriminate]. destruct (np_min S) as [mn|]; [|discriminate].
      cbn [bind] in Es. injection Es as <-. exists mx, mn. auto. }
  destruct (let! T0 := match T with Some t => Ok t | None => timeline (length S) end in _) as [[T' scale]|e]; [|discriminate].
  destruct (HT _ eq_refl) as (mx & mn & HT1 & HT2 & HT3 & HT4). clear HT. cbn [fst snd] in *. subst scale.
  set (scale := nmul (noise_width c) (nabs (nsub mx mn))).
  set (step := trial_update gen dec c scale S T' k).
  set (R := if parallel c then _ else _).
  assert (HR : forall ts st, R = (ts, None, st) -> length ts = Z.to_nat (trials c) /\
     (forall i t, nth_error ts i = Some t -> exists noise,
       draw c scale (length S) (draw_index c i) (random o) = Ok noise /\
       trial_on (separate_trends c) S T' k noise t) /\ (if parallel c then fst st = random o /\ 1 <= processes c else fst st = gstate c scale (length S) (Z.to_nat (trials c)) (random o))).
  { intros ts st HR. unfold R in HR. unfold draw_index. destruct (parallel c).
    - destruct (pool_map (processes c) step (trials c) (random o, inner o)) as [ts1 x1] eqn:Ep.
      injection HR as <- -> <-. split; [eapply pool_map_length; eauto|].
      split; [|split; [auto|unfold pool_map in Ep; destruct (Z.ltb_spec (processes c) 1); [discriminate|auto]]].
      intros i t Hi. destruct (pool_map_nth _ _ _ _ _ _ _ Ep Hi) as (m & ps & st' & F1 & F2).
      destruct (run_trials_nth _ _ _ _ _ _ _ _ _ _ _ _ F1 F2) as (noise & N1 & N2). eauto.
    - split; [eapply run_trials_length; eauto|]. split; [|eapply (run_trials_gstate c scale S T' k _ (random o, inner o)); eauto].
      intros i t Hi. destruct (run_trials_nth _ _ _ _ _ _ _ _ _ _ _ _ HR Hi) as (noise & N1 & N2). eauto. }
  destruct R as [[ts [e|]] st]; [discriminate|]. destruct (HR ts st eq_refl) as (H1 & H2 & H3). clear HR.
  cbn [all_imfs random inner E_IMF e_residue].
  destruct (mapM _ _) as [dd|] eqn:Em; [|discriminate].
  destruct (ensemble_mean _) as [E1|] eqn:Ee; [|discriminate].
  destruct (minus_rows S E1) as [r|] eqn:Er; [|discriminate].
  intros X. injection X as <- <-. exists T', mx, mn, ts, r. cbn [all_imfs E_IMF e_residue random].
  repeat (split; [assumption|]). split; [reflexivity|]. split.
  { unfold ensemble_mean, np_array in Ee. destruct (map _ _) as [|x l]; [congruence|].
    destruct (forallb _ _); congruence. }
  split; [|auto].
  apply mapM_ok_iff in Em. clear - Em. induction Em as [|p q l m E F IH]; constructor; auto.
  unfold np_array in E. destruct (snd p) as [|x l'] eqn:Ep; [exists O; constructor|].
  destruct (forallb _ l') eqn:Ef; [|discriminate]. exists (length x). constructor; auto.
  apply Forall_forall. intros y Hy. rewrite forallb_forall in Ef. apply Ef in Hy.
  apply Nat.eqb_eq. auto.
Qed.

(** ** Results do not depend on the history of the inner object *)
Section Forget.
Hypothesis HF : forgetful dec.
Lemma trial_update_same c scale S T k g d1 d2 :
  fst (trial_update gen dec c scale S T k (g, d1)) = fst (trial_update gen dec c scale S T k (g, d2)) /\
  fst (snd (trial_update gen dec c scale S T k (g, d1))) = fst (snd (trial_update gen dec c scale S T k (g, d2))).
Proof.
  unfold trial_update. cbn [fst snd]. destruct (generate_noise _ _ _ _ _) as [[noise|e] g']; [|auto].
  destruct (HF d1 d2 (vadd S noise) T k) as [F1 F2].
  destruct (run dec d1 (vadd S noise) T k) as [r1 d1'].
  destruct (run dec d2 (vadd S noise) T k) as [r2 d2']. cbn [fst snd] in *. subst r2.
  destruct r1 as [imfs|e]; [|auto]. destruct (separate_trends c); [|auto].
  rewrite (F2 imfs eq_refl). destruct (trend_of dec d2') as [[i tr]|e]; auto.
Qed.
Lemma run_trials_same c scale S T k n g d1 d2 :
  let st1 := run_trials (trial_update gen dec c scale S T k) n (g, d1) in
  let st2 := run_trials (trial_update gen dec c scale S T k) n (g, d2) in
  fst st1 = fst st2 /\ fst (snd st1) = fst (snd st2).
Proof.
  cbv zeta. revert g d1 d2. induction n as [|n IH]; intros g d1 d2; [cbn; auto|]. cbn [run_trials].
  pose proof (trial_update_same c scale S T k g d1 d2) as [F1 F2].
  destruct (trial_update gen dec c scale S T k (g, d1)) as [r1 [g1 d1']].
  destruct (trial_update gen dec c scale S T k (g, d2)) as [r2 [g2 d2']]. cbn [fst snd] in *. subst.
  destruct r2 as [t|e]; [|auto]. destruct (IH g2 d1' d2') as [I1 I2].
  destruct (run_trials _ n (g2, d1')) as [[ts1 x1] st1].
  destruct (run_trials _ n (g2, d2')) as [[ts2 x2] st2]. cbn [fst snd] in *. injection I1 as -> ->. auto.
Qed.
Lemma pool_same c scale S T k lens g d1 d2 :
  pool_chunks (trial_update gen dec c scale S T k) (g, d1) lens =
  pool_chunks (trial_update gen dec c scale S T k) (g, d2) lens.
Proof.
  induction lens as [|n lens IH]; [reflexivity|]. cbn [pool_chunks].
  destruct (run_trials_same c scale S T k n g d1 d2) as [F _].
  destruct (run_trials _ n (g, d1)) as [[ts1 x1] st1].
  destruct (run_trials _ n (g, d2)) as [[ts2 x2] st2]. cbn [fst] in F. injection F as -> ->.
  rewrite IH. reflexivity.
Qed.
(** Two objects with the same generator state give the same result, and store the same. *)
Lemma eemd_same c o1 o2 S T k : random o1 = random o2 ->
  let x1 := eemd gen dec c o1 S T k in
  let x2 := eemd gen dec c o2 S T k in
  fst x1 = fst x2 /\ random (snd x1) = random (snd x2) /\
  (forall E, fst x1 = Ok E -> E_IMF (snd x1) = E_IMF (snd x2) /\
     e_residue (snd x1) = e_residue (snd x2) /\ all_imfs (snd x1) = all_imfs (snd x2)).
Proof.
  intros HG. cbv zeta. unfold eemd.
  destruct (bind _ _) as [[T' scale]|e]; [|cbn [fst snd]; split; [auto|split; [auto|discriminate]]].
  destruct (parallel c) eqn:Ep.
  - assert (X : pool_map (processes c) (trial_update gen dec c scale S T' k) (trials c) (random o1, inner o1) =
               pool_map (processes c) (trial_update gen dec c scale S T' k) (trials c) (random o2, inner o2)).
    { unfold pool_map. rewrite HG. destruct (processes c <? 1); auto. apply pool_same. }
    rewrite X. destruct (pool_map _ _ _ (random o2, inner o2)) as [ts [e|]]; cbn [fst snd all_imfs random].
    + split; [auto|split; [auto|discriminate]].
    + destruct (mapM _ _); [|cbn [fst snd random]; split; [auto|split; [auto|discriminate]]].
      destruct (ensemble_mean _); [|cbn [fst snd random]; split; [auto|split; [auto|discriminate]]].
      destruct (minus_rows _ _); cbn [fst snd random]; [|split; [auto|split; [auto|discriminate]]].
      split; [auto|]. split; [auto|]. intros E _. cbn. auto.
  - destruct (run_trials_same c scale S T' k (Z.to_nat (trials c)) (random o1) (inner o1) (inner o2)) as [F1 F2].
    rewrite HG in F1, F2 |- *.
    destruct (run_trials _ (Z.to_nat (trials c)) (random o2, inner o1)) as [[ts1 x1] [g1 d1]].
    destruct (run_trials _ (Z.to_nat (trials c)) (random o2, inner o2)) as [[ts2 x2] [g2 d2]].
    cbn [fst snd] in *. injection F1 as -> ->. subst g2.
    destruct x2 as [e|]; cbn [fst snd all_imfs random].
    + split; [auto|split; [auto|discriminate]].
    + destruct (mapM _ _); [|cbn [fst snd random]; split; [auto|split; [auto|discriminate]]].
      destruct (ensemble_mean _); [|cbn [fst snd random]; split; [auto|split; [auto|discriminate]]].
      destruct (minus_rows _ _); cbn [fst snd random]; [|split; [auto|split; [auto|discriminate]]].
      split; [auto|]. split; [auto|]. intros E _. cbn. auto.
Qed.
End Forget.
End Trials.

Lemma emd_forgetful {A} `{Num A} spl fuel (c : emd_config A) : forgetful (emd_decomposer spl fuel c).
Proof.
  intros d1 d2 S T k. cbn [run trend_of emd_decomposer]. unfold emd_call.
  destruct (emd spl fuel c S (Some T) k); cbn [fst snd]; split; auto. discriminate.
Qed.
