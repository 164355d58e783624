(** * EemdThreadsProofs: a call that is not disturbed is [eemd]; calls that take turns are calls in a row. *)
From Verif Require Import PyFacts EemdThreads EemdThreadsSpec.
From Coq Require Import ZifyBool ZifyNat Lia.
Open Scope Z_scope.

Section Proofs.
Context {A : Type} `{Num A}.
Context {G D : Type}.
Variable gen : generator A G.
Variable dec : decomposer A D.
Variable c : eemd_config A.
Notation attributes := (attributes A G D).
Notation plain := (map (fun p : Z * cell A => (fst p, cell_rows (snd p)))).

(** ** A call alone *)
Fixpoint solo {R} (p : prog A G D R) (a : attributes) : res R * attributes :=
  match p with
  | Ret r => (r, a)
  | Do w k => solo (k a) (w a)
  end.
Lemma solo_seq {R R'} (p : prog A G D R) (k : R -> prog A G D R') : forall a,
  solo (seqp p k) a = match solo p a with (Ok r, a') => solo (k r) a' | (Raise e, a') => (Raise e, a') end.
Proof. induction p as [[r|e]|w f IH]; intros a; cbn [seqp solo]; auto. Qed.

(** ** The dictionary *)
Lemma lookup_plain d k : dict_get (plain d) k = option_map cell_rows (lookup d k).
Proof. induction d as [|(k', x) d IH]; cbn; auto. destruct (k' =? k); auto. Qed.
Lemma assign_plain d k x : plain (assign d k x) = dict_set (plain d) k (cell_rows x).
Proof. induction d as [|(k', y) d IH]; cbn; auto. destruct (k' =? k); cbn; auto. rewrite IH. reflexivity. Qed.
Lemma without_plain d k : plain (without d k) = dict_del (plain d) k.
Proof. unfold without, dict_del. induction d as [|(k', y) d IH]; cbn; auto. destruct (k' =? k); cbn; auto. rewrite IH. reflexivity. Qed.
Lemma append_set (d : list (Z * list (list A))) k v :
  dict_append d k v = dict_set d k (match dict_get d k with Some l => l ++ [v] | None => [v] end).
Proof. induction d as [|(k', y) d IH]; cbn; auto. destruct (k' =? k); auto. rewrite IH. reflexivity. Qed.

Definition keys (d : list (Z * cell A)) : list Z := map fst d.
Lemma lookup_in (d : list (Z * cell A)) k x : lookup d k = Some x -> In (k, x) d.
Proof.
  induction d as [|(k', y) d IH]; cbn; [discriminate|]. destruct (Z.eqb_spec k' k); [intros E; injection E as <-; subst; auto|auto].
Qed.
Lemma keys_assign (d : list (Z * cell A)) k x : forall q, In q (keys (assign d k x)) -> q = k \/ In q (keys d).
Proof.
  induction d as [|(k', y) d IH]; cbn; intros q; [intuition|]. destruct (Z.eqb_spec k' k); cbn; [intuition|].
  intros [E|E]; [intuition|]. destruct (IH q E); intuition.
Qed.
Lemma nodup_assign (d : list (Z * cell A)) k x : NoDup (keys d) -> NoDup (keys (assign d k x)).
Proof.
  induction d as [|(k', y) d IH]; cbn; intros HN; [constructor; [intros []|constructor]|].
  inversion HN as [|? ? N1 N2]; subst. destruct (Z.eqb_spec k' k); cbn; [constructor; auto|].
  constructor; auto. intros C. apply keys_assign in C as [C|C]; auto.
Qed.
Lemma nodup_without (d : list (Z * cell A)) k : NoDup (keys d) -> NoDup (keys (without d k)).
Proof.
  unfold without. induction d as [|(k', y) d IH]; cbn; auto. intros HN. inversion HN as [|? ? N1 N2]; subst.
  destruct (k' =? k); cbn; auto. constructor; auto. intros C. apply N1. clear - C. unfold keys in *.
  apply in_map_iff in C as (p & E & C). apply filter_In in C as [C _]. apply in_map_iff. eauto.
Qed.
Definition listed (d : list (Z * cell A)) : Prop := forall k x, In (k, x) d -> exists l, x = Listed l.
Lemma listed_assign (d : list (Z * cell A)) k l : listed d -> listed (assign d k (Listed l)).
Proof.
  induction d as [|(k', y) d IH]; cbn; intros HL; [intros q x [E|[]]; injection E as <- <-; eauto|].
  destruct (k' =? k); intros q x [E|E].
  - injection E as <- <-; eauto.
  - apply (HL q x). right; auto.
  - apply (HL q x). left; auto.
  - apply (IH ltac:(intros q' x' H'; apply (HL q' x'); right; auto) q x E).
Qed.

(** A dictionary in the course of the loop over the trials. *)
Definition open_dict (d : dictionary A) : Prop := defaulting d = true /\ listed (entries d) /\ NoDup (keys (entries d)).
Lemma append_open d k v : open_dict d -> exists d', append_to d k v = Ok d' /\ open_dict d' /\
  plain (entries d') = dict_append (plain (entries d)) k v.
Proof.
  intros (D1 & D2 & D3). unfold append_to. rewrite append_set, lookup_plain.
  destruct (lookup (entries d) k) as [x|] eqn:E; cbn [option_map].
  - destruct (D2 k x (lookup_in _ _ _ E)) as [l ->]. eexists. split; [reflexivity|]. cbn [defaulting entries].
    split; [split; [auto|split; [apply listed_assign; auto|apply nodup_assign; auto]]|]. rewrite assign_plain. reflexivity.
  - rewrite D1. eexists. split; [reflexivity|]. cbn [defaulting entries].
    split; [split; [auto|split; [apply listed_assign; auto|apply nodup_assign; auto]]|]. rewrite assign_plain. reflexivity.
Qed.
Lemma append_solo k v (a : attributes) : open_dict (at_all a) -> exists d', solo (append k v) a = (Ok tt, set_all d' a) /\ open_dict d' /\
  plain (entries d') = dict_append (plain (entries (at_all a))) k v.
Proof.
  intros HO. destruct (append_open _ k v HO) as (d' & E & HO' & HP). exists d'. split; auto.
  unfold append, act. cbn [solo]. rewrite E. reflexivity.
Qed.
Lemma append_all_solo l : forall k (a : attributes), open_dict (at_all a) -> exists d', solo (append_all k l) a = (Ok tt, set_all d' a) /\ open_dict d' /\
  plain (entries d') = enumerate_append k (plain (entries (at_all a))) l.
Proof.
  induction l as [|x l IH]; intros k a HO; cbn [append_all enumerate_append].
  - exists (at_all a). split; [destruct a; reflexivity|auto].
  - rewrite solo_seq. destruct (append_solo k x a HO) as (d1 & -> & HO1 & P1).
    destruct (IH (k + 1) (set_all d1 a) HO1) as (d2 & E2 & HO2 & P2). exists d2. split; [rewrite E2; destruct a; reflexivity|].
    split; auto. rewrite P2. cbn [at_all set_all]. rewrite P1. reflexivity.
Qed.

(** ** The trials *)
Hypothesis Hgen : gives_all gen.

Lemma noise_length g s n v : fst (generate_noise gen c g s n) = Ok v -> length v = n.
Proof.
  unfold generate_noise. destruct (noise_kind c); [| |discriminate].
  - pose proof (proj1 (Hgen g s n)) as L. destruct (normal gen g s n) as [u g']. cbn in *. congruence.
  - pose proof (proj2 (Hgen g s n) (ndiv (nopp s) n2) (ndiv s n2)) as L. destruct (uniform gen g _ _ n) as [u g']. cbn in *. congruence.
Qed.
Lemma trial_solo (a : attributes) : at_N a = length (at_S a) ->
  solo (one_trial gen dec c) a =
  let '(r, st) := trial_update gen dec c (at_scale a) (at_S a) (at_T a) (at_max a) (at_random a, at_inner a) in
  (r, set_inner (snd st) (set_random (fst st) a)).
Proof.
  intros HN. unfold one_trial, trial_update, see, act. cbn [seqp solo fst snd at_scale at_N].
  rewrite HN. pose proof (noise_length (at_random a) (at_scale a) (length (at_S a))) as NL.
  destruct (generate_noise gen c (at_random a) (at_scale a) (length (at_S a))) as [[noise|e] g]; cbn [fst snd seqp solo].
  2: destruct a; reflexivity.
  specialize (NL noise eq_refl). unfold broadcast2. cbn [at_S set_random]. rewrite NL, Nat.eqb_refl. cbn [seqp solo at_inner at_T at_max set_random].
  change (map2 nadd (at_S a) noise) with (vadd (at_S a) noise).
  destruct (run dec (at_inner a) (vadd (at_S a) noise) (at_T a) (at_max a)) as [[r|e] d]; cbn [fst snd seqp solo]; [|reflexivity].
  destruct (separate_trends c); cbn [seqp solo fst snd at_inner set_inner]; [|reflexivity].
  destruct (trend_of dec d) as [(i, tr)|e]; cbn [fst snd seqp solo]; reflexivity.
Qed.

Lemma trials_solo n : forall (a : attributes), at_N a = length (at_S a) -> open_dict (at_all a) ->
  exists d', let '(ts, x, st) := run_trials (trial_update gen dec c (at_scale a) (at_S a) (at_T a) (at_max a)) n (at_random a, at_inner a) in
  solo (trials_loop gen dec c n) a = (match x with None => Ok tt | Some e => Raise e end, set_all d' (set_inner (snd st) (set_random (fst st) a))) /\
  open_dict d' /\ plain (entries d') = fold_left collect_one ts (plain (entries (at_all a))).
Proof.
  induction n as [|n IH]; intros a HN HO; cbn [trials_loop run_trials].
  - exists (at_all a). split; [destruct a; reflexivity|auto].
  - rewrite solo_seq, (trial_solo a HN).
    destruct (trial_update gen dec c (at_scale a) (at_S a) (at_T a) (at_max a) (at_random a, at_inner a)) as [[t|e] (g, d)]; cbn [fst snd].
    2: exists (at_all a); split; [destruct a; reflexivity|auto].
    set (a1 := set_inner d (set_random g a)).
    assert (HO1 : open_dict (at_all a1)) by exact HO.
    rewrite solo_seq.
    assert (B : exists d2, solo (match snd t with Some v => append (-1) v | None => Ret (Ok tt) end) a1 = (Ok tt, set_all d2 a1) /\ open_dict d2 /\
      plain (entries d2) = match snd t with Some v => dict_append (plain (entries (at_all a))) (-1) v | None => plain (entries (at_all a)) end).
    { destruct (snd t) as [v|]; [exact (append_solo (-1) v a1 HO1)|]. exists (at_all a). split; [destruct a; reflexivity|auto]. }
    destruct B as (d2 & -> & HO2 & P2). rewrite solo_seq.
    destruct (append_all_solo (fst t) 0 (set_all d2 a1) HO2) as (d3 & -> & HO3 & P3).
    destruct (IH (set_all d3 (set_all d2 a1)) HN HO3) as (d4 & E4). exists d4.
    cbn [at_scale at_S at_T at_max at_random at_inner set_all a1 set_inner set_random] in E4.
    destruct (run_trials (trial_update gen dec c (at_scale a) (at_S a) (at_T a) (at_max a)) n (g, d)) as [[ts x] st].
    destruct E4 as (E4 & HO4 & P4). rewrite E4. split; [destruct a; reflexivity|]. split; auto.
    rewrite P4. cbn [fold_left at_all set_all]. f_equal. rewrite P3. unfold collect_one. cbn [at_all set_all]. rewrite P2. reflexivity.
Qed.

(** ** The arrays *)
Lemma np_array_same (l l' : list (list A)) : np_array l = Ok l' -> l' = l.
Proof. unfold np_array. destruct l; [congruence|]. destruct (forallb _ _); congruence. Qed.
Lemma lookup_mid (pre : list (Z * cell A)) k x post : ~ In k (keys pre) -> lookup (pre ++ (k, x) :: post) k = Some x.
Proof.
  induction pre as [|(k', y) pre IH]; cbn; intros HN; [rewrite Z.eqb_refl; auto|].
  destruct (Z.eqb_spec k' k); [exfalso; auto|]. apply IH. auto.
Qed.
Lemma assign_mid (pre : list (Z * cell A)) k x y post : ~ In k (keys pre) -> assign (pre ++ (k, x) :: post) k y = pre ++ (k, y) :: post.
Proof.
  induction pre as [|(k', z) pre IH]; cbn; intros HN; [rewrite Z.eqb_refl; auto|].
  destruct (Z.eqb_spec k' k); [exfalso; auto|]. rewrite IH; auto.
Qed.
Definition arrayed (d : list (Z * cell A)) : Prop := forall k x, In (k, x) d -> exists l, x = Arrayed l.
Lemma arrays_solo post : forall pre (a : attributes), entries (at_all a) = pre ++ post -> NoDup (keys (pre ++ post)) -> arrayed pre ->
  exists d', plain (entries d') = plain (pre ++ post) /\
  solo (arrays_loop (keys post)) a = (match mapM (fun p => np_array (snd p)) (plain post) with Ok _ => Ok tt | Raise e => Raise e end, set_all d' a) /\
  ((exists l, mapM (fun p => np_array (snd p)) (plain post) = Ok l) -> arrayed (entries d')).
Proof.
  induction post as [|(k, x) post IH]; intros pre a HE HN HA; cbn [keys map arrays_loop mapM fst snd].
  - exists (at_all a). rewrite HE. split; auto. split; [destruct a; reflexivity|]. intros _. rewrite app_nil_r. auto.
  - rewrite solo_seq. unfold act at 1. cbn [solo].
    assert (Hk : ~ In k (keys pre)).
    { unfold keys in *. rewrite map_app in HN. cbn [map fst] in HN. apply NoDup_remove_2 in HN. intros C. apply HN. apply in_or_app; auto. }
    unfold item. rewrite HE, (lookup_mid pre k x post Hk). cbn [fst snd].
    replace (set_all (at_all a) a) with a by (destruct a; reflexivity). rewrite solo_seq. cbn [solo].
    destruct (np_array (cell_rows x)) as [l|e] eqn:El; cbn [bind].
    2: { exists (at_all a). rewrite HE. split; auto. split; [destruct a; reflexivity|]. intros (q & C). discriminate. }
    rewrite solo_seq. unfold put at 1. cbn [solo]. rewrite HE, (assign_mid pre k x (Arrayed l) post Hk).
    destruct (IH (pre ++ [(k, Arrayed l)]) (set_all (MkDict (defaulting (at_all a)) (pre ++ (k, Arrayed l) :: post)) a)) as (d' & P & S & R).
    + cbn [at_all set_all entries]. rewrite <- app_assoc. reflexivity.
    + rewrite <- app_assoc. cbn [app]. unfold keys in *. rewrite map_app in *. exact HN.
    + intros q y Hq. apply in_app_or in Hq as [Hq|[Hq|[]]]; [eapply HA; eauto|]. injection Hq as <- <-. eauto.
    + exists d'. split; [rewrite P; rewrite <- app_assoc; cbn [app]; rewrite !map_app; cbn [map fst snd cell_rows]; rewrite (np_array_same _ _ El); reflexivity|].
      fold (keys post). rewrite S. split.
      * destruct (mapM _ (plain post)); cbn [bind]; destruct a; reflexivity.
      * intros (q & C). apply R. destruct (mapM _ (plain post)) as [l'|]; [eauto|discriminate].
Qed.
Lemma means_arrayed (d : dictionary A) : arrayed (entries d) -> means d = ensemble_mean (plain (entries d)).
Proof.
  intros HA. unfold means, ensemble_mean.
  assert (E : mapM (fun p => cell_mean (snd p)) (entries d) = Ok (map (fun p => mean_rows (snd p)) (plain (entries d)))).
  { revert HA. generalize (entries d) as l. induction l as [|(k, x) l IH]; intros HA; [reflexivity|]. cbn [mapM map fst snd].
    destruct (HA k x (or_introl eq_refl)) as [q ->]. cbn [cell_mean bind cell_rows].
    rewrite IH by (intros k' x' Hx; apply (HA k' x'); right; auto). reflexivity. }
  rewrite E. reflexivity.
Qed.

(** ** The call *)
Hypothesis Hserial : parallel c = false.
Lemma eemd_solo X T k (a : attributes) : 
  eemd gen dec c (object_of a) X T k = let '(r, a') := solo (eemd_prog gen dec c X T k) a in (r, object_of a').
Proof.
  unfold eemd, eemd_prog. rewrite Hserial.
  destruct (let! T := _ in _) as [(T', scale)|e]; [|destruct a; reflexivity].
  rewrite solo_seq. unfold put at 1. cbn [solo]. rewrite solo_seq. unfold put at 1. cbn [solo]. rewrite solo_seq. unfold put at 1. cbn [solo].
  rewrite solo_seq. unfold put at 1. cbn [solo]. rewrite solo_seq. unfold put at 1. cbn [solo]. rewrite solo_seq. unfold put at 1. cbn [solo].
  rewrite solo_seq.
  set (a1 := set_all (MkDict true []) _).
  assert (HO : open_dict (at_all a1)) by (split; [reflexivity|split; [intros q x []|constructor]]).
  destruct (trials_solo (Z.to_nat (trials c)) a1 eq_refl HO) as (d1 & HT).
  cbn [a1 at_scale at_S at_T at_max at_random at_inner set_all set_max set_scale set_N set_T set_S] in HT.
  cbn [random inner object_of].
  destruct (run_trials _ (Z.to_nat (trials c)) (at_random a, at_inner a)) as [[ts x] (g, dd)].
  cbn [fst snd] in *. destruct HT as (HT & (O1 & O2 & O3) & HP). fold a1 in HT. rewrite HT. clear HT.
  change (plain (entries (at_all a1))) with (@nil (Z * list (list A))) in HP. fold (collect ts) in HP.
  destruct x as [e|]; [rewrite <- HP; reflexivity|].
  rewrite solo_seq. unfold put at 1. cbn [solo]. rewrite solo_seq. unfold see at 1. cbn [solo at_all set_all entries]. rewrite solo_seq.
  set (a2 := set_all (MkDict false (entries d1)) _).
  (* the trend *)
  assert (HR : exists d2, solo (match lookup (entries d1) (-1) with
      | Some _ => seqp (act (fun a0 : attributes => match lookup (entries (at_all a0)) (-1) with
                         | Some y => (Ok y, set_all (MkDict (defaulting (at_all a0)) (without (entries (at_all a0)) (-1))) a0)
                         | None => (Raise KeyError, a0) end))
           (fun y => seqp (see (fun a0 => zlen (entries (at_all a0))))
           (fun n => put (fun a0 => set_all (MkDict (defaulting (at_all a0)) (assign (entries (at_all a0)) n y)) a0)))
      | None => Ret (Ok tt) end) a2 = (Ok tt, set_all (MkDict false d2) a2) /\ NoDup (keys d2) /\ plain d2 = rename_trend (collect ts)).
  { unfold rename_trend. rewrite <- HP, lookup_plain. destruct (lookup (entries d1) (-1)) as [y|] eqn:E; cbn [option_map].
    - rewrite solo_seq. unfold act. cbn [solo]. cbn [a2 at_all set_all entries]. rewrite E. cbn [fst snd]. rewrite solo_seq.
      unfold see, put. cbn [solo at_all set_all entries defaulting]. eexists. split; [reflexivity|]. split.
      + apply nodup_assign, nodup_without. exact O3.
      + rewrite assign_plain, without_plain. f_equal. unfold zlen. rewrite <- without_plain, map_length. reflexivity.
    - exists (entries d1). split; [reflexivity|]. split; auto. }
  destruct HR as (d2 & -> & N2 & P2).
  rewrite solo_seq. unfold see at 1. cbn [solo at_all set_all entries]. rewrite solo_seq. fold (keys d2).
  set (a3 := set_all (MkDict false d2) a2).
  destruct (arrays_solo d2 [] a3 eq_refl N2 ltac:(intros q y [])) as (d3 & P3 & S3 & R3). cbn [app] in P3. rewrite S3, P2. rewrite P2 in P3, R3. clear S3.
  cbn [all_imfs].
  destruct (mapM _ (rename_trend (collect ts))) as [q|e] eqn:EM; [|rewrite <- P3; reflexivity].
  specialize (R3 (ex_intro _ q eq_refl)).
  rewrite solo_seq. unfold act at 1. cbn [solo at_all set_all fst snd]. rewrite (means_arrayed d3 R3), P3.
  destruct (ensemble_mean (rename_trend (collect ts))) as [E|e]; cbn [fst snd]; [|rewrite <- P3; reflexivity].
  rewrite solo_seq. unfold put at 1. cbn [solo]. rewrite solo_seq. unfold see at 1. cbn [solo at_E set_E]. rewrite solo_seq. cbn [solo].
  destruct (minus_rows X E) as [r|e]; [|rewrite <- P3; reflexivity].
  rewrite solo_seq. unfold put at 1. cbn [solo]. rewrite solo_seq. unfold see at 1. cbn [solo at_E set_E set_residue fst snd].
  rewrite <- P3; reflexivity.
Qed.

(** ** Threads *)
Notation world := (world A G D).
Notation tick := (tick gen dec c).

Lemma put_at_same {X} (l : list X) i x y : nth_error l i = Some y -> nth_error (put_at l i x) i = Some x.
Proof. revert i. induction l as [|z l IH]; intros [|i]; cbn; try discriminate; auto. Qed.
Lemma put_at_other {X} (l : list X) i j x : i <> j -> nth_error (put_at l i x) j = nth_error l j.
Proof. revert i j. induction l as [|z l IH]; intros [|i] [|j] Hij; cbn; auto; congruence. Qed.
Lemma outcomes_app o l j : outcomes gen dec c o (l ++ [j]) =
  outcomes gen dec c o l ++ [fst (eemd gen dec c (afterwards gen dec c o l) (c_S j) (c_T j) (c_max j))].
Proof.
  revert o. induction l as [|i l IH]; intros o; cbn [outcomes afterwards app].
  - destruct (eemd gen dec c o (c_S j) (c_T j) (c_max j)); reflexivity.
  - destruct (eemd gen dec c o (c_S i) (c_T i) (c_max i)) as [r o'] eqn:E. cbn [snd]. rewrite IH. reflexivity.
Qed.
Lemma afterwards_app o l j : afterwards gen dec c o (l ++ [j]) =
  snd (eemd gen dec c (afterwards gen dec c o l) (c_S j) (c_T j) (c_max j)).
Proof. revert o. induction l as [|i l IH]; intros o; cbn [afterwards app]; auto. Qed.

Definition calls (w : world) : list (call A) := map (fun x => snd (fst x)) (w_log w).
Definition replies (w : world) : list (res (list (list A))) := map snd (w_log w).

(** [a1] is the object as the last completed call left it. *)
Definition in_row (o : eemd_state A G D) (w : world) : Prop := exists a1,
  replies w = outcomes gen dec c o (calls w) /\ object_of a1 = afterwards gen dec c o (calls w) /\
  ((forall i t, nth_error (w_threads w) i = Some t -> current t = None) /\ w_attrs w = a1 \/
   exists i t j p, nth_error (w_threads w) i = Some t /\ current t = Some (j, p) /\
     (forall i' t', i' <> i -> nth_error (w_threads w) i' = Some t' -> current t' = None) /\
     solo p (w_attrs w) = solo (eemd_prog gen dec c (c_S j) (c_T j) (c_max j)) a1).

Lemma logged o w a1 j r a2 : replies w = outcomes gen dec c o (calls w) -> object_of a1 = afterwards gen dec c o (calls w) ->
  solo (eemd_prog gen dec c (c_S j) (c_T j) (c_max j)) a1 = (r, a2) ->
  replies w ++ [r] = outcomes gen dec c o (calls w ++ [j]) /\ object_of a2 = afterwards gen dec c o (calls w ++ [j]).
Proof.
  intros H1 H2 HS. rewrite outcomes_app, afterwards_app, <- H2, H1, (eemd_solo (c_S j) (c_T j) (c_max j) a1), HS. split; reflexivity.
Qed.

(** A thread goes on, or ends its call, while no other is in one. *)
Lemma continue_row o w i t l a j p a1 :
  nth_error (w_threads w) i = Some t ->
  (forall i' t', i' <> i -> nth_error (w_threads w) i' = Some t' -> current t' = None) ->
  replies w = outcomes gen dec c o (calls w) -> object_of a1 = afterwards gen dec c o (calls w) ->
  solo p a = solo (eemd_prog gen dec c (c_S j) (c_T j) (c_max j)) a1 ->
  in_row o (continue w i l a j p).
Proof.
  intros Hi Ho H1 H2 HS. destruct p as [r|f k]; cbn [continue].
  - cbn [solo] in HS. destruct (logged o w a1 j r a H1 H2 (eq_sym HS)) as [L1 L2]. exists a.
    unfold replies, calls. cbn [w_log w_threads w_attrs]. rewrite !map_app. cbn [map fst snd]. split; [exact L1|]. split; [exact L2|].
    left. split; auto. intros i' t' Hn. destruct (Nat.eq_dec i i') as [<-|N].
    + rewrite (put_at_same _ _ _ _ Hi) in Hn. injection Hn as <-. reflexivity.
    + rewrite (put_at_other _ _ _ _ N) in Hn. eapply Ho; eauto.
  - exists a1. split; [exact H1|]. split; [exact H2|]. right. cbn [w_threads w_attrs].
    exists i, (MkThread l (Some (j, Do f k))), j, (Do f k). split; [eapply put_at_same; eauto|]. split; auto. split; auto.
    intros i' t' N Hn. rewrite put_at_other in Hn by auto. eapply Ho; eauto.
Qed.

Lemma tick_row o w i : in_row o w -> one_busy (tick w i) -> in_row o (tick w i).
Proof.
  intros (a1 & H1 & H2 & HB) H1b. unfold EemdThreads.tick in *.
  destruct (nth_error (w_threads w) i) as [t|] eqn:Hi; [|exists a1; auto].
  destruct HB as [[HB HA]|(i0 & t0 & j0 & p0 & Hi0 & Hc0 & Hot & HS)].
  - rewrite (HB i t Hi) in *. destruct (todo t) as [|j l]; [exists a1; auto|]. subst a1.
    eapply continue_row; eauto.
  - destruct (Nat.eq_dec i i0) as [->|N].
    + rewrite Hi0 in Hi. injection Hi as <-. rewrite Hc0 in *. destruct p0 as [r|f k]; eapply continue_row; eauto.
    + rewrite (Hot i t N Hi) in *. destruct (todo t) as [|j l]; [exists a1; split; auto; split; auto; right; exists i0, t0, j0, p0; auto|].
      destruct (eemd_prog gen dec c (c_S j) (c_T j) (c_max j)) as [r|f k] eqn:Ep; cbn [continue] in *.
      * (* a call that raises at once *)
        assert (HSj : solo (eemd_prog gen dec c (c_S j) (c_T j) (c_max j)) a1 = (r, a1)) by (rewrite Ep; reflexivity).
        destruct (logged o w a1 j r a1 H1 H2 HSj) as [L1 L2]. exists a1. unfold replies, calls. cbn [w_log w_threads w_attrs].
        rewrite !map_app. cbn [map fst snd]. split; [exact L1|]. split; [exact L2|]. right. exists i0, t0, j0, p0.
        split; [rewrite put_at_other; auto|]. split; auto. split; auto. intros i' t' N' Hn. destruct (Nat.eq_dec i i') as [<-|N''].
        -- rewrite (put_at_same _ _ _ _ Hi) in Hn. injection Hn as <-. reflexivity.
        -- rewrite (put_at_other _ _ _ _ N'') in Hn. eapply Hot; eauto.
      * exfalso. apply N. apply (H1b i i0 (MkThread l (Some (j, Do f k))) t0); cbn [w_threads].
        -- eapply put_at_same; eauto.
        -- rewrite put_at_other; auto.
        -- discriminate.
        -- unfold busy. rewrite Hc0. discriminate.
Qed.
Lemma turns_row o s : forall w, in_row o w -> taking_turns gen dec c w s -> in_row o (run_threads gen dec c w s).
Proof.
  induction s as [|i s IH]; intros w HI HT; cbn [run_threads fold_left]; auto.
  destruct HT as [_ HT]. apply IH; auto. apply tick_row; auto. destruct s; apply HT.
Qed.
Lemma begin_row (a : attributes) jobs : in_row (object_of a) (begin a jobs).
Proof.
  exists a. split; [reflexivity|]. split; [reflexivity|]. left. split; [|reflexivity]. intros i t Hn. cbn [begin w_threads] in Hn.
  apply nth_error_In, in_map_iff in Hn as (l & <- & _). reflexivity.
Qed.
Theorem threads_turns (a : attributes) jobs s : taking_turns gen dec c (begin a jobs) s ->
  replies (run_threads gen dec c (begin a jobs) s) = outcomes gen dec c (object_of a) (calls (run_threads gen dec c (begin a jobs) s)) /\
  ((forall t, In t (w_threads (run_threads gen dec c (begin a jobs) s)) -> ~ busy t) ->
   object_of (w_attrs (run_threads gen dec c (begin a jobs) s)) = afterwards gen dec c (object_of a) (calls (run_threads gen dec c (begin a jobs) s))).
Proof.
  intros HT. destruct (turns_row _ s _ (begin_row a jobs) HT) as (a1 & H1 & H2 & HB). split; [exact H1|].
  intros HN. destruct HB as [[_ ->]|(i & t & j & p & Hi & Hc & _)]; [exact H2|]. exfalso. apply (HN t); [eapply nth_error_In; eauto|].
  unfold busy. rewrite Hc. discriminate.
Qed.
End Proofs.

(** ** Any schedule *)
Section Any.
Context {A : Type} `{Num A}.
Context {G D : Type}.
Variable gen : generator A G.
Variable dec : decomposer A D.
Variable c : eemd_config A.
Notation world := (world A G D).

Definition agenda (jobs : list (list (call A))) (w : world) : Prop :=
  length (w_threads w) = length jobs /\
  forall i t, nth_error (w_threads w) i = Some t -> nth_error jobs i = Some (completed w i ++ pending t).
Lemma put_at_length {X} (l : list X) i x : length (put_at l i x) = length l.
Proof. revert i. induction l as [|z l IH]; intros [|i]; cbn; auto. Qed.
Lemma continue_agenda jobs w i t l a j p : agenda jobs w -> nth_error (w_threads w) i = Some t -> pending t = j :: l ->
  agenda jobs (continue w i l a j p).
Proof.
  intros [HL HA] Hi Hp. pose proof (HA i t Hi) as Hj. rewrite Hp in Hj.
  destruct p as [r|f k]; cbn [continue]; split; cbn [w_threads]; try (rewrite put_at_length; exact HL); intros i' t' Hn.
  - unfold completed. cbn [w_log]. rewrite filter_app, map_app. cbn [filter fst snd].
    destruct (Nat.eq_dec i i') as [<-|N].
    + rewrite (put_at_same _ _ _ _ Hi) in Hn. injection Hn as <-. rewrite Nat.eqb_refl. cbn [map fst snd pending current todo]. rewrite <- app_assoc. exact Hj.
    + rewrite (put_at_other _ _ _ _ N) in Hn. rewrite (proj2 (Nat.eqb_neq i i') N). cbn [map]. rewrite app_nil_r. apply HA; auto.
  - unfold completed. cbn [w_log]. destruct (Nat.eq_dec i i') as [<-|N].
    + rewrite (put_at_same _ _ _ _ Hi) in Hn. injection Hn as <-. exact Hj.
    + rewrite (put_at_other _ _ _ _ N) in Hn. apply HA; auto.
Qed.
Lemma tick_agenda jobs w i : agenda jobs w -> agenda jobs (tick gen dec c w i).
Proof.
  intros HA. unfold tick. destruct (nth_error (w_threads w) i) as [t|] eqn:Hi; auto.
  destruct (current t) as [(j, [r|f k])|] eqn:Hc.
  - eapply continue_agenda; eauto. unfold pending. rewrite Hc. reflexivity.
  - eapply continue_agenda; eauto. unfold pending. rewrite Hc. reflexivity.
  - destruct (todo t) as [|j l] eqn:Ht; auto. eapply continue_agenda; eauto. unfold pending. rewrite Hc. exact Ht.
Qed.
Theorem threads_agenda a jobs s i t : nth_error (w_threads (run_threads gen dec c (begin a jobs) s)) i = Some t ->
  nth_error jobs i = Some (completed (run_threads gen dec c (begin a jobs) s) i ++ pending t).
Proof.
  assert (G0 : agenda jobs (begin a jobs)).
  { split; [apply map_length|]. intros i' t' Hn. cbn [begin w_threads] in Hn. rewrite nth_error_map in Hn.
    destruct (nth_error jobs i') as [l|]; [|discriminate]. injection Hn as <-. reflexivity. }
  assert (Gs : forall s w, agenda jobs w -> agenda jobs (run_threads gen dec c w s)).
  { clear. induction s as [|i s IH]; intros w HA; cbn; auto. apply IH, tick_agenda, HA. }
  apply (Gs s _ G0).
Qed.

(** A thread alone comes to an end, whatever the others did before. *)
Lemma finish_call (p : prog A G D (list (list A))) : forall w i t j, nth_error (w_threads w) i = Some t -> current t = Some (j, p) ->
  exists n t', nth_error (w_threads (run_threads gen dec c w (repeat i n))) i = Some t' /\ current t' = None /\ todo t' = todo t.
Proof.
  induction p as [r|f k IH]; intros w i t j Hi Hc.
  - exists 1%nat, (MkThread (todo t) None). cbn [repeat run_threads fold_left]. unfold tick. rewrite Hi, Hc. cbn [continue w_threads].
    rewrite (put_at_same _ _ _ _ Hi). auto.
  - destruct (k (w_attrs w)) as [r|f' k'] eqn:Ek.
    + exists 1%nat, (MkThread (todo t) None). cbn [repeat run_threads fold_left]. unfold tick. rewrite Hi, Hc, Ek. cbn [continue w_threads].
      rewrite (put_at_same _ _ _ _ Hi). auto.
    + destruct (IH (w_attrs w) (tick gen dec c w i) i (MkThread (todo t) (Some (j, k (w_attrs w)))) j) as (n & t' & H1 & H2 & H3).
      * unfold tick. rewrite Hi, Hc, Ek. cbn [continue w_threads]. rewrite (put_at_same _ _ _ _ Hi). reflexivity.
      * reflexivity.
      * exists (Datatypes.S n), t'. cbn [repeat run_threads fold_left]. auto.
Qed.
Lemma run_app w s s' : run_threads gen dec c w (s ++ s') = run_threads gen dec c (run_threads gen dec c w s) s'.
Proof. apply fold_left_app. Qed.
Lemma finish_idle l : forall w i t, nth_error (w_threads w) i = Some t -> current t = None -> todo t = l ->
  exists n t', nth_error (w_threads (run_threads gen dec c w (repeat i n))) i = Some t' /\ current t' = None /\ todo t' = [].
Proof.
  induction l as [|j l IH]; intros w i t Hi Hc Ht; [exists O, t; auto|].
  assert (B : exists n t', nth_error (w_threads (run_threads gen dec c w (repeat i n))) i = Some t' /\ current t' = None /\ todo t' = l).
  { destruct (eemd_prog gen dec c (c_S j) (c_T j) (c_max j)) as [r|f k] eqn:Ep.
    - exists 1%nat, (MkThread l None). cbn [repeat run_threads fold_left]. unfold tick. rewrite Hi, Hc, Ht, Ep. cbn [continue w_threads].
      rewrite (put_at_same _ _ _ _ Hi). auto.
    - assert (Hi' : nth_error (w_threads (tick gen dec c w i)) i = Some (MkThread l (Some (j, Do f k)))).
      { unfold tick. rewrite Hi, Hc, Ht, Ep. cbn [continue w_threads]. eapply put_at_same; eauto. }
      destruct (finish_call (Do f k) _ _ _ j Hi' eq_refl) as (n & t' & H1 & H2 & H3). exists (Datatypes.S n), t'. auto. }
  destruct B as (n & t1 & H1 & H2 & H3). destruct (IH _ _ _ H1 H2 H3) as (n' & t' & Q).
  exists (n + n')%nat, t'. rewrite repeat_app, run_app. exact Q.
Qed.
Theorem thread_finishes w i t : nth_error (w_threads w) i = Some t ->
  exists n t', nth_error (w_threads (run_threads gen dec c w (repeat i n))) i = Some t' /\ pending t' = [].
Proof.
  intros Hi. destruct (current t) as [(j, p)|] eqn:Hc.
  - destruct (finish_call p _ _ _ j Hi Hc) as (n & t1 & H1 & H2 & H3). destruct (finish_idle _ _ _ _ H1 H2 eq_refl) as (n' & t' & Q1 & Q2 & Q3).
    exists (n + n')%nat, t'. rewrite repeat_app, run_app. split; auto. unfold pending. rewrite Q2. exact Q3.
  - destruct (finish_idle _ _ _ _ Hi Hc eq_refl) as (n' & t' & Q1 & Q2 & Q3). exists n', t'. split; auto. unfold pending. rewrite Q2. exact Q3.
Qed.
End Any.
