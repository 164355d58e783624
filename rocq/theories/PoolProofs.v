(** * PoolProofs: which orders of completion a pool has, and what Pool.map returns for each. *)
From Verif Require Import PyFacts Pool PoolSpec.
From Coq Require Import List Permutation Lia Arith.
Import ListNotations.
Open Scope nat_scope.

(** ** Runs *)
Record pool_ok (procs n : nat) (s : pool) (m : nat) : Prop := MkPoolOk {
  po_le : m <= n;
  po_wait : waiting s = seq m (n - m);
  po_perm : Permutation (finished s ++ running s) (seq 0 m);
  po_busy : length (running s) <= procs;
  po_feas : forall k i, nth_error (finished s) k = Some i -> i < k + procs }.
Lemma pool_ok_start procs n : pool_ok procs n (pool_start n) 0.
Proof. split; cbn; try lia; auto. - f_equal. lia. - intros [|k] i; discriminate. Qed.
Lemma pool_ok_step procs n s s' m : pool_ok procs n s m -> pool_step procs s s' -> exists m', pool_ok procs n s' m'.
Proof.
  intros [H1 H2 H3 H4 H5] HS. destruct HS as [i q r f Hr|i q r1 r2 f]; cbn [waiting running finished] in *.
  - exists (S m). assert (Hm : m < n) by (destruct (Nat.eq_dec m n) as [->|]; [rewrite Nat.sub_diag in H2; discriminate|lia]).
    replace (n - m) with (S (n - S m)) in H2 by lia. cbn [seq] in H2. injection H2 as -> ->.
    split; cbn [waiting running finished]; auto; try lia.
    + replace (seq 0 (S m)) with (seq 0 m ++ [m]) by (rewrite seq_S; reflexivity). rewrite app_assoc. apply Permutation_app_tail. auto.
    + rewrite app_length. cbn. lia.
  - exists m. split; cbn [waiting running finished]; auto.
    + rewrite <- H3. rewrite <- app_assoc. apply Permutation_app_head. cbn [app]. apply Permutation_middle.
    + rewrite app_length in *. cbn in H4. lia.
    + intros k j Hk. destruct (Nat.lt_ge_cases k (length f)) as [L|L].
      * rewrite nth_error_app1 in Hk by auto. eauto.
      * rewrite nth_error_app2 in Hk by auto. destruct (k - length f) as [|d] eqn:Ed; [|destruct d; discriminate]. injection Hk as <-.
        assert (Hin : In i (seq 0 m)). { apply (Permutation_in _ H3). apply in_or_app. right. apply in_or_app. right. left. auto. }
        apply in_seq in Hin. apply Permutation_length in H3. rewrite seq_length, !app_length in H3. rewrite app_length in H4. cbn in *. lia.
Qed.
Lemma pool_ok_run procs n k s : pool_run procs k (pool_start n) s -> exists m, pool_ok procs n s m.
Proof.
  intros H. remember (pool_start n) as s0. induction H as [s|k s s' s'' H IH HS].
  - subst. exists 0. apply pool_ok_start.
  - destruct (IH Heqs0) as (m & Hm). eapply pool_ok_step; eauto.
Qed.

(** *** Every run goes on until all tasks are done, and ends *)
Lemma pool_progress procs n k s : 1 <= procs -> pool_run procs k (pool_start n) s -> over s \/ exists s', pool_step procs s s'.
Proof.
  intros Hp _. destruct s as [[|i q] [|j r] f].
  - left. split; auto.
  - right. exists (MkPool [] r (f ++ [j])). apply (Finish procs j [] [] r f).
  - right. eexists. apply Take. cbn. lia.
  - right. exists (MkPool (i :: q) r (f ++ [j])). apply (Finish procs j (i :: q) [] r f).
Qed.
Definition to_do (s : pool) : nat := 2 * length (waiting s) + length (running s).
Lemma step_to_do procs s s' : pool_step procs s s' -> to_do s = S (to_do s').
Proof. intros H. destruct H; unfold to_do; cbn [waiting running]; rewrite ?app_length; cbn [length]; lia. Qed.
Lemma run_to_do procs k s s' : pool_run procs k s s' -> to_do s = k + to_do s'.
Proof. intros H. induction H as [|k s s' s'' H IH HS]; [reflexivity|]. apply step_to_do in HS. lia. Qed.
Lemma run_length procs n k s : pool_run procs k (pool_start n) s -> k <= 2 * n /\ (over s <-> k = 2 * n).
Proof.
  intros H. apply run_to_do in H. unfold to_do at 1 in H. cbn [pool_start waiting running length] in H. rewrite seq_length in H.
  split; [lia|]. split.
  - intros [H1 H2]. unfold to_do in H. rewrite H1, H2 in H. cbn in H. lia.
  - intros ->. assert (H0 : to_do s = 0) by lia. unfold to_do in H0. destruct s as [q r f]. cbn in *. destruct q, r; cbn in H0; try lia. split; auto.
Qed.

(** *** The orders of completion *)
Lemma completes_feasible procs n f : completes procs n f -> feasible procs n f.
Proof.
  intros (k & H). apply pool_ok_run in H as (m & [H1 H2 H3 _ H5]). cbn [waiting running finished] in *.
  assert (m = n). { destruct (n - m) eqn:E; [lia|discriminate]. } subst m. rewrite app_nil_r in H3. split; auto.
Qed.
Lemma run_app procs k s s' : pool_run procs k s s' -> forall j s'', pool_run procs j s' s'' -> pool_run procs (j + k) s s''.
Proof. intros H j s'' H'. induction H' as [|j s1 s2 s3 H' IH HS]; [exact H|]. cbn [plus]. econstructor; [apply IH; exact H|exact HS]. Qed.
Lemma take_all procs : forall a q r f, length r + length a <= procs -> exists k, pool_run procs k (MkPool (a ++ q) r f) (MkPool q (r ++ a) f).
Proof.
  induction a as [|x a IH]; intros q r f H.
  - exists 0. rewrite app_nil_r. constructor.
  - cbn [length app] in *. destruct (IH q (r ++ [x]) f) as (k & Hk). { rewrite app_length. cbn. lia. }
    exists (k + 1). rewrite <- app_assoc in Hk. cbn [app] in Hk. eapply run_app; [|exact Hk]. econstructor; [constructor|]. apply Take. lia.
Qed.
Lemma seq_split a b c : a <= b <= c -> seq a (c - a) = seq a (b - a) ++ seq b (c - b).
Proof. intros H. replace (c - a) with ((b - a) + (c - b)) by lia. rewrite seq_app. f_equal. f_equal. lia. Qed.
(** After the first [length g] results, all workers busy: the rest of the order can be run. *)
Lemma feasible_rest procs n : 1 <= procs -> forall h g r, feasible procs n (g ++ h) ->
  Permutation (g ++ r) (seq 0 (Nat.min n (length g + procs))) ->
  exists k, pool_run procs k (MkPool (seq (Nat.min n (length g + procs)) (n - Nat.min n (length g + procs))) r g) (MkPool [] [] (g ++ h)).
Proof.
  intros Hp. induction h as [|i h IH]; intros g r [HP HF] Hr.
  - rewrite app_nil_r in *. assert (Lg : length g = n) by (apply Permutation_length in HP; rewrite seq_length in HP; auto).
    replace (Nat.min n (length g + procs)) with n in * by lia. rewrite Nat.sub_diag. cbn [seq].
    assert (r = []). { apply Permutation_length in Hr. rewrite app_length, seq_length in Hr. destruct r; auto. cbn in Hr. lia. }
    subst. exists 0. constructor.
  - set (m := Nat.min n (length g + procs)) in *.
    assert (Hi : i < length g + procs). { apply (HF (length g) i). rewrite nth_error_app2 by auto. rewrite Nat.sub_diag. reflexivity. }
    assert (Hn : i < n). { assert (In i (seq 0 n)) by (apply (Permutation_in _ HP); apply in_or_app; right; left; auto). apply in_seq in H. lia. }
    assert (ND : NoDup (g ++ i :: h)) by (eapply Permutation_NoDup; [symmetry; exact HP|apply seq_NoDup]).
    assert (Hir : In i r).
    { assert (H : In i (g ++ r)) by (apply (Permutation_in _ (Permutation_sym Hr)); apply in_seq; lia).
      apply in_app_or in H as [H|H]; auto. exfalso. apply NoDup_remove_2 in ND. apply ND. apply in_or_app. auto. }
    apply in_split in Hir as (r1 & r2 & ->).
    assert (LG : length (g ++ [i]) = S (length g)) by (rewrite app_length; cbn; lia).
    set (m' := Nat.min n (length (g ++ [i]) + procs)).
    assert (Hm : m <= m' <= n) by (unfold m, m'; lia).
    assert (Lr : length g + length (r1 ++ i :: r2) = m) by (apply Permutation_length in Hr; rewrite app_length, seq_length in Hr; auto).
    rewrite app_length in Lr. cbn [length] in Lr.
    destruct (take_all procs (seq m (m' - m)) (seq m' (n - m')) (r1 ++ r2) (g ++ [i])) as (k1 & K1).
    { rewrite seq_length, app_length. unfold m, m' in *. lia. }
    rewrite <- seq_split in K1 by auto.
    destruct (IH (g ++ [i]) ((r1 ++ r2) ++ seq m (m' - m))) as (k2 & K2).
    { rewrite <- app_assoc. split; auto. }
    { fold m'. replace (seq 0 m') with (seq 0 m ++ seq m (m' - m)) by (symmetry; replace m' with (m + (m' - m)) at 1 by lia; rewrite seq_app; reflexivity).
      rewrite app_assoc. apply Permutation_app_tail. rewrite <- Hr, <- app_assoc. apply Permutation_app_head. cbn [app]. apply Permutation_middle. }
    fold m' in K2. replace ((g ++ [i]) ++ h) with (g ++ i :: h) in K2 by (rewrite <- app_assoc; reflexivity).
    exists (k2 + (k1 + 1)). eapply run_app; [|exact K2]. eapply run_app; [|exact K1].
    econstructor; [constructor|]. apply Finish.
Qed.
Lemma feasible_completes procs n f : 1 <= procs -> feasible procs n f -> completes procs n f.
Proof.
  intros Hp HF.
  destruct (take_all procs (seq 0 (Nat.min n procs)) (seq (Nat.min n procs) (n - Nat.min n procs)) [] []) as (k1 & K1).
  { cbn. rewrite seq_length. lia. }
  replace (seq 0 (Nat.min n procs) ++ seq (Nat.min n procs) (n - Nat.min n procs)) with (seq 0 n) in K1.
  2:{ assert (E : Nat.min n procs + (n - Nat.min n procs) = n) by lia. rewrite <- E at 1. rewrite seq_app. reflexivity. }
  destruct (feasible_rest procs n Hp f [] (seq 0 (Nat.min n procs))) as (k2 & K2); [exact HF|cbn; reflexivity|].
  cbn [length plus app] in *. exists (k2 + k1). eapply run_app; [exact K1|exact K2].
Qed.
Theorem completes_iff procs n f : 1 <= procs -> (completes procs n f <-> feasible procs n f).
Proof. split; [apply completes_feasible|apply feasible_completes; auto]. Qed.

(** ** Pool.map *)
Definition value_of {X} (r : res (list X)) : list X := match r with Ok v => v | Raise _ => [] end.
Lemma perm_members f n : Permutation f (seq 0 n) -> (forall j, In j f <-> j < n) /\ length f = n.
Proof.
  intros H. split.
  - intros j. split; intros Hj.
    + apply (Permutation_in _ H) in Hj. apply in_seq in Hj. lia.
    + apply (Permutation_in _ (Permutation_sym H)). apply in_seq. lia.
  - apply Permutation_length in H. rewrite seq_length in H. auto.
Qed.
Section Map.
Context {X : Type}.
Variable outcome : nat -> res (list X).
Lemma set_piece_length (l : list (option (list X))) i v : length (set_piece l i v) = length l.
Proof. revert i. induction l as [|x l IH]; intros [|i]; cbn; auto. Qed.
Lemma set_piece_nth (l : list (option (list X))) i v j : i < length l -> nth j (set_piece l i v) None = if Nat.eqb j i then Some v else nth j l None.
Proof. revert i j. induction l as [|x l IH]; intros [|i] [|j] H; cbn [length set_piece nth Nat.eqb] in *; auto; try lia. apply IH. lia. Qed.
Lemma mr_left n f : length f <= n -> number_left (mr_after n outcome f) = n - length f.
Proof.
  unfold mr_after. induction f as [|i f IH] using rev_ind; intros H; [cbn; lia|]. rewrite fold_left_app. cbn [fold_left].
  rewrite app_length in *. cbn [length] in *. specialize (IH ltac:(lia)).
  set (m := fold_left _ f _) in *. unfold mr_set. destruct (outcome i), (stored m); cbn [number_left]; lia.
Qed.
(** While nothing fails, the pieces of the tasks that are done are in place. *)
Lemma mr_pieces n f : (forall j, In j f -> exists v, outcome j = Ok v) -> (forall j, In j f -> j < n) ->
  stored (mr_after n outcome f) = None /\ length (pieces (mr_after n outcome f)) = n /\
  forall j v, In j f -> outcome j = Ok v -> nth j (pieces (mr_after n outcome f)) None = Some v.
Proof.
  unfold mr_after. induction f as [|i f IH] using rev_ind; intros HO HB.
  - cbn. rewrite repeat_length. split; [auto|]. split; [auto|]. intros j v [].
  - rewrite fold_left_app. cbn [fold_left]. destruct IH as (I1 & I2 & I3); [intros; apply HO; apply in_or_app; auto|intros; apply HB; apply in_or_app; auto|].
    set (m := fold_left _ f _) in *. destruct (HO i) as (w & Hw); [apply in_or_app; right; left; auto|].
    unfold mr_set. rewrite Hw, I1. cbn [stored pieces]. split; auto. split; [rewrite set_piece_length; auto|].
    intros j v Hj Hv. rewrite set_piece_nth by (rewrite I2; apply HB; apply in_or_app; right; left; auto).
    destruct (Nat.eqb_spec j i) as [->|N]; [congruence|]. apply in_app_or in Hj as [Hj|[->|[]]]; [eauto|congruence].
Qed.
Lemma mr_stored m0 h e : stored m0 = Some e -> stored (fold_left (fun m i => mr_set m i (outcome i)) h m0) = Some e.
Proof.
  revert m0. induction h as [|i h IH]; intros m0 H; [auto|]. cbn [fold_left]. apply IH. unfold mr_set. rewrite H. destruct (outcome i); auto.
Qed.
Theorem map_all_ok n f : Permutation f (seq 0 n) -> (forall j, j < n -> exists v, outcome j = Ok v) ->
  mr_get (mr_after n outcome f) = Some (Ok (flat_map (fun j => value_of (outcome j)) (seq 0 n))).
Proof.
  intros HP HO. destruct (perm_members f n HP) as [HM HL].
  destruct (mr_pieces n f) as (I1 & I2 & I3); [intros; apply HO; apply HM; auto|intros; apply HM; auto|].
  unfold mr_get. rewrite mr_left by lia. rewrite HL, Nat.sub_diag, I1. do 2 f_equal.
  assert (E : pieces (mr_after n outcome f) = map (fun j => Some (value_of (outcome j))) (seq 0 n)).
  { apply (nth_ext _ _ None None); [rewrite map_length, seq_length; auto|]. intros j Hj. rewrite I2 in Hj.
    rewrite (nth_indep _ None (Some (value_of (outcome 0)))) by lia. 
    destruct (HO j Hj) as (v & Hv). rewrite (nth_indep _ (Some (value_of (outcome 0))) None) by lia. rewrite (I3 j v) by (auto; apply HM; auto).
    rewrite (nth_indep _ None ((fun j => Some (value_of (outcome j))) 0)) by (rewrite map_length, seq_length; auto).
    rewrite (map_nth (fun j => Some (value_of (outcome j))) (seq 0 n) 0). rewrite seq_nth by auto. cbn [plus]. rewrite Hv. reflexivity. }
  rewrite E. clear. generalize 0 as a. induction n as [|n IH]; intros a; [reflexivity|]. cbn [seq map flat_map]. f_equal. apply IH.
Qed.
Lemma run_count procs k s s' : pool_run procs k s s' ->
  length (waiting s') + length (running s') + length (finished s') = length (waiting s) + length (running s) + length (finished s).
Proof.
  induction 1 as [|k s s' s'' _ IH H]; auto. rewrite <- IH. destruct H; cbn [waiting running finished]; rewrite !app_length; cbn [length]; lia.
Qed.
Theorem map_waits procs n k s : pool_run procs k (pool_start n) s -> (mr_get (mr_after n outcome (finished s)) <> None <-> over s).
Proof.
  intros HR. apply run_count in HR. cbn [pool_start waiting running finished length] in HR. rewrite seq_length in HR.
  unfold mr_get. rewrite mr_left by lia. unfold over. destruct (waiting s) as [|x w]; destruct (running s) as [|y r]; cbn [length] in HR.
  - replace (n - length (finished s)) with 0 by lia. split; auto. discriminate.
  - destruct (n - length (finished s)) eqn:E; [lia|]. split; [congruence|intros [_ ?]; discriminate].
  - destruct (n - length (finished s)) eqn:E; [lia|]. split; [congruence|intros [? _]; discriminate].
  - destruct (n - length (finished s)) eqn:E; [lia|]. split; [congruence|intros [? _]; discriminate].
Qed.
Theorem map_fails n f i e : Permutation f (seq 0 n) -> fails_first outcome f i e -> mr_get (mr_after n outcome f) = Some (Raise e).
Proof.
  intros HP (He & g & h & E & Hg). destruct (perm_members f n HP) as [HM HL].
  unfold mr_get. rewrite mr_left by lia. rewrite HL, Nat.sub_diag.
  assert (HS : stored (mr_after n outcome f) = Some e); [|rewrite HS; reflexivity].
  rewrite E. unfold mr_after. rewrite fold_left_app. cbn [fold_left]. apply mr_stored.
  destruct (mr_pieces n g) as (I1 & _); auto.
  { intros j Hj. apply HM. rewrite E. apply in_or_app. auto. }
  unfold mr_after in I1. set (m := fold_left _ g _) in *. unfold mr_set. rewrite He, I1. reflexivity.
Qed.
End Map.
Lemma fails_split {X} (outcome : nat -> res X) f : (forall j, In j f -> exists v, outcome j = Ok v) \/ exists i e, In i f /\ fails_first outcome f i e.
Proof.
  induction f as [|x f IH]; [left; intros j []|]. destruct (outcome x) as [v|e] eqn:E.
  - destruct IH as [IH|(i & e & Hin & He & g & h & -> & Hg)].
    + left. intros j [<-|Hj]; eauto.
    + right. exists i, e. split; [right; auto|]. split; auto. exists (x :: g), h. split; auto. intros j [<-|Hj]; eauto.
  - right. exists x, e. split; [left; auto|]. split; auto. exists [], f. split; auto. intros j [].
Qed.

(** ** Whose exception is reported *)
Section First.
Context {X : Type}.
Variable outcome : nat -> res X.
Lemma failing_iff j : failing outcome j = true <-> exists e, outcome j = Raise e.
Proof. unfold failing. destruct (outcome j); split; eauto; try discriminate. intros (x & H); discriminate. Qed.
Lemma not_failing j : failing outcome j = false <-> exists x, outcome j = Ok x.
Proof. unfold failing. destruct (outcome j); split; eauto; try discriminate. intros (x & H); discriminate. Qed.
Lemma first_failing_bound procs n k s : pool_run procs k (pool_start n) s ->
  forall i e, fails_first outcome (finished s) i e -> failures_before outcome i < procs.
Proof.
  intros H. remember (pool_start n) as s0. induction H as [s|k s s' s'' H IH HS]; subst s.
  - intros i e (_ & g & h & E & _). destruct g; discriminate.
  - specialize (IH eq_refl). intros i e HF. destruct (pool_ok_run procs n k s' H) as (m & [P1 P2 P3 P4 P5]).
    destruct HS as [j q r f Hr|j q r1 r2 f]; cbn [waiting running finished] in *; [eauto|].
    destruct HF as (He & g & h & E & Hg).
    destruct (fails_split outcome f) as [Hok|(i' & e' & Hin & HF)].
    + (* the task that has just finished is the first to fail *)
      assert (Ei : j = i /\ h = [] /\ f = g).
      { destruct h as [|y h] using rev_ind.
        - apply app_inj_tail in E. destruct E; auto.
        - clear IHh. change (i :: h ++ [y]) with ((i :: h) ++ [y]) in E. rewrite app_assoc in E. apply app_inj_tail in E as [E _].
          exfalso. destruct (Hok i) as (x & Hx); [rewrite E; apply in_or_app; right; left; auto|]. congruence. }
      destruct Ei as (-> & -> & ->).
      assert (ND : NoDup (g ++ (r1 ++ i :: r2))) by (eapply Permutation_NoDup; [symmetry; exact P3|apply seq_NoDup]).
      assert (Him : i < m). { assert (In i (seq 0 m)) by (apply (Permutation_in _ P3); apply in_or_app; right; apply in_or_app; right; left; auto). apply in_seq in H0. lia. }
      assert (INC : incl (i :: filter (failing outcome) (seq 0 i)) (r1 ++ i :: r2)).
      { intros x [<-|Hx]; [apply in_or_app; right; left; auto|]. apply filter_In in Hx as [Hx Fx]. apply in_seq in Hx.
        assert (Hx' : In x (g ++ (r1 ++ i :: r2))) by (apply (Permutation_in _ (Permutation_sym P3)); apply in_seq; lia).
        apply in_app_or in Hx' as [Hx'|Hx']; auto. exfalso. destruct (Hok x Hx') as (w & Hw). apply failing_iff in Fx as (? & Fx). congruence. }
      apply NoDup_incl_length in INC.
      * cbn [length] in INC. unfold failures_before. lia.
      * constructor; [|apply NoDup_filter, seq_NoDup]. intros Hx. apply filter_In in Hx as [Hx _]. apply in_seq in Hx. lia.
    + assert (i' = i).
      { destruct HF as (He' & g' & h' & -> & Hg').
        destruct (Nat.lt_trichotomy (length g) (length g')) as [L|[L|L]].
        - exfalso. assert (Hi : nth_error (g' ++ i' :: h') (length g) = Some i).
          { assert (nth_error ((g' ++ i' :: h') ++ [j]) (length g) = Some i) by (rewrite E, nth_error_app2, Nat.sub_diag by auto; reflexivity).
            rewrite nth_error_app1 in H0; auto. rewrite app_length. lia. }
          rewrite nth_error_app1 in Hi by auto. apply nth_error_In in Hi. destruct (Hg' i Hi) as (w & Hw). congruence.
        - rewrite <- app_assoc in E. cbn [app] in E. assert (N1 : nth_error (g' ++ i' :: h' ++ [j]) (length g) = Some i) by (rewrite E, nth_error_app2, Nat.sub_diag by auto; reflexivity).
          rewrite L, nth_error_app2, Nat.sub_diag in N1 by auto. injection N1 as ->. reflexivity.
        - exfalso. rewrite <- app_assoc in E. cbn [app] in E. assert (Hi : nth_error (g ++ i :: h) (length g') = Some i') by (rewrite <- E, nth_error_app2, Nat.sub_diag by auto; reflexivity).
          rewrite nth_error_app1 in Hi by auto. apply nth_error_In in Hi. destruct (Hg i' Hi) as (w & Hw). congruence. }
      subst i'. exact (IH i e' HF).
Qed.

(** An order in which task [i] is the first to fail. *)
Definition ok_before i := filter (fun j => negb (failing outcome j)) (seq 0 i).
Definition bad_before i := filter (failing outcome) (seq 0 i).
Lemma filter_split {Y} (p : Y -> bool) l : Permutation (filter (fun x => negb (p x)) l ++ filter p l) l.
Proof.
  induction l as [|x l IH]; [constructor|]. cbn [filter]. destruct (p x); cbn [negb].
  - rewrite <- Permutation_middle. constructor. auto.
  - cbn [app]. constructor. auto.
Qed.
Lemma nth_filter_seq (p : nat -> bool) : forall n a k x, nth_error (filter p (seq a n)) k = Some x ->
  x = a + k + length (filter (fun j => negb (p j)) (seq a (x - a))) /\ a <= x < a + n.
Proof.
  induction n as [|n IH]; intros a k x H; [destruct k; discriminate|]. cbn [seq filter] in H. destruct (p a) eqn:E.
  - destruct k as [|k].
    + injection H as <-. rewrite Nat.sub_diag. cbn. lia.
    + cbn [nth_error] in H. apply IH in H as [H1 H2]. split; [|lia]. replace (x - a) with (S (x - S a)) by lia. cbn [seq filter]. rewrite E. cbn [negb]. lia.
  - apply IH in H as [H1 H2]. split; [|lia]. replace (x - a) with (S (x - S a)) by lia. cbn [seq filter]. rewrite E. cbn [negb length]. lia.
Qed.
Lemma filter_ext' {Y} (p q : Y -> bool) l : (forall x, p x = q x) -> filter p l = filter q l.
Proof. intros H. induction l as [|x l IH]; [auto|]. cbn. rewrite H, IH. auto. Qed.
Lemma filter_le {Y} (p : Y -> bool) l : length (filter p l) <= length l.
Proof. induction l as [|x l IH]; cbn; [lia|]. destruct (p x); cbn; lia. Qed.
Lemma failures_mono i j : i <= j -> failures_before outcome i <= failures_before outcome j.
Proof.
  intros H. unfold failures_before. replace j with (i + (j - i)) by lia. rewrite seq_app, filter_app, app_length. lia.
Qed.
Lemma first_failing_order procs n i e : i < n -> outcome i = Raise e -> failures_before outcome i < procs ->
  exists f, feasible procs n f /\ fails_first outcome f i e.
Proof.
  intros Hi He Hp. exists (ok_before i ++ i :: bad_before i ++ seq (S i) (n - S i)). split; [split|].
  - assert (Es : seq 0 n = seq 0 i ++ i :: seq (S i) (n - S i)).
    { replace n with (i + S (n - S i)) at 1 by lia. rewrite seq_app. reflexivity. }
    rewrite Es. transitivity ((ok_before i ++ bad_before i) ++ i :: seq (S i) (n - S i)).
    + rewrite <- app_assoc. apply Permutation_app_head. apply (Permutation_middle (bad_before i)).
    + apply Permutation_app_tail, filter_split.
  - intros k x Hx.
    assert (LO : length (ok_before i) + failures_before outcome i = i).
    { unfold ok_before, failures_before. pose proof (Permutation_length (filter_split (failing outcome) (seq 0 i))) as L. rewrite app_length, seq_length in L. lia. }
    destruct (Nat.lt_ge_cases k (length (ok_before i))) as [L|L].
    + rewrite nth_error_app1 in Hx by auto. apply nth_filter_seq in Hx as [H1 H2].
      rewrite (filter_ext' _ (failing outcome)) in H1 by (intros; apply Bool.negb_involutive). rewrite Nat.sub_0_r in H1. fold (failures_before outcome x) in H1.
      pose proof (failures_mono x i ltac:(lia)). lia.
    + rewrite nth_error_app2 in Hx by auto. destruct (k - length (ok_before i)) as [|d] eqn:Ed; cbn [nth_error] in Hx.
      * injection Hx as <-. lia.
      * destruct (Nat.lt_ge_cases d (length (bad_before i))) as [L2|L2].
        -- rewrite nth_error_app1 in Hx by auto. apply nth_error_In, filter_In in Hx as [Hx _]. apply in_seq in Hx.
           (* a failing task before i: its place is after i *)
           assert (x < i) by lia.
           assert (i - failures_before outcome i < k) by lia. lia.
        -- rewrite nth_error_app2 in Hx by auto. assert (Hs : nth_error (seq (S i) (n - S i)) (d - length (bad_before i)) = Some x) by auto.
           assert (HL : d - length (bad_before i) < n - S i) by (rewrite <- (seq_length (n - S i) (S i)); apply nth_error_Some; congruence).
           apply (nth_error_nth _ _ 0) in Hs. rewrite seq_nth in Hs by auto. unfold bad_before in *. fold (failures_before outcome i) in *. lia.
  - split; auto. exists (ok_before i), (bad_before i ++ seq (S i) (n - S i)). split; auto.
    intros j Hj. apply filter_In in Hj as [_ Hj]. apply not_failing. apply Bool.negb_true_iff in Hj. auto.
Qed.
End First.

(** Task [i]'s exception can be the one that is reported exactly if fewer than [procs] tasks before it fail. *)
Theorem reported_iff {X} (outcome : nat -> res X) procs n i e : 1 <= procs -> i < n -> outcome i = Raise e ->
  ((exists f, completes procs n f /\ fails_first outcome f i e) <-> failures_before outcome i < procs).
Proof.
  intros Hp Hi He. split.
  - intros (f & (k & HR) & HF). apply (first_failing_bound outcome procs n k (MkPool [] [] f) HR i e HF).
  - intros H. destruct (first_failing_order outcome procs n i e Hi He H) as (f & HF & HH). exists f. split; auto. apply feasible_completes; auto.
Qed.
