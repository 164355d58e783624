(** * StepsProofs: calls that take turns are calls in a row; under any schedule each thread makes its calls in order. *)
From Verif Require Import PyFacts Steps.
From Coq Require Import Lia.

Section Alone.
Context {St : Type}.
(** A call nobody disturbs. *)
Fixpoint unaided {R} (p : steps St R) (a : St) : res R * St :=
  match p with
  | Done r => (r, a)
  | Step w k => unaided (k a) (w a)
  end.
Lemma unaided_after {R R'} (p : steps St R) (k : R -> steps St R') : forall a,
  unaided (after p k) a = match unaided p a with (Ok r, a') => unaided (k r) a' | (Raise e, a') => (Raise e, a') end.
Proof. induction p as [[r|e]|w f IH]; intros a; cbn [after unaided]; auto. Qed.

(** Whatever is seen on the way, a result has property Q. *)
Fixpoint always {R} (Q : R -> Prop) (p : steps St R) : Prop :=
  match p with
  | Done (Ok r) => Q r
  | Done (Raise _) => True
  | Step _ k => forall a, always Q (k a)
  end.
Lemma always_after {R R'} (P : R -> Prop) (Q : R' -> Prop) (p : steps St R) (k : R -> steps St R') :
  always P p -> (forall r, P r -> always Q (k r)) -> always Q (after p k).
Proof. intros HP HK. induction p as [[r|e]|w f IH]; cbn [after always] in *; auto. Qed.
Lemma always_implied {R} (H : Prop) (Q : R -> Prop) (p : steps St R) : (H -> always Q p) -> always (fun r => H -> Q r) p.
Proof. induction p as [[r|e]|w f IH]; cbn [always]; auto. Qed.
Lemma always_true {R} (p : steps St R) : always (fun _ => True) p.
Proof. induction p as [[r|e]|w f IH]; cbn [always]; auto. Qed.
End Alone.

Section Threads.
Context {St J R O : Type}.
Variable method : J -> steps St R.
Notation office := (office St J R).
Notation turn := (turn method).
Notation run_all := (run_all method).

Lemma swap_in_same {X} (l : list X) i x y : nth_error l i = Some y -> nth_error (swap_in l i x) i = Some x.
Proof. revert i. induction l as [|z l IH]; intros [|i]; cbn; try discriminate; auto. Qed.
Lemma swap_in_other {X} (l : list X) i j x : i <> j -> nth_error (swap_in l i x) j = nth_error l j.
Proof. revert i j. induction l as [|z l IH]; intros [|i] [|j] Hij; cbn; auto; congruence. Qed.
Lemma swap_in_length {X} (l : list X) i x : length (swap_in l i x) = length l.
Proof. revert i. induction l as [|z l IH]; intros [|i]; cbn; auto. Qed.

Definition jobs_done (w : office) : list J := map (fun x => snd (fst x)) (o_log w).
Definition answers (w : office) : list (res R) := map snd (o_log w).

Section Row.
Variable effect : O -> J -> res R * O.
Variable view : St -> O.
Hypothesis alone : forall j a, let '(r, a') := unaided (method j) a in effect (view a) j = (r, view a').

Lemma results_app o l j : results_in_row effect o (l ++ [j]) = results_in_row effect o l ++ [fst (effect (object_after effect o l) j)].
Proof.
  revert o. induction l as [|i l IH]; intros o; cbn [results_in_row object_after app].
  - destruct (effect o j); reflexivity.
  - destruct (effect o i) as [r o'] eqn:E. cbn [snd]. rewrite IH. reflexivity.
Qed.
Lemma object_app o l j : object_after effect o (l ++ [j]) = snd (effect (object_after effect o l) j).
Proof. revert o. induction l as [|i l IH]; intros o; cbn [object_after app]; auto. Qed.

(** [a1] is the object as the last completed call left it. *)
Definition in_a_row (o : O) (w : office) : Prop := exists a1,
  answers w = results_in_row effect o (jobs_done w) /\ view a1 = object_after effect o (jobs_done w) /\
  ((forall i t, nth_error (o_workers w) i = Some t -> inside t = None) /\ o_state w = a1 \/
   exists i t j p, nth_error (o_workers w) i = Some t /\ inside t = Some (j, p) /\
     (forall i' t', i' <> i -> nth_error (o_workers w) i' = Some t' -> inside t' = None) /\
     unaided p (o_state w) = unaided (method j) a1).

Lemma noted o w a1 j r a2 : answers w = results_in_row effect o (jobs_done w) -> view a1 = object_after effect o (jobs_done w) ->
  unaided (method j) a1 = (r, a2) ->
  answers w ++ [r] = results_in_row effect o (jobs_done w ++ [j]) /\ view a2 = object_after effect o (jobs_done w ++ [j]).
Proof.
  intros H1 H2 HS. pose proof (alone j a1) as HA. rewrite HS in HA.
  rewrite results_app, object_app, <- H2, H1, HA. split; reflexivity.
Qed.

(** A thread goes on, or ends its call, while no other is in one. *)
Lemma proceed_row o w i t l a j p a1 :
  nth_error (o_workers w) i = Some t ->
  (forall i' t', i' <> i -> nth_error (o_workers w) i' = Some t' -> inside t' = None) ->
  answers w = results_in_row effect o (jobs_done w) -> view a1 = object_after effect o (jobs_done w) ->
  unaided p a = unaided (method j) a1 ->
  in_a_row o (proceed w i l a j p).
Proof.
  intros Hi Ho H1 H2 HS. destruct p as [r|f k]; cbn [proceed].
  - cbn [unaided] in HS. destruct (noted o w a1 j r a H1 H2 (eq_sym HS)) as [L1 L2]. exists a.
    unfold answers, jobs_done. cbn [o_log o_workers o_state]. rewrite !map_app. cbn [map fst snd]. split; [exact L1|]. split; [exact L2|].
    left. split; auto. intros i' t' Hn. destruct (Nat.eq_dec i i') as [<-|N].
    + rewrite (swap_in_same _ _ _ _ Hi) in Hn. injection Hn as <-. reflexivity.
    + rewrite (swap_in_other _ _ _ _ N) in Hn. eapply Ho; eauto.
  - exists a1. split; [exact H1|]. split; [exact H2|]. right. cbn [o_workers o_state].
    exists i, (MkWorker l (Some (j, Step f k))), j, (Step f k). split; [eapply swap_in_same; eauto|]. split; auto. split; auto.
    intros i' t' N Hn. rewrite swap_in_other in Hn by auto. eapply Ho; eauto.
Qed.

Lemma turn_row o w i : in_a_row o w -> one_engaged (turn w i) -> in_a_row o (turn w i).
Proof.
  intros (a1 & H1 & H2 & HB) H1b. unfold Steps.turn in *.
  destruct (nth_error (o_workers w) i) as [t|] eqn:Hi; [|exists a1; auto].
  destruct HB as [[HB HA]|(i0 & t0 & j0 & p0 & Hi0 & Hc0 & Hot & HS)].
  - rewrite (HB i t Hi) in *. destruct (ahead t) as [|j l]; [exists a1; auto|]. subst a1.
    eapply proceed_row; eauto.
  - destruct (Nat.eq_dec i i0) as [->|N].
    + rewrite Hi0 in Hi. injection Hi as <-. rewrite Hc0 in *. destruct p0 as [r|f k]; eapply proceed_row; eauto.
    + rewrite (Hot i t N Hi) in *. destruct (ahead t) as [|j l]; [exists a1; split; auto; split; auto; right; exists i0, t0, j0, p0; auto|].
      destruct (method j) as [r|f k] eqn:Ep; cbn [proceed] in *.
      * (* a call that raises at once *)
        assert (HSj : unaided (method j) a1 = (r, a1)) by (rewrite Ep; reflexivity).
        destruct (noted o w a1 j r a1 H1 H2 HSj) as [L1 L2]. exists a1. unfold answers, jobs_done. cbn [o_log o_workers o_state].
        rewrite !map_app. cbn [map fst snd]. split; [exact L1|]. split; [exact L2|]. right. exists i0, t0, j0, p0.
        split; [rewrite swap_in_other; auto|]. split; auto. split; auto. intros i' t' N' Hn. destruct (Nat.eq_dec i i') as [<-|N''].
        -- rewrite (swap_in_same _ _ _ _ Hi) in Hn. injection Hn as <-. reflexivity.
        -- rewrite (swap_in_other _ _ _ _ N'') in Hn. eapply Hot; eauto.
      * exfalso. apply N. apply (H1b i i0 (MkWorker l (Some (j, Step f k))) t0); cbn [o_workers].
        -- eapply swap_in_same; eauto.
        -- rewrite swap_in_other; auto.
        -- discriminate.
        -- unfold engaged. rewrite Hc0. discriminate.
Qed.
Lemma turns_in_row o s : forall w, in_a_row o w -> in_turns method w s -> in_a_row o (run_all w s).
Proof.
  induction s as [|i s IH]; intros w HI HT; cbn [Steps.run_all fold_left]; auto.
  destruct HT as [_ HT]. apply IH; auto. apply turn_row; auto. destruct s; apply HT.
Qed.
Lemma opening_row a jobs : in_a_row (view a) (opening a jobs).
Proof.
  exists a. split; [reflexivity|]. split; [reflexivity|]. left. split; [|reflexivity]. intros i t Hn. cbn [opening o_workers] in Hn.
  apply nth_error_In, in_map_iff in Hn as (l & <- & _). reflexivity.
Qed.
Theorem workers_turns a jobs s : in_turns method (opening a jobs) s ->
  answers (run_all (opening a jobs) s) = results_in_row effect (view a) (jobs_done (run_all (opening a jobs) s)) /\
  ((forall t, In t (o_workers (run_all (opening a jobs) s)) -> ~ engaged t) ->
   view (o_state (run_all (opening a jobs) s)) = object_after effect (view a) (jobs_done (run_all (opening a jobs) s))).
Proof.
  intros HT. destruct (turns_in_row _ s _ (opening_row a jobs) HT) as (a1 & H1 & H2 & HB). split; [exact H1|].
  intros HN. destruct HB as [[_ ->]|(i & t & j & p & Hi & Hc & _)]; [exact H2|]. exfalso. apply (HN t); [eapply nth_error_In; eauto|].
  unfold engaged. rewrite Hc. discriminate.
Qed.
End Row.

(** ** Any schedule *)
Definition plan (jobs : list (list J)) (w : office) : Prop :=
  length (o_workers w) = length jobs /\
  forall i t, nth_error (o_workers w) i = Some t -> nth_error jobs i = Some (finished_by w i ++ unfinished t).
Lemma proceed_plan jobs w i t l a j p : plan jobs w -> nth_error (o_workers w) i = Some t -> unfinished t = j :: l ->
  plan jobs (proceed w i l a j p).
Proof.
  intros [HL HA] Hi Hp. pose proof (HA i t Hi) as Hj. rewrite Hp in Hj.
  destruct p as [r|f k]; cbn [proceed]; split; cbn [o_workers]; try (rewrite swap_in_length; exact HL); intros i' t' Hn.
  - unfold finished_by. cbn [o_log]. rewrite filter_app, map_app. cbn [filter fst snd].
    destruct (Nat.eq_dec i i') as [<-|N].
    + rewrite (swap_in_same _ _ _ _ Hi) in Hn. injection Hn as <-. rewrite Nat.eqb_refl. cbn [map fst snd unfinished inside ahead]. rewrite <- app_assoc. exact Hj.
    + rewrite (swap_in_other _ _ _ _ N) in Hn. rewrite (proj2 (Nat.eqb_neq i i') N). cbn [map]. rewrite app_nil_r. apply HA; auto.
  - unfold finished_by. cbn [o_log]. destruct (Nat.eq_dec i i') as [<-|N].
    + rewrite (swap_in_same _ _ _ _ Hi) in Hn. injection Hn as <-. exact Hj.
    + rewrite (swap_in_other _ _ _ _ N) in Hn. apply HA; auto.
Qed.
Lemma turn_plan jobs w i : plan jobs w -> plan jobs (turn w i).
Proof.
  intros HA. unfold Steps.turn. destruct (nth_error (o_workers w) i) as [t|] eqn:Hi; auto.
  destruct (inside t) as [(j, [r|f k])|] eqn:Hc.
  - eapply proceed_plan; eauto. unfold unfinished. rewrite Hc. reflexivity.
  - eapply proceed_plan; eauto. unfold unfinished. rewrite Hc. reflexivity.
  - destruct (ahead t) as [|j l] eqn:Ht; auto. eapply proceed_plan; eauto. unfold unfinished. rewrite Hc. exact Ht.
Qed.
Theorem workers_plan a jobs s i t : nth_error (o_workers (run_all (opening a jobs) s)) i = Some t ->
  nth_error jobs i = Some (finished_by (run_all (opening a jobs) s) i ++ unfinished t).
Proof.
  assert (G0 : plan jobs (opening a jobs)).
  { split; [apply map_length|]. intros i' t' Hn. cbn [opening o_workers] in Hn. rewrite nth_error_map in Hn.
    destruct (nth_error jobs i') as [l|]; [|discriminate]. injection Hn as <-. reflexivity. }
  assert (Gs : forall s w, plan jobs w -> plan jobs (run_all w s)).
  { clear. induction s as [|i s IH]; intros w HA; cbn; auto. apply IH, turn_plan, HA. }
  apply (Gs s _ G0).
Qed.

(** A thread alone comes to an end, whatever the others did before. *)
Lemma end_call (p : steps St R) : forall w i t j, nth_error (o_workers w) i = Some t -> inside t = Some (j, p) ->
  exists n t', nth_error (o_workers (run_all w (repeat i n))) i = Some t' /\ inside t' = None /\ ahead t' = ahead t.
Proof.
  induction p as [r|f k IH]; intros w i t j Hi Hc.
  - exists 1%nat, (MkWorker (ahead t) None). cbn [repeat Steps.run_all fold_left]. unfold Steps.turn. rewrite Hi, Hc. cbn [proceed o_workers].
    rewrite (swap_in_same _ _ _ _ Hi). auto.
  - destruct (k (o_state w)) as [r|f' k'] eqn:Ek.
    + exists 1%nat, (MkWorker (ahead t) None). cbn [repeat Steps.run_all fold_left]. unfold Steps.turn. rewrite Hi, Hc, Ek. cbn [proceed o_workers].
      rewrite (swap_in_same _ _ _ _ Hi). auto.
    + destruct (IH (o_state w) (turn w i) i (MkWorker (ahead t) (Some (j, k (o_state w)))) j) as (n & t' & H1 & H2 & H3).
      * unfold Steps.turn. rewrite Hi, Hc, Ek. cbn [proceed o_workers]. rewrite (swap_in_same _ _ _ _ Hi). reflexivity.
      * reflexivity.
      * exists (Datatypes.S n), t'. cbn [repeat Steps.run_all fold_left]. auto.
Qed.
Lemma run_all_app w s s' : run_all w (s ++ s') = run_all (run_all w s) s'.
Proof. apply fold_left_app. Qed.
Lemma end_idle l : forall w i t, nth_error (o_workers w) i = Some t -> inside t = None -> ahead t = l ->
  exists n t', nth_error (o_workers (run_all w (repeat i n))) i = Some t' /\ inside t' = None /\ ahead t' = [].
Proof.
  induction l as [|j l IH]; intros w i t Hi Hc Ht; [exists 0%nat, t; auto|].
  assert (B : exists n t', nth_error (o_workers (run_all w (repeat i n))) i = Some t' /\ inside t' = None /\ ahead t' = l).
  { destruct (method j) as [r|f k] eqn:Ep.
    - exists 1%nat, (MkWorker l None). cbn [repeat Steps.run_all fold_left]. unfold Steps.turn. rewrite Hi, Hc, Ht, Ep. cbn [proceed o_workers].
      rewrite (swap_in_same _ _ _ _ Hi). auto.
    - assert (Hi' : nth_error (o_workers (turn w i)) i = Some (MkWorker l (Some (j, Step f k)))).
      { unfold Steps.turn. rewrite Hi, Hc, Ht, Ep. cbn [proceed o_workers]. eapply swap_in_same; eauto. }
      destruct (end_call (Step f k) _ _ _ j Hi' eq_refl) as (n & t' & H1 & H2 & H3). exists (Datatypes.S n), t'. auto. }
  destruct B as (n & t1 & H1 & H2 & H3). destruct (IH _ _ _ H1 H2 H3) as (n' & t' & Q).
  exists (n + n')%nat, t'. rewrite repeat_app, run_all_app. exact Q.
Qed.
Theorem worker_ends w i t : nth_error (o_workers w) i = Some t ->
  exists n t', nth_error (o_workers (run_all w (repeat i n))) i = Some t' /\ unfinished t' = [].
Proof.
  intros Hi. destruct (inside t) as [(j, p)|] eqn:Hc.
  - destruct (end_call p _ _ _ j Hi Hc) as (n & t1 & H1 & H2 & H3). destruct (end_idle _ _ _ _ H1 H2 eq_refl) as (n' & t' & Q1 & Q2 & Q3).
    exists (n + n')%nat, t'. rewrite repeat_app, run_all_app. split; auto. unfold unfinished. rewrite Q2. exact Q3.
  - destruct (end_idle _ _ _ _ Hi Hc eq_refl) as (n' & t' & Q1 & Q2 & Q3). exists n', t'. split; auto. unfold unfinished. rewrite Q2. exact Q3.
Qed.

(** What holds of a result whatever the call saw holds of every result. *)
Definition sound (Q : J -> R -> Prop) (w : office) : Prop :=
  (forall i j r, In (i, j, Ok r) (o_log w) -> Q j r) /\
  (forall i t j p, nth_error (o_workers w) i = Some t -> inside t = Some (j, p) -> always (Q j) p).
Lemma proceed_sound Q w i l a j p : sound Q w -> always (Q j) p -> sound Q (proceed w i l a j p).
Proof.
  intros [H1 H2] HP. destruct p as [r|f k]; cbn [proceed]; split; cbn [o_log o_workers].
  - intros i' j' r' Hin. apply in_app_or in Hin as [Hin|[Hin|[]]]; [eauto|]. injection Hin as <- <- ->. exact HP.
  - intros i' t' j' p' Hn Hc. destruct (Nat.eq_dec i i') as [<-|N]; [|rewrite swap_in_other in Hn by auto; eauto].
    destruct (nth_error (o_workers w) i) as [t|] eqn:Hi.
    + rewrite (swap_in_same _ _ _ _ Hi) in Hn. injection Hn as <-. discriminate Hc.
    + exfalso. assert (nth_error (swap_in (o_workers w) i (MkWorker l None)) i <> None) by congruence.
      apply nth_error_Some in H. rewrite swap_in_length in H. apply nth_error_None in Hi. lia.
  - eauto.
  - intros i' t' j' p' Hn Hc. destruct (Nat.eq_dec i i') as [<-|N]; [|rewrite swap_in_other in Hn by auto; eauto].
    destruct (nth_error (o_workers w) i) as [t|] eqn:Hi.
    + rewrite (swap_in_same _ _ _ _ Hi) in Hn. injection Hn as <-. cbn [inside] in Hc. injection Hc as <- <-. exact HP.
    + exfalso. assert (nth_error (swap_in (o_workers w) i (MkWorker l (Some (j, Step f k)))) i <> None) by congruence.
      apply nth_error_Some in H. rewrite swap_in_length in H. apply nth_error_None in Hi. lia.
Qed.
Theorem workers_sound Q a jobs s : (forall j, always (Q j) (method j)) ->
  forall i j r, In (i, j, Ok r) (o_log (run_all (opening a jobs) s)) -> Q j r.
Proof.
  intros HM.
  assert (G0 : sound Q (opening a jobs)).
  { split; [intros i j r []|]. intros i t j p Hn. cbn [opening o_workers] in Hn. apply nth_error_In, in_map_iff in Hn as (l & <- & _). discriminate. }
  assert (Gs : forall s w, sound Q w -> sound Q (run_all w s)).
  { clear s G0. induction s as [|i s IH]; intros w HS; cbn; auto. apply IH. unfold Steps.turn.
    destruct (nth_error (o_workers w) i) as [t|] eqn:Hi; auto. destruct (inside t) as [(j, [r|f k])|] eqn:Hc.
    - apply proceed_sound; auto. apply (proj2 HS i t j _ Hi Hc).
    - apply proceed_sound; auto. pose proof (proj2 HS i t j _ Hi Hc) as HP. cbn [always] in HP. apply HP.
    - destruct (ahead t) as [|j l]; auto. apply proceed_sound; auto. }
  apply (proj1 (Gs s _ G0)).
Qed.
End Threads.
