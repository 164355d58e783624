(** * ThreadsProofs: threads sharing one EMD object (C103). *)
From Verif Require Import PyFacts Threads ThreadsSpec Spec EmdProofs EemdExact.
From Coq Require Import Lia.
Open Scope Z_scope.

Section Lists.
Context {X : Type}.
Lemma nth_replace_same (l : list X) i x y : nth_error l i = Some y -> nth_error (replace l i x) i = Some x.
Proof. revert i. induction l as [|z l IH]; intros [|i] E; cbn in *; try discriminate; auto. Qed.
Lemma nth_replace_other (l : list X) i j x : i <> j -> nth_error (replace l i x) j = nth_error l j.
Proof. revert i j. induction l as [|z l IH]; intros [|i] [|j] N; cbn; auto; congruence. Qed.
Lemma in_replace (l : list X) i x y : In y (replace l i x) -> In y l \/ y = x.
Proof.
  revert i. induction l as [|z l IH]; intros [|i] E; cbn in *; auto.
  - destruct E as [<-|E]; auto.
  - destruct E as [<-|E]; auto. apply IH in E as [E|E]; auto.
Qed.
End Lists.

Section Threads.
Context {A : Type} `{Num A}.
Variable spl : spline_oracle A.
Variable fuel : nat.
Variable c : emd_config A.
Notation tick := (tick spl fuel c).
Notation run := (run spl fuel c).
Notation advance := (advance spl fuel c).
Notation emd := (emd spl fuel c).

Lemma finish_todo (t : thread A) r j l : todo t = j :: l -> finish t r = MkThread l Between (done t ++ [(j, r)]).
Proof. unfold finish. intros ->. reflexivity. Qed.

(** ** An invariant, for any property of what is stored. *)
Section Any.
Variable jobs : list (list (job A)).
Variable PI : arr A -> Prop.
Variable PR : list A -> Prop.
Hypothesis PI_own : forall X T k o, requested jobs (Call X T k) -> emd X T k = Ok o -> PI (components X o).
Hypothesis PR_diff : forall X T k x r, requested jobs (Call X T k) -> PI x ->
  broadcast2 nsub X (sum_rows (width x) (body x)) = Ok r -> PR r.

Definition good (j : job A) (R : reply A) : Prop :=
  match j with
  | Call X T k => exists r, R = Rows r /\
      match emd X T k with
      | Raise e => r = Raise e
      | Ok o =>
          (exists x e, PI x /\ broadcast2 nsub X (sum_rows (width x) (body x)) = Raise e /\ r = Raise e) \/
          (exists v, PR v /\ allclose0 v = true /\ r = Ok (imfs o)) \/
          (exists v0 v, PR v0 /\ allclose0 v0 = false /\ PR v /\ r = vstack1 (components X o) v)
      end
  | Ask => R = Pair (Raise ValueError) \/ exists x v, PI x /\ PR v /\ R = Pair (Ok (Some x, Some v))
  end.

Definition calling (t : thread A) (X : list A) (M : arr A) : Prop :=
  exists T k o l, todo t = Call X T k :: l /\ emd X T k = Ok o /\ M = components X o.

Definition placed (a : attrs A) (t : thread A) : Prop :=
  match here t with
  | Between => True
  | Found X M => calling t X M
  | Stored X M => calling t X M /\ at_imfs a <> None
  | Fetched X M x => calling t X M /\ PI x
  | Left M => (exists X, calling t X M) /\ at_res a <> None
  | Adding M => (exists X, calling t X M) /\ at_res a <> None /\ (exists v0, PR v0 /\ allclose0 v0 = false)
  | Asked1 => (exists l, todo t = Ask :: l) /\ at_imfs a <> None
  | Asked2 => (exists l, todo t = Ask :: l) /\ at_imfs a <> None /\ at_res a <> None
  | Asked3 x => (exists l, todo t = Ask :: l) /\ (exists y, x = Some y /\ PI y) /\ at_res a <> None
  end.

Definition sane (a : attrs A) (t : thread A) : Prop :=
  (forall j, In j (todo t) -> requested jobs j) /\
  (forall j R, In (j, R) (done t) -> good j R) /\ placed a t.

Definition stored_ok (a : attrs A) : Prop :=
  (forall x, at_imfs a = Some x -> PI x) /\ (forall v, at_res a = Some v -> PR v).

(** Nothing that is stored is taken away. *)
Definition grows (a b : attrs A) : Prop :=
  (at_imfs a <> None -> at_imfs b <> None) /\ (at_res a <> None -> at_res b <> None).

Lemma placed_grows a b t : grows a b -> placed a t -> placed b t.
Proof. intros (G1 & G2). unfold placed. destruct (here t); intuition. Qed.
Lemma sane_grows a b t : grows a b -> sane a t -> sane b t.
Proof. intros G (H1 & H2 & H3). split; [|split]; eauto using placed_grows. Qed.

Lemma sane_goto a t p : (forall j, In j (todo t) -> requested jobs j) ->
  (forall j R, In (j, R) (done t) -> good j R) -> placed a (goto t p) -> sane a (goto t p).
Proof. intros H1 H2 H3. split; [|split]; auto. Qed.
Lemma sane_finish a t R j l : todo t = j :: l -> (forall i, In i (todo t) -> requested jobs i) ->
  (forall i Q, In (i, Q) (done t) -> good i Q) -> good j R -> sane a (finish t R).
Proof.
  intros E H1 H2 H3. rewrite (finish_todo _ _ _ _ E). split; [|split]; cbn.
  - intros i Hi. apply H1. rewrite E. right. exact Hi.
  - intros i Q Hi. apply in_app_or in Hi as [Hi|[Hi|[]]]; auto. injection Hi as <- <-. exact H3.
  - exact I.
Qed.

Lemma advance_sane a t : stored_ok a -> sane a t ->
  forall a' t', advance a t = (a', t') -> stored_ok a' /\ grows a a' /\ sane a' t'.
Proof.
  intros (Hi & Hr) (H1 & H2 & H3) a' t'. unfold Threads.advance, placed in *.
  destruct (here t) as [|X M|X M|X M x|M|M| | |x] eqn:Eh.
  - destruct (todo t) as [|[X T k|] l] eqn:Et.
    + intros [= <- <-]. split; [split; auto|]. split; [split; auto|]. split; [rewrite Et; auto|]. split; auto.
      unfold placed. rewrite Eh. exact I.
    + destruct (emd X T k) as [o|e] eqn:Ee; intros [= <- <-].
      * split; [split; auto|]. split; [split; auto|]. apply sane_goto; [rewrite Et; auto|auto|].
        cbn. exists T, k, o, l. cbn. auto.
      * split; [split; auto|]. split; [split; auto|]. eapply sane_finish; eauto; [rewrite Et; auto|].
        cbn. exists (Raise e). rewrite Ee. auto.
    + destruct (at_imfs a) as [x|] eqn:Ea; intros [= <- <-].
      * split; [split; rewrite ?Ea; auto|]. split; [split; auto|]. apply sane_goto; [rewrite Et; auto|auto|].
        cbn. split; [exists l; auto|congruence].
      * split; [split; rewrite ?Ea; auto|]. split; [split; auto|]. eapply sane_finish; eauto; [rewrite Et; auto|].
        cbn. auto.
  - intros [= <- <-]. destruct H3 as (T & k & o & l & Et & Ee & ->).
    split; [split; cbn; auto|].
    { intros x [= <-]. eapply PI_own; eauto. apply H1. rewrite Et. left. reflexivity. }
    split; [split; cbn; congruence|].
    apply sane_goto; auto. cbn. split; [|congruence]. exists T, k, o, l. auto.
  - destruct H3 as (H3 & Hs). destruct (at_imfs a) as [x|] eqn:Ea; [|congruence].
    intros [= <- <-]. split; [split; rewrite ?Ea; auto|]. split; [split; auto|]. apply sane_goto; auto.
    cbn. split; auto.
  - destruct H3 as ((T & k & o & l & Et & Ee & ->) & Hx).
    destruct (broadcast2 nsub X (sum_rows (width x) (body x))) as [r|e] eqn:Eb; intros [= <- <-].
    + split; [split; cbn; auto|].
      { intros v [= <-]. eapply PR_diff; eauto. apply H1. rewrite Et. left. reflexivity. }
      split; [split; cbn; congruence|].
      apply sane_goto; auto. cbn. split; [|congruence]. exists X, T, k, o, l. auto.
    + split; [split; auto|]. split; [split; auto|]. eapply sane_finish; eauto.
      cbn. exists (Raise e). split; auto. rewrite Ee. left. eauto.
  - destruct H3 as ((X & T & k & o & l & Et & Ee & ->) & Hs). destruct (at_res a) as [r|] eqn:Ea; [|congruence].
    destruct (allclose0 r) eqn:Ec; intros [= <- <-].
    + split; [split; rewrite ?Ea; auto|]. split; [split; auto|]. eapply sane_finish; eauto.
      cbn. exists (Ok (imfs o)). split; auto. rewrite Ee. right. left. eauto.
    + split; [split; rewrite ?Ea; auto|]. split; [split; auto|]. apply sane_goto; auto.
      cbn. split; [exists X, T, k, o, l; auto|]. split; [congruence|]. eauto.
  - destruct H3 as ((X & T & k & o & l & Et & Ee & ->) & Hs & v0 & Hv0 & Ev0).
    destruct (at_res a) as [r|] eqn:Ea; [|congruence]. intros [= <- <-].
    split; [split; rewrite ?Ea; auto|]. split; [split; auto|]. eapply sane_finish; eauto.
    cbn. eexists. split; [reflexivity|]. rewrite Ee. right. right. exists v0, r. auto.
  - destruct H3 as ((l & Et) & Hs). destruct (at_res a) as [r|] eqn:Ea; intros [= <- <-].
    + split; [split; rewrite ?Ea; auto|]. split; [split; auto|]. apply sane_goto; auto.
      cbn. split; [eauto|]. split; congruence.
    + split; [split; rewrite ?Ea; auto|]. split; [split; auto|]. eapply sane_finish; eauto. cbn. auto.
  - destruct H3 as ((l & Et) & Hs & Hs'). intros [= <- <-].
    split; [split; auto|]. split; [split; auto|]. apply sane_goto; auto. cbn. split; [eauto|].
    destruct (at_imfs a) as [x|] eqn:Ea; [|congruence]. split; eauto.
  - destruct H3 as ((l & Et) & (y & -> & Hy) & Hs). intros [= <- <-].
    split; [split; auto|]. split; [split; auto|]. eapply sane_finish; eauto. cbn.
    destruct (at_res a) as [r|] eqn:Ea; [|congruence]. right. exists y, r. auto.
Qed.

Definition safe (w : world A) : Prop :=
  stored_ok (w_attrs w) /\ forall t, In t (w_threads w) -> sane (w_attrs w) t.

Lemma tick_safe w i : safe w -> safe (tick w i).
Proof.
  intros (Hs & Ht). unfold Threads.tick. destruct (nth_error (w_threads w) i) as [t|] eqn:Ei; [|split; auto].
  destruct (advance (w_attrs w) t) as (a', t') eqn:Ea.
  destruct (advance_sane _ _ Hs (Ht _ (nth_error_In _ _ Ei)) _ _ Ea) as (S1 & S2 & S3).
  split; cbn; auto. intros u Hu. apply in_replace in Hu as [Hu| ->]; auto. eapply sane_grows; eauto.
Qed.

Lemma run_safe w s : safe w -> safe (run w s).
Proof. revert w. induction s as [|i s IH]; intros w Hw; cbn; auto. apply IH, tick_safe, Hw. Qed.

Lemma start_safe : safe (start jobs).
Proof.
  split; cbn; [split; discriminate|]. intros t Ht. apply in_map_iff in Ht as (l & <- & Hl).
  split; [|split]; cbn; auto; [|intros ? ? []]. intros j Hj. exists l. auto.
Qed.

Lemma replies_good s j R : replied (run (start jobs) s) j R -> good j R.
Proof.
  intros (t & Ht & Hd). destruct (run_safe _ s start_safe) as (_ & Hw).
  destruct (Hw _ Ht) as (_ & Hg & _). auto.
Qed.
End Any.

(** ** Every thread does its jobs in order, and no thread waits. *)
Definition agenda (t : thread A) : list (job A) := map fst (done t) ++ todo t.

Lemma finish_agenda (t : thread A) r : agenda (finish t r) = agenda t.
Proof.
  unfold agenda, finish. destruct (todo t) as [|j l] eqn:E; cbn; rewrite ?E; auto.
  rewrite map_app, <- app_assoc. reflexivity.
Qed.
Lemma advance_agenda a t a' t' : advance a t = (a', t') -> agenda t' = agenda t.
Proof.
  unfold Threads.advance.
  repeat match goal with |- context [match ?x with _ => _ end] => destruct x eqn:? end;
    intros [= <- <-]; auto using finish_agenda.
Qed.
Lemma replace_map {X Y} (f : X -> Y) l i x y : nth_error l i = Some y -> f x = f y -> map f (replace l i x) = map f l.
Proof.
  revert i. induction l as [|z l IH]; intros [|i] E F; cbn in *; try discriminate.
  - injection E as ->. congruence.
  - f_equal. eauto.
Qed.
Lemma run_agenda w s : map agenda (w_threads (run w s)) = map agenda (w_threads w).
Proof.
  revert w. induction s as [|i s IH]; intros w; auto.
  change (run w (i :: s)) with (run (tick w i) s). rewrite IH. unfold Threads.tick.
  destruct (nth_error (w_threads w) i) as [t|] eqn:Ei; auto.
  destruct (advance (w_attrs w) t) as (a', t') eqn:Ea. cbn. eapply replace_map; eauto. eapply advance_agenda; eauto.
Qed.
Lemma start_agenda jobs : map agenda (w_threads (start jobs)) = jobs.
Proof. cbn. rewrite map_map. apply map_id. Qed.

Lemma world_agenda jobs s : map agenda (w_threads (run (start jobs) s)) = jobs.
Proof. rewrite run_agenda. apply start_agenda. Qed.

Lemma done_requested jobs s t j R : In t (w_threads (run (start jobs) s)) -> In (j, R) (done t) -> requested jobs j.
Proof.
  intros Ht Hj. exists (agenda t). split.
  - rewrite <- (world_agenda jobs s). apply in_map, Ht.
  - unfold agenda. apply in_or_app. left. change j with (fst (j, R)). apply in_map, Hj.
Qed.
Lemma thread_agenda jobs s i t : nth_error (w_threads (run (start jobs) s)) i = Some t ->
  nth_error jobs i = Some (agenda t).
Proof. intros E. rewrite <- (world_agenda jobs s) at 1. apply map_nth_error, E. Qed.

(** Steps left to a thread. *)
Definition ahead (t : thread A) : nat :=
  6 * length (todo t) -
  match here t with
  | Between => 0 | Found _ _ => 1 | Stored _ _ => 2 | Fetched _ _ _ => 3 | Left _ => 4 | Adding _ => 5
  | Asked1 => 1 | Asked2 => 2 | Asked3 _ => 3
  end.

Definition busy_ok (t : thread A) : Prop := here t = Between \/ todo t <> [].

Lemma advance_ahead a t a' t' : busy_ok t -> advance a t = (a', t') ->
  busy_ok t' /\ (ahead t' <= ahead t - 1)%nat.
Proof.
  intros Hb. unfold busy_ok, ahead in *.
  assert (K : forall r, (todo t <> [] -> here (finish t r) = Between /\ 6 * length (todo (finish t r)) = 6 * length (todo t) - 6)%nat).
  { intros r N. unfold finish. destruct (todo t); [congruence|]. cbn [todo here length]. split; auto. lia. }
  unfold Threads.advance.
  destruct (here t) as [|X M|X M|X M x|M|M| | |x] eqn:Eh.
  - destruct (todo t) as [|[X T k|] l] eqn:Et.
    + intros [= <- <-]. rewrite Eh, Et. cbn. auto.
    + destruct (emd X T k) as [o|e] eqn:Ee; intros [= <- <-].
      * unfold goto. cbn [todo here]. rewrite Et. cbn [length]. split; [right; congruence|lia].
      * destruct (K (Rows (Raise e))) as (K1 & K2); [congruence|]. rewrite K1, K2. cbn [length]. split; [auto|lia].
    + destruct (at_imfs a) as [x|]; intros [= <- <-].
      * unfold goto. cbn [todo here]. rewrite Et. cbn [length]. split; [right; congruence|lia].
      * destruct (K (Pair (Raise ValueError))) as (K1 & K2); [congruence|]. rewrite K1, K2. cbn [length]. split; [auto|lia].
  - destruct Hb as [Hb|Hb]; [discriminate|]. intros [= <- <-]. unfold goto. cbn [todo here].
    destruct (todo t); [congruence|]. cbn [length]. split; [right; congruence|lia].
  - destruct Hb as [Hb|Hb]; [discriminate|]. destruct (at_imfs a) as [x|]; intros [= <- <-].
    + unfold goto. cbn [todo here]. destruct (todo t); [congruence|]. cbn [length]. split; [right; congruence|lia].
    + destruct (K (Rows (Raise TypeError)) Hb) as (K1 & K2). rewrite K1, K2.
      destruct (todo t); [congruence|]. cbn [length]. split; [auto|lia].
  - destruct Hb as [Hb|Hb]; [discriminate|].
    destruct (broadcast2 nsub X (sum_rows (width x) (body x))) as [r|e]; intros [= <- <-].
    + unfold goto. cbn [todo here]. destruct (todo t); [congruence|]. cbn [length]. split; [right; congruence|lia].
    + destruct (K (Rows (Raise e)) Hb) as (K1 & K2). rewrite K1, K2.
      destruct (todo t); [congruence|]. cbn [length]. split; [auto|lia].
  - destruct Hb as [Hb|Hb]; [discriminate|]. destruct (at_res a) as [r|]; [destruct (allclose0 r)|]; intros [= <- <-].
    + destruct (K (Rows (Ok (body M))) Hb) as (K1 & K2). rewrite K1, K2.
      destruct (todo t); [congruence|]. cbn [length]. split; [auto|lia].
    + unfold goto. cbn [todo here]. destruct (todo t); [congruence|]. cbn [length]. split; [right; congruence|lia].
    + destruct (K (Rows (Raise TypeError)) Hb) as (K1 & K2). rewrite K1, K2.
      destruct (todo t); [congruence|]. cbn [length]. split; [auto|lia].
  - destruct Hb as [Hb|Hb]; [discriminate|]. destruct (at_res a) as [r|]; intros [= <- <-].
    + destruct (K (Rows (vstack1 M r)) Hb) as (K1 & K2). rewrite K1, K2.
      destruct (todo t); [congruence|]. cbn [length]. split; [auto|lia].
    + destruct (K (Rows (Raise TypeError)) Hb) as (K1 & K2). rewrite K1, K2.
      destruct (todo t); [congruence|]. cbn [length]. split; [auto|lia].
  - destruct Hb as [Hb|Hb]; [discriminate|]. destruct (at_res a) as [r|]; intros [= <- <-].
    + unfold goto. cbn [todo here]. destruct (todo t); [congruence|]. cbn [length]. split; [right; congruence|lia].
    + destruct (K (Pair (Raise ValueError)) Hb) as (K1 & K2). rewrite K1, K2.
      destruct (todo t); [congruence|]. cbn [length]. split; [auto|lia].
  - destruct Hb as [Hb|Hb]; [discriminate|]. intros [= <- <-]. unfold goto. cbn [todo here].
    destruct (todo t); [congruence|]. cbn [length]. split; [right; congruence|lia].
  - destruct Hb as [Hb|Hb]; [discriminate|]. intros [= <- <-].
    destruct (K (Pair (Ok (x, at_res a))) Hb) as (K1 & K2). rewrite K1, K2.
    destruct (todo t); [congruence|]. cbn [length]. split; [auto|lia].
Qed.

Lemma run_ahead s : forall w i t, (forall t, In t (w_threads w) -> busy_ok t) ->
  nth_error (w_threads w) i = Some t ->
  exists t', nth_error (w_threads (run w s)) i = Some t' /\ busy_ok t' /\
    (ahead t' <= ahead t - count_occ Nat.eq_dec s i)%nat.
Proof.
  induction s as [|j s IH]; intros w i t Hw Ei.
  - exists t. split; auto. split; [|cbn; lia]. eapply Hw, nth_error_In; eauto.
  - cbn [Threads.run fold_left]. unfold Threads.run in IH. cbn [fold_left].
    assert (HB : forall t, In t (w_threads (tick w j)) -> busy_ok t).
    { intros u Hu. unfold Threads.tick in Hu. destruct (nth_error (w_threads w) j) as [v|] eqn:Ej; [|auto].
      destruct (advance (w_attrs w) v) as (a', v') eqn:Ea. cbn in Hu. apply in_replace in Hu as [Hu| ->]; auto.
      eapply advance_ahead; eauto. eapply Hw, nth_error_In; eauto. }
    assert (HT : exists u, nth_error (w_threads (tick w j)) i = Some u /\
               (ahead u <= ahead t - (if Nat.eq_dec j i then 1 else 0))%nat).
    { unfold Threads.tick. destruct (nth_error (w_threads w) j) as [v|] eqn:Ej.
      - destruct (advance (w_attrs w) v) as (a', v') eqn:Ea. cbn [w_threads]. destruct (Nat.eq_dec j i) as [->|N].
        + exists v'. split; [eapply nth_replace_same; eauto|].
          replace v with t in * by congruence. eapply advance_ahead; eauto. eapply Hw, nth_error_In; eauto.
        + exists t. rewrite nth_replace_other by auto. split; auto. lia.
      - exists t. split; auto. destruct (Nat.eq_dec j i); [congruence|lia]. }
    destruct HT as (u & Eu & Hu). destruct (IH _ _ _ HB Eu) as (t' & E' & B' & L').
    exists t'. split; auto. split; auto. cbn [count_occ]. destruct (Nat.eq_dec j i); lia.
Qed.

Lemma finishes jobs s i l : nth_error jobs i = Some l ->
  (6 * length l <= count_occ Nat.eq_dec s i)%nat ->
  exists t, nth_error (w_threads (run (start jobs) s)) i = Some t /\ todo t = [] /\ map fst (done t) = l.
Proof.
  intros El Hc.
  destruct (run_ahead s (start jobs) i (MkThread l Between [])) as (t & Et & Bt & Lt).
  - intros t Ht. cbn in Ht. apply in_map_iff in Ht as (m & <- & _). left. reflexivity.
  - cbn. rewrite nth_error_map, El. reflexivity.
  - exists t. split; auto. unfold ahead in Lt at 2. cbn [todo here] in Lt.
    assert (Z0 : ahead t = 0%nat) by lia.
    assert (T0 : todo t = []).
    { destruct (todo t) as [|j m] eqn:E; auto. unfold ahead in Z0. rewrite E in Z0. cbn [length] in Z0.
      destruct (here t); lia. }
    split; auto. apply thread_agenda in Et. rewrite El in Et. injection Et as ->.
    unfold agenda. rewrite T0, app_nil_r. reflexivity.
Qed.

Lemma own_residue X T k o : emd X T k = Ok o ->
  broadcast2 nsub X (sum_rows (length X) (imfs o)) = Ok (residue o) /\ length (residue o) = length X /\
  out o = (if allclose0 (residue o) then imfs o else imfs o ++ [residue o]).
Proof.
  intros E. pose proof (emd_shape _ _ _ _ _ _ _ E) as (_ & Hs & Hl).
  split; [|split; [exact Hl|]].
  - rewrite broadcast2_eq.
    + apply emd_ok in E as (t & IMF & ext & _ & _ & _ & ->). reflexivity.
    + symmetry. apply sum_rows_length. unfold shaped in Hs. rewrite Forall_forall in Hs. auto.
  - apply emd_ok in E as (t & IMF & ext & _ & _ & _ & ->). reflexivity.
Qed.

(** ** Any schedule. *)
Lemma any_call jobs s X T k R : replied (run (start jobs) s) (Call X T k) R ->
  exists r, R = Rows r /\
  match emd X T k with
  | Raise e => r = Raise e
  | Ok o => r = Raise ValueError \/ r = Ok (imfs o) \/
            exists v, r = Ok (imfs o ++ [v]) /\ length v = length X /\ some_difference spl fuel c jobs v
  end.
Proof.
  intros HR.
  apply (replies_good jobs
    (fun x => exists X T k o, requested jobs (Call X T k) /\ emd X T k = Ok o /\ x = components X o)
    (some_difference spl fuel c jobs)) in HR.
  - destruct HR as (r & -> & Hr). exists r. split; auto. destruct (emd X T k) as [o|e]; auto.
    destruct Hr as [(x & e & _ & Hb & ->)|[(v & _ & _ & ->)|(v0 & v & _ & _ & Hv & ->)]]; auto.
    + left. f_equal. eapply broadcast2_raise; eauto.
    + unfold vstack1, components. cbn. destruct (Nat.eqb_spec (length X) (length v)); auto. right. right. eauto.
  - intros X0 T0 k0 o0 Hq E. exists X0, T0, k0, o0. auto.
  - intros X1 T1 k1 x r Hq (X2 & T2 & k2 & o2 & Hq2 & E2 & ->) Hb.
    exists X1, T1, k1, X2, T2, k2, o2. auto.
Qed.

Lemma any_report jobs s R : replied (run (start jobs) s) Ask R ->
  R = Pair (Raise ValueError) \/
  exists X T k o v, requested jobs (Call X T k) /\ emd X T k = Ok o /\ some_difference spl fuel c jobs v /\
    R = Pair (Ok (Some (components X o), Some v)).
Proof.
  intros HR.
  apply (replies_good jobs
    (fun x => exists X T k o, requested jobs (Call X T k) /\ emd X T k = Ok o /\ x = components X o)
    (some_difference spl fuel c jobs)) in HR.
  - destruct HR as [->|(x & v & (X & T & k & o & Hq & E & ->) & Hv & ->)]; auto.
    right. exists X, T, k, o, v. auto.
  - intros X0 T0 k0 o0 Hq E. exists X0, T0, k0, o0. auto.
  - intros X1 T1 k1 x r Hq (X2 & T2 & k2 & o2 & Hq2 & E2 & ->) Hb.
    exists X1, T1, k1, X2, T2, k2, o2. auto.
Qed.

Lemma same_length jobs n s X T k R :
  (forall X T k, requested jobs (Call X T k) -> length X = n) ->
  replied (run (start jobs) s) (Call X T k) R ->
  match emd X T k with
  | Raise e => R = Rows (Raise e)
  | Ok o => R = Rows (Ok (imfs o)) \/ exists v, R = Rows (Ok (imfs o ++ [v])) /\ length v = n
  end.
Proof.
  intros Hn HR. pose proof HR as (t & Ht & Hd).
  assert (HX : length X = n) by (eapply Hn, done_requested; eauto).
  apply (replies_good jobs (fun x => length (sum_rows (width x) (body x)) = n) (fun v => length v = n)) in HR.
  - destruct HR as (r & -> & Hr). destruct (emd X T k) as [o|e]; [|congruence].
    destruct Hr as [(x & e & Hx & Hb & ->)|[(v & _ & _ & ->)|(v0 & v & _ & _ & Hv & ->)]]; auto.
    + rewrite broadcast2_eq in Hb by congruence. discriminate.
    + right. exists v. split; auto. unfold vstack1, components. cbn.
      destruct (Nat.eqb_spec (length X) (length v)); [auto|congruence].
  - intros X0 T0 k0 o0 Hq E. cbn. rewrite <- (Hn _ _ _ Hq). apply emd_shape in E as (_ & Hs & _).
    apply sum_rows_length. unfold shaped in Hs. rewrite Forall_forall in Hs. auto.
  - intros X1 T1 k1 x r Hq Hx Hb. pose proof (Hn _ _ _ Hq).
    rewrite broadcast2_eq in Hb by congruence. injection Hb as <-. rewrite map2_length_eq; congruence.
Qed.

(** ** All calls alike. *)
Lemma same_call jobs s X T k :
  (forall X' T' k', requested jobs (Call X' T' k') -> X' = X /\ T' = T /\ k' = k) ->
  (forall R, replied (run (start jobs) s) (Call X T k) R ->
     R = Rows (match emd X T k with Ok o => Ok (out o) | Raise e => Raise e end)) /\
  (forall R, replied (run (start jobs) s) Ask R ->
     R = Pair (Raise ValueError) \/
     exists o, emd X T k = Ok o /\ R = Pair (Ok (Some (components X o), Some (residue o)))).
Proof.
  intros Hj.
  assert (HI : forall X0 T0 k0 o0, requested jobs (Call X0 T0 k0) -> emd X0 T0 k0 = Ok o0 ->
     exists o, emd X T k = Ok o /\ components X0 o0 = components X o).
  { intros X0 T0 k0 o0 Hq E. destruct (Hj _ _ _ Hq) as (-> & -> & ->). eauto. }
  assert (HP : forall X0 T0 k0 x r, requested jobs (Call X0 T0 k0) ->
     (exists o, emd X T k = Ok o /\ x = components X o) ->
     broadcast2 nsub X0 (sum_rows (width x) (body x)) = Ok r -> exists o, emd X T k = Ok o /\ r = residue o).
  { intros X0 T0 k0 x r Hq (o & E & ->) Hb. destruct (Hj _ _ _ Hq) as (-> & -> & ->).
    exists o. split; auto. destruct (own_residue _ _ _ _ E) as (Hb' & _). cbn [width body components] in Hb. congruence. }
  split; intros R HR; apply (replies_good jobs _ _ HI HP) in HR.
  - destruct HR as (r & -> & Hr). f_equal. destruct (emd X T k) as [o|e] eqn:E; auto.
    destruct (own_residue _ _ _ _ E) as (Hb & Hl & ->).
    destruct Hr as [(x & e & (o' & E' & ->) & Hb' & ->)|[(v & (o' & E' & ->) & Hc & ->)|(v0 & v & (o0 & E0 & ->) & Hc & (o' & E' & ->) & ->)]].
    + replace o' with o in * by congruence. cbn [width body components] in Hb'. congruence.
    + replace o' with o in * by congruence. rewrite Hc. reflexivity.
    + replace o0 with o in * by congruence. replace o' with o in * by congruence. rewrite Hc.
      unfold vstack1, components. cbn. rewrite Hl, Nat.eqb_refl. reflexivity.
  - destruct HR as [->|(x & v & (o & E & ->) & (o' & E' & ->) & ->)]; auto.
    right. exists o. split; auto. congruence.
Qed.

(** ** Taking turns. *)
Section Turns.
Variable jobs : list (list (job A)).

Definition whole (a : attrs A) (X : list A) (o : emd_out A) : Prop :=
  at_imfs a = Some (components X o) /\ at_res a = Some (residue o).

Definition settled (a : attrs A) : Prop :=
  (at_imfs a = None /\ at_res a = None) \/
  exists X T k o, requested jobs (Call X T k) /\ emd X T k = Ok o /\ whole a X o.

Definition right_reply (j : job A) (R : reply A) : Prop :=
  match j with
  | Call X T k => R = Rows (match emd X T k with Ok o => Ok (out o) | Raise e => Raise e end)
  | Ask => R = Pair (Raise ValueError) \/
           exists X T k o, requested jobs (Call X T k) /\ emd X T k = Ok o /\
             R = Pair (Ok (Some (components X o), Some (residue o)))
  end.

Definition agrees (a : attrs A) (t : thread A) : Prop :=
  match here t with
  | Between => True
  | Found X M => calling t X M
  | Stored X M => calling t X M /\ at_imfs a = Some M
  | Fetched X M x => calling t X M /\ at_imfs a = Some M /\ x = M
  | Left M => exists X T k o l, todo t = Call X T k :: l /\ emd X T k = Ok o /\ M = components X o /\ whole a X o
  | Adding M => exists X T k o l, todo t = Call X T k :: l /\ emd X T k = Ok o /\ M = components X o /\ whole a X o /\
                  allclose0 (residue o) = false
  | Asked1 => (exists l, todo t = Ask :: l) /\ settled a
  | Asked2 => (exists l, todo t = Ask :: l) /\ settled a /\ at_res a <> None
  | Asked3 x => (exists l, todo t = Ask :: l) /\ settled a /\ at_res a <> None /\ x = at_imfs a
  end.

Definition well (a : attrs A) (t : thread A) : Prop :=
  (forall j, In j (todo t) -> requested jobs j) /\
  (forall j R, In (j, R) (done t) -> right_reply j R) /\ agrees a t.

Definition orderly (w : world A) : Prop :=
  (forall t, In t (w_threads w) -> well (w_attrs w) t) /\
  ((forall t, In t (w_threads w) -> ~ inside t) -> settled (w_attrs w)).

Lemma well_outside a b t : ~ inside t -> well a t -> well b t.
Proof.
  intros N (H1 & H2 & H3). split; [|split]; auto. unfold inside, agrees in *. destruct (here t); tauto.
Qed.
Lemma well_goto a b t p : well a t -> agrees b (goto t p) -> well b (goto t p).
Proof. intros (H1 & H2 & _) H3. split; [|split]; auto. Qed.
Lemma well_finish a b t R j l : todo t = j :: l -> well a t -> right_reply j R -> well b (finish t R).
Proof.
  intros E (H1 & H2 & _) H3. rewrite (finish_todo _ _ _ _ E). split; [|split]; cbn.
  - intros i Hi. apply H1. rewrite E. right. exact Hi.
  - intros i Q Hi. apply in_app_or in Hi as [Hi|[Hi|[]]]; auto. injection Hi as <- <-. exact H3.
  - exact I.
Qed.
Lemma finish_outside (t : thread A) R : ~ inside (finish t R).
Proof. unfold inside, finish. destruct (todo t); cbn; auto. Qed.

(** A step from outside to outside leaves the attributes alone. *)
Lemma advance_outside a t a' t' : advance a t = (a', t') -> well a t -> ~ inside t -> ~ inside t' ->
  a' = a /\ well a t'.
Proof.
  intros Ea Hw N N'. unfold Threads.advance in Ea. unfold inside in N.
  destruct (here t) as [|X M|X M|X M x|M|M| | |x] eqn:Eh; try tauto.
  - destruct (todo t) as [|[X T k|] l] eqn:Et.
    + injection Ea as <- <-. auto.
    + destruct (emd X T k) as [o|e] eqn:Ee; injection Ea as <- <-; split; auto.
      * eapply well_goto; eauto. cbn. exists T, k, o, l. auto.
      * eapply well_finish; eauto. cbn. rewrite Ee. reflexivity.
    + destruct (at_imfs a) as [x|]; injection Ea as <- <-; split; auto.
      * exfalso. apply N'. exact I.
      * eapply well_finish; eauto. cbn. auto.
  - injection Ea as <- <-. exfalso. apply N'. exact I.
Qed.

(** A step into the last lines, when nobody else is there. *)
Lemma advance_into a t a' t' : advance a t = (a', t') -> well a t -> settled a -> ~ inside t -> inside t' ->
  well a' t'.
Proof.
  intros Ea Hw Hs N N'. pose proof Hw as (_ & _ & H3). unfold Threads.advance in Ea. unfold inside in N. unfold agrees in H3.
  destruct (here t) as [|X M|X M|X M x|M|M| | |x] eqn:Eh; try tauto.
  - destruct (todo t) as [|[X T k|] l] eqn:Et.
    + injection Ea as <- <-. auto.
    + destruct (emd X T k) as [o|e] eqn:Ee; injection Ea as <- <-; [destruct N'|exfalso; eapply finish_outside; eauto].
    + destruct (at_imfs a) as [x|]; injection Ea as <- <-; [|exfalso; eapply finish_outside; eauto].
      eapply well_goto; eauto. cbn. split; eauto.
  - injection Ea as <- <-. eapply well_goto; eauto. cbn. auto.
Qed.

(** A step inside them. *)
Lemma advance_inside a t a' t' : advance a t = (a', t') -> well a t -> inside t ->
  well a' t' /\ (~ inside t' -> settled a').
Proof.
  intros Ea Hw N. pose proof Hw as (H1 & _ & H3). unfold Threads.advance in Ea. unfold inside in N. unfold agrees in H3.
  destruct (here t) as [|X M|X M|X M x|M|M| | |x] eqn:Eh; try tauto; clear N.
  - destruct H3 as (Hc & Em). rewrite Em in Ea. injection Ea as <- <-. split; [|intros N; exfalso; apply N; exact I].
    eapply well_goto; eauto. cbn. auto.
  - destruct H3 as ((T & k & o & l & Et & Ee & ->) & Em & ->).
    destruct (own_residue _ _ _ _ Ee) as (Hb & _). cbn [width body components] in Ea. rewrite Hb in Ea.
    injection Ea as <- <-. split; [|intros N; exfalso; apply N; exact I].
    eapply well_goto; eauto. cbn. exists X, T, k, o, l. repeat (split; auto).
  - destruct H3 as (X & T & k & o & l & Et & Ee & -> & Ei & Er). rewrite Er in Ea.
    destruct (own_residue _ _ _ _ Ee) as (_ & Hl & Ho).
    destruct (allclose0 (residue o)) eqn:Ec; injection Ea as <- <-.
    + split; [|intros _; right; exists X, T, k, o; repeat (split; auto); apply H1; rewrite Et; left; auto].
      eapply well_finish; eauto. cbn. rewrite Ee, Ho. reflexivity.
    + split; [|intros N; exfalso; apply N; exact I]. eapply well_goto; eauto. cbn. exists X, T, k, o, l. repeat (split; auto).
  - destruct H3 as (X & T & k & o & l & Et & Ee & -> & (Ei & Er) & Ec). rewrite Er in Ea.
    destruct (own_residue _ _ _ _ Ee) as (_ & Hl & Ho). injection Ea as <- <-.
    split; [|intros _; right; exists X, T, k, o; repeat (split; auto); apply H1; rewrite Et; left; auto].
    eapply well_finish; eauto. cbn. rewrite Ee, Ho, Ec. unfold vstack1, components. cbn.
    rewrite Hl, Nat.eqb_refl. reflexivity.
  - destruct H3 as ((l & Et) & Hs). destruct (at_res a) as [r|] eqn:Er; injection Ea as <- <-.
    + split; [|intros N; exfalso; apply N; exact I]. eapply well_goto; eauto. cbn. repeat (split; eauto). congruence.
    + split; auto. eapply well_finish; eauto. cbn. auto.
  - destruct H3 as ((l & Et) & Hs & Hr). injection Ea as <- <-. split; [|intros N; exfalso; apply N; exact I].
    eapply well_goto; eauto. cbn. repeat (split; eauto).
  - destruct H3 as ((l & Et) & Hs & Hr & ->). injection Ea as <- <-. split; auto.
    eapply well_finish; eauto. cbn. destruct Hs as [(Ei & Er)|(X & T & k & o & Hq & Ee & Ei & Er)]; [congruence|].
    right. exists X, T, k, o. rewrite Ei, Er. auto.
Qed.

Lemma inside_dec (t : thread A) : {inside t} + {~ inside t}.
Proof. unfold inside. destruct (here t); auto. Qed.

Lemma tick_orderly w i : one_inside w -> one_inside (tick w i) -> orderly w -> orderly (tick w i).
Proof.
  intros O O' (Hw & Hs). unfold Threads.tick in *. destruct (nth_error (w_threads w) i) as [t|] eqn:Ei; [|split; auto].
  destruct (advance (w_attrs w) t) as (a', t') eqn:Ea. cbn in O'.
  pose proof (nth_error_In _ _ Ei) as Ht.
  assert (Other : forall u, In u (replace (w_threads w) i t') ->
            u = t' \/ exists j, j <> i /\ nth_error (w_threads w) j = Some u).
  { intros u Hu. apply In_nth_error in Hu as (j & Ej). destruct (Nat.eq_dec j i) as [->|N].
    - left. rewrite (nth_replace_same _ _ _ _ Ei) in Ej. congruence.
    - right. exists j. rewrite nth_replace_other in Ej by auto. auto. }
  assert (Here : In t' (replace (w_threads w) i t')).
  { eapply nth_error_In. eapply nth_replace_same; eauto. }
  destruct (inside_dec t) as [I1|I1].
  - (* everybody else is outside *)
    destruct (advance_inside _ _ _ _ Ea (Hw _ Ht) I1) as (W' & S').
    split; cbn.
    + intros u Hu. destruct (Other _ Hu) as [->|(j & N & Ej)]; auto.
      apply well_outside with (a := w_attrs w); [|apply Hw; eapply nth_error_In; eauto].
      intros Iu. apply N. eapply O; eauto.
    + intros All. apply S', All, Here.
  - destruct (inside_dec t') as [I2|I2].
    + assert (Out : forall j u, j <> i -> nth_error (w_threads w) j = Some u -> ~ inside u).
      { intros j u N Ej Iu. apply N. symmetry. apply (O' i j t' u); auto.
        - eapply nth_replace_same; eauto.
        - cbn [w_threads]. rewrite nth_replace_other; auto. }
      assert (St : settled (w_attrs w)).
      { apply Hs. intros u Hu. apply In_nth_error in Hu as (j & Ej). destruct (Nat.eq_dec j i) as [->|N]; eauto.
        congruence. }
      pose proof (advance_into _ _ _ _ Ea (Hw _ Ht) St I1 I2) as W'.
      split; cbn.
      * intros u Hu. destruct (Other _ Hu) as [->|(j & N & Ej)]; auto.
        apply well_outside with (a := w_attrs w); [eauto|apply Hw; eapply nth_error_In; eauto].
      * intros All. exfalso. eapply All; eauto.
    + destruct (advance_outside _ _ _ _ Ea (Hw _ Ht) I1 I2) as (-> & W').
      split; cbn.
      * intros u Hu. destruct (Other _ Hu) as [->|(j & N & Ej)]; auto. apply Hw. eapply nth_error_In; eauto.
      * intros All. apply Hs. intros u Hu. apply In_nth_error in Hu as (j & Ej).
        destruct (Nat.eq_dec j i) as [->|N]; [congruence|]. apply All.
        apply nth_error_In with (n := j). rewrite nth_replace_other; auto.
Qed.

Lemma run_orderly s : forall w, taking_turns spl fuel c w s -> orderly w -> orderly (run w s).
Proof.
  induction s as [|i s IH]; intros w HT Hw; [exact Hw|]. destruct HT as (O & HT).
  change (run w (i :: s)) with (run (tick w i) s). apply IH; auto. apply tick_orderly; auto.
  destruct s; apply HT.
Qed.

Lemma start_orderly : orderly (start jobs).
Proof.
  split; cbn; [|left; auto]. intros t Ht. apply in_map_iff in Ht as (l & <- & Hl).
  split; [|split]; cbn; auto; [|intros ? ? []]. intros j Hj. exists l. auto.
Qed.

Lemma turns s j R : taking_turns spl fuel c (start jobs) s -> replied (run (start jobs) s) j R -> right_reply j R.
Proof.
  intros HT (t & Ht & Hd). destruct (run_orderly s _ HT start_orderly) as (Hw & _).
  destruct (Hw _ Ht) as (_ & Hr & _). auto.
Qed.
End Turns.
End Threads.
