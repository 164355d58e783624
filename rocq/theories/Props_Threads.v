(** * Props_Threads: property C103, one EMD object called from several threads.

    [run (start jobs) s] (Threads.v) is a new EMD object and threads, of which number [i] has the list
    [jobs_i] of calls [emd.emd(S, T, k)] and [emd.get_imfs_and_residue()] to make, after the steps
    of the schedule [s]: any list of thread numbers.  [replied] are the results they got. *)
From Verif Require Import PyFacts QcFacts Threads ThreadsSpec Spec Demo EmdProofs EmdExact Props_Eemd ThreadsProofs.
From Coq Require Import QArith Qcanon Lia.
Open Scope Z_scope.

(** ** Any schedule *)

(** A call raises what it would raise alone.  If it would have returned, the components in its result are
    its own, whatever the other threads do.  After them comes at most one more row: a difference
    between the signal of some call and the components of some call.  The only other outcome is
    ValueError. *)
Theorem C103_components {A} `{Num A} spl fuel (c : emd_config A) jobs s X T k R :
  replied (run spl fuel c (start jobs) s) (Call X T k) R ->
  exists r, R = Rows r /\
  match emd spl fuel c X T k with
  | Raise e => r = Raise e
  | Ok o => r = Raise ValueError \/ r = Ok (imfs o) \/
            exists v, r = Ok (imfs o ++ [v]) /\ length v = length X /\ some_difference spl fuel c jobs v
  end.
Proof. exact (any_call spl fuel c jobs s X T k R). Qed.
Print Assumptions C103_components.

(** With signals of one length nobody gets an exception because of another thread. *)
Theorem C103_same_length {A} `{Num A} spl fuel (c : emd_config A) jobs n s X T k R :
  (forall X T k, requested jobs (Call X T k) -> length X = n) ->
  replied (run spl fuel c (start jobs) s) (Call X T k) R ->
  match emd spl fuel c X T k with
  | Raise e => R = Rows (Raise e)
  | Ok o => R = Rows (Ok (imfs o)) \/ exists v, R = Rows (Ok (imfs o ++ [v])) /\ length v = n
  end.
Proof. exact (same_length spl fuel c jobs n s X T k R). Qed.
Print Assumptions C103_same_length.

(** [get_imfs_and_residue] raises ValueError or gives the components of some call and a difference,
    perhaps not of that call; never half of the pair. *)
Theorem C103_report {A} `{Num A} spl fuel (c : emd_config A) jobs s R :
  replied (run spl fuel c (start jobs) s) Ask R ->
  R = Pair (Raise ValueError) \/
  exists X T k o v, requested jobs (Call X T k) /\ emd spl fuel c X T k = Ok o /\ some_difference spl fuel c jobs v /\
    R = Pair (Ok (Some (MkArr (length X) (imfs o)), Some v)).
Proof. exact (any_report spl fuel c jobs s R). Qed.
Print Assumptions C103_report.

(** Threads that all decompose the same signal in the same way get what one thread would get. *)
Theorem C103_same_call {A} `{Num A} spl fuel (c : emd_config A) jobs s X T k :
  (forall X' T' k', requested jobs (Call X' T' k') -> X' = X /\ T' = T /\ k' = k) ->
  (forall R, replied (run spl fuel c (start jobs) s) (Call X T k) R ->
     R = Rows (fst (emd_call spl fuel c emd_init X T k))) /\
  (forall R, replied (run spl fuel c (start jobs) s) Ask R ->
     R = Pair (Raise ValueError) \/
     exists o, emd spl fuel c X T k = Ok o /\ R = Pair (Ok (Some (MkArr (length X) (imfs o)), Some (residue o)))).
Proof.
  intros Hj. destruct (same_call spl fuel c jobs s X T k Hj) as (P & Q). split; [|exact Q].
  intros R HR. rewrite (P R HR). unfold emd_call. destruct (emd spl fuel c X T k); reflexivity.
Qed.
Print Assumptions C103_same_call.

(** ** Schedules under which no two threads are in the last lines at the same time *)

(** Everybody gets what they would get alone, and a report belongs to one call. *)
Theorem C103_turns {A} `{Num A} spl fuel (c : emd_config A) jobs s :
  taking_turns spl fuel c (start jobs) s ->
  (forall X T k R, replied (run spl fuel c (start jobs) s) (Call X T k) R ->
     R = Rows (fst (emd_call spl fuel c emd_init X T k))) /\
  (forall R, replied (run spl fuel c (start jobs) s) Ask R ->
     R = Pair (Raise ValueError) \/
     exists X T k o, requested jobs (Call X T k) /\ emd spl fuel c X T k = Ok o /\
       R = Pair (Ok (Some (MkArr (length X) (imfs o)), Some (residue o)))).
Proof.
  intros HT. split.
  - intros X T k R HR. rewrite (turns spl fuel c jobs s _ _ HT HR). unfold emd_call.
    destruct (emd spl fuel c X T k); reflexivity.
  - intros R HR. exact (turns spl fuel c jobs s _ _ HT HR).
Qed.
Print Assumptions C103_turns.

(** ** Nobody waits *)

(** Every thread makes its calls in order, and six steps of its own are enough for each,
    whatever the other threads do. *)
Theorem C103_order {A} `{Num A} spl fuel (c : emd_config A) jobs s i t :
  nth_error (w_threads (run spl fuel c (start jobs) s)) i = Some t ->
  nth_error jobs i = Some (map fst (done t) ++ todo t).
Proof. exact (thread_agenda spl fuel c jobs s i t). Qed.
Print Assumptions C103_order.

Theorem C103_progress {A} `{Num A} spl fuel (c : emd_config A) jobs s i l :
  nth_error jobs i = Some l -> (6 * length l <= count_occ Nat.eq_dec s i)%nat ->
  exists t, nth_error (w_threads (run spl fuel c (start jobs) s)) i = Some t /\ todo t = [] /\ map fst (done t) = l.
Proof. exact (finishes spl fuel c jobs s i l). Qed.
Print Assumptions C103_progress.

(** ** What is not true *)
Definition up3 : list Qc := qs [1; 2; 3].
Definition steep3 : list Qc := qs [4; 6; 8].
Definition up4 : list Qc := qs [1; 2; 3; 4].
Definition two_threads (X Y : list Qc) : list (list (job Qc)) := [[Call X None (-1)]; [Call Y None (-1)]].
Definition racing (jobs : list (list (job Qc))) (s : list nat) := run lin_spl 10 demo_fixe (start jobs) s.
(** Both threads have written their residue; then the first goes on. *)
Definition race : list nat := [0; 0; 0; 0; 1; 1; 1; 1; 0; 0]%nat.

(** The rows of a result need not add up to the signal: the last one may be another thread's. *)
Theorem C103_sum_refuted :
  exists spl fuel c jobs s X T k M,
    replied (run spl fuel c (start jobs) s) (Call X T k) (Rows (Ok M)) /\ ~ adds_up M X.
Proof.
  exists lin_spl, 10%nat, demo_fixe, (two_threads up3 steep3), race, up3, None, (-1), [steep3].
  split.
  - change (replied (racing (two_threads up3 steep3) race) (Call up3 None (-1)) (Rows (Ok [steep3]))).
    exists (MkThread [] Between [(Call up3 None (-1), Rows (Ok [steep3]))]).
    split; [|left; reflexivity].
    apply nth_error_In with (n := 0%nat). vm_compute. reflexivity.
  - intros F. specialize (F 0%nat ltac:(cbn; lia)). vm_compute in F. discriminate.
Qed.
Print Assumptions C103_sum_refuted.

(** A call that alone would return may raise ValueError. *)
Theorem C103_raises_refuted :
  exists (spl : spline_oracle Qc) fuel c jobs s X T k o,
    emd spl fuel c X T k = Ok o /\
    replied (run spl fuel c (start jobs) s) (Call X T k) (Rows (Raise ValueError)).
Proof.
  exists lin_spl, 10%nat, demo_fixe, (two_threads up3 up4), race, up3, None, (-1), (MkOut [up3] [] up3).
  split; [vm_compute; reflexivity|].
  change (replied (racing (two_threads up3 up4) race) (Call up3 None (-1)) (Rows (Raise ValueError))).
  exists (MkThread [] Between [(Call up3 None (-1), Rows (Raise ValueError))]).
  split; [|left; reflexivity].
  apply nth_error_In with (n := 0%nat). vm_compute. reflexivity.
Qed.
Print Assumptions C103_raises_refuted.

(** A report may join the components of one call and the residue of another: the pair then adds up to
    the signal of no call. *)
Definition up9 : list Qc := qs [11; 12; 13; 14; 15; 16; 17; 18; 19].
Definition three_threads : list (list (job Qc)) := [[Call short_S None (-1)]; [Ask]; [Call up9 None (-1)]].
Definition tearing : list nat := [0; 0; 0; 0; 0; 0; 1; 1; 1; 2; 2; 2; 2; 1]%nat.
Definition torn (w : world Qc) : bool :=
  match nth_error (w_threads w) 1 with
  | Some t => match done t with
              | [(Ask, Pair (Ok (Some x, Some v)))] =>
                  negb (Qeq_bool (total_at (body x ++ [v]) 1) (nth 1 short_S 0%Qc)) &&
                  negb (Qeq_bool (total_at (body x ++ [v]) 1) (nth 1 up9 0%Qc))
              | _ => false
              end
  | None => false
  end.
Lemma torn_spec w : torn w = true -> exists x v, replied w Ask (Pair (Ok (Some x, Some v))) /\
  forall X T k, requested three_threads (Call X T k) -> ~ adds_up (body x ++ [v]) X.
Proof.
  unfold torn. intros B. destruct (nth_error (w_threads w) 1) as [t|] eqn:E; [|discriminate].
  destruct (done t) as [|[[|] [|[[[x|] [v|]]|]]] []] eqn:D; try discriminate.
  exists x, v. split.
  - exists t. split; [eapply nth_error_In; exact E|]. rewrite D. left. reflexivity.
  - clear E D t. apply andb_prop in B as (B1 & B2).
    intros X T k (l & [<-|[<-|[<-|[]]]] & [J|[]]); try discriminate; injection J as <- <- <-;
      intros F; specialize (F 1%nat ltac:(cbn; lia)).
    + rewrite F in B1. vm_compute in B1. discriminate.
    + rewrite F in B2. vm_compute in B2. discriminate.
Qed.
Theorem C103_report_refuted :
  exists spl fuel c jobs s x v,
    replied (run spl fuel c (start jobs) s) Ask (Pair (Ok (Some x, Some v))) /\
    forall X T k, requested jobs (Call X T k) -> ~ adds_up (body x ++ [v]) X.
Proof.
  exists lin_spl, 10%nat, demo_fixe, three_threads, tearing.
  exact (torn_spec (racing three_threads tearing) ltac:(vm_compute; reflexivity)).
Qed.
Print Assumptions C103_report_refuted.

(** Two threads that take turns, with reports, both finish; the schedule is not one thread after the
    other. *)
Definition polite_jobs : list (list (job Qc)) :=
  [[Call up3 None (-1); Ask]; [Ask; Call steep3 None (-1)]].
Definition polite : list nat := [0; 1; 0; 0; 0; 0; 0; 1; 1; 1; 1; 1; 1; 1; 0; 0; 0; 0]%nat.
Definition inside_b {A} (t : thread A) : bool := match here t with Between | Found _ _ => false | _ => true end.
Fixpoint turns_b (w : world Qc) (s : list nat) : bool :=
  Nat.leb (List.length (filter inside_b (w_threads w))) 1 &&
  match s with [] => true | i :: l => turns_b (tick lin_spl 10 demo_fixe w i) l end.
Lemma inside_b_spec {A} (t : thread A) : inside t -> inside_b t = true.
Proof. unfold inside, inside_b. destruct (here t); tauto. Qed.
Lemma one_inside_b {A} (w : world A) : (List.length (filter inside_b (w_threads w)) <= 1)%nat -> one_inside w.
Proof.
  intros L i j t u Ei Ej It Iu. apply inside_b_spec in It, Iu.
  revert i j L Ei Ej. induction (w_threads w) as [|z l IH]; intros [|i] [|j] L Ei Ej; try discriminate; auto.
  - cbn in Ei, Ej, L. injection Ei as ->. rewrite It in L. cbn in L.
    assert (In u (filter inside_b l)) by (apply filter_In; split; auto; eapply nth_error_In; eauto).
    destruct (filter inside_b l); [contradiction|cbn in L; lia].
  - cbn in Ei, Ej, L. injection Ej as ->. rewrite Iu in L. cbn in L.
    assert (In t (filter inside_b l)) by (apply filter_In; split; auto; eapply nth_error_In; eauto).
    destruct (filter inside_b l); [contradiction|cbn in L; lia].
  - f_equal. cbn in Ei, Ej, L. eapply IH; eauto. destruct (inside_b z); cbn in L; lia.
Qed.
Lemma turns_b_spec s : forall w, turns_b w s = true -> taking_turns lin_spl 10 demo_fixe w s.
Proof.
  induction s as [|i s IH]; intros w E; cbn [turns_b] in E; apply andb_prop in E as (E1 & E2);
    apply Nat.leb_le in E1; split; auto using one_inside_b.
Qed.
Example C103_nonvacuous :
  taking_turns lin_spl 10 demo_fixe (start polite_jobs) polite /\
  w_threads (racing polite_jobs polite) =
    [MkThread [] Between
       [(Call up3 None (-1), Rows (Ok [up3])); (Ask, Pair (Ok (Some (MkArr 3 []), Some steep3)))];
     MkThread [] Between
       [(Ask, Pair (Raise ValueError)); (Call steep3 None (-1), Rows (Ok [steep3]))]].
Proof.
  split; [apply turns_b_spec; vm_compute; reflexivity|]. vm_compute. reflexivity.
Qed.
(** Calls of one length, and calls all alike, in any interleaving. *)
Example C103_nonvacuous_same :
  (forall X T k, requested (two_threads up3 steep3) (Call X T k) -> List.length X = 3%nat) /\
  (forall X T k, requested (two_threads up3 up3) (Call X T k) -> X = up3 /\ T = None /\ k = -1) /\
  (12 <= count_occ Nat.eq_dec (race ++ [0; 0; 0; 0; 0; 0]) 0)%nat.
Proof.
  split; [|split].
  - intros X T k (l & [<-|[<-|[]]] & [J|[]]); injection J as <- <- <-; reflexivity.
  - intros X T k (l & [<-|[<-|[]]] & [J|[]]); injection J as <- <- <-; auto.
  - cbn. lia.
Qed.
