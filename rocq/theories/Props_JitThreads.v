(** * C113: one JitEMD object used by several threads.

    [run_all method (opening jit_init jobs) s]: a new object and threads with lists of calls to make, which make steps
    in the order given by the schedule [s].  [o_log] lists the completed calls, each with its thread and outcome. *)
From Verif Require Import PyFacts QcFacts Prepare Jit Spec Demo JitThreads JitThreadsSpec Steps StepsProofs Guarded JitThreadsProofs JitThreadsLog.
From Coq Require Import QArith Qcanon List Lia.
Open Scope Z_scope.

(** Under every schedule a decomposition returns, or raises, what it would alone. *)
Theorem C113_calls :
  forall {A} `{Num A} (spl : spline_oracle A) fuel strict c jobs s i X T k r,
  In (i, JitDecompose X T k, r) (o_log (run_all (jit_method spl fuel strict c) (opening jit_init jobs) s)) ->
  match jit_emd spl fuel strict c X T k with
  | Ok M => r = Ok (JitRows M)
  | Raise e => r = Raise e
  end.
Proof.
  intros A N spl fuel strict c jobs s i X T k r Hin. apply jit_any in Hin. cbn [fair_reply] in Hin. subst r.
  destruct (jit_emd spl fuel strict c X T k); reflexivity.
Qed.
Print Assumptions C113_calls.

(** [get_imfs_and_trend] raises TypeError, or reports on results of calls some thread was to make: the components of
    one and the last row of another, or, if it found a negligible last row, the components but one of one and the last
    component of another. *)
Theorem C113_report :
  forall {A} `{Num A} (spl : spline_oracle A) fuel strict c jobs s i r,
  In (i, JitAsk, r) (o_log (run_all (jit_method spl fuel strict c) (opening jit_init jobs) s)) ->
  r = Raise TypeError \/
  exists M1 M2 M3, some_result spl fuel strict c jobs M1 /\ some_result spl fuel strict c jobs M2 /\ some_result spl fuel strict c jobs M3 /\
    if forallb allclose0 (py_from M1 (-1))
    then r = let! y := py_get (py_slice M2 0 (-1)) (-1) in Ok (JitPair (py_slice (py_slice M3 0 (-1)) 0 (-1)) (TrendRow y))
    else r = Ok (JitPair (py_slice M2 0 (-1)) (TrendRows (py_from M3 (-1)))).
Proof.
  intros A N spl fuel strict c jobs s i r Hin. apply jit_any in Hin. cbn [fair_reply] in Hin.
  destruct Hin as [E|[(M1 & M2 & M3 & H1 & H2 & H3 & E & Hr)|(M1 & M2 & M3 & H1 & H2 & H3 & E & Hr)]]; [left; exact E| |];
    right; exists M1, M2, M3; repeat (split; [assumption|]); rewrite E; exact Hr.
Qed.
Print Assumptions C113_report.

(** A report that ends after a decomposition has returned does not raise TypeError. *)
Theorem C113_after :
  forall {A} `{Num A} (spl : spline_oracle A) fuel strict c jobs s l1 i X T k M l2 i',
  o_log (run_all (jit_method spl fuel strict c) (opening jit_init jobs) s) = l1 ++ (i, JitDecompose X T k, Ok M) :: l2 ->
  ~ In (i', JitAsk, Raise TypeError) l2.
Proof. exact @jit_after. Qed.
Print Assumptions C113_after.

(** If all threads decompose the same signal in the same way, a report is TypeError or what it is after one such call alone. *)
Theorem C113_same_call :
  forall {A} `{Num A} (spl : spline_oracle A) fuel strict c jobs s i r X T k M,
  (forall l j, In l jobs -> In j l -> j = JitAsk \/ j = JitDecompose X T k) ->
  jit_emd spl fuel strict c X T k = Ok M ->
  In (i, JitAsk, r) (o_log (run_all (jit_method spl fuel strict c) (opening jit_init jobs) s)) ->
  r = Raise TypeError \/
  r = let! (C, t) := jit_imfs_and_trend (snd (jit_call spl fuel strict c jit_init X T k)) in Ok (JitPair C t).
Proof.
  intros A N spl fuel strict c jobs s i r X T k M Hj HM Hin.
  assert (U : forall M', some_result spl fuel strict c jobs M' -> M' = M).
  { intros M' (l & X' & T' & k' & Hl & Hq & E). destruct (Hj l _ Hl Hq) as [C|C]; [discriminate|]. injection C as -> -> ->. congruence. }
  destruct (C113_report spl fuel strict c jobs s i r Hin) as [E|(M1 & M2 & M3 & H1 & H2 & H3 & Hr)]; [left; exact E|right].
  rewrite (U M1 H1), (U M2 H2), (U M3 H3) in Hr. unfold jit_call. rewrite HM. cbn [snd]. unfold jit_imfs_and_trend. cbn [jit_imfs jit_residue].
  destruct (forallb allclose0 (py_from M (-1))); rewrite Hr; [destruct (py_get _ _); reflexivity|reflexivity].
Qed.
Print Assumptions C113_same_call.

(** If no two threads are ever in a call at the same time, the outcomes are those of one thread making the same calls
    in the order in which they ended, and so is the object afterwards. *)
Theorem C113_turns :
  forall {A} `{Num A} (spl : spline_oracle A) fuel strict c a jobs s w,
  in_turns (jit_method spl fuel strict c) (opening a jobs) s ->
  w = run_all (jit_method spl fuel strict c) (opening a jobs) s ->
  map snd (o_log w) = results_in_row (jit_one_call spl fuel strict c) a (map (fun x => snd (fst x)) (o_log w)) /\
  ((forall t, In t (o_workers w) -> ~ engaged t) ->
   o_state w = object_after (jit_one_call spl fuel strict c) a (map (fun x => snd (fst x)) (o_log w))).
Proof.
  intros A N spl fuel strict c a jobs s w HT ->.
  exact (workers_turns (jit_method spl fuel strict c) (jit_one_call spl fuel strict c) (fun a => a) (jit_unaided spl fuel strict c) a jobs s HT).
Qed.
Print Assumptions C113_turns.

(** Under every schedule each thread makes its calls in its order, and a thread left to run makes them all. *)
Theorem C113_order :
  forall {A} `{Num A} (spl : spline_oracle A) fuel strict c a jobs s i t,
  nth_error (o_workers (run_all (jit_method spl fuel strict c) (opening a jobs) s)) i = Some t ->
  nth_error jobs i = Some (finished_by (run_all (jit_method spl fuel strict c) (opening a jobs) s) i ++ unfinished t) /\
  exists n t', nth_error (o_workers (run_all (jit_method spl fuel strict c) (opening a jobs) (s ++ repeat i n))) i = Some t' /\ unfinished t' = [].
Proof.
  intros A N spl fuel strict c a jobs s i t Hi. split; [apply workers_plan; exact Hi|].
  destruct (worker_ends (jit_method spl fuel strict c) _ i t Hi) as (n & t' & H1 & H2). exists n, t'. split; auto.
  unfold run_all in *. rewrite fold_left_app. exact H1.
Qed.
Print Assumptions C113_order.

(** ** Example: two threads decompose, a third asks *)
Definition low7 : list Qc := qs [0; 2; 0; 2; 0; 2; 0].
Definition high7 : list Qc := qs [1; 5; 1; 5; 1; 5; 1].
Definition wave1 : list Qc := qs [-1; 1; -1; 1; -1; 1; -1].
Definition wave2 : list Qc := qs [-2; 2; -2; 2; -2; 2; -2].
Definition level (z : Z) : list Qc := qs (repeat z 7).
Definition pit_call := jit_method lin_spl 10 true demo_fixe.
Definition pit : list (list (jit_job Qc)) := [[JitDecompose low7 (arange 7) (-1)]; [JitDecompose high7 (arange 7) (-1)]; [JitAsk]].
Ltac same_rows := vm_compute; repeat match goal with
  | |- @eq Qc _ _ => apply Qc_is_canon; vm_compute; reflexivity
  | |- _ = _ => first [reflexivity | f_equal]
  end.
Example C113_nonvacuous :
  o_log (run_all pit_call (opening jit_init pit) [2; 2; 0; 0; 0; 1; 1; 1]%nat) =
    [(2%nat, JitAsk, Raise TypeError); (0%nat, JitDecompose low7 (arange 7) (-1), Ok (JitRows [wave1; level 1]));
     (1%nat, JitDecompose high7 (arange 7) (-1), Ok (JitRows [wave2; level 3]))].
Proof. same_rows. Qed.
Example C113_turns_nonvacuous : in_turns pit_call (opening jit_init pit) [0; 0; 0; 2; 2; 2; 2]%nat /\
  o_log (run_all pit_call (opening jit_init pit) [0; 0; 0; 2; 2; 2; 2]%nat) =
    [(0%nat, JitDecompose low7 (arange 7) (-1), Ok (JitRows [wave1; level 1])); (2%nat, JitAsk, Ok (JitPair [wave1] (TrendRows [level 1])))].
Proof.
  split; [|same_rows].
  assert (One : forall w : office (jit_state Qc) (jit_job Qc) (jit_reply Qc),
    (length (filter (fun t => match inside t with Some _ => true | None => false end) (o_workers w)) <= 1)%nat -> one_engaged w).
  { intros w Hw i j t u Hi Hj Bt Bu. destruct (Nat.eq_dec i j) as [|N]; auto. exfalso. unfold engaged in *. enough (2 <= 1)%nat by lia.
    etransitivity; [|exact Hw]. apply (two_kept _ _ i j t u Hi Hj); auto; [destruct (inside t)|destruct (inside u)]; congruence. }
  repeat split; apply One; apply Nat.leb_le; vm_compute; reflexivity.
Qed.

(** Components and trend may come from different calls, and add up to no signal. *)
Lemma pit_log : o_log (run_all pit_call (opening jit_init pit) [0; 0; 0; 1; 1; 2; 2; 2; 2]%nat) =
  [(0%nat, JitDecompose low7 (arange 7) (-1), Ok (JitRows [wave1; level 1])); (2%nat, JitAsk, Ok (JitPair [wave2] (TrendRows [level 1])))].
Proof. same_rows. Qed.
Theorem C113_report_refuted :
  exists (spl : spline_oracle Qc) fuel strict c jobs s i M R,
  In (i, JitAsk, Ok (JitPair M (TrendRows R))) (o_log (run_all (jit_method spl fuel strict c) (opening jit_init jobs) s)) /\
  forall l X T k, In l jobs -> In (JitDecompose X T k) l -> ~ adds_up (M ++ R) X.
Proof.
  exists lin_spl, 10%nat, true, demo_fixe, pit, [0; 0; 0; 1; 1; 2; 2; 2; 2]%nat, 2%nat, [wave2], [level 1]. fold pit_call.
  rewrite pit_log. split; [right; left; reflexivity|].
  intros l X T k [<-|[<-|[<-|[]]]] [E|[]]; try discriminate; injection E as <- <- <-; intros F; specialize (F 0%nat ltac:(cbn; lia));
    apply (f_equal this) in F; vm_compute in F; discriminate.
Qed.
Print Assumptions C113_report_refuted.
