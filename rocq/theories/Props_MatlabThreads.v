(** * C114: one EMD_matlab.EMD object used by several threads.

    [run_all method (opening d jobs) s]: an object whose [DTYPE] is [d] and threads with lists of calls to make, on
    float64 or int64 arrays, which make steps in the order given by the schedule [s].  [o_log] lists the completed calls,
    each with its thread and outcome.  [m_emd], [m_emd_int]: the same calls alone (Matlab.v, MatlabInt.v). *)
From Verif Require Import PyFacts QcFacts Emd Matlab MatlabInt Spec MatlabSpec MatlabThreads MatlabThreadsSpec Steps StepsProofs Guarded
  MatlabThreadsProofs MatlabDemo Demo.
From Coq Require Import QArith Qcanon List Lia.
Open Scope Z_scope.

(** If all threads use float64 arrays, every schedule gives every call what it gives alone. *)
Theorem C114_floats :
  forall {A} `{Num A} (spl : spline_oracle A) fuel c d jobs s i j r,
  (forall l j, In l jobs -> In j l -> exists X T k, j = Floats X T k) ->
  In (i, j, r) (o_log (run_all (m_emd_steps spl fuel c) (opening d jobs) s)) ->
  match j with Floats X T k => r = m_emd spl fuel c X T k | Ints _ _ _ => False end.
Proof.
  intros A N spl fuel c d jobs s i j r Hj Hin.
  assert (HK : forall l j, In l jobs -> In j l -> kind_of j = AsFloat) by (intros l j' Hl Hi; destruct (Hj l j' Hl Hi) as (X & T & k & ->); reflexivity).
  pose proof (same_kind spl c fuel AsFloat jobs d s HK i j r Hin) as E.
  destruct (job_asked spl c fuel d jobs s i j r Hin) as (l & Hl & Hi). destruct (Hj l j Hl Hi) as (X & T & k & ->). exact E.
Qed.
Print Assumptions C114_floats.

(** If all use int64 arrays, likewise. *)
Theorem C114_ints :
  forall {A} `{Num A} (spl : spline_oracle A) fuel c d jobs s i j r,
  (forall l j, In l jobs -> In j l -> exists X T k, j = Ints X T k) ->
  In (i, j, r) (o_log (run_all (m_emd_steps spl fuel c) (opening d jobs) s)) ->
  match j with Ints X T k => r = m_emd_int spl fuel c X T k | Floats _ _ _ => False end.
Proof.
  intros A N spl fuel c d jobs s i j r Hj Hin.
  assert (HK : forall l j, In l jobs -> In j l -> kind_of j = AsInt) by (intros l j' Hl Hi; destruct (Hj l j' Hl Hi) as (X & T & k & ->); reflexivity).
  pose proof (same_kind spl c fuel AsInt jobs d s HK i j r Hin) as E.
  destruct (job_asked spl c fuel d jobs s i j r Hin) as (l & Hl & Hi). destruct (Hj l j Hl Hi) as (X & T & k & ->). exact E.
Qed.
Print Assumptions C114_ints.

(** Whatever the types and the schedule: the rows a call returns have the length of its own signal and add up to it, up
    to a rest of total size at most 1e-10. *)
Theorem C114_sum :
  forall (spl : spline_oracle Qc) fuel c d jobs s i j rows no,
  In (i, j, Ok (rows, no)) (o_log (run_all (m_emd_steps spl fuel c) (opening d jobs) s)) ->
  let S := match j with Floats X _ _ => X | Ints X _ _ => map Qc_ofZ X end in
  shaped (length S) (map row_imf rows) /\ no = zlen rows /\
  (adds_up (map row_imf rows) S \/ exists R, remainder S (map row_imf rows) R /\ tiny R).
Proof. intros spl fuel c d jobs s i j rows no Hin. apply any_ends, ends_sum in Hin. destruct j; exact Hin. Qed.
Print Assumptions C114_sum.

(** If no two threads are ever in a call at the same time, every call gives what it gives alone, whatever the types, and
    the object keeps the type of the last. *)
Theorem C114_turns :
  forall {A} `{Num A} (spl : spline_oracle A) fuel c d jobs s w,
  in_turns (m_emd_steps spl fuel c) (opening d jobs) s ->
  w = run_all (m_emd_steps spl fuel c) (opening d jobs) s ->
  (forall i j r, In (i, j, r) (o_log w) ->
     r = match j with Floats X T k => m_emd spl fuel c X T k | Ints X T k => m_emd_int spl fuel c X T k end) /\
  ((forall t, In t (o_workers w) -> ~ engaged t) ->
   o_state w = last (map (fun x => kind_of (snd (fst x))) (o_log w)) d).
Proof.
  intros A N spl fuel c d jobs s w HT ->.
  destruct (workers_turns (m_emd_steps spl fuel c) (m_one_call spl fuel c) (fun a => a) (emd_unaided spl c fuel) d jobs s HT) as [H1 H2].
  split.
  - intros i j r Hin. unfold answers, jobs_done in H1. exact (row_outcomes spl c fuel _ d H1 i j r Hin).
  - intros HN. rewrite (H2 HN). unfold jobs_done. rewrite row_object, map_map. reflexivity.
Qed.
Print Assumptions C114_turns.

(** Under every schedule each thread makes its calls in its order, and a thread left to run makes them all. *)
Theorem C114_order :
  forall {A} `{Num A} (spl : spline_oracle A) fuel c d jobs s i t,
  nth_error (o_workers (run_all (m_emd_steps spl fuel c) (opening d jobs) s)) i = Some t ->
  nth_error jobs i = Some (finished_by (run_all (m_emd_steps spl fuel c) (opening d jobs) s) i ++ unfinished t) /\
  exists n t', nth_error (o_workers (run_all (m_emd_steps spl fuel c) (opening d jobs) (s ++ repeat i n))) i = Some t' /\ unfinished t' = [].
Proof.
  intros A N spl fuel c d jobs s i t Hi. split; [apply workers_plan; exact Hi|].
  destruct (worker_ends (m_emd_steps spl fuel c) _ i t Hi) as (n & t' & H1 & H2). exists n, t'. split; auto.
  unfold run_all in *. rewrite fold_left_app. exact H1.
Qed.
Print Assumptions C114_order.

(** ** Example: one thread decomposes floats, another integers *)
Definition half_wave : list Qc := map (fun z => (Qc_ofZ z * nhalf)%Qc) [1; -1; 1; -1; 1; -1; 1].
Definition bench : list (list (m_job Qc)) := [[Floats half_wave None None]; [Ints [0; 3; -2; 4; -1; 2] None None]].
Definition bench_call := m_emd_steps lin_spl 9 mat_fixe.
Definition seen (w : office kept_type (m_job Qc) (list (m_row Qc) * Z)) : list (nat * list (list Q)) :=
  map (fun x => (fst (fst x), match snd x with Ok (rows, _) => map (fun r => map this (row_imf r)) rows | Raise _ => [] end)) (o_log w).
Definition one_by_one : list nat := repeat 0%nat 30 ++ repeat 1%nat 40.
Definition waves : list Q := [1 # 2; -1 # 2; 1 # 2; -1 # 2; 1 # 2; -1 # 2; 1 # 2]%Q.
Definition nothing : list Q := [0; 0; 0; 0; 0; 0; 0]%Q.
Example C114_nonvacuous : in_turns bench_call (opening AsFloat bench) one_by_one /\
  seen (run_all bench_call (opening AsFloat bench) one_by_one) =
    [(0%nat, [waves; nothing]);
     (1%nat, [[-1 # 2; 5 # 2; -5 # 2; 5 # 2; -5 # 2; 1 # 2]; [1 # 2; 1 # 2; 1 # 2; 3 # 2; 3 # 2; 3 # 2]]%Q)] /\
  o_state (run_all bench_call (opening AsFloat bench) one_by_one) = AsInt.
Proof.
  split; [|split; vm_compute; reflexivity].
  assert (One : forall w : office kept_type (m_job Qc) (list (m_row Qc) * Z),
    (length (filter (fun t => match inside t with Some _ => true | None => false end) (o_workers w)) <= 1)%nat -> one_engaged w).
  { intros w Hw i j t u Hi Hj Bt Bu. destruct (Nat.eq_dec i j) as [|N]; auto. exfalso. unfold engaged in *. enough (2 <= 1)%nat by lia.
    etransitivity; [|exact Hw]. apply (two_kept _ _ i j t u Hi Hj); auto; [destruct (inside t)|destruct (inside u)]; congruence. }
  assert (Check : forall s w, (fix ok s w := Nat.leb (length (filter (fun t => match inside t with Some _ => true | None => false end) (o_workers w))) 1 &&
      match s with [] => true | i :: s' => ok s' (turn bench_call w i) end) s w = true -> in_turns bench_call w s).
  { induction s as [|i s IH]; intros w E; apply andb_prop in E as [E1 E2]; apply Nat.leb_le in E1; (split; [apply One; exact E1|]); [exact I|auto]. }
  apply Check. vm_compute. reflexivity.
Qed.
(** Two float threads in the middle of their calls at the same time. *)
Example C114_floats_nonvacuous :
  seen (run_all bench_call (opening AsInt [[Floats half_wave None None]; [Floats half_wave None None]]) (concat (repeat [0; 1]%nat 15))) =
    [(0%nat, [waves; nothing]); (1%nat, [waves; nothing])].
Proof. vm_compute. reflexivity. Qed.
Example C114_ints_nonvacuous :
  seen (run_all bench_call (opening AsFloat [[Ints [0; 1; 0; 1; 0] None None]; [Ints [0; 1; 0; 1; 0] None None]]) (concat (repeat [0; 1]%nat 15))) =
    let rows := [[-1 # 2; 1 # 2; -1 # 2; 1 # 2; -1 # 2]; [1 # 2; 1 # 2; 1 # 2; 1 # 2; 1 # 2]]%Q in [(0%nat, rows); (1%nat, rows)].
Proof. vm_compute. reflexivity. Qed.

(** A thread with integers changes what one with floats gets: here the signal is cut to zeros, the first row is zero and
    the whole signal comes out as the rest. *)
Definition intrusion : list nat := [0; 0; 1; 1; 0; 0; 0; 0; 0; 0; 0; 0; 0; 0]%nat.
Lemma bench_intruded : seen (run_all bench_call (opening AsFloat bench) intrusion) = [(0%nat, [nothing; waves])].
Proof. vm_compute. reflexivity. Qed.
Lemma bench_there : nth_error (o_workers (run_all bench_call (opening AsFloat bench) intrusion)) 0 <> None.
Proof. vm_compute. discriminate. Qed.
Lemma bench_plan t : nth_error (o_workers (run_all bench_call (opening AsFloat bench) intrusion)) 0 = Some t ->
  nth_error bench 0 = Some (finished_by (run_all bench_call (opening AsFloat bench) intrusion) 0 ++ unfinished t).
Proof. apply workers_plan. Qed.
Lemma only_log w M : seen w = [(0%nat, M)] -> nth_error (o_workers w) 0 <> None ->
  (forall t, nth_error (o_workers w) 0 = Some t -> nth_error bench 0 = Some (finished_by w 0 ++ unfinished t)) ->
  M <> [] -> exists rows no, o_log w = [(0%nat, Floats half_wave None None, Ok (rows, no))] /\ map (fun r => map this (row_imf r)) rows = M.
Proof.
  intros B N HP HM. unfold seen in B. unfold finished_by in HP. destruct (o_log w) as [|[[i j] r] [|? ?]]; cbn [map fst snd] in B; try discriminate.
  injection B as Hi Hr. subst i. destruct (nth_error (o_workers w) 0) as [t|]; [|congruence]. specialize (HP t eq_refl).
  change (Some [Floats half_wave None None] = Some (j :: unfinished t)) in HP. injection HP as HJ _. subst j.
  destruct r as [[rows no]|]; [|congruence]. exists rows, no. auto.
Qed.
Lemma bench_alone : match m_emd lin_spl 9 mat_fixe half_wave None None with
  | Ok (rows, _) => map (fun r => map this (row_imf r)) rows | Raise _ => [] end = [waves; nothing].
Proof. vm_compute. reflexivity. Qed.
Theorem C114_mixed_refuted :
  exists (spl : spline_oracle Qc) fuel c d jobs s i X T k rows no rows' no',
  In (i, Floats X T k, Ok (rows, no)) (o_log (run_all (m_emd_steps spl fuel c) (opening d jobs) s)) /\
  m_emd spl fuel c X T k = Ok (rows', no') /\ map row_imf rows <> map row_imf rows'.
Proof.
  exists lin_spl, 9%nat, mat_fixe, AsFloat, bench, intrusion, 0%nat, half_wave, None, None.
  destruct (only_log _ [nothing; waves] bench_intruded bench_there bench_plan ltac:(discriminate)) as (rows & no & EL & Hr).
  pose proof bench_alone as C. destruct (m_emd lin_spl 9 mat_fixe half_wave None None) as [[rows' no']|]; [|discriminate].
  exists rows, no, rows', no'. split; [fold bench_call; rewrite EL; left; reflexivity|]. split; [reflexivity|]. intros E.
  assert (E' : map (map this) (map row_imf rows) = map (map this) (map row_imf rows')) by (rewrite E; reflexivity).
  rewrite !map_map in E'. rewrite Hr, C in E'. discriminate.
Qed.
Print Assumptions C114_mixed_refuted.
