(** * C110: one EEMD object, without worker processes, used by several threads.

    [run_threads (begin a jobs) s]: threads with lists of calls to make share one object with attributes [a], and make
    steps in the order given by the schedule [s].  [w_log] lists the completed calls, each with its thread and outcome. *)
From Verif Require Import PyFacts QcFacts Eemd Spec EemdSpec Demo EmdProofs EemdThreads EemdThreadsSpec EemdThreadsProofs Props_Eemd.
From Coq Require Import QArith Qcanon List Lia.
Open Scope Z_scope.

(** If no two threads are ever in a call at the same time, the outcomes are those of one thread making the same calls
    in the order in which they ended, and so is the object afterwards. *)
Theorem C110_turns :
  forall {A} `{Num A} G D (gen : generator A G) (dec : decomposer A D) c a jobs s w,
  gives_all gen -> parallel c = false -> taking_turns gen dec c (begin a jobs) s ->
  w = run_threads gen dec c (begin a jobs) s ->
  map snd (w_log w) = outcomes gen dec c (object_of a) (map (fun x => snd (fst x)) (w_log w)) /\
  ((forall t, In t (w_threads w) -> ~ busy t) ->
   object_of (w_attrs w) = afterwards gen dec c (object_of a) (map (fun x => snd (fst x)) (w_log w))).
Proof. intros A N G D gen dec c a jobs s w Hg Hp HT ->. exact (threads_turns gen dec c Hg Hp a jobs s HT). Qed.
Print Assumptions C110_turns.

(** Under every schedule each thread makes its calls in its order, none twice and none left out. *)
Theorem C110_order :
  forall {A} `{Num A} G D (gen : generator A G) (dec : decomposer A D) c a jobs s i t,
  nth_error (w_threads (run_threads gen dec c (begin a jobs) s)) i = Some t ->
  nth_error jobs i = Some (completed (run_threads gen dec c (begin a jobs) s) i ++ pending t).
Proof. exact @threads_agenda. Qed.
Print Assumptions C110_order.

(** Whatever the others did, a thread that is left to run comes to the end of its calls. *)
Theorem C110_finishes :
  forall {A} `{Num A} G D (gen : generator A G) (dec : decomposer A D) c w i t,
  nth_error (w_threads w) i = Some t ->
  exists n t', nth_error (w_threads (run_threads gen dec c w (repeat i n))) i = Some t' /\ pending t' = [].
Proof. exact @thread_finishes. Qed.
Print Assumptions C110_finishes.

(** ** Examples: two threads, one trial *)
Definition up3 : list Qc := qs [1; 2; 3].
Definition steep3 : list Qc := qs [4; 6; 8].
Definition crew_cfg : eemd_config Qc := MkECfg 1 0%Qc false Normal false 1.
Definition crew_new : attributes Qc Z (emd_state Qc) := MkAttributes [] [] 0 0%Qc 0 0 emd_init (MkDict false []) None None.
Definition crew (X Y : list Qc) (s : list nat) : world Qc Z (emd_state Qc) :=
  run_threads demo_gen demo_dec crew_cfg (begin crew_new [[MkCall X None (-1)]; [MkCall Y None (-1)]]) s.
Definition log_of (w : world Qc Z (emd_state Qc)) : list (nat * res (list (list Qc))) := map (fun x => (fst (fst x), snd x)) (w_log w).

(** One after the other. *)
Definition whole (i : nat) : list nat := repeat i 26.
Definition one_busyb (w : world Qc Z (emd_state Qc)) : bool :=
  Nat.leb (length (filter (fun t => match current t with Some _ => true | None => false end) (w_threads w))) 1.
Fixpoint turnsb (w : world Qc Z (emd_state Qc)) (s : list nat) : bool :=
  one_busyb w && match s with [] => true | i :: l => turnsb (tick demo_gen demo_dec crew_cfg w i) l end.
Lemma filter_two {X} (f : X -> bool) l i j t u : nth_error l i = Some t -> nth_error l j = Some u -> f t = true -> f u = true -> i <> j ->
  (2 <= length (filter f l))%nat.
Proof.
  assert (One : forall l i t, nth_error l i = Some t -> f t = true -> (1 <= length (filter f l))%nat).
  { clear. induction l as [|x l IH]; intros [|i] t E F; cbn in *; try discriminate.
    - injection E as <-. rewrite F. cbn. lia.
    - specialize (IH _ _ E F). destruct (f x); cbn; lia. }
  revert i j. induction l as [|x l IH]; intros [|i] [|j] Hi Hj Ft Fu N; cbn in *; try discriminate; try congruence.
  - injection Hi as <-. rewrite Ft. cbn. specialize (One _ _ _ Hj Fu). lia.
  - injection Hj as <-. rewrite Fu. cbn. specialize (One _ _ _ Hi Ft). lia.
  - specialize (IH i j Hi Hj Ft Fu ltac:(congruence)). destruct (f x); cbn; lia.
Qed.
Lemma turnsb_spec s : forall w, turnsb w s = true -> taking_turns demo_gen demo_dec crew_cfg w s.
Proof.
  assert (One : forall w, one_busyb w = true -> one_busy w).
  { intros w H i j t u Hi Hj Bt Bu. destruct (Nat.eq_dec i j) as [|N]; auto. exfalso. apply Nat.leb_le in H.
    unfold busy in *. enough (2 <= 1)%nat by lia. etransitivity; [|exact H].
    apply (filter_two _ _ i j t u Hi Hj); auto; [destruct (current t)|destruct (current u)]; congruence. }
  induction s as [|i s IH]; intros w H; cbn [turnsb taking_turns] in *; apply Bool.andb_true_iff in H as [H1 H2]; split; auto.
Qed.
Example C110_nonvacuous : gives_all demo_gen /\
  taking_turns demo_gen demo_dec crew_cfg (begin crew_new [[MkCall up3 None (-1)]; [MkCall steep3 None (-1)]]) (whole 0 ++ whole 1) /\
  log_of (crew up3 steep3 (whole 0 ++ whole 1)) = [(0%nat, Ok [up3]); (1%nat, Ok [steep3])].
Proof.
  split; [exact demo_sized|]. split; [apply turnsb_spec; vm_compute; reflexivity|]. vm_compute. reflexivity.
Qed.

(** ** What is not true without taking turns *)
Definition jobs_of (X Y : list Qc) : list (list (call Qc)) := [[MkCall X None (-1)]; [MkCall Y None (-1)]].
Definition mixed : list nat := (repeat 0 7 ++ repeat 1 2 ++ whole 0)%nat.
Definition late : list nat := (repeat 1 14 ++ whole 0 ++ [1])%nat.
Lemma mixed_log : w_log (run_threads demo_gen demo_dec crew_cfg (begin crew_new (jobs_of up3 steep3)) mixed) = [(0%nat, MkCall up3 None (-1), Ok [steep3])].
Proof. vm_compute. reflexivity. Qed.
Lemma late_log : w_log (run_threads demo_gen demo_dec crew_cfg (begin crew_new (jobs_of up3 up3)) late) =
  [(0%nat, MkCall up3 None (-1), Ok [up3]); (1%nat, MkCall up3 None (-1), Raise AttributeError)].
Proof. vm_compute. reflexivity. Qed.
Definition emptied : list nat := (repeat 0 15 ++ repeat 1 7 ++ whole 0)%nat.
Lemma emptied_log : w_log (run_threads demo_gen demo_dec crew_cfg (begin crew_new (jobs_of up3 up3)) emptied) = [(0%nat, MkCall up3 None (-1), Ok [])].
Proof. vm_compute. reflexivity. Qed.
Lemma alone3 : fst (eemd demo_gen demo_dec crew_cfg (object_of crew_new) up3 None (-1)) = Ok [up3].
Proof. vm_compute. reflexivity. Qed.
(** A call may return the components of the signal of another thread: the rows do not add up to its signal. *)
Theorem C110_other_signal_refuted :
  exists (gen : generator Qc Z) (dec : decomposer Qc (emd_state Qc)) c a jobs s X i E,
  gives_all gen /\ parallel c = false /\ noise_width c = 0%Qc /\
  fst (eemd gen dec c (object_of a) X None (-1)) = Ok [X] /\
  In (i, MkCall X None (-1), Ok E) (w_log (run_threads gen dec c (begin a jobs) s)) /\ ~ adds_up E X.
Proof.
  exists demo_gen, demo_dec, crew_cfg, crew_new, (jobs_of up3 steep3), mixed, up3, O, [steep3].
  split; [exact demo_sized|]. split; [reflexivity|]. split; [reflexivity|]. split; [exact alone3|]. split; [rewrite mixed_log; left; reflexivity|].
  intros F. specialize (F 0%nat ltac:(cbn; lia)). apply (f_equal this) in F. vm_compute in F. discriminate.
Qed.
Print Assumptions C110_other_signal_refuted.

(** A call may raise AttributeError even if both threads decompose the same signal: the other thread has meanwhile
    made arrays of the lists it appends to. *)
Theorem C110_raises_refuted :
  exists (gen : generator Qc Z) (dec : decomposer Qc (emd_state Qc)) c a jobs s X i,
  gives_all gen /\ parallel c = false /\ noise_width c = 0%Qc /\
  (forall l j, In l jobs -> In j l -> j = MkCall X None (-1)) /\
  fst (eemd gen dec c (object_of a) X None (-1)) = Ok [X] /\
  In (i, MkCall X None (-1), Raise AttributeError) (w_log (run_threads gen dec c (begin a jobs) s)).
Proof.
  exists demo_gen, demo_dec, crew_cfg, crew_new, (jobs_of up3 up3), late, up3, 1%nat.
  split; [exact demo_sized|]. split; [reflexivity|]. split; [reflexivity|]. split; [intros l j [<-|[<-|[]]] [<-|[]]; reflexivity|].
  split; [exact alone3|]. rewrite late_log. right. left. reflexivity.
Qed.
Print Assumptions C110_raises_refuted.

(** Or return an empty array: the other thread has just begun, and emptied the dictionary. *)
Theorem C110_empty_refuted :
  exists (gen : generator Qc Z) (dec : decomposer Qc (emd_state Qc)) c a jobs s X i,
  gives_all gen /\ parallel c = false /\ noise_width c = 0%Qc /\
  (forall l j, In l jobs -> In j l -> j = MkCall X None (-1)) /\
  fst (eemd gen dec c (object_of a) X None (-1)) = Ok [X] /\
  In (i, MkCall X None (-1), Ok []) (w_log (run_threads gen dec c (begin a jobs) s)).
Proof.
  exists demo_gen, demo_dec, crew_cfg, crew_new, (jobs_of up3 up3), emptied, up3, 0%nat.
  split; [exact demo_sized|]. split; [reflexivity|]. split; [reflexivity|]. split; [intros l j [<-|[<-|[]]] [<-|[]]; reflexivity|].
  split; [exact alone3|]. rewrite emptied_log. left. reflexivity.
Qed.
Print Assumptions C110_empty_refuted.
