(** * Props_PoolLife: property C105, the worker pools of EEMD and CEEMDAN.

    [eemd_events] and [ceemdan_events] (PoolLife.v) are the runs of [Eemd.v] and [Ceemdan.v] with the
    list of pools opened and closed, in order; [held] (PoolLifeSpec.v) counts the pools left open. *)
From Verif Require Import PyFacts QcFacts Eemd Ceemdan PoolLife PoolLifeSpec Demo PoolLifeProofs Props_Eemd Props_Ceemdan.
From Coq Require Import QArith Qcanon Lia.
Open Scope Z_scope.

(** Keeping the record changes nothing else. *)
Theorem C105_same_runs {A} `{Num A} {G D} (gen : generator A G) (dec : decomposer A D) std emd_of arrival :
  (forall c o S T k, fst (eemd_events gen dec c o S T k) = eemd gen dec c o S T k) /\
  (forall c o S T k, fst (ceemdan_events gen std emd_of arrival c o S T k) = ceemdan gen std emd_of arrival c o S T k).
Proof. split; intros; [apply eemd_events_same|apply ceemdan_events_same]. Qed.
Print Assumptions C105_same_runs.

(** Serial runs open no pool. *)
Theorem C105_serial {A} `{Num A} {G D} (gen : generator A G) (dec : decomposer A D) std emd_of arrival :
  (forall c o S T k, parallel c = false -> snd (eemd_events gen dec c o S T k) = []) /\
  (forall c o S T k, c_parallel c = false -> snd (ceemdan_events gen std emd_of arrival c o S T k) = []).
Proof.
  split; intros c o S T k P; [apply eemd_events_serial; auto|].
  pose proof (ceemdan_events_cases gen std emd_of arrival c o S T k) as E. rewrite P in E.
  destruct (ceemdan_events gen std emd_of arrival c o S T k) as [[r o'] ev]. exact E.
Qed.
Print Assumptions C105_serial.

(** A parallel run that returns has opened and closed one pool (EEMD), or two, one after the other
    (CEEMDAN). *)
Theorem C105_returned {A} `{Num A} {G D} (gen : generator A G) (dec : decomposer A D) std emd_of arrival :
  (forall c o S T k E o' ev, parallel c = true ->
     eemd_events gen dec c o S T k = ((Ok E, o'), ev) -> ev = [Opened; Closed]) /\
  (forall c o S T k E o' ev, c_parallel c = true ->
     ceemdan_events gen std emd_of arrival c o S T k = ((Ok E, o'), ev) -> ev = [Opened; Closed; Opened; Closed]).
Proof.
  split; intros c o S T k E o' ev P F.
  - pose proof (eemd_events_cases gen dec c o S T k P) as X. rewrite F in X. exact X.
  - pose proof (ceemdan_events_cases gen std emd_of arrival c o S T k) as X. rewrite F, P in X. exact X.
Qed.
Print Assumptions C105_returned.

(** A parallel EEMD run that raises has opened no pool, or closed the one it opened, or left it open: this
    only if the exception is one raised by a trial. *)
Theorem C105_eemd_raised {A} `{Num A} {G D} (gen : generator A G) (dec : decomposer A D) c o S T k e o' ev :
  parallel c = true -> eemd_events gen dec c o S T k = ((Raise e, o'), ev) ->
  ev = [] \/ ev = [Opened; Closed] \/
  ev = [Opened] /\ exists scale t st, fst (trial_update gen dec c scale S t k st) = Raise e.
Proof. intros P F. pose proof (eemd_events_cases gen dec c o S T k P) as X. rewrite F in X. exact X. Qed.
Print Assumptions C105_eemd_raised.

(** A parallel CEEMDAN run that raises leaves at most one open, its first or its second. *)
Theorem C105_ceemdan_raised {A} `{Num A} {G} (gen : generator A G) std emd_of arrival c o S T k e o' ev :
  c_parallel c = true -> ceemdan_events gen std emd_of arrival c o S T k = ((Raise e, o'), ev) ->
  In ev [[]; [Opened]; [Opened; Closed]; [Opened; Closed; Opened]; [Opened; Closed; Opened; Closed]].
Proof.
  intros P F. pose proof (ceemdan_events_cases gen std emd_of arrival c o S T k) as X. rewrite F, P in X. exact X.
Qed.
Print Assumptions C105_ceemdan_raised.

(** Over any program: no pool is left open and no two are open together if every run returns;
    otherwise at most as many are left open as runs raised. *)
Theorem C105_programs {A} `{Num A} {G D} (gen : generator A G) (dec : decomposer A D) std emd_of arrival :
  (forall o l, let (rs, ev) := program (eemd_events gen dec) o l in
     (all_returned rs -> held ev = 0 /\ one_at_a_time ev) /\ 0 <= held ev <= failures rs) /\
  (forall o l, let (rs, ev) := program (ceemdan_events gen std emd_of arrival) o l in
     (all_returned rs -> held ev = 0 /\ one_at_a_time ev) /\ 0 <= held ev <= failures rs).
Proof.
  split; intros o l.
  - pose proof (program_returned (eemd_events gen dec) o l) as P. pose proof (program_failures (eemd_events gen dec) o l) as Q.
    destruct (program _ o l) as [rs ev]. split; [apply P|apply Q]; intros c o1 S T k; pose proof (eemd_go gen dec c o1 S T k) as X;
      destruct (eemd_events gen dec c o1 S T k) as [[[r|e] o'] ev']; tauto.
  - pose proof (program_returned (ceemdan_events gen std emd_of arrival) o l) as P.
    pose proof (program_failures (ceemdan_events gen std emd_of arrival) o l) as Q.
    destruct (program _ o l) as [rs ev]. split; [apply P|apply Q]; intros c o1 S T k;
      pose proof (ceemdan_go gen std emd_of arrival c o1 S T k) as X;
      destruct (ceemdan_events gen std emd_of arrival c o1 S T k) as [[[r|e] o'] ev']; tauto.
Qed.
Print Assumptions C105_programs.

(** ** What is not true: that every pool is closed.  With an unknown [noise_kind] every trial
    raises ValueError; a program that tries [n] times leaves [n] pools open. *)
Definition odd_noise : eemd_config Qc := MkECfg 3 1%Qc false OtherNoise true 2.
Definition again : request (A := Qc) (eemd_config Qc) := MkReq odd_noise short_S None (-1).
Theorem C105_left_open_refuted :
  forall n, exists l rs, length l = n /\
    program (eemd_events demo_gen demo_dec) demo_obj l = (rs, repeat Opened n) /\ rs = repeat (Raise ValueError) n.
Proof.
  intros n. exists (repeat again n), (repeat (Raise ValueError) n). split; [apply repeat_length|]. split; [|reflexivity].
  induction n as [|n IH]; [reflexivity|]. cbn [repeat program].
  assert (E : eemd_events demo_gen demo_dec (r_cfg again) demo_obj (r_S again) (r_T again) (r_k again) =
              ((Raise ValueError, demo_obj), [Opened])) by (vm_compute; reflexivity).
  rewrite E, IH. reflexivity.
Qed.
Print Assumptions C105_left_open_refuted.

Example C105_nonvacuous :
  match eemd_events demo_gen demo_dec (demo_ecfg 3 false true 2) demo_obj short_S None (-1) with
  | ((Ok E, _), ev) => E <> [] /\ ev = [Opened; Closed] | _ => False end /\
  match ceemdan_events demo_gen demo_std demo_emd (@rev _) (demo_ccfg 2 1%Qc true true) demo_cst short_S None 1 with
  | ((Ok E, _), ev) => E <> [] /\ ev = [Opened; Closed; Opened; Closed] | _ => False end.
Proof. vm_compute. split; split; (discriminate || reflexivity). Qed.
