(** * Props_Pool: property C96, the worker pools of EEMD and CEEMDAN under every schedule.

    [pool_run], [completes], [eemd_can] and [ceemdan_can] (Pool.v) leave open which worker finishes
    when; [feasible], [fails_first] and [failures_before] are defined in PoolSpec.v.  [eemd] and
    [ceemdan] are the functions of Eemd.v and Ceemdan.v that the other properties speak of. *)
From Verif Require Import PyFacts Eemd Ceemdan Pool PoolSpec PoolProofs PoolEnsemble CeemdanSpec Float64 Demo Props_Eemd Props_Ceemdan Props_Float.
From Coq Require Import QArith Qcanon List Permutation Lia.
Import ListNotations.
Open Scope Z_scope.
Local Notation length := List.length.

(** ** C96 *)
(** The orders in which [procs] workers can complete [n] tasks. *)
Theorem C96_orders : forall procs n f, (1 <= procs)%nat -> (completes procs n f <-> feasible procs n f).
Proof. exact completes_iff. Qed.
Print Assumptions C96_orders.
Example C96_orders_nonvacuous : completes 2 4 [1; 2; 0; 3]%nat /\ ~ completes 2 3 [2; 1; 0]%nat.
Proof.
  split.
  - apply C96_orders; [lia|]. split.
    + apply (Permutation_trans (l' := [1; 0; 2; 3]%nat)); [do 1 constructor; constructor|]. constructor.
    + intros [|[|[|[|[|k]]]]] i Hi; cbn in Hi; try discriminate; injection Hi as <-; lia.
  - intros HC. apply C96_orders in HC; [|lia]. destruct HC as [_ HC]. specialize (HC O 2%nat eq_refl). lia.
Qed.
(** No run gets stuck before all tasks are done, and each ends after taking and finishing every
    task once. *)
Theorem C96_always_ends : forall procs n k s, (1 <= procs)%nat -> pool_run procs k (pool_start n) s ->
  (over s \/ exists s', pool_step procs s s') /\ (k <= 2 * n)%nat /\ (over s <-> k = 2 * n)%nat.
Proof. intros procs n k s Hp HR. split; [exact (pool_progress procs n k s Hp HR)|exact (run_length procs n k s HR)]. Qed.
Print Assumptions C96_always_ends.
(** [Pool.map] delivers the results in the order of the tasks, not in the order of completion. *)
Theorem C96_map_returns : forall X (outcome : nat -> res (list X)) (values : nat -> list X) procs n f,
  completes procs n f -> (forall i, (i < n)%nat -> outcome i = Ok (values i)) ->
  mr_get (mr_after n outcome f) = Some (Ok (flat_map values (seq 0 n))).
Proof.
  intros X outcome values procs n f HC HO. apply completes_feasible in HC as [HP _]. rewrite (map_all_ok outcome n f HP) by eauto.
  do 2 f_equal. rewrite !flat_map_concat_map. f_equal. apply map_ext_in. intros i Hi. apply in_seq in Hi. rewrite HO by lia. reflexivity.
Qed.
Print Assumptions C96_map_returns.
(** It returns, or raises, only when every task is done: never while one is waiting or being worked on. *)
Theorem C96_map_waits : forall X (outcome : nat -> res (list X)) procs n k s, pool_run procs k (pool_start n) s ->
  (mr_get (mr_after n outcome (finished s)) <> None <-> over s).
Proof. intros X outcome. exact (map_waits outcome). Qed.
Print Assumptions C96_map_waits.
(** It raises what the first task to fail raised. *)
Theorem C96_map_raises : forall X (outcome : nat -> res (list X)) procs n f i e,
  completes procs n f -> fails_first outcome f i e -> mr_get (mr_after n outcome f) = Some (Raise e).
Proof. intros X outcome procs n f i e HC HF. apply completes_feasible in HC as [HP _]. exact (map_fails outcome n f i e HP HF). Qed.
Print Assumptions C96_map_raises.
(** Task [i] can be that first one exactly if fewer than [procs] tasks before it fail. *)
Theorem C96_first_to_fail : forall X (outcome : nat -> res X) procs n i e, (1 <= procs)%nat -> (i < n)%nat -> outcome i = Raise e ->
  ((exists f, completes procs n f /\ fails_first outcome f i e) <-> (failures_before outcome i < procs)%nat).
Proof. exact @reported_iff. Qed.
Print Assumptions C96_first_to_fail.
Example C96_first_nonvacuous :
  let outcome := fun i => if Nat.eqb i 1 then Ok [i] else Raise ValueError in
  failures_before outcome 2 = 1%nat /\ mr_get (mr_after 3 outcome [1; 0; 2]%nat) = Some (Raise ValueError) /\
  mr_get (mr_after 3 outcome [1; 0]%nat) = None.
Proof. repeat split; reflexivity. Qed.

(** EEMD: all schedules have the same result, the exception included. *)
Theorem C96_eemd : forall A (NA : Num A) G D (gen : generator A G) (dec : decomposer A D) c o S T k result,
  eemd_can gen dec c o S T k result <-> result = eemd gen dec c o S T k.
Proof. exact (fun A NA G D => @eemd_can_iff A NA G D). Qed.
Print Assumptions C96_eemd.

(** CEEMDAN: if one schedule returns then all do, with the same rows; the object is left the same
    in any case. *)
Theorem C96_ceemdan : forall G (gen : generator Qc G) std emd_of arrival c o S T k result,
  reorders arrival -> c_parallel c = true -> ceemdan_can emd_of gen std c o S T k result ->
  snd result = snd (ceemdan gen std emd_of arrival c o S T k) /\
  forall C, fst result = Ok C <-> fst (ceemdan gen std emd_of arrival c o S T k) = Ok C.
Proof. exact (fun G gen std emd_of arrival => @ceemdan_can_spec std emd_of G gen arrival). Qed.
Print Assumptions C96_ceemdan.
Lemma orders_of_seq procs n : 1 <= procs -> completes (Z.to_nat procs) n (seq 0 n).
Proof. intros Hp. apply C96_orders; [lia|]. apply seq_feasible. lia. Qed.
Example C96_ceemdan_nonvacuous :
  let c := demo_ccfg 2 1%Qc true true in
  ceemdan_can demo_emd demo_gen demo_std c demo_cst short_S None (-1)
    (ceemdan_by demo_emd demo_gen demo_std [0; 1]%nat [1; 0]%nat c demo_cst short_S None (-1)) /\
  match fst (ceemdan_by demo_emd demo_gen demo_std [0; 1]%nat [1; 0]%nat c demo_cst short_S None (-1)) with Ok C => (2 <=? length C)%nat | Raise _ => false end = true.
Proof.
  split; [|vm_compute; reflexivity]. exists [0; 1]%nat, [1; 0]%nat. split; [reflexivity|]. intros _. split.
  - apply C96_orders; [cbn; lia|]. split; [apply perm_swap|]. intros [|[|[|j]]] i Hi; cbn in Hi; try discriminate; injection Hi as <-; cbn; lia.
  - intros noises HN. replace (length (noise_lens _ noises)) with 2%nat; [apply (orders_of_seq _ 2); cbn; lia|].
    assert (X : match fst (all_noises demo_gen (demo_ccfg 2 1%Qc true true) (c_random demo_cst) (length short_S)) with
                | Ok ns => length (noise_lens (demo_ccfg 2 1%Qc true true) ns) | Raise _ => O end = 2%nat) by (vm_compute; reflexivity).
    rewrite HN in X. symmetry. exact X.
Qed.
(** Which exception: in the stage that decomposes the noisy copies of the signal, that of any
    failing trial with fewer than [processes] failing trials before it. *)
Theorem C96_ceemdan_trials : forall A (NA : Num A) emd_of c noise_emd S T e,
  c_parallel c = true -> 1 <= c_processes c ->
  let outcome := fun i => c_trial emd_of c noise_emd S T (Z.of_nat i) in
  (forall i M, outcome i = Ok M -> Forall (fun r => length r = length S) M) ->
  ((exists f, completes (Z.to_nat (c_processes c)) (Z.to_nat (c_trials c)) f /\ inner_eemd_by emd_of f c noise_emd S (Some T) = Raise e) <->
   exists i, Z.of_nat i < c_trials c /\ outcome i = Raise e /\ Z.of_nat (failures_before outcome i) < c_processes c).
Proof.
  intros A NA emd_of c noise_emd S T e Hpar Hp outcome HS.
  assert (B : forall f, inner_eemd_by emd_of f c noise_emd S (Some T) = Raise e <-> exists i, fails_first outcome f i e).
  { intros f. apply (by_blame (fun _ => n0) emd_of c noise_emd S (Some T) f e Hpar Hp). intros i M _ HM. apply forallb_forall. intros r Hr. apply Nat.eqb_eq.
    exact (proj1 (Forall_forall _ _) (HS i M HM) r Hr). }
  split.
  - intros (f & HC & HE). apply B in HE as (i & HF). exists i.
    assert (Hi : (i < Z.to_nat (c_trials c))%nat).
    { destruct HF as (_ & g & h & -> & _). apply completes_feasible in HC as [HP _]. assert (In i (seq 0 (Z.to_nat (c_trials c)))).
      { apply (Permutation_in _ HP). apply in_or_app. right. left. auto. } apply in_seq in H. lia. }
    split; [lia|]. split; [exact (proj1 HF)|].
    assert (failures_before outcome i < Z.to_nat (c_processes c))%nat; [|lia].
    apply (C96_first_to_fail _ outcome _ (Z.to_nat (c_trials c)) i e); [lia|lia|exact (proj1 HF)|]. eauto.
  - intros (i & Hi & He & HB).
    destruct (proj2 (C96_first_to_fail _ outcome (Z.to_nat (c_processes c)) (Z.to_nat (c_trials c)) i e ltac:(lia) ltac:(lia) He) ltac:(lia)) as (f & HC & HF).
    exists f. split; auto. apply B. eauto.
Qed.
Print Assumptions C96_ceemdan_trials.
(** So the exception can depend on the schedule, here with a decomposition that refuses signals in
    two ways. *)
Definition picky (x : list Qc) (_ : option (list Qc)) (k : Z) : res (list (list Qc)) :=
  if k <? 0 then Ok [x] else if nltb (hd 0%Qc x) 0%Qc then Raise ValueError else Raise TypeError.
Theorem C96_exception_refuted :
  exists (gen : generator Qc Z) std emd_of c o S r1 r2,
  c_parallel c = true /\ ceemdan_can emd_of gen std c o S None 1 r1 /\ ceemdan_can emd_of gen std c o S None 1 r2 /\
  fst r1 = Raise ValueError /\ fst r2 = Raise TypeError.
Proof.
  set (c := MkCCfg 2 1%Qc 1%Qc 0%Qc 0%Qc false Normal 1 true 2).
  exists demo_gen, (fun _ => 1%Qc), picky, c, demo_cst, [0%Qc],
    (ceemdan_by picky demo_gen (fun _ => 1%Qc) [0; 1]%nat [0; 1]%nat c demo_cst [0%Qc] None 1),
    (ceemdan_by picky demo_gen (fun _ => 1%Qc) [0; 1]%nat [1; 0]%nat c demo_cst [0%Qc] None 1).
  assert (N : forall noises, fst (all_noises demo_gen c (c_random demo_cst) (length [0%Qc])) = Ok noises -> completes 2 (length (noise_lens c noises)) [0; 1]%nat).
  { intros noises HN. assert (X : match fst (all_noises demo_gen c (c_random demo_cst) (length [0%Qc])) with
                | Ok ns => length (noise_lens c ns) | Raise _ => O end = 2%nat) by (vm_compute; reflexivity).
    rewrite HN in X. rewrite X. apply (orders_of_seq 2 2). lia. }
  split; [reflexivity|]. split; [|split; [|split; [vm_compute; reflexivity|vm_compute; reflexivity]]].
  - exists [0; 1]%nat, [0; 1]%nat. split; [reflexivity|]. intros _. split; [apply (orders_of_seq 2 2); lia|exact N].
  - exists [0; 1]%nat, [1; 0]%nat. split; [reflexivity|]. intros _. split; [|exact N].
    apply C96_orders; [cbn; lia|]. split; [apply perm_swap|]. intros [|[|[|j]]] i Hi; cbn in Hi; try discriminate; injection Hi as <-; cbn; lia.
Qed.
Print Assumptions C96_exception_refuted.
(** In binary64 so can the rows. *)
Local Notation f_by ft := (ceemdan_by f_emd f_gen f_std [0; 1; 2]%nat ft f_ccfg (MkCSt 0 None None) f_S None 1).
Example f_by_runs : match fst (f_by [0; 1; 2]%nat), fst (f_by [2; 1; 0]%nat) with
                    | Ok M, Ok N => negb (same_rows (Ok M) (Ok N)) && same_rows (Ok M) (Ok M) | _, _ => false end = true.
Proof. vm_compute. reflexivity. Qed.
Theorem C96_binary64_refuted :
  exists (gen : generator f64 Z) std emd_of c o S r1 r2 M N,
  c_parallel c = true /\ ceemdan_can emd_of gen std c o S None 1 r1 /\ ceemdan_can emd_of gen std c o S None 1 r2 /\
  fst r1 = Ok M /\ fst r2 = Ok N /\ M <> N.
Proof.
  exists f_gen, f_std, f_emd, f_ccfg, (MkCSt 0 None None), f_S.
  assert (C : forall ft, completes 3 3 ft -> ceemdan_can f_emd f_gen f_std f_ccfg (MkCSt 0 None None) f_S None 1 (f_by ft)).
  { intros ft HC. exists [0; 1; 2]%nat, ft. split; [reflexivity|]. intros _. split; [exact HC|]. intros noises HN.
    assert (X : match fst (all_noises f_gen f_ccfg 0 (length f_S)) with
                | Ok ns => length (noise_lens f_ccfg ns) | Raise _ => O end = 3%nat) by (vm_compute; reflexivity).
    cbn [c_random] in HN. rewrite HN in X. rewrite X. apply (orders_of_seq 3 3). lia. }
  assert (C1 := C [0; 1; 2]%nat (orders_of_seq 3 3 ltac:(lia))).
  assert (C2 : ceemdan_can f_emd f_gen f_std f_ccfg (MkCSt 0 None None) f_S None 1 (f_by [2; 1; 0]%nat)).
  { apply C. apply C96_orders; [lia|]. split; [symmetry; apply (Permutation_rev [0; 1; 2]%nat)|].
    intros [|[|[|[|j]]]] i Hi; cbn in Hi; try discriminate; injection Hi as <-; cbn; lia. }
  clear C. pose proof f_by_runs as R. revert C1 C2 R. generalize (f_by [0; 1; 2]%nat). generalize (f_by [2; 1; 0]%nat).
  intros [r2 o2] [r1 o1] C1 C2. cbn [fst]. destruct r1 as [M|e1]; [|discriminate]. destruct r2 as [N|e2]; [|discriminate]. intros R.
  exists (Ok M, o1), (Ok N, o2), M, N. split; [reflexivity|]. split; [exact C1|]. split; [exact C2|]. split; [reflexivity|]. split; [reflexivity|].
  intros ->. destruct (same_rows (Ok N) (Ok N)); discriminate R.
Qed.
Print Assumptions C96_binary64_refuted.
