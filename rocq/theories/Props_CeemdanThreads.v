(** * C112: one CEEMDAN object, without worker processes, used by several threads.

    [run_all method (opening a jobs) s]: threads with lists of calls to make share one object with attributes [a], and
    make steps in the order given by the schedule [s].  [o_log] lists the completed calls, each with its thread and
    outcome. *)
From Verif Require Import PyFacts QcFacts Ceemdan Spec EemdSpec EemdThreadsSpec CeemdanSpec Demo EmdProofs CeemdanThreads CeemdanThreadsSpec Steps StepsProofs CeemdanThreadsProofs CeemdanExact Props_Eemd Props_Ceemdan Props_EemdThreads.
From Coq Require Import QArith Qcanon List Lia.
Open Scope Z_scope.

(** If no two threads are ever in a call at the same time, the outcomes are those of one thread making the same calls
    in the order in which they ended, and so is the object afterwards. *)
Theorem C112_turns :
  forall {A} `{Num A} G (gen : generator A G) std emd_of c a jobs s w,
  gives_all gen -> fits_any emd_of -> c_parallel c = false ->
  in_turns (ceemdan_method gen std emd_of c) (opening a jobs) s ->
  w = run_all (ceemdan_method gen std emd_of c) (opening a jobs) s ->
  map snd (o_log w) = results_in_row (one_call gen std emd_of c) (ceemdan_object a) (map (fun x => snd (fst x)) (o_log w)) /\
  ((forall t, In t (o_workers w) -> ~ engaged t) ->
   ceemdan_object (o_state w) = object_after (one_call gen std emd_of c) (ceemdan_object a) (map (fun x => snd (fst x)) (o_log w))).
Proof.
  intros A N G gen std emd_of c a jobs s w Hg Hf Hp HT ->.
  exact (workers_turns (ceemdan_method gen std emd_of c) (one_call gen std emd_of c) ceemdan_object (ceemdan_unaided gen std emd_of c Hg Hf Hp) a jobs s HT).
Qed.
Print Assumptions C112_turns.

(** Under every schedule each thread makes its calls in its order, none twice and none left out. *)
Theorem C112_order :
  forall {A} `{Num A} G (gen : generator A G) std emd_of c a jobs s i t,
  nth_error (o_workers (run_all (ceemdan_method gen std emd_of c) (opening a jobs) s)) i = Some t ->
  nth_error jobs i = Some (finished_by (run_all (ceemdan_method gen std emd_of c) (opening a jobs) s) i ++ unfinished t).
Proof. intros. apply workers_plan. assumption. Qed.
Print Assumptions C112_order.

(** Whatever the others did, a thread that is left to run comes to the end of its calls. *)
Theorem C112_finishes :
  forall {A} `{Num A} G (gen : generator A G) std emd_of c w i t,
  nth_error (o_workers w) i = Some t ->
  exists n t', nth_error (o_workers (run_all (ceemdan_method gen std emd_of c) w (repeat i n))) i = Some t' /\ unfinished t' = [].
Proof. intros. eapply worker_ends; eassumption. Qed.
Print Assumptions C112_finishes.

(** Under every schedule, whatever the other threads do meanwhile, the rows a call returns have the length of its own
    signal and add up to it. *)
Theorem C112_adds_up :
  forall G (gen : generator Qc G) std emd_of c a jobs s i q C,
  std (q_S q) <> 0%Qc ->
  In (i, q, Ok C) (o_log (run_all (ceemdan_method gen std emd_of c) (opening a jobs) s)) ->
  shaped (length (q_S q)) C /\ adds_up C (q_S q).
Proof.
  intros G gen std emd_of c a jobs s i q C Hs Hin. revert Hs. refine (workers_sound (ceemdan_method gen std emd_of c) (fun q C => std (q_S q) <> 0%Qc -> shaped (length (q_S q)) C /\ adds_up C (q_S q)) a jobs s _ i q C Hin).
  intros q'. apply always_implied. exact (call_always gen std emd_of c q').
Qed.
Print Assumptions C112_adds_up.

Ltac same_values := vm_compute; repeat match goal with
  | |- @eq Qc _ _ => apply Qc_is_canon; vm_compute; reflexivity
  | |- _ = _ => first [reflexivity | f_equal]
  end.
(** ** Examples: two threads, one trial, noise that is drawn but not added *)
Definition desk_new : holdings Qc Z := MkHold 0 [] [] [] [] 0 [] None None.
Definition desk_cfg : ceemdan_config Qc := MkCCfg 1 0%Qc 1%Qc (nlit 1 100) (nlit 5 100) false Normal 3 false 2.
Definition desk_call : request Qc -> steps (holdings Qc Z) (list (list Qc)) := ceemdan_method demo_gen demo_std demo_emd desk_cfg.
Definition tasks (X Y : list Qc) : list (list (request Qc)) := [[MkRequest X None 1]; [MkRequest Y None 1]].
Definition nought3 : list Qc := qs [0; 0; 0].
Definition desk_object : ceemdan_state Qc Z := ceemdan_object desk_new.
Lemma desk_fits : fits_any demo_emd.
Proof. exact (emd_fits lin_spl 10 demo_fixe). Qed.

Definition turn_by_turn : list nat := (repeat 0 20 ++ repeat 1 20)%nat.
Definition one_engagedb (w : office (holdings Qc Z) (request Qc) (list (list Qc))) : bool :=
  Nat.leb (length (filter (fun t => match inside t with Some _ => true | None => false end) (o_workers w))) 1.
Fixpoint in_turnsb (w : office (holdings Qc Z) (request Qc) (list (list Qc))) (s : list nat) : bool :=
  one_engagedb w && match s with [] => true | i :: l => in_turnsb (turn desk_call w i) l end.
Lemma in_turnsb_spec s : forall w, in_turnsb w s = true -> in_turns desk_call w s.
Proof.
  assert (One : forall w, one_engagedb w = true -> one_engaged w).
  { intros w H i j t u Hi Hj Bt Bu. destruct (Nat.eq_dec i j) as [|N]; auto. exfalso. apply Nat.leb_le in H.
    unfold engaged in *. enough (2 <= 1)%nat by lia. etransitivity; [|exact H].
    apply (filter_two _ _ i j t u Hi Hj); auto; [destruct (inside t)|destruct (inside u)]; congruence. }
  induction s as [|i s IH]; intros w H; cbn [in_turnsb in_turns] in *; apply Bool.andb_true_iff in H as [H1 H2]; split; auto.
Qed.
Example C112_nonvacuous : gives_all demo_gen /\ fits_any demo_emd /\ demo_std up3 <> 0%Qc /\ demo_std steep3 <> 0%Qc /\
  in_turns desk_call (opening desk_new (tasks up3 steep3)) turn_by_turn /\
  o_log (run_all desk_call (opening desk_new (tasks up3 steep3)) turn_by_turn) =
    [(0%nat, MkRequest up3 None 1, Ok [up3; nought3]); (1%nat, MkRequest steep3 None 1, Ok [steep3; nought3])].
Proof.
  split; [exact demo_sized|]. split; [exact desk_fits|]. split; [intros C; apply (f_equal this) in C; vm_compute in C; discriminate|].
  split; [intros C; apply (f_equal this) in C; vm_compute in C; discriminate|].
  split; [apply in_turnsb_spec; vm_compute; reflexivity|]. same_values.
Qed.

(** ** What is not true without taking turns *)
Definition overtaken (k : nat) : list nat := (repeat 0 k ++ repeat 1 20 ++ repeat 0 20)%nat.
Definition twice3 : list Qc := qs [2; 4; 6].
Definition minus3 : list Qc := qs [-1; -2; -3].
Lemma lone3 : fst (one_call demo_gen demo_std demo_emd desk_cfg desk_object (MkRequest up3 None 1)) = Ok [up3; nought3].
Proof. same_values. Qed.
Lemma emptied_desk : o_log (run_all desk_call (opening desk_new (tasks up3 up3)) (overtaken 5)) =
  [(1%nat, MkRequest up3 None 1, Ok [up3; nought3]); (0%nat, MkRequest up3 None 1, Raise IndexError)].
Proof. same_values. Qed.
Lemma doubled_desk : o_log (run_all desk_call (opening desk_new (tasks up3 up3)) (overtaken 10)) =
  [(1%nat, MkRequest up3 None 1, Ok [up3; nought3]); (0%nat, MkRequest up3 None 1, Ok [twice3; minus3])].
Proof. same_values. Qed.

(** A call may raise IndexError even if both threads decompose the same signal: a call that ends takes away the noise
    of the others. *)
Theorem C112_raises_refuted :
  exists (gen : generator Qc Z) std emd_of c a jobs s X i C,
  gives_all gen /\ fits_any emd_of /\ c_parallel c = false /\
  (forall l q, In l jobs -> In q l -> q = MkRequest X None 1) /\
  fst (one_call gen std emd_of c (ceemdan_object a) (MkRequest X None 1)) = Ok C /\
  In (i, MkRequest X None 1, Raise IndexError) (o_log (run_all (ceemdan_method gen std emd_of c) (opening a jobs) s)).
Proof.
  exists demo_gen, demo_std, demo_emd, desk_cfg, desk_new, (tasks up3 up3), (overtaken 5), up3, O, [up3; nought3].
  split; [exact demo_sized|]. split; [exact desk_fits|]. split; [reflexivity|]. split; [intros l q [<-|[<-|[]]] [<-|[]]; reflexivity|].
  split; [exact lone3|]. fold desk_call. rewrite emptied_desk. right. left. reflexivity.
Qed.
Print Assumptions C112_raises_refuted.

(** Or return a first component that is twice too large, although no noise is added and both threads decompose the same
    signal: both add their trials to one sum. *)
Theorem C112_same_rows_refuted :
  exists (gen : generator Qc Z) std emd_of c a jobs s X i Z0,
  gives_all gen /\ fits_any emd_of /\ c_parallel c = false /\ epsilon c = 0%Qc /\
  (forall l q, In l jobs -> In q l -> q = MkRequest X None 1) /\
  fst (one_call gen std emd_of c (ceemdan_object a) (MkRequest X None 1)) = Ok [X; Z0] /\
  exists R, In (i, MkRequest X None 1, Ok [map (fun x => (x + x)%Qc) X; R]) (o_log (run_all (ceemdan_method gen std emd_of c) (opening a jobs) s)).
Proof.
  exists demo_gen, demo_std, demo_emd, desk_cfg, desk_new, (tasks up3 up3), (overtaken 10), up3, O, nought3.
  split; [exact demo_sized|]. split; [exact desk_fits|]. split; [reflexivity|]. split; [reflexivity|].
  split; [intros l q [<-|[<-|[]]] [<-|[]]; reflexivity|]. split; [exact lone3|]. exists minus3.
  replace (map (fun x => (x + x)%Qc) up3) with twice3 by same_values.
  fold desk_call. rewrite doubled_desk. right. left. reflexivity.
Qed.
Print Assumptions C112_same_rows_refuted.

(** And when all calls have ended, the components and the residue the object reports may belong to different signals:
    together they add up to neither. *)
Lemma crossed_desk : ceemdan_imfs_and_residue (ceemdan_object (o_state (run_all desk_call (opening desk_new (tasks up3 steep3)) (overtaken 18)))) =
  Ok ([steep3; nought3], qs [-3; -4; -5]).
Proof. same_values. Qed.
Lemma crossed_ends : Forall (fun t => unfinished t = []) (o_workers (run_all desk_call (opening desk_new (tasks up3 steep3)) (overtaken 18))).
Proof. vm_compute. repeat constructor. Qed.
Theorem C112_residue_refuted :
  exists (gen : generator Qc Z) std emd_of c a X Y s C r,
  gives_all gen /\ fits_any emd_of /\ c_parallel c = false /\
  (forall t, In t (o_workers (run_all (ceemdan_method gen std emd_of c) (opening a (tasks X Y)) s)) -> unfinished t = []) /\
  ceemdan_imfs_and_residue (ceemdan_object (o_state (run_all (ceemdan_method gen std emd_of c) (opening a (tasks X Y)) s))) = Ok (C, r) /\
  adds_up C Y /\ r <> repeat 0%Qc (length r).
Proof.
  exists demo_gen, demo_std, demo_emd, desk_cfg, desk_new, up3, steep3, (overtaken 18), [steep3; nought3], (qs [-3; -4; -5]).
  fold desk_call. split; [exact demo_sized|]. split; [exact desk_fits|]. split; [reflexivity|].
  split; [exact (proj1 (Forall_forall _ _) crossed_ends)|]. split; [exact crossed_desk|]. split.
  - intros [|[|[|i]]] Hi; [same_values|same_values|same_values|cbn in Hi; lia].
  - intros F. apply (f_equal (fun l => this (hd 0%Qc l))) in F. vm_compute in F. discriminate.
Qed.
Print Assumptions C112_residue_refuted.
