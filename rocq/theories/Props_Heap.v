(** * Props_Heap: who owns which array (C50, C65). *)
From Verif Require Import PyFacts QcFacts Spec Emd Heap HeapSpec HeapProofs HeapClient
  HeapEemd HeapEemdSpec HeapEemdProofs Demo EemdSpec Props_Eemd.
From Coq Require Import QArith Qcanon.
Open Scope Z_scope.

(** ** C50, for every arithmetic and every memory *)
(** The call changes no array that existed (S, T and results of earlier calls included),
    returns a new array, stores two others, and their contents are those of the functional
    model.  S and T may be views or the same array. *)
Theorem C50_new_arrays :
  forall {A} `{Num A} (spl : spline_oracle A) fuel c convS convT S T s t k m o,
  contents m S = Some (Vec s) -> shows m T t -> emd spl fuel c s t k = Ok o ->
  exists m' r i d,
    emd_h spl fuel c convS convT S T k m = (Ok r, m') /\
    fst (imfs_and_residue_h m') = Ok (i, d) /\
    contents m' r = Some (Mat (out o)) /\
    contents m' i = Some (Mat (imfs o)) /\ contents m' d = Some (Vec (residue o)) /\
    untouched m m' /\
    created m m' r /\ created m m' i /\ created m m' d /\ apart r i /\ apart r d /\ apart i d.
Proof. exact @emd_call_ok. Qed.
Print Assumptions C50_new_arrays.

(** When it raises, nothing that existed has changed and the stored results are the old ones. *)
Theorem C50_after_exception :
  forall {A} `{Num A} (spl : spline_oracle A) fuel c convS convT S T s t k m e,
  contents m S = Some (Vec s) -> shows m T t -> emd spl fuel c s t k = Raise e ->
  exists m', emd_h spl fuel c convS convT S T k m = (Raise e, m') /\ untouched m m' /\
    fst (imfs_and_residue_h m') = fst (imfs_and_residue_h m).
Proof. exact @emd_call_raise. Qed.
Print Assumptions C50_after_exception.

(** Assignments to the returned array, or to arrays the caller had before (S and T), in any
    number and order, change neither the stored imfs nor the stored residue. *)
Theorem C50_writes_leave_stored :
  forall {A} `{Num A} (spl : spline_oracle A) fuel c convS convT S T s t k m o m' r ws,
  contents m S = Some (Vec s) -> shows m T t -> emd spl fuel c s t k = Ok o ->
  emd_h spl fuel c convS convT S T k m = (Ok r, m') ->
  Forall (fun w => ~ apart (target w) r \/ live m (target w)) ws ->
  exists i d, imfs_and_residue_h (do_writes m' ws) = (Ok (i, d), do_writes m' ws) /\
    contents (do_writes m' ws) i = Some (Mat (imfs o)) /\
    contents (do_writes m' ws) d = Some (Vec (residue o)).
Proof. exact @later_writes_stored. Qed.
Print Assumptions C50_writes_leave_stored.

(** Assignments to the returned array change no array the caller had before. *)
Theorem C50_writes_leave_inputs :
  forall {A} `{Num A} (spl : spline_oracle A) fuel c convS convT S T s t k m o m' r ws a,
  contents m S = Some (Vec s) -> shows m T t -> emd spl fuel c s t k = Ok o ->
  emd_h spl fuel c convS convT S T k m = (Ok r, m') ->
  Forall (fun w => ~ apart (target w) r) ws -> live m a ->
  contents (do_writes m' ws) a = contents m a.
Proof. exact @later_writes_inputs. Qed.
Print Assumptions C50_writes_leave_inputs.

(** Whatever the program does later (further decompositions with the same object, asking for
    the stored results, assignments elsewhere), an array keeps its contents until somebody
    assigns into it. *)
Theorem C50_histories :
  forall {A} `{Num A} (spl : spline_oracle A) fuel c (os : list (operation A)) m a,
  live m a -> Forall (fun o => ~ assigns_into a o) os ->
  contents (fold_left (perform spl fuel c) os m) a = contents m a.
Proof. exact @performs_other. Qed.
Print Assumptions C50_histories.

(** get_imfs_and_residue hands out the stored arrays themselves: an assignment to the imfs it
    returned is what the next call returns (the array returned by [emd] does not change). *)
Theorem C50_accessor_hands_out :
  forall {A} `{Num A} (spl : spline_oracle A) fuel c convS convT S T s t k m o m' r p j y,
  contents m S = Some (Vec s) -> shows m T t -> emd spl fuel c s t k = Ok o ->
  emd_h spl fuel c convS convT S T k m = (Ok r, m') ->
  exists i d, fst (imfs_and_residue_h m') = Ok (i, d) /\
    let m'' := do_write m' (MkWrite i p j y) in
    fst (imfs_and_residue_h m'') = Ok (i, d) /\
    contents m'' i = Some (Mat (set_nth (imfs o) p (set_nth (nth p (imfs o) []) j y))) /\
    contents m'' r = contents m' r.
Proof. exact @emd_handed_out. Qed.
Print Assumptions C50_accessor_hands_out.

(** get_imfs_and_trend copies when the residue is negligible and hands out the stored arrays
    otherwise. *)
Theorem C50_trend :
  forall {A} `{Num A} (m : mem A) i d Mv rv,
  o_imfs m = Some i -> o_residue m = Some d ->
  contents m i = Some (Mat Mv) -> contents m d = Some (Vec rv) ->
  match get_imfs_and_trend (MkState (Some Mv) (Some rv)) with
  | Raise e => fst (imfs_and_trend_h m) = Raise e
  | Ok (Mt, t) => exists m' a b, imfs_and_trend_h m = (Ok (a, b), m') /\ untouched m m' /\
      o_imfs m' = Some i /\ o_residue m' = Some d /\
      contents m' a = Some (Mat Mt) /\ contents m' b = Some (Vec t) /\
      if allclose0 rv then created m m' a /\ created m m' b /\ apart a b
      else a = i /\ b = d
  end.
Proof. exact @trend_h_spec. Qed.
Print Assumptions C50_trend.

(** The caller's memory: a signal, and the same array used as times. *)
Definition demo_mem : mem Qc := MkMem [Vec demo_S; Vec demo_T] None None.
Example C50_nonvacuous :
  contents demo_mem (MkArr 0 Whole) = Some (Vec demo_S) /\
  shows demo_mem (Some (MkArr 1 Whole)) (Some demo_T) /\
  match emd lin_spl 10 demo_fixe demo_S (Some demo_T) (-1) with
  | Ok o => length (out o) = 4%nat | Raise _ => False end /\
  match emd_h lin_spl 10 demo_fixe false true (MkArr 0 Whole) (Some (MkArr 1 Whole)) (-1) demo_mem with
  | (Ok r, m') => (2 <= base r)%nat /\ match contents m' r with Some (Mat Mv) => length Mv = 4%nat | _ => False end
  | _ => False
  end.
Proof.
  split; [reflexivity|]. split; [reflexivity|]. split; [vm_compute; reflexivity|].
  vm_compute. split; [repeat constructor|reflexivity].
Qed.

(** ** C65: EEMD returns the array it stores, for every arithmetic *)
(** A run on memory gives the values of the functional model; nothing that existed changes; the
    returned array is new, and it is the very array get_imfs_and_residue hands out. *)
Theorem C65_eemd_returns_stored :
  forall {A} `{Num A} {G} (gen : generator A G) (spl : spline_oracle A) fuel ec c conv o p S T s t k E p',
  contents (e_mem o) S = Some (Vec s) -> shows (e_mem o) T t -> state_shows o p ->
  eemd gen (emd_decomposer spl fuel ec) c p s t k = (Ok E, p') ->
  exists a b o', eemd_h gen spl fuel ec c conv o S T k = (Ok a, o') /\
    eemd_imfs_and_residue_h o' = Ok (a, b) /\
    contents (e_mem o') a = Some (Mat E) /\
    state_shows o' p' /\ untouched (e_mem o) (e_mem o') /\
    created (e_mem o) (e_mem o') a /\ created (e_mem o) (e_mem o') b /\ apart a b.
Proof. intros A HA G gen spl fuel ec. exact (eemd_call_ok gen spl fuel ec). Qed.
Print Assumptions C65_eemd_returns_stored.

Theorem C65_eemd_after_exception :
  forall {A} `{Num A} {G} (gen : generator A G) (spl : spline_oracle A) fuel ec c conv o p S T s t k e p',
  contents (e_mem o) S = Some (Vec s) -> shows (e_mem o) T t -> state_shows o p ->
  eemd gen (emd_decomposer spl fuel ec) c p s t k = (Raise e, p') ->
  exists o', eemd_h gen spl fuel ec c conv o S T k = (Raise e, o') /\
    state_shows o' p' /\ untouched (e_mem o) (e_mem o').
Proof. intros A HA G gen spl fuel ec. exact (eemd_call_raise gen spl fuel ec). Qed.
Print Assumptions C65_eemd_after_exception.

(** So an assignment by the caller to the returned array is an assignment to the stored one... *)
Theorem C65_eemd_write_seen :
  forall {A} `{Num A} {G} (gen : generator A G) (spl : spline_oracle A) fuel ec c conv o p S T s t k E p' a o' i j y,
  contents (e_mem o) S = Some (Vec s) -> shows (e_mem o) T t -> state_shows o p ->
  eemd gen (emd_decomposer spl fuel ec) c p s t k = (Ok E, p') ->
  eemd_h gen spl fuel ec c conv o S T k = (Ok a, o') ->
  contents (e_mem (e_writes o' [MkWrite a i j y])) a
    = Some (Mat (set_nth E i (set_nth (nth i E []) j y))).
Proof. intros A HA G gen spl fuel ec. exact (eemd_write_seen gen spl fuel ec). Qed.
Print Assumptions C65_eemd_write_seen.
(** ... which still is what get_imfs_and_residue hands out, while the residue, the collected
    imfs of the trials and the caller's own arrays stay as they were. *)
Theorem C65_eemd_write_contained :
  forall {A} `{Num A} {G} (gen : generator A G) (spl : spline_oracle A) fuel ec c conv o p S T s t k E p' a o' ws,
  contents (e_mem o) S = Some (Vec s) -> shows (e_mem o) T t -> state_shows o p ->
  eemd gen (emd_decomposer spl fuel ec) c p s t k = (Ok E, p') ->
  eemd_h gen spl fuel ec c conv o S T k = (Ok a, o') ->
  Forall (fun w => base (target w) = base a) ws ->
  exists b r, eemd_imfs_and_residue_h (e_writes o' ws) = Ok (a, b) /\
    e_residue p' = Some r /\ contents (e_mem (e_writes o' ws)) b = Some (Vec r) /\
    dict_shows (e_mem (e_writes o' ws)) (e_all (e_writes o' ws)) (all_imfs p') /\
    forall x, live (e_mem o) x -> contents (e_mem (e_writes o' ws)) x = contents (e_mem o) x.
Proof. intros A HA G gen spl fuel ec. exact (eemd_write_through gen spl fuel ec). Qed.
Print Assumptions C65_eemd_write_contained.
(** A later run (with any settings, successful or not) leaves the earlier result alone. *)
Theorem C65_eemd_next_run :
  forall {A} `{Num A} {G} (gen : generator A G) (spl : spline_oracle A) fuel ec c conv o p S T s t k E p' a o' c2 conv2 S2 T2 s2 t2 k2,
  contents (e_mem o) S = Some (Vec s) -> shows (e_mem o) T t -> state_shows o p ->
  eemd gen (emd_decomposer spl fuel ec) c p s t k = (Ok E, p') ->
  eemd_h gen spl fuel ec c conv o S T k = (Ok a, o') ->
  contents (e_mem o') S2 = Some (Vec s2) -> shows (e_mem o') T2 t2 ->
  let '(r, o'') := eemd_h gen spl fuel ec c2 conv2 o' S2 T2 k2 in
  contents (e_mem o'') a = Some (Mat E) /\ forall a2, r = Ok a2 -> apart a a2.
Proof. intros A HA G gen spl fuel ec. exact (eemd_twice gen spl fuel ec). Qed.
Print Assumptions C65_eemd_next_run.

Example C65_nonvacuous :
  state_shows (eemd_new [Vec short_S] (random demo_obj)) demo_obj /\
  match eemd demo_gen demo_dec (demo_ecfg 3 true false 1) demo_obj short_S None (-1) with
  | (Ok E, _) => length E = 3%nat | _ => False end /\
  match eemd_h demo_gen lin_spl 10 demo_fixe (demo_ecfg 3 true false 1) (false, false)
          (eemd_new [Vec short_S] (random demo_obj)) (MkArr 0 Whole) None (-1) with
  | (Ok a, o') => (1 <= base a)%nat /\ e_imf o' = Some a | _ => False end.
Proof.
  split; [repeat split; constructor|]. split; [vm_compute; reflexivity|].
  vm_compute. split; [repeat constructor|reflexivity].
Qed.
