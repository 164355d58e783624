(** * Props_Stream: property C104, appending samples to a signal.

    [find_extrema] is EMD.find_extrema (Extrema.v), in exact arithmetic; [sample S i] is the i-th
    sample. *)
From Verif Require Import PyFacts QcFacts Emd Extrema Spec Demo ExtremaSpec StreamProofs.
From Coq Require Import QArith Qcanon Lia.
Open Scope Z_scope.

(** ** What has been found stays found *)

(** 'simple' detection: the extrema of a signal that does not start flat stay, with their values,
    and those that new samples bring come after them. *)
Theorem C104_simple T U S X e e' :
  length T = length S -> length U = length X -> 2 <= zlen S -> sample S 0 <> sample S 1 ->
  find_extrema Simple T S = Ok e -> find_extrema Simple (T ++ U) (S ++ X) = Ok e' ->
  (exists more, max_pos e' = max_pos e ++ more) /\ (exists more, max_val e' = max_val e ++ more) /\
  (exists more, min_pos e' = min_pos e ++ more) /\ (exists more, min_val e' = min_val e ++ more).
Proof. exact (stream_simple T U S X e e'). Qed.
Print Assumptions C104_simple.

(** 'parabol' detection, for increasing times: the same for every signal. *)
Theorem C104_parabol T U S X e e' :
  length T = length S -> length U = length X -> increasing T ->
  find_extrema Parabol T S = Ok e -> find_extrema Parabol (T ++ U) (S ++ X) = Ok e' ->
  (exists more, max_pos e' = max_pos e ++ more) /\ (exists more, max_val e' = max_val e ++ more) /\
  (exists more, min_pos e' = min_pos e ++ more) /\ (exists more, min_val e' = min_val e ++ more).
Proof. exact (stream_parabol_increasing T U S X e e'). Qed.
Print Assumptions C104_parabol.

(** For times in any order: for a signal that does not end flat. *)
Theorem C104_parabol_any_times T U S X e e' :
  length T = length S -> length U = length X -> 2 <= zlen S -> sample S (zlen S - 2) <> sample S (zlen S - 1) ->
  find_extrema Parabol T S = Ok e -> find_extrema Parabol (T ++ U) (S ++ X) = Ok e' ->
  (exists more, max_pos e' = max_pos e ++ more) /\ (exists more, max_val e' = max_val e ++ more) /\
  (exists more, min_pos e' = min_pos e ++ more) /\ (exists more, min_val e' = min_val e ++ more).
Proof. exact (stream_parabol T U S X e e'). Qed.
Print Assumptions C104_parabol_any_times.

(** Zero crossings, with both: the same for a signal that does not end at zero. *)
Theorem C104_zeros d T U S X e e' :
  length T = length S -> length U = length X -> 1 <= zlen S -> sample S (zlen S - 1) <> 0%Qc ->
  find_extrema d T S = Ok e -> find_extrema d (T ++ U) (S ++ X) = Ok e' ->
  exists more, indzer e' = indzer e ++ more.
Proof. exact (stream_zeros d T U S X e e'). Qed.
Print Assumptions C104_zeros.

Definition old_S : list Qc := qs [0; 3; -1; 2; 2; -2].
Definition new_S : list Qc := qs [1; 1; 0; 4].
Definition old_T : list Qc := qs [0; 1; 2; 3; 4; 5].
Definition new_T : list Qc := qs [6; 7; 8; 9].
Example C104_nonvacuous :
  sample old_S 0 <> sample old_S 1 /\ sample old_S (zlen old_S - 2) <> sample old_S (zlen old_S - 1) /\
  sample old_S (zlen old_S - 1) <> 0%Qc /\ increasing old_T /\
  (exists e e', find_extrema Simple old_T old_S = Ok e /\ find_extrema Simple (old_T ++ new_T) (old_S ++ new_S) = Ok e' /\
    map this (max_pos e) = [1 # 1; 4 # 1]%Q /\ map this (max_pos e') = [1 # 1; 4 # 1; 6 # 1]%Q /\
    map this (min_pos e) = [2 # 1]%Q /\ map this (min_pos e') = [2 # 1; 5 # 1; 8 # 1]%Q /\
    indzer e = [0; 1; 2; 4] /\ indzer e' = [0; 1; 2; 4; 5; 8]) /\
  (exists e e', find_extrema Parabol old_T old_S = Ok e /\ find_extrema Parabol (old_T ++ new_T) (old_S ++ new_S) = Ok e' /\
    zlen (max_pos e) = 2 /\ zlen (max_pos e') = 3).
Proof.
  split; [discriminate|]. split; [discriminate|]. split; [discriminate|].
  split; [intros i Hi; do 5 (destruct i as [|i]; [reflexivity|]); cbn in Hi; lia|]. split.
  - eexists _, _. split; [vm_compute; reflexivity|]. split; [vm_compute; reflexivity|]. vm_compute. repeat split.
  - eexists _, _. split; [vm_compute; reflexivity|]. split; [vm_compute; reflexivity|]. vm_compute. repeat split.
Qed.

(** ** The conditions are needed *)

(** A maximum reported at a flat start vanishes when the last step of the signal goes the other way. *)
Theorem C104_flat_start_refuted :
  exists T U S X e e', length T = length S /\ length U = length X /\
  find_extrema Simple T S = Ok e /\ find_extrema Simple (T ++ U) (S ++ X) = Ok e' /\
  exists t, In t (max_pos e) /\ ~ In t (max_pos e').
Proof.
  exists (qs [0; 1; 2; 3]), (qs [4]), (qs [1; 1; 0; 1]), (qs [0]). eexists _, _.
  split; [reflexivity|]. split; [reflexivity|]. split; [vm_compute; reflexivity|]. split; [vm_compute; reflexivity|].
  exists 0%Qc. split; [left; apply Qc_is_canon; reflexivity|]. intros [F|[]]. discriminate F.
Qed.
Print Assumptions C104_flat_start_refuted.

(** A crossing at the last sample moves when the signal stays at zero. *)
Theorem C104_zero_end_refuted :
  exists d T U S X e e' i, length T = length S /\ length U = length X /\
  find_extrema d T S = Ok e /\ find_extrema d (T ++ U) (S ++ X) = Ok e' /\
  In i (indzer e) /\ ~ In i (indzer e').
Proof.
  exists Simple, (qs [0; 1]), (qs [2]), (qs [1; 0]), (qs [0]). eexists _, _, 1.
  split; [reflexivity|]. split; [reflexivity|]. split; [vm_compute; reflexivity|]. split; [vm_compute; reflexivity|].
  split; [left; reflexivity|]. intros [F|[]]. discriminate F.
Qed.
Print Assumptions C104_zero_end_refuted.

(** ** Decompositions do not stay *)

(** One more sample can change the first component at every sample of the signal. *)
Theorem C104_decomposition_refuted :
  exists spl fuel c S x o o',
  emd spl fuel c S None (-1) = Ok o /\ emd spl fuel c (S ++ [x]) None (-1) = Ok o' /\
  imfs o <> [] /\ imfs o' <> [] /\
  forall i, (i < length S)%nat -> nth i (nth 0 (imfs o) []) 0%Qc <> nth i (nth 0 (imfs o') []) 0%Qc.
Proof.
  exists lin_spl, 20%nat, demo_fixe, (qs [0; 3; -1; 2; 0]), (Qc_ofZ 4). eexists _, _.
  split; [vm_compute; reflexivity|]. split; [vm_compute; reflexivity|].
  split; [discriminate|]. split; [discriminate|].
  intros i Hi. do 5 (destruct i as [|i]; [cbn; discriminate|]). cbn in Hi. lia.
Qed.
Print Assumptions C104_decomposition_refuted.
