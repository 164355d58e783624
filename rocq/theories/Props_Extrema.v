(** * Props_Extrema: properties C15-C18 of 'simple' extrema detection (exact arithmetic).

    [sample], [hill], [valley], [rounded_mid], [zero_run], [reported_max], [reported_min] are
    defined in Spec.v in terms of the samples only. *)
From Verif Require Import PyFacts QcFacts Extrema Spec Demo ExtremaSpec ParabolProofs.

(** ** C15 *)
Theorem C15_strict_extrema :
  forall T S : list Qc,
  length T = length S ->
  (forall i, 0 <= i < zlen S - 1 -> sample S i <> sample S (i + 1)) ->
  exists e M m, find_extrema Simple T S = Ok e /\
    max_pos e = map (sample T) M /\ max_val e = map (sample S) M /\
    min_pos e = map (sample T) m /\ min_val e = map (sample S) m /\
    zincreasing M /\ zincreasing m /\
    (forall i, In i M <-> 0 < i < zlen S - 1 /\
       (sample S (i - 1) < sample S i)%Qc /\ (sample S (i + 1) < sample S i)%Qc) /\
    (forall i, In i m <-> 0 < i < zlen S - 1 /\
       (sample S i < sample S (i - 1))%Qc /\ (sample S i < sample S (i + 1))%Qc).
Proof. exact simple_strict. Qed.
Print Assumptions C15_strict_extrema.
Example C15_nonvacuous :
  exists e, find_extrema Simple demo_T demo_S = Ok e /\ zlen (max_pos e) = 3 /\ zlen (min_pos e) = 4 /\
  length demo_T = length demo_S /\
  forallb (fun d => negb (is0 d)) (ndiff demo_S) = true.
Proof. eexists. vm_compute. repeat split. Qed.

(** ** C16 *)
Theorem C16_plateau_extrema :
  forall T S : list Qc,
  length T = length S ->
  exists e M m, find_extrema Simple T S = Ok e /\
    max_pos e = map (sample T) M /\ max_val e = map (sample S) M /\
    min_pos e = map (sample T) m /\ min_val e = map (sample S) m /\
    zincreasing M /\ zincreasing m /\
    (forall i, In i M <-> reported_max S i) /\ (forall i, In i m <-> reported_min S i).
Proof. exact simple_plateau. Qed.
Print Assumptions C16_plateau_extrema.

(** The property as one would state it, for signals without a flat start. *)
Theorem C16_plateau_extrema_interior :
  forall T S : list Qc,
  length T = length S -> sample S 0 <> sample S 1 -> sample S 1 <> sample S 2 ->
  exists e M m, find_extrema Simple T S = Ok e /\
    max_pos e = map (sample T) M /\ min_pos e = map (sample T) m /\
    zincreasing M /\ zincreasing m /\
    (forall i, In i M <-> exists a b, hill S a b /\ rounded_mid a b i) /\
    (forall i, In i m <-> exists a b, valley S a b /\ rounded_mid a b i).
Proof. exact simple_plateau_interior. Qed.
Print Assumptions C16_plateau_extrema_interior.
Example C16_nonvacuous :
  let S := qs [0; 1; 3; 3; 3; 3; 1; 1; 2; 0] in
  exists e, find_extrema Simple (map Qc_ofZ (zseq 0 10)) S = Ok e /\
    map this (max_pos e) = [4 # 1; 8 # 1]%Q /\ map this (min_pos e) = [6 # 1]%Q /\
    hill S 2 5.
Proof.
  eexists. split; [vm_compute; reflexivity|]. split; [reflexivity|]. split; [reflexivity|].
  unfold hill. repeat split; try (simpl; lia); try reflexivity.
  intros k Hk. assert (k = 2 \/ k = 3 \/ k = 4 \/ k = 5) as [-> | [-> | [-> | ->]]] by lia; reflexivity.
Qed.

(** A hill starting at sample 1 is not reported. *)
Theorem C16_plateau_at_one_refuted :
  exists T S e, length T = length S /\ hill S 1 2 /\
    find_extrema Simple T S = Ok e /\ max_pos e = [].
Proof.
  exists (qs [0; 1; 2; 3]), (qs [0; 1; 1; 0]). eexists. split; [reflexivity|]. split.
  - unfold hill. repeat split; try (simpl; lia); try reflexivity.
    intros k Hk. assert (k = 1 \/ k = 2) as [-> | ->] by lia; reflexivity.
  - split; [vm_compute; reflexivity|]. reflexivity.
Qed.
Print Assumptions C16_plateau_at_one_refuted.

(** An extremum is reported where there is no hill. *)
Theorem C16_plateau_at_zero_refuted :
  exists T S e, length T = length S /\ (forall a b, ~ hill S a b) /\
    find_extrema Simple T S = Ok e /\ max_pos e <> [].
Proof.
  exists (qs [0; 1; 2; 3]), (qs [1; 1; 0; 1]). eexists. split; [reflexivity|]. split.
  - intros a b ((H1 & H2) & H3 & Hf & H4 & H5). simpl in H3.
    assert (D : (a = 1 \/ a = 2) /\ (b = 1 \/ b = 2)) by lia.
    destruct D as [[-> | ->] [-> | ->]]; try lia; vm_compute in H4, H5; discriminate.
  - split; [vm_compute; reflexivity|]. discriminate.
Qed.
Print Assumptions C16_plateau_at_zero_refuted.

(** ** C17 *)
Theorem C17_alternation :
  forall T S : list Qc,
  length T = length S ->
  exists e M m, find_extrema Simple T S = Ok e /\
    max_pos e = map (sample T) M /\ min_pos e = map (sample T) m /\
    zincreasing M /\ zincreasing m /\
    (forall i, In i M -> ~ In i m) /\
    (forall i j, In i M -> In j M -> i < j -> exists k, In k m /\ i < k < j) /\
    (forall i j, In i m -> In j m -> i < j -> exists k, In k M /\ i < k < j).
Proof. exact simple_alternate. Qed.
Print Assumptions C17_alternation.
Theorem C17_counts :
  forall (T S : list Qc) e,
  length T = length S -> find_extrema Simple T S = Ok e ->
  Z.abs (zlen (max_pos e) - zlen (min_pos e)) <= 1 /\
  (2 < zlen (max_pos e) + zlen (min_pos e) -> 0 < zlen (max_pos e) /\ 0 < zlen (min_pos e)).
Proof. exact simple_counts. Qed.
Print Assumptions C17_counts.
Example C17_nonvacuous :
  exists e, find_extrema Simple demo_T demo_S = Ok e /\ 2 < zlen (max_pos e) + zlen (min_pos e).
Proof. eexists. vm_compute. split; reflexivity. Qed.

(** ** C18 *)
Theorem C18_zero_crossings :
  forall m (T S : list Qc) e,
  length T = length S -> find_extrema m T S = Ok e ->
  zincreasing (indzer e) /\
  (forall i, In i (indzer e) <->
    (0 <= i < zlen S - 1 /\ opposite (sample S i) (sample S (i + 1))) \/
    (exists a b, zero_run S a b /\ rounded_mid a b i)).
Proof. exact any_zeros. Qed.
Print Assumptions C18_zero_crossings.
(** Different crossings have different indices, so none is counted twice or merged. *)
Theorem C18_crossings_distinct :
  forall S a b i, zero_run S a b -> rounded_mid a b i ->
  (forall a' b', zero_run S a' b' -> rounded_mid a' b' i -> a = a' /\ b = b') /\
  ~ opposite (sample S i) (sample S (i + 1)).
Proof.
  exact (fun S a b i R M => conj (fun a' b' R' M' => zero_run_unique S a b a' b' i R M R' M')
                                 (fun O => crossing_not_zero S i a b O R M)).
Qed.
Print Assumptions C18_crossings_distinct.
Example C18_nonvacuous :
  exists e, find_extrema Simple (map Qc_ofZ (zseq 0 9)) (qs [-1; 2; 0; 0; 0; -1; 0; 3; -2]) = Ok e /\
    indzer e = [0; 3; 6; 7] /\
  exists e', find_extrema Parabol (map Qc_ofZ (zseq 0 9)) (qs [-1; 2; 0; 0; 0; -1; 0; 3; -2]) = Ok e' /\
    indzer e' = [0; 3; 6; 7].
Proof.
  eexists. split; [vm_compute; reflexivity|]. split; [vm_compute; reflexivity|].
  eexists. vm_compute. split; reflexivity.
Qed.
