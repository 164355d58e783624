(** * Props_Osc: signals that swing between two levels (C95). *)
From Verif Require Import PyFacts QcFacts Emd Spec EmdExact Extrema ExtremaSpec ExtremaProofs PrepareProofs EmdSimple Jit JitSpec Demo.
From Verif Require Import KindsProofs Kinds KindsSpec KindsAll KindsRange OscSpec Osc Props_Kinds Props_Jit Props_Emd.
From Coq Require Import String ZifyBool ZifyNat QArith Qcanon Lia List.
Import ListNotations.
Open Scope Z_scope.

(** The envelopes of such a signal are the two levels, for each of the seven kinds of spline. *)
Theorem C95_envelopes :
  forall c, extrema_detection c = Simple -> 1 <= nbsym c -> parse_kind (spline_kind c) <> None ->
  forall S l h, steady S l h ->
  exists P Q, extract_max_min_spline scipy_spl c (arange (List.length S)) S =
    Ok (repeat h (List.length S), repeat l (List.length S), P, Q).
Proof.
  intros c H1 H2 H3 S l h HS. rewrite arange_tz.
  destruct (steady_sift scipy_spl c kinds_interpolate kinds_level H1 H2 H3 S l h HS) as (e & P & Q & _ & _ & E & _). eauto.
Qed.
Print Assumptions C95_envelopes.

(** EMD finds exactly one component: the signal about the level halfway, whatever the rule that ends the sifting; what is left
    is that level. *)
Theorem C95_one_component :
  forall c, extrema_detection c = Simple -> 1 <= nbsym c -> parse_kind (spline_kind c) <> None -> 2 <= MAX_ITERATION c ->
  forall fuel S T max_imf l h, steady S l h -> (forall t, T = Some t -> List.length t = List.length S) -> (2 <= fuel)%nat ->
  exists o, emd scipy_spl fuel c S T max_imf = Ok o /\
    imfs o = [about (halfway l h) S] /\ residue o = repeat (halfway l h) (List.length S).
Proof.
  intros c H1 H2 H3 H4 fuel S T k l h HS HT Hf.
  exact (steady_emd scipy_spl c kinds_interpolate kinds_level H1 H2 H3 kinds_no_fuel fuel S T k l h HS H4 HT Hf).
Qed.
Print Assumptions C95_one_component.

(** A signal that swings between [-h] and [h] is returned as it is. *)
Theorem C95_returned_whole :
  forall c, extrema_detection c = Simple -> 1 <= nbsym c -> parse_kind (spline_kind c) <> None -> 2 <= MAX_ITERATION c ->
  forall fuel S T max_imf h, steady S (- h)%Qc h -> (forall t, T = Some t -> List.length t = List.length S) -> (2 <= fuel)%nat ->
  exists o, emd scipy_spl fuel c S T max_imf = Ok o /\ out o = [S].
Proof.
  intros c H1 H2 H3 H4 fuel S T k h HS HT Hf.
  destruct (C95_one_component c H1 H2 H3 H4 fuel S T k _ _ HS HT Hf) as (o & E & E1 & E2). exists o. split; auto.
  assert (H0 : halfway (- h)%Qc h = 0%Qc) by (unfold halfway; field; discriminate).
  rewrite H0 in E1, E2. rewrite about_zero in E1.
  destruct (emd_output _ _ _ _ _ _ _ E) as [[_ ->]|[N _]]; auto. exfalso. apply N. rewrite E2. clear.
  induction (List.length S) as [|n IH]; constructor; auto. unfold within, tol. split; discriminate.
Qed.
Print Assumptions C95_returned_whole.

(** JitEMD returns the same. *)
Theorem C95_jit :
  forall c, extrema_detection c = Simple -> 1 <= nbsym c -> supported (spline_kind c) -> parse_kind (spline_kind c) <> None -> 2 <= MAX_ITERATION c ->
  forall strict fuel S max_imf l h, steady S l h -> (2 <= fuel)%nat ->
  exists M, jit_emd scipy_spl fuel strict c S (arange (List.length S)) max_imf = Ok M /\
    (M = [about (halfway l h) S] \/ M = [about (halfway l h) S; repeat (halfway l h) (List.length S)]).
Proof.
  intros c H1 H2 H3 H3' H4 strict fuel S k l h HS Hf.
  destruct (C95_one_component c H1 H2 H3' H4 fuel S None k l h HS ltac:(discriminate) Hf) as (o & E & E1 & E2).
  rewrite (C46_emd_simple scipy_spl strict fuel c S None k (steady_length S l h HS) H1 H2 H3 ltac:(discriminate)). rewrite E. cbn [bind].
  exists (out o). split; auto. destruct (emd_output _ _ _ _ _ _ _ E) as [[_ ->]|[_ ->]]; rewrite E1, ?E2; auto.
Qed.
Print Assumptions C95_jit.

(** A triangle wave between 0 and 2 that starts anywhere, and a wave with plateaus between -3 and 3, which starts on one. *)
Definition triangle : list Qc := qs [1; 2; 1; 0; 1; 2; 1; 0; 1; 2; 1].
Definition shelves : list Qc := qs [3; 3; 0; -3; -3; 1; 3; 3; 2; -3; 0].
Example C95_nonvacuous :
  steady triangle 0%Qc (q 2) /\ steady shelves (q (-3)) (q 3) /\
  let c := demo_cfg "cubic" Simple 0 0 1000 in
  extrema_detection c = Simple /\ 1 <= nbsym c /\ parse_kind (spline_kind c) = Some Cubic /\ 2 <= MAX_ITERATION c /\
  match emd scipy_spl 2 c triangle None (-1) with
  | Ok o => out o = [qs [0; 1; 0; -1; 0; 1; 0; -1; 0; 1; 0]; qs [1; 1; 1; 1; 1; 1; 1; 1; 1; 1; 1]]
  | Raise _ => False
  end.
Proof.
  split; [eapply steady_check; [vm_compute; reflexivity|vm_compute; reflexivity..]|].
  split; [eapply steady_check; [vm_compute; reflexivity|vm_compute; reflexivity..]|].
  cbv zeta. split; [reflexivity|]. split; [discriminate|]. split; [reflexivity|]. split; [discriminate|].
  vm_compute. reflexivity.
Qed.
