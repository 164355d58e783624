(** * Props_Range: property C93, how large the components can get.

    [remainder S rows R] (MatlabSpec.v): R is what is left of S without the rows.  [monotone_kind] (KindsSpec.v):
    linear, slinear and pchip.  [scipy_spl] (Kinds.v): the interpolation of each kind, in exact arithmetic. *)
From Verif Require Import PyFacts QcFacts Emd Spec MatlabSpec EmdProofs EmdExact EmdTop Demo.
From Verif Require Import Kinds KindsSpec KindsAll KindsRange Props_Emd.
From Coq Require Import String.
From Coq Require Import QArith Qcanon Lia.
From Coq Require Import List.
Import ListNotations.
Local Notation length := List.length.
Open Scope Z_scope.

(** ** C93 *)
(** One sift per component, and a kind that does not overshoot: whatever is left after taking out the
    first j components lies between the same bounds as the signal; so does the residue, and no component
    is larger than the distance of the bounds. *)
Theorem C93_range :
  forall k c, parse_kind (spline_kind c) = Some k -> monotone_kind k -> extrema_detection c = Simple -> 1 <= nbsym c ->
  FIXE c = 1 -> 1 < MAX_ITERATION c ->
  forall fuel S T max_imf o a b, emd scipy_spl fuel c S T max_imf = Ok o ->
  (forall x, In x S -> (a <= x)%Qc /\ (x <= b)%Qc) ->
  (forall j R, (j <= length (imfs o))%nat -> remainder S (firstn j (imfs o)) R ->
     forall x, In x R -> (a <= x)%Qc /\ (x <= b)%Qc) /\
  (forall x, In x (residue o) -> (a <= x)%Qc /\ (x <= b)%Qc) /\
  (forall row x, In row (imfs o) -> In x row -> within (b - a)%Qc x).
Proof. exact emd_in_range. Qed.
Print Assumptions C93_range.

(** n sifts per component: what is left after j components is at most (2^n - 1)^j times as large as the
    signal, and the component taken from it at most 2^n times as large as that. *)
Theorem C93_growth :
  forall k c, parse_kind (spline_kind c) = Some k -> monotone_kind k -> extrema_detection c = Simple -> 1 <= nbsym c ->
  0 < FIXE c < MAX_ITERATION c ->
  forall fuel S T max_imf o B, emd scipy_spl fuel c S T max_imf = Ok o -> (forall x, In x S -> within B x) ->
  (forall j R, (j <= length (imfs o))%nat -> remainder S (firstn j (imfs o)) R ->
     forall x, In x R -> within (Qc_ofZ ((2 ^ FIXE c - 1) ^ Z.of_nat j) * B)%Qc x) /\
  (forall j x, (j < length (imfs o))%nat -> In x (nth j (imfs o) []) ->
     within (Qc_ofZ (2 ^ FIXE c * (2 ^ FIXE c - 1) ^ Z.of_nat j) * B)%Qc x).
Proof. exact emd_growth. Qed.
Print Assumptions C93_growth.

(** The other kinds leave the range: all samples lie between 0 and 51, the residue does not. *)
Definition steep : list Qc := qs [0; 3; 0; 1; 50; 51; 50; 51; 51].
Definition C93_cfg (kind : String.string) : emd_config Qc := @demo_cfg Qc _ kind Simple 1 0 1000.
Definition leaves (kind : String.string) : bool :=
  match emd scipy_spl 3 (C93_cfg kind) steep None 1 with
  | Ok o => existsb (fun x => Qc_ltb (q 51) x || Qc_ltb x (q 0))%bool (residue o)
  | _ => false
  end.
Theorem C93_range_refuted :
  forall k, ~ monotone_kind k ->
  exists c S o x, parse_kind (spline_kind c) = Some k /\ extrema_detection c = Simple /\ 1 <= nbsym c /\
    FIXE c = 1 /\ 1 < MAX_ITERATION c /\ emd scipy_spl 3 c S None 1 = Ok o /\
    (forall x, In x S -> (q 0 <= x)%Qc /\ (x <= q 51)%Qc) /\ In x (residue o) /\ ~ ((q 0 <= x)%Qc /\ (x <= q 51)%Qc).
Proof.
  assert (HB : forall x, In x steep -> (q 0 <= x)%Qc /\ (x <= q 51)%Qc).
  { intros x Hx. apply in_map_iff in Hx as (z & <- & Hz). unfold q. rewrite !Qc_ofZ_le. cbn in Hz. lia. }
  assert (W : forall kind k, parse_kind kind = Some k -> leaves kind = true ->
    exists c S o x, parse_kind (spline_kind c) = Some k /\ extrema_detection c = Simple /\ 1 <= nbsym c /\
    FIXE c = 1 /\ 1 < MAX_ITERATION c /\ emd scipy_spl 3 c S None 1 = Ok o /\
    (forall x, In x S -> (q 0 <= x)%Qc /\ (x <= q 51)%Qc) /\ In x (residue o) /\ ~ ((q 0 <= x)%Qc /\ (x <= q 51)%Qc)).
  { intros kind k Hk HL. unfold leaves in HL. destruct (emd scipy_spl 3 (C93_cfg kind) steep None 1) as [o|e] eqn:E; [|discriminate].
    apply existsb_exists in HL as (x & Hx & HL). exists (C93_cfg kind), steep, o, x.
    do 5 (split; [first [assumption|reflexivity|cbn; lia]|]). split; [exact E|]. split; [exact HB|]. split; [exact Hx|].
    intros [A1 A2]. apply Bool.orb_true_iff in HL as [HL|HL]; apply Qc_ltb_lt in HL; eapply Qclt_not_le; eauto. }
  intros k Hk. destruct k.
  all: try (exfalso; apply Hk; unfold monotone_kind; tauto).
  - apply (W "akima"%string); vm_compute; reflexivity.
  - apply (W "cubic"%string); vm_compute; reflexivity.
  - apply (W "cubic_hermite"%string); vm_compute; reflexivity.
  - apply (W "quadratic"%string); vm_compute; reflexivity.
Qed.
Print Assumptions C93_range_refuted.

(** The demonstration signal with "pchip", one sift per component: two components and a residue. *)
Example C93_nonvacuous :
  parse_kind (spline_kind (C93_cfg "pchip")) = Some Pchip /\ monotone_kind Pchip /\
  extrema_detection (C93_cfg "pchip") = Simple /\ 1 <= nbsym (C93_cfg "pchip") /\ FIXE (C93_cfg "pchip") = 1 /\
  match emd scipy_spl 5 (C93_cfg "pchip") demo_S None 2 with Ok o => length (imfs o) | _ => O end = 2%nat.
Proof.
  split; [reflexivity|]. split; [left; reflexivity|]. split; [reflexivity|]. split; [cbn; lia|]. split; [reflexivity|].
  vm_compute. reflexivity.
Qed.
