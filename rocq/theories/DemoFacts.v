(** * DemoFacts: the demonstration interpolation meets the hypothesis put on SciPy's. *)
From Verif Require Import PyFacts QcFacts Emd Spec Demo EmdControl SplineProofs EmdSimple.
From Coq Require Import QArith Qcanon.
Open Scope Z_scope.

Lemma lin_at_ok pts u : increasing (map fst pts) -> (2 <= length pts)%nat ->
  (exists p q, nth_error pts 0 = Some p /\ nth_error pts (length pts - 1) = Some q /\
               (fst p <= u)%Qc /\ (u <= fst q)%Qc) ->
  exists v, lin_at pts u = Ok v.
Proof.
  induction pts as [|[x0 y0] pts IH]; intros HI HL (p & q & Ep & Eq & Hp & Hq); [simpl in HL; lia|].
  destruct pts as [|[x1 y1] pts]; [simpl in HL; lia|].
  injection Ep as <-. cbn [fst] in *. cbn [lin_at].
  destruct (nltb u x0) eqn:E0; [exfalso; num_qc; qclra|].
  destruct (nleb u x1) eqn:E1; [eauto|].
  apply IH.
  - eapply increasing_tl; eauto.
  - destruct pts; [|simpl; lia]. exfalso. simpl in Eq. injection Eq as <-. num_qc. cbn [fst] in Hq. qclra.
  - exists (x1, y1), q. split; auto. split.
    + cbn [length] in *. replace (Datatypes.S (Datatypes.S (length pts)) - 1)%nat
        with (Datatypes.S (Datatypes.S (length pts) - 1)) in Eq by lia. exact Eq.
    + split; auto. cbn [fst]. num_qc. qclra.
Qed.

Lemma lin_interpolates : interpolates lin_spl.
Proof.
  intros k pts t HI H3 Ht. unfold lin_spl.
  assert (E : exists v, mapM (lin_at pts) t = Ok v).
  { clear k. induction t as [|u t IH]; [exists []; reflexivity|].
    destruct (lin_at_ok pts u HI) as (v & Ev); [unfold zlen in H3; lia|apply Ht; left; auto|].
    destruct IH as (vs & Evs); [intros w Hw; apply Ht; right; auto|].
    exists (v :: vs). cbn [mapM]. rewrite Ev. cbn [bind]. rewrite Evs. reflexivity. }
  destruct E as (v & Ev). exists v. split; auto. eapply mapM_ok_length; eauto.
Qed.

Lemma lin_no_fuel kind pts (t : list Qc) : lin_spl kind pts t <> Raise OutOfFuel.
Proof.
  apply ff_mapM. intros u. induction pts as [|[x0 y0] [|[x1 y1] pts] IH]; try discriminate.
  cbn [lin_at]. destruct (nltb u x0); [discriminate|]. destruct (nleb u x1); [discriminate|]. exact IH.
Qed.
