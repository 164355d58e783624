(** * Props_HeapImage: property C92, EMD2D and BEMD work on arrays of their own.

    [HeapImage.v] models both methods on arrays in memory; what a caller can do and see is defined in
    HeapImageSpec.v.  [emd2d] and [bemd] are the same methods on values (Image.v). *)
From Verif Require Import PyFacts QcFacts Spec Image ImageSpec Recon Demo ImageDemo HeapImage HeapImageSpec HeapImageProofs.
From Coq Require Import QArith Qcanon Lia.
Open Scope Z_scope.

(** ** C92 *)
(** The result is a new array with the components of the image as it was at the call, and nothing that
    existed before the call has changed. *)
Theorem C92_emd2d :
  forall {A} `{Num A} (sbs : surface A) c fuel img k m x rows,
  icontents m img = Some (Pic x) -> emd2d sbs c fuel x k = Ok rows ->
  exists m' a, emd2d_h sbs c fuel img k m = (Ok a, m') /\ icontents m' a = Some (Stack rows) /\
    iuntouched m m' /\ icreated m m' a.
Proof.
  intros A N sbs c fuel img k m x rows E Ev. pose proof (emd2d_h_does sbs c fuel img k m x E) as D. rewrite Ev in D.
  apply does_ok in D as (a & m' & E' & G & R). exists m', a. split; auto. split; [apply R|]. split; [apply grows_untouched; auto|eapply new_created; eauto].
Qed.
Print Assumptions C92_emd2d.
Theorem C92_bemd :
  forall {A} `{Num A} (rec : reconstruction A) f c fuel img k m x rows,
  icontents m img = Some (Pic x) -> bemd rec f c fuel x k = Ok rows ->
  exists m' a, bemd_h rec f c fuel img k m = (Ok a, m') /\ icontents m' a = Some (Stack rows) /\
    iuntouched m m' /\ icreated m m' a.
Proof.
  intros A N rec f c fuel img k m x rows E Ev. pose proof (bemd_h_does rec f c fuel img k m x E) as D. rewrite Ev in D.
  apply does_ok in D as (a & m' & E' & G & R). exists m', a. split; auto. split; [apply R|]. split; [apply grows_untouched; auto|eapply new_created; eauto].
Qed.
Print Assumptions C92_bemd.

(** Nor when the decomposition raises. *)
Theorem C92_after_exception :
  forall {A} `{Num A} (sbs : surface A) rec f c fuel img k m x e, icontents m img = Some (Pic x) ->
  (emd2d sbs c fuel x k = Raise e -> exists m', emd2d_h sbs c fuel img k m = (Raise e, m') /\ iuntouched m m') /\
  (bemd rec f c fuel x k = Raise e -> exists m', bemd_h rec f c fuel img k m = (Raise e, m') /\ iuntouched m m').
Proof.
  intros A N sbs rec f c fuel img k m x e E. split; intros Ev.
  - pose proof (emd2d_h_does sbs c fuel img k m x E) as D. rewrite Ev in D. apply does_fail in D as (m' & E' & G). exists m'. split; auto. apply grows_untouched; auto.
  - pose proof (bemd_h_does rec f c fuel img k m x E) as D. rewrite Ev in D. apply does_fail in D as (m' & E' & G). exists m'. split; auto. apply grows_untouched; auto.
Qed.
Print Assumptions C92_after_exception.

(** Whatever the program does (decomposing any arrays with either class, assigning pixels), an array keeps
    its contents until somebody assigns into it: assignments to the components change no image, and
    assignments to the image change no component. *)
Theorem C92_histories :
  forall {A} `{Num A} (sbs : surface A) rec f fuel (os : list (ioperation A)) m a,
  ilive m a -> Forall (fun o => ~ iassigns_into a o) os ->
  icontents (fold_left (iperform sbs rec f fuel) os m) a = icontents m a.
Proof. exact @iperform_other. Qed.
Print Assumptions C92_histories.

(** An image in memory: decomposed into three components by each class, and unchanged after a pixel of the
    last component, where EMD2D added the offset, is overwritten. *)
Definition pictures : imem Qc := [Pic (spikes 3); Pic hills].
Example C92_nonvacuous :
  match emd2d_h (flat_surface half) (cfg2_of 2 0 100) 5 (MkIArr 0 None) 2 pictures with
  | (Ok a, m') => (2 <= ibase a)%nat /\
      match bemd_h recon (flat_rbf half) (cfg2_of 2 0 100) 5 (MkIArr 1 None) 2 m' with
      | (Ok b, m'') =>
          match icontents m'' a, icontents m'' b with
          | Some (Stack r), Some (Stack s) => length r = 3%nat /\ length s = 3%nat
          | _, _ => False
          end /\ firstn 2 (do_iwrite m'' (MkIWrite a 2 0 0 (q 77))) = pictures
      | _ => False
      end
  | _ => False
  end.
Proof. vm_compute. repeat split; try reflexivity. lia. Qed.
