(** * Props_Shared: property C101, one EMD object shared by several ensembles.

    [perform_all b p] (SharedEmd.v) runs a program [p] of statements about one EMD object, the EEMD
    and CEEMDAN objects that were given it as [ext_EMD], and its settings.  [heard who] are the
    results of one object; [leaves] is what CEEMDAN leaves in the EMD object, an arbitrary
    function. *)
From Verif Require Import PyFacts QcFacts SharedEmd SharedSpec Spec EemdSpec Demo EmdProofs EmdExact EemdProofs
  Props_Eemd Props_Ceemdan SharedProofs.
From Coq Require Import QArith Qcanon Lia.
Open Scope Z_scope.

(** ** Sharing changes no result *)
(** EEMD object [i] returns and stores, run by run, what it would with an EMD object of its own
    (in any state [d]) whose settings are changed at the same moments. *)
Theorem C101_eemd :
  forall A (HA : Num A) G (gen : generator A G) std arrival spl fuel leaves p (b : bench A G) i o d,
  nth_error (b_eemd b) i = Some o ->
  let shared := perform_all gen std arrival spl fuel leaves b p in
  let alone := eemd_alone gen spl fuel i (b_cfg b) (lend o d) p in
  heard (AnEemd i) (fst shared) = fst alone /\
  exists o', nth_error (b_eemd (snd shared)) i = Some o' /\ same_but_emd o' (snd alone).
Proof.
  intros A HA G gen std arrival spl fuel leaves p b i o d E. cbv zeta.
  assert (Hx : same_but_emd o (lend o d)) by (repeat split; reflexivity).
  pose proof (eemd_unaware gen std arrival spl fuel leaves p b i o _ E Hx) as U.
  destruct (perform_all gen std arrival spl fuel leaves b p). destruct (eemd_alone _ _ _ _ _ _ _). exact U.
Qed.
Print Assumptions C101_eemd.

(** The same for CEEMDAN objects. *)
Theorem C101_ceemdan :
  forall A (HA : Num A) G (gen : generator A G) std arrival spl fuel leaves p (b : bench A G) i o,
  nth_error (b_ceemdan b) i = Some o ->
  let shared := perform_all gen std arrival spl fuel leaves b p in
  let alone := ceemdan_alone gen std arrival spl fuel i (b_cfg b) o p in
  heard (ACeemdan i) (fst shared) = fst alone /\ nth_error (b_ceemdan (snd shared)) i = Some (snd alone).
Proof.
  intros A HA G gen std arrival spl fuel leaves p b i o E. cbv zeta.
  pose proof (ceemdan_unaware gen std arrival spl fuel leaves p b i o E) as U.
  destruct (perform_all gen std arrival spl fuel leaves b p). destruct (ceemdan_alone _ _ _ _ _ _ _ _ _). exact U.
Qed.
Print Assumptions C101_ceemdan.

(** And the user's own calls return what new EMD objects with the settings of that moment do. *)
Theorem C101_emd :
  forall A (HA : Num A) G (gen : generator A G) std arrival spl fuel leaves p (b : bench A G),
  heard TheEmd (fst (perform_all gen std arrival spl fuel leaves b p)) = emd_alone spl fuel (b_cfg b) p.
Proof. intros. apply emd_unaware. Qed.
Print Assumptions C101_emd.

(** The statements about other objects can be left out, so those of different objects can be
    interleaved in any way. *)
Theorem C101_only_own :
  forall A (HA : Num A) G (gen : generator A G) std arrival spl fuel leaves (b : bench A G) p who,
  present b who ->
  let all := perform_all gen std arrival spl fuel leaves b p in
  let own := perform_all gen std arrival spl fuel leaves b (part_of who p) in
  heard who (fst all) = heard who (fst own) /\ keeps (snd all) (snd own) who.
Proof. intros. apply only_own. assumption. Qed.
Print Assumptions C101_only_own.

(** ** But the EMD object is written to *)
(** After a serial run of an EEMD object that returned, the EMD object reports the decomposition of
    that run's signal with the noise of its last trial. *)
Theorem C101_serial_run :
  forall G (gen : generator Qc G), sized gen -> forall std arrival spl fuel leaves b i c S T k E b',
  parallel c = false -> 1 <= trials c ->
  perform gen std arrival spl fuel leaves b (RunEemd i c S T k) = ([(AnEemd i, Ok E)], b') ->
  exists T' w g v X rows r o', spread S w /\
    match T with Some t => T' = t | None => timeline (length S) = Ok T' end /\
    nth_error (b_eemd b') i = Some o' /\
    draws gen (noise_kind c) (noise_width c * w)%Qc (length S) g v (random o') /\ noisy S v X /\
    (exists e, emd spl fuel (b_cfg b) X (Some T') k = Ok e /\ rows = imfs e /\ r = residue e) /\
    get_imfs_and_residue (b_emd b') = Ok (rows, r) /\ adds_up (rows ++ [r]) X.
Proof. exact @serial_report. Qed.
Print Assumptions C101_serial_run.

(** A parallel run works on copies: the EMD object is as before, whether the run returned or not. *)
Theorem C101_parallel_run :
  forall G (gen : generator Qc G) std arrival spl fuel leaves b i c S T k,
  parallel c = true -> b_emd (snd (perform gen std arrival spl fuel leaves b (RunEemd i c S T k))) = b_emd b.
Proof. exact @parallel_report. Qed.
Print Assumptions C101_parallel_run.

(** So the EMD object need not report the user's last call of it. *)
Definition shared_bench : bench Qc Z :=
  MkBench demo_fixe emd_init [MkESt 0 tt None None []; MkESt 0 tt None None []] [MkCSt 0 None None].
Definition shared_run b p := perform_all (A := Qc) demo_gen (fun _ => 1%Qc) (fun l => l) lin_spl 10 (fun d _ _ _ _ _ => d) b p.
Definition shared_program : list (task Qc) :=
  [Decompose short_S None (-1); RunEemd 1 (demo_ecfg 1 false false 1) short_S None (-1)].
Theorem C101_report_refuted :
  exists G (gen : generator Qc G) std arrival spl fuel leaves b S p E, sized gen /\
  let '(l, b') := perform_all gen std arrival spl fuel leaves b (Decompose S None (-1) :: p) in
  (forall T k X, ~ In (Decompose X T k) p) /\ heard TheEmd l = [Ok E] /\
  exists rows r, get_imfs_and_residue (b_emd b') = Ok (rows, r) /\ ~ adds_up (rows ++ [r]) S.
Proof.
  exists Z, demo_gen, (fun _ => 1%Qc), (fun l => l), lin_spl, 10%nat, (fun d _ _ _ _ _ => d), shared_bench, short_S, (tl shared_program).
  assert (X : match shared_run shared_bench shared_program with
              | ([(TheEmd, Ok _); (AnEemd _, _)], b') =>
                  match get_imfs_and_residue (b_emd b') with
                  | Ok (rows, r) => negb (Qeq_bool (total_at (rows ++ [r]) 1) (nth 1 short_S 0%Qc))
                  | _ => false
                  end
              | _ => false end = true) by (vm_compute; reflexivity).
  unfold shared_run, shared_program in X. cbn [tl shared_program].
  destruct (perform_all _ _ _ _ _ _ _ _) as [[|[[] [E|]] [|[[] y] []]] b']; try discriminate.
  exists E. split; [exact demo_sized|].
  destruct (get_imfs_and_residue (b_emd b')) as [[rows r]|] eqn:Eg; [|discriminate].
  split; [intros T k X0 [F|[]]; discriminate|]. split; [reflexivity|]. exists rows, r. split; [reflexivity|].
  intros F. specialize (F 1%nat ltac:(cbn; lia)). rewrite F in X. vm_compute in X. discriminate.
Qed.
Print Assumptions C101_report_refuted.

(** A program in which all objects return something, and the settings change in between. *)
Definition busy_program : list (task Qc) :=
  [Decompose short_S None (-1); RunEemd 0 (demo_ecfg 2 true false 1) short_S None (-1); SeedEemd 1 3;
   RunCeemdan 0 (demo_ccfg 1 1%Qc false false) short_S None 1; Adjust demo_fixeh;
   RunEemd 1 (demo_ecfg 2 false true 1) short_S None (-1); Decompose short_S None 1].
Example C101_nonvacuous :
  present shared_bench (AnEemd 1) /\ present shared_bench (ACeemdan 0) /\
  List.length (part_of (AnEemd 1) busy_program) = 3%nat /\
  (match shared_run shared_bench busy_program with
  | ([(TheEmd, Ok _); (AnEemd 0, Ok (_ :: _ :: _)); (ACeemdan 0, Ok (_ :: _ :: _)); (AnEemd 1, Ok (_ :: _ :: _)); (TheEmd, Ok _)], b') =>
      negb (Z.eqb (match nth_error (b_eemd b') 1 with Some o => random o | None => 0 end) 0)
  | _ => false
  end) = true.
Proof. split; [cbn; lia|]. split; [cbn; lia|]. split; [reflexivity|]. vm_compute. reflexivity. Qed.
