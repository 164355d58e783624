(** * Props_JitObj: property C80, the settings and the stored results of JitEMD objects.

    A history is a list of operations (JitObj.v): making dictionaries and objects, assigning settings,
    decomposing, writing into a returned array.  [settings_of w o]: the dictionary object [o] refers to, as
    it is in the world [w].  [needed]: the nine settings a decomposition reads.  [last_set d k ops]: the
    last value the history [ops] assigns to key [k] of dictionary [d]; [last_write a r c ops]: the last
    value it writes to row [r], column [c] of array [a].  The arithmetic is arbitrary. *)
From Verif Require Import Py PyFacts QcFacts Emd Jit JitObj Spec JitObjProofs Ctor Demo Float64.
From Coq Require Import QArith Qcanon.
From Coq Require Import String List.
Import ListNotations.
Local Notation length := List.length.
Open Scope string_scope.
Open Scope list_scope.
Open Scope Z_scope.

(** ** C80 *)
(** An object made without settings, or with an empty dictionary, uses the module's defaults as they are
    when it decomposes: every assignment ever made to them counts, before or after it was made, by
    whichever object. *)
Theorem C80_defaults_shared :
  forall A (N : Num A) (spl : spline_oracle A) fuel strict ops config kind det more,
  (forall d, config = Some d -> nth d (dicts (jit_run spl fuel strict start ops)) [] = []) ->
  let w := jit_run spl fuel strict start (ops ++ NewObject config kind det :: more) in
  exists o, nth_error (objects w) (length (objects (jit_run spl fuel strict start ops))) = Some o /\ j_kind o = kind /\ j_det o = det /\
    forall k, lookup (settings_of w o) k = match last_set 0 k (ops ++ more) with Some v => Ok v | None => lookup default_emd_config k end.
Proof. exact @shared_defaults. Qed.
Print Assumptions C80_defaults_shared.

(** An object made with a non-empty dictionary uses that dictionary: the settings are the last assigned
    to it; nothing else in the history changes them. *)
Theorem C80_own_settings :
  forall A (N : Num A) (spl : spline_oracle A) fuel strict w d kind det more, (d < length (dicts w))%nat -> nth d (dicts w) [] <> [] ->
  let w' := jit_run spl fuel strict w (NewObject (Some d) kind det :: more) in
  exists o, nth_error (objects w') (length (objects w)) = Some o /\ j_kind o = kind /\ j_det o = det /\
    forall k, lookup (settings_of w' o) k = match last_set d k more with Some v => Ok v | None => lookup (nth d (dicts w) []) k end.
Proof. exact @own_settings. Qed.
Print Assumptions C80_own_settings.

(** The result depends on the nine settings and the two strings only: not on other entries of the
    dictionary, earlier results or other objects. *)
Theorem C80_result :
  forall A (N : Num A) (spl : spline_oracle A) fuel strict w w' (o o' : jit_object) S T k,
  (forall n, In n needed -> lookup (settings_of w o) n = lookup (settings_of w' o') n) -> j_kind o = j_kind o' -> j_det o = j_det o' ->
  decompose spl fuel strict w o S T k = decompose spl fuel strict w' o' S T k.
Proof. exact @only_needed. Qed.
Print Assumptions C80_result.

(** Each setting goes where its name says. *)
Theorem C80_reads :
  forall A (N : Num A) (spl : spline_oracle A) fuel strict w (o : jit_object) mi fx fh nb sv sd er rg tp,
  let d := settings_of w o in
  lookup d "MAX_ITERATION" = Ok mi -> lookup d "FIXE" = Ok fx -> lookup d "FIXE_H" = Ok fh -> lookup d "nbsym" = Ok nb ->
  lookup d "svar_thr" = Ok sv -> lookup d "std_thr" = Ok sd -> lookup d "energy_ratio_thr" = Ok er -> lookup d "range_thr" = Ok rg ->
  lookup d "total_power_thr" = Ok tp ->
  exists c, (forall S T k, decompose spl fuel strict w o S T k = jit_emd spl fuel strict c S T k) /\
    MAX_ITERATION c = ntrunc mi /\ FIXE c = ntrunc fx /\ FIXE_H c = ntrunc fh /\ nbsym c = ntrunc nb /\
    svar_thr c = sv /\ std_thr c = sd /\ energy_ratio_thr c = er /\ range_thr c = rg /\ total_power_thr c = tp /\
    spline_kind c = j_kind o /\ (j_det o = "simple" -> extrema_detection c = Simple) /\ (j_det o = "parabol" -> extrema_detection c = Parabol).
Proof.
  intros A N spl fuel strict w o mi fx fh nb sv sd er rg tp d E1 E2 E3 E4 E5 E6 E7 E8 E9. eexists. split.
  - intros S T k. unfold decompose, read_settings. fold (settings_of w o). fold d. rewrite E1, E2, E3, E4, E5, E6, E7, E8, E9. cbn [bind]. reflexivity.
  - cbn. repeat split; intros ->; reflexivity.
Qed.
Print Assumptions C80_reads.

(** A dictionary without one of the nine settings makes every decomposition a KeyError, however the
    signal; and a decomposition that raises changes nothing. *)
Theorem C80_missing :
  forall A (N : Num A) (spl : spline_oracle A) fuel strict w (o : jit_object) S T k n,
  In n needed -> ~ In n (map fst (settings_of w o)) -> decompose spl fuel strict w o S T k = Raise KeyError.
Proof. exact @missing. Qed.
Print Assumptions C80_missing.

Theorem C80_failed :
  forall A (N : Num A) (spl : spline_oracle A) fuel strict w i o S T k e,
  nth_error (objects w) i = Some o -> decompose spl fuel strict w o S T k = Raise e ->
  jit_step spl fuel strict w (Decompose i S T k) = w.
Proof. exact @failed. Qed.
Print Assumptions C80_failed.

(** After a decomposition that returned [M], and until the object decomposes again, [imfs] and [residue]
    are all rows but the last, and the last row, of the returned array as the program has left it:
    what it wrote there shows, whatever else it did does not. *)
Theorem C80_stored :
  forall A (N : Num A) (spl : spline_oracle A) fuel strict w i o S T k M more,
  nth_error (objects w) i = Some o -> decompose spl fuel strict w o S T k = Ok M ->
  (forall j S' T' k', In (Decompose j S' T' k') more -> j <> i) ->
  let w' := jit_run spl fuel strict w (Decompose i S T k :: more) in
  exists o' M', nth_error (objects w') i = Some o' /\
    jit_imfs (jit_stored w' o') = Some (py_slice M' 0 (-1)) /\ jit_residue (jit_stored w' o') = Some (py_from M' (-1)) /\
    map (@List.length A) M' = map (@List.length A) M /\
    forall r c z, (c < length (nth r M []))%nat ->
      nth c (nth r M' []) z = match last_write (length (arrays w)) r c more with Some x => x | None => nth c (nth r M []) z end.
Proof.
  intros A N spl fuel strict w i o S T k M more E Ed Hm w'. subst w'.
  destruct (stored spl fuel strict w i o S T k M more E Ed) as (o' & M' & H1 & H2 & H3 & H4).
  { apply forallb_forall. intros op Ho. destruct op; cbn; auto. destruct (Nat.eqb_spec o0 i); auto. exfalso. eapply Hm; eauto. }
  exists o', M'. rewrite H2. auto.
Qed.
Print Assumptions C80_stored.

(** The defaults are those of EMD, in exact arithmetic and in binary64. *)
Theorem C80_defaults :
  (exists o, @emd_new Qc _ [] = Ok o /\ read_settings default_emd_config "cubic" "simple" = Ok (e_cfg o)) /\
  (exists o, @emd_new f64 _ [] = Ok o /\ read_settings default_emd_config "cubic" "simple" = Ok (e_cfg o)).
Proof.
  split; apply defaults_agree; intros z Hz; cbn [In] in Hz; decompose [or] Hz; try contradiction; subst; vm_compute; reflexivity.
Qed.
Print Assumptions C80_defaults.

(** So objects are not independent: of two made without settings, changing a setting through one changes
    what the other returns. *)
Theorem C80_independent_refuted :
  exists (S T : list Qc) M M', let w := jit_run lin_spl 10 true start [NewObject None "linear" "simple"; NewObject None "linear" "simple"] in
  exists o0 o1, nth_error (objects w) 0 = Some o0 /\ nth_error (objects w) 1 = Some o1 /\
    decompose lin_spl 10 true w o1 S T (-1) = Ok M /\
    decompose lin_spl 10 true (jit_step lin_spl 10 true w (SetItem (j_config o0) "FIXE" (Qc_ofZ 3))) o1 S T (-1) = Ok M' /\
    M <> M'.
Proof.
  set (w := jit_run lin_spl 10 true start [NewObject None "linear" "simple"; NewObject None "linear" "simple"]).
  set (o := MkJObj 0 "linear" "simple" None).
  assert (G : match decompose lin_spl 10 true w o demo_S (arange (length demo_S)) (-1),
                    decompose lin_spl 10 true (jit_step lin_spl 10 true w (SetItem 0 "FIXE" (Qc_ofZ 3))) o demo_S (arange (length demo_S)) (-1) with
              | Ok M, Ok M' => if list_eq_dec (list_eq_dec Qc_eq_dec) M M' then False else True | _, _ => False end)
    by (vm_compute; exact I).
  destruct (decompose lin_spl 10 true w o demo_S (arange (length demo_S)) (-1)) as [M|] eqn:E; [|contradiction].
  destruct (decompose lin_spl 10 true (jit_step _ _ _ _ _) o demo_S (arange (length demo_S)) (-1)) as [M'|] eqn:E'; [|contradiction].
  exists demo_S, (arange (length demo_S)), M, M'. exists o, o. split; [reflexivity|]. split; [reflexivity|]. split; [exact E|]. split; [exact E'|].
  intros ->. destruct (list_eq_dec _ M' M') as [_|N]; [contradiction|]. apply N. reflexivity.
Qed.
Print Assumptions C80_independent_refuted.

(** Non-vacuity: a program with three dictionaries and three objects, one of which lacks settings. *)
Definition demo_program : list (jit_op Qc) :=
  [NewDict [("FIXE", Qc_ofZ 1)]; NewObject None "linear" "simple"; NewObject (Some 1%nat) "linear" "simple";
   SetItem 0 "FIXE" (Qc_ofZ 2); NewDict []; NewObject (Some 2%nat) "linear" "simple"; SetItem 2 "FIXE" (Qc_ofZ 5);
   Decompose 0 demo_S (arange (length demo_S)) 1; Decompose 1 demo_S (arange (length demo_S)) 1; WriteTo 0 0 3 (Qc_ofZ 7)].
Example program_ends :
  let w := jit_run lin_spl 10 true start demo_program in
  (length (dicts w), length (arrays w), map j_config (objects w), map j_result (objects w)) = (3%nat, 1%nat, [0; 1; 0]%nat, [Some 0%nat; None; None]).
Proof. vm_compute. reflexivity. Qed.
Example program_settings :
  let w := jit_run lin_spl 10 true start demo_program in
  map (fun o => lookup (settings_of w o) "FIXE") (objects w) = [Ok (Qc_ofZ 2); Ok (Qc_ofZ 1); Ok (Qc_ofZ 2)] /\
  last_set 0 "FIXE" demo_program = Some (Qc_ofZ 2) /\ last_write 0 0 3 demo_program = Some (Qc_ofZ 7).
Proof. vm_compute. auto. Qed.
Example program_shows :
  let w := jit_run lin_spl 10 true start demo_program in
  match nth_error (objects w) 0 with
  | Some o => match jit_imfs (jit_stored w o) with Some M => map (fun r => nth 3 r 0%Qc) M = [Qc_ofZ 7] | None => False end
  | None => False end.
Proof. vm_compute. reflexivity. Qed.
