(** * Props_Ctor: property C70, the options of the constructors.

    A call is a list of keyword arguments, without repeated names as Python guarantees.  [number],
    [integer], [word], [flag], [detection_mode], [noise_choice]: CtorSpec.v; each says that the
    attribute is the given value, converted, or else the stated default. *)
From Verif Require Import PyFacts QcFacts Ctor CtorSpec CtorProofs.
From Coq Require Import QArith Qcanon String List Permutation.
Import ListNotations.
Open Scope string_scope.
Open Scope Z_scope.

Theorem C70_emd_options :
  forall {A} `{Num A} (kw : list (string * pyval A)) o, NoDup (map fst kw) -> emd_new kw = Ok o ->
  let c := e_cfg o in
  number kw "energy_ratio_thr" (nlit 2 10) (energy_ratio_thr c) /\
  number kw "std_thr" (nlit 2 10) (std_thr c) /\
  number kw "svar_thr" (nlit 1 1000) (svar_thr c) /\
  number kw "total_power_thr" (nlit 5 1000) (total_power_thr c) /\
  number kw "range_thr" (nlit 1 1000) (range_thr c) /\
  integer kw "nbsym" 2 (nbsym c) /\
  word kw "spline_kind" "cubic" (spline_kind c) /\
  detection_mode kw (extrema_detection c) /\
  integer kw "FIXE" 0 (FIXE c) /\ integer kw "FIXE_H" 0 (FIXE_H c) /\
  integer kw "MAX_ITERATION" 1000 (MAX_ITERATION c).
Proof. exact @emd_options. Qed.
Print Assumptions C70_emd_options.

(** A call is rejected exactly for a value that is not a number where one is needed, a spline kind
    that is not a string, or an unknown detection mode. *)
Theorem C70_emd_accepts :
  forall {A} `{Num A} (kw : list (string * pyval A)), NoDup (map fst kw) ->
  (exists o, emd_new kw = Ok o) <->
  (forall name v, In name (emd_numbers ++ emd_integers)%list -> In (name, v) kw -> exists x, as_number v x) /\
  (forall v, In ("spline_kind", v) kw -> exists s, v = PStr s) /\
  (forall v, In ("extrema_detection", v) kw -> v = PStr "simple" \/ v = PStr "parabol").
Proof. exact @emd_accepts. Qed.
Print Assumptions C70_emd_accepts.

(** Unknown (misspelled) names are ignored in silence; the order does not matter. *)
Theorem C70_emd_unknown :
  forall {A} `{Num A} (kw : list (string * pyval A)) name v,
  ~ In name emd_names -> emd_new ((name, v) :: kw) = emd_new kw.
Proof. exact @emd_unknown. Qed.
Print Assumptions C70_emd_unknown.
Theorem C70_emd_order :
  forall {A} `{Num A} (kw kw' : list (string * pyval A)),
  Permutation kw kw' -> NoDup (map fst kw) -> emd_new kw = emd_new kw'.
Proof. exact @emd_order. Qed.
Print Assumptions C70_emd_order.
(** The documented option DTYPE changes nothing in the configuration. *)
Theorem C70_emd_dtype :
  forall {A} `{Num A} (kw : list (string * pyval A)) v o, emd_new kw = Ok o ->
  exists o', emd_new (("DTYPE", v) :: kw) = Ok o' /\ e_cfg o' = e_cfg o.
Proof. exact @emd_dtype. Qed.
Print Assumptions C70_emd_dtype.

Definition C70_kw : list (string * pyval Qc) :=
  [("FIXE_H", PFloat (Q2Qc (27 # 10))); ("fixe", PInt 3); ("extrema_detection", PStr "parabol"); ("range_thr", PInt 1)].
Example C70_emd_run : NoDup (map fst C70_kw) /\
  match emd_new C70_kw with
  | Ok o => FIXE_H (e_cfg o) = 2 /\ FIXE (e_cfg o) = 0 /\ extrema_detection (e_cfg o) = Parabol
  | _ => False end.
Proof.
  split; [|vm_compute; auto].
  repeat constructor; cbn; intros X; repeat (destruct X as [X|X]; [discriminate X|]); exact X.
Qed.
Example C70_emd_rejects : emd_new [("FIXE", @PStr Qc "three")] = Raise ValueError /\
  emd_new [("extrema_detection", @PStr Qc "spline")] = Raise AssertionError.
Proof. split; reflexivity. Qed.

(** EEMD: its own options, and the remaining ones are handed to the EMD it creates.  A given
    [ext_EMD] is used as it is. *)
Theorem C70_eemd_options :
  forall {A} `{Num A} cpus tr (w : A) ext par kw c e, NoDup (map fst kw) ->
  eemd_new cpus tr w ext par kw = Ok (c, e) ->
  trials c = tr /\ noise_width c = w /\ parallel c = par /\
  flag kw "separate_trends" false (separate_trends c) /\ noise_choice kw (noise_kind c) /\
  (par = true -> (forall z, In ("processes", PInt z) kw -> processes c = z) /\
                 (forall b, In ("processes", PBool b) kw -> processes c = if b then 1 else 0) /\
                 (In ("processes", PNone) kw \/ ~ In "processes" (map fst kw) -> processes c = cpus)) /\
  match ext with Some e0 => e = e0 | None => emd_new kw = Ok e end.
Proof. exact @eemd_options. Qed.
Print Assumptions C70_eemd_options.
(** Unlike CEEMDAN, EEMD has no option [seed]: it is ignored. *)
Theorem C70_eemd_seed_ignored :
  forall {A} `{Num A} cpus tr (w : A) ext par kw v,
  eemd_new cpus tr w ext par (("seed", v) :: kw) = eemd_new cpus tr w ext par kw.
Proof. exact @eemd_seed_ignored. Qed.
Print Assumptions C70_eemd_seed_ignored.

Theorem C70_ceemdan_options :
  forall {A} `{Num A} cpus tr (eps : A) ext par kw c seed e, NoDup (map fst kw) ->
  ceemdan_new cpus tr eps ext par kw = Ok (c, seed, e) ->
  c_trials c = tr /\ epsilon c = eps /\ c_parallel c = par /\
  number kw "noise_scale" (nofZ 1) (noise_scale c) /\
  number kw "range_thr" (nlit 1 100) (c_range_thr c) /\
  number kw "total_power_thr" (nlit 5 100) (c_total_power_thr c) /\
  flag kw "beta_progress" true (beta_progress c) /\ noise_choice kw (c_noise_kind c) /\
  integer kw "max_imf" 100 (loop_limit c) /\
  (par = true -> (forall z, In ("processes", PInt z) kw -> c_processes c = z) /\
                 (forall b, In ("processes", PBool b) kw -> c_processes c = if b then 1 else 0) /\
                 (In ("processes", PNone) kw \/ ~ In "processes" (map fst kw) -> c_processes c = cpus)) /\
  (forall s, In ("seed", PInt s) kw -> seed = Some s) /\ (forall b, In ("seed", PBool b) kw -> seed = Some (if b then 1 else 0)) /\
  (In ("seed", PNone) kw \/ ~ In "seed" (map fst kw) -> seed = None) /\
  match ext with Some e0 => e = e0 | None => emd_new kw = Ok e end.
Proof. exact @ceemdan_options. Qed.
Print Assumptions C70_ceemdan_options.
(** A threshold given to CEEMDAN for the whole decomposition also becomes the threshold of the EMD
    used for the trials: the two cannot be set independently. *)
Theorem C70_ceemdan_shares_thresholds :
  forall {A} `{Num A} cpus tr (eps : A) par kw c seed e v, NoDup (map fst kw) ->
  ceemdan_new cpus tr eps None par kw = Ok (c, seed, e) ->
  (In ("range_thr", v) kw -> range_thr (e_cfg e) = c_range_thr c) /\
  (In ("total_power_thr", v) kw -> total_power_thr (e_cfg e) = c_total_power_thr c).
Proof. exact @ceemdan_shares. Qed.
Print Assumptions C70_ceemdan_shares_thresholds.

Example C70_ceemdan_run :
  match ceemdan_new 8 10 (Q2Qc (1 # 100)) None true [("seed", PInt 7); ("range_thr", PFloat (Q2Qc (1 # 2))); ("spline_kind", PStr "akima")] with
  | Ok (c, seed, e) => seed = Some 7 /\ c_processes c = 8 /\ loop_limit c = 100 /\ spline_kind (e_cfg e) = "akima" /\
      c_range_thr c = Q2Qc (1 # 2) /\ range_thr (e_cfg e) = Q2Qc (1 # 2)
  | _ => False end.
Proof. cbn -[Q2Qc]. repeat split. Qed.
Example C70_eemd_run :
  match eemd_new 8 10 (Q2Qc (1 # 100)) None true [("separate_trends", PStr "no"); ("processes", PInt 3); ("FIXE", PInt 4)] with
  | Ok (c, e) => separate_trends c = true /\ processes c = 3 /\ FIXE (e_cfg e) = 4
  | _ => False end.
Proof. cbn -[Q2Qc]. repeat split. Qed.

(** EMD2D takes over the values of its five attributes unconverted, and ignores other names. *)
Theorem C70_emd2d_options :
  forall {A} `{Num A} (kw : list (string * pyval A)), NoDup (map fst kw) ->
  map fst (emd2d_new kw) = ["mse_thr"; "mean_thr"; "FIXE"; "FIXE_H"; "MAX_ITERATION"] /\
  forall name d, In (name, d) [("mse_thr", PFloat (nlit 1 100)); ("mean_thr", PFloat (nlit 1 100)); ("FIXE", PInt 0);
                               ("FIXE_H", PInt 0); ("MAX_ITERATION", PInt 1000)] ->
    exists v, In (name, v) (emd2d_new kw) /\ option_is kw name (fun given x => x = given) d v.
Proof. exact @emd2d_options. Qed.
Print Assumptions C70_emd2d_options.
Example C70_emd2d_run : emd2d_new [("FIXE", @PInt Qc 2); ("nbsym", PInt 5)] =
  [("mse_thr", PFloat (nlit 1 100)); ("mean_thr", PFloat (nlit 1 100)); ("FIXE", PInt 2); ("FIXE_H", PInt 0); ("MAX_ITERATION", PInt 1000)].
Proof. reflexivity. Qed.

(** BEMD takes no options; of its five attributes the thresholds and FIXE_H do not matter until FIXE
    is set to 0. *)
Theorem C70_bemd_defaults :
  forall {A} `{Num A},
  let c := @bemd_new A _ in
  (mse_thr c = nlit 1 100 /\ mean_thr c = nlit 1 100 /\ FIXE2 c = 1 /\ FIXE_H2 c = 0 /\ MAX_ITERATION2 c = 5) /\
  forall rec f mse mean h fuel image max_imf,
  bemd rec f (MkCfg2 mse mean 1 h 5) fuel image max_imf = bemd rec f c fuel image max_imf.
Proof.
  intros A NA c. split; [repeat split|]. intros rec f mse mean h fuel image max_imf.
  assert (E : forall left n nh r, sift_b rec f (MkCfg2 mse mean 1 h 5) left n nh r = sift_b rec f c left n nh r).
  { induction left as [|left IH]; intros n nh r; cbn [sift_b]; [reflexivity|]. cbn [FIXE2 c bemd_new]. cbn [Z.eqb negb].
    destruct (_ && _)%bool; [|reflexivity]. destruct (envelopes_b f r _ _) as [[lo up]|e]; cbn [bind]; [|reflexivity].
    destruct (negb _); [reflexivity|]. destruct (1 + 1 <=? n + 1); [reflexivity|apply IH]. }
  unfold bemd. cbn [MAX_ITERATION2 c bemd_new].
  assert (M : forall fuel x y IMF, modes2 (fun r => sift_b rec f (MkCfg2 mse mean 1 h 5) (Z.to_nat 5) 0 0 r) fuel x y max_imf IMF =
                                   modes2 (fun r => sift_b rec f c (Z.to_nat 5) 0 0 r) fuel x y max_imf IMF).
  { induction fuel0 as [|fl IH]; intros x y IMF; cbn [modes2]; [reflexivity|]. rewrite E. destruct (sift_b rec f c _ _ _ _) as [[r b]|e]; cbn [bind]; [|reflexivity].
    destruct (_ || _)%bool; [reflexivity|]. destruct b; [apply IH|reflexivity]. }
  rewrite M. reflexivity.
Qed.
Print Assumptions C70_bemd_defaults.
