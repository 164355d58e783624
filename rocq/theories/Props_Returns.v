(** * Props_Returns: property C94, calls of EMD_matlab, JitEMD, EEMD and CEEMDAN return.

    The curves are SciPy's as modelled in Kinds.v ([scipy_spl]); detection is "simple".  [arange],
    [negligible] are defined in Spec.v; [spread], [noise_stream], [draws], [noisy], [sized] in
    EemdSpec.v; [modes_of], [scaled], [reorders] in CeemdanSpec.v; [supported] in JitSpec.v.
    [OutOfFuel] stands for a call that does not end within [fuel] components. *)
From Verif Require Import PyFacts QcFacts Emd Matlab Jit Eemd Ceemdan Spec MatlabSpec JitSpec EemdSpec CeemdanSpec
  KindsAll Kinds EmdControl EmdSimple PrepareProofs ReturnsMatlab ReturnsEnsemble ReturnsCeemdan MatlabDemo Demo
  Props_Eemd Props_Ceemdan Props_Jit Props_Kinds.
From Coq Require Import QArith Qcanon Permutation.
From Coq Require String.
Open Scope Z_scope.

(** ** EMD_matlab, on its default times *)
(** A limit of two components or more makes it return, for every signal, even an empty one. *)
Theorem C94_matlab_returns :
  forall c, 1 <= m_nbsym c -> parse_kind (m_splineKind c) <> None ->
  parse_kind (m_splineKind c) <> Some Pchip -> parse_kind (m_splineKind c) <> Some CubicHermite ->
  forall fuel S T k, (forall t, T = Some t -> t = arange (length S)) -> 2 <= k -> (Z.to_nat (k - 1) <= fuel)%nat ->
  exists r, m_emd scipy_spl fuel c S T (Some k) = Ok r.
Proof.
  intros c H1 H2 H3 H4 fuel S T k. exact (m_emd_returns scipy_spl kinds_interpolate c H1 H2 H3 H4 fuel S T k kinds_no_fuel).
Qed.
Print Assumptions C94_matlab_returns.
(** Without a limit, or with a limit of one, it raises nothing either. *)
Theorem C94_matlab_raises_nothing :
  forall c, 1 <= m_nbsym c -> parse_kind (m_splineKind c) <> None ->
  parse_kind (m_splineKind c) <> Some Pchip -> parse_kind (m_splineKind c) <> Some CubicHermite ->
  forall fuel S T k e, (forall t, T = Some t -> t = arange (length S)) ->
  m_emd scipy_spl fuel c S T k = Raise e -> e = OutOfFuel.
Proof.
  intros c H1 H2 H3 H4 fuel S T k e HT E. pose proof (m_emd_fine scipy_spl kinds_interpolate c H1 H2 H3 H4 fuel S T k HT) as F.
  rewrite E in F. exact F.
Qed.
Print Assumptions C94_matlab_raises_nothing.

(** ** JitEMD, given the times 0, 1, 2, ... *)
Theorem C94_jit_returns :
  forall strict c, extrema_detection c = Simple -> 1 <= nbsym c -> supported (spline_kind c) -> parse_kind (spline_kind c) <> None ->
  forall fuel S k, (2 <= length S)%nat -> 0 < k -> (Z.to_nat k <= fuel)%nat ->
  exists r, jit_emd scipy_spl fuel strict c S (arange (length S)) k = Ok r.
Proof.
  intros strict c H1 H2 H3 H4 fuel S k HS Hk Hf.
  rewrite (C46_emd_simple scipy_spl strict fuel c S None k HS H1 H2 H3 ltac:(discriminate)).
  destruct (C90_returns c H1 H2) with (fuel := fuel) (S := S) (T := @None (list Qc)) (k := k) as (o & ->); auto; try discriminate.
  cbn [bind]. eauto.
Qed.
Print Assumptions C94_jit_returns.

(** ** EEMD *)
(** For any generator and any [ext_EMD]: an exception comes out of the decomposition of one of the
    noisy copies of the signal, or out of asking for its trend. *)
Theorem C94_eemd_blame :
  forall G D (gen : generator Qc G) (dec : decomposer Qc D), sized gen -> shapely dec ->
  forall c o S T k e o', S <> [] -> noise_kind c <> OtherNoise -> (parallel c = true -> 1 <= processes c) ->
  eemd gen dec c o S T k = (Raise e, o') ->
  exists T' w vs v X last d r d', spread S w /\ match T with Some t => T' = t | None => T' = arange (length S) end /\
    noise_stream gen (noise_kind c) (noise_width c * w)%Qc (length S) (random o) (vs ++ [v]) last /\
    zlen vs < trials c /\ noisy S v X /\ run dec d X T' k = (r, d') /\
    (r = Raise e \/ exists imfs, r = Ok imfs /\ separate_trends c = true /\ trend_of dec d' = Raise e).
Proof. exact @eemd_blame. Qed.
Print Assumptions C94_eemd_blame.
(** With EMD inside and a component limit: EEMD returns.  With [separate_trends] there is one
    exception, IndexError, when a noisy copy is all but zero. *)
Theorem C94_eemd_returns :
  forall cfg, extrema_detection cfg = Simple -> 1 <= nbsym cfg -> parse_kind (spline_kind cfg) <> None ->
  forall G (gen : generator Qc G), sized gen -> forall fuel c o S T k,
  (2 <= length S)%nat -> (forall t, T = Some t -> length t = length S) -> 0 < k -> (Z.to_nat k <= fuel)%nat ->
  noise_kind c <> OtherNoise -> (parallel c = true -> 1 <= processes c) ->
  match fst (eemd gen (emd_decomposer scipy_spl fuel cfg) c o S T k) with
  | Ok _ => True
  | Raise e => e = IndexError /\ separate_trends c = true /\
      exists w vs v last X, spread S w /\
        noise_stream gen (noise_kind c) (noise_width c * w)%Qc (length S) (random o) (vs ++ [v]) last /\
        zlen vs < trials c /\ noisy S v X /\ negligible X
  end.
Proof.
  intros cfg H1 H2 H3 G gen Hsz fuel c o S T k A1 A2 A3 A4 A5 A6.
  pose proof (eemd_returns scipy_spl kinds_interpolate kinds_no_fuel cfg H1 H2 H3 gen fuel c o S T k Hsz A1 A2 A3 A4 A5 A6) as X.
  destruct (eemd gen _ c o S T k) as [[E|e] o']; exact X.
Qed.
Print Assumptions C94_eemd_returns.

(** ** CEEMDAN *)
(** With EMD inside there are three ways to raise: the decomposition of a noise vector, which has no
    component limit, does not end; a noise vector is all but zero; or, after some number [j] of
    components, the remainder and the noise of a trial cancel.  The remainder after [j] components
    is the last row of the same call with [max_imf] set to [j]. *)
Theorem C94_ceemdan_blame :
  forall cfg, extrema_detection cfg = Simple -> 1 <= nbsym cfg -> parse_kind (spline_kind cfg) <> None ->
  forall G (gen : generator Qc G) std fuel, sized gen -> (0 < fuel)%nat ->
  forall arrival c o S T k e o', std S <> 0%Qc -> reorders arrival ->
  (2 <= length S)%nat -> (forall t, T = Some t -> length t = length S) ->
  c_noise_kind c <> OtherNoise -> 0 <= c_trials c -> (c_parallel c = true -> 1 <= c_processes c) ->
  ceemdan gen std (emd_fun scipy_spl fuel cfg) arrival c o S T k = (Raise e, o') ->
  exists noises,
    draws gen (c_noise_kind c) (noise_scale c) (Z.to_nat (c_trials c) * length S) (c_random o) (concat noises) (c_random o') /\
    zlen noises = c_trials c /\ shaped (length S) noises /\
    ((e = OutOfFuel /\ exists w, In w noises /\ emd scipy_spl fuel cfg w None (-1) = Raise OutOfFuel) \/
     (e = IndexError /\ exists w, In w noises /\ negligible w) \/
     (e = IndexError /\ exists (j : nat) C o2 r w M X, (1 <= j)%nat /\ (1 <= k -> Z.of_nat j < k) /\
        ceemdan gen std (emd_fun scipy_spl fuel cfg) arrival c o S T (Z.of_nat j) = (Ok C, o2) /\ length C = Datatypes.S j /\
        last C [] = map (fun x => (x * std S)%Qc) r /\ length r = length S /\
        In w noises /\ modes_of std (emd_fun scipy_spl fuel cfg) (beta_progress c) w M /\
        match nth_error M j with Some d => noisy r (scaled (epsilon c * std r)%Qc d) X | None => X = r end /\ negligible X)).
Proof.
  intros cfg H1 H2 H3 G gen std fuel Hsz Hf arrival c o S T k e o' _ HA HS HT A1 A2 A3.
  exact (ceemdan_blame scipy_spl kinds_interpolate kinds_no_fuel cfg H1 H2 H3 gen std fuel Hf arrival c o S T k e o' Hsz HA HS HT A1 A2 A3).
Qed.
Print Assumptions C94_ceemdan_blame.
(** So a call limited to one component returns as soon as the decompositions of the noise do. *)
Theorem C94_ceemdan_first_component :
  forall cfg, extrema_detection cfg = Simple -> 1 <= nbsym cfg -> parse_kind (spline_kind cfg) <> None ->
  forall G (gen : generator Qc G) std fuel, sized gen -> (0 < fuel)%nat ->
  forall arrival c o S T, std S <> 0%Qc -> reorders arrival ->
  (2 <= length S)%nat -> (forall t, T = Some t -> length t = length S) ->
  c_noise_kind c <> OtherNoise -> 0 <= c_trials c -> (c_parallel c = true -> 1 <= c_processes c) ->
  (forall noises g w, draws gen (c_noise_kind c) (noise_scale c) (Z.to_nat (c_trials c) * length S) (c_random o) (concat noises) g ->
     shaped (length S) noises -> In w noises ->
     ~ negligible w /\ exists r, emd scipy_spl fuel cfg w None (-1) = Ok r) ->
  exists C o', ceemdan gen std (emd_fun scipy_spl fuel cfg) arrival c o S T 1 = (Ok C, o') /\ length C = 2%nat.
Proof.
  intros cfg H1 H2 H3 G gen std fuel Hsz Hf arrival c o S T Hs HA HS HT A1 A2 A3 HW.
  destruct (ceemdan gen std (emd_fun scipy_spl fuel cfg) arrival c o S T 1) as [[C|e] o'] eqn:E.
  - exists C, o'. split; auto. apply C35_row_count in E as [E1 E2]. unfold zlen in *. lia.
  - exfalso. apply C94_ceemdan_blame in E as (noises & D1 & D2 & D3 & [(-> & w & W1 & W2)|[(-> & w & W1 & W2)|(-> & j & C & o2 & r & w & M & X & J1 & J2 & _)]]); auto.
    + destruct (HW _ _ _ D1 D3 W1) as (_ & r & R). congruence.
    + destruct (HW _ _ _ D1 D3 W1) as (N & _). contradiction.
    + lia.
Qed.
Print Assumptions C94_ceemdan_first_component.

(** ** Examples *)
Import String.
(** EMD_matlab on a signal with flat ends, which gives it an additional minimum, and on an empty one. *)
Example C94_matlab_nonvacuous :
  let c := mat_cfg "cubic" 2 0 in
  1 <= m_nbsym c /\ parse_kind (m_splineKind c) <> None /\ parse_kind (m_splineKind c) <> Some Pchip /\
  parse_kind (m_splineKind c) <> Some CubicHermite /\
  match m_emd scipy_spl 1 c (qs [0; 0; 0; 4; 1; 5; 0; 0]) None (Some 2), m_emd scipy_spl 1 c [] None (Some 2) with
  | Ok (rows, _), Ok (rows', _) => List.length rows = 2%nat /\ List.length rows' = 1%nat
  | _, _ => False end.
Proof. cbv zeta. split; [cbn; lia|]. do 3 (split; [discriminate|]). vm_compute. split; reflexivity. Qed.
Example C94_jit_nonvacuous :
  let c := C90_run "cubic" in
  extrema_detection c = Simple /\ 1 <= nbsym c /\ supported (spline_kind c) /\ parse_kind (spline_kind c) <> None /\
  match jit_emd scipy_spl 1 false c (qs [0; 3; 0; 4; 1; 5; 0]) (arange 7) 1 with Ok r => List.length r = 2%nat | _ => False end.
Proof. cbv zeta. split; [reflexivity|]. split; [cbn; lia|]. split; [exact I|]. split; [discriminate|]. vm_compute. reflexivity. Qed.

(** EEMD returns with [separate_trends] off and on. *)
Definition few (sep par : bool) : eemd_config Qc := MkECfg 2 (nlit 1 10) sep Normal par 1.
Example C94_eemd_nonvacuous : sized demo_gen /\
  match fst (eemd demo_gen (emd_decomposer scipy_spl 1 (C90_run "cubic")) (few false true) demo_obj (qs [0; 3; 0; 4; 1; 5; 0]) None 1),
        fst (eemd demo_gen (emd_decomposer scipy_spl 1 (C90_run "slinear")) (few true false) demo_obj (qs [0; 3; 0; 4; 1; 5; 0]) None 1) with
  | Ok E, Ok E' => List.length E = 2%nat /\ List.length E' = 2%nat | _, _ => False end.
Proof. split; [exact demo_sized|]. vm_compute. split; reflexivity. Qed.
(** The exception: a signal of zeros gets no noise, its decomposition has no rows, so no trend. *)
Theorem C94_trends_refuted :
  exists (o o' : eemd_state Qc Z (emd_state Qc)) c S, separate_trends c = true /\ (2 <= List.length S)%nat /\
  eemd demo_gen (emd_decomposer scipy_spl 1 (C90_run "cubic")) c o S None 1 = (Raise IndexError, o').
Proof.
  exists demo_obj. eexists. exists (few true false), (qs [0; 0; 0]). split; [reflexivity|]. split; [cbn; lia|]. vm_compute. reflexivity.
Qed.
Print Assumptions C94_trends_refuted.

(** CEEMDAN with too little room for the decomposition of its noise; and with enough. *)
Definition C94_std (S : list Qc) : Qc := q 2.
Example C94_ceemdan_nonvacuous :
  let go fuel k := ceemdan demo_gen C94_std (emd_fun scipy_spl fuel (C90_run "slinear")) (fun l => l) (demo_ccfg 2 1%Qc true true) demo_cst
    (qs [0; 3; 0; 4; 1; 5; 0]) None k in
  sized demo_gen /\ reorders (fun l => l) /\ fst (go 1%nat 1) = Raise OutOfFuel /\
  match fst (go 6%nat 1) with Ok C => List.length C = 2%nat | _ => False end.
Proof.
  cbv zeta. split; [exact demo_sized|]. split; [intros l; apply Permutation_refl|]. split; vm_compute; reflexivity.
Qed.
