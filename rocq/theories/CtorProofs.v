(** * CtorProofs: the constructors read their options as documented. *)
From Verif Require Import PyFacts Ctor CtorSpec.
From Coq Require Import String List Permutation.
Import ListNotations.
Open Scope string_scope.
Open Scope Z_scope.

Section Proofs.
Context {A : Type} `{Num A}.
Notation kwargs := (list (string * pyval A)).
Implicit Types kw : kwargs.

Lemma kget_in kw k d v : NoDup (map fst kw) -> In (k, v) kw -> kget kw k d = v.
Proof.
  induction kw as [|[k' v'] kw IH]; intros Hn Hi; [destruct Hi|]. cbn [map fst] in Hn. inversion Hn as [|a b N1 N2]; subst.
  cbn [kget]. destruct Hi as [Hi|Hi].
  - injection Hi as -> ->. rewrite String.eqb_refl. reflexivity.
  - destruct (String.eqb_spec k' k) as [->|Hk]; auto. exfalso. apply N1. apply (in_map fst) in Hi. exact Hi.
Qed.
Lemma kget_out kw k d : ~ In k (map fst kw) -> kget kw k d = d.
Proof.
  induction kw as [|[k' v'] kw IH]; intros Hn; [reflexivity|]. cbn [kget map fst] in *.
  destruct (String.eqb_spec k' k) as [->|Hk]; [exfalso; apply Hn; left; auto|]. apply IH. intros X. apply Hn. right. auto.
Qed.
Lemma kget_cons_ne kw k v k' d : k <> k' -> kget ((k, v) :: kw) k' d = kget kw k' d.
Proof. intros Hk. cbn [kget]. destruct (String.eqb_spec k k'); congruence. Qed.
Lemma kget_filter (f : string * pyval A -> bool) kw k d : (forall v, f (k, v) = true) -> kget (filter f kw) k d = kget kw k d.
Proof.
  intros Hf. induction kw as [|[k' v'] kw IH]; [reflexivity|]. cbn [filter].
  destruct (String.eqb_spec k' k) as [->|Hk].
  - rewrite Hf. cbn [kget]. rewrite String.eqb_refl. reflexivity.
  - destruct (f (k', v')); [rewrite !kget_cons_ne by auto|rewrite kget_cons_ne by auto]; exact IH.
Qed.
(** Either the option is given, or not. *)
Lemma given_dec kw k : (exists v, In (k, v) kw) \/ ~ In k (map fst kw).
Proof.
  destruct (in_dec string_dec k (map fst kw)) as [Hi|Hi]; auto. left.
  apply in_map_iff in Hi as ([k' v] & E & Hi). cbn in E. subst. eauto.
Qed.
Lemma kget_perm kw kw' k d : Permutation kw kw' -> NoDup (map fst kw) -> kget kw k d = kget kw' k d.
Proof.
  intros Hp Hn. assert (Hn' : NoDup (map fst kw')) by (eapply Permutation_NoDup; [apply Permutation_map; exact Hp|auto]).
  destruct (given_dec kw k) as [(v & Hi)|Ho].
  - rewrite (kget_in kw k d v Hn Hi). symmetry. apply kget_in; auto. eapply Permutation_in; eauto.
  - rewrite !kget_out; auto. intros X. apply Ho. eapply Permutation_in; [apply Permutation_sym, Permutation_map; exact Hp|auto].
Qed.

Lemma option_of {X} kw name (read : pyval A -> X -> Prop) (conv : pyval A -> res X) d x (dv : pyval A) :
  NoDup (map fst kw) -> conv dv = Ok d -> (forall v y, conv v = Ok y -> read v y) ->
  conv (kget kw name dv) = Ok x -> option_is kw name read d x.
Proof.
  intros Hn Hd Hc E. split.
  - intros v Hi. rewrite (kget_in _ _ _ _ Hn Hi) in E. auto.
  - intros Ho. rewrite kget_out in E by auto. congruence.
Qed.
Lemma to_float_reads v (x : A) : to_float v = Ok x -> as_number v x.
Proof. destruct v as [|y| |[]|]; cbn; congruence. Qed.
Lemma to_int_reads (v : pyval A) z : to_int v = Ok z -> as_integer v z.
Proof. destruct v as [|y| |[]|]; cbn; congruence. Qed.
Lemma to_bool_reads (v : pyval A) : to_bool v = false <-> falsy v.
Proof.
  destruct v as [z|x|s|b|]; cbn.
  - rewrite Bool.negb_false_iff, Z.eqb_eq. reflexivity.
  - rewrite Bool.negb_false_iff. reflexivity.
  - rewrite Bool.negb_false_iff, String.eqb_eq. reflexivity.
  - reflexivity.
  - tauto.
Qed.

Definition named (p : string * pyval A) := negb (String.eqb (fst p) "spline_kind" || String.eqb (fst p) "nbsym").
Lemma kget_named kw k d : k <> "spline_kind" -> k <> "nbsym" -> kget (filter named kw) k d = kget kw k d.
Proof.
  intros H1 H2. apply kget_filter. intros v. unfold named. cbn [fst].
  destruct (String.eqb_spec k "spline_kind"); [congruence|]. destruct (String.eqb_spec k "nbsym"); [congruence|reflexivity].
Qed.

(** [emd_new] with the named parameters put back among the others. *)
Definition det_of (v : pyval A) : res detection :=
  match v with
  | PStr s => if String.eqb s "simple" then Ok Simple else if String.eqb s "parabol" then Ok Parabol else Raise AssertionError
  | _ => Raise AssertionError
  end.
Definition word_of (v : pyval A) : res string := match v with PStr s => Ok s | _ => Raise AttributeError end.
Lemma emd_new_eq kw : emd_new kw =
  let! er := to_float (kget kw "energy_ratio_thr" (PFloat (nlit 2 10))) in
  let! sd := to_float (kget kw "std_thr" (PFloat (nlit 2 10))) in
  let! sv := to_float (kget kw "svar_thr" (PFloat (nlit 1 1000))) in
  let! tp := to_float (kget kw "total_power_thr" (PFloat (nlit 5 1000))) in
  let! rg := to_float (kget kw "range_thr" (PFloat (nlit 1 1000))) in
  let! ns := to_int (kget kw "nbsym" (PInt 2)) in
  let! sf := to_float (kget kw "scale_factor" (PFloat n1)) in
  let! kind := word_of (kget kw "spline_kind" (PStr "cubic")) in
  let! det := det_of (kget kw "extrema_detection" (PStr "simple")) in
  let! fx := to_int (kget kw "FIXE" (PInt 0)) in
  let! fh := to_int (kget kw "FIXE_H" (PInt 0)) in
  let! mx := to_int (kget kw "MAX_ITERATION" (PInt 1000)) in
  Ok (MkEmd (MkCfg sd sv er tp rg ns kind det fx fh mx) sf (kget kw "DTYPE" (PStr "float64"))).
Proof.
  unfold emd_new, emd_init_obj. fold named.
  rewrite !kget_named by discriminate. reflexivity.
Qed.

Lemma emd_new_reads kw o : emd_new kw = Ok o ->
  let c := e_cfg o in
  to_float (kget kw "energy_ratio_thr" (PFloat (nlit 2 10))) = Ok (energy_ratio_thr c) /\
  to_float (kget kw "std_thr" (PFloat (nlit 2 10))) = Ok (std_thr c) /\
  to_float (kget kw "svar_thr" (PFloat (nlit 1 1000))) = Ok (svar_thr c) /\
  to_float (kget kw "total_power_thr" (PFloat (nlit 5 1000))) = Ok (total_power_thr c) /\
  to_float (kget kw "range_thr" (PFloat (nlit 1 1000))) = Ok (range_thr c) /\
  to_int (kget kw "nbsym" (PInt 2)) = Ok (nbsym c) /\
  to_float (kget kw "scale_factor" (PFloat n1)) = Ok (scale_factor o) /\
  word_of (kget kw "spline_kind" (PStr "cubic")) = Ok (spline_kind c) /\
  det_of (kget kw "extrema_detection" (PStr "simple")) = Ok (extrema_detection c) /\
  to_int (kget kw "FIXE" (PInt 0)) = Ok (FIXE c) /\
  to_int (kget kw "FIXE_H" (PInt 0)) = Ok (FIXE_H c) /\
  to_int (kget kw "MAX_ITERATION" (PInt 1000)) = Ok (MAX_ITERATION c).
Proof.
  rewrite emd_new_eq. intros E.
  apply bind_ok in E as (er & E1 & E). apply bind_ok in E as (sd & E2 & E). apply bind_ok in E as (sv & E3 & E).
  apply bind_ok in E as (tp & E4 & E). apply bind_ok in E as (rg & E5 & E). apply bind_ok in E as (ns & E6 & E).
  apply bind_ok in E as (sf & E7 & E). apply bind_ok in E as (ki & E8 & E). apply bind_ok in E as (de & E9 & E).
  apply bind_ok in E as (fx & E10 & E). apply bind_ok in E as (fh & E11 & E). apply bind_ok in E as (mx & E12 & E).
  injection E as <-. cbn [e_cfg energy_ratio_thr std_thr svar_thr total_power_thr range_thr nbsym spline_kind
    extrema_detection FIXE FIXE_H MAX_ITERATION scale_factor].
  repeat split; assumption.
Qed.

Lemma word_reads (v : pyval A) s : word_of v = Ok s -> v = PStr s.
Proof. destruct v; cbn; congruence. Qed.
Lemma det_reads (v : pyval A) m : det_of v = Ok m -> v = PStr "simple" /\ m = Simple \/ v = PStr "parabol" /\ m = Parabol.
Proof.
  destruct v; cbn; try discriminate. destruct (String.eqb_spec s "simple") as [->|]; [intros X; injection X as <-; auto|].
  destruct (String.eqb_spec s "parabol") as [->|]; [intros X; injection X as <-; auto|discriminate].
Qed.

Theorem emd_options kw o : NoDup (map fst kw) -> emd_new kw = Ok o ->
  let c := e_cfg o in
  number kw "energy_ratio_thr" (nlit 2 10) (energy_ratio_thr c) /\
  number kw "std_thr" (nlit 2 10) (std_thr c) /\
  number kw "svar_thr" (nlit 1 1000) (svar_thr c) /\
  number kw "total_power_thr" (nlit 5 1000) (total_power_thr c) /\
  number kw "range_thr" (nlit 1 1000) (range_thr c) /\
  integer kw "nbsym" 2 (nbsym c) /\
  word kw "spline_kind" "cubic" (spline_kind c) /\
  detection_mode kw (extrema_detection c) /\
  integer kw "FIXE" 0 (FIXE c) /\ integer kw "FIXE_H" 0 (FIXE_H c) /\
  integer kw "MAX_ITERATION" 1000 (MAX_ITERATION c).
Proof.
  intros Hn E. destruct (emd_new_reads _ _ E) as (E1 & E2 & E3 & E4 & E5 & E6 & E7 & E8 & E9 & E10 & E11 & E12). cbv zeta.
  pose proof (fun name d x dv => @option_of A kw name as_number to_float d x dv Hn) as NF.
  pose proof (fun name d x dv => @option_of Z kw name as_integer to_int d x dv Hn) as NI.
  split; [eapply NF; eauto using to_float_reads; reflexivity|].
  split; [eapply NF; eauto using to_float_reads; reflexivity|].
  split; [eapply NF; eauto using to_float_reads; reflexivity|].
  split; [eapply NF; eauto using to_float_reads; reflexivity|].
  split; [eapply NF; eauto using to_float_reads; reflexivity|].
  split; [eapply NI; eauto using to_int_reads; reflexivity|].
  split; [eapply (option_of kw _ _ word_of); eauto using word_reads; reflexivity|].
  split; [eapply (option_of kw _ _ det_of); eauto using det_reads; reflexivity|].
  split; [eapply NI; eauto using to_int_reads; reflexivity|].
  split; [eapply NI; eauto using to_int_reads; reflexivity|].
  eapply NI; eauto using to_int_reads; reflexivity.
Qed.

(** Which calls succeed. *)
Lemma float_ok kw name dv : NoDup (map fst kw) -> (exists x, to_float dv = Ok x) ->
  (exists x : A, to_float (kget kw name dv) = Ok x) <-> (forall v, In (name, v) kw -> exists x, as_number v x).
Proof.
  intros Hn Hd. split.
  - intros (x & E) v Hi. rewrite (kget_in _ _ _ _ Hn Hi) in E. exists x. apply to_float_reads. auto.
  - intros Hi. destruct (given_dec kw name) as [(v & Hv)|Ho]; [|rewrite kget_out; auto].
    rewrite (kget_in _ _ _ _ Hn Hv). destruct (Hi v Hv) as (x & Hx).
    destruct v as [| | |[]|]; cbn in *; try (destruct Hx); eauto.
Qed.
Lemma int_ok kw name dv : NoDup (map fst kw) -> (exists x, to_int dv = Ok x) ->
  (exists x, to_int (kget kw name dv) = Ok x) <-> (forall v, In (name, v) kw -> exists x, as_number v x).
Proof.
  intros Hn Hd. split.
  - intros (x & E) v Hi. rewrite (kget_in _ _ _ _ Hn Hi) in E. destruct v as [| | |[]|]; cbn in *; try discriminate; eauto.
  - intros Hi. destruct (given_dec kw name) as [(v & Hv)|Ho]; [|rewrite kget_out; auto].
    rewrite (kget_in _ _ _ _ Hn Hv). destruct (Hi v Hv) as (x & Hx).
    destruct v as [| | |[]|]; cbn in *; try (destruct Hx); eauto.
Qed.

Theorem emd_accepts kw : NoDup (map fst kw) ->
  (exists o, emd_new kw = Ok o) <->
  (forall name v, In name (emd_numbers ++ emd_integers)%list -> In (name, v) kw -> exists x, as_number v x) /\
  (forall v, In ("spline_kind", v) kw -> exists s, v = PStr s) /\
  (forall v, In ("extrema_detection", v) kw -> v = PStr "simple" \/ v = PStr "parabol").
Proof.
  intros Hn. split.
  - intros (o & E). destruct (emd_new_reads _ _ E) as (E1 & E2 & E3 & E4 & E5 & E6 & E7 & E8 & E9 & E10 & E11 & E12).
    split; [|split].
    + assert (Hf : forall name dv x, to_float (kget kw name dv) = Ok x -> forall v, In (name, v) kw -> exists y, as_number v y).
      { intros name dv x Ex v Hv. rewrite (kget_in _ _ _ _ Hn Hv) in Ex. exists x. apply to_float_reads. auto. }
      assert (Hi : forall name dv x, to_int (kget kw name dv) = Ok x -> forall v, In (name, v) kw -> exists y, as_number v y).
      { intros name dv x Ex v Hv. rewrite (kget_in _ _ _ _ Hn Hv) in Ex. destruct v as [| | |[]|]; cbn in *; try discriminate; eauto. }
      intros name v Hname. unfold emd_numbers, emd_integers in Hname. cbn [app In] in Hname.
      repeat (destruct Hname as [<-|Hname]; [revert v; first [eapply Hf; eassumption | eapply Hi; eassumption]|]). destruct Hname.
    + intros v Hv. rewrite (kget_in _ _ _ _ Hn Hv) in E8. apply word_reads in E8. eauto.
    + intros v Hv. rewrite (kget_in _ _ _ _ Hn Hv) in E9. apply det_reads in E9. tauto.
  - intros (Hnum & Hw & Hd). rewrite emd_new_eq.
    assert (HF : forall name dv, In name emd_numbers -> (exists x, to_float dv = Ok x) ->
      exists x : A, to_float (kget kw name dv) = Ok x).
    { intros name dv Hin Hdv. apply float_ok; auto. intros v Hv. apply (Hnum name); auto. apply in_app_iff; auto. }
    assert (HI : forall name dv, In name emd_integers -> (exists x, to_int dv = Ok x) ->
      exists x, to_int (kget kw name dv) = Ok x).
    { intros name dv Hin Hdv. apply int_ok; auto. intros v Hv. apply (Hnum name); auto. apply in_app_iff; auto. }
    destruct (HF "energy_ratio_thr" (PFloat (nlit 2 10))) as (? & ->); [cbn; tauto|cbn; eauto|].
    destruct (HF "std_thr" (PFloat (nlit 2 10))) as (? & ->); [cbn; tauto|cbn; eauto|].
    destruct (HF "svar_thr" (PFloat (nlit 1 1000))) as (? & ->); [cbn; tauto|cbn; eauto|].
    destruct (HF "total_power_thr" (PFloat (nlit 5 1000))) as (? & ->); [cbn; tauto|cbn; eauto|].
    destruct (HF "range_thr" (PFloat (nlit 1 1000))) as (? & ->); [cbn; tauto|cbn; eauto|].
    destruct (HI "nbsym" (PInt 2)) as (? & ->); [cbn; tauto|cbn; eauto|].
    destruct (HF "scale_factor" (PFloat n1)) as (? & ->); [cbn; tauto|cbn; eauto|].
    destruct (HI "FIXE" (PInt 0)) as (? & ->); [cbn; tauto|cbn; eauto|].
    destruct (HI "FIXE_H" (PInt 0)) as (? & ->); [cbn; tauto|cbn; eauto|].
    destruct (HI "MAX_ITERATION" (PInt 1000)) as (? & ->); [cbn; tauto|cbn; eauto|].
    assert (W : exists s, word_of (kget kw "spline_kind" (PStr "cubic")) = Ok s).
    { destruct (given_dec kw "spline_kind") as [(v & Hv)|Ho].
      - rewrite (kget_in _ _ _ _ Hn Hv). destruct (Hw v Hv) as (s & ->). cbn. eauto.
      - rewrite kget_out by auto. cbn. eauto. }
    assert (Dt : exists m, det_of (kget kw "extrema_detection" (PStr "simple")) = Ok m).
    { destruct (given_dec kw "extrema_detection") as [(v & Hv)|Ho].
      - rewrite (kget_in _ _ _ _ Hn Hv). destruct (Hd v Hv) as [-> | ->]; cbn; eauto.
      - rewrite kget_out by auto. cbn. eauto. }
    destruct W as (s & ->), Dt as (m & ->). cbn [bind]. eauto.
Qed.

(** Only the values of the known options matter. *)
Lemma emd_new_ext kw kw' : (forall name d, In name emd_names -> kget kw name d = kget kw' name d) -> emd_new kw = emd_new kw'.
Proof.
  intros Hk. rewrite !emd_new_eq. rewrite !(Hk _ _) by (cbn; tauto). reflexivity.
Qed.
Theorem emd_unknown kw name v : ~ In name emd_names -> emd_new ((name, v) :: kw) = emd_new kw.
Proof. intros Ho. apply emd_new_ext. intros k d Hk. apply kget_cons_ne. intros ->. auto. Qed.
Theorem emd_order kw kw' : Permutation kw kw' -> NoDup (map fst kw) -> emd_new kw = emd_new kw'.
Proof. intros Hp Hn. apply emd_new_ext. intros. apply kget_perm; auto. Qed.
(** [DTYPE] has no influence on a decomposition. *)
Theorem emd_dtype kw v o : emd_new kw = Ok o ->
  exists o', emd_new (("DTYPE", v) :: kw) = Ok o' /\ e_cfg o' = e_cfg o.
Proof.
  rewrite !emd_new_eq. rewrite !(kget_cons_ne kw "DTYPE" v) by discriminate. intros E.
  apply bind_ok in E as (er & -> & E). apply bind_ok in E as (sd & -> & E). apply bind_ok in E as (sv & -> & E).
  apply bind_ok in E as (tp & -> & E). apply bind_ok in E as (rg & -> & E). apply bind_ok in E as (ns & -> & E).
  apply bind_ok in E as (sf & -> & E). apply bind_ok in E as (ki & -> & E). apply bind_ok in E as (de & -> & E).
  apply bind_ok in E as (fx & -> & E). apply bind_ok in E as (fh & -> & E). apply bind_ok in E as (mx & -> & E).
  injection E as <-. cbn [bind]. eexists. split; reflexivity.
Qed.

(** ** The ensemble classes *)
Lemma noise_reads (v : pyval A) : match to_noise v with Normal => v = PStr "normal" | Uniform => v = PStr "uniform"
                         | OtherNoise => v <> PStr "normal" /\ v <> PStr "uniform" end.
Proof.
  destruct v; cbn; try (split; discriminate). destruct (String.eqb_spec s "normal") as [->|]; auto.
  destruct (String.eqb_spec s "uniform") as [->|]; auto. split; congruence.
Qed.
Lemma noise_option kw : NoDup (map fst kw) -> noise_choice kw (to_noise (kget kw "noise_kind" (PStr "normal"))).
Proof.
  intros Hn. split.
  - intros v Hv. rewrite (kget_in _ _ _ _ Hn Hv). apply noise_reads.
  - intros Ho. rewrite kget_out by auto. reflexivity.
Qed.
Lemma flag_option kw name d : NoDup (map fst kw) -> flag kw name d (to_bool (kget kw name (PBool d))).
Proof.
  intros Hn. split.
  - intros v Hv. rewrite (kget_in _ _ _ _ Hn Hv). apply to_bool_reads.
  - intros Ho. rewrite kget_out by auto. reflexivity.
Qed.
Lemma processes_option kw par cpus n : NoDup (map fst kw) -> par = true ->
  to_processes par cpus (kget kw "processes" PNone) = Ok n ->
  (forall z, In ("processes", PInt z) kw -> n = z) /\
  (forall b, In ("processes", PBool b) kw -> n = if b then 1 else 0) /\
  (In ("processes", PNone) kw \/ ~ In "processes" (map fst kw) -> n = cpus).
Proof.
  intros Hn -> E. split; [|split].
  - intros z Hz. rewrite (kget_in _ _ _ _ Hn Hz) in E. injection E as <-. reflexivity.
  - intros b Hb. rewrite (kget_in _ _ _ _ Hn Hb) in E. injection E as <-. reflexivity.
  - intros [Ho|Ho]; [rewrite (kget_in _ _ _ _ Hn Ho) in E|rewrite kget_out in E by auto]; injection E as <-; reflexivity.
Qed.

Theorem eemd_options cpus tr (w : A) ext par kw c e : NoDup (map fst kw) ->
  eemd_new cpus tr w ext par kw = Ok (c, e) ->
  trials c = tr /\ noise_width c = w /\ parallel c = par /\
  flag kw "separate_trends" false (separate_trends c) /\ noise_choice kw (noise_kind c) /\
  (par = true -> (forall z, In ("processes", PInt z) kw -> processes c = z) /\
                 (forall b, In ("processes", PBool b) kw -> processes c = if b then 1 else 0) /\
                 (In ("processes", PNone) kw \/ ~ In "processes" (map fst kw) -> processes c = cpus)) /\
  match ext with Some e0 => e = e0 | None => emd_new kw = Ok e end.
Proof.
  intros Hn. unfold eemd_new. intros E. apply bind_ok in E as (n & E1 & E). apply bind_ok in E as (e' & E2 & E).
  injection E as <- <-. cbn [trials noise_width parallel separate_trends noise_kind processes].
  repeat (split; [reflexivity|]). split; [apply flag_option; auto|]. split; [apply noise_option; auto|].
  split; [intros Hp; eapply processes_option; eauto|]. destruct ext as [e0|]; [congruence|exact E2].
Qed.

Theorem ceemdan_options cpus tr (eps : A) ext par kw c seed e : NoDup (map fst kw) ->
  ceemdan_new cpus tr eps ext par kw = Ok (c, seed, e) ->
  c_trials c = tr /\ epsilon c = eps /\ c_parallel c = par /\
  number kw "noise_scale" (nofZ 1) (noise_scale c) /\
  number kw "range_thr" (nlit 1 100) (c_range_thr c) /\
  number kw "total_power_thr" (nlit 5 100) (c_total_power_thr c) /\
  flag kw "beta_progress" true (beta_progress c) /\ noise_choice kw (c_noise_kind c) /\
  integer kw "max_imf" 100 (loop_limit c) /\
  (par = true -> (forall z, In ("processes", PInt z) kw -> c_processes c = z) /\
                 (forall b, In ("processes", PBool b) kw -> c_processes c = if b then 1 else 0) /\
                 (In ("processes", PNone) kw \/ ~ In "processes" (map fst kw) -> c_processes c = cpus)) /\
  (forall s, In ("seed", PInt s) kw -> seed = Some s) /\ (forall b, In ("seed", PBool b) kw -> seed = Some (if b then 1 else 0)) /\
  (In ("seed", PNone) kw \/ ~ In "seed" (map fst kw) -> seed = None) /\
  match ext with Some e0 => e = e0 | None => emd_new kw = Ok e end.
Proof.
  intros Hn. unfold ceemdan_new. intros E.
  apply bind_ok in E as (ns & E1 & E). apply bind_ok in E as (rg & E2 & E). apply bind_ok in E as (tp & E3 & E).
  apply bind_ok in E as (sd & E4 & E). apply bind_ok in E as (lim & E5 & E). apply bind_ok in E as (n & E6 & E).
  apply bind_ok in E as (e' & E7 & E). injection E as <- <- <-.
  cbn [c_trials epsilon c_parallel noise_scale c_range_thr c_total_power_thr beta_progress c_noise_kind loop_limit c_processes].
  pose proof (fun name d x dv => @option_of A kw name as_number to_float d x dv Hn) as NF.
  repeat (split; [reflexivity|]).
  split; [eapply NF; eauto using to_float_reads; reflexivity|].
  split; [eapply NF; eauto using to_float_reads; reflexivity|].
  split; [eapply NF; eauto using to_float_reads; reflexivity|].
  split; [apply flag_option; auto|]. split; [apply noise_option; auto|].
  split; [eapply (option_of kw _ _ to_int); eauto using to_int_reads; reflexivity|].
  split; [intros Hp; eapply processes_option; eauto|].
  split.
  { intros s Hs. rewrite (kget_in _ _ _ _ Hn Hs) in E4. destruct ((0 <=? s) && (s <? 2 ^ 32))%bool; congruence. }
  split.
  { intros b Hb. rewrite (kget_in _ _ _ _ Hn Hb) in E4. congruence. }
  split.
  { intros [Ho|Ho]; [rewrite (kget_in _ _ _ _ Hn Ho) in E4|rewrite kget_out in E4 by auto]; congruence. }
  destruct ext as [e0|]; [congruence|exact E7].
Qed.

(** A threshold given to CEEMDAN is also the threshold of the EMD it creates. *)
Theorem ceemdan_shares cpus tr (eps : A) par kw c seed e v : NoDup (map fst kw) ->
  ceemdan_new cpus tr eps None par kw = Ok (c, seed, e) ->
  (In ("range_thr", v) kw -> range_thr (e_cfg e) = c_range_thr c) /\
  (In ("total_power_thr", v) kw -> total_power_thr (e_cfg e) = c_total_power_thr c).
Proof.
  intros Hn E. pose proof (ceemdan_options _ _ _ _ _ _ _ _ _ Hn E) as (_ & _ & _ & _ & (R & _) & (P & _) & _ & _ & _ & _ & _ & _ & _ & E').
  destruct (emd_new_reads _ _ E') as (_ & _ & _ & E4 & E5 & _).
  assert (F : forall v (x y : A), as_number v x -> to_float v = Ok y -> y = x).
  { intros [z|q|s|[]|] x y; cbn; intros; try contradiction; congruence. }
  split; intros Hv.
  - rewrite (kget_in _ _ _ _ Hn Hv) in E5. exact (F _ _ _ (R v Hv) E5).
  - rewrite (kget_in _ _ _ _ Hn Hv) in E4. exact (F _ _ _ (P v Hv) E4).
Qed.

(** EEMD has no option [seed]. *)
Theorem eemd_seed_ignored cpus tr (w : A) ext par kw v :
  eemd_new cpus tr w ext par (("seed", v) :: kw) = eemd_new cpus tr w ext par kw.
Proof.
  unfold eemd_new. rewrite !(kget_cons_ne kw "seed" v) by discriminate.
  destruct ext; [reflexivity|]. rewrite emd_unknown; [reflexivity|].
  unfold emd_names, emd_numbers, emd_integers. cbn [app In]. intros X. repeat (destruct X as [X|X]; [discriminate X|]). exact X.
Qed.

(** ** EMD2D *)
Lemma assign_keys (attrs : kwargs) k v : map fst (assign attrs k v) = map fst attrs.
Proof.
  induction attrs as [|[k' v'] attrs IH]; [reflexivity|]. cbn [assign]. destruct (String.eqb k' k); cbn [map fst]; congruence.
Qed.
Lemma assign_get (attrs : kwargs) k v k' d : In k (map fst attrs) -> kget (assign attrs k v) k' d = if String.eqb k k' then v else kget attrs k' d.
Proof.
  induction attrs as [|[k1 v1] attrs IH]; intros Hi; [destruct Hi|]. cbn [assign map fst] in *.
  destruct (String.eqb_spec k1 k) as [->|Hk].
  - cbn [kget]. destruct (String.eqb k k'); reflexivity.
  - destruct Hi as [Hi|Hi]; [congruence|]. cbn [kget]. destruct (String.eqb_spec k1 k') as [->|Hk1]; [|apply IH; auto].
    destruct (String.eqb_spec k k'); congruence.
Qed.
Lemma update_get kw (attrs : kwargs) : NoDup (map fst kw) ->
  let r := fold_left (fun attrs p => if existsb (fun q => String.eqb (fst q) (fst p)) attrs then assign attrs (fst p) (snd p) else attrs) kw attrs in
  map fst r = map fst attrs /\
  forall k d, kget r k d = if existsb (fun q => String.eqb (fst q) k) attrs then kget kw k (kget attrs k d) else kget attrs k d.
Proof.
  revert attrs. induction kw as [|[k0 v0] kw IH]; intros attrs Hn; cbv zeta; cbn [fold_left fst snd].
  - split; auto. intros k d. cbn [kget]. destruct (existsb _ _); reflexivity.
  - cbn [map fst] in Hn. inversion Hn as [|a b N1 N2]; subst.
    destruct (existsb (fun q => String.eqb (fst q) k0) attrs) eqn:Ex.
    + assert (Hin : In k0 (map fst attrs)).
      { apply existsb_exists in Ex as ([a b] & Hi & E). apply String.eqb_eq in E. cbn in E. subst. apply (in_map fst) in Hi. exact Hi. }
      destruct (IH (assign attrs k0 v0) N2) as [I1 I2]. cbv zeta in I1, I2. rewrite assign_keys in I1. split; auto.
      intros k d. rewrite I2. rewrite !assign_get by auto.
      assert (Ee : existsb (fun q : string * pyval A => String.eqb (fst q) k) (assign attrs k0 v0) = existsb (fun q => String.eqb (fst q) k) attrs).
      { transitivity (existsb (fun s => String.eqb s k) (map fst (assign attrs k0 v0))); [|rewrite assign_keys]; clear.
        - induction (assign attrs k0 v0) as [|x l IH]; [reflexivity|]. cbn. rewrite IH. reflexivity.
        - induction attrs as [|x l IH]; [reflexivity|]. cbn. rewrite IH. reflexivity. }
      rewrite Ee. destruct (String.eqb_spec k0 k) as [->|Hk].
      * rewrite Ex. cbn [kget]. rewrite String.eqb_refl. apply kget_out. auto.
      * rewrite kget_cons_ne by auto. reflexivity.
    + destruct (IH attrs N2) as [I1 I2]. split; auto. intros k d. rewrite I2.
      destruct (existsb (fun q => String.eqb (fst q) k) attrs) eqn:Ek; [|reflexivity].
      rewrite kget_cons_ne; auto. intros ->. congruence.
Qed.

Theorem emd2d_options kw : NoDup (map fst kw) ->
  map fst (emd2d_new kw) = ["mse_thr"; "mean_thr"; "FIXE"; "FIXE_H"; "MAX_ITERATION"] /\
  forall name d, In (name, d) [("mse_thr", PFloat (nlit 1 100)); ("mean_thr", PFloat (nlit 1 100)); ("FIXE", PInt 0);
                               ("FIXE_H", PInt 0); ("MAX_ITERATION", PInt 1000)] ->
    exists v, In (name, v) (emd2d_new kw) /\ option_is kw name (fun given x => x = given) d v.
Proof.
  intros Hn. destruct (update_get kw emd2d_attributes Hn) as [I1 I2]. cbv zeta in I1, I2. fold (emd2d_new kw) in I1, I2.
  split; [rewrite I1; reflexivity|]. intros name d Hd.
  assert (Hname : In name ["mse_thr"; "mean_thr"; "FIXE"; "FIXE_H"; "MAX_ITERATION"]) by (apply (in_map fst) in Hd; exact Hd).
  assert (Ed : kget emd2d_attributes name PNone = d).
  { apply kget_in; auto. cbn. repeat constructor; cbn; intros X; repeat (destruct X as [X|X]; [discriminate X|]); auto. }
  rewrite <- Ed. clear Hd Ed d. exists (kget (emd2d_new kw) name PNone).
  split.
  - assert (Hi : In name (map fst (emd2d_new kw))) by (rewrite I1; exact Hname).
    destruct (given_dec (emd2d_new kw) name) as [(v & Hv)|Ho]; [|contradiction].
    rewrite (kget_in _ _ PNone v); auto. rewrite I1. cbn. repeat constructor; cbn; intros X; repeat (destruct X as [X|X]; [discriminate X|]); auto.
  - rewrite I2.
    assert (Ee : existsb (fun q : string * pyval A => String.eqb (fst q) name) emd2d_attributes = true).
    { cbn [In] in Hname. repeat (destruct Hname as [<-|Hname]; [reflexivity|]). destruct Hname. }
    rewrite Ee. split.
    + intros v Hv. apply kget_in; auto.
    + intros Ho. apply kget_out. auto.
Qed.
End Proofs.
