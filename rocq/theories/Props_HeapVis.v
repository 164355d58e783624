(** * Props_HeapVis: which decomposition a Visualisation draws (C116). *)
From Verif Require Import PyFacts QcFacts Spec Emd Heap HeapSpec Vis VisSpec HeapVis HeapVisSpec HeapVisProofs Demo
  HeapEemd HeapEemdSpec HeapEemdProofs HeapCeemdan HeapCeemdanSpec HeapCeemdanProofs Eemd Ceemdan CeemdanSpec EemdSpec Props_Heap Props_HeapCeemdan.
From Coq Require Import QArith Qcanon.
Open Scope Z_scope.

(** ** C116: a Visualisation draws the decomposition it was made after *)
(** Whatever the program does between making the Visualisation and drawing (further decompositions
    with the same object, successful or not, asking for results, assignments to other arrays), the
    figure is that of the run before the Visualisation was made. *)
Theorem C116_draws_its_run :
  forall (spl : spline_oracle Qc) fuel c convS convT S T s t k (m : mem Qc) o m' r,
  contents m S = Some (Vec s) -> shows m T t -> emd spl fuel c s t k = Ok o -> (1 <= length (imfs o))%nat ->
  emd_h spl fuel c convS convT S T k m = (Ok r, m') ->
  exists v, visualisation_h true m' = (Ok v, m') /\
    forall os a u, stored_left_alone os m' -> shows (fold_left (perform spl fuel c) os m') a u ->
      (forall x, u = Some x -> length x = length s) ->
      exists x ps, drawn_at u (length s) x /\
        plot_imfs_h v None None a IsTrue (fold_left (perform spl fuel c) os m') =
          (Ok ps, fold_left (perform spl fuel c) os m') /\
        figure x (imfs o) (residue o) ps.
Proof. exact made_then_drawn. Qed.
Print Assumptions C116_draws_its_run.

(** Two runs with one object and a Visualisation made after each: the first goes on drawing the
    first run, the second draws the second. *)
Theorem C116_two_runs :
  forall (spl : spline_oracle Qc) fuel c convS convT S T s t k (m : mem Qc) o m1 r os1 convS2 convT2 S2 T2 s2 t2 k2 o2 m2 r2,
  contents m S = Some (Vec s) -> shows m T t -> emd spl fuel c s t k = Ok o -> (1 <= length (imfs o))%nat ->
  emd_h spl fuel c convS convT S T k m = (Ok r, m1) -> stored_left_alone os1 m1 ->
  let m1' := fold_left (perform spl fuel c) os1 m1 in
  contents m1' S2 = Some (Vec s2) -> shows m1' T2 t2 -> emd spl fuel c s2 t2 k2 = Ok o2 -> (1 <= length (imfs o2))%nat ->
  emd_h spl fuel c convS2 convT2 S2 T2 k2 m1' = (Ok r2, m2) ->
  exists v1 v2, visualisation_h true m1 = (Ok v1, m1) /\ visualisation_h true m2 = (Ok v2, m2) /\
    forall os, stored_left_alone os m1 -> stored_left_alone os m2 ->
      let m3 := fold_left (perform spl fuel c) os m2 in
      exists x1 x2 ps1 ps2, drawn_at None (length s) x1 /\ drawn_at None (length s2) x2 /\
        plot_imfs_h v1 None None None IsTrue m3 = (Ok ps1, m3) /\ figure x1 (imfs o) (residue o) ps1 /\
        plot_imfs_h v2 None None None IsTrue m3 = (Ok ps2, m3) /\ figure x2 (imfs o2) (residue o2) ps2.
Proof. exact two_made. Qed.
Print Assumptions C116_two_runs.

(** A Visualisation made after a run that raised draws the run before it. *)
Theorem C116_after_failure :
  forall (spl : spline_oracle Qc) fuel c convS convT S T s t k (m : mem Qc) o m' r convS2 convT2 S2 T2 s2 t2 k2 e,
  contents m S = Some (Vec s) -> shows m T t -> emd spl fuel c s t k = Ok o -> (1 <= length (imfs o))%nat ->
  emd_h spl fuel c convS convT S T k m = (Ok r, m') ->
  contents m' S2 = Some (Vec s2) -> shows m' T2 t2 -> emd spl fuel c s2 t2 k2 = Raise e ->
  exists m'' v, emd_h spl fuel c convS2 convT2 S2 T2 k2 m' = (Raise e, m'') /\ visualisation_h true m'' = (Ok v, m'') /\
    exists x ps, drawn_at None (length s) x /\ plot_imfs_h v None None None IsTrue m'' = (Ok ps, m'') /\
      figure x (imfs o) (residue o) ps.
Proof. exact made_after_failure. Qed.
Print Assumptions C116_after_failure.

(** The same for every plot and every way to call it (arrays given as arguments included), for every
    arithmetic: what is drawn later is what would be drawn now. *)
Theorem C116_plots_stay :
  forall {A} `{Num A} (spl : spline_oracle A) fuel c os (m : mem A) v m0 i r t include,
  alive m (o_imfs m) -> alive m (o_residue m) -> visualisation_h true m = (Ok v, m0) -> stored_left_alone os m ->
  (alive m i /\ alive m r /\ alive m t) -> (all_left_alone os i /\ all_left_alone os r /\ all_left_alone os t) ->
  fst (plot_imfs_h v i r t include (fold_left (perform spl fuel c) os m)) = fst (plot_imfs_h v i r t include m).
Proof. exact @plots_stay. Qed.
Print Assumptions C116_plots_stay.
Theorem C116_frequencies_stay :
  forall {A} `{Num A} (spl : spline_oracle A) fuel c os (m : mem A) v m0 hilbert angle unwrap pi t i high alpha,
  alive m (o_imfs m) -> alive m (o_residue m) -> visualisation_h true m = (Ok v, m0) -> stored_left_alone os m ->
  (alive m i /\ live m t) -> (all_left_alone os i /\ left_alone os t) ->
  fst (plot_instant_freq_h hilbert angle unwrap pi v t i high alpha (fold_left (perform spl fuel c) os m)) =
  fst (plot_instant_freq_h hilbert angle unwrap pi v t i high alpha m).
Proof. exact @freqs_stay. Qed.
Print Assumptions C116_frequencies_stay.

(** The plots are those of C51 and C64 for what the arrays, stored or given, show when they are drawn. *)
Theorem C116_as_values :
  forall {A} `{Num A} (m : mem A) v x y i I r R t u include,
  displays m (h_imfs v) x -> shows m (h_residue v) y -> displays m i I -> shows m r R -> shows m t u ->
  plot_imfs_h v i r t include m =
  (plot_imfs (MkVis (option_map array_of x) y) (option_map array_of I) R u include, m).
Proof. exact @plot_values. Qed.
Print Assumptions C116_as_values.
Theorem C116_frequencies_as_values :
  forall {A} `{Num A} hilbert angle unwrap pi (m : mem A) v x y t u i I high alpha,
  displays m (h_imfs v) x -> shows m (h_residue v) y -> contents m t = Some (Vec u) -> displays m i I ->
  plot_instant_freq_h hilbert angle unwrap pi v t i high alpha m =
  (plot_instant_freq hilbert angle unwrap pi (MkVis (option_map array_of x) y) u (option_map array_of I) high alpha, m).
Proof. exact @freq_values. Qed.
Print Assumptions C116_frequencies_as_values.

(** Without an object nothing is held; with an object that stores no results ValueError is raised. *)
Theorem C116_making :
  forall {A} `{Num A} (m : mem A), visualisation_h false m = (Ok (MkVisH None None), m) /\
  (fst (visualisation_h true m) = Raise ValueError <-> o_imfs m = None \/ o_residue m = None) /\
  (forall i d, fst (imfs_and_residue_h m) = Ok (i, d) -> visualisation_h true m = (Ok (MkVisH (Some i) (Some d)), m)).
Proof.
  intros A HA m. split; [reflexivity|]. unfold visualisation_h, mbind, imfs_and_residue_h.
  destruct (o_imfs m), (o_residue m); cbn; (split; [split; [try discriminate; auto|try reflexivity; intros [E|E]; discriminate E]|]);
    intros i d E; try discriminate E. injection E as <- <-. reflexivity.
Qed.
Print Assumptions C116_making.

(** Making a Visualisation and drawing change no array and nothing the EMD object holds. *)
Theorem C116_reads_only :
  forall {A} `{Num A} (m : mem A) given v i r t include hilbert angle unwrap pi x high alpha,
  snd (visualisation_h given m) = m /\ snd (plot_imfs_h v i r t include m) = m /\
  snd (plot_instant_freq_h hilbert angle unwrap pi v x i high alpha m) = m.
Proof. intros. split; [apply made_m|]. split; [apply plot_m|apply freq_m]. Qed.
Print Assumptions C116_reads_only.

(** The Visualisation has no copies: an assignment to the imfs that get_imfs_and_residue handed out
    is seen in its next figure. *)
Theorem C116_write_seen :
  forall (spl : spline_oracle Qc) fuel c convS convT S T s t k (m : mem Qc) o m' r p j y,
  contents m S = Some (Vec s) -> shows m T t -> emd spl fuel c s t k = Ok o -> (p < length (imfs o))%nat ->
  emd_h spl fuel c convS convT S T k m = (Ok r, m') ->
  exists v i d, visualisation_h true m' = (Ok v, m') /\ fst (imfs_and_residue_h m') = Ok (i, d) /\
    let m'' := do_write m' (MkWrite i p j y) in
    exists x ps, drawn_at None (length s) x /\ plot_imfs_h v None None None IsTrue m'' = (Ok ps, m'') /\
      figure x (set_nth (imfs o) p (set_nth (nth p (imfs o) []) j y)) (residue o) ps.
Proof. exact write_drawn. Qed.
Print Assumptions C116_write_seen.

(** A Visualisation of an EEMD or CEEMDAN object holds the very array the run returned: it draws the
    ensemble's components, and an assignment by the caller to the returned array is seen in its next
    figure (EMD: it is not).  C65_nonvacuous and its CEEMDAN counterpart are runs that meet the hypotheses. *)
Theorem C116_eemd_returned_array :
  forall {A} `{Num A} {G} (gen : generator A G) (spl : spline_oracle A) fuel ec c conv o p S T s t k E p' a o' i j y,
  contents (e_mem o) S = Some (Vec s) -> shows (e_mem o) T t -> state_shows o p ->
  eemd gen (emd_decomposer spl fuel ec) c p s t k = (Ok E, p') ->
  eemd_h gen spl fuel ec c conv o S T k = (Ok a, o') ->
  exists v R, vis_of (eemd_imfs_and_residue_h o') = Ok v /\ e_residue p' = Some R /\ forall include,
    fst (plot_imfs_h v None None None include (e_mem o')) =
      plot_imfs (MkVis (Some (array_of E)) (Some R)) None None None include /\
    fst (plot_imfs_h v None None None include (e_mem (e_writes o' [MkWrite a i j y]))) =
      plot_imfs (MkVis (Some (array_of (set_nth E i (set_nth (nth i E []) j y)))) (Some R)) None None None include.
Proof.
  intros A HA G gen spl fuel ec c conv o p S T s t k E p' a o' i j y HS HT Hp HE R.
  destruct (C65_eemd_write_contained gen spl fuel ec c conv o p S T s t k E p' a o' [] HS HT Hp HE R (Forall_nil _))
    as (b & r & G0 & Hr & Cb & _).
  destruct (C65_eemd_write_contained gen spl fuel ec c conv o p S T s t k E p' a o' [MkWrite a i j y] HS HT Hp HE R
    (Forall_cons (MkWrite a i j y) eq_refl (Forall_nil _))) as (b1 & r1 & G1 & Hr1 & Cb1 & _).
  assert (Eb : b1 = b /\ r1 = r).
  { change (eemd_imfs_and_residue_h o' = Ok (a, b)) in G0. change (eemd_imfs_and_residue_h o' = Ok (a, b1)) in G1.
    rewrite G0 in G1. split; congruence. }
  destruct Eb as (-> & ->).
  destruct (C65_eemd_returns_stored gen spl fuel ec c conv o p S T s t k E p' HS HT Hp HE) as (a2 & b2 & o2 & R2 & _ & Ca & _).
  rewrite R in R2. injection R2 as <- <-.
  pose proof (C65_eemd_write_seen gen spl fuel ec c conv o p S T s t k E p' a o' i j y HS HT Hp HE R) as Ca1.
  exists (MkVisH (Some a) (Some b)), r. split.
  { change (eemd_imfs_and_residue_h o' = Ok (a, b)) in G0. rewrite G0. reflexivity. }
  split; [exact Hr|]. intros include. split.
  - rewrite (plot_values (e_mem o') (MkVisH (Some a) (Some b)) (Some E) (Some r) None None None None None None include Ca Cb I I I). reflexivity.
  - rewrite (plot_values (e_mem (e_writes o' [MkWrite a i j y])) (MkVisH (Some a) (Some b)) (Some (set_nth E i (set_nth (nth i E []) j y))) (Some r)
      None None None None None None include Ca1 Cb1 I I I). reflexivity.
Qed.
Print Assumptions C116_eemd_returned_array.
Theorem C116_ceemdan_returned_array :
  forall {G} (gen : generator Qc G) std arrival (spl : spline_oracle Qc) fuel ec conv, sized gen ->
  forall c o p S T s t k C p' a o' i j y,
  contents (c_mem o) S = Some (Vec s) -> shows (c_mem o) T t -> c_shows o p ->
  ceemdan gen std (emd_fun spl fuel ec) arrival c p s t k = (Ok C, p') ->
  ceemdan_h gen std arrival spl fuel ec conv c o S T k = (Ok a, o') ->
  exists v R, vis_of (ceemdan_imfs_and_residue_h o') = Ok v /\ c_residue p' = Some R /\ forall include,
    fst (plot_imfs_h v None None None include (c_mem o')) =
      plot_imfs (MkVis (Some (array_of C)) (Some R)) None None None include /\
    fst (plot_imfs_h v None None None include (c_mem (c_writes o' [MkWrite a i j y]))) =
      plot_imfs (MkVis (Some (array_of (set_nth C i (set_nth (nth i C []) j y)))) (Some R)) None None None include.
Proof.
  intros G gen std arrival spl fuel ec conv HZ c o p S T s t k E p' a o' i j y HS HT Hp HE R.
  destruct (C65_ceemdan_write_contained gen std arrival spl fuel ec conv HZ c o p S T s t k E p' a o' [] HS HT Hp HE R (Forall_nil _))
    as (b & r & G0 & Hr & Cb & _).
  destruct (C65_ceemdan_write_contained gen std arrival spl fuel ec conv HZ c o p S T s t k E p' a o' [MkWrite a i j y] HS HT Hp HE R
    (Forall_cons (MkWrite a i j y) eq_refl (Forall_nil _))) as (b1 & r1 & G1 & Hr1 & Cb1 & _).
  assert (Eb : b1 = b /\ r1 = r).
  { change (ceemdan_imfs_and_residue_h o' = Ok (a, b)) in G0. change (ceemdan_imfs_and_residue_h o' = Ok (a, b1)) in G1.
    rewrite G0 in G1. split; congruence. }
  destruct Eb as (-> & ->).
  destruct (C65_ceemdan_returns_stored gen std arrival spl fuel ec conv HZ c o p S T s t k E p' HS HT Hp HE) as (a2 & b2 & o2 & R2 & _ & Ca & _).
  rewrite R in R2. injection R2 as <- <-.
  pose proof (C65_ceemdan_write_seen gen std arrival spl fuel ec conv HZ c o p S T s t k E p' a o' i j y HS HT Hp HE R) as Ca1.
  exists (MkVisH (Some a) (Some b)), r. split.
  { change (ceemdan_imfs_and_residue_h o' = Ok (a, b)) in G0. rewrite G0. reflexivity. }
  split; [exact Hr|]. intros include. split.
  - rewrite (plot_values (c_mem o') (MkVisH (Some a) (Some b)) (Some E) (Some r) None None None None None None include Ca Cb I I I). reflexivity.
  - rewrite (plot_values (c_mem (c_writes o' [MkWrite a i j y])) (MkVisH (Some a) (Some b)) (Some (set_nth E i (set_nth (nth i E []) j y))) (Some r)
      None None None None None None include Ca1 Cb1 I I I). reflexivity.
Qed.
Print Assumptions C116_ceemdan_returned_array.

(** A run with three imfs, then a second run on the sequence of times (nothing oscillates), then an
    assignment to the signal: the first Visualisation still has four panels. *)
Definition vis_mem : mem Qc := MkMem [Vec demo_S; Vec demo_T] None None.
Definition vis_then : list (operation Qc) :=
  [Decompose false false (MkArr 1 Whole) None (-1); AskTrend; Assign (MkWrite (MkArr 0 Whole) 0 1 0%Qc)].
Example C116_nonvacuous :
  contents vis_mem (MkArr 0 Whole) = Some (Vec demo_S) /\
  match emd_h lin_spl 10 demo_fixe false false (MkArr 0 Whole) (Some (MkArr 1 Whole)) (-1) vis_mem with
  | (Ok _, m') =>
    stored_left_alone vis_then m' /\
    let m3 := fold_left (perform lin_spl 10 demo_fixe) vis_then m' in
    match visualisation_h true m', visualisation_h true m3 with
    | (Ok v, _), (Ok v3, _) => h_imfs v <> h_imfs v3 /\
      match plot_imfs_h v None None None IsTrue m3 with (Ok ps, _) => length ps = 4%nat | _ => False end /\
      fst (plot_imfs_h v3 None None None IsTrue m3) = Raise TypeError
    | _, _ => False
    end
  | _ => False
  end.
Proof.
  split; [reflexivity|]. vm_compute. split.
  - split; repeat constructor; intros C; repeat (discriminate C || contradiction C).
  - split; [discriminate|]. split; reflexivity.
Qed.
