(** * HeapVisProofs: a Visualisation keeps the arrays it was made with. *)
From Verif Require Import PyFacts QcFacts Spec Emd EmdProofs Heap HeapSpec HeapProofs HeapClient
  Vis VisSpec VisProofs HeapVis HeapVisSpec.
From Coq Require Import QArith Qcanon Lia.

Section Any.
Context {A : Type} `{Num A}.
Variable spl : spline_oracle A.

Lemma look_mat_some (m : mem A) a Mv : contents m a = Some (Mat Mv) ->
  look_mat (Some a) m = (Ok (Some (array_of Mv)), m).
Proof. intros C. unfold look_mat, mbind, load_mat. rewrite C. reflexivity. Qed.
Lemma look_vec_some (m : mem A) a v : contents m a = Some (Vec v) ->
  look_vec (Some a) m = (Ok (Some v), m).
Proof. intros C. unfold look_vec, mbind, load_vec. rewrite C. reflexivity. Qed.
Lemma look_mat_m (m : mem A) a : snd (look_mat a m) = m.
Proof. destruct a as [a|]; [|reflexivity]. unfold look_mat, mbind, load_mat. destruct (contents m a) as [[v|v]|]; reflexivity. Qed.
Lemma look_vec_m (m : mem A) a : snd (look_vec a m) = m.
Proof. destruct a as [a|]; [|reflexivity]. unfold look_vec, mbind, load_vec. destruct (contents m a) as [[v|v]|]; reflexivity. Qed.
Lemma load_vec_m (m : mem A) a : snd (load_vec a m) = m.
Proof. reflexivity. Qed.
Lemma mbind_m {X Y} (x : M A X) (f : X -> M A Y) :
  (forall m, snd (x m) = m) -> (forall a m, snd (f a m) = m) -> forall m, snd (mbind x f m) = m.
Proof.
  intros Hx Hf m. unfold mbind. specialize (Hx m). destruct (x m) as [[a|e] m']; cbn in Hx |- *; subst; auto.
Qed.
Lemma look_m v (m : mem A) : snd (look v m) = m.
Proof.
  revert m. unfold look. apply mbind_m; [intros; apply look_mat_m|]. intros i. apply mbind_m; [intros; apply look_vec_m|]. reflexivity.
Qed.
Lemma plot_m v i r t b (m : mem A) : snd (plot_imfs_h v i r t b m) = m.
Proof.
  revert m. unfold plot_imfs_h. apply mbind_m; [intros; apply look_m|]. intros now.
  apply mbind_m; [intros; apply look_mat_m|]. intros i'. apply mbind_m; [intros; apply look_vec_m|]. intros r'.
  apply mbind_m; [intros; apply look_vec_m|]. reflexivity.
Qed.
Lemma freq_m hb an un pi v t i h al (m : mem A) : snd (plot_instant_freq_h hb an un pi v t i h al m) = m.
Proof.
  revert m. unfold plot_instant_freq_h. apply mbind_m; [intros; apply look_m|]. intros now.
  apply mbind_m; [intros; apply load_vec_m|]. intros i'. apply mbind_m; [intros; apply look_mat_m|]. reflexivity.
Qed.
Lemma made_m b (m : mem A) : snd (visualisation_h b m) = m.
Proof.
  unfold visualisation_h. destruct b; [|reflexivity]. revert m. apply mbind_m; [reflexivity|]. intros [i r]. reflexivity.
Qed.

(** The plots on memory are the plots on what the arrays show. *)
Lemma look_mat_shows (m : mem A) a x : displays m a x -> look_mat a m = (Ok (option_map array_of x), m).
Proof. destruct a, x; cbn; try contradiction; [|reflexivity]. apply look_mat_some. Qed.
Lemma look_vec_shows (m : mem A) a x : shows m a x -> look_vec a m = (Ok x, m).
Proof. destruct a, x; cbn; try contradiction; [|reflexivity]. apply look_vec_some. Qed.
Lemma look_shows (m : mem A) v x y : displays m (h_imfs v) x -> shows m (h_residue v) y ->
  look v m = (Ok (MkVis (option_map array_of x) y), m).
Proof. intros X Y. unfold look, mbind. rewrite (look_mat_shows _ _ _ X), (look_vec_shows _ _ _ Y). reflexivity. Qed.
Lemma plot_values (m : mem A) v x y i I r R t u b : displays m (h_imfs v) x -> shows m (h_residue v) y ->
  displays m i I -> shows m r R -> shows m t u ->
  plot_imfs_h v i r t b m = (plot_imfs (MkVis (option_map array_of x) y) (option_map array_of I) R u b, m).
Proof.
  intros X Y HI HR Ht. unfold plot_imfs_h, mbind. rewrite (look_shows _ _ _ _ X Y), (look_mat_shows _ _ _ HI),
    (look_vec_shows _ _ _ HR), (look_vec_shows _ _ _ Ht). reflexivity.
Qed.
Lemma freq_values hb an un pi (m : mem A) v x y t u i I h al : displays m (h_imfs v) x -> shows m (h_residue v) y ->
  contents m t = Some (Vec u) -> displays m i I ->
  plot_instant_freq_h hb an un pi v t i h al m =
  (plot_instant_freq hb an un pi (MkVis (option_map array_of x) y) u (option_map array_of I) h al, m).
Proof.
  intros X Y Ht HI. unfold plot_instant_freq_h, mbind, load_vec. rewrite (look_shows _ _ _ _ X Y), Ht,
    (look_mat_shows _ _ _ HI). reflexivity.
Qed.

(** What is read depends on the contents of the arrays only. *)
Definition same_at (m m' : mem A) (a : option arr) : Prop :=
  match a with Some a => contents m' a = contents m a | None => True end.
Lemma mbind_same {X Y} (x : M A X) (f : X -> M A Y) (m m' : mem A) :
  (forall n, snd (x n) = n) -> fst (x m') = fst (x m) -> (forall a, fst (f a m') = fst (f a m)) ->
  fst (mbind x f m') = fst (mbind x f m).
Proof.
  intros Hx E F. unfold mbind. pose proof (Hx m). pose proof (Hx m').
  destruct (x m) as [r n], (x m') as [r' n']. cbn in *. subst. destruct r; cbn; auto.
Qed.
Lemma look_mat_same (m m' : mem A) a : same_at m m' a -> fst (look_mat a m') = fst (look_mat a m).
Proof.
  destruct a as [a|]; [|reflexivity]. cbn. intros E. unfold look_mat, mbind, load_mat. rewrite E.
  destruct (contents m a) as [[v|v]|]; reflexivity.
Qed.
Lemma look_vec_same (m m' : mem A) a : same_at m m' a -> fst (look_vec a m') = fst (look_vec a m).
Proof.
  destruct a as [a|]; [|reflexivity]. cbn. intros E. unfold look_vec, mbind, load_vec. rewrite E.
  destruct (contents m a) as [[v|v]|]; reflexivity.
Qed.
Lemma look_same (m m' : mem A) v : same_at m m' (h_imfs v) -> same_at m m' (h_residue v) ->
  fst (look v m') = fst (look v m).
Proof.
  intros E1 E2. unfold look. apply mbind_same; [intros; apply look_mat_m|apply look_mat_same; auto|]. intros i.
  apply mbind_same; [intros; apply look_vec_m|apply look_vec_same; auto|]. reflexivity.
Qed.
Lemma plot_same (m m' : mem A) v i r t b : same_at m m' (h_imfs v) -> same_at m m' (h_residue v) ->
  same_at m m' i -> same_at m m' r -> same_at m m' t ->
  fst (plot_imfs_h v i r t b m') = fst (plot_imfs_h v i r t b m).
Proof.
  intros E1 E2 E3 E4 E5. unfold plot_imfs_h. apply mbind_same; [intros; apply look_m|apply look_same; auto|]. intros now.
  apply mbind_same; [intros; apply look_mat_m|apply look_mat_same; auto|]. intros i'.
  apply mbind_same; [intros; apply look_vec_m|apply look_vec_same; auto|]. intros r'.
  apply mbind_same; [intros; apply look_vec_m|apply look_vec_same; auto|]. reflexivity.
Qed.
Lemma freq_same hb an un pi (m m' : mem A) v t i h al : same_at m m' (h_imfs v) -> same_at m m' (h_residue v) ->
  same_at m m' (Some t) -> same_at m m' i ->
  fst (plot_instant_freq_h hb an un pi v t i h al m') = fst (plot_instant_freq_h hb an un pi v t i h al m).
Proof.
  intros E1 E2 E3 E4. unfold plot_instant_freq_h. apply mbind_same; [intros; apply look_m|apply look_same; auto|]. intros now.
  apply mbind_same; [intros; apply load_vec_m|cbn in *; unfold load_vec; rewrite E3; reflexivity|]. intros i'.
  apply mbind_same; [intros; apply look_mat_m|apply look_mat_same; auto|]. reflexivity.
Qed.

Lemma performs_same fuel c os (m : mem A) a : alive m a -> all_left_alone os a ->
  same_at m (fold_left (perform spl fuel c) os m) a.
Proof. destruct a as [a|]; cbn; auto. intros L Ha. apply performs_other; auto. Qed.

Lemma made_holds (m : mem A) v m0 : visualisation_h true m = (Ok v, m0) ->
  m0 = m /\ h_imfs v = o_imfs m /\ h_residue v = o_residue m.
Proof.
  unfold visualisation_h, mbind, imfs_and_residue_h. destruct (o_imfs m), (o_residue m); intros E; try discriminate E.
  injection E as <- <-. auto.
Qed.

Lemma plots_stay fuel c os (m : mem A) v m0 i r t b :
  alive m (o_imfs m) -> alive m (o_residue m) -> visualisation_h true m = (Ok v, m0) -> stored_left_alone os m ->
  (alive m i /\ alive m r /\ alive m t) -> (all_left_alone os i /\ all_left_alone os r /\ all_left_alone os t) ->
  fst (plot_imfs_h v i r t b (fold_left (perform spl fuel c) os m)) = fst (plot_imfs_h v i r t b m).
Proof.
  intros Li Lr E (S1 & S2) (L1 & L2 & L3) (W1 & W2 & W3). destruct (made_holds m v m0 E) as (_ & Hi & Hr).
  apply plot_same; try (rewrite Hi || rewrite Hr); apply performs_same; auto.
Qed.
Lemma freqs_stay fuel c os (m : mem A) v m0 hb an un pi t i h al :
  alive m (o_imfs m) -> alive m (o_residue m) -> visualisation_h true m = (Ok v, m0) -> stored_left_alone os m ->
  (alive m i /\ live m t) -> (all_left_alone os i /\ left_alone os t) ->
  fst (plot_instant_freq_h hb an un pi v t i h al (fold_left (perform spl fuel c) os m)) =
  fst (plot_instant_freq_h hb an un pi v t i h al m).
Proof.
  intros Li Lr E (S1 & S2) (L1 & L2) (W1 & W2). destruct (made_holds m v m0 E) as (_ & Hi & Hr).
  apply freq_same; try (rewrite Hi || rewrite Hr); apply performs_same; auto.
Qed.
End Any.

(** ** The figure *)
Lemma figure_drawn (m : mem Qc) v i d t u I R n :
  h_imfs v = Some i -> h_residue v = Some d -> contents m i = Some (Mat I) -> contents m d = Some (Vec R) ->
  shows m t u -> (forall x, u = Some x -> length x = n) -> shaped n I -> length R = n -> (1 <= length I)%nat ->
  exists x ps, drawn_at u n x /\ plot_imfs_h v None None t IsTrue m = (Ok ps, m) /\ figure x I R ps.
Proof.
  intros Hi Hd Ci Cd Ht Hu HI HR H1.
  assert (W : width (array_of I) = n).
  { destruct I as [|r I]; cbn in *; [lia|]. inversion HI; subst. auto. }
  destruct (plot_with (MkVis (Some (array_of I)) (Some R)) None None u (array_of I)) with (R := R)
    as (x & ps & D & P & L & F & G).
  - right. split; reflexivity.
  - rewrite W. exact HI.
  - rewrite W. exact Hu.
  - right. split; reflexivity.
  - rewrite W. exact HR.
  - exact H1.
  - rewrite W in D. exists x, ps. split; [exact D|]. split; [|split; [exact L|split; [exact F|exact G]]].
    unfold plot_imfs_h, look, mbind. rewrite Hi, Hd.
    rewrite (look_mat_some m i I Ci), (look_vec_some m d R Cd). cbn [look_mat look_vec ret].
    assert (Eu : look_vec t m = (Ok u, m)).
    { destruct t as [t|], u as [u|]; cbn in Ht; try contradiction; [|reflexivity]. apply look_vec_some; auto. }
    rewrite Eu. unfold lift. rewrite P. reflexivity.
Qed.

Section Runs.
Variable spl : spline_oracle Qc.
Implicit Types m : mem Qc.

Lemma made_then_drawn fuel c cS cT S T s t k m o m' r :
  contents m S = Some (Vec s) -> shows m T t -> emd spl fuel c s t k = Ok o -> (1 <= length (imfs o))%nat ->
  emd_h spl fuel c cS cT S T k m = (Ok r, m') ->
  exists v, visualisation_h true m' = (Ok v, m') /\
    forall os a u, stored_left_alone os m' -> shows (fold_left (perform spl fuel c) os m') a u ->
      (forall x, u = Some x -> length x = length s) ->
      exists x ps, drawn_at u (length s) x /\
        plot_imfs_h v None None a IsTrue (fold_left (perform spl fuel c) os m') =
          (Ok ps, fold_left (perform spl fuel c) os m') /\
        figure x (imfs o) (residue o) ps.
Proof.
  intros HS HT E H1 R.
  destruct (emd_call_ok spl fuel c cS cT S T s t k m o HS HT E)
    as (m1 & r1 & i & d & R1 & G & _ & Ci & Cd & _ & _ & (_ & Li) & (_ & Ld) & _).
  rewrite R in R1. injection R1 as <- <-.
  assert (O : o_imfs m' = Some i /\ o_residue m' = Some d).
  { unfold imfs_and_residue_h in G. cbn [fst] in G. destruct (o_imfs m'), (o_residue m'); try discriminate. injection G as -> ->. auto. }
  destruct O as (Oi & Od). exists (MkVisH (Some i) (Some d)). split.
  { unfold visualisation_h, mbind, imfs_and_residue_h. rewrite Oi, Od. reflexivity. }
  intros os a u (W1 & W2) Ha Hu. rewrite Oi in W1. rewrite Od in W2.
  destruct (emd_shape spl fuel c s t k o E) as (_ & Sh & Lr).
  eapply figure_drawn; try reflexivity; eauto.
  - rewrite performs_other by auto. exact Ci.
  - rewrite performs_other by auto. exact Cd.
Qed.

(** A run that raises in between. *)
Lemma made_after_failure fuel c cS cT S T s t k m o m' r cS2 cT2 S2 T2 s2 t2 k2 e :
  contents m S = Some (Vec s) -> shows m T t -> emd spl fuel c s t k = Ok o -> (1 <= length (imfs o))%nat ->
  emd_h spl fuel c cS cT S T k m = (Ok r, m') ->
  contents m' S2 = Some (Vec s2) -> shows m' T2 t2 -> emd spl fuel c s2 t2 k2 = Raise e ->
  exists m'' v, emd_h spl fuel c cS2 cT2 S2 T2 k2 m' = (Raise e, m'') /\ visualisation_h true m'' = (Ok v, m'') /\
    exists x ps, drawn_at None (length s) x /\ plot_imfs_h v None None None IsTrue m'' = (Ok ps, m'') /\
      figure x (imfs o) (residue o) ps.
Proof.
  intros HS HT E H1 R HS2 HT2 E2.
  destruct (made_then_drawn fuel c cS cT S T s t k m o m' r HS HT E H1 R) as (v & V & D).
  destruct (emd_call_raise spl fuel c cS2 cT2 S2 T2 s2 t2 k2 m' e HS2 HT2 E2) as (m'' & R2 & _ & G).
  exists m'', v. split; auto.
  assert (P : perform spl fuel c m' (Decompose cS2 cT2 S2 T2 k2) = m'') by (cbn [perform]; rewrite R2; reflexivity).
  split.
  { unfold visualisation_h, mbind in V |- *. pose proof (eq_refl (imfs_and_residue_h m'')) as Q.
    assert (X : forall n : mem Qc, imfs_and_residue_h n = (fst (imfs_and_residue_h n), n)) by reflexivity.
    rewrite X in V |- *. rewrite G. destruct (fst (imfs_and_residue_h m')) as [[i d]|]; [|discriminate V].
    unfold ret in V |- *. injection V as <-. reflexivity. }
  specialize (D [Decompose cS2 cT2 S2 T2 k2] None None). cbn [fold_left] in D. rewrite P in D. apply D.
  - split; [destruct (o_imfs m')|destruct (o_residue m')]; cbn; auto; repeat constructor; auto.
  - exact I.
  - discriminate.
Qed.

(** Two runs, a Visualisation made after each. *)
Lemma two_made fuel c cS cT S T s t k m o m1 r os1 cS2 cT2 S2 T2 s2 t2 k2 o2 m2 r2 :
  contents m S = Some (Vec s) -> shows m T t -> emd spl fuel c s t k = Ok o -> (1 <= length (imfs o))%nat ->
  emd_h spl fuel c cS cT S T k m = (Ok r, m1) -> stored_left_alone os1 m1 ->
  let m1' := fold_left (perform spl fuel c) os1 m1 in
  contents m1' S2 = Some (Vec s2) -> shows m1' T2 t2 -> emd spl fuel c s2 t2 k2 = Ok o2 -> (1 <= length (imfs o2))%nat ->
  emd_h spl fuel c cS2 cT2 S2 T2 k2 m1' = (Ok r2, m2) ->
  exists v1 v2, visualisation_h true m1 = (Ok v1, m1) /\ visualisation_h true m2 = (Ok v2, m2) /\
    forall os, stored_left_alone os m1 -> stored_left_alone os m2 ->
      let m3 := fold_left (perform spl fuel c) os m2 in
      exists x1 x2 ps1 ps2, drawn_at None (length s) x1 /\ drawn_at None (length s2) x2 /\
        plot_imfs_h v1 None None None IsTrue m3 = (Ok ps1, m3) /\ figure x1 (imfs o) (residue o) ps1 /\
        plot_imfs_h v2 None None None IsTrue m3 = (Ok ps2, m3) /\ figure x2 (imfs o2) (residue o2) ps2.
Proof.
  intros HS HT E H1 R W1 m1' HS2 HT2 E2 H2 R2.
  destruct (made_then_drawn fuel c cS cT S T s t k m o m1 r HS HT E H1 R) as (v1 & V1 & D1).
  destruct (made_then_drawn fuel c cS2 cT2 S2 T2 s2 t2 k2 m1' o2 m2 r2 HS2 HT2 E2 H2 R2) as (v2 & V2 & D2).
  exists v1, v2. split; auto. split; auto. intros os Wa Wb m3.
  assert (P : fold_left (perform spl fuel c) (os1 ++ Decompose cS2 cT2 S2 T2 k2 :: os) m1 = m3).
  { rewrite fold_left_app. cbn [fold_left]. fold m1'. cbn [perform]. rewrite R2. reflexivity. }
  destruct (D1 (os1 ++ Decompose cS2 cT2 S2 T2 k2 :: os) None None) as (x1 & ps1 & A1 & B1 & C1).
  { destruct W1 as (P1 & P2), Wa as (Q1 & Q2).
    split; [destruct (o_imfs m1)|destruct (o_residue m1)]; cbn in *; auto;
      apply Forall_app; (split; [assumption|constructor; [cbn; auto|assumption]]). }
  { exact I. } { discriminate. }
  destruct (D2 os None None Wb I) as (x2 & ps2 & A2 & B2 & C2). { discriminate. }
  rewrite P in B1. exists x1, x2, ps1, ps2. split; [exact A1|]. split; [exact A2|]. split; [exact B1|].
  split; [exact C1|]. split; [exact B2|exact C2].
Qed.

Lemma set_nth_len {X} (x : X) : forall l i, length (set_nth l i x) = length l.
Proof. induction l as [|y l IH]; intros [|i]; cbn; auto. Qed.
Lemma set_nth_shaped n (x : list Qc) : forall l i, shaped n l -> length x = n -> shaped n (set_nth l i x).
Proof.
  induction l as [|y l IH]; intros [|i] Hl Hx; cbn; auto; inversion Hl; subst; constructor; auto. apply IH; auto.
Qed.

(** An assignment to the imfs handed out is seen in the next figure. *)
Lemma write_drawn fuel c cS cT S T s t k m o m' r p j y :
  contents m S = Some (Vec s) -> shows m T t -> emd spl fuel c s t k = Ok o -> (p < length (imfs o))%nat ->
  emd_h spl fuel c cS cT S T k m = (Ok r, m') ->
  exists v i d, visualisation_h true m' = (Ok v, m') /\ fst (imfs_and_residue_h m') = Ok (i, d) /\
    let m'' := do_write m' (MkWrite i p j y) in
    exists x ps, drawn_at None (length s) x /\ plot_imfs_h v None None None IsTrue m'' = (Ok ps, m'') /\
      figure x (set_nth (imfs o) p (set_nth (nth p (imfs o) []) j y)) (residue o) ps.
Proof.
  intros HS HT E Hp R.
  destruct (emd_handed_out spl fuel c cS cT S T s t k m o m' r p j y HS HT E R) as (i & d & G & _ & Ci & _).
  destruct (emd_call_ok spl fuel c cS cT S T s t k m o HS HT E)
    as (m1 & r1 & i1 & d1 & R1 & G1 & _ & _ & Cd & _ & _ & _ & _ & _ & _ & Aid).
  rewrite R in R1. injection R1 as <- <-. rewrite G in G1. injection G1 as <- <-.
  destruct (emd_shape spl fuel c s t k o E) as (_ & Sh & Lr).
  exists (MkVisH (Some i) (Some d)), i, d. split.
  { unfold visualisation_h, mbind. assert (X : imfs_and_residue_h m' = (fst (imfs_and_residue_h m'), m')) by reflexivity.
    rewrite X, G. reflexivity. }
  split; auto. intros m''.
  assert (Cd2 : contents m'' d = Some (Vec (residue o))).
  { unfold m''. rewrite do_write_other by (cbn; exact Aid). exact Cd. }
  apply (figure_drawn m'' (MkVisH (Some i) (Some d)) i d None None _ _ (length s) eq_refl eq_refl Ci Cd2 I).
  - discriminate.
  - apply set_nth_shaped; auto. rewrite set_nth_len. apply (proj1 (Forall_nth _ _) Sh); auto.
  - exact Lr.
  - rewrite set_nth_len. lia.
Qed.
End Runs.
