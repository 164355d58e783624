(** * Props_Mirror: property C98, signals turned over or around in the ensemble methods.

    [turning], [draws_turned] and [turns_inner] are defined in MirrorSpec.v, [responds] in SymSpec.v,
    [sized] in EemdSpec.v, [reorders] in CeemdanSpec.v. *)
From Verif Require Import Py PyFacts QcFacts Emd Eemd EemdSpec Ceemdan CeemdanSpec Spec SymSpec EmdSym Reverse MirrorSpec EnsembleMirror
  Demo Props_Eemd Props_Ceemdan.
From Coq Require Import QArith Qcanon Lia.
Open Scope Z_scope.

(** ** C98 *)
(** EEMD with any inner decomposition: when the noise is turned with the signal, and the inner object
    turns its components with the noisy signals it is given, the whole result is turned: components,
    residue and the state of the generator afterwards.  Serial or parallel, any number of trials. *)
Theorem C98_eemd :
  forall t, turning t ->
  forall G (gen gen' : generator Qc G), draws_turned t gen gen' -> sized gen ->
  forall D D' (dec : decomposer Qc D) (dec' : decomposer Qc D') c o o2 (S : list Qc) T max_imf E o' hi lo,
  random o2 = random o ->
  In hi S -> In lo S -> (forall x, In x S -> lo <= x <= hi)%Qc ->
  (forall T' g v g', match T with Some u => T' = u | None => timeline (length S) = Ok T' end ->
     generate_noise gen c g (noise_width c * (hi - lo))%Qc (length S) = (Ok v, g') ->
     turns_inner t dec dec' T' max_imf (map2 Qcplus S v)) ->
  eemd gen dec c o S T max_imf = (Ok E, o') ->
  exists o2', eemd gen' dec' c o2 (t S) T max_imf = (Ok (map t E), o2') /\ random o2' = random o' /\
    exists r, eemd_imfs_and_residue o' = Ok (E, r) /\ eemd_imfs_and_residue o2' = Ok (map t E, t r).
Proof. intros t Ht G gen gen' Hg Hs D D' dec dec'. exact (eemd_turn t Ht gen gen' Hg Hs dec dec'). Qed.
Print Assumptions C98_eemd.

(** With PyEMD's EMD inside, in simple mode, under every stopping rule and every limit: EEMD of the
    negated signal with the negated noise is the negated result.  Both kinds of noise are symmetric,
    so the two runs are equally likely: on average EEMD treats peaks and troughs alike. *)
Theorem C98_eemd_negated :
  forall G (gen gen' : generator Qc G) spl fuel ec c o o2 (S : list Qc) T max_imf E o',
  draws_turned (map Qcopp) gen gen' -> sized gen -> responds Qcopp spl -> extrema_detection ec = Simple ->
  (2 <= length S)%nat -> random o2 = random o ->
  eemd gen (emd_decomposer spl fuel ec) c o S T max_imf = (Ok E, o') ->
  exists o2', eemd gen' (emd_decomposer spl fuel ec) c o2 (map Qcopp S) T max_imf = (Ok (map (map Qcopp) E), o2') /\
    random o2' = random o' /\
    exists r, eemd_imfs_and_residue o' = Ok (E, r) /\
      eemd_imfs_and_residue o2' = Ok (map (map Qcopp) E, map Qcopp r).
Proof. exact eemd_over. Qed.
Print Assumptions C98_eemd_negated.

(** CEEMDAN with any inner decomposition that turns its components with its signal, any standard
    deviation that does not mind, and any two orders in which the workers finish: when the noise of
    every trial is turned with the signal, the whole result is turned. *)
Theorem C98_ceemdan :
  forall t, turning t ->
  forall std, (forall v, std (t v) = std v) ->
  forall n, (2 <= n)%nat ->
  forall emd_of emd_of' : list Qc -> option (list Qc) -> Z -> res (list (list Qc)),
  (forall X T k R, length X = n -> emd_of X T k = Ok R -> emd_of' (t X) T k = Ok (map t R)) ->
  forall arrival arrival', reorders arrival -> reorders arrival' ->
  forall c G (gen gen' : generator Qc G) o o2 (S : list Qc) T max_imf C o' N g,
  length S = n -> sized gen ->
  all_noises gen c (c_random o) n = (Ok N, g) -> all_noises gen' c (c_random o2) n = (Ok (map t N), g) ->
  ceemdan gen std emd_of arrival c o S T max_imf = (Ok C, o') ->
  exists o2', ceemdan gen' std emd_of' arrival' c o2 (t S) T max_imf = (Ok (map t C), o2') /\
    c_random o2' = c_random o' /\
    exists R, ceemdan_imfs_and_residue o' = Ok (C, R) /\ ceemdan_imfs_and_residue o2' = Ok (map t C, t R).
Proof. exact ceemdan_turn. Qed.
Print Assumptions C98_ceemdan.

(** With PyEMD's EMD inside, in simple mode: CEEMDAN of the negated signal with the negated noise is
    the negated result. *)
Theorem C98_ceemdan_negated :
  forall G (gen gen' : generator Qc G) std spl fuel ec arrival arrival' c o o2 (S : list Qc) T max_imf C o',
  draws_turned (map Qcopp) gen gen' -> sized gen -> (forall v, std (map Qcopp v) = std v) ->
  reorders arrival -> reorders arrival' ->
  responds Qcopp spl -> extrema_detection ec = Simple -> (2 <= length S)%nat -> c_random o2 = c_random o ->
  ceemdan gen std (emd_fun spl fuel ec) arrival c o S T max_imf = (Ok C, o') ->
  exists o2', ceemdan gen' std (emd_fun spl fuel ec) arrival' c o2 (map Qcopp S) T max_imf = (Ok (map (map Qcopp) C), o2') /\
    c_random o2' = c_random o' /\
    exists R, ceemdan_imfs_and_residue o' = Ok (C, R) /\
      ceemdan_imfs_and_residue o2' = Ok (map (map Qcopp) C, map Qcopp R).
Proof. exact ceemdan_over. Qed.
Print Assumptions C98_ceemdan_negated.

(** *** Concrete cases *)
Definition turned_gen (t : list Qc -> list Qc) : generator Qc Z :=
  MkGen (fun g s n => (t (fst (normal demo_gen g s n)), snd (normal demo_gen g s n)))
        (fun g lo hi n => (t (fst (uniform demo_gen g lo hi n)), snd (uniform demo_gen g lo hi n)))
        (seeded demo_gen).
Lemma turned_gen_draws t : draws_turned t demo_gen (turned_gen t).
Proof. intros g n. split; reflexivity. Qed.
Definition rows_eqb (a b : list (list Qc)) : bool := if list_eq_dec (list_eq_dec Qc_eq_dec) a b then true else false.

Example C98_negated_nonvacuous :
  draws_turned (map Qcopp) demo_gen (turned_gen (map Qcopp)) /\ sized demo_gen /\ responds Qcopp (@lin_spl Qc _) /\
  extrema_detection demo_fixe = Simple /\ (forall v, demo_std (map Qcopp v) = demo_std v) /\ reorders (@rev (list (list Qc))) /\
  (2 <= length short_S)%nat /\
  match eemd demo_gen demo_dec (demo_ecfg 2 false false 1) demo_obj short_S None (-1) with (Ok E, _) => length E = 3%nat | _ => False end /\
  match ceemdan demo_gen demo_std demo_emd (@rev _) (demo_ccfg 2 1%Qc true true) demo_cst short_S None (-1)
  with (Ok C, _) => (2 <= length C)%nat | _ => False end.
Proof.
  split; [apply turned_gen_draws|]. split; [exact demo_sized|]. split; [apply (lin_responds (- (1))%Qc 0); intros; unfold g; ring|].
  split; [reflexivity|]. split.
  { intros v. unfold demo_std. rewrite !map_map. do 2 f_equal. apply map_ext. intros x. replace (- x)%Qc with ((- (1)) * x)%Qc by ring.
    rewrite abs_mul. change (Qc_abs (- (1))) with 1%Qc. rewrite Qcmult_1_l. reflexivity. }
  split; [intros l; apply Permutation.Permutation_rev|]. split; [vm_compute; lia|]. split; vm_compute; [reflexivity|lia].
Qed.

(** Turned around, with PyEMD's EMD inside: every trial on this signal is turned. *)
Definition bumpy : list Qc := qs [0; -3; 1; 5; 3; 2; -2; 0; 1].
Definition bumpy_noise (r : Z) : list Qc := map (fun i => (nlit 8 10 * Qc_ofZ ((3 * r + 5 * i + i * i) mod 7 - 3))%Qc) (zseq 0 9).
Definition bumpy_ok (r : Z) : bool :=
  let X := map2 Qcplus bumpy (bumpy_noise r) in
  match emd lin_spl 10 demo_fixe X (Some (arange 9)) (-1), emd lin_spl 10 demo_fixe (rev X) (Some (arange 9)) (-1) with
  | Ok e, Ok e' => rows_eqb (out e') (map (@rev _) (out e)) && rows_eqb (imfs e') (map (@rev _) (imfs e)) &&
                   rows_eqb [residue e'] [rev (residue e)]
  | _, _ => false
  end.
Lemma emd_turns_around X T m e e' : emd lin_spl 10 demo_fixe X (Some T) m = Ok e -> emd lin_spl 10 demo_fixe (rev X) (Some T) m = Ok e' ->
  out e' = map (@rev _) (out e) -> imfs e' = map (@rev _) (imfs e) -> residue e' = rev (residue e) ->
  turns_inner (@rev Qc) demo_dec demo_dec T m X.
Proof.
  intros E E' H0 H1 H2 d d1 rows ER d'. unfold demo_dec in *. cbn [run emd_decomposer] in *. unfold emd_call in *. rewrite E in ER. rewrite E'.
  apply pair_inv in ER as [ER <-]. apply ok_inv in ER. subst rows. rewrite H0. eexists. split; [reflexivity|].
  intros i r. unfold trend_of, emd_decomposer, get_imfs_and_trend, get_imfs_and_residue. cbn [st_imfs st_residue bind]. rewrite H1, H2.
  assert (A : allclose0 (rev (residue e)) = allclose0 (residue e)).
  { unfold allclose0. generalize (residue e). intros w. induction w as [|x w IH]; auto. cbn [rev forallb]. rewrite forallb_app. cbn [forallb]. rewrite IH.
    destruct (nleb _ _), (forallb _ w); reflexivity. }
  rewrite A. destruct (allclose0 (residue e)).
  - intros ET. apply bind_ok in ET as (x & Ex & ET). apply ok_inv in ET. apply pair_inv in ET as [-> ->].
    rewrite (py_get_map (@rev Qc) _ _ _ Ex). cbn [bind]. f_equal. f_equal.
    destruct (imfs e) as [|y l _] using rev_ind; [reflexivity|]. rewrite map_app. cbn [map]. rewrite !py_slice_all_but_last. reflexivity.
  - intros ET. apply ok_inv in ET. apply pair_inv in ET as [-> ->]. reflexivity.
Qed.
Lemma rows_eqb_true a b : rows_eqb a b = true -> a = b.
Proof. unfold rows_eqb. destruct (list_eq_dec _ a b); auto. discriminate. Qed.
Lemma bumpy_turns r : bumpy_ok r = true -> turns_inner (@rev Qc) demo_dec demo_dec (arange 9) (-1) (map2 Qcplus bumpy (bumpy_noise r)).
Proof.
  unfold bumpy_ok. set (X := map2 Qcplus bumpy (bumpy_noise r)). clearbody X.
  destruct (emd lin_spl 10 demo_fixe X (Some (arange 9)) (-1)) as [e|] eqn:E; [|discriminate].
  destruct (emd lin_spl 10 demo_fixe (rev X) (Some (arange 9)) (-1)) as [e'|] eqn:E'; [|discriminate].
  rewrite !Bool.andb_true_iff. intros [[H0 H1] H2]. apply rows_eqb_true in H0, H1, H2. apply (emd_turns_around X (arange 9) (-1) e e' E E'); auto.
  injection H2. auto.
Qed.
Example C98_eemd_nonvacuous :
  turning (@rev Qc) /\ draws_turned (@rev Qc) demo_gen (turned_gen (@rev Qc)) /\ sized demo_gen /\
  In (Qc_ofZ 5) bumpy /\ In (Qc_ofZ (-3)) bumpy /\ (forall x, In x bumpy -> Qc_ofZ (-3) <= x <= Qc_ofZ 5)%Qc /\
  (forall T' g v g', timeline (length bumpy) = Ok T' ->
     generate_noise demo_gen (demo_ecfg 2 false false 1) g (noise_width (demo_ecfg 2 false false 1) * (Qc_ofZ 5 - Qc_ofZ (-3)))%Qc (length bumpy) = (Ok v, g') ->
     turns_inner (@rev Qc) demo_dec demo_dec T' (-1) (map2 Qcplus bumpy v)) /\
  match eemd demo_gen demo_dec (demo_ecfg 2 false false 1) demo_obj bumpy None (-1) with (Ok E, _) => length E = 3%nat | _ => False end.
Proof.
  split; [right; reflexivity|]. split; [apply turned_gen_draws|]. split; [exact demo_sized|].
  split; [right; right; right; left; reflexivity|]. split; [right; left; reflexivity|].
  split. { intros x Hx. repeat (destruct Hx as [<-|Hx]; [split; vm_compute; discriminate|]). destruct Hx. }
  split; [|vm_compute; reflexivity].
  intros T' g v g' ET EN. assert (T' = arange 9) as -> by (apply ok_inv; rewrite <- ET; reflexivity). clear ET.
  cbn [generate_noise demo_ecfg noise_kind demo_gen normal fst snd] in EN. apply pair_inv in EN as [Ev _]. apply ok_inv in Ev. subst v.
  match goal with |- turns_inner _ _ _ _ _ (map2 _ _ ?v) => assert (V : v = bumpy_noise (g mod 7)) end.
  { unfold bumpy_noise. apply map_ext. intros i. f_equal. f_equal. f_equal.
    rewrite (Z.div_mod g 7) at 1 by lia. replace (3 * (7 * (g / 7) + g mod 7) + 5 * i + i * i) with (3 * (g mod 7) + 5 * i + i * i + (3 * (g / 7)) * 7) by ring.
    apply Z_mod_plus_full. }
  rewrite V. apply bumpy_turns. pose proof (Z.mod_pos_bound g 7 ltac:(lia)) as B.
  assert (D : g mod 7 = 0 \/ g mod 7 = 1 \/ g mod 7 = 2 \/ g mod 7 = 3 \/ g mod 7 = 4 \/ g mod 7 = 5 \/ g mod 7 = 6) by lia.
  destruct D as [-> |[-> |[-> |[-> |[-> |[-> | ->]]]]]]; vm_compute; reflexivity.
Qed.

(** Turned around, in CEEMDAN: an [ext_EMD] that splits off a moving average of three samples. *)
Definition smooth (X : list Qc) : list Qc :=
  map (fun x => (x / Qc_ofZ 3)%Qc) (map2 Qcplus X (map2 Qcplus (removelast (0%Qc :: X)) (tl (X ++ [0%Qc])))).
Definition smooth_emd (X : list Qc) (T : option (list Qc)) (k : Z) : res (list (list Qc)) :=
  Ok [map2 Qcminus X (smooth X); smooth X].
Lemma rev_tl (l : list Qc) : rev (tl l) = removelast (rev l).
Proof. destruct l as [|x l]; auto. cbn [tl rev]. symmetry. apply removelast_last. Qed.
Lemma tl_rev (l : list Qc) : tl (rev l) = rev (removelast l).
Proof. rewrite <- (rev_involutive l) at 2. rewrite <- rev_tl. symmetry. apply rev_involutive. Qed.
Lemma removelast_length (l : list Qc) : length (removelast l) = pred (length l).
Proof. destruct l as [|x l _] using rev_ind; auto. rewrite removelast_last, app_length. cbn. lia. Qed.
Lemma smooth_length X : length (smooth X) = length X.
Proof.
  unfold smooth. rewrite map_length, !map2_length, removelast_length.
  assert (L : length (tl (X ++ [0%Qc])) = length X) by (destruct X; auto; cbn; rewrite app_length; cbn; lia).
  rewrite L. cbn [length pred]. lia.
Qed.
Lemma smooth_rev X : smooth (rev X) = rev (smooth X).
Proof.
  unfold smooth. rewrite <- map_rev. f_equal.
  assert (L : length (removelast (0%Qc :: X)) = length X /\ length (tl (X ++ [0%Qc])) = length X).
  { rewrite removelast_length. split; auto. destruct X; auto. cbn. rewrite app_length. cbn. lia. }
  rewrite <- map2_rev by (rewrite map2_length; lia). f_equal. rewrite <- map2_rev by lia.
  rewrite rev_tl, <- tl_rev, rev_app_distr. cbn [rev app].
  assert (C : forall a b, map2 Qcplus a b = map2 Qcplus b a).
  { induction a as [|x a IH]; destruct b as [|y b]; auto. cbn. f_equal; auto. ring. }
  apply C.
Qed.
Lemma smooth_turns X T k R : length X = 9%nat -> smooth_emd X T k = Ok R -> smooth_emd (rev X) T k = Ok (map (@rev _) R).
Proof.
  intros _ E. apply ok_inv in E. subst R. unfold smooth_emd. rewrite smooth_rev. cbn [map]. f_equal. f_equal. apply map2_rev. symmetry. apply smooth_length.
Qed.
(** The noise of every trial turned around. *)
Definition trialwise_gen : generator Qc Z :=
  MkGen (fun g s n => let v := fst (normal demo_gen g s n) in (rev (firstn 9 v) ++ rev (skipn 9 v), g + 1)) (uniform demo_gen) (seeded demo_gen).
Example C98_ceemdan_nonvacuous :
  turning (@rev Qc) /\ (forall v, demo_std (rev v) = demo_std v) /\
  (forall X T k R, length X = 9%nat -> smooth_emd X T k = Ok R -> smooth_emd (rev X) T k = Ok (map (@rev _) R)) /\
  reorders (@rev (list (list Qc))) /\ sized demo_gen /\
  (exists N g, all_noises demo_gen (demo_ccfg 2 1%Qc true true) 0 9 = (Ok N, g) /\
     all_noises trialwise_gen (demo_ccfg 2 1%Qc true true) 0 9 = (Ok (map (@rev _) N), g)) /\
  match ceemdan demo_gen demo_std smooth_emd (@rev _) (demo_ccfg 2 1%Qc true true) demo_cst bumpy None (-1)
  with (Ok C, _) => (3 <= length C)%nat | _ => False end.
Proof.
  split; [right; reflexivity|]. split.
  { intros v. unfold demo_std. rewrite map_rev. f_equal. generalize (map Qc_abs v). intros l. unfold total.
    assert (F : forall (a b : list Qc), fold_right Qcplus 0%Qc (a ++ b) = (fold_right Qcplus 0 a + fold_right Qcplus 0 b)%Qc).
    { induction a as [|x a IH]; intros b; cbn; [ring|]. rewrite IH. ring. }
    induction l as [|x l IH]; auto. cbn [rev]. rewrite F, IH. cbn. ring. }
  split; [exact smooth_turns|]. split; [intros l; apply Permutation.Permutation_rev|]. split; [exact demo_sized|].
  split; [do 2 eexists; split; [reflexivity|]; vm_compute; reflexivity|]. vm_compute. lia.
Qed.

(** The noise must be turned too: with the same draws the result for the reversed signal is another one.
    [C74_negation_refuted] has the case of the negated signal. *)
Theorem C98_same_noise_refuted :
  exists c o (S : list Qc) E E' o1 o1', eemd demo_gen demo_dec c o S None (-1) = (Ok E, o1) /\
    eemd demo_gen demo_dec c o (rev S) None (-1) = (Ok E', o1') /\ E' <> map (@rev Qc) E.
Proof.
  pose (c := demo_ecfg 1 false false 1).
  assert (G : match eemd demo_gen demo_dec c demo_obj bumpy None (-1), eemd demo_gen demo_dec c demo_obj (rev bumpy) None (-1) with
    | (Ok E, _), (Ok E', _) => negb (rows_eqb E' (map (@rev _) E)) | _, _ => false end = true) by (vm_compute; reflexivity).
  exists c, demo_obj, bumpy.
  destruct (eemd _ _ c demo_obj bumpy None (-1)) as [[E|] o1]; [|discriminate G].
  destruct (eemd _ _ c demo_obj (rev bumpy) None (-1)) as [[E'|] o1']; [|discriminate G].
  exists E, E', o1, o1'. split; [reflexivity|]. split; [reflexivity|]. intros X. rewrite X in G. unfold rows_eqb in G.
  destruct (list_eq_dec _ _ _); [discriminate G|contradiction].
Qed.
Print Assumptions C98_same_noise_refuted.
