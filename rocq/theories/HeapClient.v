(** * HeapClient: what a caller observes after EMD.emd, whatever it does next. *)
From Verif Require Import PyFacts Emd Spec EmdProofs Heap HeapSpec HeapProofs.
From Coq Require Import ZifyBool ZifyNat Lia.

Section HeapClient.
Context {A : Type} `{Num A}.
Notation vec := (list A).
Notation rows := (list (list A)).
Variable spl : spline_oracle A.

(** ** Element assignments *)
Lemma do_write_length (m : mem A) w : length (heap (do_write m w)) = length (heap m).
Proof. unfold do_write. destruct (nth_error _ _); auto. cbn. apply set_nth_length. Qed.
Lemma do_write_attrs (m : mem A) w :
  o_imfs (do_write m w) = o_imfs m /\ o_residue (do_write m w) = o_residue m.
Proof. unfold do_write. destruct (nth_error _ _); auto. Qed.
Lemma do_write_other (m : mem A) w a : apart (target w) a -> contents (do_write m w) a = contents m a.
Proof.
  intros Ap. unfold do_write. destruct (nth_error _ _); auto. unfold contents. cbn.
  rewrite nth_error_set_neq; auto.
Qed.
Lemma do_writes_other ws : forall (m : mem A) a,
  Forall (fun w => apart (target w) a) ws ->
  contents (do_writes m ws) a = contents m a.
Proof.
  induction ws as [|w ws IH]; intros m a HF; cbn; auto. inversion HF; subst.
  unfold do_writes in IH. rewrite IH; auto. apply do_write_other; auto.
Qed.
Lemma do_writes_attrs ws : forall (m : mem A),
  o_imfs (do_writes m ws) = o_imfs m /\ o_residue (do_writes m ws) = o_residue m.
Proof.
  induction ws as [|w ws IH]; intros m; cbn; auto.
  destruct (IH (do_write m w)) as (E1 & E2). unfold do_writes in *. rewrite E1, E2. apply do_write_attrs.
Qed.

(** ** The accessors *)
Lemma trend_hframe (m : mem A) : hframe m (snd (imfs_and_trend_h m)).
Proof.
  unfold imfs_and_trend_h, imfs_and_residue_h, mbind at 1.
  destruct (o_imfs m) as [i|]; [|apply hframe_refl].
  destruct (o_residue m) as [r|]; [|apply hframe_refl].
  unfold mbind at 1, load_vec at 1. destruct (contents m r) as [[rv|]|]; try apply hframe_refl.
  destruct (allclose0 rv); [|apply hframe_refl].
  unfold mbind at 1, load_mat at 1. destruct (contents m i) as [[|Mv]|]; try apply hframe_refl.
  rewrite mbind_alloc. destruct (py_get Mv (-1)) as [x|e].
  - rewrite (mbind_lift_ok _ _ _ _ eq_refl), mbind_alloc. cbn [ret snd].
    eapply hframe_trans; apply hframe_grow.
  - cbn. apply hframe_grow.
Qed.

Lemma trend_h_spec (m : mem A) i d Mv rv :
  o_imfs m = Some i -> o_residue m = Some d ->
  contents m i = Some (Mat Mv) -> contents m d = Some (Vec rv) ->
  match get_imfs_and_trend (MkState (Some Mv) (Some rv)) with
  | Raise e => fst (imfs_and_trend_h m) = Raise e
  | Ok (Mt, t) => exists m' a b, imfs_and_trend_h m = (Ok (a, b), m') /\ untouched m m' /\
      o_imfs m' = Some i /\ o_residue m' = Some d /\
      contents m' a = Some (Mat Mt) /\ contents m' b = Some (Vec t) /\
      if allclose0 rv then created m m' a /\ created m m' b /\ apart a b
      else a = i /\ b = d
  end.
Proof.
  intros Ei Ed Ci Cd. unfold get_imfs_and_trend, get_imfs_and_residue. cbn [st_imfs st_residue bind].
  assert (E0 : imfs_and_residue_h m = (Ok (i, d), m)) by (unfold imfs_and_residue_h; rewrite Ei, Ed; reflexivity).
  unfold imfs_and_trend_h. rewrite (mbind_ok _ _ _ _ _ E0), (mbind_load_vec _ _ _ rv Cd).
  destruct (allclose0 rv) eqn:EA.
  - rewrite (mbind_load_mat _ _ _ Mv Ci), mbind_alloc.
    destruct (py_get Mv (-1)) as [x|e]; cbn [bind]; [|reflexivity].
    rewrite (mbind_lift_ok _ _ _ _ eq_refl), mbind_alloc.
    set (m1 := grow m (Mat (py_slice Mv 0 (-1)))). set (m2 := grow m1 (Vec x)).
    exists m2, (MkArr (length (heap m)) Whole), (MkArr (length (heap m1)) Whole).
    assert (F : hframe m m2) by (eapply hframe_trans; apply hframe_grow).
    split; [reflexivity|]. split; [apply hframe_untouched; auto|].
    split; [auto|]. split; [auto|].
    split; [apply at_contents, at_grow_old, at_grow|]. split; [apply at_contents, at_grow|].
    unfold created, live, apart, m2, m1; cbn. rewrite !app_length; cbn. lia.
  - exists m, i, d. repeat split; auto.
Qed.

(** ** Any continuation of the program *)
Lemma perform_hframe fuel c (m : mem A) o :
  match o with Assign _ => True | _ => hframe m (perform spl fuel c m o) end.
Proof.
  destruct o; cbn; auto. apply emd_h_hframe. apply hframe_refl. apply trend_hframe.
Qed.

Lemma perform_other fuel c (m : mem A) o a :
  live m a -> ~ assigns_into a o ->
  live (perform spl fuel c m o) a /\ contents (perform spl fuel c m o) a = contents m a.
Proof.
  intros La Hn. pose proof (perform_hframe fuel c m o) as F.
  destruct o; try solve [split; [eapply hframe_live; eauto|apply hframe_untouched; auto]].
  cbn [perform assigns_into] in *. split. { unfold live in *. rewrite do_write_length. auto. }
  exact (do_write_other m w a Hn).
Qed.

Lemma performs_other fuel c os : forall (m : mem A) a,
  live m a -> Forall (fun o => ~ assigns_into a o) os ->
  contents (fold_left (perform spl fuel c) os m) a = contents m a.
Proof.
  induction os as [|o os IH]; intros m a La HF; cbn [fold_left]; auto.
  inversion HF as [|? ? Ho Hos]; subst.
  destruct (perform_other fuel c m o a La Ho) as (L1 & E1). rewrite IH; auto.
Qed.

(** ** EMD.emd seen by its caller *)
Lemma emd_call_ok fuel c cS cT S T s t k m o :
  contents m S = Some (Vec s) -> shows m T t -> emd spl fuel c s t k = Ok o ->
  exists m' r i d,
    emd_h spl fuel c cS cT S T k m = (Ok r, m') /\
    fst (imfs_and_residue_h m') = Ok (i, d) /\
    contents m' r = Some (Mat (out o)) /\
    contents m' i = Some (Mat (imfs o)) /\ contents m' d = Some (Vec (residue o)) /\
    untouched m m' /\
    created m m' r /\ created m m' i /\ created m m' d /\ apart r i /\ apart r d /\ apart i d.
Proof.
  intros HS HT E. pose proof (emd_h_spec spl fuel c cS cT S T s t k m HS HT) as X.
  rewrite E in X. cbn [emd_effect] in X.
  destruct X as (m' & r & i & d & R & F & Oi & Od & X). exists m', r, i, d.
  split; auto. split. { unfold imfs_and_residue_h. rewrite Oi, Od. reflexivity. }
  apply hframe_untouched in F. tauto.
Qed.

Lemma emd_call_raise fuel c cS cT S T s t k m e :
  contents m S = Some (Vec s) -> shows m T t -> emd spl fuel c s t k = Raise e ->
  exists m', emd_h spl fuel c cS cT S T k m = (Raise e, m') /\ untouched m m' /\
    fst (imfs_and_residue_h m') = fst (imfs_and_residue_h m).
Proof.
  intros HS HT E. pose proof (emd_h_spec spl fuel c cS cT S T s t k m HS HT) as X.
  rewrite E in X. cbn [emd_effect] in X.
  destruct X as (m' & R & F & Oi & Od). exists m'. split; auto.
  split. { apply hframe_untouched; auto. }
  unfold imfs_and_residue_h. cbn. rewrite Oi, Od. reflexivity.
Qed.

Lemma later_writes_stored fuel c cS cT S T s t k m o m' r ws :
  contents m S = Some (Vec s) -> shows m T t -> emd spl fuel c s t k = Ok o ->
  emd_h spl fuel c cS cT S T k m = (Ok r, m') ->
  Forall (fun w => ~ apart (target w) r \/ live m (target w)) ws ->
  exists i d, imfs_and_residue_h (do_writes m' ws) = (Ok (i, d), do_writes m' ws) /\
    contents (do_writes m' ws) i = Some (Mat (imfs o)) /\
    contents (do_writes m' ws) d = Some (Vec (residue o)).
Proof.
  intros HS HT E R HW.
  destruct (emd_call_ok fuel c cS cT S T s t k m o HS HT E)
    as (m1 & r1 & i & d & R1 & G & Cr & Ci & Cd & _ & (Nr & Lr) & (Ni & Li) & (Nd & Ld) & Ai & Ad & _).
  rewrite R in R1. injection R1 as <- <-. exists i, d.
  assert (Ap : forall x, ~ live m x -> apart r x -> Forall (fun w => apart (target w) x) ws).
  { intros x Nx Ax. eapply Forall_impl; [|exact HW]. cbn. unfold apart, live in *.
    intros w [Q|Q] Eq; [apply Q; congruence|rewrite Eq in Q; auto]. }
  rewrite !do_writes_other by (apply Ap; auto). split; auto.
  unfold imfs_and_residue_h in *. cbn [fst] in G.
  destruct (do_writes_attrs ws m') as (-> & ->).
  destruct (o_imfs m'), (o_residue m'); try discriminate. injection G as -> ->. reflexivity.
Qed.

Lemma later_writes_inputs fuel c cS cT S T s t k m o m' r ws a :
  contents m S = Some (Vec s) -> shows m T t -> emd spl fuel c s t k = Ok o ->
  emd_h spl fuel c cS cT S T k m = (Ok r, m') ->
  Forall (fun w => ~ apart (target w) r) ws -> live m a ->
  contents (do_writes m' ws) a = contents m a.
Proof.
  intros HS HT E R HW La.
  destruct (emd_call_ok fuel c cS cT S T s t k m o HS HT E)
    as (m1 & r1 & i & d & R1 & G & Cr & Ci & Cd & U & (Nr & Lr) & _).
  rewrite R in R1. injection R1 as <- <-.
  rewrite do_writes_other; [apply U; auto|].
  eapply Forall_impl; [|exact HW]. cbn. unfold apart, live in *.
  intros w Q Eq. apply Q. intros Eq'. apply Nr. rewrite <- Eq', Eq. auto.
Qed.

Lemma handed_out_imfs (m : mem A) i d Mv p j y :
  fst (imfs_and_residue_h m) = Ok (i, d) -> contents m i = Some (Mat Mv) -> shown i = Whole ->
  let m' := do_write m (MkWrite i p j y) in
  fst (imfs_and_residue_h m') = Ok (i, d) /\
  contents m' i = Some (Mat (set_nth Mv p (set_nth (nth p Mv []) j y))).
Proof.
  intros G C W m'. split.
  { unfold m', imfs_and_residue_h in *. cbn [fst] in *. destruct (do_write_attrs m (MkWrite i p j y)) as (-> & ->). exact G. }
  pose proof (contents_live _ _ _ C) as L. unfold contents in C. rewrite W in C.
  destruct (nth_error (heap m) (base i)) as [x|] eqn:Ex; [|discriminate].
  assert (x = Mat Mv) by (destruct x; congruence). subst x.
  unfold m', do_write. cbn [target]. rewrite Ex. unfold contents. cbn.
  rewrite nth_error_set_eq by exact L. rewrite W. reflexivity.
Qed.

Lemma emd_handed_out fuel c cS cT S T s t k m o m' r p j y :
  contents m S = Some (Vec s) -> shows m T t -> emd spl fuel c s t k = Ok o ->
  emd_h spl fuel c cS cT S T k m = (Ok r, m') ->
  exists i d, fst (imfs_and_residue_h m') = Ok (i, d) /\
    let m'' := do_write m' (MkWrite i p j y) in
    fst (imfs_and_residue_h m'') = Ok (i, d) /\
    contents m'' i = Some (Mat (set_nth (imfs o) p (set_nth (nth p (imfs o) []) j y))) /\
    contents m'' r = contents m' r.
Proof.
  intros HS HT E R. pose proof (emd_h_spec spl fuel c cS cT S T s t k m HS HT) as X.
  rewrite E in X. cbn [emd_effect] in X.
  destruct X as (m1 & r1 & i & d & R1 & _ & Oi & Od & Cr & Ci & Cd & _ & _ & _ & Ai & _ & _ & Wi & _).
  rewrite R in R1. injection R1 as <- <-. exists i, d.
  assert (G : fst (imfs_and_residue_h m') = Ok (i, d)) by (unfold imfs_and_residue_h; rewrite Oi, Od; reflexivity).
  split; auto. destruct (handed_out_imfs m' i d (imfs o) p j y G Ci Wi) as (G1 & G2).
  split; auto. split; auto. apply do_write_other. cbn. unfold apart in *. auto.
Qed.
End HeapClient.
