(** * ImageUnit: EMD2D in another unit. *)
From Verif Require Import Py PyFacts QcFacts Spec SymSpec Image EmdSym ImageSpec EmdExact ImageProofs ImageSift.
From Coq Require Import ZifyBool ZifyNat QArith Qcanon Lia.
Open Scope Z_scope.

(** Decompositions of the same scaled image that are compared with different images when deciding
    to stop: one is the beginning of the other. *)
Lemma modes2_prefix sift xs m : forall fuel fuel' img img' IMF R R',
  modes2 sift fuel img xs m IMF = Ok R -> modes2 sift fuel' img' xs m IMF = Ok R' ->
  exists t, R' = R ++ t \/ R = R' ++ t.
Proof.
  induction fuel as [|fuel IH]; intros fuel' img img' IMF R R'; [discriminate|].
  destruct fuel' as [|fuel']; [intros _; discriminate|]. cbn [modes2].
  destruct (sift (isub xs (isum xs IMF))) as [[y b]|]; [|discriminate]. cbn [bind].
  assert (EXT : forall f img R, modes2 sift f img xs m (IMF ++ [y]) = Ok R -> exists t, R = (IMF ++ [y]) ++ t).
  { clear. intros f. generalize (IMF ++ [y]). clear. induction f as [|f IH]; intros I img R; [discriminate|]. cbn [modes2].
    destruct (sift (isub xs (isum xs I))) as [[y b]|]; [|discriminate]. cbn [bind].
    destruct (_ || _); [intros E; apply ok_inv in E; subst; eauto|]. destruct b.
    - intros E. apply IH in E. destruct E as (t & ->). exists ([y] ++ t). rewrite app_assoc. reflexivity.
    - intros E. apply ok_inv in E. subst. eauto. }
  destruct (iallclose rtol_default img _ || _); destruct (iallclose rtol_default img' _ || _); destruct b; intros E E'.
  all: repeat match goal with H : Ok _ = Ok _ |- _ => apply ok_inv in H; subst end.
  all: try (exists []; left; rewrite app_nil_r; reflexivity).
  - apply EXT in E'. destruct E' as (t & ->). exists t. auto.
  - apply EXT in E. destruct E as (t & ->). exists t. auto.
  - eapply IH; eauto.
Qed.
Lemma modes2_one sift xs fuel img R : modes2 sift fuel img xs 1 [] = Ok R -> length R = 1%nat.
Proof.
  destruct fuel as [|fuel]; [discriminate|]. cbn [modes2]. destruct (sift _) as [[y b]|]; [|discriminate]. cbn [bind app].
  rewrite orb_true_r. intros E. apply ok_inv in E. subst. reflexivity.
Qed.
Lemma modes2_nonempty sift xs m fuel img I R : modes2 sift fuel img xs m I = Ok R -> R <> [].
Proof.
  revert I. induction fuel as [|f IH]; intros I; [discriminate|]. cbn [modes2].
  destruct (sift (isub xs (isum xs I))) as [[y b]|]; [|discriminate]. cbn [bind].
  destruct (_ || _); [intros E; apply ok_inv in E; subst; destruct I; discriminate|]. destruct b; [apply IH|].
  intros E; apply ok_inv in E; subst; destruct I; discriminate.
Qed.

Section Unit.
Context (k a : Qc) (Hk : (0 < k)%Qc).
Definition recolour : img -> img := imap (fun y => k * y + a)%Qc.

Lemma Kn : k <> 0%Qc.
Proof. intros E. rewrite E in Hk. qclra. Qed.
Lemma max_re l mx : np_max l = Ok mx -> np_max (map (fun y => k * y + a)%Qc l) = Ok (k * mx + a)%Qc.
Proof.
  destruct l as [|x l]; [discriminate|]. cbn [map]. rewrite !np_max_qc. intros E. apply ok_inv in E. subst mx. f_equal. revert x.
  induction l as [|y l IH]; intros x; [reflexivity|]. cbn [map fold_left].
  assert (E : nltb (k * x + a)%Qc (k * y + a)%Qc = nltb x y).
  { cbn [nltb QcNum]. apply bool_iff. rewrite !Qc_ltb_lt. split; intros H.
    - apply (mul_lt_pos k Kn x y Hk). revert H. generalize (k * x)%Qc (k * y)%Qc. intros. qclra.
    - apply (mul_lt_pos k Kn x y Hk) in H. revert H. generalize (k * x)%Qc (k * y)%Qc. intros. qclra. }
  rewrite E. destruct (nltb x y); apply IH.
Qed.
Lemma min_re l mn : np_min l = Ok mn -> np_min (map (fun y => k * y + a)%Qc l) = Ok (k * mn + a)%Qc.
Proof.
  destruct l as [|x l]; [discriminate|]. cbn [map]. rewrite !np_min_qc. intros E. apply ok_inv in E. subst mn. f_equal. revert x.
  induction l as [|y l IH]; intros x; [reflexivity|]. cbn [map fold_left].
  assert (E : nltb (k * y + a)%Qc (k * x + a)%Qc = nltb y x).
  { cbn [nltb QcNum]. apply bool_iff. rewrite !Qc_ltb_lt. split; intros H.
    - apply (mul_lt_pos k Kn y x Hk). revert H. generalize (k * x)%Qc (k * y)%Qc. intros. qclra.
    - apply (mul_lt_pos k Kn y x Hk) in H. revert H. generalize (k * x)%Qc (k * y)%Qc. intros. qclra. }
  rewrite E. destruct (nltb y x); apply IH.
Qed.
Lemma zeros_re x : izeros (recolour x) = izeros x.
Proof. unfold izeros, recolour, imap. rewrite map_map. apply map_ext. intros r. rewrite map_map. reflexivity. Qed.

(** The rows after rescaling by [s] and offset [b]. *)
Definition finish (xs : img) (s b : Qc) (comps : list img) : list img :=
  on_last (imap (fun y => nadd y b)) (map (imap (fun y => nmul y s)) (with_residue xs comps)).
Lemma imap_imap (f h : Qc -> Qc) x : imap f (imap h x) = imap (fun y => f (h y)) x.
Proof. unfold imap. rewrite map_map. apply map_ext. intros r. apply map_map. Qed.
Lemma imap_ext (f h : Qc -> Qc) x : (forall y, f y = h y) -> imap f x = imap h x.
Proof. intros H. unfold imap. apply map_ext. intros r. apply map_ext. exact H. Qed.
Lemma finish_re xs s b comps : with_residue xs comps <> [] ->
  exists l z, finish xs s b comps = l ++ [z] /\ finish xs (k * s)%Qc (k * b + a)%Qc comps = map (imap (Qcmult k)) l ++ [recolour z].
Proof.
  intros NE. destruct (exists_last NE) as (l & z & E). unfold finish. rewrite E, !map_app. cbn [map]. rewrite !on_last_snoc.
  eexists _, _. split; [reflexivity|]. f_equal.
  - rewrite map_map. apply map_ext. intros x. rewrite imap_imap. apply imap_ext. intros y. num_qc. ring.
  - f_equal. unfold recolour. rewrite !imap_imap. apply imap_ext. intros y. num_qc. ring.
Qed.
Lemma finish_nth xs s b comps i : (i < length comps)%nat -> (S i < length (with_residue xs comps))%nat ->
  nth i (finish xs s b comps) [] = imap (fun y => nmul y s) (nth i comps []).
Proof.
  intros Hi HL. assert (NE : with_residue xs comps <> []) by (intros E; rewrite E in HL; cbn in HL; lia).
  destruct (exists_last NE) as (l & z & E). unfold finish. rewrite E, map_app. cbn [map]. rewrite on_last_snoc.
  rewrite E, app_length in HL. cbn [length] in HL. rewrite app_nth1 by (rewrite map_length; lia).
  change (@nil (list Qc)) with (imap (fun y => nmul y s) []) at 1. rewrite map_nth. f_equal.
  unfold with_residue in E. destruct (forallb _ _).
  - subst comps. rewrite app_nth1 by lia. reflexivity.
  - apply app_inj_tail in E as [-> _]. reflexivity.
Qed.
Lemma finish_length xs s b comps : with_residue xs comps <> [] -> length (finish xs s b comps) = length (with_residue xs comps).
Proof.
  intros NE. destruct (exists_last NE) as (l & z & E). unfold finish. rewrite E, map_app. cbn [map]. rewrite on_last_snoc.
  rewrite !app_length, map_length. reflexivity.
Qed.
Lemma with_residue_nonempty xs (comps : list img) : comps <> [] -> with_residue xs comps <> [].
Proof. unfold with_residue. destruct (forallb _ _); auto. intros H. destruct comps; discriminate. Qed.
Lemma with_residue_le xs (comps : list img) i : (S i < length (with_residue xs comps))%nat -> (i < length comps)%nat.
Proof. unfold with_residue. destruct (forallb _ _); [lia|]. rewrite app_length. cbn. lia. Qed.

Lemma emd2d_parts sbs c fuel image m rows : emd2d sbs c fuel image m = Ok rows ->
  exists lo hi comps, let xs := imap (fun y => ndiv (nsub y lo) (nsub hi lo)) image in
    np_min (concat image) = Ok lo /\ np_max (concat image) = Ok hi /\ (hi - lo)%Qc <> 0%Qc /\
    modes2 (fun r => sift2 sbs c (Z.to_nat (MAX_ITERATION2 c)) 0 0 r (izeros image)) fuel image xs m [] = Ok comps /\
    rows = finish xs (hi - lo)%Qc lo comps.
Proof.
  unfold emd2d. intros E. apply bind_ok in E as (lo & E1 & E). apply bind_ok in E as (hi & E2 & E). cbv zeta in E.
  destruct (neqb (nsub hi lo) n0) eqn:EZ; [discriminate|]. apply bind_ok in E as (comps & E3 & E). apply ok_inv in E.
  exists lo, hi, comps. cbv zeta. split; auto. split; auto. split; [intros Z; num_qc; apply Qc_eqb_neq in EZ; contradiction|].
  split; auto.
Qed.
Lemma concat_re x : concat (recolour x) = map (fun y => k * y + a)%Qc (concat x).
Proof. unfold recolour, imap. symmetry. apply concat_map. Qed.

Theorem emd2d_unit sbs c fuel fuel' image m rows rows' :
  emd2d sbs c fuel image m = Ok rows -> emd2d sbs c fuel' (recolour image) m = Ok rows' ->
  (forall i, (S i < length rows)%nat -> (S i < length rows')%nat -> nth i rows' [] = imap (Qcmult k) (nth i rows [])) /\
  (m = 1 -> exists l z, rows = l ++ [z] /\ rows' = map (imap (Qcmult k)) l ++ [recolour z]).
Proof.
  intros E E'. apply emd2d_parts in E as (lo & hi & comps & E1 & E2 & EZ & E3 & ->). apply emd2d_parts in E' as (lo' & hi' & comps' & E1' & E2' & EZ' & E3' & ->).
  rewrite concat_re in E1', E2'. rewrite (min_re _ _ E1) in E1'. rewrite (max_re _ _ E2) in E2'. apply ok_inv in E1', E2'. subst lo' hi'.
  pose proof Kn as Kn.
  assert (EX : imap (fun y => ndiv (nsub y (k * lo + a)%Qc) (nsub (k * hi + a)%Qc (k * lo + a)%Qc)) (recolour image) =
               imap (fun y => ndiv (nsub y lo) (nsub hi lo)) image).
  { unfold recolour. rewrite imap_imap. apply imap_ext. intros y. num_qc.
    replace (k * hi + a - (k * lo + a))%Qc with (k * (hi - lo))%Qc by ring. field. split; auto. }
  rewrite EX in *. clear EX. rewrite zeros_re in E3'. set (xs := imap _ image) in *.
  pose proof (modes2_nonempty _ _ _ _ _ _ _ E3) as NE. pose proof (modes2_nonempty _ _ _ _ _ _ _ E3') as NE'.
  pose proof (with_residue_nonempty xs _ NE) as NW. pose proof (with_residue_nonempty xs _ NE') as NW'.
  replace (k * hi + a - (k * lo + a))%Qc with (k * (hi - lo))%Qc by ring. split.
  - intros i Hi Hi'. rewrite finish_length in Hi, Hi' by auto. rewrite !finish_nth by (auto; eapply with_residue_le; eauto).
    assert (EN : nth i comps' [] = nth i comps []).
    { pose proof (with_residue_le _ _ _ Hi). pose proof (with_residue_le _ _ _ Hi').
      destruct (modes2_prefix _ _ _ _ _ _ _ _ _ _ E3 E3') as (t & [->| ->]); [rewrite app_nth1 by lia|rewrite app_nth1 by lia]; reflexivity. }
    rewrite EN, imap_imap. apply imap_ext. intros y. num_qc. ring.
  - intros ->. pose proof (modes2_one _ _ _ _ _ E3) as L. pose proof (modes2_one _ _ _ _ _ E3') as L'.
    assert (EC : comps' = comps).
    { destruct (modes2_prefix _ _ _ _ _ _ _ _ _ _ E3 E3') as (t & [->| ->]); rewrite app_length in *; destruct t; cbn [length] in *;
        rewrite ?app_nil_r; auto; lia. }
    subst comps'. apply finish_re. auto.
Qed.
End Unit.
