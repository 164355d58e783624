(** * IntExtrema: extrema detection on arrays of machine integers. *)
From Verif Require Import Py PyFacts QcFacts Extrema Spec ExtremaProofs ExtremaSpec Utils UtilsSpec Float64Proofs Typed TypedSpec TypedProofs.
From Coq Require Import QArith Qcanon Lia.
Open Scope Z_scope.

Section Signed.
Context (d : dtype) (Hd : is_integer d).
#[local] Instance ZN : Num Z := IntNum d.

Lemma wrap0 : wrap d 0 = 0.
Proof. apply wrap_fits; auto. pose proof (int_bounds d Hd). unfold fits. lia. Qed.
Lemma lt0 (a : Z) : nltb a n0 = nltb (Qc_ofZ a) n0.
Proof.
  unfold n0. cbn [nltb nofZ ZN IntNum]. rewrite wrap0. num_qc. cbn [nltb QcNum].
  destruct (Z.ltb_spec a 0) as [H|H]; symmetry.
  - apply Qc_ltb_lt. apply Qc_ofZ_lt. auto.
  - apply Qc_ltb_ge. apply Qc_ofZ_le. auto.
Qed.
Lemma gt0 (a : Z) : nltb n0 a = nltb n0 (Qc_ofZ a).
Proof.
  unfold n0. cbn [nltb nofZ ZN IntNum]. rewrite wrap0. num_qc. cbn [nltb QcNum].
  destruct (Z.ltb_spec 0 a) as [H|H]; symmetry.
  - apply Qc_ltb_lt. apply Qc_ofZ_lt. auto.
  - apply Qc_ltb_ge. apply Qc_ofZ_le. auto.
Qed.
Lemma eq0 (a : Z) : is0 a = is0 (Qc_ofZ a).
Proof.
  unfold is0, n0. cbn [neqb nofZ ZN IntNum]. rewrite wrap0. num_qc.
  destruct (Z.eqb_spec a 0) as [H|H]; symmetry.
  - apply Qc_eqb_eq. rewrite H. reflexivity.
  - apply Qc_eqb_neq. change (Q2Qc 0) with (Qc_ofZ 0). intros E. apply Qc_ofZ_inj in E. auto.
Qed.
Lemma mul0 (a b : Z) : fits d (a * b) -> nltb (nmul a b) n0 = nltb (nmul (Qc_ofZ a) (Qc_ofZ b)) n0.
Proof.
  intros Hf. cbn [nmul ZN IntNum]. rewrite wrap_fits by auto. rewrite lt0. num_qc. rewrite Qc_ofZ_mul. reflexivity.
Qed.

(** Neighbouring elements. *)
Fixpoint pairs (l : list Z) : list (Z * Z) :=
  match l with x :: ((y :: _) as l') => (x, y) :: pairs l' | _ => [] end.
Lemma adj_of_Z {B} (f : Z -> Z -> B) (g : Qc -> Qc -> B) (l : list Z) :
  (forall a b, In (a, b) (pairs l) -> f a b = g (Qc_ofZ a) (Qc_ofZ b)) -> adj f l = adj g (map Qc_ofZ l).
Proof.
  unfold adj. induction l as [|x l IH]; intros H; [reflexivity|]. destruct l as [|y l]; [reflexivity|].
  cbn [map tl map2] in *. rewrite IH by (intros; apply H; right; auto). f_equal. apply H. left. reflexivity.
Qed.
Lemma pairs_at l a b : In (a, b) (pairs l) -> exists i, 0 <= i < zlen l - 1 /\ a = nth (Z.to_nat i) l 0 /\ b = nth (Z.to_nat (i + 1)) l 0.
Proof.
  induction l as [|x l IH]; [intros []|]. destruct l as [|y l]; [intros []|]. intros [E|H].
  - injection E as <- <-. exists 0. unfold zlen. cbn [length]. split; [lia|]. split; reflexivity.
  - destruct (IH H) as (i & Hi & Ha & Hb). exists (i + 1). unfold zlen in *. cbn [length] in *. split; [lia|].
    replace (Z.to_nat (i + 1 + 1)) with (Datatypes.S (Z.to_nat (i + 1))) by lia.
    replace (Z.to_nat (i + 1)) with (Datatypes.S (Z.to_nat i)) in * by lia. split; [exact Ha|exact Hb].
Qed.
Lemma zdiff_length l : length (zdiff l) = (length l - 1)%nat.
Proof. unfold zdiff, adj. induction l as [|x l IH]; [reflexivity|]. destruct l as [|y l]; [reflexivity|]. cbn [tl map2 length] in *. rewrite IH. lia. Qed.
Lemma zdiff_nth l i : (Datatypes.S i < length l)%nat -> nth i (zdiff l) 0 = nth (Datatypes.S i) l 0 - nth i l 0.
Proof.
  unfold zdiff, adj. revert i. induction l as [|x l IH]; cbn [length]; intros i Hi; [lia|].
  destruct l as [|y l]; cbn [length] in *; [lia|]. destruct i as [|i]; [reflexivity|]. cbn [tl map2].
  transitivity (nth i (map2 (fun a b : Z => b - a) (y :: l) (tl (y :: l))) 0); [reflexivity|].
  rewrite IH by lia. reflexivity.
Qed.

Section Signal.
Context (S : list Z).
Notation s i := (nth (Z.to_nat i) S 0).
Hypothesis (HD : forall i, 0 <= i < zlen S - 1 -> fits d (s (i + 1) - s i)).

Lemma diff_int : ndiff S = zdiff S.
Proof.
  revert HD. unfold ndiff, zdiff, adj, zlen. clear -Hd. induction S as [|x l IH]; intros HD; [reflexivity|].
  destruct l as [|y l]; [reflexivity|]. cbn [tl map2] in *. f_equal.
  - cbn [nsub ZN IntNum]. apply wrap_fits; auto. apply (HD 0). cbn [length]. lia.
  - apply IH. intros j Hj. specialize (HD (j + 1)). cbn [length] in *.
    replace (Z.to_nat (j + 1 + 1)) with (Datatypes.S (Z.to_nat (j + 1))) in HD by lia.
    replace (Z.to_nat (j + 1)) with (Datatypes.S (Z.to_nat j)) in * by lia. apply HD. lia.
Qed.
Lemma diff_Qc : ndiff (map Qc_ofZ S) = map Qc_ofZ (zdiff S).
Proof.
  unfold ndiff, zdiff, adj. clear HD. induction S as [|x l IH]; [reflexivity|]. destruct l as [|y l]; [reflexivity|].
  cbn [map tl map2] in *. rewrite IH. num_qc. rewrite Qc_ofZ_sub. reflexivity.
Qed.
Hypothesis (HM : forall i, 0 <= i < zlen S - 2 -> fits d ((s (i + 1) - s i) * (s (i + 2) - s (i + 1)))).

Lemma diff_pairs a b : In (a, b) (pairs (zdiff S)) -> fits d (a * b).
Proof.
  intros H. destruct (pairs_at _ _ _ H) as (i & Hi & -> & ->). unfold zlen in *. rewrite zdiff_length in Hi.
  rewrite !zdiff_nth by lia. specialize (HM i ltac:(lia)).
  replace (Datatypes.S (Z.to_nat i)) with (Z.to_nat (i + 1)) by lia.
  replace (Datatypes.S (Z.to_nat (i + 1))) with (Z.to_nat (i + 2)) by lia. exact HM.
Qed.
Lemma idx_int : extrema_idx S = extrema_idx (map Qc_ofZ S).
Proof.
  unfold extrema_idx. cbv zeta. rewrite diff_int, diff_Qc.
  assert (E1 : strict_min_idx (zdiff S) = strict_min_idx (map Qc_ofZ (zdiff S))).
  { unfold strict_min_idx. f_equal. f_equal. apply adj_of_Z. intros a b H. rewrite (mul0 a b), (lt0 a) by (apply diff_pairs; auto). reflexivity. }
  assert (E2 : strict_max_idx (zdiff S) = strict_max_idx (map Qc_ofZ (zdiff S))).
  { unfold strict_max_idx. f_equal. f_equal. apply adj_of_Z. intros a b H. rewrite (mul0 a b), (gt0 a) by (apply diff_pairs; auto). reflexivity. }
  assert (E3 : map is0 (zdiff S) = map is0 (map Qc_ofZ (zdiff S))).
  { rewrite map_map. apply map_ext. intros a. apply eq0. }
  assert (EL : zlen S = zlen (map Qc_ofZ S)) by (unfold zlen; rewrite map_length; reflexivity).
  rewrite E1, E2, E3, <- EL. destruct (existsb _ _); [|reflexivity].
  destruct (drop_last_run _ _) as [|r rs]; [reflexivity|]. set (runs := r :: rs).
  set (R := fun (a : Z) (b : Qc) => b = Qc_ofZ a).
  assert (HF : Forall2 R (zdiff S) (map Qc_ofZ (zdiff S))).
  { clear. induction (zdiff S); constructor; auto. reflexivity. }
  pose proof (take_like R _ _ (map (fun r => fst r - 1) runs) HF) as G1.
  destruct (py_take (zdiff S) _) as [b|], (py_take (map Qc_ofZ (zdiff S)) _) as [b'|]; try contradiction; cbn [bind]; [|congruence].
  pose proof (take_like R _ _ (map snd runs) HF) as G2.
  destruct (py_take (zdiff S) _) as [a|], (py_take (map Qc_ofZ (zdiff S)) _) as [a'|]; try contradiction; cbn [bind]; [|congruence].
  assert (M1 : map2 (fun b a : Z => nltb n0 b && nltb a n0) b a = map2 (fun b a : Qc => nltb n0 b && nltb a n0) b' a').
  { apply (map2_like R); auto. unfold R. intros x y u v -> ->. rewrite (gt0 x), (lt0 u). reflexivity. }
  assert (M2 : map2 (fun b a : Z => nltb b n0 && nltb n0 a) b a = map2 (fun b a : Qc => nltb b n0 && nltb n0 a) b' a').
  { apply (map2_like R); auto. unfold R. intros x y u v -> ->. rewrite (lt0 x), (gt0 u). reflexivity. }
  rewrite M1, M2. reflexivity.
Qed.
End Signal.

Lemma crossings_int (S : list Z) :
  (forall i, 0 <= i < zlen S - 1 -> fits d (nth (Z.to_nat i) S 0 * nth (Z.to_nat (i + 1)) S 0)) ->
  zero_crossings S = zero_crossings (map Qc_ofZ S).
Proof.
  intros HP. unfold zero_crossings. cbv zeta.
  assert (E1 : adj (fun a b : Z => nltb (nmul a b) n0) S = adj (fun a b : Qc => nltb (nmul a b) n0) (map Qc_ofZ S)).
  { apply adj_of_Z. intros a b H. apply mul0. destruct (pairs_at _ _ _ H) as (i & Hi & -> & ->). apply HP. auto. }
  assert (E2 : map is0 S = map is0 (map Qc_ofZ S)) by (rewrite map_map; apply map_ext; intros; apply eq0).
  rewrite E1, E2. reflexivity.
Qed.
End Signed.

Definition zat (l : list Z) (i : Z) : Z := nth (Z.to_nat i) l 0.
Lemma ztake_at (l : list Z) idx : (forall i, In i idx -> 0 <= i < zlen l) -> py_take l idx = Ok (map (zat l) idx).
Proof.
  intros Hi. unfold py_take. induction idx as [|i idx IH]; [reflexivity|]. cbn [mapM map].
  rewrite (py_get_nonneg l i 0) by (apply Hi; left; auto). cbn [bind]. rewrite IH by (intros; apply Hi; right; auto). reflexivity.
Qed.
Lemma int_extrema d (T S : list Z) : is_integer d -> length T = length S ->
  (forall i, 0 <= i < zlen S - 1 -> fits d (zat S (i + 1) - zat S i)) ->
  (forall i, 0 <= i < zlen S - 2 -> fits d ((zat S (i + 1) - zat S i) * (zat S (i + 2) - zat S (i + 1)))) ->
  exists e M m, find_extrema_ints d T S = Ok e /\
    max_pos e = map (zat T) M /\ max_val e = map (zat S) M /\
    min_pos e = map (zat T) m /\ min_val e = map (zat S) m /\
    zincreasing M /\ zincreasing m /\
    (forall i, In i M <-> reported_max (map Qc_ofZ S) i) /\ (forall i, In i m <-> reported_min (map Qc_ofZ S) i).
Proof.
  intros Hd HL HD HM. destruct (extrema_idx_spec (map Qc_ofZ S)) as (M & m & E & I1 & I2 & HMx & Hm).
  rewrite <- (idx_int d Hd S HD HM) in E.
  assert (RM : forall i, In i M -> 0 <= i < zlen S) by (intros i Hi; apply HMx, rep_range in Hi; unfold zlen in *; rewrite map_length in Hi; lia).
  assert (Rm : forall i, In i m -> 0 <= i < zlen S) by (intros i Hi; apply Hm, rep_range in Hi; unfold zlen in *; rewrite map_length in Hi; lia).
  assert (HT : zlen T = zlen S) by (unfold zlen; congruence).
  unfold find_extrema_ints, find_extrema, find_extrema_simple. unfold ZN in E. rewrite E. cbn [bind].
  rewrite !ztake_at by (rewrite ?HT; auto). cbn [bind].
  eexists. exists M, m. split; [reflexivity|]. cbn [max_pos max_val min_pos min_val indzer].
  repeat (split; [reflexivity || assumption|]). split; [intros i; rewrite HMx; apply rep_max_iff|].
  intros i; rewrite Hm; apply rep_min_iff.
Qed.
Lemma int_crossings d (T S : list Z) e : is_integer d ->
  (forall i, 0 <= i < zlen S - 1 -> fits d (zat S i * zat S (i + 1))) ->
  find_extrema_ints d T S = Ok e ->
  forall i, In i (indzer e) <->
    (0 <= i < zlen S - 1 /\ opposite (sample (map Qc_ofZ S) i) (sample (map Qc_ofZ S) (i + 1))) \/
    (exists a b, zero_run (map Qc_ofZ S) a b /\ rounded_mid a b i).
Proof.
  intros Hd HP. unfold find_extrema_ints, find_extrema, find_extrema_simple.
  destruct (extrema_idx S) as [[M m]|]; [|discriminate]. cbn [bind].
  destruct (py_take T M); [|discriminate]. cbn [bind]. destruct (py_take S M); [|discriminate]. cbn [bind].
  destruct (py_take T m); [|discriminate]. cbn [bind]. destruct (py_take S m); [|discriminate]. cbn [bind].
  intros E i. assert (Ei : indzer e = @zero_crossings Z (IntNum d) S) by (injection E as <-; reflexivity). rewrite Ei.
  pose proof (crossings_int d Hd S HP) as Hc. unfold ZN in Hc. rewrite Hc.
  destruct (zero_crossings_spec (map Qc_ofZ S)) as [_ H]. rewrite H.
  unfold zlen. rewrite map_length. reflexivity.
Qed.

(** ** Unsigned integers *)
Lemma adj_none (f : Z -> Z -> bool) l : (forall a b, f a b = false) -> nonzero (adj f l) = [].
Proof.
  intros Hf. unfold nonzero. generalize 0. unfold adj. induction l as [|x l IH]; intros k; [reflexivity|].
  destruct l as [|y l]; [reflexivity|]. cbn [tl map2 nonzero_from] in *. rewrite Hf. apply IH.
Qed.
Lemma map2_none (f : Z -> Z -> bool) l m : (forall a b, f a b = false) -> existsb (fun b => b) (map2 f l m) = false.
Proof. intros Hf. revert m. induction l as [|x l IH]; intros [|y m]; auto. cbn [map2 existsb]. rewrite Hf, IH. reflexivity. Qed.
Lemma wrap_unsigned d z : is_unsigned d -> 0 <= wrap d z.
Proof.
  unfold is_unsigned, wrap, store. destruct d; cbn [kind]; intros H; try contradiction; apply Z.mod_pos_bound; reflexivity.
Qed.
Lemma unsigned_int d : is_unsigned d -> is_integer d.
Proof. unfold is_unsigned, is_integer. destruct (kind d); tauto. Qed.
Lemma py_get_In {X} (l : list X) i x : py_get l i = Ok x -> In x l.
Proof.
  unfold py_get. cbv zeta. match goal with |- context [if ?b <? 0 then Raise _ else _] => destruct (b <? 0) end; [discriminate|].
  match goal with |- context [nth_error l ?k] => destruct (nth_error l k) eqn:E end; [|discriminate].
  intros H. injection H as <-. eapply nth_error_In; eauto.
Qed.
Lemma take_nonneg (l : list Z) idx r : Forall (fun x => 0 <= x) l -> py_take l idx = Ok r -> Forall (fun x => 0 <= x) r.
Proof.
  intros Hl. revert r. unfold py_take. induction idx as [|i idx IH]; cbn [mapM]; intros r E; [injection E as <-; constructor|].
  destruct (py_get l i) as [x|] eqn:Ex; [|discriminate]. cbn [bind] in E.
  destruct (mapM (py_get l) idx) as [xs|]; [|discriminate]. cbn [bind] in E. injection E as <-. constructor; auto.
  rewrite Forall_forall in Hl. apply Hl. eapply py_get_In; eauto.
Qed.
Lemma map2_after (f : Z -> Z -> bool) l m : Forall (fun x => 0 <= x) l -> Forall (fun x => 0 <= x) m ->
  (forall a b, 0 <= a -> 0 <= b -> f a b = false) -> existsb (fun b => b) (map2 f l m) = false.
Proof.
  intros Hl Hm Hf. revert m Hm. induction Hl; intros m Hm; [reflexivity|]. destruct Hm; [reflexivity|].
  cbn [map2 existsb]. rewrite Hf, IHHl by auto. reflexivity.
Qed.
Lemma unsigned_idx d (S : list Z) : is_unsigned d ->
  match @extrema_idx Z (IntNum d) S with Ok r => r = ([], []) | Raise _ => True end.
Proof.
  intros Hd. unfold extrema_idx. cbv zeta. set (df := ndiff S).
  assert (Hn : @n0 Z (IntNum d) = 0) by (unfold n0; cbn [nofZ IntNum]; apply wrap0, unsigned_int; auto).
  assert (Hm : forall a b : Z, @nltb Z (IntNum d) (@nmul Z (IntNum d) a b) (@n0 Z (IntNum d)) = false).
  { intros a b. rewrite Hn. cbn [nltb nmul IntNum]. apply Z.ltb_ge, wrap_unsigned; auto. }
  assert (Hdf : Forall (fun x => 0 <= x) df).
  { unfold df, ndiff, adj. clear -Hd. induction S as [|x l IH]; [constructor|]. destruct l as [|y l]; [constructor|].
    cbn [tl map2] in *. constructor; auto. cbn [nsub IntNum]. apply wrap_unsigned; auto. }
  assert (E1 : @strict_min_idx Z (IntNum d) df = []).
  { unfold strict_min_idx. rewrite adj_none; auto. intros a b. rewrite Hm. reflexivity. }
  assert (E2 : @strict_max_idx Z (IntNum d) df = []).
  { unfold strict_max_idx. rewrite adj_none; auto. intros a b. rewrite Hm. reflexivity. }
  rewrite E1, E2. destruct (existsb _ _); [|reflexivity]. destruct (drop_last_run _ _) as [|r rs]; [reflexivity|].
  set (runs := r :: rs). destruct (py_take df (map (fun r => fst r - 1) runs)) as [b|] eqn:Eb; [|exact I]. cbn [bind].
  destruct (py_take df (map snd runs)) as [a|] eqn:Ea; [|exact I]. cbn [bind].
  pose proof (take_nonneg _ _ _ Hdf Eb) as Pb. pose proof (take_nonneg _ _ _ Hdf Ea) as Pa.
  rewrite !map2_after; auto; intros x y Hx Hy; rewrite Hn; cbn [nltb IntNum].
  - destruct (Z.ltb_spec x 0); [lia|]. reflexivity.
  - destruct (Z.ltb_spec y 0); [lia|]. destruct (0 <? x); reflexivity.
Qed.
Lemma unsigned_blind d (T S : list Z) e : is_unsigned d -> find_extrema_ints d T S = Ok e ->
  max_pos e = [] /\ max_val e = [] /\ min_pos e = [] /\ min_val e = [].
Proof.
  intros Hd. unfold find_extrema_ints, find_extrema, find_extrema_simple. pose proof (unsigned_idx d S Hd) as H.
  destruct (extrema_idx S) as [r|]; [|discriminate]. rewrite H. cbn. intros E. injection E as <-. cbn. auto.
Qed.
