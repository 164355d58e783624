(** * C107: small changes in a signal. *)
From Verif Require Import PyFacts QcFacts Emd Spec Demo EmdProofs Kinds NearSpec NearProofs.
From Coq Require Import QArith Qcanon String List Lia.
Local Notation length := List.length.
Open Scope Z_scope.

(** A change of at most e in every sample keeps the order of samples that differ by more than 2 e. *)
Theorem C107_order : forall e x x', close e x x' -> separated e x -> same_shape x x'.
Proof. exact separated_shape. Qed.
Print Assumptions C107_order.

(** Signals of one shape have their extrema at the same places. *)
Theorem C107_extrema :
  forall x x' t e e', same_shape x x' -> length t = length x ->
  find_extrema Simple t x = Ok e -> find_extrema Simple t x' = Ok e' ->
  max_pos e = max_pos e' /\ min_pos e = min_pos e'.
Proof. exact shape_extrema. Qed.
Print Assumptions C107_extrema.

(** In particular, any increasing transformation of the amplitudes leaves the extrema where they are. *)
Theorem C107_monotone :
  forall (f : Qc -> Qc) x t e e', (forall u v, (u < v)%Qc -> (f u < f v)%Qc) -> length t = length x ->
  find_extrema Simple t x = Ok e -> find_extrema Simple t (map f x) = Ok e' ->
  max_pos e = max_pos e' /\ min_pos e = min_pos e'.
Proof.
  intros f x t e e' Hf Ht E E'. apply (shape_extrema x (map f x) t); auto. split; [symmetry; apply map_length|].
  intros i j (Hi & Hj & _).
  assert (S : forall k, 0 <= k < zlen x -> sample (map f x) k = f (sample x k)).
  { intros k Hk. unfold sample, zlen in *. rewrite (nth_indep _ 0%Qc (f 0%Qc)) by (rewrite map_length; lia). apply map_nth. }
  rewrite !S by auto. split; intros G; auto.
  destruct (Qclt_le_dec (sample x i) (sample x j)) as [Q|Q]; auto. exfalso.
  apply Qcle_lt_or_eq in Q as [Q|Q]; [apply Hf in Q; exact (Qclt_not_le _ _ G (Qclt_le_weak _ _ Q))|].
  rewrite Q in G. exact (Qclt_not_eq _ _ G eq_refl).
Qed.
Print Assumptions C107_monotone.

(** Zero crossings, in either mode, stay if no sample is within e of zero. *)
Theorem C107_zero_crossings :
  forall e0 x x' d t e e', close e0 x x' -> away e0 x -> length t = length x ->
  find_extrema d t x = Ok e -> find_extrema d t x' = Ok e' -> indzer e = indzer e'.
Proof. exact near_zeros. Qed.
Print Assumptions C107_zero_crossings.

(** One sift with straight-line envelopes at most doubles the distance of two signals of one shape. *)
Theorem C107_sift :
  forall e k c x x' y y', extrema_detection c = Simple -> 1 <= nbsym c ->
  k = Linear \/ k = Slinear -> parse_kind (spline_kind c) = Some k ->
  close e x x' -> same_shape x x' ->
  one_sift scipy_spl c (arange (length x)) x y -> one_sift scipy_spl c (arange (length x')) x' y' ->
  close (e + e)%Qc y y'.
Proof. exact sift_near. Qed.
Print Assumptions C107_sift.

(** So the first component under FIXE = n changes by at most 2^n e. *)
Theorem C107_first_component :
  forall k c n fuel fuel' e x x' mi mi' o o',
  extrema_detection c = Simple -> 1 <= nbsym c -> k = Linear \/ k = Slinear -> parse_kind (spline_kind c) = Some k ->
  FIXE c = Z.of_nat n -> (0 < n)%nat -> FIXE c < MAX_ITERATION c ->
  close e x x' -> robust c n e x ->
  emd scipy_spl fuel c x None mi = Ok o -> emd scipy_spl fuel' c x' None mi' = Ok o' ->
  imfs o <> [] -> imfs o' <> [] ->
  close (doubled n e) (nth 0 (imfs o) []) (nth 0 (imfs o') []).
Proof. exact first_near. Qed.
Print Assumptions C107_first_component.

(** And component j by at most [part_error n j e], where [part_error n 0 e] is 2^n e, and what is left
    after a component is off by the sum of its error and the error so far. *)
Theorem C107_component :
  forall k c n m fuel fuel' e x x' mi mi' o o' j,
  extrema_detection c = Simple -> 1 <= nbsym c -> k = Linear \/ k = Slinear -> parse_kind (spline_kind c) = Some k ->
  FIXE c = Z.of_nat n -> (0 < n)%nat -> FIXE c < MAX_ITERATION c ->
  close e x x' -> robust_parts c n m e x ->
  emd scipy_spl fuel c x None mi = Ok o -> emd scipy_spl fuel' c x' None mi' = Ok o' ->
  (j < m)%nat -> (j < length (imfs o))%nat -> (j < length (imfs o'))%nat ->
  close (part_error n j e) (nth j (imfs o) []) (nth j (imfs o') []).
Proof. exact component_near. Qed.
Print Assumptions C107_component.

(** In closed form: 2^n (2^n + 1)^j e. *)
Theorem C107_part_error :
  forall n j e, part_error n j e = (Qc_ofZ (2 ^ Z.of_nat n * (2 ^ Z.of_nat n + 1) ^ Z.of_nat j) * e)%Qc.
Proof. exact part_error_closed. Qed.
Print Assumptions C107_part_error.

(** ** Examples *)
Definition near_x : list Qc := qs [0; 3; -2; 4; -1; 5; -3; 2].
Definition hundredth : Qc := Q2Qc (1 # 100).
(** Alternately up and down by a hundredth. *)
Fixpoint shaken (e : Qc) (x : list Qc) : list Qc := match x with [] => [] | u :: x => (u + e)%Qc :: shaken (- e)%Qc x end.
Definition near_x' : list Qc := shaken hundredth near_x.
Definition near_cfg (n : Z) : emd_config Qc :=
  MkCfg (nlit 2 10) (nlit 1 1000) (nlit 2 10) (nlit 5 1000) (nlit 1 1000) 2 "linear" Simple n 0 4.

(** Finite checks. *)
Definition withinb (e u v : Qc) : bool := Qc_leb (v - e)%Qc u && Qc_leb u (v + e)%Qc.
Fixpoint closeb (e : Qc) (x x' : list Qc) : bool :=
  match x, x' with [], [] => Qc_leb 0%Qc e | u :: x, v :: x' => withinb e u v && closeb e x x' | _, _ => false end.
Lemma closeb_spec e x x' : closeb e x x' = true -> close e x x'.
Proof.
  intros H. assert (He : (0 <= e)%Qc).
  { revert x' H. induction x as [|u x IH]; intros [|v x'] H; cbn [closeb] in H; try discriminate; [apply Qc_leb_le; auto|].
    apply Bool.andb_true_iff in H as [_ H]. eauto. }
  assert (G : length x = length x' /\ forall k, within e (nth k x 0%Qc) (nth k x' 0%Qc)).
  { revert x' H. induction x as [|u x IH]; intros [|v x'] H; cbn [closeb] in H; try discriminate.
    - split; auto. intros [|k]; split; cbn; [| | |]; try (replace (0 - e)%Qc with (- e)%Qc by ring); qclra.
    - apply Bool.andb_true_iff in H as [H1 H]. destruct (IH _ H) as [L K]. split; [cbn; lia|]. intros [|k]; cbn [nth]; auto.
      unfold withinb in H1. apply Bool.andb_true_iff in H1 as [H1 H2]. split; apply Qc_leb_le; auto. }
  destruct G as [L K]. split; auto. intros i. apply K.
Qed.
Definition apart (e u v : Qc) : bool := Qc_ltb (u + e + e)%Qc v || Qc_ltb (v + e + e)%Qc u.
Definition comparedb (n i j : Z) : bool :=
  negb (i =? j) && ((i =? j + 1) || (j =? i + 1) || (i =? 0) || (j =? 0) || (i =? n - 1) || (j =? n - 1)).
Definition separatedb (e : Qc) (x : list Qc) : bool :=
  forallb (fun i => forallb (fun j => negb (comparedb (zlen x) (Z.of_nat i) (Z.of_nat j)) || apart e (nth i x 0%Qc) (nth j x 0%Qc)) (seq 0 (length x))) (seq 0 (length x)).
Lemma separatedb_spec e x : separatedb e x = true -> separated e x.
Proof.
  unfold separatedb. rewrite forallb_forall. intros H i j (Hi & Hj & N & Hc).
  unfold zlen in *. specialize (H (Z.to_nat i)). rewrite in_seq in H. specialize (H ltac:(lia)). rewrite forallb_forall in H.
  specialize (H (Z.to_nat j)). rewrite in_seq in H. specialize (H ltac:(lia)). rewrite !Z2Nat.id in H by lia.
  assert (C : comparedb (Z.of_nat (length x)) i j = true).
  { unfold comparedb. rewrite (proj2 (Z.eqb_neq i j) N). cbn [negb andb]. repeat rewrite Bool.orb_true_iff. repeat rewrite Z.eqb_eq. lia. }
  rewrite C in H. cbn [negb orb] in H. unfold apart in H. apply Bool.orb_true_iff in H as [H|H]; apply Qc_ltb_lt in H; auto.
Qed.

Definition near_sifted (x : list Qc) : list Qc :=
  match sift_step scipy_spl (near_cfg 2) (arange (length x)) x with Ok (y, _, _) => y | Raise _ => [] end.
Lemma near_robust : robust (near_cfg 2) 2 hundredth near_x.
Proof.
  split; [apply separatedb_spec; vm_compute; reflexivity|]. intros y (eM & em & E).
  assert (Ey : y = near_sifted near_x) by (unfold near_sifted; rewrite E; reflexivity). subst y.
  split; [apply separatedb_spec; vm_compute; reflexivity|]. intros; exact I.
Qed.
Definition near_run (x : list Qc) : res (emd_out Qc) := emd scipy_spl 10 (near_cfg 2) x None 1.
Definition near_some (x : list Qc) : bool := match near_run x with Ok o => negb (zlen (imfs o) =? 0) | Raise _ => false end.
Lemma near_some_spec x : near_some x = true -> exists o, near_run x = Ok o /\ imfs o <> [].
Proof.
  unfold near_some. destruct (near_run x) as [o|]; [|discriminate]. intros H. exists o. split; auto. intros C. rewrite C in H. discriminate.
Qed.
Example C107_nonvacuous :
  close hundredth near_x near_x' /\ separated hundredth near_x /\ same_shape near_x near_x' /\
  exists o o', near_run near_x = Ok o /\ near_run near_x' = Ok o' /\ imfs o <> [] /\ imfs o' <> [] /\
    robust (near_cfg 2) 2 hundredth near_x /\
    close (doubled 2 hundredth) (nth 0 (imfs o) []) (nth 0 (imfs o') []).
Proof.
  assert (C : close hundredth near_x near_x') by (apply closeb_spec; vm_compute; reflexivity).
  assert (S : separated hundredth near_x) by (apply separatedb_spec; vm_compute; reflexivity).
  split; [exact C|]. split; [exact S|]. split; [exact (C107_order _ _ _ C S)|].
  destruct (near_some_spec near_x) as (o & R & N); [vm_compute; reflexivity|].
  destruct (near_some_spec near_x') as (o' & R' & N'); [vm_compute; reflexivity|].
  exists o, o'. split; [exact R|]. split; [exact R'|]. split; [exact N|]. split; [exact N'|]. split; [exact near_robust|].
  exact (C107_first_component Linear (near_cfg 2) 2 10 10 hundredth near_x near_x' 1 1 o o' eq_refl ltac:(cbn; lia)
    (or_introl eq_refl) eq_refl eq_refl ltac:(lia) ltac:(cbn; lia) C near_robust R R' N N').
Qed.
(** Two components, one sift each. *)
Definition parts_x : list Qc := qs [15; -14; 0; -1; 14; -13; 10; -1; 11; -6].
Definition parts_x' : list Qc := shaken hundredth parts_x.
Lemma near_robust_parts : robust_parts (near_cfg 1) 1 2 hundredth parts_x.
Proof.
  split.
  - split; [apply separatedb_spec; vm_compute; reflexivity|]. intros; exact I.
  - intros l HI Ll. destruct l as [|y [|? ?]]; try discriminate. inversion HI as [|? ? ? (e & e' & E) _]; subst. cbn [last].
    assert (Ey : y = near_sifted parts_x).
    { unfold near_sifted. change (sift_step scipy_spl (near_cfg 2) (arange (length parts_x)) parts_x)
        with (sift_step scipy_spl (near_cfg 1) (arange (length parts_x)) parts_x). rewrite E. reflexivity. }
    subst y. split.
    + split; [apply separatedb_spec; vm_compute; reflexivity|]. intros; exact I.
    + intros; exact I.
Qed.
Definition parts_run (x : list Qc) : res (emd_out Qc) := emd scipy_spl 10 (near_cfg 1) x None (-1).
Definition parts_two (x : list Qc) : bool := match parts_run x with Ok o => Nat.ltb 1 (length (imfs o)) | Raise _ => false end.
Lemma parts_two_spec x : parts_two x = true -> exists o, parts_run x = Ok o /\ (1 < length (imfs o))%nat.
Proof.
  unfold parts_two. destruct (parts_run x) as [o|]; [|discriminate]. intros H. exists o. split; auto. apply Nat.ltb_lt. exact H.
Qed.
Example C107_nonvacuous_component :
  close hundredth parts_x parts_x' /\ robust_parts (near_cfg 1) 1 2 hundredth parts_x /\
  exists o o', parts_run parts_x = Ok o /\ parts_run parts_x' = Ok o' /\
    (1 < length (imfs o))%nat /\ (1 < length (imfs o'))%nat /\
    close (Q2Qc (6 # 100)) (nth 1 (imfs o) []) (nth 1 (imfs o') []).
Proof.
  assert (C : close hundredth parts_x parts_x') by (apply closeb_spec; vm_compute; reflexivity).
  split; [exact C|]. split; [exact near_robust_parts|].
  destruct (parts_two_spec parts_x) as (o & R & N); [vm_compute; reflexivity|].
  destruct (parts_two_spec parts_x') as (o' & R' & N'); [vm_compute; reflexivity|].
  exists o, o'. split; [exact R|]. split; [exact R'|]. split; [exact N|]. split; [exact N'|].
  assert (B : part_error 1 1 hundredth = Q2Qc (6 # 100)) by (apply Qc_is_canon; reflexivity). rewrite <- B.
  exact (C107_component Linear (near_cfg 1) 1 2 10 10 hundredth parts_x parts_x' (-1) (-1) o o' 1 eq_refl ltac:(cbn; lia)
    (or_introl eq_refl) eq_refl eq_refl ltac:(lia) ltac:(cbn; lia) C near_robust_parts R R' ltac:(lia) N N').
Qed.
Example C107_nonvacuous_zero : exists x x', close hundredth x x' /\ away hundredth x /\ x <> x'.
Proof.
  exists (qs [1; -1]), (shaken hundredth (qs [1; -1])). split; [apply closeb_spec; vm_compute; reflexivity|]. split.
  - intros i Hi. change (zlen (qs [1; -1])) with 2 in Hi. assert (H : i = 0 \/ i = 1) by lia. destruct H as [->| ->]; [left|right]; vm_compute; reflexivity.
  - intros H. apply (f_equal (fun l => this (hd 0%Qc l))) in H. vm_compute in H. discriminate.
Qed.

(** ** What does not hold: without separation there is no such bound.  Two signals within a thousandth of
    each other; the first has no component, a component of the second reaches 2. *)
Definition steps_x : list Qc := qs [0; 10; 10; 20; 20; 30; 30; 40].
Definition steps_x' : list Qc :=
  let d := Q2Qc (1 # 1000) in let u n := Qc_ofZ n in
  [u 0; u 10; (u 10 - d)%Qc; u 20; (u 20 - d)%Qc; u 30; (u 30 - d)%Qc; u 40].
Definition steps_run (x : list Qc) : res (emd_out Qc) := emd scipy_spl 10 (near_cfg 1) x None 1.
Definition steps_none (x : list Qc) : bool := match steps_run x with Ok o => zlen (imfs o) =? 0 | Raise _ => false end.
Definition steps_large (x : list Qc) : bool := match steps_run x with Ok o => existsb (fun v => Qc_leb (Qc_ofZ 2) v) (nth 0 (imfs o) []) | Raise _ => false end.
Lemma steps_none_spec x : steps_none x = true -> exists o, steps_run x = Ok o /\ imfs o = [].
Proof.
  unfold steps_none. destruct (steps_run x) as [o|]; [|discriminate]. intros H. exists o. split; auto. destruct (imfs o); [auto|discriminate].
Qed.
Lemma steps_large_spec x : steps_large x = true -> exists o v, steps_run x = Ok o /\ In v (nth 0 (imfs o) []) /\ (Qc_ofZ 2 <= v)%Qc.
Proof.
  unfold steps_large. destruct (steps_run x) as [o|]; [|discriminate]. intros H. apply existsb_exists in H as (v & Hv & H).
  exists o, v. split; auto. split; auto. apply Qc_leb_le; auto.
Qed.
Theorem C107_jump_refuted :
  exists c x x' o o' v, extrema_detection c = Simple /\ 1 <= nbsym c /\ parse_kind (spline_kind c) = Some Linear /\ FIXE c = 1 /\
    close (Q2Qc (1 # 1000)) x x' /\
    emd scipy_spl 10 c x None 1 = Ok o /\ imfs o = [] /\
    emd scipy_spl 10 c x' None 1 = Ok o' /\ In v (nth 0 (imfs o') []) /\ (Qc_ofZ 2 <= v)%Qc.
Proof.
  destruct (steps_none_spec steps_x) as (o & R & N); [vm_compute; reflexivity|].
  destruct (steps_large_spec steps_x') as (o' & v & R' & I & V); [vm_compute; reflexivity|].
  exists (near_cfg 1), steps_x, steps_x', o, o', v.
  split; [reflexivity|]. split; [cbn; lia|]. split; [reflexivity|]. split; [reflexivity|].
  split; [apply closeb_spec; vm_compute; reflexivity|]. split; [exact R|]. split; [exact N|]. split; [exact R'|]. split; [exact I|exact V].
Qed.
Print Assumptions C107_jump_refuted.
