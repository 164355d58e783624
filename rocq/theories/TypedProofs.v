(** * TypedProofs: EMD on integer arrays is EMD on the same numbers as doubles. *)
From Verif Require Import Py PyFacts Extrema Emd Utils UtilsSpec UtilsProofs Spec Float64 TypedFloat Typed TypedSpec.
From Coq Require Import Lia.
Open Scope Z_scope.

Lemma wrap_fits d z : is_integer d -> fits d z -> wrap d z = z.
Proof.
  unfold is_integer, fits, lowest_of, largest_of, wrap, store. destruct d; cbn [kind]; intros H Hz; try contradiction;
  rewrite Z.mod_small; lia.
Qed.

Lemma zdiff_map (l : list Z) : (forall x y, In x l -> In y l -> small x /\ small (x - y)) ->
  ndiff (map f64_ofZ l) = map f64_ofZ (zdiff l).
Proof.
  unfold ndiff, zdiff, adj. induction l as [|x l IH]; intros H; [reflexivity|].
  destruct l as [|y l]; [reflexivity|]. cbn [map tl map2] in *.
  rewrite IH by (intros u v Hu Hv; apply H; right; auto).
  destruct (H y x) as [Hy Hd]; [right; left; auto|left; auto|]. destruct (H x x) as [Hx _]; [left; auto|left; auto|].
  rewrite ofZ_minus by auto. reflexivity.
Qed.
Lemma zdiff_in (l : list Z) d : In d (zdiff l) -> exists x y, In x l /\ In y l /\ d = y - x.
Proof.
  unfold zdiff, adj. induction l as [|x l IH]; [intros []|]. destruct l as [|y l]; [intros []|]. cbn [map2 tl].
  intros [<-|Hd]; [exists x, y; cbn; auto|]. destruct (IH Hd) as (u & v & Hu & Hv & ->). exists u, v. cbn in *. tauto.
Qed.
Lemma existsb_map {X Y} (f : X -> Y) p (l : list X) : existsb p (map f l) = existsb (fun x => p (f x)) l.
Proof. induction l; [reflexivity|]. cbn. rewrite IHl. reflexivity. Qed.
Lemma existsb_same {X} p p' (l : list X) : (forall x, In x l -> p x = p' x) -> existsb p l = existsb p' l.
Proof. induction l; intros Hp; [reflexivity|]. cbn. rewrite IHl by (intros; apply Hp; right; auto). rewrite Hp by (left; auto). reflexivity. Qed.
Lemma min_fold (l : list Z) x : small x -> Forall small l ->
  fold_left (fun m y => if nltb y m then y else m) (map f64_ofZ l) (f64_ofZ x) = f64_ofZ (fold_left Z.min l x).
Proof.
  intros Hx Hl. revert x Hx. induction Hl as [|y l Hy Hl IH]; intros x Hx; [reflexivity|]. cbn [map fold_left].
  rewrite ofZ_ltb by auto. rewrite <- IH.
  - f_equal. destruct (Z.ltb_spec y x); f_equal; lia.
  - destruct (Z.min_spec x y) as [[_ ->]|[_ ->]]; auto.
Qed.

Lemma find_nan_ints (l : list Z) : Forall small l -> find not_a_number (map f64_ofZ l) = None.
Proof.
  induction 1 as [|z l Hz Hl IH]; [reflexivity|]. cbn [map find]. replace (not_a_number (f64_ofZ z)) with false; [exact IH|].
  unfold not_a_number. rewrite ofZ_self by auto. reflexivity.
Qed.

(** Integer times whose differences do not wrap around, and are small enough for a double. *)
Lemma normalize_ints_ok d (t : list Z) :
  (forall x y, In x t -> In y t -> small x /\ small (x - y)) ->
  (forall z, In z (zdiff t) -> wrap d z = z) -> (forall x, In x t -> wrap d (x - hd 0 t) = x - hd 0 t) ->
  normalize_ints d t = normalize_time (map f64_ofZ t).
Proof.
  intros Hs Hw H0. unfold normalize_ints, normalize_time. cbv zeta. rewrite zdiff_map by auto.
  assert (E : map (wrap d) (zdiff t) = zdiff t).
  { rewrite <- (map_id (zdiff t)) at 2. apply map_ext_in. intros z Hz. apply Hw; auto. }
  rewrite E. assert (HS : Forall small (zdiff t)).
  { apply Forall_forall. intros z Hz. destruct (zdiff_in t z Hz) as (x & y & Hx & Hy & ->). apply (Hs y x); auto. }
  rewrite existsb_map. rewrite (existsb_same (fun x => is0 (f64_ofZ x)) (Z.eqb 0)).
  2:{ intros z Hz. apply ofZ_is0. rewrite Forall_forall in HS. auto. }
  destruct (existsb _ _); [reflexivity|]. destruct t as [|t0 t]; [reflexivity|].
  assert (G : forall X (a : X) l, py_get (a :: l) 0 = Ok a).
  { intros. unfold py_get. cbn. reflexivity. }
  cbn [map] in *. rewrite !G. cbn [bind hd] in *. unfold np_min. destruct (zdiff (t0 :: t)) as [|z l] eqn:EZ; [reflexivity|].
  rewrite (find_nan_ints (z :: l)) by auto.
  cbn [map bind]. inversion HS; subst. rewrite min_fold by auto.
  change (f64_ofZ t0 :: map f64_ofZ t) with (map f64_ofZ (t0 :: t)). rewrite map_map.
  transitivity (Ok (map (fun x : Z => ndiv (nsub (f64_ofZ x) (f64_ofZ t0)) (f64_ofZ (fold_left Z.min l z))) (t0 :: t)));
    [|reflexivity].
  transitivity (Ok (map (fun x : Z => ndiv (f64_ofZ (wrap d (x - t0))) (f64_ofZ (fold_left Z.min l z))) (t0 :: t)));
    [reflexivity|].
  f_equal. apply map_ext_in. intros x Hx. rewrite H0 by auto.
  destruct (Hs x t0 Hx (or_introl eq_refl)) as [S1 S2]. destruct (Hs t0 t0) as [S3 _]; [left; auto|left; auto|].
  rewrite ofZ_minus by auto. reflexivity.
Qed.

Lemma counts_eq n l : counts n l -> l = map Some (zseq 0 n).
Proof.
  intros [HL HN]. apply (nth_ext _ _ None None).
  - rewrite map_length, length_zseq'. exact HL.
  - intros i Hi. rewrite HL in Hi. rewrite (nth_error_nth _ _ _ (HN i Hi)). symmetry. apply nth_error_nth.
    rewrite nth_error_map, nth_zseq by auto. reflexivity.
Qed.
Lemma zseq_in a n x : In x (zseq a n) -> a <= x < a + Z.of_nat n.
Proof.
  revert a. induction n as [|n IH]; intros a; [intros []|]. cbn [zseq]. intros [<-|H]; [lia|]. apply IH in H. lia.
Qed.
Lemma zseq_diff a n : (forall d, In d (zdiff (zseq a n)) -> d = 1).
Proof.
  revert a. induction n as [|n IH]; intros a d; [intros []|]. unfold zdiff, adj in *. cbn [zseq tl map2].
  destruct n as [|n]; [intros []|]. intros Hd. cbn [zseq tl map2] in Hd. destruct Hd as [<-|Hd]; [lia|].
  apply (IH (a + 1)). cbn [zseq tl map2]. exact Hd.
Qed.
Lemma int_bounds d : is_integer d -> lowest_of d <= 0 /\ 127 <= largest_of d.
Proof. unfold is_integer, lowest_of, largest_of. destruct d; cbn [kind]; intros; try contradiction; lia. Qed.

(** ** The timeline *)
Lemma timeline_arange differs n d r : get_timeline differs n d = Ok r -> snd r = np_arange n (fst r).
Proof.
  unfold get_timeline. cbv zeta. destruct (py_get _ _) as [x|]; [|discriminate]. cbn [bind].
  destruct (differs _ _ _); [|intros E; inversion E; reflexivity].
  destruct (smallest_inclusive_dtype _ _) as [d'|]; [|discriminate]. cbn [bind]. intros E. inversion E. reflexivity.
Qed.
Lemma int_not_float d : is_integer d -> match kind d with Floating _ _ => False | _ => True end.
Proof. unfold is_integer. destruct (kind d); auto. Qed.
Lemma int_divided d : is_integer d -> divided_type d = Float64.
Proof. unfold is_integer, divided_type. destruct (kind d); auto; contradiction. Qed.
Lemma timeline_normalized differs d n : comparison_ok differs -> is_integer d \/ d = Float64 ->
  Z.of_nat n <= 2 ^ 53 ->
  (let! (d', l) := get_timeline differs n (Some d) in
   let! t := normalize_array (timeline_array d' l) in Ok (divided_type (dtype_of (timeline_array d' l)), t)) =
  (let! t := timeline n in let! t := normalize_time t in Ok (Float64, t)).
Proof.
  intros HC Hd Hn. destruct n as [|n].
  { unfold get_timeline, timeline. cbn [np_arange zseq map]. unfold py_get. cbn. reflexivity. }
  set (N := Datatypes.S n) in *. assert (HN : (1 <= N)%nat) by (unfold N; lia).
  unfold timeline. fold N. change (match N with O => Raise IndexError | _ => Ok (map nofZ (zseq 0 N)) end)
    with (Ok (map (@nofZ f64 _) (zseq 0 N))). cbn [bind].
  destruct Hd as [Hd|Hd].
  - destruct (timeline_integers differs d N HC Hd HN ltac:(lia)) as (d' & l & E & Hd' & _ & Hc).
    pose proof (timeline_arange _ _ _ _ E) as Ea. cbn [fst snd] in Ea. rewrite E. cbn [bind].
    assert (El : timeline_array d' l = Ints d' (zseq 0 N)).
    { unfold timeline_array. pose proof (int_not_float d' Hd') as Hk. rewrite (counts_eq _ _ Hc), map_map.
      destruct (kind d'); try contradiction; rewrite map_id; reflexivity. }
    rewrite El. cbn [normalize_array dtype_of]. rewrite normalize_ints_ok.
    + rewrite int_divided by auto. reflexivity.
    + intros x y Hx Hy. apply zseq_in in Hx, Hy. unfold small. lia.
    + intros z Hz. rewrite (zseq_diff _ _ _ Hz). apply wrap_fits; auto. unfold fits. pose proof (int_bounds d' Hd'). lia.
    + intros x Hx. change (hd 0 (zseq 0 N)) with 0. rewrite Z.sub_0_r. apply zseq_in in Hx.
      destruct Hc as [_ Hc]. specialize (Hc (Z.to_nat x) ltac:(lia)). rewrite Ea, arange_nth in Hc by lia.
      rewrite Z2Nat.id in Hc by lia. unfold wrap. inversion Hc as [Hc']. rewrite Hc'. reflexivity.
  - subst d. destruct (timeline_floats differs Float64 N HC I HN) as (l & E & Hc).
    { change (precision Float64) with 53. lia. }
    rewrite E. cbn [bind]. rewrite (counts_eq _ _ Hc). unfold timeline_array. cbn [kind]. rewrite map_map. reflexivity.
Qed.

Section Emd.
Context (differs : dtype -> option Z -> Z -> bool) (spl : spline_oracle f64).

Definition array_ok (a : array) : Prop :=
  match a with Ints d l => is_integer d /\ Forall (fits d) l | Doubles _ => True end.
Lemma size_doubles a : length (to_doubles a) = size_of a.
Proof. destruct a; cbn; rewrite ?map_length; reflexivity. Qed.
Lemma common_double d : is_integer d \/ d = Float64 -> deduce_common_type d Float64 = Float64.
Proof. intros [H| ->]; [|reflexivity]. unfold is_integer in H. destruct d; cbn in *; try contradiction; reflexivity. Qed.
Lemma array_type a : array_ok a -> is_integer (dtype_of a) \/ dtype_of a = Float64.
Proof. destruct a; cbn; tauto. Qed.

Lemma emd_typed_default fuel c S T k : comparison_ok differs -> array_ok S -> Z.of_nat (size_of S) <= 2 ^ 53 ->
  T = None \/ extrema_detection c = Simple ->
  emd_typed differs spl fuel c S T k = emd spl fuel c (to_doubles S) (option_map to_doubles T) k.
Proof.
  intros HC HS HN HT. unfold emd_typed, emd, typed_time, emd_time.
  pose proof (timeline_normalized differs (dtype_of S) (size_of S) HC (array_type S HS) HN) as HL.
  assert (HX : forall X (P : dtype -> list f64 -> res X),
    (let! (dT, t) := (let! t := (let! (d, l) := get_timeline differs (size_of S) (Some (dtype_of S)) in Ok (timeline_array d l)) in
       let! t' := normalize_array t in Ok (divided_type (dtype_of t), t')) in P dT t) =
    (let! t := (let! t := timeline (size_of S) in normalize_time t) in P Float64 t)).
  { intros X P. revert HL. destruct (get_timeline _ _ _) as [[d l]|e]; cbn [bind].
    - destruct (normalize_array _) as [t|e]; cbn [bind]; destruct (timeline _) as [u|e']; cbn [bind];
        try discriminate; try (destruct (normalize_time u) as [v|e'']; cbn [bind]; try discriminate);
        intros E; inversion E; subst; reflexivity.
    - destruct (timeline _) as [u|e']; cbn [bind]; try discriminate;
        try (destruct (normalize_time u) as [v|e'']; cbn [bind]; try discriminate); intros E; inversion E; subst; reflexivity. }
  destruct T as [T|]; cbn [option_map].
  - destruct HT as [HT|HT]; [discriminate|]. rewrite HT, !size_doubles. destruct (Nat.eqb _ _); [|reflexivity]. cbn [bind].
    rewrite HX. destruct (let! t := timeline _ in normalize_time t) as [t|e]; [|reflexivity]. cbn [bind].
    rewrite (common_double (dtype_of S)) by (apply array_type; auto). rewrite ?size_doubles. reflexivity.
  - rewrite size_doubles. cbn [bind]. rewrite HX. destruct (let! t := timeline _ in normalize_time t) as [t|e]; [|reflexivity].
    cbn [bind]. rewrite (common_double (dtype_of S)) by (apply array_type; auto). rewrite ?size_doubles. reflexivity.
Qed.

(** Times that are given and used. *)
Lemma zdiff_pos (l : list Z) d : zincreasing l -> In d (zdiff l) -> 0 < d.
Proof.
  unfold zdiff, adj. induction l as [|x l IH]; intros Hi; [intros []|]. destruct l as [|y l]; [intros []|].
  destruct Hi as [H1 H2]. cbn [map2 tl]. intros [<-|Hd]; [specialize (H1 y (or_introl eq_refl)); lia|]. apply IH; auto.
Qed.
Lemma hd_least (l : list Z) x : zincreasing l -> In x l -> hd 0 l <= x.
Proof. destruct l as [|y l]; [intros _ []|]. intros [H1 _] [<-|H]; cbn; [lia|]. specialize (H1 x H). lia. Qed.
Lemma hd_in (l : list Z) x : In x l -> In (hd 0 l) l.
Proof. destruct l; [intros []|]. left. reflexivity. Qed.
Lemma emd_typed_times fuel c S d t k : array_ok S -> is_integer d -> Forall (fits d) t ->
  zincreasing t -> (forall x y, In x t -> In y t -> y - x <= largest_of d) ->
  (forall x y, In x t -> In y t -> Z.abs x <= 2 ^ 53 /\ y - x <= 2 ^ 53) ->
  extrema_detection c = Parabol ->
  emd_typed differs spl fuel c S (Some (Ints d t)) k = emd spl fuel c (to_doubles S) (Some (map f64_ofZ t)) k.
Proof.
  intros HS Hd Hf Hi Hs Hb HP. unfold emd_typed, emd, typed_time, emd_time. rewrite HP.
  cbn [size_of]. rewrite size_doubles, map_length. destruct (Nat.eqb _ _) eqn:EN; [|reflexivity]. cbn [bind normalize_array dtype_of].
  rewrite normalize_ints_ok.
  - destruct (normalize_time _) as [t'|e]; [|reflexivity]. cbn [bind]. rewrite int_divided by auto.
    rewrite common_double by (apply array_type; auto). rewrite ?size_doubles. reflexivity.
  - intros x y Hx Hy. destruct (Hb x y Hx Hy), (Hb y x Hy Hx). unfold small. lia.
  - intros z Hz. apply wrap_fits; auto. destruct (zdiff_in _ _ Hz) as (x & y & Hx & Hy & ->). pose proof (zdiff_pos _ _ Hi Hz).
    pose proof (int_bounds d Hd). specialize (Hs x y Hx Hy). unfold fits. lia.
  - intros x Hx. apply wrap_fits; auto. pose proof (int_bounds d Hd). pose proof (hd_least t x Hi Hx).
    specialize (Hs (hd 0 t) x (hd_in t x Hx) Hx). unfold fits. lia.
Qed.
End Emd.

(** ** Types *)
Lemma working_floating dS dT : dS <> OtherType -> dT <> OtherType ->
  is_floating (working_type dS dT) /\ returned_type (working_type dS dT) = Float64 /\
  (working_type dS dT = Float64 <->
   dS = Float64 \/ is_integer dT \/ dT = Float64 \/ (is_integer dS /\ 32 <= bits dS)).
Proof.
  intros HS HT. unfold is_floating, is_integer, bits.
  destruct dS, dT; try contradiction; cbn; (split; [exact I|]); (split; [reflexivity|]);
    (split; [intros H; try discriminate H|intros H; try reflexivity; exfalso]);
    repeat match goal with
    | H : _ \/ _ |- _ => destruct H
    | H : _ /\ _ |- _ => destruct H
    end; try discriminate; try contradiction; try lia; auto;
    try (right; right; right; split; [exact I|lia]).
Qed.
