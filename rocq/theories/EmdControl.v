(** * EmdControl: termination and stopping rules of the EMD loops, for every arithmetic. *)
From Verif Require Import PyFacts Emd Spec EmdProofs.
From Coq Require Import ZifyBool ZifyNat.

(** ** Results that are not the model's out-of-fuel value *)
Definition ff {X} (r : res X) : Prop := r <> Raise OutOfFuel.

Lemma ff_ok {X} (x : X) : ff (Ok x).
Proof. discriminate. Qed.
Lemma ff_bind {X Y} (x : res X) (f : X -> res Y) :
  ff x -> (forall a, x = Ok a -> ff (f a)) -> ff (bind x f).
Proof. unfold ff. destruct x as [a|e]; simpl; intros; auto. congruence. Qed.
Lemma ff_get {X} (l : list X) i : ff (py_get l i).
Proof. unfold ff. intros E. apply py_get_raise in E. discriminate. Qed.
Lemma ff_mapM {X Y} (f : X -> res Y) l : (forall x, ff (f x)) -> ff (mapM f l).
Proof. intros Hf E. apply mapM_raise in E as (x & _ & E). apply (Hf x E). Qed.
Lemma ff_take {X} (l : list X) idx : ff (py_take l idx).
Proof. apply ff_mapM. intros. apply ff_get. Qed.
Lemma ff_broadcast {B C D} (f : B -> C -> D) x y : ff (broadcast2 f x y).
Proof. intros E. apply broadcast2_raise in E. discriminate. Qed.
Lemma ff_assign {B} n (x : list B) : ff (assign_all n x).
Proof. intros E. apply assign_all_raise in E. discriminate. Qed.
Lemma ff_max {A} `{Num A} (l : list A) : ff (np_max l).
Proof. destruct l; discriminate. Qed.
Lemma ff_min {A} `{Num A} (l : list A) : ff (np_min l).
Proof. destruct l; discriminate. Qed.

Ltac ff_step :=
  match goal with
  | |- ff (Ok _) => apply ff_ok
  | |- ff (Raise _) => discriminate
  | |- ff (py_get _ _) => apply ff_get
  | |- ff (py_take _ _) => apply ff_take
  | |- ff (broadcast2 _ _ _) => apply ff_broadcast
  | |- ff (assign_all _ _) => apply ff_assign
  | |- ff (np_max _) => apply ff_max
  | |- ff (np_min _) => apply ff_min
  | |- ff (bind _ _) => apply ff_bind; [|let a := fresh "a" in intros a _]
  | |- ff (let (_, _) := ?x in _) => destruct x
  | |- ff (if ?b then _ else _) => destruct b
  | |- ff (match ?x with _ => _ end) => destruct x
  | |- ff (let _ := _ in _) => cbv zeta
  end.
Ltac ff_auto := repeat ff_step.

Section Generic.
Context {A : Type} `{Num A}.
Variable spl : spline_oracle A.
(** The interpolation routine does not itself return the model's out-of-fuel value. *)
Hypothesis Hspl : forall k p t, ff (spl k p t).
Notation vec := (list A).
Notation rows := (list (list A)).

Lemma ff_extrema_idx (S : vec) : ff (extrema_idx S).
Proof. unfold extrema_idx. ff_auto. Qed.
Lemma ff_find_extrema m (T S : vec) : ff (find_extrema m T S).
Proof.
  destruct m; simpl; [unfold find_extrema_simple|unfold find_extrema_parabol|]; ff_auto.
  apply ff_extrema_idx.
Qed.
Lemma ff_mirror (T : vec) s i : ff (mirror T s i).
Proof. unfold mirror. ff_auto. Qed.
Lemma ff_prepare m nb (T S : vec) e : ff (prepare_points m nb T S e).
Proof.
  destruct m; simpl.
  - unfold prepare_points_simple, left_bound, right_bound, mirror_left, mirror_right, assemble.
    ff_auto; apply ff_mirror.
  - unfold prepare_points_parabol. ff_auto.
  - discriminate.
Qed.
Lemma ff_spline_points kind (T : vec) ext : ff (spline_points spl kind T ext).
Proof.
  unfold spline_points, time_window, cubic_spline_3pts, spline3_coeffs, solve3. ff_auto; apply Hspl.
Qed.
Lemma ff_sift_step c (T imf : vec) : ff (sift_step spl c T imf).
Proof.
  unfold sift_step, extract_max_min_spline.
  ff_auto; auto using ff_find_extrema, ff_prepare, ff_spline_points.
Qed.
Lemma ff_check_imf c (x y : vec) eM em : ff (check_imf c x y eM em).
Proof. unfold check_imf. ff_auto. Qed.
Lemma ff_end_condition c (S : vec) IMF : ff (end_condition c S IMF).
Proof. unfold end_condition. ff_auto. Qed.
Lemma ff_emd_time c (S : vec) T : ff (emd_time c S T).
Proof. unfold emd_time, timeline, normalize_time. ff_auto. Qed.

(** The sifting loop never exhausts its fuel. *)
Lemma sift_total fuel c T n n_h ext imf :
  (Z.to_nat (MAX_ITERATION c - n) < fuel)%nat -> ff (sift spl fuel c T n n_h ext imf).
Proof.
  revert n n_h ext imf. induction fuel as [|fuel IH]; intros n n_h ext imf Hf; [lia|].
  cbn [sift].
  destruct (MAX_ITERATION c <=? n + 1) eqn:D; [apply ff_ok|].
  assert (Hf' : (Z.to_nat (MAX_ITERATION c - (n + 1)) < fuel)%nat) by lia.
  ff_auto; auto using ff_find_extrema, ff_sift_step, ff_check_imf.
Qed.

(** With a limit, the outer loop makes at most as many passes as the limit. *)
Lemma emd_loop_total fuel c S T k IMF ext :
  zlen IMF < k -> (Z.to_nat (k - zlen IMF) <= fuel)%nat ->
  ff (emd_loop spl fuel c S T k IMF ext).
Proof.
  revert IMF ext. induction fuel as [|fuel IH]; intros IMF ext Hk Hf; [lia|].
  cbn [emd_loop]. apply ff_bind.
  { apply sift_total. unfold sift_fuel. lia. }
  intros [[imf e1] fin] _. apply ff_bind; [apply ff_end_condition|]. intros stop _.
  assert (HL : zlen (IMF ++ [imf]) = zlen IMF + 1) by (rewrite zlen_app; reflexivity).
  destruct (stop || (zlen (IMF ++ [imf]) =? k)) eqn:D; [apply ff_ok|].
  destruct fin; [apply ff_ok|]. apply IH; lia.
Qed.

Lemma emd_total fuel c S T k :
  0 < k -> (Z.to_nat k <= fuel)%nat -> ff (emd spl fuel c S T k).
Proof.
  intros Hk Hf. unfold emd. apply ff_bind; [apply ff_emd_time|]. intros t _.
  destruct (negb _); [discriminate|].
  apply ff_bind. { apply emd_loop_total; unfold zlen; simpl; lia. }
  intros [IMF ext] _. apply ff_ok.
Qed.

End Generic.

Section Generic2.
Context {A : Type} `{Num A}.
Variable spl : spline_oracle A.
Notation vec := (list A).
Notation rows := (list (list A)).

(** More fuel does not change a result. *)
Lemma emd_loop_mono fuel fuel' c S T k IMF ext :
  (fuel <= fuel')%nat -> ff (emd_loop spl fuel c S T k IMF ext) ->
  emd_loop spl fuel' c S T k IMF ext = emd_loop spl fuel c S T k IMF ext.
Proof.
  revert fuel' IMF ext. induction fuel as [|fuel IH]; intros fuel' IMF ext Hle Hf.
  { exfalso. apply Hf. reflexivity. }
  destruct fuel' as [|fuel']; [lia|]. cbn [emd_loop] in *.
  destruct (sift _ _ _ _ _ _ _ _) as [[[imf e1] fin]|e]; simpl in *; auto.
  destruct (end_condition _ _ _) as [stop|e]; simpl in *; auto.
  destruct (stop || _); auto. destruct fin; auto. apply IH; auto. lia.
Qed.
Lemma emd_mono fuel fuel' c S T k :
  (fuel <= fuel')%nat -> ff (emd spl fuel c S T k) ->
  emd spl fuel' c S T k = emd spl fuel c S T k.
Proof.
  unfold emd. intros Hle Hf. destruct (emd_time c S T) as [t|e]; simpl in *; auto.
  destruct (negb _); auto. rewrite (emd_loop_mono fuel fuel'); auto.
  intros E. apply Hf. rewrite E. reflexivity.
Qed.

(** ** Stopping rules *)
Notation step c T := (one_sift spl c T).

(** The proto-imf condition: extrema and zero crossings differ by at most one. *)
Definition balanced (c : emd_config A) (T x : vec) : Prop :=
  exists e, find_extrema (extrema_detection c) T x = Ok e /\
    Z.abs (zlen (max_pos e) + zlen (min_pos e) - zlen (indzer e)) < 2.

Lemma last_cons_cons {X} (x y : X) l d : last (x :: y :: l) d = last (y :: l) d.
Proof. reflexivity. Qed.

Lemma sift_fixe fuel c T n n_h ext imf imf' ext' :
  FIXE c <> 0 -> n < FIXE c -> n <= MAX_ITERATION c - 1 ->
  sift spl fuel c T n n_h ext imf = Ok (imf', ext', false) ->
  exists l, iterates (step c T) (imf :: l) /\ last (imf :: l) [] = imf' /\
            n + zlen l = Z.min (FIXE c) (MAX_ITERATION c - 1).
Proof.
  intros HF. revert n n_h ext imf.
  induction fuel as [|fuel IH]; intros n n_h ext imf H1 H2 E; cbn [sift] in E.
  { discriminate. }
  destruct (MAX_ITERATION c <=? n + 1) eqn:D.
  { injection E as <- <-. exists []. repeat split; try constructor. unfold zlen; simpl. lia. }
  apply bind_ok in E as (e & E1 & E).
  destruct (2 <? ext_no e). 2:{ discriminate. }
  apply bind_ok in E as ([[imf1 eM] em] & E2 & E).
  assert (Hst : step c T imf imf1) by (exists eM, em; exact E2).
  replace (negb (FIXE c =? 0)) with true in E by lia.
  destruct (FIXE c <=? n + 1) eqn:D2.
  { injection E as <- <-. exists [imf1]. repeat split.
    - constructor; auto. constructor.
    - unfold zlen; simpl. lia. }
  apply IH in E as (l & Hl & Hlast & Hn); [|lia|lia].
  exists (imf1 :: l). repeat split.
  - constructor; auto.
  - rewrite last_cons_cons. exact Hlast.
  - rewrite zlen_cons. lia.
Qed.

Lemma sift_fixe_h fuel c T n n_h ext imf imf' ext' :
  FIXE c = 0 -> FIXE_H c <> 0 -> 1 <= n <= MAX_ITERATION c - 1 -> 
  sift spl fuel c T n n_h ext imf = Ok (imf', ext', false) ->
  exists l, iterates (step c T) (imf :: l) /\ last (imf :: l) [] = imf' /\
    (n + zlen l = MAX_ITERATION c - 1 \/
     exists l1 l2, l = l1 ++ l2 /\ Forall (balanced c T) l2 /\
       (FIXE_H c <= zlen l2 \/ (l1 = [] /\ FIXE_H c <= n_h + zlen l2))).
Proof.
  intros HF HH. revert n n_h ext imf.
  induction fuel as [|fuel IH]; intros n n_h ext imf Hn E; cbn [sift] in E.
  { discriminate. }
  destruct (MAX_ITERATION c <=? n + 1) eqn:D.
  { injection E as <- <-. exists []. repeat split; try constructor. unfold zlen; simpl. lia. }
  apply bind_ok in E as (e & E1 & E).
  destruct (2 <? ext_no e). 2:{ discriminate. }
  apply bind_ok in E as ([[imf1 eM] em] & E2 & E).
  assert (Hst : step c T imf imf1) by (exists eM, em; exact E2).
  replace (negb (FIXE c =? 0)) with false in E by lia.
  replace (negb (FIXE_H c =? 0)) with true in E by lia.
  apply bind_ok in E as (e' & E3 & E).
  replace (n + 1 =? 1) with false in E by lia.
  destruct (Z.abs (ext_no e' - zlen (indzer e')) <? 2) eqn:Db.
  - assert (HB : balanced c T imf1).
    { exists e'. split; auto. unfold ext_no in Db. lia. }
    destruct (FIXE_H c <=? n_h + 1) eqn:Dh.
    { injection E as <- <-. exists [imf1]. repeat split.
      - constructor; auto. constructor.
      - right. exists [], [imf1]. repeat split; auto. right. split; auto.
        unfold zlen; simpl. lia. }
    apply IH in E as (l & Hl & Hlast & Hc); [|lia].
    exists (imf1 :: l). split; [constructor; auto|]. split; [exact Hlast|].
    destruct Hc as [Hc|(l1 & l2 & -> & Hg & Hc)]; [left; rewrite zlen_cons; lia|].
    right. destruct Hc as [Hc|[-> Hc]].
    + exists (imf1 :: l1), l2. auto.
    + exists [], (imf1 :: l2). repeat split; auto. right. split; auto.
      rewrite zlen_cons. lia.
  - destruct (FIXE_H c <=? 0) eqn:Dh.
    { injection E as <- <-. exists [imf1]. split; [constructor; auto; constructor|].
      split; auto. right. exists [imf1], []. repeat split; auto. left. unfold zlen; simpl. lia. }
    apply IH in E as (l & Hl & Hlast & Hc); [|lia].
    exists (imf1 :: l). split; [constructor; auto|]. split; [exact Hlast|].
    destruct Hc as [Hc|(l1 & l2 & -> & Hg & Hc)]; [left; rewrite zlen_cons; lia|].
    right. exists (imf1 :: l1), l2. repeat split; auto. left.
    destruct Hc as [Hc|[_ Hc]]; lia.
Qed.

(** From the start of a sifting: the first sift is never counted. *)
Lemma sift_fixe_h_start fuel c T ext imf imf' ext' :
  FIXE c = 0 -> FIXE_H c <> 0 -> 2 <= MAX_ITERATION c -> 
  sift spl fuel c T 0 0 ext imf = Ok (imf', ext', false) ->
  exists x1 l, iterates (step c T) (imf :: x1 :: l) /\ last (x1 :: l) [] = imf' /\
    (1 + zlen l = MAX_ITERATION c - 1 \/
     exists l1 l2, l = l1 ++ l2 /\ Forall (balanced c T) l2 /\ FIXE_H c <= zlen l2).
Proof.
  intros HF HH HM E. destruct fuel as [|fuel]; cbn [sift] in E. { discriminate. }
  replace (MAX_ITERATION c <=? 0 + 1) with false in E by lia.
  apply bind_ok in E as (e & E1 & E).
  destruct (2 <? ext_no e). 2:{ discriminate. }
  apply bind_ok in E as ([[imf1 eM] em] & E2 & E).
  assert (Hst : step c T imf imf1) by (exists eM, em; exact E2).
  replace (negb (FIXE c =? 0)) with false in E by lia.
  replace (negb (FIXE_H c =? 0)) with true in E by lia.
  apply bind_ok in E as (e' & E3 & E). simpl Z.eqb in E. cbv iota in E.
  apply sift_fixe_h in E as (l & Hl & Hlast & Hc); auto; [|lia].
  exists imf1, l. split; [constructor; auto|]. split; auto.
  destruct Hc as [Hc|(l1 & l2 & -> & Hg & Hc)]; [left; lia|].
  right. exists l1, l2. repeat split; auto. destruct Hc as [Hc|[_ Hc]]; lia.
Qed.

(** Default stopping rule. *)
Lemma sift_default fuel c T n n_h ext imf imf' ext' :
  FIXE c = 0 -> FIXE_H c = 0 -> 0 <= n <= MAX_ITERATION c - 1 -> 
  sift spl fuel c T n n_h ext imf = Ok (imf', ext', false) ->
  exists l, iterates (step c T) (imf :: l) /\ last (imf :: l) [] = imf' /\
    (n + zlen l = MAX_ITERATION c - 1 \/
     exists l1 x eM em, imf :: l = l1 ++ [x; imf'] /\
       sift_step spl c T x = Ok (imf', eM, em) /\
       check_imf c imf' x eM em = Ok true /\ balanced c T imf').
Proof.
  intros HF HH. revert n n_h ext imf.
  induction fuel as [|fuel IH]; intros n n_h ext imf Hn E; cbn [sift] in E.
  { discriminate. }
  destruct (MAX_ITERATION c <=? n + 1) eqn:D.
  { injection E as <- <-. exists []. repeat split; try constructor. unfold zlen; simpl. lia. }
  apply bind_ok in E as (e & E1 & E).
  destruct (2 <? ext_no e). 2:{ discriminate. }
  apply bind_ok in E as ([[imf1 eM] em] & E2 & E).
  assert (Hst : step c T imf imf1) by (exists eM, em; exact E2).
  replace (negb (FIXE c =? 0)) with false in E by lia.
  replace (negb (FIXE_H c =? 0)) with false in E by lia.
  apply bind_ok in E as (e' & E3 & E).
  apply bind_ok in E as (f1 & E4 & E).
  destruct (f1 && _) eqn:Df.
  { injection E as <- <-. apply andb_true_iff in Df as [-> Df].
    exists [imf1]. split; [constructor; auto; constructor|]. split; auto.
    right. exists [], imf, eM, em. repeat split; auto.
    exists e'. split; auto. unfold ext_no in Df. lia. }
  apply IH in E as (l & Hl & Hlast & Hc); [|lia].
  exists (imf1 :: l). split; [constructor; auto|]. split; [exact Hlast|].
  destruct Hc as [Hc|(l1 & x & eM' & em' & Hd & Hc)]; [left; rewrite zlen_cons; lia|].
  right. exists (imf :: l1), x, eM', em'. split; auto. simpl. rewrite <- Hd. reflexivity.
Qed.

(** Any sifting makes at most MAX_ITERATION - 1 sifts. *)
Lemma sift_bounded fuel c T n n_h ext imf imf' ext' fin :
  0 <= n -> 
  sift spl fuel c T n n_h ext imf = Ok (imf', ext', fin) ->
  exists l, iterates (step c T) (imf :: l) /\ last (imf :: l) [] = imf' /\
    (l = [] \/ n + zlen l <= MAX_ITERATION c - 1).
Proof.
  revert n n_h ext imf.
  induction fuel as [|fuel IH]; intros n n_h ext imf Hn E; cbn [sift] in E.
  { discriminate. }
  destruct (MAX_ITERATION c <=? n + 1) eqn:D.
  { injection E as <- <- <-. exists []. repeat split; try constructor. auto. }
  apply bind_ok in E as (e & E1 & E).
  destruct (2 <? ext_no e).
  2:{ injection E as <- <- <-. exists []. repeat split; try constructor. auto. }
  apply bind_ok in E as ([[imf1 eM] em] & E2 & E).
  assert (Hst : step c T imf imf1) by (exists eM, em; exact E2).
  assert (Hrec : forall n_h ext, sift spl fuel c T (n + 1) n_h ext imf1 = Ok (imf', ext', fin) ->
    exists l, iterates (step c T) (imf :: l) /\ last (imf :: l) [] = imf' /\
      (l = [] \/ n + zlen l <= MAX_ITERATION c - 1)).
  { intros nh ex E'. apply IH in E' as (l & Hl & Hlast & Hc); [|lia].
    exists (imf1 :: l). split; [constructor; auto|]. split; [exact Hlast|].
    right. rewrite zlen_cons. destruct Hc as [->|Hc]; [unfold zlen; simpl; lia|lia]. }
  assert (Hone : Ok (imf1, ext', fin) = Ok (imf', ext', fin) ->
    exists l, iterates (step c T) (imf :: l) /\ last (imf :: l) [] = imf' /\
      (l = [] \/ n + zlen l <= MAX_ITERATION c - 1)).
  { intros [= <-]. exists [imf1]. split; [constructor; auto; constructor|]. split; auto.
    right. unfold zlen; simpl. lia. }
  destruct (negb (FIXE c =? 0)).
  { destruct (FIXE c <=? n + 1); [|eauto]. injection E as <- <- <-. auto. }
  destruct (negb (FIXE_H c =? 0)).
  { apply bind_ok in E as (e' & E3 & E).
    destruct (n + 1 =? 1); [eauto|].
    destruct (FIXE_H c <=? _); [|eauto]. injection E as <- <- <-. auto. }
  apply bind_ok in E as (e' & E3 & E).
  apply bind_ok in E as (f1 & E4 & E).
  destruct (f1 && _); [|eauto]. injection E as <- <- <-. auto.
Qed.

(** ** Signals with at most two extrema *)
Lemma emd_trend fuel c S T k t e :
  (0 < fuel)%nat -> 2 <= MAX_ITERATION c -> S <> [] ->
  emd_time c S T = Ok t ->
  let r0 := vsub S (vzeros (length S)) in
  find_extrema (extrema_detection c) t r0 = Ok e ->
  zlen (max_pos e) + zlen (min_pos e) <= 2 ->
  emd spl fuel c S T k =
    Ok (MkOut (if allclose0 r0 then [] else [r0]) [] r0).
Proof.
  intros Hf HM HS Ht r0 He Hx.
  assert (HLr : length r0 = length S). { apply vsub_length. rewrite vzeros_length. reflexivity. }
  assert (HLt : length t = length S).
  { unfold emd_time in Ht.
    assert (HN : forall x y : vec, normalize_time x = Ok y -> length y = length x).
    { intros x y E. unfold normalize_time in E. destruct (existsb _ _); [discriminate|].
      apply bind_ok in E as (t0 & _ & E). apply bind_ok in E as (m & _ & E).
      injection E as <-. apply map_length. }
    apply bind_ok in Ht as (u & Eu & Ht). apply bind_ok in Ht as (t' & Et & Ht).
    apply HN in Ht. rewrite Ht.
    assert (HTL : forall y, timeline (length S) = Ok y -> length y = length S).
    { intros y Ey. unfold timeline in Ey. destruct (length S) eqn:EL; [discriminate|].
      injection Ey as <-.
      change (length (map nofZ (zseq 0 (Datatypes.S n))) = Datatypes.S n).
      rewrite map_length. apply zseq_length. }
    destruct T as [x|]; [|auto].
    destruct (Nat.eqb_spec (length S) (length x)); [|discriminate].
    destruct (extrema_detection c); auto; injection Et as <-; auto. }
  unfold emd. rewrite Ht. simpl. rewrite HLt, Nat.eqb_refl. simpl.
  destruct fuel as [|fuel]; [lia|]. cbn [emd_loop].
  change (sum_rows (length S) []) with (@vzeros A _ (length S)). fold r0.
  unfold sift_fuel. cbn [sift].
  replace (MAX_ITERATION c <=? 0 + 1) with false by lia.
  rewrite He. simpl. replace (2 <? ext_no e) with false by (unfold ext_no; lia). simpl.
  assert (Hend : exists b, end_condition c S [r0] = Ok b).
  { unfold end_condition.
    set (tmp := vsub S _). assert (Ht' : length tmp = length S).
    { unfold tmp. apply vsub_length. symmetry. apply sum_rows_length.
      intros r [<-|[]]. auto. }
    destruct tmp as [|x tmp]; [destruct S; [congruence|discriminate]|]. simpl.
    destruct (nltb _ _); [eauto|]. destruct (nltb _ _); eauto. }
  destruct Hend as (b & ->). simpl.
  assert (HF : emd_finish S [r0] (ext_no e) = MkOut (if allclose0 r0 then [] else [r0]) [] r0).
  { unfold emd_finish. replace (ext_no e <=? 2) with true by (unfold ext_no; lia).
    cbn [removelast]. change (sum_rows (length S) []) with (@vzeros A _ (length S)).
    reflexivity. }
  destruct (b || _); simpl; rewrite HF; reflexivity.
Qed.

(** ** Time is ignored in simple mode *)
Lemma emd_simple_time fuel c S T T' k :
  extrema_detection c = Simple -> length T = length S -> length T' = length S ->
  emd spl fuel c S (Some T) k = emd spl fuel c S (Some T') k /\
  emd spl fuel c S (Some T) k = emd spl fuel c S None k.
Proof.
  intros Hm HT HT'. unfold emd, emd_time. rewrite Hm, HT, HT', Nat.eqb_refl. simpl. auto.
Qed.

Lemma emd_bad_length fuel c S T k :
  length T <> length S -> emd spl fuel c S (Some T) k = Raise ValueError.
Proof.
  intros HT. unfold emd, emd_time.
  replace (Nat.eqb (length S) (length T)) with false by lia. reflexivity.
Qed.

End Generic2.
