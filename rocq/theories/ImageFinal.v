(** * ImageFinal: the properties of EMD2D and BEMD in terms of ImageSpec. *)
From Verif Require Import PyFacts QcFacts Spec Image ImageSpec EmdExact ImageProofs ImageSift BemdProofs.
From Coq Require Import ZifyBool ZifyNat QArith Qcanon Sorting.Sorted.
Open Scope Z_scope.

Lemma before_irrefl p : ~ before p p.
Proof. unfold before. lia. Qed.
Lemma before_trans p q r : before p q -> before q r -> before p r.
Proof. unfold before. lia. Qed.
Lemma listed_unique P ps qs : listed P ps -> listed P qs -> ps = qs.
Proof.
  intros [S1 H1] [S2 H2]. assert (E : forall p, In p ps <-> In p qs) by (intros [i j]; rewrite H1, H2; tauto).
  clear H1 H2. revert qs S2 E. induction S1 as [|p ps S1 IH F1]; intros qs S2 E.
  - destruct qs as [|q qs]; auto. destruct (E q) as [_ E2]. destruct E2. left; auto.
  - destruct S2 as [|q qs S2 F2]; [destruct (E p) as [E2 _]; destruct E2; left; auto|].
    rewrite Forall_forall in F1, F2.
    assert (p = q).
    { destruct (proj1 (E p) ltac:(left; auto)) as [I|I]; auto. destruct (proj2 (E q) ltac:(left; auto)) as [J|J]; auto.
      exfalso. apply (before_irrefl p). eapply before_trans; [apply F1, J|apply F2, I]. }
    subst q. f_equal. apply IH; auto. intros r. split; intros I.
    + destruct (proj1 (E r) ltac:(right; auto)) as [->|]; auto. exfalso. exact (before_irrefl _ (F1 _ I)).
    + destruct (proj2 (E r) ltac:(right; auto)) as [->|]; auto. exfalso. exact (before_irrefl _ (F2 _ I)).
Qed.

(** ** Envelopes *)
Lemma env2_doc sbs n m x lower upper : rect n m x -> (0 < n)%nat ->
  env2 sbs x lower upper <->
  envelopes_2d n m (fun ps vs e => sbs ps vs (seq n n) (seq m m) = Ok e) x lower upper.
Proof.
  intros Hx Hn. unfold env2, envelopes2, envelopes_2d.
  destruct (prepare_image_spec n m x Hx) as [Rt Pt].
  destruct (find_extrema2_spec (3 * n) (3 * m) (prepare_image x) Rt ltac:(lia)) as (mins & maxs & -> & S1 & S2 & I1 & I2).
  rewrite (nrows_rect n m), (ncols_rect n m) by auto. split.
  - destruct (sbs mins _ _ _) as [e1|] eqn:E1; cbn [bind]; [|discriminate].
    destruct (sbs maxs _ _ _) as [e2|] eqn:E2; cbn [bind]; [|discriminate].
    intros [= <- <-]. exists (prepare_image x), mins, maxs. split; [split; auto|]. split; [split; auto|]. split; [split; auto|]. split; [exact E1|exact E2].
  - intros (t & ms & Ms & [Tr Tp] & L1 & L2 & F1 & F2).
    assert (t = prepare_image x). { apply (image_ext (3 * n) (3 * m)); auto. intros i j Hi Hj. rewrite Tp, Pt; auto. }
    subst t. assert (ms = mins) by (eapply listed_unique; [exact L1|split; auto]). subst ms.
    assert (Ms = maxs) by (eapply listed_unique; [exact L2|split; auto]). subst Ms.
    unfold pix. unfold pixel in F1, F2. change (@n0 Qc _) with 0%Qc. rewrite F1. cbn [bind]. rewrite F2. reflexivity.
Qed.

Lemma over_impl n m (en en' : img -> Prop) (env env' : img -> img -> img -> Prop) k : forall x e y,
  rect n m x -> (forall x, rect n m x -> en x -> en' x) -> (forall x l u, rect n m x -> env x l u -> env' x l u) ->
  over_sifted n m en env k x e y -> over_sifted n m en' env' k x e y.
Proof.
  intros x e y Hx He Hv O. revert Hx. induction O as [|k x e0 x' lo up e y z G M1 V Md M2 O IH]; intros Hx; [constructor|].
  eapply over_more; eauto; [apply Hv; auto; apply M1|]. apply IH. apply M2.
Qed.
Lemma sifted_impl n m (en en' : img -> Prop) (env env' : img -> img -> img -> Prop) k : forall x y,
  rect n m x -> (forall x, rect n m x -> en x -> en' x) -> (forall x l u, rect n m x -> env x l u -> env' x l u) ->
  sifted n m en env k x y -> sifted n m en' env' k x y.
Proof.
  intros x y Hx He Hv O. revert Hx. induction O as [|k x lo up e y z G V Md M2 O IH]; intros Hx; [constructor|].
  eapply sifted_more; eauto. apply IH. apply M2.
Qed.
Lemma peeled_impl n m (step step' : img -> img -> Prop) x comps :
  (forall r y, rect n m r -> step r y -> step' r y) -> peeled n m step x comps -> peeled n m step' x comps.
Proof.
  intros H P l c r E. destruct (P l c r E) as (rest & R & Q & S). exists rest. auto.
Qed.
Lemma izeros_blank n m x : rect n m x -> blank n m (izeros x).
Proof. intros Hx. split; [apply rect_zeros; auto|]. intros i j Hi Hj. unfold izeros. rewrite (pixel_imap n m); auto. Qed.

(** ** EMD2D *)
Lemma emd2d_decomposes sbs c fuel image max_imf n m rows : surface_ok sbs -> (0 < n)%nat -> rect n m image ->
  emd2d sbs c fuel image max_imf = Ok rows ->
  exists lo hi, darkest n m image lo /\ brightest n m image hi /\ (lo < hi)%Qc /\
    Forall (rect n m) rows /\
    forall i j, (i < n)%nat -> (j < m)%nat -> within (tol * (hi - lo))%Qc (pixel image i j - stack_sum rows i j)%Qc.
Proof.
  intros Hs Hn Hx E. destruct (emd2d_spec _ _ _ _ _ n m _ Hs Hn Hx E)
    as (lo & hi & xs & comps & tail & Dk & Br & LH & _ & _ & _ & _ & _ & Fr & _ & _ & Q).
  exists lo, hi. split; [auto|]. split; [auto|]. split; [auto|]. split; [auto|]. intros. apply Q; auto.
Qed.

Definition spec2 (sbs : surface Qc) (n m : nat) : img -> img -> img -> Prop :=
  envelopes_2d n m (fun ps vs e => sbs ps vs (seq n n) (seq m m) = Ok e).

(** Row number k is component number k in the image's units; the last row also carries the
    darkest level. *)
Definition in_units (n m : nat) (lo hi : Qc) (comps rows : list img) : Prop :=
  length rows = length comps /\
  forall k i j, (k < length comps)%nat -> (i < n)%nat -> (j < m)%nat ->
    pixel (nth k rows []) i j =
    (pixel (nth k comps []) i j * (hi - lo) + if (k + 1 =? length comps)%nat then lo else 0)%Qc.

Lemma emd2d_sifts sbs c fuel image max_imf n m rows : surface_ok sbs -> (0 < n)%nat -> rect n m image ->
  emd2d sbs c fuel image max_imf = Ok rows ->
  exists lo hi xs comps tail zero, darkest n m image lo /\ brightest n m image hi /\ (lo < hi)%Qc /\
    normalised n m lo hi image xs /\ in_units n m lo hi (comps ++ tail) rows /\ (length tail <= 1)%nat /\ blank n m zero /\
    peeled n m (fun r y => exists j, over_sifted n m (five_each n m) (spec2 sbs n m) j r zero y /\
      (j <= Z.to_nat (MAX_ITERATION2 c))%nat /\
      (FIXE2 c > 0 -> j = Nat.min (Z.to_nat (MAX_ITERATION2 c)) (Z.to_nat (FIXE2 c + 1)) \/
         (j < Nat.min (Z.to_nat (MAX_ITERATION2 c)) (Z.to_nat (FIXE2 c + 1)))%nat /\ ~ five_each n m y)) xs comps.
Proof.
  intros Hs Hn Hx E. destruct (emd2d_spec _ _ _ _ _ n m _ Hs Hn Hx E)
    as (lo & hi & xs & comps & tail & Dk & Br & LH & Nx & NE & Pl & LM & Lt & Fr & Lr & Rw & Q).
  exists lo, hi, xs, comps, tail, (izeros image). split; [auto|]. split; [auto|]. split; [auto|]. split; [auto|].
  split. { split; [auto|]. intros k i j Hk Hi Hj.
    destruct (nth_split (comps ++ tail) [] Hk) as (l & z & E1 & Ll).
    rewrite (Rw l (nth k (comps ++ tail) []) z k E1 Ll i j Hi Hj).
    replace (match z with [] => lo | _ => 0%Qc end) with (if (k + 1 =? length (comps ++ tail))%nat then lo else 0%Qc); auto.
    rewrite E1 at 1. rewrite app_length. cbn [length]. destruct z; cbn [length].
    - replace (k + 1 =? length l + 1)%nat with true by lia. auto.
    - replace (k + 1 =? length l + Datatypes.S (Datatypes.S (length z)))%nat with false by lia. auto. }
  split; [auto|]. split; [apply izeros_blank; auto|]. eapply peeled_impl; [|exact Pl].
  intros r y Hr [b S]. cbv beta in *.
  assert (Hz : rect n m (izeros image)) by (apply rect_zeros; auto).
  assert (V : forall x l u, rect n m x -> env2 sbs x l u -> spec2 sbs n m x l u) by (intros; apply env2_doc; auto).
  destruct (Z_lt_le_dec 0 (FIXE2 c)) as [C|C].
  - destruct (sift2_fixe sbs c n m Hs Hn (Z.to_nat (MAX_ITERATION2 c)) 0 0 r (izeros image) y b Hr Hz ltac:(lia) ltac:(lia) S)
      as (j & O & D). exists j. rewrite Z.sub_0_r in D. split; [|split].
    + eapply over_impl; [exact Hr| |exact V|exact O]. auto.
    + destruct D as [[_ ->]|(_ & L & _)]; lia.
    + intros _. destruct D as [[_ ->]|(_ & L & NF)]; auto.
  - destruct (sift2_any sbs c n m Hs Hn (Z.to_nat (MAX_ITERATION2 c)) 0 0 r (izeros image) y b Hr Hz S)
      as (_ & j & Lj & O & D). exists j. split; [|split; [auto|lia]].
    eapply over_impl; [exact Hr| |exact V|exact O]. auto.
Qed.

Lemma emd2d_limit sbs c fuel image max_imf n m rows : surface_ok sbs -> (0 < n)%nat -> rect n m image ->
  0 < max_imf -> emd2d sbs c fuel image max_imf = Ok rows -> 1 <= zlen rows <= max_imf + 1.
Proof.
  intros Hs Hn Hx Hm E. destruct (emd2d_spec _ _ _ _ _ n m _ Hs Hn Hx E)
    as (lo & hi & xs & comps & tail & Dk & Br & LH & Nx & NE & Pl & LM & Lt & Fr & Lr & Rw & Q).
  specialize (LM Hm). unfold zlen in *. rewrite Lr, app_length. destruct comps; [congruence|]. cbn [length] in *. lia.
Qed.

Lemma emd2d_constant sbs c fuel image max_imf n m v : (0 < n)%nat -> (0 < m)%nat -> rect n m image ->
  (forall i j, (i < n)%nat -> (j < m)%nat -> pixel image i j = v) ->
  emd2d sbs c fuel image max_imf = Raise ZeroDivisionError.
Proof.
  intros Hn Hm Hx Hv. unfold emd2d.
  assert (NE : concat image <> []).
  { intros E. assert (I : In (pixel image 0 0) (concat image)) by (apply (concat_In n m); eauto). rewrite E in I. destruct I. }
  destruct (np_min_ok (concat image) NE) as [lo E1]. destruct (np_max_ok (concat image) NE) as [hi E2].
  rewrite E1, E2. cbn [bind]. apply np_min_spec in E1. apply np_max_spec in E2. destruct E1 as [I1 _], E2 as [I2 _].
  apply (concat_In n m) in I1, I2; auto. destruct I1 as (a & b & [Ha Hb] & <-), I2 as (a' & b' & [Ha' Hb'] & <-).
  rewrite !Hv by auto. change neqb with Qc_eqb. replace (Qc_eqb (nsub v v) n0) with true; auto.
  symmetry. apply Qc_eqb_eq. change nsub with Qcminus. change n0 with 0%Qc. ring.
Qed.

(** ** BEMD *)
Definition rec_ok (n m : nat) (rec : reconstruction Qc) : Prop :=
  forall s x, rect n m s -> rect n m x -> reconstructed n m s x (rec s x).

Lemma dimmed_rect n m x : rect n m x -> rect n m (dimmed x).
Proof. intros. apply rect_imap; auto. Qed.
Lemma swap_swap l : map swap (map swap l) = l.
Proof. rewrite map_map. rewrite <- map_id. apply map_ext. intros [a b]. reflexivity. Qed.
Lemma sorted_nodup ps : StronglySorted before ps -> NoDup ps.
Proof.
  induction 1 as [|p ps S IH F]; constructor; auto. intros I. rewrite Forall_forall in F. exact (before_irrefl _ (F _ I)).
Qed.
Lemma listed_at_least k P ps : listed P ps -> at_least k P <-> (k <= length ps)%nat.
Proof.
  intros [S I]. split.
  - intros (qs & ND & L & H). eapply Nat.le_trans; [exact L|]. apply NoDup_incl_length; auto.
    intros [i j] Q. apply I. auto.
  - intros L. exists ps. split; [apply sorted_nodup; auto|]. split; auto. intros i j Q. apply I. auto.
Qed.

Section Bi.
Variable rec : reconstruction Qc.
Variables n m : nat.
Hypothesis Hrec : rec_ok n m rec.
Hypothesis Hn : (0 < n)%nat.
Lemma mins_listed x : rect n m x -> listed (prominent n m (negative x)) (map swap (minima_positions rec x)).
Proof. intros Hx. apply minima_listed; auto. apply Hrec; auto using negative_rect, dimmed_rect. Qed.
Lemma maxs_listed x : rect n m x -> listed (prominent n m x) (map swap (maxima_positions rec x)).
Proof. intros Hx. apply maxima_listed; auto. apply Hrec; auto using dimmed_rect. Qed.
Lemma two_each_doc x : rect n m x -> two_each rec x <-> two_prominent n m x.
Proof.
  intros Hx. unfold two_each, two_prominent.
  rewrite (listed_at_least 2 _ _ (mins_listed x Hx)), (listed_at_least 2 _ _ (maxs_listed x Hx)), !map_length. tauto.
Qed.
End Bi.

Lemma env_b_doc rec f n x lower upper : rec_ok n n rec -> (0 < n)%nat -> rect n n x ->
  env_b rec f x lower upper <->
  envelopes_bi n n at_transposed (fun ps vs e => f ps vs n n = Ok e) x lower upper.
Proof.
  intros Hr Hn Hx. unfold env_b, envelopes_b, envelopes_bi.
  assert (L1 := mins_listed rec n n Hr Hn x Hx). assert (L2 := maxs_listed rec n n Hr Hn x Hx).
  assert (B : forall P ps, listed P (map swap ps) -> (forall i j, P i j -> (i < n)%nat /\ (j < n)%nat) ->
    mapM (pick x) ps = Ok (map (at_transposed x) (map swap ps))).
  { intros P ps [_ L] HP. assert (In_range : forall p, In p ps -> (fst p < n /\ snd p < n)%nat).
    { intros [a b] I. cbn [fst snd]. destruct (HP b a); [apply L; apply in_map_iff; exists (a, b); auto|auto]. }
    rewrite (mapM_pick n n) by auto. f_equal. rewrite map_map. apply map_ext. intros [a b]. reflexivity. }
  rewrite (B _ _ L1) by (intros i j (Hi & Hj & _); auto). rewrite (B _ _ L2) by (intros i j (Hi & Hj & _); auto).
  rewrite (nrows_rect n n), (ncols_rect n n) by auto. cbn [bind]. split.
  - destruct (f (minima_positions rec x) _ _ _) as [e1|] eqn:E1; cbn [bind]; [|discriminate].
    destruct (f (maxima_positions rec x) _ _ _) as [e2|] eqn:E2; cbn [bind]; [|discriminate].
    intros [= <- <-]. eexists _, _. split; [exact L1|]. split; [exact L2|]. rewrite !swap_swap. auto.
  - intros (ms & Ms & M1 & M2 & F1 & F2).
    assert (ms = map swap (minima_positions rec x)) by (eapply listed_unique; eauto).
    assert (Ms = map swap (maxima_positions rec x)) by (eapply listed_unique; eauto). subst ms Ms.
    rewrite !swap_swap in F1, F2. rewrite F1. cbn [bind]. rewrite F2. reflexivity.
Qed.

(** For images that equal their transpose the values are the right ones. *)
Lemma symmetric_reads n fit x lower upper : self_transposed n x ->
  envelopes_bi n n at_transposed fit x lower upper <-> envelopes_bi n n at_pixel fit x lower upper.
Proof.
  intros Sy. unfold envelopes_bi.
  assert (K : forall P ps, listed P ps -> (forall i j, P i j -> (i < n)%nat /\ (j < n)%nat) ->
    map (at_transposed x) ps = map (at_pixel x) ps).
  { intros P ps [_ L] HP. apply map_ext_in. intros [a b] I. destruct (HP a b) as [Ha Hb]; [apply L; auto|].
    unfold at_transposed, at_pixel. cbn [fst snd]. apply Sy; auto. }
  assert (HP : forall y i j, prominent n n y i j -> (i < n)%nat /\ (j < n)%nat) by (intros y i j (A & B & _); auto).
  split; intros (ms & Ms & M1 & M2 & F1 & F2); exists ms, Ms; (split; [auto|split; [auto|]]);
    [rewrite (K _ _ M1 (HP _)) in F1; rewrite (K _ _ M2 (HP _)) in F2|rewrite (K _ _ M1 (HP _)); rewrite (K _ _ M2 (HP _))]; auto.
Qed.

Definition spec_b (f : rbf Qc) (n : nat) : img -> img -> img -> Prop :=
  envelopes_bi n n at_transposed (fun ps vs e => f ps vs n n = Ok e).

Lemma bemd_decomposes rec f c fuel image max_imf n rows : rbf_ok f -> (0 < n)%nat -> rect n n image ->
  bemd rec f c fuel image max_imf = Ok rows ->
  Forall (rect n n) rows /\
  forall i j, (i < n)%nat -> (j < n)%nat -> within tol (pixel image i j - stack_sum rows i j)%Qc.
Proof.
  intros Hf Hn Hx E. destruct (bemd_spec _ _ _ _ _ _ n _ Hf Hn Hx E) as (comps & tail & -> & NE & Fr & Pl & LM & Lt & Q).
  split; auto. intros. apply Q; auto.
Qed.
Lemma bemd_sifts rec f c fuel image max_imf n rows : rec_ok n n rec -> rbf_ok f -> (0 < n)%nat -> rect n n image ->
  bemd rec f c fuel image max_imf = Ok rows ->
  exists comps tail, rows = comps ++ tail /\ (length tail <= 1)%nat /\
    peeled n n (fun r y => exists j, sifted n n (two_prominent n n) (spec_b f n) j r y /\
      (j <= Z.to_nat (MAX_ITERATION2 c))%nat /\
      (FIXE2 c > 0 -> j = Nat.min (Z.to_nat (MAX_ITERATION2 c)) (Z.to_nat (FIXE2 c + 1)) \/
         (j < Nat.min (Z.to_nat (MAX_ITERATION2 c)) (Z.to_nat (FIXE2 c + 1)))%nat /\ ~ two_prominent n n y)) image comps.
Proof.
  intros Hr Hf Hn Hx E. destruct (bemd_spec _ _ _ _ _ _ n _ Hf Hn Hx E) as (comps & tail & -> & NE & Fr & Pl & LM & Lt & Q).
  exists comps, tail. split; [auto|]. split; [auto|]. eapply peeled_impl; [|exact Pl]. intros r y Hrr S. cbv beta in *.
  assert (V : forall x l u, rect n n x -> env_b rec f x l u -> spec_b f n x l u) by (intros x l u Hxx W; exact (proj1 (env_b_doc rec f n x l u Hr Hn Hxx) W)).
  assert (G : forall x, rect n n x -> two_each rec x -> two_prominent n n x) by (intros x Hxx W; exact (proj1 (two_each_doc rec n n Hr Hn x Hxx) W)).
  destruct (sift_b_any rec f c Hf n Hn _ _ _ _ _ _ Hrr S) as (Ry & _ & j & Lj & O).
  destruct (Z_lt_le_dec 0 (FIXE2 c)) as [C|C].
  - destruct (sift_b_fixe rec f c Hf n Hn (Z.to_nat (MAX_ITERATION2 c)) 0 0 r y true Hrr ltac:(lia) ltac:(lia) S) as (j' & O' & D).
    exists j'. rewrite Z.sub_0_r in D. split; [|split].
    + eapply sifted_impl; [exact Hrr|exact G|exact V|exact O'].
    + destruct D as [->|(L & _)]; lia.
    + intros _. destruct D as [->|(L & NF)]; auto. right. split; auto. intros T. apply NF.
      exact (proj2 (two_each_doc rec n n Hr Hn y Ry) T).
  - exists j. split; [|split; [auto|lia]]. eapply sifted_impl; [exact Hrr|exact G|exact V|exact O].
Qed.
Lemma bemd_limit rec f c fuel image max_imf n rows : rbf_ok f -> (0 < n)%nat -> rect n n image ->
  0 < max_imf -> bemd rec f c fuel image max_imf = Ok rows -> 1 <= zlen rows <= max_imf + 1.
Proof.
  intros Hf Hn Hx Hm E. destruct (bemd_spec _ _ _ _ _ _ n _ Hf Hn Hx E) as (comps & tail & -> & NE & Fr & Pl & LM & Lt & Q).
  specialize (LM Hm). unfold zlen in *. rewrite app_length. destruct comps; [congruence|]. cbn [length] in *. lia.
Qed.
Lemma bemd_oblong rec f c fuel image max_imf n m : rec_ok n m rec -> rbf_ok f -> (2 <= n)%nat -> (2 <= m)%nat -> n <> m ->
  rect n m image -> two_prominent n m image -> 0 < MAX_ITERATION2 c -> (0 < fuel)%nat ->
  exists e, bemd rec f c fuel image max_imf = Raise e.
Proof.
  intros Hr Hf Hn Hm Hnm Hx G HM Hfu. eapply (bemd_not_square rec f c fuel image max_imf n m); eauto; try lia.
  apply (two_each_doc rec n m Hr); auto. lia.
Qed.
Lemma positions_prominent rec n m x : rec_ok n m rec -> (0 < n)%nat -> rect n m x ->
  listed (prominent n m (negative x)) (map swap (minima_positions rec x)) /\
  listed (prominent n m x) (map swap (maxima_positions rec x)).
Proof. intros Hr Hn Hx. split; [apply mins_listed|apply maxs_listed]; auto. Qed.
