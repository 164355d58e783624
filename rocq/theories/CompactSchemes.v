(** * CompactSchemes: filt6 and pade6 on sampled polynomials. *)
From Verif Require Import PyFacts QcFacts Compact Spec CompactSpec EmdExact EmdFlat CompactProofs.
From Coq Require Import ZifyBool ZifyNat QArith Qcanon.
Open Scope Z_scope.

(** ** Reading arrays *)
Lemma sample_nth (l : vec) i : 0 <= i -> sample l i = nth (Z.to_nat i) l 0%Qc.
Proof. reflexivity. Qed.
Lemma vec_ext (x y : vec) : length x = length y -> (forall i, 0 <= i < zlen x -> sample x i = sample y i) -> x = y.
Proof.
  intros L E. apply (nth_ext _ _ 0%Qc 0%Qc); auto. intros i Hi.
  specialize (E (Z.of_nat i)). unfold sample in E. rewrite Nat2Z.id in E. apply E. unfold zlen. lia.
Qed.
Lemma sample_map2 f (x y : vec) i : 0 <= i < zlen x -> i < zlen y ->
  sample (map2 f x y) i = f (sample x i) (sample y i).
Proof.
  unfold sample, zlen. intros Hx Hy. remember (Z.to_nat i) as k eqn:Ek.
  assert (H1 : (k < length x)%nat) by lia. assert (H2 : (k < length y)%nat) by lia. clear - H1 H2.
  revert y k H1 H2. induction x as [|a x IH]; intros [|b y] [|k]; cbn [length map2 nth]; intros; try lia; auto.
  apply IH; lia.
Qed.
Lemma zlen_map2 {X Y W} (f : X -> Y -> W) (x : list X) (y : list Y) : zlen (map2 f x y) = Z.min (zlen x) (zlen y).
Proof.
  unfold zlen. revert y. induction x as [|a x IH]; intros [|b y]; cbn [map2 length]; try lia. specialize (IH y). lia.
Qed.
Lemma zlen_map {X Y} (f : X -> Y) l : zlen (map f l) = zlen l.
Proof. unfold zlen. rewrite map_length. auto. Qed.
Lemma sample_map f (x : vec) i : 0 <= i < zlen x -> sample (map f x) i = f (sample x i).
Proof.
  unfold sample, zlen. intros Hi. rewrite nth_indep with (d' := f 0%Qc) by (rewrite map_length; lia). apply map_nth.
Qed.
Lemma zlen_slice {X} (l : list X) lo hi :
  zlen (py_slice l lo hi) = Z.max 0 (clip_bound (zlen l) hi - clip_bound (zlen l) lo).
Proof.
  unfold py_slice, zlen. rewrite firstn_length, skipn_length. unfold clip_bound. lia.
Qed.
Lemma nth_firstn_lt {X} (l : list X) k i d : (i < k)%nat -> nth i (firstn k l) d = nth i l d.
Proof.
  revert l i. induction k as [|k IH]; intros [|x l] [|i] Hi; cbn [firstn nth]; try lia; auto. apply IH. lia.
Qed.
Lemma nth_skipn_add {X} (l : list X) k i d : nth i (skipn k l) d = nth (k + i) l d.
Proof.
  revert l. induction k as [|k IH]; intros [|x l]; cbn [skipn nth plus]; auto. destruct i; auto.
Qed.
Lemma sample_slice (l : vec) lo hi i : 0 <= i < clip_bound (zlen l) hi - clip_bound (zlen l) lo ->
  sample (py_slice l lo hi) i = sample l (clip_bound (zlen l) lo + i).
Proof.
  intros Hi. unfold py_slice, sample. rewrite nth_firstn_lt by lia. rewrite nth_skipn_add. f_equal.
  unfold clip_bound in *. lia.
Qed.
Lemma py_get_sample (l : vec) i : 0 <= i < zlen l -> py_get l i = Ok (sample l i).
Proof. intros Hi. apply py_get_nonneg. auto. Qed.
Lemma py_get_sample_end (l : vec) k : 0 < k <= zlen l -> py_get l (- k) = Ok (sample l (zlen l - k)).
Proof.
  intros Hk. unfold py_get. replace (- k <? 0) with true by lia. replace (- k + zlen l) with (zlen l - k) by lia.
  replace (zlen l - k <? 0) with false by lia. unfold sample, zlen in *.
  rewrite nth_error_nth' with (d := 0%Qc) by lia. reflexivity.
Qed.
Lemma py_get_sample_neg (l : vec) k : Z.pos k <= zlen l -> py_get l (Z.neg k) = Ok (sample l (zlen l - Z.pos k)).
Proof. intros Hk. apply (py_get_sample_end l (Z.pos k)). lia. Qed.

(** Assignments. *)
Lemma replace_length k (v : Qc) l : length (replace_at k v l) = length l.
Proof. revert k. induction l as [|x l IH]; intros [|k]; cbn; auto. Qed.
Lemma replace_nth k (v : Qc) l i : (k < length l)%nat ->
  nth i (replace_at k v l) 0%Qc = if Nat.eqb i k then v else nth i l 0%Qc.
Proof.
  revert k i. induction l as [|x l IH]; intros [|k] [|i] Hk; cbn in *; try lia; auto. apply IH. lia.
Qed.
Definition wrap (n i : Z) : Z := if i <? 0 then i + n else i.
Lemma set_spec (l : vec) i v : 0 <= wrap (zlen l) i < zlen l ->
  exists l', py_set l i v = Ok l' /\ zlen l' = zlen l /\
    forall j, 0 <= j -> sample l' j = if j =? wrap (zlen l) i then v else sample l j.
Proof.
  intros Hi. unfold py_set. fold (wrap (zlen l) i).
  replace (wrap (zlen l) i <? 0) with false by lia. replace (zlen l <=? wrap (zlen l) i) with false by lia. cbn [orb].
  eexists. split; [reflexivity|]. unfold zlen at 1. rewrite replace_length. split; auto.
  intros j Hj. unfold sample. rewrite replace_nth by (unfold zlen in *; lia).
  destruct (Z.eqb_spec j (wrap (zlen l) i)); destruct (Nat.eqb_spec (Z.to_nat j) (Z.to_nat (wrap (zlen l) i))); auto; lia.
Qed.
Lemma sets_spec us : forall (l : vec), (forall u, In u us -> 0 <= wrap (zlen l) (fst u) < zlen l) ->
  exists l', py_sets l us = Ok l' /\ zlen l' = zlen l /\
    forall j, 0 <= j -> sample l' j =
      fold_left (fun acc u => if j =? wrap (zlen l) (fst u) then snd u else acc) us (sample l j).
Proof.
  induction us as [|u us IH]; intros l Hu.
  - exists l. split; [reflexivity|]. split; auto.
  - destruct (set_spec l (fst u) (snd u) (Hu u (or_introl eq_refl))) as (l1 & E1 & L1 & S1).
    destruct (IH l1) as (l2 & E2 & L2 & S2).
    { intros u' Hu'. rewrite L1. apply Hu. right. auto. }
    exists l2. split; [|split; [congruence|]].
    + unfold py_sets in *. cbn [fold_left bind]. rewrite E1. exact E2.
    + intros j Hj. rewrite S2 by auto. cbn [fold_left]. rewrite L1, S1 by auto. reflexivity.
Qed.
Lemma set_slice_spec (l : vec) lo hi v : 0 <= lo -> 0 <= hi -> lo + hi <= zlen l -> hi <> 0 ->
  zlen v = zlen l - lo - hi ->
  exists l', py_set_slice l lo (- hi) v = Ok l' /\ zlen l' = zlen l /\
    forall j, lo <= j < zlen l - hi -> sample l' j = sample v (j - lo).
Proof.
  intros H1 H2 H3 H4 H5. unfold py_set_slice.
  assert (Ea : clip_bound (zlen l) lo = lo) by (unfold clip_bound; destruct (Z.ltb_spec lo 0); lia).
  assert (Eb : clip_bound (zlen l) (- hi) = zlen l - hi) by (unfold clip_bound; destruct (Z.ltb_spec (- hi) 0); lia).
  rewrite Ea, Eb. rewrite Z.max_r by lia. replace (zlen v =? _) with true by lia.
  eexists. split; [reflexivity|]. split.
  - unfold zlen in *. rewrite !app_length, firstn_length, skipn_length. lia.
  - intros j Hj. unfold sample, zlen in *.
    rewrite app_nth2 by (rewrite firstn_length; lia). rewrite firstn_length.
    rewrite app_nth1 by lia. f_equal. lia.
Qed.

Lemma zlen_zeros n : zlen (@vzeros Qc _ n) = Z.of_nat n.
Proof. unfold zlen. rewrite vzeros_length. auto. Qed.
Lemma sample_scaled_ones a n i : 0 <= i < Z.of_nat n -> sample (vscale a (repeat n1 n)) i = a.
Proof.
  intros Hi. unfold vscale. rewrite sample_map by (unfold zlen; rewrite repeat_length; auto).
  unfold sample. rewrite nth_repeat_lt by lia. change (a * 1 = a)%Qc. ring.
Qed.
Lemma zlen_scaled_ones (a : Qc) n : zlen (vscale a (repeat n1 n)) = Z.of_nat n.
Proof. unfold vscale. rewrite zlen_map. unfold zlen. rewrite repeat_length. auto. Qed.
Lemma sample_ones n i : 0 <= i < Z.of_nat n -> sample (repeat (@n1 Qc _) n) i = 1%Qc.
Proof. intros Hi. unfold sample. rewrite nth_repeat_lt by lia. reflexivity. Qed.

(** Numerals. *)
Lemma nlit_Q p q : nlit p (Z.pos q) = Q2Qc (p # q).
Proof.
  unfold nlit. change (Qc_ofZ p / Qc_ofZ (Z.pos q) = Q2Qc (p # q))%Qc.
  assert (Hq : Qc_ofZ (Z.pos q) <> 0%Qc) by (change (Qc_ofZ (Z.pos q) <> Qc_ofZ 0); rewrite Qc_ofZ_inj; lia).
  apply div_eq; auto. apply Qc_is_canon. rewrite this_mult, !this_ofZ, this_Q2Qc.
  unfold inject_Z, Qeq, Qmult. cbn [Qnum Qden]. lia.
Qed.
Lemma div_lit (x : Qc) q : ndiv x (nlit (Z.pos q) 1) = (x * Q2Qc (1 # q))%Qc.
Proof.
  rewrite nlit_Q. change (x / Q2Qc (Z.pos q # 1) = x * Q2Qc (1 # q))%Qc.
  apply div_eq.
  - intros E. apply this_eq in E. rewrite !this_Q2Qc in E. unfold Qeq in E. cbn in E. lia.
  - rewrite Qcmult_assoc, (Qcmult_comm _ x), <- Qcmult_assoc.
    assert (E : (Q2Qc (Z.pos q # 1) * Q2Qc (1 # q) = 1)%Qc).
    { apply Qc_is_canon. rewrite this_mult, !this_Q2Qc. unfold Qeq, Qmult. cbn [Qnum Qden]. lia. }
    rewrite E. ring.
Qed.
(** Polynomial identities: move to [Q], where [ring] knows the numerals. *)
Ltac qcring :=
  qc_to_q;
  repeat match goal with E : ?v == _ |- _ => is_var v; rewrite E; clear E end;
  try ring.

(** Evaluate the bounds of slices. *)
Ltac clips := repeat match goal with
  | C : forall k, 0 <= k <= _ -> clip_bound ?m k = k |- context [clip_bound ?m (Z.pos ?k)] => rewrite (C (Z.pos k)) by lia
  | C : forall k, 0 <= k <= _ -> clip_bound ?m k = k |- context [clip_bound ?m 0] => rewrite (C 0) by lia
  | D : forall k, _ <= k < 0 -> clip_bound ?m k = _ |- context [clip_bound ?m (Z.neg ?k)] => rewrite (D (Z.neg k)) by lia
  | N : clip_bound ?m ?m = ?m |- context [clip_bound ?m ?m] => rewrite N
  end.

(** ** filt6 *)
Section Filt.
Variable f : vec.
Variable alpha : Qc.
Notation n := (zlen f).
Notation F i := (sample f i).
Definition Ca : Qc := ((Q2Qc 11 + Q2Qc 10 * alpha) * Q2Qc (1 # 16))%Qc.
Definition Cb : Qc := ((Q2Qc 15 + Q2Qc 34 * alpha) * Q2Qc (1 # 32))%Qc.
Definition Cc : Qc := ((Q2Qc (-3) + Q2Qc 6 * alpha) * Q2Qc (1 # 16))%Qc.
Definition Cd : Qc := ((Q2Qc 1 - Q2Qc 2 * alpha) * Q2Qc (1 # 32))%Qc.
Definition h2 : Qc := Q2Qc (1 # 2).
Definition inner_f (a b c d e g h : Qc) : Qc :=
  (Cd * h2 * (g + a) + Cc * h2 * (e + b) + Cb * h2 * (d + c) + Ca * h)%Qc.
Definition r0 (a b c d e : Qc) : Qc := (Q2Qc (15 # 16) * a + (Q2Qc 4 * b - Q2Qc 6 * c + Q2Qc 4 * d - e) * Q2Qc (1 # 16))%Qc.
Definition r1 (a b c d e : Qc) : Qc := (Q2Qc (3 # 4) * b + (a + Q2Qc 6 * c - Q2Qc 4 * d + e) * Q2Qc (1 # 16))%Qc.
Definition r2 (a b c d e : Qc) : Qc := (Q2Qc (5 # 8) * c + (- a + Q2Qc 4 * b + Q2Qc 4 * d - e) * Q2Qc (1 # 16))%Qc.

Lemma filt6_rhs_spec : 5 <= n -> exists rhs, filt6_rhs f alpha = Ok rhs /\ zlen rhs = n /\
  (forall i, 3 <= i < n - 3 ->
     sample rhs i = inner_f (F (i - 3)) (F (i - 2)) (F (i - 1)) (F (i + 1)) (F (i + 2)) (F (i + 3)) (F i)) /\
  sample rhs 0 = r0 (F 0) (F 1) (F 2) (F 3) (F 4) /\
  sample rhs 1 = r1 (F 0) (F 1) (F 2) (F 3) (F 4) /\
  (5 < n -> sample rhs 2 = r2 (F 0) (F 1) (F 2) (F 3) (F 4)) /\
  sample rhs (n - 1) = r0 (F (n - 1)) (F (n - 2)) (F (n - 3)) (F (n - 4)) (F (n - 5)) /\
  sample rhs (n - 2) = r1 (F (n - 1)) (F (n - 2)) (F (n - 3)) (F (n - 4)) (F (n - 5)) /\
  sample rhs (n - 3) = r2 (F (n - 1)) (F (n - 2)) (F (n - 3)) (F (n - 4)) (F (n - 5)).
Proof.
  intros Hn. unfold filt6_rhs.
  rewrite !(py_get_sample f) by lia. rewrite !(py_get_sample_neg f) by lia. cbn [bind].
  rewrite !div_lit, !nlit_Q. fold Ca Cb Cc Cd. change nhalf with h2.
  set (inner := vadd (vadd (vadd _ _) _) _).
  assert (Hz : exists rhs0, py_set_slice (vzeros (length f)) 3 (-3) inner = Ok rhs0 /\ zlen rhs0 = n /\
    forall i, 3 <= i < n - 3 ->
     sample rhs0 i = inner_f (F (i - 3)) (F (i - 2)) (F (i - 1)) (F (i + 1)) (F (i + 2)) (F (i + 3)) (F i)).
  { destruct (Z.eq_dec n 5) as [H5|H5].
    - assert (E : zlen inner = 0).
      { unfold inner, vadd, vscale. rewrite !zlen_map2, !zlen_map, !zlen_slice, H5. reflexivity. }
      eexists. split; [|split; [|intros i Hi; lia]].
      + unfold py_set_slice. rewrite zlen_zeros. change (Z.of_nat (length f)) with n. rewrite H5, E.
        replace (Z.to_nat (clip_bound 5 3)) with 3%nat by reflexivity.
        replace (Z.to_nat (Z.max (clip_bound 5 3) (clip_bound 5 (-3)))) with 3%nat by reflexivity. reflexivity.
      + unfold zlen in *. rewrite !app_length, firstn_length, skipn_length, vzeros_length.
        destruct inner; [|discriminate]. cbn [length]. lia.
    - assert (C : forall k, 0 <= k <= 6 -> clip_bound n k = k) by (intros; unfold clip_bound; destruct (Z.ltb_spec k 0); lia).
      assert (D : forall k, -6 <= k < 0 -> clip_bound n k = n + k) by (intros; unfold clip_bound; destruct (Z.ltb_spec k 0); lia).
      assert (N : clip_bound n n = n) by (unfold clip_bound; destruct (Z.ltb_spec n 0); lia).
      assert (L : zlen inner = n - 6).
      { unfold inner, vadd, vscale. rewrite !zlen_map2, !zlen_map, !zlen_slice. clips. lia. }
      destruct (set_slice_spec (vzeros (length f)) 3 3 inner) as (rhs0 & E & L0 & S0);
        try (rewrite ?zlen_zeros; unfold zlen in *; lia).
      rewrite zlen_zeros in *. exists rhs0. split; [exact E|]. split; [exact L0|]. intros i Hi.
      rewrite S0 by (unfold zlen in *; lia). unfold inner, vadd, vscale.
      assert (B : forall lo hi, 0 <= clip_bound n lo -> i - 3 < clip_bound n hi - clip_bound n lo ->
        sample (py_slice f lo hi) (i - 3) = F (clip_bound n lo + (i - 3))).
      { intros. apply sample_slice. lia. }
      assert (Z1 : forall lo hi, clip_bound n hi - clip_bound n lo = n - 6 -> zlen (py_slice f lo hi) = n - 6).
      { intros lo hi HH. rewrite zlen_slice. lia. }
      rewrite !sample_map2 by (rewrite ?zlen_map2, ?zlen_map, ?Z1 by (clips; lia); lia).
      rewrite sample_map by (rewrite Z1 by (clips; lia); lia).
      rewrite !B by (clips; lia). clips.
      replace (6 + (i - 3)) with (i + 3) by lia. replace (0 + (i - 3)) with (i - 3) by lia.
      replace (5 + (i - 3)) with (i + 2) by lia. replace (1 + (i - 3)) with (i - 2) by lia.
      replace (4 + (i - 3)) with (i + 1) by lia. replace (2 + (i - 3)) with (i - 1) by lia.
      replace (3 + (i - 3)) with i by lia. reflexivity. }
  destruct Hz as (rhs0 & E & L0 & S0). rewrite E. cbn [bind].
  match goal with |- context [py_sets rhs0 ?us] => destruct (sets_spec us rhs0) as (rhs & E1 & L1 & S1) end.
  { rewrite L0. intros u Hu. cbn [In] in Hu. unfold wrap.
    repeat (destruct Hu as [<-|Hu]; [cbn [fst]; match goal with |- context [?a <? 0] => destruct (Z.ltb_spec a 0) end; lia|]). tauto. }
  exists rhs. rewrite L0 in L1, S1. split; [exact E1|]. split; [exact L1|].
  assert (S2 : forall j, 0 <= j -> sample rhs j =
     if j =? n - 3 then r2 (F (n - 1)) (F (n - 2)) (F (n - 3)) (F (n - 4)) (F (n - 5)) else
     if j =? n - 2 then r1 (F (n - 1)) (F (n - 2)) (F (n - 3)) (F (n - 4)) (F (n - 5)) else
     if j =? n - 1 then r0 (F (n - 1)) (F (n - 2)) (F (n - 3)) (F (n - 4)) (F (n - 5)) else
     if j =? 2 then r2 (F 0) (F 1) (F 2) (F 3) (F 4) else
     if j =? 1 then r1 (F 0) (F 1) (F 2) (F 3) (F 4) else
     if j =? 0 then r0 (F 0) (F 1) (F 2) (F 3) (F 4) else sample rhs0 j).
  { intros j Hj. rewrite S1 by auto. cbn [fold_left fst snd]. unfold wrap. cbn [Z.ltb Z.compare].
    replace (-1 + n) with (n - 1) by lia. replace (-2 + n) with (n - 2) by lia. replace (-3 + n) with (n - 3) by lia.
    reflexivity. }
  clear S1. split.
  { intros i Hi. rewrite S2 by lia. replace (i =? n - 3) with false by lia. replace (i =? n - 2) with false by lia.
    replace (i =? n - 1) with false by lia. replace (i =? 2) with false by lia. replace (i =? 1) with false by lia.
    replace (i =? 0) with false by lia. auto. }
  rewrite !S2 by lia.
  replace (0 =? n - 3) with false by lia. replace (0 =? n - 2) with false by lia. replace (0 =? n - 1) with false by lia.
  replace (1 =? n - 3) with false by lia. replace (1 =? n - 2) with false by lia. replace (1 =? n - 1) with false by lia.
  replace (n - 1 =? n - 3) with false by lia. replace (n - 1 =? n - 2) with false by lia.
  replace (n - 2 =? n - 3) with false by lia. rewrite !Z.eqb_refl.
  split; [reflexivity|]. split; [reflexivity|]. split; [|auto].
  intros H5. replace (2 =? n - 3) with false by lia. replace (2 =? n - 2) with false by lia.
  replace (2 =? n - 1) with false by lia. reflexivity.
Qed.
End Filt.

Lemma length_zlen {X Y} (l : list X) (m : list Y) : zlen l = zlen m -> length l = length m.
Proof. unfold zlen. lia. Qed.

(** The coefficients: [alpha] off the diagonal, except 0 in the three rows at either end. *)
Lemma filt6_system f alpha : 5 <= zlen f -> exists rhs Da Dc, filt6_rhs f alpha = Ok rhs /\
  filt6 f alpha = TDMAsolver Da (repeat n1 (length f)) Dc rhs /\
  zlen Da = zlen f /\ zlen Dc = zlen f /\ zlen rhs = zlen f /\
  (forall j, 0 < j < zlen f -> sample Da j = if (j <? 3) || (zlen f - 3 <=? j) then 0%Qc else alpha) /\
  (forall j, 0 <= j < zlen f - 1 -> sample Dc j = if (j <? 3) || (zlen f - 3 <=? j) then 0%Qc else alpha) /\
  within (Qc_abs alpha) (sample Da 0) /\ within (Qc_abs alpha) (sample Dc (zlen f - 1)).
Proof.
  intros Hn. destruct (filt6_rhs_spec f alpha Hn) as (rhs & E & L & _).
  set (o := vscale alpha (repeat n1 (length f))).
  assert (Lo : zlen o = zlen f) by apply zlen_scaled_ones.
  destruct (sets_spec [(1, 0%Qc); (2, 0%Qc); (-1, 0%Qc); (-2, 0%Qc); (-3, 0%Qc)] o) as (Da & E1 & L1 & S1).
  { rewrite Lo. intros u Hu. cbn [In] in Hu. unfold wrap.
    repeat (destruct Hu as [<-|Hu]; [cbn [fst]; match goal with |- context [?a <? 0] => destruct (Z.ltb_spec a 0) end; lia|]). tauto. }
  destruct (sets_spec [(0, 0%Qc); (1, 0%Qc); (2, 0%Qc); (-2, 0%Qc); (-3, 0%Qc)] o) as (Dc & E2 & L2 & S2).
  { rewrite Lo. intros u Hu. cbn [In] in Hu. unfold wrap.
    repeat (destruct Hu as [<-|Hu]; [cbn [fst]; match goal with |- context [?a <? 0] => destruct (Z.ltb_spec a 0) end; lia|]). tauto. }
  exists rhs, Da, Dc. split; [exact E|]. split.
  { unfold filt6. rewrite E. cbn [bind]. change n0 with 0%Qc. fold o. rewrite E1. cbn [bind]. rewrite E2. reflexivity. }
  split; [congruence|]. split; [congruence|]. split; [exact L|].
  assert (HA : within (Qc_abs alpha) alpha) by (unfold within; apply Qc_abs_le; apply Qcle_refl).
  rewrite Lo in S1, S2.
  assert (So : forall j, 0 <= j < zlen f -> sample o j = alpha) by (intros; apply sample_scaled_ones; auto).
  cbn [fold_left fst snd] in S1, S2. unfold wrap in S1, S2. cbn [Z.ltb Z.compare] in S1, S2.
  split; [|split; [|split]].
  - intros j Hj. rewrite S1, So by lia.
    repeat match goal with |- context [?a =? ?b] => destruct (Z.eqb_spec a b) end;
      destruct (Z.ltb_spec j 3), (Z.leb_spec (zlen f - 3) j); cbn [orb]; auto; lia.
  - intros j Hj. rewrite S2, So by lia.
    repeat match goal with |- context [?a =? ?b] => destruct (Z.eqb_spec a b) end;
      destruct (Z.ltb_spec j 3), (Z.leb_spec (zlen f - 3) j); cbn [orb]; auto; lia.
  - rewrite S1, So by lia. replace (0 =? -3 + zlen f) with false by lia. replace (0 =? -2 + zlen f) with false by lia.
    replace (0 =? -1 + zlen f) with false by lia. exact HA.
  - rewrite S2, So by lia. replace (zlen f - 1 =? -3 + zlen f) with false by lia.
    replace (zlen f - 1 =? -2 + zlen f) with false by lia. replace (zlen f - 1 =? 2) with false by lia.
    replace (zlen f - 1 =? 1) with false by lia. replace (zlen f - 1 =? 0) with false by lia. exact HA.
Qed.

Definition small (alpha : Qc) : Prop := (- Q2Qc (1 # 2) < alpha /\ alpha < Q2Qc (1 # 2))%Qc.

Lemma filt6_regular alpha n Da Dc : small alpha -> zlen Da = Z.of_nat n ->
  (forall j, 0 <= j < Z.of_nat n -> within (Qc_abs alpha) (sample Da j)) ->
  (forall j, 0 <= j < Z.of_nat n -> within (Qc_abs alpha) (sample Dc j)) ->
  regular Da (repeat n1 n) Dc.
Proof.
  intros [S1 S2] L HA HC. apply dominant_regular. intros i Hi. rewrite repeat_length in Hi.
  exists (Qc_abs alpha), (Qc_abs alpha). split; [apply HA; lia|]. split; [apply HC; lia|].
  left. rewrite sample_ones by lia. destruct (Qc_abs_spec alpha) as [_ [->| ->]]; qclra.
Qed.

Lemma within_abs0 a : within (Qc_abs a) 0%Qc.
Proof. pose proof (Qc_abs_nonneg a). split; qclra. Qed.
Lemma within_abs a : within (Qc_abs a) a.
Proof. unfold within. apply Qc_abs_le. apply Qcle_refl. Qed.

(** The filter is well-posed, and leaves exactly the signals that satisfy its equations alone. *)
Lemma filt6_runs f alpha : 5 <= zlen f -> small alpha ->
  exists rhs Da Dc x, filt6_rhs f alpha = Ok rhs /\ filt6 f alpha = Ok x /\ length x = length f /\
  (forall j, 0 < j < zlen f -> sample Da j = if (j <? 3) || (zlen f - 3 <=? j) then 0%Qc else alpha) /\
  (forall j, 0 <= j < zlen f - 1 -> sample Dc j = if (j <? 3) || (zlen f - 3 <=? j) then 0%Qc else alpha) /\
  tridiagonal Da (repeat n1 (length f)) Dc rhs x /\
  forall y, tridiagonal Da (repeat n1 (length f)) Dc rhs y -> y = x.
Proof.
  intros Hn Hs. destruct (filt6_system f alpha Hn) as (rhs & Da & Dc & E & E1 & L1 & L2 & L3 & S1 & S2 & W1 & W2).
  assert (Hne : repeat (@n1 Qc _) (length f) <> []) by (destruct f; [unfold zlen in Hn; cbn in Hn; lia|discriminate]).
  destruct (tdma_spec Da (repeat n1 (length f)) Dc rhs Hne) as (x & Ex & Hx & Hu);
    try (rewrite repeat_length; apply length_zlen; congruence).
  { apply (filt6_regular alpha); auto.
    - intros j Hj. destruct (Z.eq_dec j 0) as [->|Hj0]; auto. rewrite S1 by (unfold zlen; lia).
      destruct (_ || _); [apply within_abs0|apply within_abs].
    - intros j Hj. destruct (Z.eq_dec j (zlen f - 1)) as [->|Hj0]; auto. rewrite S2 by (unfold zlen in *; lia).
      destruct (_ || _); [apply within_abs0|apply within_abs]. }
  exists rhs, Da, Dc, x. split; [exact E|]. split; [congruence|]. split; [destruct Hx as [Hx _]; rewrite Hx, repeat_length; auto|].
  auto.
Qed.

(** Polynomials of degree at most three. *)
Lemma sampled_length p t0 h n : length (sampled p t0 h n) = n.
Proof. unfold sampled. rewrite map_length, seq_length. auto. Qed.
Lemma sample_sampled p t0 h n i : 0 <= i < Z.of_nat n ->
  sample (sampled p t0 h n) i = peval p (t0 + Qc_ofZ i * h)%Qc.
Proof.
  intros Hi. unfold sample, sampled.
  rewrite nth_indep with (d' := peval p (t0 + Q2Qc (inject_Z (Z.of_nat 0)) * h)%Qc) by (rewrite map_length, seq_length; lia).
  rewrite (map_nth (fun i => peval p (t0 + Q2Qc (inject_Z (Z.of_nat i)) * h)%Qc)), seq_nth by lia.
  rewrite Nat.add_0_l, Z2Nat.id by lia. reflexivity.
Qed.
