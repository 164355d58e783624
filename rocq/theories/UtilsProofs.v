(** * UtilsProofs: proofs about timelines and common types. *)
From Verif Require Import PyFacts QcFacts Utils UtilsSpec Emd EmdExact.
From Coq Require Import ZifyBool ZifyNat QArith Qpower Qcanon Qabs.
Open Scope Z_scope.

(** ** Rounding *)
Lemma round_small p i : Z.abs i < 2 ^ p -> round_bits p i = i.
Proof. intros. unfold round_bits. destruct (Z.ltb_spec (Z.abs i) (2 ^ p)); lia. Qed.
Lemma round_power p : 1 <= p -> round_bits p (2 ^ p) = 2 ^ p.
Proof.
  intros Hp. unfold round_bits. assert (0 < 2 ^ p) by lia. rewrite Z.abs_eq, Z.ltb_irrefl, Z.log2_pow2 by lia.
  replace (p + 1 - p) with 1 by lia. change (2 ^ 1) with 2.
  assert (E : 2 ^ p = 2 * 2 ^ (p - 1)) by (rewrite <- Z.pow_succ_r by lia; f_equal; lia).
  rewrite E, (Z.mul_comm 2 (2 ^ (p - 1))), Z.mod_mul, Z.div_mul by lia. reflexivity.
Qed.
Lemma round_power_succ p : 2 <= p -> round_bits p (2 ^ p + 1) = 2 ^ p.
Proof.
  intros Hp. unfold round_bits. assert (P0 : 0 < 2 ^ (p - 2)) by lia.
  assert (E : 2 ^ p = 2 * (2 * 2 ^ (p - 2))).
  { rewrite <- !Z.pow_succ_r by lia. f_equal. lia. }
  rewrite Z.abs_eq by lia. destruct (Z.ltb_spec (2 ^ p + 1) (2 ^ p)); [lia|].
  assert (L : Z.log2 (2 ^ p + 1) = p). { apply Z.log2_unique; [lia|]. rewrite Z.pow_succ_r by lia. lia. }
  rewrite L. replace (p + 1 - p) with 1 by lia. change (2 ^ 1) with 2.
  assert (D : (2 ^ p + 1) / 2 = 2 * 2 ^ (p - 2)) by (symmetry; apply (Z.div_unique _ 2 _ 1); lia).
  assert (M : (2 ^ p + 1) mod 2 = 1) by (symmetry; apply (Z.mod_unique _ 2 (2 * 2 ^ (p - 2))); lia).
  rewrite D, M. change (2 * 1 <? 2) with false. change (2 <? 2 * 1) with false. cbv iota.
  rewrite Z.even_mul. cbn [Z.even orb]. lia.
Qed.
(** Rounding does not leave the range of the type. *)
Lemma round_le p i e : 1 <= p -> 0 <= e -> 0 <= i <= (2 ^ p - 1) * 2 ^ e -> round_bits p i <= (2 ^ p - 1) * 2 ^ e.
Proof.
  intros Hp He Hi. unfold round_bits. destruct (Z.ltb_spec (Z.abs i) (2 ^ p)) as [|Hge]; [lia|].
  rewrite Z.abs_eq in * by lia.
  set (k := Z.log2 i + 1 - p).
  assert (P : 0 < 2 ^ p) by lia.
  assert (Hlog : 2 ^ Z.log2 i <= i < 2 ^ (Z.log2 i + 1)).
  { pose proof (Z.log2_spec i ltac:(lia)). rewrite <- Z.add_1_r in *. auto. }
  assert (K1 : Z.log2 i < p + e).
  { destruct (Z_lt_le_dec (Z.log2 i) (p + e)) as [|Hc]; auto. exfalso.
    assert (2 ^ (p + e) <= 2 ^ Z.log2 i) by (apply Z.pow_le_mono_r; lia).
    rewrite Z.pow_add_r in * by lia. assert (0 < 2 ^ e) by lia. nia. }
  assert (K0 : p <= Z.log2 i).
  { destruct (Z_lt_le_dec (Z.log2 i) p) as [Hc|]; auto. exfalso.
    assert (2 ^ (Z.log2 i + 1) <= 2 ^ p) by (apply Z.pow_le_mono_r; lia). lia. }
  assert (Hk : 1 <= k <= e) by (unfold k; lia).
  set (u := 2 ^ k). assert (U : 0 < u) by (unfold u; lia).
  assert (E : 2 ^ e = 2 ^ (e - k) * u) by (unfold u; rewrite <- Z.pow_add_r by lia; f_equal; lia).
  set (w := (2 ^ p - 1) * 2 ^ (e - k)).
  assert (W : (2 ^ p - 1) * 2 ^ e = w * u) by (unfold w; rewrite E; ring).
  rewrite W in *. pose proof (Z.div_mod i u ltac:(lia)) as DM. pose proof (Z.mod_pos_bound i u U) as MB.
  set (q := i / u) in *. set (r := i mod u) in *.
  assert (Q : q <= w) by nia.
  assert (Q' : r = 0 \/ q + 1 <= w) by nia.
  destruct (Z.ltb_spec (2 * r) u); [nia|]. destruct (Z.ltb_spec u (2 * r)); [nia|]. destruct (Z.even q); nia.
Qed.

(** ** Arrays *)
Lemma nth_zseq (n i : nat) a : (i < n)%nat -> nth_error (zseq a n) i = Some (a + Z.of_nat i).
Proof.
  revert a i. induction n as [|n IH]; intros a i Hi; [lia|]. cbn [zseq]. destruct i as [|i].
  - cbn. f_equal. lia.
  - cbn [nth_error]. rewrite IH by lia. f_equal. lia.
Qed.
Lemma length_zseq' a n : length (zseq a n) = n.
Proof. revert a. induction n; intros; cbn; auto. Qed.
Lemma arange_length n d : length (np_arange n d) = n.
Proof. unfold np_arange. rewrite map_length, length_zseq'. auto. Qed.
Lemma arange_nth n d i : (i < n)%nat -> nth_error (np_arange n d) i = Some (store d (Z.of_nat i)).
Proof. intros. unfold np_arange. rewrite nth_error_map, nth_zseq by auto. reflexivity. Qed.
Lemma arange_last n d : (1 <= n)%nat -> py_get (np_arange n d) (-1) = Ok (store d (Z.of_nat n - 1)).
Proof.
  intros Hn. unfold py_get. unfold zlen. rewrite arange_length.
  change (-1 <? 0) with true. cbv iota.
  destruct (Z.ltb_spec (-1 + Z.of_nat n) 0); [lia|]. rewrite arange_nth by lia. do 3 f_equal. lia.
Qed.
Lemma arange_counts n d : (forall i, 0 <= i < Z.of_nat n -> store d i = Some i) -> counts n (np_arange n d).
Proof. intros H. split; [apply arange_length|]. intros i Hi. rewrite arange_nth, H by lia. auto. Qed.

Lemma store_int d i : is_integer d -> 0 <= i <= largest_of d -> store d i = Some i.
Proof.
  intros Hd Hi. destruct d; try contradiction; unfold store, largest_of, kind in *; f_equal; cbn [Z.sub] in *;
    rewrite Z.mod_small; change (2 ^ (8 - 1)) with 128 in *; change (2 ^ 8) with 256 in *;
    change (2 ^ (16 - 1)) with 32768 in *; change (2 ^ 16) with 65536 in *; change (2 ^ (32 - 1)) with 2147483648 in *;
    change (2 ^ 32) with 4294967296 in *; change (2 ^ (64 - 1)) with 9223372036854775808 in *;
    change (2 ^ 64) with 18446744073709551616 in *; lia.
Qed.
Lemma store_int_range d i : is_integer d -> exists z, store d i = Some z /\ z <= largest_of d.
Proof.
  intros Hd. destruct d; try contradiction; unfold store, largest_of, kind; eexists; split; try reflexivity;
    match goal with |- context [?a mod ?b] => pose proof (Z.mod_pos_bound a b ltac:(reflexivity)) as Hb; set (x := a mod b) in * end;
    change (2 ^ (8 - 1)) with 128 in *; change (2 ^ 8) with 256 in *;
    change (2 ^ (16 - 1)) with 32768 in *; change (2 ^ 16) with 65536 in *; change (2 ^ (32 - 1)) with 2147483648 in *;
    change (2 ^ 32) with 4294967296 in *; change (2 ^ (64 - 1)) with 9223372036854775808 in *;
    change (2 ^ 64) with 18446744073709551616 in *; lia.
Qed.

Lemma timeline_integers differs d n : comparison_ok differs -> is_integer d -> (1 <= n)%nat ->
  Z.of_nat n < 2 ^ 64 - 1 ->
  exists d' l, get_timeline differs n (Some d) = Ok (d', l) /\ is_integer d' /\ bits d <= bits d' /\ counts n l.
Proof.
  intros [C1 C2] Hd Hn Hb. unfold get_timeline. rewrite arange_last by auto. cbn [bind].
  destruct (Z_le_gt_dec (Z.of_nat n - 1) (largest_of d)) as [Hle|Hgt].
  - rewrite store_int, C1 by (auto; lia). exists d, (np_arange n d). split; [auto|]. split; [auto|]. split; [lia|].
    apply arange_counts. intros i Hi. apply store_int; auto. lia.
  - destruct (store_int_range d (Z.of_nat n - 1) Hd) as (z & -> & Hz). rewrite C2 by (auto; lia).
    assert (E : exists d', smallest_inclusive_dtype d (Z.of_nat n) = Ok d' /\ is_integer d' /\ bits d <= bits d' /\ Z.of_nat n < largest_of d').
    { assert (K : smallest_inclusive_dtype d (Z.of_nat n) = first_above [UInt16; UInt32; UInt64] (Z.of_nat n)) by (destruct d; try contradiction; reflexivity).
      rewrite K. cbn [first_above].
      change (largest_of UInt16) with 65535. change (largest_of UInt32) with 4294967295.
      change (largest_of UInt64) with 18446744073709551615. change (2 ^ 64 - 1) with 18446744073709551615 in Hb.
      destruct (Z.ltb_spec (Z.of_nat n) 65535); [|destruct (Z.ltb_spec (Z.of_nat n) 4294967295); [|destruct (Z.ltb_spec (Z.of_nat n) 18446744073709551615); [|lia]]];
      eexists; (split; [reflexivity|]); (split; [exact I|]); (split; [|assumption]);
      destruct d; try contradiction; unfold largest_of, kind in Hgt; unfold bits, kind; try lia;
      change (2 ^ (32 - 1)) with 2147483648 in *; change (2 ^ 32) with 4294967296 in *; change (2 ^ (64 - 1)) with 9223372036854775808 in *;
      change (2 ^ 64) with 18446744073709551616 in *; lia. }
    destruct E as (d' & -> & Hi & Hbit & Hlt). cbn [bind]. exists d', (np_arange n d').
    split; [auto|]. split; [auto|]. split; [auto|]. apply arange_counts. intros i Hir. apply store_int; auto. lia.
Qed.

Definition top_exponent (d : dtype) : Z := match kind d with Floating b _ => snd (exponents b) | _ => 0 end.
Lemma float_facts d : is_floating d -> 11 <= precision d /\ 5 <= top_exponent d /\
  largest_of d = (2 ^ precision d - 1) * 2 ^ top_exponent d /\
  forall i, store d i = let r := round_bits (precision d) i in if r <=? largest_of d then Some r else None.
Proof. destruct d; try contradiction; intros _; repeat split; cbn; lia. Qed.
Lemma store_float d i : is_floating d -> 0 <= i <= largest_of d -> store d i = Some (round_bits (precision d) i).
Proof.
  intros Hd Hi. destruct (float_facts d Hd) as (P & T & L & S). rewrite S. cbv zeta.
  destruct (Z.leb_spec (round_bits (precision d) i) (largest_of d)); auto.
  rewrite L in *. pose proof (round_le (precision d) i (top_exponent d) ltac:(lia) ltac:(lia) Hi). lia.
Qed.
Lemma power_small d : is_floating d -> 2 ^ precision d + 1 <= largest_of d.
Proof.
  intros Hd. destruct (float_facts d Hd) as (P & T & L & _). rewrite L.
  assert (2 ^ 11 <= 2 ^ precision d) by (apply Z.pow_le_mono_r; lia).
  assert (2 ^ 5 <= 2 ^ top_exponent d) by (apply Z.pow_le_mono_r; lia).
  change (2 ^ 11) with 2048 in *. change (2 ^ 5) with 32 in *. nia.
Qed.

Lemma timeline_floats differs d n : comparison_ok differs -> is_floating d -> (1 <= n)%nat ->
  Z.of_nat n <= 2 ^ precision d + 1 ->
  exists l, get_timeline differs n (Some d) = Ok (d, l) /\ counts n l.
Proof.
  intros [C1 _] Hd Hn Hb. pose proof (power_small d Hd). destruct (float_facts d Hd) as (P & _).
  assert (St : forall i, 0 <= i < Z.of_nat n -> store d i = Some i).
  { intros i Hi. rewrite store_float by (auto; lia). f_equal.
    destruct (Z.eq_dec i (2 ^ precision d)) as [->|]; [apply round_power; lia|apply round_small; lia]. }
  unfold get_timeline. rewrite arange_last by auto. cbn [bind]. rewrite St, C1 by lia.
  eexists. split; [reflexivity|]. apply arange_counts. auto.
Qed.

Lemma timeline_repeats differs d n : d = Float16 \/ d = Float32 -> 2 ^ precision d + 2 <= Z.of_nat n < largest_of d ->
  exists vs, get_timeline differs n (Some d) = Ok (d, map Some vs) /\ length vs = n /\
    normalize_time (map Qc_ofZ vs) = Raise AssertionError.
Proof.
  intros Hf Hb. assert (Hd : is_floating d) by (destruct Hf; subst; exact I).
  assert (Hp : 11 <= precision d) by (apply (float_facts d Hd)).
  assert (P0 : 0 < 2 ^ precision d) by lia.
  set (vs := map (round_bits (precision d)) (zseq 0 n)).
  assert (E : np_arange n d = map Some vs).
  { unfold np_arange, vs. rewrite map_map. apply map_ext_in. intros i Hi. apply store_float; auto.
    apply In_nth_error in Hi as (k & Hk). assert (k < n)%nat by (rewrite <- (length_zseq' 0 n); apply nth_error_Some; congruence).
    rewrite nth_zseq in Hk by auto. injection Hk as <-. lia. }
  assert (Lv : length vs = n) by (unfold vs; rewrite map_length, length_zseq'; auto).
  exists vs. split; [|split; [auto|]].
  - unfold get_timeline. rewrite arange_last by lia. cbn [bind].
    assert (K : smallest_inclusive_dtype d (Z.of_nat n) = Ok d).
    { destruct Hf as [->| ->]; unfold smallest_inclusive_dtype, kind; cbn [first_above];
      unfold precision, kind in Hb; change (2 ^ 11) with 2048 in Hb; change (2 ^ 24) with 16777216 in Hb;
      change (largest_of Float16) with 65504 in *.
      - replace (Z.of_nat n <? 65504) with true by lia. auto.
      - replace (Z.of_nat n <? 65504) with false by lia. replace (Z.of_nat n <? largest_of Float32) with true by lia. auto. }
    destruct (differs _ _ _); [rewrite K; cbn [bind]|]; rewrite E; auto.
  - apply (normalize_repeated _ (Z.to_nat (2 ^ precision d))); [rewrite map_length; lia|].
    assert (N : forall k, (k < n)%nat -> nth k (map Qc_ofZ vs) 0%Qc = Qc_ofZ (round_bits (precision d) (Z.of_nat k))).
    { intros k Hk. apply nth_error_nth. unfold vs. rewrite !nth_error_map, nth_zseq by auto. reflexivity. }
    rewrite !N by lia. f_equal. rewrite Nat2Z.inj_succ, Z2Nat.id by lia. rewrite round_power by lia.
    rewrite <- Z.add_1_r, round_power_succ by lia. auto.
Qed.

(** ** Common types *)
Lemma common_symmetric x y : deduce_common_type x y = deduce_common_type y x.
Proof. destruct x, y; reflexivity. Qed.

Lemma two_power_pos e : (0 < Qpower 2 e)%Q.
Proof. apply Qpower_0_lt. reflexivity. Qed.
Lemma float_int b p z : 1 <= p -> fst (exponents b) <= 0 -> 1 <= snd (exponents b) -> Z.abs z <= 2 ^ p ->
  exists m e, inject_Z z == inject_Z m * Qpower 2 e /\ Z.abs m < 2 ^ p /\ fst (exponents b) <= e <= snd (exponents b).
Proof.
  intros Hp H0 H1 Hz. destruct (Z_lt_le_dec (Z.abs z) (2 ^ p)) as [Hl|Hg].
  - exists z, 0. split; [cbn; rewrite Qmult_1_r; reflexivity|]. lia.
  - assert (E : 2 ^ p = 2 * 2 ^ (p - 1)) by (rewrite <- Z.pow_succ_r by lia; f_equal; lia).
    assert (0 < 2 ^ (p - 1)) by lia.
    exists (Z.sgn z * 2 ^ (p - 1)), 1. split; [|split; [|lia]].
    + change (Qpower 2 1) with (inject_Z 2). rewrite <- inject_Z_mult. apply inject_Z_injective.
      assert (Z.abs z = 2 ^ p) by lia. nia.
    + rewrite Z.abs_mul, (Z.abs_eq (2 ^ (p - 1))) by lia. assert (Z.abs (Z.sgn z) <= 1) by (destruct z; cbn; lia). nia.
Qed.

Lemma holds_float_int d z : is_floating d -> Z.abs z <= 2 ^ precision d -> forall q, q == inject_Z z -> holds d q.
Proof.
  intros Hd Hz q E. destruct d; try contradiction.
  - destruct (float_int 16 11 z ltac:(lia) ltac:(cbn; lia) ltac:(cbn; lia) Hz) as (m & e & H). exists m, e. rewrite E. exact H.
  - destruct (float_int 32 24 z ltac:(lia) ltac:(cbn; lia) ltac:(cbn; lia) Hz) as (m & e & H). exists m, e. rewrite E. exact H.
  - destruct (float_int 64 53 z ltac:(lia) ltac:(cbn; lia) ltac:(cbn; lia) Hz) as (m & e & H). exists m, e. rewrite E. exact H.
Qed.

Ltac powers :=
  change (2 ^ (8 - 1)) with 128 in *; change (2 ^ 8) with 256 in *; change (2 ^ (16 - 1)) with 32768 in *;
  change (2 ^ 16) with 65536 in *; change (2 ^ (32 - 1)) with 2147483648 in *; change (2 ^ 32) with 4294967296 in *;
  change (2 ^ (64 - 1)) with 9223372036854775808 in *; change (2 ^ 64) with 18446744073709551616 in *;
  change (2 ^ 11) with 2048 in *; change (2 ^ 24) with 16777216 in *; change (2 ^ 53) with 9007199254740992 in *.

Definition sub (x d : dtype) : bool :=
  match kind x, kind d with
  | Signed a, Signed b | Unsigned a, Unsigned b => a <=? b
  | Unsigned a, Signed b => a <? b
  | Signed a, Floating _ p => a - 1 <=? p
  | Unsigned a, Floating _ p => a <=? p
  | Floating a p, Floating b q => (p <=? q) && (fst (exponents b) <=? fst (exponents a)) && (snd (exponents a) <=? snd (exponents b))
  | _, _ => false
  end.
Lemma bits_pos d : match kind d with Signed b | Unsigned b | Floating b _ => 8 <= b | NoKind => True end.
Proof. destruct d; cbn; lia. Qed.
Lemma holds_sub x d q : sub x d = true -> holds x q -> holds d q.
Proof.
  assert (M : forall a b, a <= b -> 2 ^ a <= 2 ^ b) by (intros; apply Z.pow_le_mono_r; lia).
  assert (FI : forall b p z, kind d = Floating b p -> Z.abs z <= 2 ^ p -> q == inject_Z z -> holds d q).
  { intros b p z K Hz E. apply (holds_float_int d z); auto; [unfold is_floating|unfold precision]; rewrite K; auto. }
  unfold sub. pose proof (bits_pos x) as Bx. unfold holds at 1.
  destruct (kind x) as [a|a|a p|]; [| | |tauto]; destruct (kind d) as [b|b|b p'|] eqn:Kd; try discriminate; intros S H.
  - unfold holds. rewrite Kd. destruct H as (z & E & R). exists z. split; [auto|]. specialize (M (a - 1) (b - 1) ltac:(lia)). lia.
  - destruct H as (z & E & R). eapply FI; eauto. specialize (M (a - 1) p' ltac:(lia)). lia.
  - unfold holds. rewrite Kd. destruct H as (z & E & R). exists z. split; [auto|]. specialize (M a (b - 1) ltac:(lia)).
    assert (0 < 2 ^ (b - 1)) by lia. lia.
  - unfold holds. rewrite Kd. destruct H as (z & E & R). exists z. split; [auto|]. specialize (M a b ltac:(lia)). lia.
  - destruct H as (z & E & R). eapply FI; eauto. specialize (M a p' ltac:(lia)). lia.
  - unfold holds. rewrite Kd. destruct H as (m & e & E & R1 & R2). exists m, e. split; [auto|]. specialize (M p p' ltac:(lia)). lia.
Qed.
Lemma holds_small x q : wide x -> (Qabs q <= inject_Z (2 ^ 53))%Q -> holds x q -> holds Float64 q.
Proof.
  intros W Q53 H. assert (exists z, q == inject_Z z) as (z & E).
  { destruct W as [K|K]; unfold holds in H; rewrite K in H; destruct H as (z & E & _); eauto. }
  apply (holds_float_int Float64 z); [exact I| |auto].
  rewrite E in Q53. change (Qabs (inject_Z z)) with (inject_Z (Z.abs z)) in Q53. rewrite <- Zle_Qle in Q53. exact Q53.
Qed.

Lemma common_holds x y q : x <> OtherType -> y <> OtherType -> holds x q ->
  convertible x (deduce_common_type x y) q ->
  holds (deduce_common_type x y) q.
Proof.
  intros Hx Hy H W.
  assert (D : sub x (deduce_common_type x y) = true \/ wide x /\ deduce_common_type x y = Float64).
  { destruct x; try congruence; destruct y; try congruence;
      first [left; reflexivity|right; split; [|reflexivity]; unfold wide; cbn; auto]. }
  destruct D as [D|[D E]]; [eapply holds_sub; eauto|].
  rewrite E in *. eapply holds_small; eauto. apply W; [auto|exact I].
Qed.

Lemma not_double : ~ holds Float64 (inject_Z (2 ^ 53 + 1)).
Proof.
  intros (m & e & E & M & R).
  destruct (Z_le_gt_dec e 0) as [He|He].
  - assert (K : inject_Z ((2 ^ 53 + 1) * 2 ^ (- e)) == inject_Z m).
    { rewrite inject_Z_mult, E, <- Qmult_assoc. rewrite (Zpower_Qpower 2 (- e)) by lia.
      change (inject_Z 2) with 2%Q. rewrite <- Qpower_plus by discriminate.
      replace (e + - e) with 0 by lia. cbn. rewrite Qmult_1_r. reflexivity. }
    apply (proj1 (inject_Z_injective _ _)) in K. assert (0 < 2 ^ (- e)) by (apply Z.pow_pos_nonneg; lia). change (Z.abs m < 9007199254740992) in M. set (k := 2 ^ (- e)) in *.
    change (2 ^ 53 + 1) with 9007199254740993 in K. lia.
  - assert (K : inject_Z (2 ^ 53 + 1) == inject_Z (m * 2 ^ e)).
    { rewrite inject_Z_mult, (Zpower_Qpower 2 e) by lia. exact E. }
    apply (proj1 (inject_Z_injective _ _)) in K. assert (2 ^ e = 2 * 2 ^ (e - 1)) by (rewrite <- Z.pow_succ_r by lia; f_equal; lia).
    change (Z.abs m < 9007199254740992) in M. set (k := 2 ^ (e - 1)) in *. change (2 ^ 53 + 1) with 9007199254740993 in K. rewrite H in K. nia.
Qed.

Lemma dtype_eqb_iff x y : dtype_eqb x y = true <-> x = y.
Proof. destruct x, y; cbn; split; congruence. Qed.
Lemma unify_one cast x d l : cast_ok cast -> Forall (holds d) l ->
  exists l', (if dtype_eqb x d then (x, l) else (d, map (cast d) l)) = (d, l') /\ Forall2 Qeq l l'.
Proof.
  intros C H. destruct (dtype_eqb x d) eqn:E.
  - apply dtype_eqb_iff in E. subst. exists l. split; [auto|]. clear. induction l; constructor; auto. reflexivity.
  - exists (map (cast d) l). split; [auto|]. induction H; cbn; constructor; auto. symmetry. apply C; auto.
Qed.
Lemma unify_spec cast x y xs ys : cast_ok cast -> x <> OtherType -> y <> OtherType ->
  Forall (holds x) xs -> Forall (holds y) ys ->
  Forall (convertible x (deduce_common_type x y)) xs -> Forall (convertible y (deduce_common_type x y)) ys ->
  exists d xs' ys', unify_types cast (x, xs) (y, ys) = ((d, xs'), (d, ys')) /\ Forall2 Qeq xs xs' /\ Forall2 Qeq ys ys'.
Proof.
  intros C Hx Hy Vx Vy Cx Cy. unfold unify_types. cbn [fst snd].
  set (d := deduce_common_type x y).
  destruct (unify_one cast x d xs) as (l1 & -> & F1); [auto| |].
  { apply Forall_forall. intros q Hq. rewrite Forall_forall in Vx, Cx. apply common_holds; auto. }
  destruct (unify_one cast y d ys) as (l2 & -> & F2); [auto| |].
  { apply Forall_forall. intros q Hq. rewrite Forall_forall in Vy, Cy. subst d. rewrite common_symmetric in *. apply common_holds; auto. }
  eauto 6.
Qed.
Lemma unify_symmetric cast x y : unify_types cast y x = (snd (unify_types cast x y), fst (unify_types cast x y)).
Proof. unfold unify_types. rewrite (common_symmetric (fst y)). reflexivity. Qed.

Lemma timeline_refuted (differs : dtype -> option Z -> Z -> bool) :
  exists (d : dtype) (n : nat), is_floating d /\ (1 <= n)%nat /\ Z.of_nat n = 2050 /\
    forall d' l, get_timeline differs n (Some d) = Ok (d', l) -> ~ counts n l.
Proof.
  exists Float16, (Z.to_nat 2050). split; [exact I|]. split; [lia|]. split; [lia|]. intros d' l E [_ K].
  specialize (K (Z.to_nat 2049) ltac:(lia)).
  unfold get_timeline in E. rewrite arange_last in E by lia. cbn [bind] in E.
  set (b := differs _ _ _) in E.
  assert (El : l = np_arange (Z.to_nat 2050) Float16).
  { destruct b.
    - change (smallest_inclusive_dtype Float16 (Z.of_nat (Z.to_nat 2050))) with (@Ok dtype Float16) in E. cbn [bind] in E. congruence.
    - congruence. }
  rewrite El in K. revert K. vm_compute. discriminate.
Qed.
Lemma wide_refuted : exists q : Q, holds Int64 q /\ holds UInt64 q /\
  deduce_common_type Int64 Float64 = Float64 /\ deduce_common_type Int64 UInt64 = Float64 /\
  deduce_common_type Int64 Float16 = Float64 /\ ~ holds Float64 q.
Proof.
  exists (inject_Z (2 ^ 53 + 1)). repeat split; try reflexivity.
  - exists (2 ^ 53 + 1). split; [reflexivity|]. vm_compute. intuition discriminate.
  - exists (2 ^ 53 + 1). split; [reflexivity|]. vm_compute. intuition discriminate.
  - exact not_double.
Qed.
