(** * UtilsRound: a floating timeline holds the nearest numbers of its type. *)
From Verif Require Import PyFacts Utils UtilsSpec UtilsProofs.
From Coq Require Import ZifyBool QArith Qpower Qabs Lqa Lia.
Open Scope Z_scope.

Lemma qpow_int e : 0 <= e -> (Qpower 2 e == inject_Z (2 ^ e))%Q.
Proof.
  intros He. rewrite <- (Z2Nat.id e) by lia. generalize (Z.to_nat e). clear e He. intros n. induction n as [|n IH]; [reflexivity|].
  rewrite Nat2Z.inj_succ, <- Z.add_1_r, Qpower_plus, IH by discriminate. rewrite Z.pow_add_r by lia.
  rewrite inject_Z_mult. reflexivity.
Qed.
(** The rounded number: a multiple of the spacing, at most half a spacing away. *)
Lemma round_shape p i : 1 <= p -> 2 ^ p <= i -> exists m k, 1 <= k /\ k = Z.log2 i + 1 - p /\ round_bits p i = m * 2 ^ k /\
  2 ^ (p - 1) <= m <= 2 ^ p /\ 2 * Z.abs (m * 2 ^ k - i) <= 2 ^ k.
Proof.
  intros Hp Hi. assert (P0 : 0 < 2 ^ p) by lia. unfold round_bits. rewrite Z.abs_eq by lia.
  destruct (Z.ltb_spec i (2 ^ p)); [lia|]. set (k := Z.log2 i + 1 - p).
  assert (Hlog : 2 ^ Z.log2 i <= i < 2 ^ (Z.log2 i + 1)).
  { pose proof (Z.log2_spec i ltac:(lia)). rewrite <- Z.add_1_r in *. auto. }
  assert (K0 : p <= Z.log2 i).
  { destruct (Z_lt_le_dec (Z.log2 i) p) as [Hc|]; auto. exfalso.
    assert (2 ^ (Z.log2 i + 1) <= 2 ^ p) by (apply Z.pow_le_mono_r; lia). lia. }
  assert (U : 0 < 2 ^ k) by (unfold k; lia).
  assert (E1 : 2 ^ Z.log2 i = 2 ^ (p - 1) * 2 ^ k) by (rewrite <- Z.pow_add_r by (unfold k; lia); f_equal; unfold k; lia).
  assert (E2 : 2 ^ (Z.log2 i + 1) = 2 ^ p * 2 ^ k) by (rewrite <- Z.pow_add_r by (unfold k; lia); f_equal; unfold k; lia).
  assert (Hk : 1 <= k) by (unfold k; lia). assert (EK : k = Z.log2 i + 1 - p) by reflexivity. clearbody k.
  rewrite E1, E2 in Hlog. set (u := 2 ^ k) in *. set (a := 2 ^ (p - 1)) in *. set (b := 2 ^ p) in *.
  pose proof (Z.div_mod i u ltac:(lia)) as DM. pose proof (Z.mod_pos_bound i u U) as MB.
  set (q := i / u) in *. set (r := i mod u) in *.
  assert (Q0 : a <= q) by nia. assert (Q1 : q < b) by nia. cbv zeta.
  destruct (Z.ltb_spec (2 * r) u) as [C|C].
  { exists q, k. repeat split; auto; try lia; fold u; replace (q * u - i) with (- r) by lia; lia. }
  destruct (Z.ltb_spec u (2 * r)) as [C2|C2].
  { exists (q + 1), k. repeat split; auto; try lia; fold u; replace ((q + 1) * u - i) with (u - r) by lia; lia. }
  destruct (Z.even q).
  - exists q, k. repeat split; auto; try lia; fold u; replace (q * u - i) with (- r) by lia; lia.
  - exists (q + 1), k. repeat split; auto; try lia; fold u; replace ((q + 1) * u - i) with (u - r) by lia; lia.
Qed.
(** No number with [p] significant bits is nearer. *)
Lemma multiple_nearest u v n i : 0 < u -> 2 * Z.abs (v * u - i) <= u -> Z.abs (v * u - i) <= Z.abs (n * u - i).
Proof.
  intros Hu Hv. destruct (Z.eq_dec n v) as [->|Hn]; [lia|].
  assert (Z.abs (n - v) * u >= u) by nia. assert (E : n * u - i = (n - v) * u + (v * u - i)) by ring.
  assert (Z.abs ((n - v) * u) = Z.abs (n - v) * u) by (rewrite Z.abs_mul; lia). lia.
Qed.
Lemma round_nearest p i m e : 1 <= p -> 0 <= i -> Z.abs m < 2 ^ p ->
  (inject_Z (Z.abs (round_bits p i - i)) <= Qabs (inject_Z m * Qpower 2 e - inject_Z i))%Q.
Proof.
  intros Hp Hi Hm. destruct (Z_lt_le_dec i (2 ^ p)) as [C|C].
  { rewrite round_small by lia. rewrite Z.sub_diag. apply Qabs_nonneg. }
  destruct (round_shape p i Hp C) as (v & k & Hk & Ek & -> & Hv & Hd).
  assert (Hlog : 2 ^ Z.log2 i <= i) by (apply Z.log2_spec; lia).
  assert (E1 : 2 ^ Z.log2 i = 2 ^ (p - 1) * 2 ^ k) by (rewrite <- Z.pow_add_r by lia; f_equal; lia).
  assert (U : 0 < 2 ^ k) by lia.
  destruct (Z_lt_le_dec e k) as [Ce|Ce].
  - assert (G : Z.abs (v * 2 ^ k - i) <= i - 2 ^ Z.log2 i).
    { pose proof (multiple_nearest (2 ^ k) v (2 ^ (p - 1)) i U Hd) as G. rewrite <- E1 in G. lia. }
    apply Qle_trans with (inject_Z (i - 2 ^ Z.log2 i)); [rewrite <- Zle_Qle; exact G|].
    assert (B : (inject_Z m * Qpower 2 e <= inject_Z (2 ^ Z.log2 i))%Q).
    { apply Qle_trans with (inject_Z (2 ^ p) * Qpower 2 (k - 1))%Q.
      - apply Qle_trans with (inject_Z (2 ^ p) * Qpower 2 e)%Q.
        + apply Qmult_le_compat_r; [rewrite <- Zle_Qle; lia|]. apply Qpower_0_le. discriminate.
        + rewrite !(Qmult_comm (inject_Z (2 ^ p))). apply Qmult_le_compat_r; [apply Qpower_le_compat_l; [lia|discriminate]|].
          change 0%Q with (inject_Z 0). rewrite <- Zle_Qle. lia.
      - rewrite qpow_int by lia. rewrite <- inject_Z_mult, <- Zle_Qle.
        rewrite <- Z.pow_add_r by lia. replace (p + (k - 1)) with (Z.log2 i) by lia. lia. }
    unfold Z.sub. rewrite inject_Z_plus, inject_Z_opp. set (x := (inject_Z m * Qpower 2 e)%Q) in *.
    apply Qle_trans with (- (x - inject_Z i))%Q; [lra|]. rewrite <- Qabs_opp. apply Qle_Qabs.
  - assert (EQ : (inject_Z m * Qpower 2 e == inject_Z (m * 2 ^ (e - k) * 2 ^ k))%Q).
    { rewrite qpow_int by lia. rewrite <- inject_Z_mult. rewrite <- Z.mul_assoc, <- Z.pow_add_r by lia.
      replace (e - k + k) with e by lia. reflexivity. }
    rewrite EQ. unfold Qminus. rewrite <- inject_Z_opp, <- inject_Z_plus.
    change (Qabs (inject_Z ?z)) with (inject_Z (Z.abs z)).
    rewrite <- Zle_Qle. apply (multiple_nearest (2 ^ k) v (m * 2 ^ (e - k)) i U Hd).
Qed.

Lemma kind_floating d : is_floating d -> exists b, kind d = Floating b (precision d) /\ top_exponent d = snd (exponents b) /\ fst (exponents b) <= 0.
Proof. destruct d; try contradiction; intros _; eexists; repeat split; discriminate. Qed.

Lemma store_nearest d i v : is_floating d -> 0 <= i <= largest_of d -> store d i = Some v ->
  holds d (inject_Z v) /\ forall w, holds d w -> (inject_Z (Z.abs (v - i)) <= Qabs (w - inject_Z i))%Q.
Proof.
  intros Hd Hi E. rewrite store_float in E by auto. injection E as <-.
  destruct (float_facts d Hd) as (P & T & L & _). destruct (kind_floating d Hd) as (b & Ek & Et & Eb). split.
  - unfold holds. rewrite Ek, <- Et. destruct (Z_lt_le_dec i (2 ^ precision d)) as [C|C].
    + rewrite round_small by lia. exists i, 0. split; [change (Qpower 2 0) with 1%Q; rewrite Qmult_1_r; reflexivity|]. lia.
    + rewrite L in Hi. pose proof (round_le (precision d) i (top_exponent d) ltac:(lia) ltac:(lia) Hi) as RL.
      destruct (round_shape (precision d) i ltac:(lia) C) as (m & k & Hk & Ek' & Er & Hm & _). rewrite Er in *.
      set (p := precision d) in *. assert (E2 : 2 ^ p = 2 ^ (p - 1) * 2) by (change (2 ^ (p - 1) * 2) with (2 ^ (p - 1) * 2 ^ 1); rewrite <- Z.pow_add_r by lia; f_equal; lia).
      assert (KT : forall m k, 2 ^ (p - 1) <= m -> 0 <= k -> m * 2 ^ k <= (2 ^ p - 1) * 2 ^ top_exponent d -> k <= top_exponent d).
      { intros m' k' Hm' Hk' HL. destruct (Z_lt_le_dec (top_exponent d) k') as [C'|]; auto. exfalso.
        assert (E3 : 2 ^ k' = 2 ^ (k' - top_exponent d - 1) * (2 ^ top_exponent d * 2)).
        { change (2 ^ top_exponent d * 2) with (2 ^ top_exponent d * 2 ^ 1). rewrite <- !Z.pow_add_r by lia. f_equal. lia. }
        assert (0 < 2 ^ (k' - top_exponent d - 1)) by lia. assert (0 < 2 ^ top_exponent d) by lia.
        set (x := 2 ^ (k' - top_exponent d - 1)) in *. set (y := 2 ^ top_exponent d) in *. set (z := 2 ^ (p - 1)) in *.
        assert (0 < z) by (unfold z; lia).
        assert (m' * 2 ^ k' >= z * (y * 2)).
        { rewrite E3. assert (z * (y * 2) <= m' * (y * 2)) by nia. nia. }
        rewrite E2 in HL. nia. }
      destruct (Z.eq_dec m (2 ^ p)) as [->|Hne].
      * exists (2 ^ (p - 1)), (k + 1). assert (EV : 2 ^ p * 2 ^ k = 2 ^ (p - 1) * 2 ^ (k + 1)).
        { rewrite E2, (Z.pow_add_r 2 k 1) by lia. change (2 ^ 1) with 2. ring. }
        rewrite EV in *. split; [rewrite qpow_int, <- inject_Z_mult by lia; reflexivity|]. split; [lia|].
        split; [lia|]. apply (KT (2 ^ (p - 1))); lia.
      * exists m, k. split; [rewrite qpow_int, <- inject_Z_mult by lia; reflexivity|]. split; [lia|].
        split; [lia|]. apply (KT m); lia.
  - intros w Hw. unfold holds in Hw. rewrite Ek in Hw. destruct Hw as (m & e & Ew & Hm & _). rewrite Ew.
    apply round_nearest; lia.
Qed.

Lemma timeline_nearest differs d n d' l : is_floating d -> get_timeline differs n (Some d) = Ok (d', l) ->
  is_floating d' /\ length l = n /\
  forall i, (i < n)%nat -> Z.of_nat i <= largest_of d' ->
  exists v, nth_error l i = Some (Some v) /\ holds d' (inject_Z v) /\
    forall w, holds d' w -> (inject_Z (Z.abs (v - Z.of_nat i)) <= Qabs (w - inject_Z (Z.of_nat i)))%Q.
Proof.
  intros Hd E. assert (G : is_floating d' /\ l = np_arange n d').
  { unfold get_timeline in E. apply bind_ok in E as (x & _ & E). destruct (differs d x (Z.of_nat n - 1)).
    - apply bind_ok in E as (d2 & E2 & E). injection E as <- <-. split; auto.
      unfold smallest_inclusive_dtype in E2. unfold is_floating in Hd. destruct (kind d); try contradiction.
      cbn [first_above] in E2. repeat (destruct (_ <? _) in E2; [injection E2 as <-; exact I|]). discriminate.
    - injection E as <- <-. auto. }
  destruct G as [Hd' ->]. split; auto. split; [unfold np_arange; rewrite map_length, length_zseq'; auto|].
  intros i Hi HL. destruct (store_float d' (Z.of_nat i) Hd' ltac:(lia)). pose proof (store_float d' (Z.of_nat i) Hd' ltac:(lia)) as ES.
  exists (round_bits (precision d') (Z.of_nat i)). split.
  - unfold np_arange. rewrite nth_error_map, nth_zseq by auto. cbn [option_map]. rewrite Z.add_0_l. rewrite ES. reflexivity.
  - apply store_nearest; auto. lia.
Qed.
