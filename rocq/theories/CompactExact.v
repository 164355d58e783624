(** * CompactExact: the polynomials the compact schemes reproduce exactly. *)
From Verif Require Import PyFacts QcFacts Compact Spec CompactSpec EmdExact EmdFlat CompactProofs CompactSchemes.
From Coq Require Import ZifyBool ZifyNat QArith Qcanon.
Open Scope Z_scope.

(** ** A polynomial seen from another origin and in another unit *)
Fixpoint padd (p q : vec) : vec :=
  match p, q with
  | [], _ => q
  | _, [] => p
  | a :: p', b :: q' => (a + b)%Qc :: padd p' q'
  end.
Lemma peval_padd p : forall q u, (peval (padd p q) u = peval p u + peval q u)%Qc.
Proof.
  induction p as [|a p IH]; intros q u; cbn [padd]; [cbn; ring|].
  destruct q as [|b q]; [cbn; ring|].
  change ((a + b) + u * peval (padd p q) u = (a + u * peval p u) + (b + u * peval q u))%Qc. rewrite IH. ring.
Qed.
Lemma padd_length p : forall q, length (padd p q) = Nat.max (length p) (length q).
Proof. induction p as [|a p IH]; intros [|b q]; cbn [padd length]; auto. rewrite IH. lia. Qed.
Lemma peval_scale k p u : (peval (map (Qcmult k) p) u = k * peval p u)%Qc.
Proof.
  induction p as [|a p IH]; [cbn; ring|].
  change (k * a + u * peval (map (Qcmult k) p) u = k * (a + u * peval p u))%Qc. rewrite IH. ring.
Qed.

Lemma pderiv_from_step p : forall k u, (peval (pderiv_from (k + 1) p) u = peval p u + peval (pderiv_from k p) u)%Qc.
Proof.
  induction p as [|a p IH]; intros k u; [cbn; ring|].
  change ((k + 1) * a + u * peval (pderiv_from (k + 1 + 1) p) u
          = (a + u * peval p u) + (k * a + u * peval (pderiv_from (k + 1) p) u))%Qc.
  rewrite (IH (k + 1)%Qc). ring.
Qed.
Lemma pderiv_from_0 p u : peval (pderiv_from 0 p) u = (u * peval (pderiv p) u)%Qc.
Proof.
  destruct p as [|a p]; [cbn; ring|].
  change (0 * a + u * peval (pderiv_from (0 + 1) p) u = u * peval (pderiv_from 1 p) u)%Qc.
  rewrite Qcplus_0_l. ring.
Qed.
Lemma pderiv_cons a p u : peval (pderiv (a :: p)) u = (peval p u + u * peval (pderiv p) u)%Qc.
Proof.
  change (pderiv (a :: p)) with (pderiv_from 1 p). rewrite <- (Qcplus_0_l 1), pderiv_from_step, pderiv_from_0. auto.
Qed.
Lemma pderiv_padd p : forall q u, (peval (pderiv (padd p q)) u = peval (pderiv p) u + peval (pderiv q) u)%Qc.
Proof.
  induction p as [|a p IH]; intros q u; cbn [padd]; [cbn; ring|].
  destruct q as [|b q]; [change (peval (pderiv []) u) with 0%Qc; ring|].
  rewrite !pderiv_cons, peval_padd, IH. ring.
Qed.
Lemma pderiv_scale k p u : (peval (pderiv (map (Qcmult k) p)) u = k * peval (pderiv p) u)%Qc.
Proof.
  induction p as [|a p IH]; [cbn; ring|]. cbn [map]. rewrite !pderiv_cons, peval_scale, IH. ring.
Qed.

Lemma shift p y h : exists q, length q = length p /\
  (forall u, peval p (y + u * h) = peval q u)%Qc /\
  (forall u, h * peval (pderiv p) (y + u * h) = peval (pderiv q) u)%Qc.
Proof.
  induction p as [|a p (q & L & E & D)].
  - exists []. split; [auto|]. split; intros u; cbn; ring.
  - exists (padd (a :: map (Qcmult h) q) (map (Qcmult y) q)).
    split; [rewrite padd_length; cbn [length]; rewrite !map_length; lia|]. split; intros u.
    + rewrite peval_padd, peval_scale.
      change (a + (y + u * h) * peval p (y + u * h) = a + u * peval (map (Qcmult h) q) u + y * peval q u)%Qc.
      rewrite peval_scale, E. ring.
    + rewrite pderiv_padd, !pderiv_cons, !pderiv_scale, peval_scale, <- D, E. ring.
Qed.

Lemma pad p n : (length p <= n)%nat -> exists q, length q = n /\
  forall u, (peval q u = peval p u /\ peval (pderiv q) u = peval (pderiv p) u)%Qc.
Proof.
  intros Hn. exists (padd p (repeat 0%Qc n)). split; [rewrite padd_length, repeat_length; lia|].
  assert (Z : forall m u, (peval (repeat 0%Qc m) u = 0 /\ peval (pderiv (repeat 0%Qc m)) u = 0)%Qc).
  { induction m as [|m IH]; intros u; [split; reflexivity|]. cbn [repeat]. destruct (IH u) as [E F].
    split; [change (0 + u * peval (repeat 0 m) u = 0)%Qc; rewrite E; ring|rewrite pderiv_cons, E, F; ring]. }
  intros u. destruct (Z n u) as [E F]. rewrite peval_padd, pderiv_padd, E, F. split; ring.
Qed.

(** Samples [k] steps from sample [i]. *)
Lemma sampled_near p t0 h n i : exists q, length q = length p /\
  (forall k, 0 <= i + k < Z.of_nat n -> sample (sampled p t0 h n) (i + k) = peval q (Qc_ofZ k)) /\
  (forall k, (h * peval (pderiv p) (t0 + Qc_ofZ (i + k) * h) = peval (pderiv q) (Qc_ofZ k))%Qc).
Proof.
  destruct (shift p (t0 + Qc_ofZ i * h) h) as (q & L & E & D). exists q. split; [exact L|]. split; intros k.
  - intros Hk. rewrite sample_sampled, <- E by exact Hk. f_equal. rewrite Qc_ofZ_add. ring.
  - rewrite <- D. do 2 f_equal. rewrite Qc_ofZ_add. ring.
Qed.

Lemma Qc_ofZ_lit k : Qc_ofZ k = Q2Qc (k # 1).
Proof. reflexivity. Qed.

(** Values and derivatives as linear forms in the coefficients. *)
Definition dot (w q : vec) : Qc := fold_right Qcplus 0%Qc (map2 Qcmult w q).
Fixpoint powers (u : Qc) (n : nat) : vec :=
  match n with O => [] | S m => 1%Qc :: map (Qcmult u) (powers u m) end.
Fixpoint dpowers (u : Qc) (n : nat) : vec :=
  match n with O => [] | S m => 0%Qc :: map2 Qcplus (powers u m) (map (Qcmult u) (dpowers u m)) end.
Lemma powers_length u n : length (powers u n) = n.
Proof. induction n; cbn [powers length]; auto. rewrite map_length. auto. Qed.
Lemma dpowers_length u n : length (dpowers u n) = n.
Proof. induction n; cbn [dpowers length]; auto. rewrite map2_length, map_length, IHn, powers_length. lia. Qed.
Lemma dot_cons a w b q : dot (a :: w) (b :: q) = (a * b + dot w q)%Qc.
Proof. reflexivity. Qed.
Lemma dot_scale k w : forall q, (k * dot w q = dot (map (Qcmult k) w) q)%Qc.
Proof.
  induction w as [|a w IH]; intros [|b q]; try (cbn; ring). cbn [map]. rewrite !dot_cons, <- IH. ring.
Qed.
Lemma dot_opp w : forall q, (- dot w q = dot (map Qcopp w) q)%Qc.
Proof.
  induction w as [|a w IH]; intros [|b q]; try (cbn; ring). cbn [map]. rewrite !dot_cons, <- IH. ring.
Qed.
Lemma dot_add w : forall w' q, length w = length w' -> (dot w q + dot w' q = dot (map2 Qcplus w w') q)%Qc.
Proof.
  induction w as [|a w IH]; intros [|b w'] [|x q] L; try discriminate L; try (cbn; ring).
  cbn [map2]. rewrite !dot_cons, <- IH by (injection L; auto). ring.
Qed.
Lemma peval_dot q u : peval q u = dot (powers u (length q)) q.
Proof.
  induction q as [|a q IH]; [reflexivity|]. cbn [length powers]. rewrite dot_cons, <- dot_scale, <- IH.
  change (a + u * peval q u = 1 * a + u * peval q u)%Qc. ring.
Qed.
Lemma pderiv_dot q u : peval (pderiv q) u = dot (dpowers u (length q)) q.
Proof.
  induction q as [|a q IH]; [reflexivity|]. cbn [length dpowers].
  rewrite dot_cons, <- dot_add, <- dot_scale, <- IH, <- peval_dot, pderiv_cons
    by (rewrite map_length, powers_length, dpowers_length; auto). ring.
Qed.
Lemma vec_this (x y : vec) : map this x = map this y -> x = y.
Proof.
  revert y. induction x as [|a x IH]; intros [|b y] E; try discriminate E; auto. cbn [map] in E. injection E as E1 E2.
  f_equal; auto. apply Qc_is_canon. rewrite E1. reflexivity.
Qed.
(** Prove an identity between linear forms in the coefficients of [q] of known length. *)
Ltac linear_form L :=
  rewrite ?pderiv_dot, ?peval_dot, ?L; unfold Qcminus, Qcdiv;
  repeat first
    [ rewrite dot_opp
    | rewrite dot_scale
    | rewrite (Qcmult_comm (dot _ _)), dot_scale
    | rewrite dot_add by (rewrite ?map2_length, ?map_length, ?powers_length, ?dpowers_length; reflexivity) ];
  f_equal; apply vec_this; vm_compute; reflexivity.

(** ** filt6 keeps polynomials of degree at most three *)
Lemma cubic_rows alpha q : length q = 4%nat ->
  let P k := peval q (Qc_ofZ k) in
  (alpha * P (-1)%Z + P 0%Z + alpha * P 1%Z = inner_f alpha (P (-3)%Z) (P (-2)%Z) (P (-1)%Z) (P 1%Z) (P 2%Z) (P 3%Z) (P 0%Z) /\
   P 0%Z = r0 (P 0%Z) (P 1%Z) (P 2%Z) (P 3%Z) (P 4%Z) /\
   P 1%Z = r1 (P 0%Z) (P 1%Z) (P 2%Z) (P 3%Z) (P 4%Z) /\
   P 2%Z = r2 (P 0%Z) (P 1%Z) (P 2%Z) (P 3%Z) (P 4%Z) /\
   P 0%Z = r0 (P 0%Z) (P (-1)%Z) (P (-2)%Z) (P (-3)%Z) (P (-4)%Z) /\
   P (-1)%Z = r1 (P 0%Z) (P (-1)%Z) (P (-2)%Z) (P (-3)%Z) (P (-4)%Z) /\
   P (-2)%Z = r2 (P 0%Z) (P (-1)%Z) (P (-2)%Z) (P (-3)%Z) (P (-4)%Z))%Qc.
Proof.
  intros L. cbv zeta.
  assert (E0 : (peval q (Qc_ofZ 0) = inner_f 0 (peval q (Qc_ofZ (-3))) (peval q (Qc_ofZ (-2))) (peval q (Qc_ofZ (-1)))
    (peval q (Qc_ofZ 1)) (peval q (Qc_ofZ 2)) (peval q (Qc_ofZ 3)) (peval q (Qc_ofZ 0)))%Qc).
  { unfold inner_f, Ca, Cb, Cc, Cd, h2. linear_form L. }
  assert (E1 : (peval q (Qc_ofZ (-1)) + peval q (Qc_ofZ 0) + peval q (Qc_ofZ 1)
    = inner_f 1 (peval q (Qc_ofZ (-3))) (peval q (Qc_ofZ (-2))) (peval q (Qc_ofZ (-1)))
    (peval q (Qc_ofZ 1)) (peval q (Qc_ofZ 2)) (peval q (Qc_ofZ 3)) (peval q (Qc_ofZ 0)))%Qc).
  { unfold inner_f, Ca, Cb, Cc, Cd, h2. linear_form L. }
  assert (A : forall a b c d e g h, (inner_f alpha a b c d e g h = inner_f 0 a b c d e g h
    + alpha * (inner_f 1 a b c d e g h - inner_f 0 a b c d e g h))%Qc).
  { intros. unfold inner_f, Ca, Cb, Cc, Cd. ring. }
  split; [rewrite A, <- E0, <- E1; ring|].
  unfold r0, r1, r2. repeat split; linear_form L.
Qed.

Lemma zlen_sampled p t0 h n : zlen (sampled p t0 h n) = Z.of_nat n.
Proof. unfold zlen. rewrite sampled_length. auto. Qed.

Lemma sampled_pad p q t0 h n : (forall u, peval q u = peval p u) -> sampled q t0 h n = sampled p t0 h n.
Proof. intros E. unfold sampled. apply map_ext. intros i. apply E. Qed.

(** Linear arithmetic with rational coefficients. *)
Ltac qclin :=
  qc_to_q;
  repeat match goal with E : ?v == ?q |- _ => is_var v;
    repeat match goal with H : context [v] |- _ => lazymatch H with E => fail | _ => rewrite E in H end end;
    try rewrite E; clear E end; lra.

(** filt6 solves the equations of the filter. *)
Lemma filt6_iff f alpha x : (5 <= length f)%nat -> small alpha -> filt6 f alpha = Ok x <-> filtered alpha f x.
Proof.
  intros Hn0 Hs. assert (Hn : 5 <= zlen f) by (unfold zlen; lia).
  destruct (filt6_runs f alpha Hn Hs) as (rhs & Da & Dc & y & E & -> & Ly & SA & SC & T & U).
  destruct (filt6_rhs_spec f alpha Hn) as (rhs' & E' & _ & R & R0 & R1 & R2 & R5 & R4 & R3).
  rewrite E in E'. injection E' as <-.
  assert (Row : forall z i, 0 <= i < zlen f -> i < 3 \/ zlen f - 3 <= i ->
    ((if i =? 0 then 0 else sample Da i * sample z (i - 1)) + sample (repeat n1 (length f)) i * sample z i
     + (if i =? zlen f - 1 then 0 else sample Dc i * sample z (i + 1)) = sample z i)%Qc).
  { intros z i Hi He. rewrite sample_ones by exact Hi.
    replace (if i =? 0 then 0%Qc else (sample Da i * sample z (i - 1))%Qc) with 0%Qc.
    2:{ destruct (Z.eqb_spec i 0); auto. rewrite SA by lia. destruct (Z.ltb_spec i 3), (Z.leb_spec (zlen f - 3) i); cbn [orb]; try ring; lia. }
    replace (if i =? zlen f - 1 then 0%Qc else (sample Dc i * sample z (i + 1))%Qc) with 0%Qc.
    2:{ destruct (Z.eqb_spec i (zlen f - 1)); auto. rewrite SC by lia. destruct (Z.ltb_spec i 3), (Z.leb_spec (zlen f - 3) i); cbn [orb]; try ring; lia. }
    change (@n1 Qc _) with 1%Qc. ring. }
  assert (Inn : forall z i, 3 <= i < zlen f - 3 ->
    ((if i =? 0 then 0 else sample Da i * sample z (i - 1)) + sample (repeat n1 (length f)) i * sample z i
     + (if i =? zlen f - 1 then 0 else sample Dc i * sample z (i + 1)) =
     alpha * sample z (i - 1) + sample z i + alpha * sample z (i + 1))%Qc).
  { intros z i Hi. rewrite sample_ones by (unfold zlen in *; lia). rewrite SA, SC by lia. replace (i <? 3) with false by lia.
    replace (zlen f - 3 <=? i) with false by lia. replace (i =? 0) with false by lia.
    replace (i =? zlen f - 1) with false by lia. cbn [orb]. ring. }
  assert (D0 : forall a b c d e, r0 a b c d e = (a - fourth_difference a b c d e * Q2Qc (1 # 16))%Qc)
    by (intros; unfold r0, fourth_difference; qcring).
  assert (D1 : forall a b c d e, r1 a b c d e = (b + fourth_difference a b c d e * Q2Qc (1 # 16))%Qc)
    by (intros; unfold r1, fourth_difference; qcring).
  assert (D2 : forall a b c d e, r2 a b c d e = (c - fourth_difference a b c d e * Q2Qc (1 # 16))%Qc)
    by (intros; unfold r2, fourth_difference; qcring).
  assert (R2' : sample rhs 2 = r2 (sample f 0) (sample f 1) (sample f 2) (sample f 3) (sample f 4)).
  { destruct (Z.eq_dec (zlen f) 5) as [H5|H5]; [|apply R2; lia].
    rewrite H5 in R3. cbn in R3. rewrite R3. unfold r2. ring. }
  assert (HI : forall i, inner_f alpha (sample f (i - 3)) (sample f (i - 2)) (sample f (i - 1)) (sample f (i + 1)) (sample f (i + 2))
      (sample f (i + 3)) (sample f i) =
     ((Q2Qc 11 + Q2Qc 10 * alpha) * Q2Qc (1 # 16) * ((sample f (i + 0)%Z + sample f (i - 0)%Z) * Q2Qc (1 # 2)) +
     (Q2Qc 15 + Q2Qc 34 * alpha) * Q2Qc (1 # 32) * ((sample f (i + 1)%Z + sample f (i - 1)%Z) * Q2Qc (1 # 2)) +
     (Q2Qc (-3) + Q2Qc 6 * alpha) * Q2Qc (1 # 16) * ((sample f (i + 2)%Z + sample f (i - 2)%Z) * Q2Qc (1 # 2)) +
     (Q2Qc 1 - Q2Qc 2 * alpha) * Q2Qc (1 # 32) * ((sample f (i + 3)%Z + sample f (i - 3)%Z) * Q2Qc (1 # 2)))%Qc).
  { intros i. rewrite Z.add_0_r, Z.sub_0_r.
    replace ((sample f i + sample f i) * Q2Qc (1 # 2))%Qc with (sample f i) by qcring.
    unfold inner_f, Ca, Cb, Cc, Cd, h2. ring. }
  clear R2 E. rewrite D0 in R0, R5. rewrite D1 in R1, R4. rewrite D2 in R2', R3.
  destruct T as [_ T]. rewrite repeat_length in T. change (Z.of_nat (length f)) with (zlen f) in T.
  split.
  - intros E. injection E as <-. unfold filtered. change (Z.of_nat (length f)) with (zlen f). cbv zeta.
    split; [exact Ly|]. split.
    + repeat split; (rewrite <- Row by lia; rewrite T by lia; assumption).
    + intros i Hi. rewrite <- Inn, T, R by lia. apply HI.
  - unfold filtered. change (Z.of_nat (length f)) with (zlen f). cbv zeta. intros (Lx & (B0 & B1 & B2 & B5 & B4 & B3) & BI).
    f_equal. symmetry. apply U. split; [rewrite repeat_length; exact Lx|]. rewrite repeat_length.
    change (Z.of_nat (length f)) with (zlen f). intros i Hi.
    destruct (Z.ltb_spec i 3) as [H3|H3]; [|destruct (Z.leb_spec (zlen f - 3) i) as [H4|H4]].
    + rewrite Row by lia. assert (C : i = 0 \/ i = 1 \/ i = 2) by lia. destruct C as [->|[->| ->]]; congruence.
    + rewrite Row by lia. assert (C : i = zlen f - 1 \/ i = zlen f - 2 \/ i = zlen f - 3) by lia.
      destruct C as [->|[->| ->]]; congruence.
    + rewrite Inn, R, HI by lia. apply BI. lia.
Qed.

(** Any cubic plus any sawtooth: the cubic passes, the sawtooth is removed. *)
Lemma sample_saw c n i : 0 <= i < Z.of_nat n -> sample (sawtooth c n) i = if Z.even i then c else (- c)%Qc.
Proof.
  intros Hi. unfold sample, sawtooth.
  rewrite nth_indep with (d' := if Nat.even 0 then c else (- c)%Qc) by (rewrite map_length, seq_length; lia).
  rewrite (map_nth (fun i => if Nat.even i then c else (- c)%Qc)), seq_nth by lia. rewrite Nat.add_0_l.
  replace (Nat.even (Z.to_nat i)) with (Z.even i); auto. rewrite <- (Z2Nat.id i) at 1 by lia.
  generalize (Z.to_nat i). clear. intros k.
  induction k as [|k IH]; [reflexivity|]. rewrite Nat2Z.inj_succ, Z.even_succ, Nat.even_succ, <- Z.negb_even, IH, Nat.negb_even. reflexivity.
Qed.
Lemma saw_length c n : length (sawtooth c n) = n.
Proof. unfold sawtooth. rewrite map_length, seq_length. auto. Qed.

Lemma filt6_cubic_saw p t0 h n c alpha : (length p <= 4)%nat -> (5 <= n)%nat -> small alpha ->
  filt6 (vadd (sampled p t0 h n) (sawtooth c n)) alpha = Ok (sampled p t0 h n).
Proof.
  intros Hp0 Hn Hs. destruct (pad p 4 Hp0) as (p4 & Hp & Ep).
  rewrite <- (sampled_pad p p4) by (intros; apply Ep). clear p Hp0 Ep. rename p4 into p.
  set (g := sampled p t0 h n). assert (Lg : length g = n) by apply sampled_length.
  assert (Lf : length (vadd g (sawtooth c n)) = n) by (unfold vadd; rewrite map2_length, saw_length; lia).
  apply filt6_iff; auto; [lia|]. unfold filtered. rewrite Lf. cbv zeta.
  assert (S : forall i, 0 <= i < Z.of_nat n -> sample (vadd g (sawtooth c n)) i = (sample g i + if Z.even i then c else - c)%Qc).
  { intros i Hi. unfold vadd. rewrite sample_map2 by (unfold zlen; rewrite ?saw_length; lia). rewrite sample_saw by lia. reflexivity. }
  split; [lia|]. rewrite !S by lia. split.
  - destruct (sampled_near p t0 h n 0) as (q & Lq & N & _). fold g in N. rewrite Hp in Lq.
    destruct (cubic_rows alpha q Lq) as (_ & Q0 & _ & _ & _). rewrite <- !N in Q0 by lia. cbn [Z.add] in Q0.
    destruct (sampled_near p t0 h n (Z.of_nat n - 1)) as (q' & Lq' & N' & _). fold g in N'. rewrite Hp in Lq'.
    destruct (cubic_rows alpha q' Lq') as (_ & _ & _ & _ & Q5 & _). rewrite <- !N' in Q5 by lia.
    replace (Z.of_nat n - 1 + 0) with (Z.of_nat n - 1) in * by lia. replace (Z.of_nat n - 1 + -1) with (Z.of_nat n - 2) in * by lia.
    replace (Z.of_nat n - 1 + -2) with (Z.of_nat n - 3) in * by lia. replace (Z.of_nat n - 1 + -3) with (Z.of_nat n - 4) in * by lia.
    replace (Z.of_nat n - 1 + -4) with (Z.of_nat n - 5) in * by lia.
    assert (Ev : forall k, Z.even (Z.of_nat n - k) = Bool.eqb (Z.even (Z.of_nat n)) (Z.even k)) by (intros; apply Z.even_sub).
    rewrite !Ev. cbn [Z.even].
    unfold r0 in Q0, Q5. unfold fourth_difference.
    destruct (Z.even (Z.of_nat n)); cbn [Bool.eqb]; repeat split; qclin.
  - intros i Hi. rewrite !S by lia. rewrite !Z.even_add, !Z.even_sub. cbn [Z.even].
    destruct (sampled_near p t0 h n i) as (q & Lq & N & _). fold g in N. rewrite Hp in Lq.
    destruct (cubic_rows alpha q Lq) as (Q & _). rewrite <- !N in Q by lia.
    replace (i + 0) with i in * by lia. replace (i - 0) with i by lia. replace (i + -1) with (i - 1) in Q by lia.
    replace (i + -2) with (i - 2) in Q by lia. replace (i + -3) with (i - 3) in Q by lia.
    rewrite Q. unfold inner_f, Ca, Cb, Cc, Cd, h2. destruct (Z.even i); cbn [Bool.eqb]; qcring.
Qed.

Lemma saw_zero p t0 h n : vadd (sampled p t0 h n) (sawtooth 0 n) = sampled p t0 h n.
Proof.
  apply vec_ext; [unfold vadd; rewrite map2_length, sampled_length, saw_length; lia|].
  intros i Hi. assert (Hi' : 0 <= i < Z.of_nat n).
  { unfold zlen, vadd in Hi. rewrite map2_length, sampled_length, saw_length in Hi. lia. }
  unfold vadd. rewrite sample_map2 by (unfold zlen; rewrite ?sampled_length, ?saw_length; lia). rewrite sample_saw by lia.
  change nadd with Qcplus. destruct (Z.even i); ring.
Qed.
Lemma filt6_cubic p t0 h n alpha : (length p <= 4)%nat -> (5 <= n)%nat -> small alpha ->
  filt6 (sampled p t0 h n) alpha = Ok (sampled p t0 h n).
Proof. intros. rewrite <- (saw_zero p t0 h n) at 1. apply filt6_cubic_saw; auto. Qed.

Lemma filt6_short f alpha : (length f < 5)%nat -> filt6 f alpha = Raise IndexError.
Proof.
  intros Hf. destruct f as [|a [|b [|c [|d [|e f]]]]]; cbn [length] in Hf; try lia; reflexivity.
Qed.

(** ** pade6 *)
Section Pade.
Variable v : vec.
Variable h : Qc.
Notation n := (zlen v).
Notation F i := (sample v i).
Definition s0 (a b c d e g : Qc) : Qc :=
  ((Q2Qc (-197 # 60) * a + Q2Qc (-5 # 12) * b + Q2Qc 5 * c + Q2Qc (-5 # 3) * d + Q2Qc (5 # 12) * e + Q2Qc (-1 # 20) * g) / h)%Qc.
Definition s1 (a b c d e g : Qc) : Qc :=
  ((Q2Qc (-20 # 33) * a + Q2Qc (-35 # 132) * b + Q2Qc (34 # 33) * c + Q2Qc (-7 # 33) * d + Q2Qc (2 # 33) * e + Q2Qc (-1 # 132) * g) / h)%Qc.
Definition t0' (a b c d e g : Qc) : Qc :=
  ((Q2Qc (197 # 60) * a + Q2Qc (5 # 12) * b + Q2Qc (-5) * c + Q2Qc (5 # 3) * d + Q2Qc (-5 # 12) * e + Q2Qc (1 # 20) * g) / h)%Qc.
Definition t1' (a b c d e g : Qc) : Qc :=
  ((Q2Qc (20 # 33) * a + Q2Qc (35 # 132) * b + Q2Qc (-34 # 33) * c + Q2Qc (7 # 33) * d + Q2Qc (-2 # 33) * e + Q2Qc (1 # 132) * g) / h)%Qc.
Definition inner_p (a b d e : Qc) : Qc := ((d - b) * (Q2Qc (14 # 18) / h) + (e - a) * (Q2Qc (1 # 36) / h))%Qc.

Lemma pade6_rhs_spec : 6 <= n -> exists rhs, pade6_rhs v h = Ok rhs /\ zlen rhs = n /\
  (forall i, 2 <= i < n - 2 -> sample rhs i = inner_p (F (i - 2)) (F (i - 1)) (F (i + 1)) (F (i + 2))) /\
  sample rhs 0 = s0 (F 0) (F 1) (F 2) (F 3) (F 4) (F 5) /\
  sample rhs 1 = s1 (F 0) (F 1) (F 2) (F 3) (F 4) (F 5) /\
  sample rhs (n - 1) = t0' (F (n - 1)) (F (n - 2)) (F (n - 3)) (F (n - 4)) (F (n - 5)) (F (n - 6)) /\
  sample rhs (n - 2) = t1' (F (n - 1)) (F (n - 2)) (F (n - 3)) (F (n - 4)) (F (n - 5)) (F (n - 6)).
Proof.
  intros Hn. unfold pade6_rhs.
  rewrite !(py_get_sample v) by lia. rewrite !(py_get_sample_neg v) by lia. cbn [bind].
  rewrite !nlit_Q.
  set (inner := vadd _ _).
  assert (C : forall k, 0 <= k <= 6 -> clip_bound n k = k) by (intros; unfold clip_bound; destruct (Z.ltb_spec k 0); lia).
  assert (D : forall k, -6 <= k < 0 -> clip_bound n k = n + k) by (intros; unfold clip_bound; destruct (Z.ltb_spec k 0); lia).
  assert (N : clip_bound n n = n) by (unfold clip_bound; destruct (Z.ltb_spec n 0); lia).
  assert (L : zlen inner = n - 4).
  { unfold inner, vadd, vsub. rewrite !zlen_map2, !zlen_map, !zlen_map2, !zlen_slice. clips. lia. }
  destruct (set_slice_spec (vzeros (length v)) 2 2 inner) as (rhs0 & E & L0 & S0);
    try (rewrite ?zlen_zeros; unfold zlen in *; lia).
  rewrite zlen_zeros in *. change (Z.of_nat (length v)) with n in *. change (- (2)) with (-2) in E. rewrite E. cbn [bind].
  match goal with |- context [py_sets rhs0 ?us] => destruct (sets_spec us rhs0) as (rhs & E1 & L1 & S1) end.
  { rewrite L0. intros u Hu. cbn [In] in Hu. unfold wrap.
    repeat (destruct Hu as [<-|Hu]; [cbn [fst]; match goal with |- context [?a <? 0] => destruct (Z.ltb_spec a 0) end; lia|]). tauto. }
  exists rhs. rewrite L0 in L1, S1. split; [exact E1|]. split; [exact L1|].
  assert (S2 : forall j, 0 <= j -> sample rhs j =
     if j =? n - 2 then t1' (F (n - 1)) (F (n - 2)) (F (n - 3)) (F (n - 4)) (F (n - 5)) (F (n - 6)) else
     if j =? n - 1 then t0' (F (n - 1)) (F (n - 2)) (F (n - 3)) (F (n - 4)) (F (n - 5)) (F (n - 6)) else
     if j =? 1 then s1 (F 0) (F 1) (F 2) (F 3) (F 4) (F 5) else
     if j =? 0 then s0 (F 0) (F 1) (F 2) (F 3) (F 4) (F 5) else sample rhs0 j).
  { intros j Hj. rewrite S1 by auto. cbn [fold_left fst snd]. unfold wrap. cbn [Z.ltb Z.compare].
    replace (-1 + n) with (n - 1) by lia. replace (-2 + n) with (n - 2) by lia. reflexivity. }
  clear S1. split.
  { intros i Hi. rewrite S2 by lia. replace (i =? n - 2) with false by lia.
    replace (i =? n - 1) with false by lia. replace (i =? 1) with false by lia.
    replace (i =? 0) with false by lia. rewrite S0 by lia. unfold inner, vadd, vsub.
    assert (B : forall lo hi, 0 <= clip_bound n lo -> i - 2 < clip_bound n hi - clip_bound n lo ->
        sample (py_slice v lo hi) (i - 2) = F (clip_bound n lo + (i - 2))).
    { intros. apply sample_slice. lia. }
    assert (Z1 : forall lo hi, clip_bound n hi - clip_bound n lo = n - 4 -> zlen (py_slice v lo hi) = n - 4).
    { intros lo hi HH. rewrite zlen_slice. lia. }
    rewrite sample_map2 by (rewrite ?zlen_map, ?zlen_map2, ?Z1 by (clips; lia); lia).
    rewrite !sample_map by (rewrite ?zlen_map2, ?Z1 by (clips; lia); lia).
    rewrite !sample_map2 by (rewrite ?Z1 by (clips; lia); lia).
    rewrite !B by (clips; lia). clips.
    replace (3 + (i - 2)) with (i + 1) by lia. replace (1 + (i - 2)) with (i - 1) by lia.
    replace (4 + (i - 2)) with (i + 2) by lia. replace (0 + (i - 2)) with (i - 2) by lia. reflexivity. }
  rewrite !S2 by lia.
  replace (0 =? n - 2) with false by lia. replace (0 =? n - 1) with false by lia.
  replace (1 =? n - 2) with false by lia. replace (1 =? n - 1) with false by lia.
  replace (n - 1 =? n - 2) with false by lia. rewrite !Z.eqb_refl. auto.
Qed.
End Pade.

Lemma pade6_system v h : 6 <= zlen v -> exists rhs Da Dc, pade6_rhs v h = Ok rhs /\
  pade6 v h = TDMAsolver Da (repeat n1 (length v)) Dc rhs /\
  zlen Da = zlen v /\ zlen Dc = zlen v /\ zlen rhs = zlen v /\
  (forall j, 0 < j < zlen v -> sample Da j =
     if j =? zlen v - 1 then Q2Qc 5 else if (j =? 1) || (j =? zlen v - 2) then Q2Qc (2 # 11) else Q2Qc (1 # 3)) /\
  (forall j, 0 <= j < zlen v - 1 -> sample Dc j =
     if j =? 0 then Q2Qc 5 else if (j =? 1) || (j =? zlen v - 2) then Q2Qc (2 # 11) else Q2Qc (1 # 3)).
Proof.
  intros Hn. destruct (pade6_rhs_spec v h Hn) as (rhs & E & L & _).
  set (o := vscale (Q2Qc (1 # 3)) (repeat n1 (length v))).
  assert (Lo : zlen o = zlen v) by apply zlen_scaled_ones.
  destruct (sets_spec [(1, Q2Qc (2 # 11)); (-1, Q2Qc 5); (-2, Q2Qc (2 # 11))] o) as (Da & E1 & L1 & S1).
  { rewrite Lo. intros u Hu. cbn [In] in Hu. unfold wrap.
    repeat (destruct Hu as [<-|Hu]; [cbn [fst]; match goal with |- context [?a <? 0] => destruct (Z.ltb_spec a 0) end; lia|]). tauto. }
  destruct (sets_spec [(0, Q2Qc 5); (1, Q2Qc (2 # 11)); (-2, Q2Qc (2 # 11))] o) as (Dc & E2 & L2 & S2).
  { rewrite Lo. intros u Hu. cbn [In] in Hu. unfold wrap.
    repeat (destruct Hu as [<-|Hu]; [cbn [fst]; match goal with |- context [?a <? 0] => destruct (Z.ltb_spec a 0) end; lia|]). tauto. }
  exists rhs, Da, Dc. split; [exact E|]. split.
  { unfold pade6. rewrite E. cbn [bind]. rewrite !nlit_Q. fold o. rewrite E1. cbn [bind]. rewrite E2. reflexivity. }
  split; [congruence|]. split; [congruence|]. split; [exact L|].
  rewrite Lo in S1, S2.
  assert (So : forall j, 0 <= j < zlen v -> sample o j = Q2Qc (1 # 3)) by (intros; apply sample_scaled_ones; auto).
  cbn [fold_left fst snd] in S1, S2. unfold wrap in S1, S2. cbn [Z.ltb Z.compare] in S1, S2.
  replace (-1 + zlen v) with (zlen v - 1) in * by lia. replace (-2 + zlen v) with (zlen v - 2) in * by lia.
  split; intros j Hj.
  - rewrite S1, So by lia.
    repeat match goal with |- context [?a =? ?b] => destruct (Z.eqb_spec a b) end; cbn [orb]; auto; lia.
  - rewrite S2, So by lia.
    repeat match goal with |- context [?a =? ?b] => destruct (Z.eqb_spec a b) end; cbn [orb]; auto; lia.
Qed.

(** The pivots. *)
Lemma pivot_step a b c i : pivot a b c (S i) =
  (sample b (Z.of_nat (S i)) - sample a (Z.of_nat (S i)) * (sample c (Z.of_nat i) / pivot a b c i))%Qc.
Proof. cbn [pivot]. unfold sample. rewrite !Nat2Z.id. reflexivity. Qed.
Lemma inv_bound (p k : Qc) : (0 < k)%Qc -> (1 <= k * p)%Qc -> (0 < / p /\ / p <= k)%Qc.
Proof.
  intros Hk Hp.
  assert (P : (0 < p)%Qc).
  { destruct (Qclt_le_dec 0 p) as [Q|Q]; auto. exfalso.
    assert (k * p <= 0)%Qc by (rewrite Qcmult_comm; replace 0%Qc with (0 * k)%Qc by ring; apply Qcmult_le_compat_r; auto; qclra). qclra. }
  assert (NZ : p <> 0%Qc) by (intros E; rewrite E in P; exact (Qclt_not_eq _ _ P eq_refl)).
  assert (I : (0 < / p)%Qc).
  { destruct (Qclt_le_dec 0 (/ p)) as [Q|Q]; auto. exfalso.
    assert (/ p * p <= 0 * p)%Qc by (apply Qcmult_le_compat_r; auto; qclra).
    rewrite (Qcmult_comm (/ p)), Qcmult_inv_r, Qcmult_0_l in H by exact NZ. qclra. }
  split; auto.
  assert (1 * / p <= k * p * / p)%Qc by (apply Qcmult_le_compat_r; auto; qclra).
  rewrite <- Qcmult_assoc, Qcmult_inv_r, Qcmult_1_l, Qcmult_1_r in H by exact NZ. exact H.
Qed.

Section Regular.
Variables (n : Z) (a c : vec).
Hypothesis Ha : forall j, 0 < j < n -> sample a j =
  if j =? n - 1 then Q2Qc 5 else if (j =? 1) || (j =? n - 2) then Q2Qc (2 # 11) else Q2Qc (1 # 3).
Hypothesis Hc : forall j, 0 <= j < n - 1 -> sample c j =
  if j =? 0 then Q2Qc 5 else if (j =? 1) || (j =? n - 2) then Q2Qc (2 # 11) else Q2Qc (1 # 3).
Notation b := (repeat (@n1 Qc _) (Z.to_nat n)).
Notation p := (pivot a b c).

Lemma pade_step i : 0 <= Z.of_nat i < n - 1 ->
  p (S i) = (1 - sample a (Z.of_nat i + 1) * (sample c (Z.of_nat i) * / p i))%Qc.
Proof.
  intros Hi. rewrite pivot_step, sample_ones by lia. replace (Z.of_nat (S i)) with (Z.of_nat i + 1) by lia. reflexivity.
Qed.
Ltac ifs := repeat match goal with |- context [?x =? ?y] => destruct (Z.eqb_spec x y); try lia end; cbn [orb].
Lemma pade_first : 6 <= n -> p 3 = Q2Qc (2 # 3).
Proof.
  intros Hn.
  assert (p 0%nat = 1%Qc) as P0 by (cbn [pivot]; destruct (Z.to_nat n) eqn:E; [lia|reflexivity]).
  assert (p 1%nat = Q2Qc (1 # 11)) as P1.
  { rewrite pade_step, P0, Ha, Hc by lia. cbn [Z.of_nat]. ifs. apply Qc_is_canon. vm_compute. reflexivity. }
  assert (p 2%nat = Q2Qc (1 # 3)) as P2.
  { rewrite pade_step, P1, Ha, Hc by lia. change (Z.of_nat 1) with 1. ifs. apply Qc_is_canon. vm_compute. reflexivity. }
  rewrite pade_step, P2, Ha, Hc by lia. change (Z.of_nat 2) with 2. ifs. apply Qc_is_canon. vm_compute. reflexivity.
Qed.
Lemma pade_middle : 7 <= n -> forall i, 4 <= Z.of_nat i <= n - 3 -> (Q2Qc (5 # 6) <= p i)%Qc.
Proof.
  intros Hn. induction i as [|i IH]; intros Hi; [lia|].
  rewrite pade_step, Ha, Hc by lia. ifs.
  destruct (Z.eq_dec (Z.of_nat i) 3) as [E|E].
  - assert (i = 3%nat) by lia. subst i. rewrite pade_first by lia. vm_compute. discriminate.
  - destruct (inv_bound (p i) (Q2Qc (6 # 5))) as [I1 I2]; [reflexivity| |].
    + assert (Q2Qc (5 # 6) <= p i)%Qc by (apply IH; lia). qclin.
    + qclin.
Qed.
Lemma pade_regular : 7 <= n -> regular a b c.
Proof.
  intros Hn i Hi. rewrite repeat_length in Hi.
  assert (P0 : p 0%nat = 1%Qc) by (cbn [pivot]; destruct (Z.to_nat n) eqn:E; [lia|reflexivity]).
  assert (P1 : p 1%nat = Q2Qc (1 # 11)).
  { rewrite pade_step, P0, Ha, Hc by lia. cbn [Z.of_nat]. ifs. apply Qc_is_canon. vm_compute. reflexivity. }
  assert (P2 : p 2%nat = Q2Qc (1 # 3)).
  { rewrite pade_step, P1, Ha, Hc by lia. change (Z.of_nat 1) with 1. ifs. apply Qc_is_canon. vm_compute. reflexivity. }
  destruct (Z.ltb_spec (Z.of_nat i) 4) as [H4|H4].
  { destruct i as [|[|[|[|]]]]; try lia; [rewrite P0|rewrite P1|rewrite P2|rewrite pade_first by lia]; discriminate. }
  destruct (Z.leb_spec (Z.of_nat i) (n - 3)) as [H3|H3].
  { pose proof (pade_middle Hn i ltac:(lia)). intros E. rewrite E in H. qclin. }
  set (k := Z.to_nat (n - 3)).
  assert (P3 : (Q2Qc (5 # 6) <= p k)%Qc) by (apply pade_middle; lia).
  assert (P4 : (Q2Qc (51 # 55) <= p (S k))%Qc).
  { rewrite pade_step, Ha, Hc by lia. ifs. destruct (inv_bound (p k) (Q2Qc (6 # 5))) as [I1 I2]; [reflexivity|qclin|qclin]. }
  destruct (Z.eq_dec (Z.of_nat i) (n - 2)) as [E2|E2].
  { replace i with (S k) by lia. intros E. rewrite E in P4. qclin. }
  replace i with (S (S k)) by lia. rewrite pade_step, Ha, Hc by lia. ifs.
  destruct (inv_bound (p (S k)) (Q2Qc (55 # 51))) as [I1 I2]; [reflexivity|qclin|]. qclin.
Qed.
End Regular.

(** ** pade6 differentiates polynomials of degree at most six *)
Lemma sextic_rows q : length q = 7%nat ->
  let P k := peval q (Qc_ofZ k) in
  let D k := peval (pderiv q) (Qc_ofZ k) in
  (Q2Qc (1 # 3) * D (-1)%Z + D 0%Z + Q2Qc (1 # 3) * D 1%Z
     = (P 1%Z - P (-1)%Z) * Q2Qc (14 # 18) + (P 2%Z - P (-2)%Z) * Q2Qc (1 # 36) /\
   D 0%Z + Q2Qc 5 * D 1%Z = Q2Qc (-197 # 60) * P 0%Z + Q2Qc (-5 # 12) * P 1%Z + Q2Qc 5 * P 2%Z + Q2Qc (-5 # 3) * P 3%Z
     + Q2Qc (5 # 12) * P 4%Z + Q2Qc (-1 # 20) * P 5%Z /\
   Q2Qc (2 # 11) * D 0%Z + D 1%Z + Q2Qc (2 # 11) * D 2%Z
     = Q2Qc (-20 # 33) * P 0%Z + Q2Qc (-35 # 132) * P 1%Z + Q2Qc (34 # 33) * P 2%Z + Q2Qc (-7 # 33) * P 3%Z
     + Q2Qc (2 # 33) * P 4%Z + Q2Qc (-1 # 132) * P 5%Z /\
   Q2Qc 5 * D (-1)%Z + D 0%Z = Q2Qc (197 # 60) * P 0%Z + Q2Qc (5 # 12) * P (-1)%Z + Q2Qc (-5) * P (-2)%Z + Q2Qc (5 # 3) * P (-3)%Z
     + Q2Qc (-5 # 12) * P (-4)%Z + Q2Qc (1 # 20) * P (-5)%Z /\
   Q2Qc (2 # 11) * D (-2)%Z + D (-1)%Z + Q2Qc (2 # 11) * D 0%Z
     = Q2Qc (20 # 33) * P 0%Z + Q2Qc (35 # 132) * P (-1)%Z + Q2Qc (-34 # 33) * P (-2)%Z + Q2Qc (7 # 33) * P (-3)%Z
     + Q2Qc (-2 # 33) * P (-4)%Z + Q2Qc (1 # 132) * P (-5)%Z)%Qc.
Proof.
  intros L. cbv zeta. repeat split; linear_form L.
Qed.

Lemma pade6_exact p t0 h n : (length p <= 7)%nat -> (7 <= n)%nat -> h <> 0%Qc ->
  pade6 (sampled p t0 h n) h = Ok (sampled (pderiv p) t0 h n).
Proof.
  intros Hp0 Hn Hh. destruct (pad p 7 Hp0) as (p7 & Hp & Ep).
  rewrite <- (sampled_pad p p7) by (intros; apply Ep).
  rewrite <- (sampled_pad (pderiv p) (pderiv p7)) by (intros; apply Ep). clear p Hp0 Ep. rename p7 into p.
  set (v := sampled p t0 h n). set (x := sampled (pderiv p) t0 h n).
  assert (Lv : zlen v = Z.of_nat n) by apply zlen_sampled.
  assert (Hn' : 6 <= zlen v) by lia.
  destruct (pade6_system v h Hn') as (rhs & Da & Dc & E & -> & L1 & L2 & L3 & SA & SC).
  destruct (pade6_rhs_spec v h Hn') as (rhs' & E' & _ & R & R0 & R1 & R5 & R4).
  rewrite E in E'. injection E' as <-.
  assert (Ln : length v = Z.to_nat (zlen v)) by (unfold zlen; lia).
  assert (X : forall i q, (forall k, (h * peval (pderiv p) (t0 + Qc_ofZ (i + k) * h) = peval (pderiv q) (Qc_ofZ k))%Qc) ->
    forall k, 0 <= i + k < zlen v -> sample x (i + k) = (peval (pderiv q) (Qc_ofZ k) * / h)%Qc).
  { intros i q Hq k Hk. unfold x. rewrite sample_sampled by lia. symmetry. apply div_eq; auto. }
  apply tdma_eq; try (rewrite repeat_length; apply length_zlen; congruence).
  { destruct v; [unfold zlen in Hn'; cbn in Hn'; lia|discriminate]. }
  { rewrite Ln. apply pade_regular; auto. lia. }
  split; [rewrite repeat_length; apply length_zlen; unfold x; rewrite zlen_sampled; lia|].
  rewrite repeat_length. change (Z.of_nat (length v)) with (zlen v). intros i Hi.
  rewrite sample_ones by exact Hi. rewrite Qcmult_1_l.
  assert (K : forall y z u : Qc, y = z -> u = (z * / h)%Qc -> u = (y * / h)%Qc) by (intros; subst; auto).
  destruct (Z.ltb_spec i 2) as [H3|H3]; [|destruct (Z.leb_spec (zlen v - 2) i) as [H4|H4]].
  - destruct (sampled_near p t0 h n 0) as (q & Lq & N & N'). fold v in N. rewrite Hp in Lq.
    destruct (sextic_rows q Lq) as (_ & Q0 & Q1 & _). specialize (X 0 q N'). cbn [Z.add] in X, N.
    rewrite <- !N in Q0, Q1 by lia.
    assert (C : i = 0 \/ i = 1) by lia. destruct C as [->| ->].
    + rewrite R0. unfold s0, Qcdiv. rewrite <- Q0, SC by lia. replace (0 =? zlen v - 1) with false by lia.
      cbn [Z.eqb Z.add]. rewrite !X by lia. ring.
    + rewrite R1. unfold s1, Qcdiv. rewrite <- Q1, SC, SA by lia. replace (1 =? zlen v - 1) with false by lia.
      cbn [Z.eqb Pos.eqb orb Z.add Z.sub Z.opp Z.pos_sub Pos.add]. rewrite !X by lia. ring.
  - destruct (sampled_near p t0 h n (zlen v - 1)) as (q & Lq & N & N'). fold v in N. rewrite Hp in Lq.
    destruct (sextic_rows q Lq) as (_ & _ & _ & Q0 & Q1). specialize (X (zlen v - 1) q N').
    rewrite <- !N in Q0, Q1 by lia.
    replace (zlen v - 1 + 0) with (zlen v - 1) in * by lia. replace (zlen v - 1 + -1) with (zlen v - 2) in * by lia.
    replace (zlen v - 1 + -2) with (zlen v - 3) in * by lia. replace (zlen v - 1 + -3) with (zlen v - 4) in * by lia.
    replace (zlen v - 1 + -4) with (zlen v - 5) in * by lia. replace (zlen v - 1 + -5) with (zlen v - 6) in * by lia.
    pose proof (X 0) as X0. pose proof (X (-1)) as X1. pose proof (X (-2)) as X2.
    replace (zlen v - 1 + 0) with (zlen v - 1) in X0 by lia. replace (zlen v - 1 + -1) with (zlen v - 2) in X1 by lia.
    replace (zlen v - 1 + -2) with (zlen v - 3) in X2 by lia.
    assert (C : i = zlen v - 1 \/ i = zlen v - 2) by lia. destruct C as [->| ->].
    + rewrite R5. unfold t0', Qcdiv. rewrite <- Q0, SA, !Z.eqb_refl by lia. replace (zlen v - 1 =? 0) with false by lia.
      replace (zlen v - 1 - 1) with (zlen v - 2) by lia. rewrite X0, X1 by lia. ring.
    + rewrite R4. unfold t1', Qcdiv. rewrite <- Q1, SA, SC, !Z.eqb_refl, orb_true_r by lia.
      replace (zlen v - 2 =? 0) with false by lia. replace (zlen v - 2 =? zlen v - 1) with false by lia.
      replace (zlen v - 2 - 1) with (zlen v - 3) by lia. replace (zlen v - 2 + 1) with (zlen v - 1) by lia.
      rewrite X0, X1, X2 by lia. ring.
  - destruct (sampled_near p t0 h n i) as (q & Lq & N & N'). fold v in N. rewrite Hp in Lq.
    destruct (sextic_rows q Lq) as (Q & _). specialize (X i q N').
    rewrite R, SA, SC by lia. unfold inner_p, Qcdiv.
    replace (i =? 0) with false by lia. replace (i =? zlen v - 1) with false by lia.
    replace (i =? 1) with false by lia. replace (i =? zlen v - 2) with false by lia. cbn [orb].
    replace (i - 2) with (i + -2) by lia. replace (i - 1) with (i + -1) by lia.
    rewrite !N, !X by lia. replace (sample x i) with (sample x (i + 0)) by (f_equal; lia). rewrite X by lia.
    match goal with |- ?l = ?r => transitivity ((Q2Qc (1 # 3) * peval (pderiv q) (Qc_ofZ (-1)) + peval (pderiv q) (Qc_ofZ 0)
       + Q2Qc (1 # 3) * peval (pderiv q) (Qc_ofZ 1)) * / h)%Qc end; [ring|]. rewrite Q. ring.
Qed.

Lemma pade6_short v h : (length v < 6)%nat -> pade6 v h = Raise IndexError.
Proof.
  intros Hv. destruct v as [|a [|b [|c [|d [|e [|f v]]]]]]; cbn [length] in Hv; try lia; reflexivity.
Qed.

(** With six samples the last pivot is zero. *)
Lemma pade6_six v h : length v = 6%nat -> exists rhs Da Dc, pade6_rhs v h = Ok rhs /\
  pade6 v h = TDMAsolver Da (repeat n1 (length v)) Dc rhs /\ ~ regular Da (repeat n1 (length v)) Dc.
Proof.
  intros L. assert (Lz : zlen v = 6) by (unfold zlen; lia).
  destruct (pade6_system v h ltac:(lia)) as (rhs & Da & Dc & E & E1 & _ & _ & _ & SA & SC).
  exists rhs, Da, Dc. split; [exact E|]. split; [exact E1|]. intros HR. apply (HR 5%nat); [rewrite repeat_length; lia|].
  rewrite L. change 6%nat with (Z.to_nat 6). rewrite Lz in *.
  pose proof (pade_first 6 Da Dc SA SC ltac:(lia)) as P3.
  assert (P4 : pivot Da (repeat n1 (Z.to_nat 6)) Dc 4 = Q2Qc (10 # 11)).
  { rewrite (pade_step 6), P3, SA, SC by (auto; lia). apply Qc_is_canon. vm_compute. reflexivity. }
  rewrite (pade_step 6), P4, SA, SC by (auto; lia). apply Qc_is_canon. vm_compute. reflexivity.
Qed.

(** pade6 solves the equations of the compact derivative. *)
Lemma pade6_iff v h x : (7 <= length v)%nat -> h <> 0%Qc -> pade6 v h = Ok x <-> differentiated h v x.
Proof.
  intros Hn0 Hh. assert (Hn : 7 <= zlen v) by (unfold zlen; lia).
  destruct (pade6_system v h ltac:(lia)) as (rhs & Da & Dc & E & -> & L1 & L2 & L3 & SA & SC).
  destruct (pade6_rhs_spec v h ltac:(lia)) as (rhs' & E' & _ & R & R0 & R1 & R5 & R4).
  rewrite E in E'. injection E' as <-.
  assert (Ln : length v = Z.to_nat (zlen v)) by (unfold zlen; lia).
  destruct (tdma_spec Da (repeat n1 (length v)) Dc rhs) as (y & -> & Ty & U);
    try (rewrite repeat_length; apply length_zlen; congruence).
  { destruct v; [unfold zlen in Hn; cbn in Hn; lia|discriminate]. }
  { rewrite Ln. apply pade_regular; auto. }
  transitivity (tridiagonal Da (repeat n1 (length v)) Dc rhs x).
  { split; [intros [= <-]; exact Ty|intros Hx; f_equal; symmetry; apply U; exact Hx]. }
  unfold tridiagonal, differentiated. rewrite repeat_length. change (Z.of_nat (length v)) with (zlen v). cbv zeta.
  assert (A : forall P Q R : Prop, (Q <-> R) -> (P /\ Q <-> P /\ R)) by tauto. apply A. clear A.
  set (row := fun i => ((if i =? 0 then 0 else sample Da i * sample x (i - 1)) + sample (repeat n1 (length v)) i * sample x i
     + (if i =? zlen v - 1 then 0 else sample Dc i * sample x (i + 1)))%Qc).
  change ((forall i, 0 <= i < zlen v -> row i = sample rhs i) <->
    closures (sample v) (sample x) h /\
    closures (fun i => sample v (zlen v - 1 - i)) (fun i => sample x (zlen v - 1 - i)) (- h)%Qc /\
    forall i, 2 <= i < zlen v - 2 ->
    (h * (Q2Qc (1 # 3) * sample x (i - 1) + sample x i + Q2Qc (1 # 3) * sample x (i + 1)) =
     Q2Qc (14 # 9) * ((sample v (i + 1) - sample v (i - 1)) * Q2Qc (1 # 2)) +
     Q2Qc (1 # 9) * ((sample v (i + 2) - sample v (i - 2)) * Q2Qc (1 # 4)))%Qc).
  assert (K : forall l r Y : Qc, r = (Y / h)%Qc -> (l = r <-> (h * l = Y)%Qc)).
  { intros l r Y ->. split; intros HH; symmetry; apply (div_eq h); auto. }
  assert (W0 : row 0 = sample rhs 0 <-> (h * (sample x 0 + Q2Qc 5 * sample x 1) =
     Q2Qc (-197 # 60) * sample v 0 - Q2Qc (5 # 12) * sample v 1 + Q2Qc 5 * sample v 2 - Q2Qc (5 # 3) * sample v 3
     + Q2Qc (5 # 12) * sample v 4 - Q2Qc (1 # 20) * sample v 5)%Qc).
  { rewrite (K _ _ _ R0). unfold row. rewrite sample_ones, SC by lia. replace (0 =? zlen v - 1) with false by lia.
    cbn [Z.eqb Z.add]. clear - x. split; intros; qclin. }
  assert (W1 : row 1 = sample rhs 1 <-> (h * (Q2Qc (2 # 11) * sample x 0 + sample x 1 + Q2Qc (2 # 11) * sample x 2) =
     Q2Qc (-20 # 33) * sample v 0 - Q2Qc (35 # 132) * sample v 1 + Q2Qc (34 # 33) * sample v 2 - Q2Qc (7 # 33) * sample v 3
     + Q2Qc (2 # 33) * sample v 4 - Q2Qc (1 # 132) * sample v 5)%Qc).
  { rewrite (K _ _ _ R1). unfold row. rewrite sample_ones, SC, SA by lia. replace (1 =? zlen v - 1) with false by lia.
    cbn [Z.eqb Pos.eqb orb]. change (1 - 1) with 0. change (1 + 1) with 2. clear - x. split; intros; qclin. }
  set (n := zlen v) in *.
  assert (W5 : row (n - 1) = sample rhs (n - 1) <->
     (- h * (sample x (n - 1 - 0) + Q2Qc 5 * sample x (n - 1 - 1)) =
     Q2Qc (-197 # 60) * sample v (n - 1 - 0) - Q2Qc (5 # 12) * sample v (n - 1 - 1) + Q2Qc 5 * sample v (n - 1 - 2)
     - Q2Qc (5 # 3) * sample v (n - 1 - 3) + Q2Qc (5 # 12) * sample v (n - 1 - 4) - Q2Qc (1 # 20) * sample v (n - 1 - 5))%Qc).
  { rewrite (K _ _ _ R5). unfold row. rewrite sample_ones, SA, !Z.eqb_refl by lia. replace (n - 1 =? 0) with false by lia.
    replace (n - 1 - 0) with (n - 1) by lia. replace (n - 1 - 1) with (n - 2) by lia. replace (n - 1 - 2) with (n - 3) by lia.
    replace (n - 1 - 3) with (n - 4) by lia. replace (n - 1 - 4) with (n - 5) by lia. replace (n - 1 - 5) with (n - 6) by lia.
    clear - x. split; intros; qclin. }
  assert (W4 : row (n - 2) = sample rhs (n - 2) <->
     (- h * (Q2Qc (2 # 11) * sample x (n - 1 - 0) + sample x (n - 1 - 1) + Q2Qc (2 # 11) * sample x (n - 1 - 2)) =
     Q2Qc (-20 # 33) * sample v (n - 1 - 0) - Q2Qc (35 # 132) * sample v (n - 1 - 1) + Q2Qc (34 # 33) * sample v (n - 1 - 2)
     - Q2Qc (7 # 33) * sample v (n - 1 - 3) + Q2Qc (2 # 33) * sample v (n - 1 - 4) - Q2Qc (1 # 132) * sample v (n - 1 - 5))%Qc).
  { rewrite (K _ _ _ R4). unfold row. rewrite sample_ones, SA, SC, !Z.eqb_refl, orb_true_r by lia.
    replace (n - 2 =? 0) with false by lia. replace (n - 2 =? n - 1) with false by lia.
    replace (n - 2 - 1) with (n - 3) by lia. replace (n - 2 + 1) with (n - 1) by lia.
    replace (n - 1 - 0) with (n - 1) by lia. replace (n - 1 - 1) with (n - 2) by lia. replace (n - 1 - 2) with (n - 3) by lia.
    replace (n - 1 - 3) with (n - 4) by lia. replace (n - 1 - 4) with (n - 5) by lia. replace (n - 1 - 5) with (n - 6) by lia.
    clear - x. split; intros; qclin. }
  assert (WI : forall i, 2 <= i < n - 2 -> (row i = sample rhs i <->
    (h * (Q2Qc (1 # 3) * sample x (i - 1) + sample x i + Q2Qc (1 # 3) * sample x (i + 1)) =
     Q2Qc (14 # 9) * ((sample v (i + 1) - sample v (i - 1)) * Q2Qc (1 # 2)) +
     Q2Qc (1 # 9) * ((sample v (i + 2) - sample v (i - 2)) * Q2Qc (1 # 4)))%Qc)).
  { intros i Hi. rewrite (K _ _ ((sample v (i + 1) - sample v (i - 1)) * Q2Qc (14 # 18)
      + (sample v (i + 2) - sample v (i - 2)) * Q2Qc (1 # 36))%Qc).
    2:{ rewrite R by lia. unfold inner_p, Qcdiv. ring. }
    unfold row. rewrite sample_ones, SA, SC by lia.
    replace (i =? 0) with false by lia. replace (i =? n - 1) with false by lia.
    replace (i =? 1) with false by lia. replace (i =? n - 2) with false by lia. cbn [orb].
    clear - x. split; intros; qclin. }
  unfold closures. rewrite <- W0, <- W1, <- W4, <- W5. split.
  - intros H. repeat split; try (apply H; lia). intros i Hi. apply WI; auto. apply H. lia.
  - intros ((H0 & H1) & (H5 & H4) & HI) i Hi.
    destruct (Z.eq_dec i 0) as [->|N0]; auto. destruct (Z.eq_dec i 1) as [->|N1]; auto.
    destruct (Z.eq_dec i (n - 1)) as [->|N5]; auto. destruct (Z.eq_dec i (n - 2)) as [->|N4]; auto.
    apply WI; [lia|]. apply HI. lia.
Qed.
