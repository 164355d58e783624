(** * CompactProofs: the tridiagonal solver and the compact schemes. *)
From Verif Require Import PyFacts QcFacts Compact Spec CompactSpec EmdExact EmdFlat.
From Coq Require Import ZifyBool ZifyNat QArith Qcanon.
Open Scope Z_scope.
Notation vec := (list Qc).

(** ** The solver in one pass *)
Fixpoint solve (cp dp : Qc) (r : list (Qc * Qc * Qc * Qc)) : vec :=
  match r with
  | [] => []
  | (a, b, c, d) :: r' =>
      let p := (b - a * cp)%Qc in
      let cp' := (c / p)%Qc in
      let dp' := ((d - a * dp) / p)%Qc in
      match r' with
      | [] => [dp']
      | _ => let xs := solve cp' dp' r' in (dp' - cp' * hd 0 xs)%Qc :: xs
      end
  end.
Fixpoint all_pivots (cp : Qc) (r : list (Qc * Qc * Qc * Qc)) : Prop :=
  match r with
  | [] => True
  | (a, b, c, _) :: r' => (b - a * cp <> 0)%Qc /\ all_pivots (c / (b - a * cp))%Qc r'
  end.
(** The equations in list form; [prev] is the unknown before the first one. *)
Fixpoint system (prev : Qc) (r : list (Qc * Qc * Qc * Qc)) (x : vec) : Prop :=
  match r, x with
  | [], [] => True
  | (a, b, c, d) :: r', x0 :: x' =>
      (a * prev + b * x0 + match r' with [] => 0 | _ => c * hd 0 x' end = d)%Qc /\ system x0 r' x'
  | _, _ => False
  end.

Lemma solve_cons cp dp r : r <> [] -> exists x xs, solve cp dp r = x :: xs.
Proof. destruct r as [|[[[a b] c] d] [|y r]]; cbn; [congruence|eauto|eauto]. Qed.

Lemma div_eq (p x y : Qc) : p <> 0%Qc -> (x / p = y <-> x = p * y)%Qc.
Proof.
  intros Hp. split; intros E.
  - rewrite <- E. field. auto.
  - rewrite E. field. auto.
Qed.

(** [solve] gives the only solution, given the previous elimination step
    [prev + cp * x0 = dp]. *)
Lemma solve_iff r : forall cp dp x, r <> [] -> all_pivots cp r ->
  (x = solve cp dp r <-> system (dp - cp * hd 0 x)%Qc r x).
Proof.
  induction r as [|[[[a b] c] d] r IH]; intros cp dp x Hr HH; [congruence|]. destruct HH as [Hp HP].
  cbn [solve]. set (p := (b - a * cp)%Qc) in *.
  destruct r as [|q r].
  - split.
    + intros ->. cbn. split; [|auto]. unfold p. field. exact Hp.
    + destruct x as [|x0 [|x1 x]]; cbn [system]; try tauto. intros [E _]. cbn [hd] in E. f_equal. symmetry.
      apply div_eq; auto. rewrite <- E. unfold p. ring.
  - specialize (IH (c / p)%Qc ((d - a * dp) / p)%Qc). set (cp' := (c / p)%Qc) in *. set (dp' := ((d - a * dp) / p)%Qc) in *.
    cbv zeta. split.
    + intros ->. cbn [system hd]. set (xs := solve cp' dp' (q :: r)).
      destruct (IH xs ltac:(discriminate) HP) as [I1 _]. specialize (I1 eq_refl).
      split; [|exact I1]. unfold cp', dp', p. field. exact Hp.
    + destruct x as [|x0 x]; [cbn [system]; tauto|]. cbn [system hd]. intros [E Hs].
      assert (E0 : x0 = (dp' - cp' * hd 0 x)%Qc).
      { symmetry. unfold dp', cp'. replace ((d - a * dp) / p - c / p * hd 0%Qc x)%Qc with ((d - a * dp - c * hd 0 x) / p)%Qc
          by (field; exact Hp). apply div_eq; auto. rewrite <- E. unfold p. ring. }
      assert (Ex : x = solve cp' dp' (q :: r)).
      { apply IH; [discriminate|exact HP|]. rewrite <- E0. exact Hs. }
      rewrite <- Ex, <- E0. reflexivity.
Qed.

(** The three loops compute [solve]. *)
Fixpoint zip4 (a b c d : vec) : list (Qc * Qc * Qc * Qc) :=
  match a, b, c, d with
  | x :: a, y :: b, z :: c, w :: d => (x, y, z, w) :: zip4 a b c d
  | _, _, _, _ => []
  end.
Lemma back_cons d c r : r <> [] -> back ((d, c) :: r) = (nsub d (nmul c (hd 0%Qc (back r))) :: back r).
Proof.
  intros Hr. cbn [back]. destruct (back r) eqn:E; [|reflexivity].
  destruct r as [|[d' c'] r]; [congruence|]. cbn [back] in E. destruct (back r); discriminate.
Qed.
Lemma dp_cons (prev cp : Qc) cps a b d r : dp_rest prev (cp :: cps) ((a, b, d) :: r) =
  ndiv (nsub d (nmul a prev)) (nsub b (nmul a cp)) ::
  dp_rest (ndiv (nsub d (nmul a prev)) (nsub b (nmul a cp))) cps r.
Proof. reflexivity. Qed.
Lemma loops a b c d cp dp : length a = length b -> length c = length b -> length d = length b ->
  let cps := cp_rest cp (combine (combine a b) c) in
  back (combine (dp_rest dp (cp :: cps) (combine (combine a b) d)) cps) = solve cp dp (zip4 a b c d).
Proof.
  revert a c d cp dp. induction b as [|b0 b IH]; intros [|a0 a] [|c0 c] [|d0 d] cp dp; cbn [length]; try discriminate.
  - reflexivity.
  - intros La Lc Ld. cbv zeta. destruct b as [|b1 b].
    + destruct a, c, d; try discriminate. reflexivity.
    + destruct a as [|a1 a], c as [|c1 c], d as [|d1 d]; try discriminate.
      specialize (IH (a1 :: a) (c1 :: c) (d1 :: d) (ndiv c0 (nsub b0 (nmul a0 cp)))
        (ndiv (nsub d0 (nmul a0 dp)) (nsub b0 (nmul a0 cp))) ltac:(lia) ltac:(lia) ltac:(lia)).
      cbv zeta in IH.
      change (combine (combine (a0 :: a1 :: a) (b0 :: b1 :: b)) (c0 :: c1 :: c))
        with ((a0, b0, c0) :: combine (combine (a1 :: a) (b1 :: b)) (c1 :: c)).
      change (combine (combine (a0 :: a1 :: a) (b0 :: b1 :: b)) (d0 :: d1 :: d))
        with ((a0, b0, d0) :: combine (combine (a1 :: a) (b1 :: b)) (d1 :: d)).
      change (zip4 (a0 :: a1 :: a) (b0 :: b1 :: b) (c0 :: c1 :: c) (d0 :: d1 :: d))
        with ((a0, b0, c0, d0) :: zip4 (a1 :: a) (b1 :: b) (c1 :: c) (d1 :: d)).
      set (R := combine (combine (a1 :: a) (b1 :: b)) (c1 :: c)) in *.
      set (R' := combine (combine (a1 :: a) (b1 :: b)) (d1 :: d)) in *.
      set (Z' := zip4 (a1 :: a) (b1 :: b) (c1 :: c) (d1 :: d)) in *.
      assert (ER : exists x y, R = x :: y) by (eexists _, _; reflexivity). destruct ER as (rx & ry & ER).
      assert (EZ : exists x y, Z' = x :: y) by (eexists _, _; reflexivity). destruct EZ as (zx & zy & EZ).
      assert (ER' : exists x y z w, R' = (x, y, z) :: w) by (eexists _, _, _, _; reflexivity). destruct ER' as (u' & v' & w' & ry' & ER').
      clearbody R R' Z'.
      assert (E1 : cp_rest cp ((a0, b0, c0) :: R) =
        ndiv c0 (nsub b0 (nmul a0 cp)) :: cp_rest (ndiv c0 (nsub b0 (nmul a0 cp))) R) by (rewrite ER; reflexivity).
      rewrite E1. rewrite dp_cons. cbn [combine].
      rewrite back_cons.
      * rewrite IH. cbn [solve]. rewrite EZ. reflexivity.
      * rewrite ER, ER'. cbn [combine dp_rest]. destruct rx as [[u v] w].
        cbn [cp_rest]. destruct ry; discriminate.
Qed.

Lemma tdma_solve a b c d : b <> [] -> length a = length b -> length c = length b -> length d = length b ->
  TDMAsolver a b c d = Ok (solve 0 0 (zip4 (0%Qc :: tl a) b c d)).
Proof.
  intros Hb La Lc Ld. unfold TDMAsolver. rewrite La, Lc, Ld, !Nat.eqb_refl. cbn [andb].
  destruct b as [|b0 b]; [congruence|]. destruct a as [|a0 a], c as [|c0 c], d as [|d0 d]; try discriminate.
  cbn [length] in *. cbv zeta. f_equal. cbn [tl zip4].
  assert (Ep : (b0 - 0 * 0 = b0)%Qc) by ring. assert (Ed : (d0 - 0 * 0 = d0)%Qc) by ring.
  destruct b as [|b1 b].
  - destruct a, c, d; try discriminate. cbn. change ((d0 / b0)%Qc :: [] = [((d0 - 0 * 0) / (b0 - 0 * 0))%Qc]).
    rewrite Ep, Ed. reflexivity.
  - destruct a as [|a1 a], c as [|c1 c], d as [|d1 d]; try discriminate.
    pose proof (loops (a1 :: a) (b1 :: b) (c1 :: c) (d1 :: d) (c0 / b0)%Qc (d0 / b0)%Qc ltac:(lia) ltac:(lia) ltac:(lia)) as L.
    cbv zeta in L. cbn [combine]. rewrite back_cons.
    + change (ndiv c0 b0) with (c0 / b0)%Qc. change (ndiv d0 b0) with (d0 / b0)%Qc.
      cbn [combine] in L. rewrite L. cbn [solve zip4]. rewrite Ep, Ed. reflexivity.
    + cbn. destruct (combine (combine a b) c); discriminate.
Qed.

(** Index form and list form of the equations agree. *)
Lemma sample_cons x l i : 0 < i -> sample (x :: l) i = sample l (i - 1).
Proof.
  intros Hi. unfold sample. replace (Z.to_nat i) with (Datatypes.S (Z.to_nat (i - 1))) by lia. reflexivity.
Qed.
Lemma system_index prev a b c d x : length a = length b -> length c = length b -> length d = length b ->
  (system prev (zip4 a b c d) x <->
   length x = length b /\
   forall i, 0 <= i < zlen b ->
    (sample a i * (if i =? 0 then prev else sample x (i - 1)) + sample b i * sample x i
     + (if i =? zlen b - 1 then 0 else sample c i * sample x (i + 1)) = sample d i)%Qc).
Proof.
  revert prev a c d x. induction b as [|b0 b IH]; intros prev [|a0 a] [|c0 c] [|d0 d] x; cbn [length]; try discriminate.
  - intros _ _ _. cbn. destruct x; split; try tauto.
    + intros _. split; auto. intros i Hi. unfold zlen in Hi. cbn in Hi. lia.
    + intros [E _]. discriminate.
  - intros La Lc Ld. destruct x as [|x0 x].
    { cbn. split; [tauto|intros [E _]; discriminate]. }
    cbn [zip4 system]. rewrite IH by lia. clear IH.
    assert (Eh : match zip4 a b c d with [] => 0%Qc | _ :: _ => (c0 * hd 0 x)%Qc end =
                 if 0 =? zlen (b0 :: b) - 1 then 0%Qc else (c0 * sample (x0 :: x) 1)%Qc).
    { destruct b as [|b1 b], a, c, d; try discriminate; [reflexivity|].
      destruct (0 =? zlen _ - 1) eqn:E; [unfold zlen in E; cbn [length] in E; lia|]. cbn [zip4].
      unfold sample. change (Z.to_nat 1) with 1%nat. cbn [nth]. destruct x; reflexivity. }
    rewrite Eh. split.
    + intros (E & L & F). split; [cbn [length]; lia|]. intros i Hi. destruct (Z.eqb_spec i 0) as [->|Hi0].
      * exact E.
      * specialize (F (i - 1)). unfold zlen in *. cbn [length] in Hi.
        rewrite !(sample_cons _ _ i) by lia. rewrite (sample_cons x0 x (i + 1)) by lia.
        replace (i + 1 - 1) with (i - 1 + 1) by lia. specialize (F ltac:(lia)). rewrite <- F.
        replace (i =? Z.of_nat (length (b0 :: b)) - 1) with (i - 1 =? Z.of_nat (length b) - 1) by (cbn [length]; lia).
        f_equal. f_equal. f_equal. destruct (Z.eqb_spec (i - 1) 0) as [E1|E1].
        -- rewrite E1. reflexivity.
        -- rewrite sample_cons by lia. reflexivity.
    + intros (L & F). split; [|split; [cbn [length] in L; lia|]].
      * apply (F 0). unfold zlen. cbn [length]. lia.
      * intros i Hi. specialize (F (i + 1)). unfold zlen in *. cbn [length] in F. specialize (F ltac:(lia)).
        rewrite !(sample_cons _ _ (i + 1)) in F by lia. rewrite (sample_cons x0 x (i + 1 + 1)) in F by lia.
        replace (i + 1 - 1) with i in F by lia. replace (i + 1 + 1 - 1) with (i + 1) in F by lia.
        rewrite <- F. replace (i + 1 =? 0) with false by lia.
        replace (i + 1 =? Z.of_nat (Datatypes.S (length b)) - 1) with (i =? Z.of_nat (length b) - 1) by lia.
        f_equal. f_equal. f_equal. destruct (Z.eqb_spec i 0) as [->|E1]; [reflexivity|].
        rewrite sample_cons by lia. reflexivity.
Qed.

Lemma zip4_skip a b c d k : length a = length b -> length c = length b -> length d = length b ->
  (k < length b)%nat ->
  zip4 (skipn k a) (skipn k b) (skipn k c) (skipn k d) =
  (nth k a 0, nth k b 0, nth k c 0, nth k d 0)%Qc ::
  zip4 (skipn (Datatypes.S k) a) (skipn (Datatypes.S k) b) (skipn (Datatypes.S k) c) (skipn (Datatypes.S k) d).
Proof.
  assert (E : forall l : vec, (k < length l)%nat -> skipn k l = nth k l 0%Qc :: skipn (Datatypes.S k) l).
  { clear. induction k as [|k IH]; intros [|x l] Hl; cbn [length] in Hl; try lia; [reflexivity|].
    cbn [skipn nth]. apply IH. lia. }
  intros. rewrite (E a), (E b), (E c), (E d) by lia. reflexivity.
Qed.
Lemma pivots_from a b c d : length a = length b -> length c = length b -> length d = length b ->
  regular a b c -> forall m k, (Datatypes.S k + m = length b)%nat ->
  all_pivots (nth k c 0 / pivot a b c k)%Qc
    (zip4 (skipn (Datatypes.S k) a) (skipn (Datatypes.S k) b) (skipn (Datatypes.S k) c) (skipn (Datatypes.S k) d)).
Proof.
  intros La Lc Ld HR. induction m as [|m IH]; intros k Hk.
  - rewrite (skipn_all2 b), (skipn_all2 a) by lia. exact I.
  - rewrite zip4_skip by lia. cbn [all_pivots].
    assert (E : (nth (Datatypes.S k) b 0 - nth (Datatypes.S k) a 0 * (nth k c 0 / pivot a b c k) = pivot a b c (Datatypes.S k))%Qc)
      by (cbn [pivot]; unfold Qcdiv; ring).
    rewrite E. split; [apply HR; lia|]. apply IH. lia.
Qed.
Lemma pivots_ok a b c d : b <> [] -> length a = length b -> length c = length b -> length d = length b ->
  regular a b c -> all_pivots 0 (zip4 (0%Qc :: tl a) b c d).
Proof.
  intros Hb La Lc Ld HR. destruct b as [|b0 b]; [congruence|].
  destruct a as [|a0 a], c as [|c0 c], d as [|d0 d]; try discriminate.
  pose proof (HR 0%nat ltac:(cbn; lia)) as H0. pose proof (pivots_from _ _ _ _ La Lc Ld HR (length b) 0 ltac:(cbn; lia)) as HP.
  cbn [tl zip4 all_pivots]. cbn [pivot nth skipn] in H0, HP.
  assert (E : (b0 - 0 * 0 = b0)%Qc) by ring. rewrite E. split; auto.
Qed.

Lemma tridiagonal_system a b c d x : b <> [] -> length a = length b -> length c = length b -> length d = length b ->
  (tridiagonal a b c d x <-> system (0 - 0 * hd 0 x)%Qc (zip4 (0%Qc :: tl a) b c d) x).
Proof.
  intros Hb La Lc Ld. rewrite system_index; auto; [|destruct a; [destruct b; [congruence|discriminate]|exact La]].
  unfold tridiagonal, zlen. split; intros [L F]; split; auto; intros i Hi; rewrite <- (F i Hi); f_equal; f_equal;
    (destruct (Z.eqb_spec i 0) as [->|E]; [change (sample (0%Qc :: tl a) 0) with 0%Qc; ring|];
     f_equal; unfold sample; destruct a as [|a0 a]; [destruct b; [congruence|discriminate]|];
     replace (Z.to_nat i) with (Datatypes.S (Z.to_nat (i - 1))) by lia; reflexivity).
Qed.

(** TDMAsolver solves the system, and the solution is unique. *)
Lemma tdma_spec a b c d : b <> [] -> length a = length b -> length c = length b -> length d = length b ->
  regular a b c ->
  exists x, TDMAsolver a b c d = Ok x /\ tridiagonal a b c d x /\
            forall y, tridiagonal a b c d y -> y = x.
Proof.
  intros Hb La Lc Ld HR. pose proof (pivots_ok a b c d Hb La Lc Ld HR) as HP.
  assert (HZ : zip4 (0%Qc :: tl a) b c d <> []).
  { destruct b, c, d; try congruence; discriminate. }
  eexists. split; [apply tdma_solve; auto|].
  assert (X : forall y, tridiagonal a b c d y <-> y = solve 0 0 (zip4 (0%Qc :: tl a) b c d)).
  { intros y. rewrite tridiagonal_system by auto. symmetry. apply solve_iff; auto. }
  split; [apply X; auto|]. intros y Hy. apply X. auto.
Qed.
Lemma tdma_eq a b c d x : b <> [] -> length a = length b -> length c = length b -> length d = length b ->
  regular a b c -> tridiagonal a b c d x -> TDMAsolver a b c d = Ok x.
Proof.
  intros Hb La Lc Ld HR Hx. destruct (tdma_spec a b c d Hb La Lc Ld HR) as (y & E & _ & U).
  rewrite (U x Hx). exact E.
Qed.

(** ** Diagonal dominance *)
Lemma within_mul u a q : within u a -> within 1 q -> within u (a * q)%Qc.
Proof.
  intros [A1 A2] [Q1 Q2].
  assert (N : forall x y, (0 <= x -> 0 <= y -> 0 <= x * y)%Qc).
  { intros x y Hx Hy. qcnra. }
  pose proof (N (u - a) (1 + q))%Qc as N1. pose proof (N (u + a) (1 - q))%Qc as N2.
  pose proof (N (u - a) (1 - q))%Qc as N3. pose proof (N (u + a) (1 + q))%Qc as N4.
  specialize (N1 ltac:(qclra) ltac:(qclra)). specialize (N2 ltac:(qclra) ltac:(qclra)).
  specialize (N3 ltac:(qclra) ltac:(qclra)). specialize (N4 ltac:(qclra) ltac:(qclra)).
  replace ((u - a) * (1 + q))%Qc with (u + u * q - a - a * q)%Qc in N1 by ring.
  replace ((u + a) * (1 - q))%Qc with (u - u * q + a - a * q)%Qc in N2 by ring.
  replace ((u - a) * (1 - q))%Qc with (u - u * q - a + a * q)%Qc in N3 by ring.
  replace ((u + a) * (1 + q))%Qc with (u + u * q + a + a * q)%Qc in N4 by ring.
  split; qclra.
Qed.
Lemma within_div v c p : within v c -> (v < p \/ v < - p)%Qc -> p <> 0%Qc /\ within 1 (c / p)%Qc.
Proof.
  intros [C1 C2] Hp.
  assert (Hne : p <> 0%Qc) by (intros ->; destruct Hp; qclra).
  split; auto. assert (E : (c = c / p * p)%Qc) by (field; auto). set (q := (c / p)%Qc) in *. clearbody q.
  subst c. destruct Hp as [Hp|Hp].
  - assert (P : (0 < p)%Qc) by qclra. split.
    + destruct (Qclt_le_dec q (-(1))%Qc) as [H|H]; auto. exfalso.
      assert (X : (0 < (- (1) - q) * p)%Qc) by (apply Qc_mul_pos; [qclra|auto]).
      replace ((- (1) - q) * p)%Qc with (- p - q * p)%Qc in X by ring. qclra.
    + destruct (Qclt_le_dec 1%Qc q) as [H|H]; auto. exfalso.
      assert (X : (0 < (q - 1) * p)%Qc) by (apply Qc_mul_pos; [qclra|auto]).
      replace ((q - 1) * p)%Qc with (q * p - p)%Qc in X by ring. qclra.
  - assert (P : (0 < - p)%Qc) by qclra. split.
    + destruct (Qclt_le_dec q (-(1))%Qc) as [H|H]; auto. exfalso.
      assert (X : (0 < (- (1) - q) * - p)%Qc) by (apply Qc_mul_pos; [qclra|auto]).
      replace ((- (1) - q) * - p)%Qc with (p + q * p)%Qc in X by ring. qclra.
    + destruct (Qclt_le_dec 1%Qc q) as [H|H]; auto. exfalso.
      assert (X : (0 < (q - 1) * - p)%Qc) by (apply Qc_mul_pos; [qclra|auto]).
      replace ((q - 1) * - p)%Qc with (p - q * p)%Qc in X by ring. qclra.
Qed.
Lemma dominant_regular a b c : dominant a b c -> regular a b c.
Proof.
  intros HD.
  assert (X : forall i, (i < length b)%nat ->
    pivot a b c i <> 0%Qc /\ within 1 (nth i c 0 / pivot a b c i)%Qc).
  { induction i as [|i IH]; intros Hi.
    - destruct (HD 0 ltac:(lia)) as (u & v & [A1 A2] & HC & Hw).
      unfold sample in *. cbn [pivot]. change (Z.to_nat 0) with 0%nat in *. apply (within_div v); auto.
      destruct Hw; [left|right]; qclra.
    - destruct (IH ltac:(lia)) as [P1 P2].
      destruct (HD (Z.of_nat (Datatypes.S i)) ltac:(lia)) as (u & v & HA & HC & Hw).
      unfold sample in *. rewrite Nat2Z.id in *. cbn [pivot]. apply (within_div v); auto.
      pose proof (within_mul _ _ _ HA P2) as [M1 M2]. destruct HC as [C1 C2]. destruct Hw; [left|right]; qclra. }
  intros i Hi. apply X. auto.
Qed.
