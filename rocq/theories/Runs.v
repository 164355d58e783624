(** * Runs: boolean masks, their runs and sorting. *)
From Verif Require Import PyFacts Extrema Spec.
From Coq Require Import ZifyBool ZifyNat.

(** ** nonzero *)
Lemma nonzero_from_In k m x :
  In x (nonzero_from k m) <-> exists i, nth_error m i = Some true /\ x = k + Z.of_nat i.
Proof.
  revert k; induction m as [|b m IH]; intros k; simpl.
  - split; [tauto|]. intros (i & Hi & _). destruct i; discriminate.
  - assert (Hs : In x (nonzero_from (k + 1) m) <->
               exists i, nth_error (b :: m) (S i) = Some true /\ x = k + Z.of_nat (S i)).
    { rewrite IH. split; intros (i & Hi & E); exists i; simpl in *; split; auto; lia. }
    destruct b; simpl; rewrite Hs; split.
    + intros [<-|(i & Hi & E)]; [exists O; split; auto; lia | exists (S i); auto].
    + intros ([|i] & Hi & E); [left; lia | right; exists i; auto].
    + intros (i & Hi & E). exists (S i). auto.
    + intros ([|i] & Hi & E); [discriminate | exists i; auto].
Qed.
Lemma nonzero_from_increasing k m :
  zincreasing (nonzero_from k m) /\ forall x, In x (nonzero_from k m) -> k <= x.
Proof.
  revert k; induction m as [|b m IH]; intros k; simpl; [split; [auto|tauto]|].
  destruct (IH (k + 1)) as [I1 I2]. destruct b; simpl; split; auto.
  - split; auto. intros y Hy. apply I2 in Hy. lia.
  - intros x [<-|Hx]; [lia|]. apply I2 in Hx. lia.
  - intros x Hx. apply I2 in Hx. lia.
Qed.
Lemma nonzero_In m x :
  In x (nonzero m) <-> 0 <= x /\ nth_error m (Z.to_nat x) = Some true.
Proof.
  unfold nonzero. rewrite nonzero_from_In. split.
  - intros (i & Hi & ->). split; [lia|]. rewrite Z.add_0_l, Nat2Z.id. auto.
  - intros [Hx Hi]. exists (Z.to_nat x). split; auto. lia.
Qed.
Lemma nonzero_increasing m : zincreasing (nonzero m).
Proof. apply nonzero_from_increasing. Qed.

(** ** Runs *)
(** Scan for maximal runs; [open] is the start of a run in progress. *)
Fixpoint runs_from (k : Z) (open : option Z) (m : list bool) : list (Z * Z) :=
  match m with
  | [] => match open with Some a => [(a, k)] | None => [] end
  | true :: m' => runs_from (k + 1) (match open with Some a => Some a | None => Some k end) m'
  | false :: m' => match open with
                   | Some a => (a, k) :: runs_from (k + 1) None m'
                   | None => runs_from (k + 1) None m'
                   end
  end.
Definition runs (m : list bool) : list (Z * Z) := runs_from 0 None m.

Lemma starts_ends k (prev : bool) m open :
  prev = match open with Some _ => true | None => false end ->
  let dd := zdiff (b2z prev :: map b2z m ++ [0]) in
  combine (match open with Some a => [a] | None => [] end
             ++ nonzero_from k (map (Z.eqb 1) dd))
          (nonzero_from k (map (Z.eqb (-1)) dd)) = runs_from k open m
  /\ length (match open with Some a => [a] | None => [] end
             ++ nonzero_from k (map (Z.eqb 1) dd)) =
     length (nonzero_from k (map (Z.eqb (-1)) dd)).
Proof.
  revert k prev open. induction m as [|b m IH]; intros k prev open Hp; subst.
  - destruct open; simpl; auto.
  - unfold zdiff, adj in *. cbn [map app tl map2].
    destruct (IH (k + 1) b (if b then match open with Some a => Some a | None => Some k end else None))
      as [I1 I2].
    { destruct b; auto. destruct open; auto. }
    cbn [tl map2] in I1, I2. cbn [nonzero_from runs_from].
    destruct b, open as [a|]; simpl in *; split; auto; try congruence; f_equal; auto.
Qed.

Lemma runs_spec m : combine (run_starts m) (run_ends m) = runs m.
Proof. apply (starts_ends 0 false m None eq_refl). Qed.
Lemma run_starts_fst m : run_starts m = map fst (runs m).
Proof.
  destruct (starts_ends 0 false m None eq_refl) as [E L]. simpl in E, L.
  unfold runs. rewrite <- E. unfold run_starts, nonzero, mask_dd. simpl.
  revert L. generalize (nonzero_from 0 (map (Z.eqb (-1)) (zdiff (0 :: map b2z m ++ [0])))) as y.
  generalize (nonzero_from 0 (map (Z.eqb 1) (zdiff (0 :: map b2z m ++ [0])))) as x.
  induction x as [|a x IH]; intros [|b y] L; simpl in *; try discriminate; auto.
  f_equal. auto.
Qed.
Lemma run_ends_snd m : run_ends m = map snd (runs m).
Proof.
  destruct (starts_ends 0 false m None eq_refl) as [E L]. simpl in E, L.
  unfold runs. rewrite <- E. unfold run_ends, nonzero, mask_dd. simpl.
  revert L. generalize (nonzero_from 0 (map (Z.eqb (-1)) (zdiff (0 :: map b2z m ++ [0])))) as y.
  generalize (nonzero_from 0 (map (Z.eqb 1) (zdiff (0 :: map b2z m ++ [0])))) as x.
  induction x as [|a x IH]; intros [|b y] L; simpl in *; try discriminate; auto.
  f_equal. auto.
Qed.

(** Maximal run [a, b) of a predicate on integers. *)
Definition isrun (F : Z -> bool) (a b : Z) : Prop :=
  a < b /\ (forall j, a <= j < b -> F j = true) /\ F (a - 1) = false /\ F b = false.

Lemma isrun_same_start F a b b' : isrun F a b -> isrun F a b' -> b = b'.
Proof.
  intros (A1 & A2 & A3 & A4) (B1 & B2 & B3 & B4).
  destruct (Z.lt_trichotomy b b') as [D|[D|D]]; auto.
  - rewrite B2 in A4 by lia. discriminate.
  - rewrite A2 in B4 by lia. discriminate.
Qed.
Lemma isrun_disjoint F a b a' b' : isrun F a b -> isrun F a' b' -> a < a' -> b < a'.
Proof.
  intros (A1 & A2 & A3 & A4) (B1 & B2 & B3 & B4) D.
  destruct (Z_lt_le_dec b a') as [C|C]; auto.
  rewrite A2 in B3 by lia. discriminate.
Qed.

Lemma runs_from_In F k open m a b :
  (forall i, nth i m false = F (k + Z.of_nat i)) ->
  match open with
  | Some a0 => a0 < k /\ (forall j, a0 <= j < k -> F j = true) /\ F (a0 - 1) = false
  | None => F (k - 1) = false
  end ->
  (In (a, b) (runs_from k open m) <-> isrun F a b /\ k <= b).
Proof.
  revert k open. induction m as [|x m IH]; intros k open HF Ho.
  - assert (Hz : forall j, k <= j -> F j = false).
    { intros j Hj. specialize (HF (Z.to_nat (j - k))). destruct (Z.to_nat (j - k)) eqn:E in HF;
      simpl in HF; rewrite HF; f_equal; lia. }
    destruct open as [a0|]; simpl.
    + destruct Ho as (O1 & O2 & O3). split.
      * intros [[= <- <-]|[]]. split; [|lia]. repeat split; auto. apply Hz; lia.
      * intros [(R1 & R2 & R3 & R4) Hb]. left.
        assert (b = k). { destruct (Z.eq_dec b k); auto. rewrite <- (Hz (b - 1)), R2 in * by lia. 
          specialize (R2 (b-1)). rewrite Hz in R2 by lia. exfalso. discriminate R2. lia. }
        subst b. f_equal. destruct (Z.lt_trichotomy a a0) as [D|[D|D]]; auto.
        -- rewrite R2 in O3 by lia. discriminate.
        -- rewrite O2 in R3 by lia. discriminate.
    + split; [tauto|]. intros [(R1 & R2 & R3 & R4) Hb].
      specialize (R2 (b - 1)). destruct (Z.eq_dec b k) as [->|D].
      * rewrite Ho in R2. discriminate R2. lia.
      * rewrite Hz in R2 by lia. discriminate R2. lia.
  - assert (HF' : forall i, nth i m false = F (k + 1 + Z.of_nat i)).
    { intros i. specialize (HF (S i)). simpl in HF. rewrite HF. f_equal. lia. }
    pose proof (HF O) as Hk. simpl in Hk. rewrite Z.add_0_r in Hk.
    destruct x; simpl.
    + rewrite IH; auto.
      * split; intros [R Hb]; split; auto; try lia.
        destruct R as (R1 & R2 & R3 & R4). destruct (Z.eq_dec b k); [|lia].
        subst. congruence.
      * destruct open as [a0|].
        -- destruct Ho as (O1 & O2 & O3). split; [lia|]. split; auto.
           intros j Hj. destruct (Z.eq_dec j k); [congruence|]. apply O2. lia.
        -- split; [lia|]. split; auto. intros j Hj. assert (j = k) by lia. congruence.
    + assert (Hn : F (k + 1 - 1) = false) by (rewrite Z.add_simpl_r; auto).
      assert (IH' := IH (k + 1) None HF' Hn). destruct open as [a0|]; simpl.
      * destruct Ho as (O1 & O2 & O3). rewrite IH'. split.
        -- intros [[= <- <-]|[R Hb]]; [|split; auto; lia].
           split; [|lia]. repeat split; auto.
        -- intros [R Hb]. destruct (Z.eq_dec b k) as [->|D]; [|right; split; auto; lia].
           left. f_equal. destruct R as (R1 & R2 & R3 & R4).
           destruct (Z.lt_trichotomy a a0) as [D|[D|D]]; auto.
           ++ rewrite R2 in O3 by lia. discriminate.
           ++ rewrite O2 in R3 by lia. discriminate.
      * rewrite IH'. split; intros [R Hb]; split; auto; try lia.
        destruct R as (R1 & R2 & R3 & R4). destruct (Z.eq_dec b k); [|lia].
        subst. rewrite R2 in Ho by lia. discriminate.
Qed.

Definition zmask (m : list bool) (i : Z) : bool :=
  if i <? 0 then false else nth (Z.to_nat i) m false.
Lemma zmask_true m i : zmask m i = true <-> 0 <= i < zlen m /\ nth_error m (Z.to_nat i) = Some true.
Proof.
  unfold zmask, zlen. destruct (Z.ltb_spec i 0) as [D|D].
  - split; [discriminate|lia].
  - destruct (nth_error m (Z.to_nat i)) as [b|] eqn:E.
    + rewrite (nth_error_nth _ _ _ E). assert (Z.to_nat i < length m)%nat.
      { apply nth_error_Some. congruence. }
      split; [intros ->; split; auto; lia|]. intros [_ [= ->]]. auto.
    + apply nth_error_None in E. rewrite nth_overflow by auto. split; [discriminate|].
      intros [_ C]. discriminate.
Qed.

Lemma runs_In m a b : In (a, b) (runs m) <-> isrun (zmask m) a b.
Proof.
  unfold runs. rewrite (runs_from_In (zmask m)).
  - split; [tauto|]. intros R. split; auto. destruct R as (R1 & R2 & _).
    specialize (R2 a). unfold zmask in R2. destruct (Z.ltb_spec a 0); [|lia].
    discriminate R2. lia.
  - intros i. unfold zmask. replace (0 + Z.of_nat i <? 0) with false by lia. f_equal. lia.
  - reflexivity.
Qed.
Lemma isrun_bounds m a b : isrun (zmask m) a b -> 0 <= a < b /\ b <= zlen m.
Proof.
  intros (R1 & R2 & _). pose proof (R2 a ltac:(lia)) as Ha. pose proof (R2 (b - 1) ltac:(lia)) as Hb.
  apply zmask_true in Ha as [Ha _]. apply zmask_true in Hb as [Hb _]. lia.
Qed.

(** Runs come in order. *)
Definition pair_lt (p q : Z * Z) : Prop := snd p < fst q.
Fixpoint chain (l : list (Z * Z)) : Prop :=
  match l with
  | [] => True
  | p :: l' => (forall q, In q l' -> pair_lt p q) /\ chain l'
  end.
Lemma runs_from_chain k open m :
  match open with Some a => a < k | None => True end ->
  chain (runs_from k open m) /\
  (forall p, In p (runs_from k open m) ->
     fst p < snd p /\ match open with Some a => a <= fst p | None => k <= fst p end) /\
  (match open with
   | Some a => exists b rest, runs_from k open m = (a, b) :: rest /\ k <= b
   | None => True
   end).
Proof.
  revert k open; induction m as [|x m IH]; intros k open Ho; simpl.
  - destruct open as [a|]; simpl.
    + split; [|split]; auto.
      * split; auto. intros q [].
      * intros p [<-|[]]. simpl. lia.
      * exists k, []. split; auto. lia.
    + split; [|split]; auto. intros p [].
  - destruct x.
    + destruct open as [a|].
      * destruct (IH (k + 1) (Some a) ltac:(simpl in *; lia)) as (I1 & I2 & b & rest & I3 & I4).
        split; [|split]; auto. exists b, rest. split; auto. lia.
      * destruct (IH (k + 1) (Some k) ltac:(simpl in *; lia)) as (I1 & I2 & _).
        split; [|split]; auto.
    + destruct open as [a|].
      * destruct (IH (k + 1) None I) as (I1 & I2 & _). split; [|split].
        -- simpl. split; auto. intros q Hq. apply I2 in Hq. unfold pair_lt. simpl. lia.
        -- simpl in Ho. intros p [<-|Hp]; [simpl; lia|]. apply I2 in Hp. lia.
        -- exists k, (runs_from (k + 1) None m). split; auto. lia.
      * destruct (IH (k + 1) None I) as (I1 & I2 & _). split; [|split]; auto.
        intros p Hp. apply I2 in Hp. lia.
Qed.
Lemma runs_chain m : chain (runs m) /\ forall p, In p (runs m) -> 0 <= fst p < snd p.
Proof.
  destruct (runs_from_chain 0 None m I) as (C1 & C2 & _). split; auto.
  intros p Hp. apply C2 in Hp. lia.
Qed.

Lemma chain_app l l' :
  chain (l ++ l') <-> chain l /\ chain l' /\ forall p q, In p l -> In q l' -> pair_lt p q.
Proof.
  induction l as [|x l IH]; simpl.
  - intuition.
  - rewrite IH. split.
    + intros (C1 & C2 & C3 & C4). repeat split; auto.
      * intros q Hq. apply C1. apply in_or_app. auto.
      * intros p q [<-|Hp] Hq; auto. apply C1. apply in_or_app. auto.
    + intros ((C1 & C2) & C3 & C4). repeat split; auto.
      intros q Hq. apply in_app_or in Hq as [Hq|Hq]; auto.
Qed.

(** ** Sorting *)
Lemma zinsert_In x l y : In y (zinsert x l) <-> y = x \/ In y l.
Proof.
  induction l as [|z l IH]; simpl; [intuition|].
  destruct (x <=? z); simpl; [intuition|]. rewrite IH. intuition.
Qed.
Lemma zsort_In l x : In x (zsort l) <-> In x l.
Proof. induction l as [|y l IH]; simpl; [tauto|]. rewrite zinsert_In, IH. intuition. Qed.
Lemma zinsert_increasing x l : ~ In x l -> zincreasing l -> zincreasing (zinsert x l).
Proof.
  induction l as [|y l IH]; simpl; intros Hn Hi; [split; [tauto|auto]|].
  destruct (Z.leb_spec x y) as [D|D]; simpl.
  - split; auto. intros z [<-|Hz].
    + assert (x <> y) by (intros ->; apply Hn; auto). lia.
    + apply Hi in Hz. lia.
  - destruct Hi as [H1 H2]. split; [|apply IH; auto].
    intros z Hz. apply zinsert_In in Hz as [->|Hz]; auto.
Qed.
Lemma zsort_increasing l : NoDup l -> zincreasing (zsort l).
Proof.
  induction l as [|x l IH]; simpl; intros Hn; auto. inversion Hn; subst.
  apply zinsert_increasing; auto. rewrite zsort_In. auto.
Qed.
Lemma zinsert_length x l : length (zinsert x l) = S (length l).
Proof. induction l as [|y l IH]; simpl; auto. destruct (x <=? y); simpl; auto. Qed.
Lemma zsort_length l : length (zsort l) = length l.
Proof. induction l; simpl; auto. rewrite zinsert_length. auto. Qed.
Lemma zincreasing_NoDup l : zincreasing l -> NoDup l.
Proof.
  induction l as [|x l IH]; simpl; intros Hi; constructor; destruct Hi; auto.
  intros Hx. apply H in Hx. lia.
Qed.
Lemma zincreasing_unique l l' :
  zincreasing l -> zincreasing l' -> (forall x, In x l <-> In x l') -> l = l'.
Proof.
  revert l'. induction l as [|x l IH]; intros [|y l'] Hl Hl' HE; auto.
  - exfalso. apply (proj2 (HE y)). left; auto.
  - exfalso. apply (proj1 (HE x)). left; auto.
  - simpl in Hl, Hl'. destruct Hl as [L1 L2], Hl' as [L1' L2'].
    assert (x = y).
    { destruct (proj1 (HE x) (or_introl eq_refl)) as [E|Hx]; auto.
      destruct (proj2 (HE y) (or_introl eq_refl)) as [E|Hy]; auto.
      apply L1 in Hy. apply L1' in Hx. lia. }
    subst y. f_equal. apply IH; auto. intros z. split; intros Hz.
    + destruct (proj1 (HE z) (or_intror Hz)) as [E|Hz']; auto. subst. apply L1 in Hz. lia.
    + destruct (proj2 (HE z) (or_intror Hz)) as [E|Hz']; auto. subst. apply L1' in Hz. lia.
Qed.
Lemma zincreasing_map l f :
  zincreasing l -> (forall x y, In x l -> In y l -> x < y -> f x < f y) -> zincreasing (map f l).
Proof.
  induction l as [|x l IH]; simpl; intros Hl Hf; auto. destruct Hl as [H1 H2]. split.
  - intros z Hz. apply in_map_iff in Hz as (y & <- & Hy). apply Hf; auto.
  - apply IH; auto.
Qed.

(** ** Midpoints *)
Lemma round_half_spec a b : rounded_mid a b (round_half (a + b)).
Proof.
  unfold rounded_mid, round_half. pose proof (Z.div_mod (a + b) 2 ltac:(lia)).
  pose proof (Z.mod_pos_bound (a + b) 2 ltac:(lia)).
  destruct (Z.even (a + b)) eqn:E.
  - apply Z.even_spec in E as [k E]. left. lia.
  - assert ((a + b) mod 2 = 1).
    { rewrite Zmod_even, E. reflexivity. }
    right. destruct (Z.even ((a + b) / 2)) eqn:E2.
    + apply Z.even_spec in E2. split; auto. lia.
    + split; [|lia]. apply Z.even_spec. rewrite Z.even_add, E2. reflexivity.
Qed.
Lemma rounded_mid_unique a b m m' : rounded_mid a b m -> rounded_mid a b m' -> m = m'.
Proof.
  unfold rounded_mid. intros [H1|[[k H1] H1']] [H2|[[k' H2] H2']]; lia.
Qed.
Lemma rounded_mid_bounds a b m : a <= b -> rounded_mid a b m -> a <= m <= b.
Proof.
  unfold rounded_mid. intros Hab [H1|[[k H1] H1']]; lia.
Qed.
Lemma round_half_bounds a b : a <= b -> a <= round_half (a + b) <= b.
Proof. intros. apply rounded_mid_bounds; auto. apply round_half_spec. Qed.
