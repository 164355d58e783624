(** * UtilsMore: the common type of two arrays is no wider than needed. *)
From Verif Require Import PyFacts Utils UtilsSpec.
From Coq Require Import QArith Qpower Lia List.
Import ListNotations.
Open Scope Z_scope.

(** Odd numbers that a type holds, and which types can hold an odd number. *)
Definition odd_samples (d : dtype) : list Z :=
  match kind d with
  | Signed b => [2 ^ (b - 1) - 1; -1]
  | Unsigned b => [2 ^ b - 1]
  | Floating _ p => [2 ^ p - 1; -1]
  | NoKind => []
  end.
Definition fits (d : dtype) (z : Z) : bool :=
  match kind d with
  | Signed b => (- 2 ^ (b - 1) <=? z) && (z <=? 2 ^ (b - 1) - 1)
  | Unsigned b => (0 <=? z) && (z <=? 2 ^ b - 1)
  | Floating _ p => Z.abs z <? 2 ^ p
  | NoKind => false
  end.
Definition floatb (d : dtype) : bool := match kind d with Floating _ _ => true | _ => false end.
Lemma samples_odd d z : In z (odd_samples d) -> Z.odd z = true.
Proof. destruct d; cbn; intuition (subst; reflexivity). Qed.
Lemma samples_held d z : In z (odd_samples d) -> holds d (inject_Z z).
Proof.
  destruct d; unfold holds, odd_samples; cbn [kind]; intros Hz;
    try (exists z; split; [reflexivity|]; cbn in Hz; intuition (subst; lia)); try (destruct Hz);
    try (exists z, 0; split; [unfold Qeq; cbn; lia|]; cbn in Hz; cbn; intuition (subst; cbn; lia)).
  all: try (subst z; exists (-1), 0; split; [reflexivity|cbn; lia]).
  all: try (destruct H as [<-|[]]; exists (-1), 0; split; [reflexivity|cbn; lia]).
  all: subst z; eexists _, 0; (split; [rewrite Qmult_1_r; reflexivity|cbn; lia]).
Qed.
Lemma power_2_nat (e : Z) : 0 <= e -> Qpower 2 e == inject_Z (2 ^ e).
Proof. intros He. rewrite Zpower_Qpower by auto. reflexivity. Qed.
Lemma floats_odd p m e z : (inject_Z z == inject_Z m * Qpower 2 e)%Q -> Z.abs m < 2 ^ p -> Z.odd z = true -> Z.abs z < 2 ^ p.
Proof.
  intros E Hm Ho. destruct (Z.le_gt_cases 0 e) as [He|He].
  - rewrite power_2_nat, <- inject_Z_mult in E by auto. assert (Ez : z = m * 2 ^ e) by (unfold Qeq in E; cbn in E; lia).
    destruct (Z.eq_dec e 0) as [->|Ne]; [rewrite Z.pow_0_r in Ez; lia|]. exfalso. rewrite Ez, Z.odd_mul, Z.odd_pow in Ho by lia.
    rewrite Bool.andb_false_r in Ho. discriminate.
  - assert (E2 : (inject_Z z * inject_Z (2 ^ (- e)) == inject_Z m)%Q).
    { rewrite E, <- power_2_nat by lia. rewrite <- Qmult_assoc, <- Qpower_plus by (intros X; discriminate X). replace (e + - e) with 0 by lia. apply Qmult_1_r. }
    rewrite <- inject_Z_mult in E2. assert (Em : z * 2 ^ (- e) = m) by (unfold Qeq in E2; cbn in E2; lia).
    assert (1 <= 2 ^ (- e)) by (pose proof (Z.pow_pos_nonneg 2 (- e)); lia). nia.
Qed.
Lemma held_fits d z : Z.odd z = true -> holds d (inject_Z z) -> fits d z = true.
Proof.
  intros Ho. unfold holds, fits. destruct (kind d) as [b|b|b p|].
  - intros (w & E & Hw). assert (z = w) by (unfold Qeq in E; cbn in E; lia). subst. lia.
  - intros (w & E & Hw). assert (z = w) by (unfold Qeq in E; cbn in E; lia). subst. lia.
  - intros (m & e & E & Hm & _). apply Z.ltb_lt. exact (floats_odd p m e z E Hm Ho).
  - intros [].
Qed.
Lemma half_held d : floatb d = true -> holds d (1 # 2).
Proof. destruct d; try discriminate; intros _; exists 1, (-1); (split; [reflexivity|]); cbn; lia. Qed.
Lemma half_float d : holds d (1 # 2) -> floatb d = true.
Proof. unfold holds, floatb. destruct (kind d) as [b|b|b p|]; auto; intros X; destruct X as (z & E & _); unfold Qeq in E; cbn in E; lia. Qed.
Definition all_types := [Int8; Int16; Int32; Int64; UInt8; UInt16; UInt32; UInt64; Float16; Float32; Float64; OtherType].
Definition minimal_at (x y d : dtype) : bool :=
  ((bits (deduce_common_type x y) <=? bits d) && (floatb d || negb (floatb (deduce_common_type x y)))) || existsb (fun z => negb (fits d z)) (odd_samples x ++ odd_samples y)
  || ((floatb x || floatb y) && negb (floatb d)) || dtype_eqb x OtherType || dtype_eqb y OtherType.
Lemma minimal_all : forallb (fun x => forallb (fun y => forallb (minimal_at x y) all_types) all_types) all_types = true.
Proof. vm_compute. reflexivity. Qed.
Lemma in_types d : In d all_types.
Proof. destruct d; cbn; tauto. Qed.
Theorem common_smallest x y d : x <> OtherType -> y <> OtherType ->
  (forall q, holds x q \/ holds y q -> holds d q) ->
  bits (deduce_common_type x y) <= bits d /\ (is_floating (deduce_common_type x y) -> is_floating d).
Proof.
  intros Hx Hy HD. pose proof minimal_all as M. rewrite forallb_forall in M. specialize (M x (in_types x)). rewrite forallb_forall in M.
  specialize (M y (in_types y)). rewrite forallb_forall in M. specialize (M d (in_types d)). unfold minimal_at in M.
  rewrite !Bool.orb_true_iff in M. destruct M as [[[[M|M]|M]|M]|M].
  - apply andb_prop in M as [M1 M2]. split; [lia|]. intros F. unfold floatb, is_floating in *.
    destruct (kind d), (kind (deduce_common_type x y)); try discriminate; try contradiction; auto.
  - exfalso. apply existsb_exists in M as (z & Hz & Fz). apply Bool.negb_true_iff in Fz. assert (Ho : Z.odd z = true).
    { apply in_app_or in Hz as [Hz|Hz]; eapply samples_odd; eauto. }
    rewrite (held_fits d z Ho) in Fz; [discriminate|]. apply HD. apply in_app_or in Hz as [Hz|Hz]; [left|right]; apply samples_held; auto.
  - exfalso. apply andb_prop in M as [M1 M2]. apply Bool.negb_true_iff in M2. rewrite (half_float d) in M2; [discriminate|]. apply HD.
    apply Bool.orb_true_iff in M1 as [M1|M1]; [left|right]; apply half_held; auto.
  - destruct x; try discriminate M. congruence.
  - destruct y; try discriminate M. congruence.
Qed.
