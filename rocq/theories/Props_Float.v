(** * Props_Float: properties C19 and C49, and the binary64 side of C36.

    The model's functions are run in IEEE-754 binary64 ([f64], Float64.v).  [value x] is the
    rational number a finite double stands for, [B2R x] (Flocq) the same as a real number;
    [apart], [library_sum], [real_sum], [real_size] are defined in Float64.v, [reported_max],
    [reported_min], [hill], [zero_run], [opposite] in Spec.v. *)
From Verif Require Import Py PyFacts QcFacts Extrema Emd Eemd Ceemdan Spec ExtremaSpec CeemdanSpec Float64 Float64Proofs Demo.
From Flocq Require Import Core BinarySingleNaN.
From Coq Require Import Reals QArith Qcanon Permutation.
From Coq Require String.
Import String.
Local Notation length := List.length.
Open Scope Z_scope.

(** ** C19 *)
(** Unless two neighbouring samples differ by less than 2^-537, the extrema found in binary64
    are exactly those of the numbers the samples stand for, at the given times. *)
Theorem C19_extrema :
  forall T S : list f64,
  length T = length S -> Forall finite S ->
  (forall i, 0 <= i < zlen S - 1 -> apart (sample (map value S) i) (sample (map value S) (i + 1))) ->
  exists e M m, find_extrema Simple T S = Ok e /\
    max_pos e = map (at_ T) M /\ max_val e = map (at_ S) M /\
    min_pos e = map (at_ T) m /\ min_val e = map (at_ S) m /\
    zincreasing M /\ zincreasing m /\
    (forall i, In i M <-> reported_max (map value S) i) /\ (forall i, In i m <-> reported_min (map value S) i) /\
    indzer e = zero_crossings S.
Proof. exact f64_extrema. Qed.
Print Assumptions C19_extrema.

(** Unless a sample is non-zero but smaller than 2^-537, so are the zero crossings. *)
Theorem C19_zero_crossings :
  forall (T S : list f64) e,
  Forall finite S -> (forall x, In x S -> apart (value x) 0%Qc) ->
  find_extrema Simple T S = Ok e ->
  forall i, In i (indzer e) <->
    (0 <= i < zlen S - 1 /\ opposite (sample (map value S) i) (sample (map value S) (i + 1))) \/
    (exists a b, zero_run (map value S) a b /\ rounded_mid a b i).
Proof. exact f64_crossings. Qed.
Print Assumptions C19_zero_crossings.

Definition fl (l : list Z) : list f64 := map nofZ l.
Ltac all_finite := repeat (constructor; [vm_compute; reflexivity|]); constructor.
Example C19_nonvacuous :
  Forall finite (fl [0; -3; 1; 4; 3; 3; -2; 0]) /\
  (forall i, 0 <= i < 7 -> apart (sample (map value (fl [0; -3; 1; 4; 3; 3; -2; 0])) i)
                                (sample (map value (fl [0; -3; 1; 4; 3; 3; -2; 0])) (i + 1))) /\
  match find_extrema Simple (fl [0; 1; 2; 3; 4; 5; 6; 7]) (fl [0; -3; 1; 4; 3; 3; -2; 0]) with
  | Ok e => (zlen (max_pos e), zlen (min_pos e), indzer e) | _ => (0, 0, []) end = (1, 2, [0; 1; 5; 7]).
Proof.
  split; [all_finite|]. split.
  - intros i Hi. assert (C : i = 0 \/ i = 1 \/ i = 2 \/ i = 3 \/ i = 4 \/ i = 5 \/ i = 6) by lia.
    unfold apart. destruct C as [-> | [-> | [-> | [-> | [-> | [-> | ->]]]]]];
      solve [left; apply Qc_is_canon; vm_compute; reflexivity
            |right; left; vm_compute; discriminate|right; right; vm_compute; discriminate].
  - vm_compute. reflexivity.
Qed.

(** Without the condition extrema are missed: the product of the two differences underflows. *)
Definition small_S : list f64 := [n0; nlit 1 (10 ^ 200); n0].
Example small_missed :
  match find_extrema Simple (fl [0; 1; 2]) small_S with
  | Ok e => match max_pos e with [] => true | _ => false end | _ => false end = true.
Proof. vm_compute. reflexivity. Qed.
Theorem C19_small_refuted :
  exists (T S : list f64) e, length T = length S /\ Forall finite S /\
    hill (map value S) 1 1 /\ find_extrema Simple T S = Ok e /\ max_pos e = [].
Proof.
  exists (fl [0; 1; 2]), small_S. pose proof small_missed as G. revert G.
  generalize (find_extrema Simple (fl [0; 1; 2]) small_S). intros [e|] G; [|discriminate G]. exists e.
  split; [reflexivity|]. split; [all_finite|]. split; [|split; [reflexivity|destruct (max_pos e); [reflexivity|discriminate G]]].
  unfold hill. split; [lia|]. split; [cbn; lia|]. split; [|split; vm_compute; reflexivity].
  intros k Hk. assert (k = 1) as -> by lia. reflexivity.
Qed.
Print Assumptions C19_small_refuted.

(** Mixed magnitudes give minima and no maximum, and the decomposition fails. *)
Theorem C19_mixed_refuted :
  exists S : list f64, Forall finite S /\
    forall spl fuel k, emd spl (Datatypes.S fuel) (demo_cfg "cubic"%string Simple 0 0 1000) S None k = Raise IndexError.
Proof.
  exists (let o := nofZ (-1) in let e := nlit 1 (10 ^ 200) in [n0; o; n0; e; n0; o; n0; e; n0; o; n0]).
  split; [all_finite|]. intros spl fuel k. vm_compute. reflexivity.
Qed.
Print Assumptions C19_mixed_refuted.

(** ** C36 *)
(** In binary64 the order in which the workers finish changes the result. *)
Definition f_gen : generator f64 Z :=
  MkGen (fun g s n => (map (fun i => nmul s (nofZ ((3 * g + 5 * i + i * i) mod 7 - 3))) (zseq 0 n), g + 1))
        (fun g lo hi n => (map (fun i => nadd lo (nmul (nsub hi lo) (nlit ((3 * g + 5 * i + i * i) mod 7) 7))) (zseq 0 n), g + 1))
        (fun s => 100 * s).
Definition f_std (S : list f64) : f64 :=
  let n := nofZ (zlen S) in
  let m := ndiv (nsum S) n in
  Bsqrt mode_NE (ndiv (nsum (map (fun x => nmul (nsub x m) (nsub x m)) S)) n).
Definition f_ccfg : ceemdan_config f64 := MkCCfg 3 (nlit 1 200) n1 (nlit 1 100) (nlit 5 100) true Normal 1 true 3.
Definition f_S := fl [0; -3; 1; 4; 3; 2; -2; 0; 1].
Definition f_emd := @emd_fun f64 _ lin_spl 10 (demo_cfg "linear"%string Simple 1 0 1000).
Local Notation f_run arr := (fst (ceemdan f_gen f_std f_emd arr f_ccfg (MkCSt 0 None None) f_S None 1)).
Definition same_rows (a b : res (list (list f64))) : bool :=
  match a, b with
  | Ok M, Ok N => forallb (fun p => forallb (fun q => SpecFloat.SFeqb (B2SF (fst q)) (B2SF (snd q))) (combine (fst p) (snd p))) (combine M N)
  | _, _ => false
  end.
Example f_runs : match f_run (fun l => l), f_run (@rev _) with
                 | Ok M, Ok N => negb (same_rows (Ok M) (Ok N)) && same_rows (Ok M) (Ok M) | _, _ => false end = true.
Proof. vm_compute. reflexivity. Qed.
Theorem C36_binary64_refuted :
  exists (gen : generator f64 Z) std emd_of (arrival1 arrival2 : list (list (list f64)) -> list (list (list f64))) c o S M N,
  (forall l, Permutation l (arrival1 l)) /\ (forall l, Permutation l (arrival2 l)) /\ c_parallel c = true /\ 1 <= c_processes c /\
  fst (ceemdan gen std emd_of arrival1 c o S None 1) = Ok M /\
  fst (ceemdan gen std emd_of arrival2 c o S None 1) = Ok N /\ M <> N.
Proof.
  exists f_gen, f_std, f_emd, (fun l => l), (@rev _), f_ccfg, (MkCSt 0 None None), f_S.
  pose proof f_runs as G.  revert G.
  generalize (fst (ceemdan f_gen f_std f_emd (fun l => l) f_ccfg (MkCSt 0 None None) f_S None 1)).
  generalize (fst (ceemdan f_gen f_std f_emd (@rev _) f_ccfg (MkCSt 0 None None) f_S None 1)).
  intros [N|] [M|] G; try discriminate G. exists M, N.
  split; [intros l; apply Permutation_refl|]. split; [intros l; apply Permutation_rev|].
  split; [reflexivity|]. split; [cbn; lia|]. split; [reflexivity|]. split; [reflexivity|].
  intros ->. destruct (same_rows (Ok N) (Ok N)); discriminate G.
Qed.
Print Assumptions C36_binary64_refuted.

(** ** C49 *)
(** The residue is what the stored imfs leave of the signal, up to one rounding: adding it to
    their sum, in the library's order, misses the signal by at most 2^-53 of the residue's
    exact value.  Finite means that nothing overflowed. *)
Theorem C49_residue :
  forall (spl : spline_oracle f64) fuel c S T k o i,
  emd spl fuel c S T k = Ok o -> (i < length S)%nat -> finite (nth i (residue o) n0) ->
  finite (nth i S n0) /\ finite (library_sum (imfs o) i) /\
  (Rabs (B2R (nth i S n0) - (B2R (library_sum (imfs o) i) + B2R (nth i (residue o) n0)))
    <= bpow radix2 (-53) * Rabs (B2R (nth i S n0) - B2R (library_sum (imfs o) i)))%R.
Proof. exact f64_reconstruct. Qed.
Print Assumptions C49_residue.

(** Against the exact sum of the imfs the rounding errors of adding them up come on top. *)
Theorem C49_exact_sum :
  forall (spl : spline_oracle f64) fuel c S T k o i,
  emd spl fuel c S T k = Ok o -> (i < length S)%nat -> finite (nth i (residue o) n0) ->
  (Rabs (B2R (nth i S n0) - (real_sum (imfs o) i + B2R (nth i (residue o) n0)))
    <= bpow radix2 (-53) * Rabs (B2R (nth i S n0) - B2R (library_sum (imfs o) i))
       + ((1 + bpow radix2 (-53)) ^ Nat.pred (length (imfs o)) - 1) * real_size (imfs o) i)%R.
Proof. exact f64_reconstruct_real. Qed.
Print Assumptions C49_exact_sum.

Definition f_cfg : emd_config f64 := demo_cfg "linear"%string Simple 3 0 1000.
Definition f_long := fl [0; -3; 1; 4; 3; 2; -2; 0; 1; 2; 1; 0; 1; 2; 5; 4; 0; -2; -1].
Example C49_nonvacuous :
  match emd lin_spl 10 f_cfg f_long None (-1) with
  | Ok o => (2 <=? zlen (imfs o)) && forallb is_finite (residue o) && Nat.eqb (length (residue o)) 19
  | _ => false end = true.
Proof. vm_compute. reflexivity. Qed.

(** The reconstruction is not exact. *)
Definition f_tenths : list f64 := map (fun z => nlit z 10) [1; -31; 12; 47; 3; 22; -29; 5; 13; 27; 11; 7; 19; 23; 58; 41; 3; -27; -17].
Example f_inexact :
  match emd lin_spl 10 f_cfg f_tenths None (-1) with
  | Ok o => existsb (fun i => negb (neqb (nadd (library_sum (imfs o) i) (nth i (residue o) n0)) (nth i f_tenths n0))) (seq 0 19)
  | _ => false end = true.
Proof. vm_compute. reflexivity. Qed.
Theorem C49_exact_refuted :
  exists (spl : spline_oracle f64) fuel c S o i,
  emd spl fuel c S None (-1) = Ok o /\ (i < length S)%nat /\
  neqb (nadd (library_sum (imfs o) i) (nth i (residue o) n0)) (nth i S n0) = false.
Proof.
  exists lin_spl, 10%nat, f_cfg, f_tenths. pose proof f_inexact as G. revert G.
  generalize (emd lin_spl 10 f_cfg f_tenths None (-1)). intros [o|] G; [|discriminate G].
  apply existsb_exists in G as (i & Hi & G). exists o, i. apply in_seq in Hi.
  split; [reflexivity|]. split; [apply Hi|]. destruct (neqb _ _); [discriminate G|reflexivity].
Qed.
Print Assumptions C49_exact_refuted.
