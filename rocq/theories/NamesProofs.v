(** * NamesProofs: spline kinds by name. *)
From Verif Require Import PyFacts Emd Spline NamesSpec.
From Coq Require Import List String Ascii Bool Lia ZArith.
Import ListNotations.

(** All characters. *)
Definition every : list ascii := map ascii_of_nat (seq 0 256).
Lemma every_in c : In c every.
Proof. apply in_map_iff. exists (nat_of_ascii c). split; [apply ascii_nat_embedding|]. apply in_seq. pose proof (nat_ascii_bounded c). lia. Qed.
Definition low (c : ascii) : bool := Ascii.eqb (ascii_lower c) c.
Definition pair_at (i : nat) : bool :=
  match String.get i letters, String.get i capitals with Some a, Some b => Ascii.eqb (ascii_lower b) a | _, _ => false end.
Lemma pairs : forallb pair_at (seq 0 26) = true.
Proof. vm_compute. reflexivity. Qed.
Definition capital_at (d : ascii) (i : nat) : bool := match String.get i capitals with Some b => Ascii.eqb b d | _ => false end.
Lemma cases : forallb (fun d => low d || existsb (capital_at d) (seq 0 26)) every = true.
Proof. vm_compute. reflexivity. Qed.
Lemma get_out i : (26 <= i)%nat -> String.get i letters = None.
Proof. intros H. do 26 (destruct i as [|i]; [lia|]). reflexivity. Qed.
Lemma capital_lower i : (i < 26)%nat -> exists a b, String.get i letters = Some a /\ String.get i capitals = Some b /\ ascii_lower b = a.
Proof.
  intros Hi. pose proof pairs as T. rewrite forallb_forall in T. specialize (T i ltac:(apply in_seq; lia)). unfold pair_at in T.
  destruct (String.get i letters) as [a|], (String.get i capitals) as [b|]; try discriminate. apply Ascii.eqb_eq in T. eauto.
Qed.
(** Lower-case characters: [d] is written for [c] exactly when [c] is the lower case of [d]. *)
Lemma written_lower c d : low c = true -> (written c d <-> ascii_lower d = c).
Proof.
  intros H. apply Ascii.eqb_eq in H. split.
  - intros [->|(i & H1 & H2)]; [exact H|]. destruct (Nat.le_gt_cases 26 i) as [G|G]; [rewrite get_out in H1 by auto; discriminate|].
    destruct (capital_lower i G) as (a & b & E1 & E2 & E3). congruence.
  - intros E. pose proof cases as T. rewrite forallb_forall in T. specialize (T d (every_in d)). apply orb_true_iff in T as [T|T].
    + apply Ascii.eqb_eq in T. left. congruence.
    + apply existsb_exists in T as (i & Hi & T). apply in_seq in Hi. destruct (capital_lower i ltac:(lia)) as (a & b & E1 & E2 & E3).
      unfold capital_at in T. rewrite E2 in T. apply Ascii.eqb_eq in T. subst b. right. exists i. split; congruence.
Qed.
Fixpoint lows (n : string) : bool := match n with EmptyString => true | String c n' => low c && lows n' end.
Lemma spelled_lower n : forall s, lows n = true -> (spelled n s <-> string_lower s = n).
Proof.
  induction n as [|c n IH]; intros [|d s] H; cbn [spelled string_lower lows] in *; try (split; [contradiction|discriminate]); [split; auto|].
  apply andb_true_iff in H as [H1 H2]. rewrite (written_lower c d H1), (IH s H2). split; [intros [-> ->]; auto|intros E; injection E as -> ->; auto].
Qed.
Lemma parse_named s k : parse_kind s = Some k <-> exists n, In (n, k) kind_names /\ spelled n s.
Proof.
  assert (L : forall n k, In (n, k) kind_names -> lows n = true).
  { intros n j H. cbn in H. repeat (destruct H as [H|H]; [injection H as <- <-; reflexivity|]). contradiction. }
  split.
  - unfold parse_kind. intros H.
    repeat match type of H with (if String.eqb ?a ?b then _ else _) = _ => destruct (String.eqb a b) eqn:E;
      [injection H as <-; apply String.eqb_eq in E; eexists; split; [|apply spelled_lower; [|exact E]; reflexivity]; cbn; tauto|clear E] end.
    discriminate.
  - intros (n & Hn & Hs). pose proof (L _ _ Hn) as Hl. apply (spelled_lower n s Hl) in Hs. unfold parse_kind. rewrite Hs. clear Hs Hl.
    cbn in Hn. repeat (destruct Hn as [Hn|Hn]; [injection Hn as <- <-; reflexivity|]). contradiction.
Qed.
Lemma parse_spelled n k s : In (n, k) kind_names -> spelled n s -> parse_kind s = Some k.
Proof. intros H1 H2. apply parse_named. eauto. Qed.
Lemma spelled_self n : spelled n n.
Proof. induction n as [|c n IH]; [exact I|]. split; [left; reflexivity|exact IH]. Qed.
Lemma parse_same n k s : In (n, k) kind_names -> spelled n s -> parse_kind s = parse_kind n.
Proof. intros H1 H2. rewrite (parse_spelled n k s H1 H2). symmetry. apply (parse_spelled n k n H1). apply spelled_self. Qed.
Lemma parse_none s : (forall n k, In (n, k) kind_names -> ~ spelled n s) -> parse_kind s = None.
Proof. intros H. destruct (parse_kind s) as [k|] eqn:E; auto. apply parse_named in E as (n & H1 & H2). exfalso. eapply H; eauto. Qed.

Section Renamed.
Context {A : Type} `{Num A}.
Variables (spl : spline_oracle A) (c : emd_config A) (n : string).
Definition renamed : emd_config A :=
  MkCfg (std_thr c) (svar_thr c) (energy_ratio_thr c) (total_power_thr c) (range_thr c) (nbsym c) n
        (extrema_detection c) (FIXE c) (FIXE_H c) (MAX_ITERATION c).
Hypothesis HP : parse_kind (spline_kind c) = parse_kind n.
Lemma renamed_points T ext : spline_points spl (spline_kind c) T ext = spline_points spl n T ext.
Proof. unfold spline_points. rewrite HP. reflexivity. Qed.
Lemma renamed_envelopes T S : extract_max_min_spline spl c T S = extract_max_min_spline spl renamed T S.
Proof.
  unfold extract_max_min_spline. cbn [renamed extrema_detection nbsym spline_kind].
  destruct (find_extrema (extrema_detection c) T S); [|reflexivity]. cbn [bind]. destruct (_ <? _)%Z; [reflexivity|].
  destruct (prepare_points _ _ _ _ _) as [[P Q]|]; [|reflexivity]. cbn [bind]. rewrite !renamed_points. reflexivity.
Qed.
Lemma renamed_step T S : sift_step spl c T S = sift_step spl renamed T S.
Proof. unfold sift_step. rewrite renamed_envelopes. reflexivity. Qed.
Lemma renamed_sift fuel T : forall i h e x, sift spl fuel c T i h e x = sift spl fuel renamed T i h e x.
Proof.
  induction fuel as [|fuel IH]; intros i h e x; [reflexivity|]. cbn [sift]. cbv zeta. rewrite <- renamed_step.
  change (MAX_ITERATION renamed) with (MAX_ITERATION c). change (FIXE renamed) with (FIXE c). change (FIXE_H renamed) with (FIXE_H c).
  change (extrema_detection renamed) with (extrema_detection c).
  destruct (_ <=? _)%Z; [reflexivity|]. destruct (find_extrema _ T x) as [e0|]; [|reflexivity]. cbn [bind].
  destruct (2 <? ext_no e0)%Z; [|reflexivity]. destruct (sift_step spl c T x) as [[[y a] b]|]; [|reflexivity]. cbn [bind].
  destruct (negb (FIXE c =? 0)%Z); [destruct (_ <=? _)%Z; [reflexivity|apply IH]|].
  destruct (negb (FIXE_H c =? 0)%Z).
  - destruct (find_extrema _ T y) as [e1|]; [|reflexivity]. cbn [bind]. destruct (_ =? 1)%Z; [apply IH|]. destruct (FIXE_H c <=? _)%Z; [reflexivity|apply IH].
  - destruct (find_extrema _ T y) as [e1|]; [|reflexivity]. cbn [bind]. change (check_imf renamed) with (check_imf c).
    destruct (check_imf c y x a b) as [f|]; [|reflexivity]. cbn [bind]. destruct (_ && _)%bool; [reflexivity|apply IH].
Qed.
Lemma renamed_loop fuel S T k : forall IMF e, emd_loop spl fuel c S T k IMF e = emd_loop spl fuel renamed S T k IMF e.
Proof.
  induction fuel as [|fuel IH]; intros IMF e; [reflexivity|]. cbn [emd_loop]. cbv zeta. change (sift_fuel renamed) with (sift_fuel c).
  rewrite <- renamed_sift. destruct (sift _ _ _ _ _ _ _ _) as [[[y a] b]|]; [|reflexivity]. cbn [bind]. change (end_condition renamed) with (end_condition c).
  destruct (end_condition c S (IMF ++ [y])) as [f|]; [|reflexivity]. cbn [bind]. destruct (_ || _)%bool; [reflexivity|]. destruct b; [reflexivity|apply IH].
Qed.
Lemma renamed_emd fuel S T k : emd spl fuel c S T k = emd spl fuel renamed S T k.
Proof.
  unfold emd. change (emd_time renamed) with (emd_time c). destruct (emd_time c S T) as [t|]; [|reflexivity]. cbn [bind].
  destruct (negb _); [reflexivity|]. rewrite renamed_loop. reflexivity.
Qed.
End Renamed.
