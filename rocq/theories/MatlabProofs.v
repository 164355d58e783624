(** * MatlabProofs: lemmas about EMD_matlab.py. *)
From Verif Require Import PyFacts QcFacts Emd Matlab Spec Runs EmdProofs EmdExact EmdStop ExtremaProofs ExtremaSpec PrepareProofs.
From Coq Require Import ZifyBool ZifyNat QArith Qcanon.
Open Scope Z_scope.

(** ** Extrema *)
Section Idx.
Variable S : list Qc.
Hypothesis HS : S <> [].
Let before (r : Z * Z) : Qc := if fst r =? 0 then dv S (zlen S - 2) else dv S (fst r - 1).
Let aft (r : Z * Z) : Qc := dv S (snd r).
Let mid (r : Z * Z) : Z := round_half (snd r + fst r).
Let selM (r : Z * Z) : bool := nltb n0 (before r) && nltb (aft r) n0.
Let selm (r : Z * Z) : bool := nltb (before r) n0 && nltb n0 (aft r).
Let selx (r : Z * Z) : bool := negb (nltb n0 (before r)) && nltb n0 (aft r).
Let strM := strict_max_idx (ndiff S).
Let strm := strict_min_idx (ndiff S).

Lemma get_before a b : In (a, b) (plateaus S) -> py_get (ndiff S) (a - 1) = Ok (before (a, b)).
Proof.
  intros Hr. apply plateaus_In in Hr; auto. unfold before. cbn [fst].
  destruct (Z.eqb_spec a 0) as [->|D]; [apply py_get_ndiff_wrap; lia|apply py_get_ndiff; lia].
Qed.
Lemma get_after a b : In (a, b) (plateaus S) -> py_get (ndiff S) b = Ok (aft (a, b)).
Proof. intros Hr. apply plateaus_In in Hr; auto. unfold aft. cbn [snd]. apply py_get_ndiff. lia. Qed.
Lemma m_plateaus_spec l : (forall r, In r l -> In r (plateaus S)) ->
  m_plateaus (ndiff S) l = Ok (map mid (filter selM l), map mid (filter selx l)).
Proof.
  induction l as [|[a b] l IH]; intros Hl; cbn [m_plateaus map filter]; auto.
  rewrite (get_before a b), (get_after a b) by (apply Hl; left; auto). cbn [bind].
  rewrite IH by (intros r Hr; apply Hl; right; auto). cbn [bind].
  change (selM (a, b)) with (nltb n0 (before (a, b)) && nltb (aft (a, b)) n0).
  change (selx (a, b)) with (negb (nltb n0 (before (a, b))) && nltb n0 (aft (a, b))).
  change (round_half (b + a)) with (mid (a, b)).
  destruct (nltb n0 (before (a, b))), (nltb (aft (a, b)) n0), (nltb n0 (aft (a, b))); reflexivity.
Qed.
Definition idx_with (str : list Z) (sel : Z * Z -> bool) : list Z :=
  match map mid (filter sel (plateaus S)) with [] => str | _ => zsort (str ++ map mid (filter sel (plateaus S))) end.
Lemma idx_existsb str sel : (if existsb sel (plateaus S) then zsort (str ++ map mid (filter sel (plateaus S))) else str) = idx_with str sel.
Proof.
  unfold idx_with. destruct (existsb sel (plateaus S)) eqn:E.
  - apply existsb_exists in E as (x & Hx & Hs). assert (Hf : In x (filter sel (plateaus S))) by (apply filter_In; auto).
    destruct (filter sel (plateaus S)); [contradiction|reflexivity].
  - rewrite existsb_false in E. destruct (filter sel (plateaus S)) eqn:F; auto.
    assert (In p (filter sel (plateaus S))) by (rewrite F; left; auto). apply filter_In in H as [H1 H2].
    rewrite E in H2 by auto. discriminate.
Qed.
Lemma no_bad : existsb (fun b => b) (map is0 (ndiff S)) = false -> plateaus S = [].
Proof.
  intros Eb. destruct (plateaus S) as [|[a b] ps] eqn:Ep; auto. exfalso.
  assert (Hp : In (a, b) (plateaus S)) by (rewrite Ep; left; auto).
  apply plateaus_In in Hp as (P1 & P2 & P3 & P4 & _); auto.
  rewrite existsb_false in Eb. specialize (P4 a ltac:(lia)).
  assert (zmask (map is0 (ndiff S)) a = true) by (apply bad_mask; auto; lia).
  apply zmask_true in H as [_ H]. apply nth_error_In in H. apply Eb in H. discriminate.
Qed.
Lemma m_idx : m_extrema_idx S = Ok (idx_with strM selM, idx_with strm selx).
Proof.
  unfold m_extrema_idx. destruct (existsb (fun b => b) (map is0 (ndiff S))) eqn:Eb.
  - rewrite runs_spec. fold (plateaus S). rewrite m_plateaus_spec by auto. cbn [bind]. reflexivity.
  - unfold idx_with. rewrite no_bad by auto. reflexivity.
Qed.
Lemma e_idx : extrema_idx S = Ok (idx_with strM selM, idx_with strm selm).
Proof.
  unfold extrema_idx. destruct (existsb (fun b => b) (map is0 (ndiff S))) eqn:Eb.
  - rewrite runs_spec. fold (plateaus S).
    destruct (plateaus S) as [|p0 ps] eqn:Ep; [unfold idx_with; rewrite Ep; reflexivity|].
    rewrite <- Ep in *.
    assert (E1 : py_take (ndiff S) (map (fun r => fst r - 1) (plateaus S)) = Ok (map before (plateaus S))).
    { apply mapM_ok_iff. clear Ep. assert (G : forall r, In r (plateaus S) -> In r (plateaus S)) by auto. revert G.
      generalize (plateaus S) at 1 3 4. induction l as [|[a b] l IH]; intros G; cbn [map]; constructor.
      - apply get_before. apply G. left. auto.
      - apply IH. intros. apply G. right. auto. }
    assert (E2 : py_take (ndiff S) (map snd (plateaus S)) = Ok (map aft (plateaus S))).
    { apply mapM_ok_iff. clear Ep E1. assert (G : forall r, In r (plateaus S) -> In r (plateaus S)) by auto. revert G.
      generalize (plateaus S) at 1 3 4. induction l as [|[a b] l IH]; intros G; cbn [map]; constructor.
      - apply get_after. apply G. left. auto.
      - apply IH. intros. apply G. right. auto. }
    rewrite E1, E2. cbn [bind]. rewrite !mask_filter, !existsb_mask.
    rewrite <- !idx_existsb. rewrite Ep. reflexivity.
  - unfold idx_with. rewrite no_bad by auto. reflexivity.
Qed.
(** Unless the signal is flat at both ends, the two agree. *)
Lemma idx_same : ~ (sgn S 0 = 0 /\ sgn S (zlen S - 2) = 0) -> m_extrema_idx S = extrema_idx S.
Proof.
  intros HF. rewrite m_idx, e_idx. f_equal. f_equal. unfold idx_with.
  replace (filter selx (plateaus S)) with (filter selm (plateaus S)); auto.
  apply filter_ext_in. intros [a b] Hp. unfold selm, selx. f_equal. unfold before. cbn [fst].
  apply plateaus_In in Hp as (P1 & P2 & P3 & P4 & P5 & P6); auto. num_qc.
  assert (N : (if a =? 0 then dv S (zlen S - 2) else dv S (a - 1)) <> 0%Qc).
  { destruct (Z.eqb_spec a 0) as [->|D]; rewrite dv_zero; [|destruct P5; auto].
    intros E. apply HF. split; [apply P4; lia|exact E]. }
  set (x := if a =? 0 then _ else _) in *. clearbody x.
  destruct (Qc_ltb x 0) eqn:E1, (Qc_ltb 0 x) eqn:E2; auto; qc_bool; try qclra.
Qed.
Lemma idx_In str sel i : In i (idx_with str sel) <-> In i str \/ exists a b, In (a, b) (plateaus S) /\ sel (a, b) = true /\ i = round_half (b + a).
Proof.
  rewrite <- idx_existsb. assert (M : In i (map mid (filter sel (plateaus S))) <-> exists a b, In (a, b) (plateaus S) /\ sel (a, b) = true /\ i = round_half (b + a)).
  { rewrite in_map_iff. split.
    - intros ([a b] & <- & Hr). apply filter_In in Hr as [Hr Hs]. exists a, b. auto.
    - intros (a & b & Hr & Hs & ->). exists (a, b). split; [reflexivity|]. apply filter_In. auto. }
  rewrite <- M. destruct (existsb sel (plateaus S)) eqn:E.
  - rewrite zsort_In, in_app_iff. reflexivity.
  - split; [auto|]. intros [H|H]; auto. exfalso. apply M in H as (a & b & Hr & Hs & _).
    rewrite existsb_false in E. rewrite E in Hs by auto. discriminate.
Qed.
Lemma idx_increasing sel : zincreasing (idx_with strm sel).
Proof.
  rewrite <- idx_existsb. destruct (existsb sel (plateaus S)); [|apply strict_min_increasing].
  apply zsort_increasing.
  assert (Hmid : zincreasing (map mid (filter sel (plateaus S)))).
  { apply chain_mid_increasing; [apply chain_filter, plateaus_chain|].
    intros [a b] Hp. apply filter_In in Hp as [Hp _]. apply plateaus_In in Hp; auto. simpl. lia. }
  assert (Hd : forall x, In x strm -> ~ In x (map mid (filter sel (plateaus S)))).
  { intros x Hx Hx'. apply In_strict_min in Hx as (_ & X1 & X2).
    apply in_map_iff in Hx' as ([a b] & E & Hp). apply filter_In in Hp as [Hp _]. apply plateaus_In in Hp; auto.
    destruct Hp as (P1 & P2 & P3 & P4 & _). unfold mid in E. cbn [fst snd] in E.
    pose proof (round_half_bounds a b ltac:(lia)) as Hrb. rewrite Z.add_comm, E in Hrb.
    destruct (Z.eq_dec x b) as [->|D].
    - rewrite P4 in X1 by lia. lia.
    - rewrite P4 in X2 by lia. lia. }
  pose proof (strict_min_increasing (ndiff S)) as Hinc. fold strm in Hinc. revert Hinc Hd. generalize strm as st.
  apply zincreasing_NoDup in Hmid. intros st Hinc Hd. apply zincreasing_NoDup in Hinc.
  induction st as [|x st IH]; simpl; auto.
  inversion Hinc; subst. constructor.
  - rewrite in_app_iff. intros [Hx|Hx]; [auto|]. apply (Hd x); [left; auto|exact Hx].
  - apply IH; auto. intros y Hy. apply Hd. right. auto.
Qed.
Lemma idx_minima i : In i (idx_with strm selx) <-> In i (idx_with strm selm) \/
  exists b, 0 < b <= zlen S - 2 /\ (forall k, 0 <= k < b -> sgn S k = 0) /\ sgn S b = 1 /\ sgn S (zlen S - 2) = 0 /\ i = round_half (b + 0).
Proof.
  rewrite !idx_In. split.
  - intros [Hi|(a & b & Hp & Hs & ->)]; [auto|]. unfold selx in Hs. apply andb_true_iff in Hs as [H1 H2].
    destruct (nltb (before (a, b)) n0) eqn:H3.
    + left. right. exists a, b. split; auto. split; auto. unfold selm. rewrite H3, H2. auto.
    + right. pose proof Hp as Hp'. apply plateaus_In in Hp' as (P1 & P2 & P3 & P4 & P5 & P6); auto.
      assert (Z0 : before (a, b) = 0%Qc).
      { revert H1 H3. num_qc. intros. apply negb_true_iff in H1. qc_bool. qclra. }
      unfold before in Z0. cbn [fst] in Z0. destruct (Z.eqb_spec a 0) as [->|D].
      * exists b. split; [lia|]. split; [auto|]. split; [|split; [apply dv_zero; auto|auto]].
        revert H2. unfold aft. cbn [snd]. num_qc. rewrite Qc_ltb_lt. apply dv_pos.
      * apply dv_zero in Z0. exfalso. destruct P5; auto.
  - intros [[Hi|(a & b & Hp & Hs & ->)]|(b & H1 & H2 & H3 & H4 & ->)]; [auto| |].
    + right. exists a, b. split; auto. split; auto. revert Hs. unfold selm, selx. num_qc.
      rewrite !andb_true_iff. intros [G1 G2]. split; auto. apply negb_true_iff.
      destruct (Qc_ltb 0 (before (a, b))) eqn:E; auto. exfalso. qc_bool. qclra.
    + right. exists 0, b. split.
      * apply plateaus_In; auto. split; [lia|]. split; [lia|]. split; [lia|]. split; [auto|]. split; [auto|]. lia.
      * split; auto. unfold selx, before, aft. cbn [fst snd]. change (0 =? 0) with true. cbv iota. num_qc.
        apply andb_true_iff. split.
        -- apply dv_zero in H4. rewrite H4. reflexivity.
        -- apply Qc_ltb_lt. apply dv_pos. auto.
Qed.
End Idx.
