(** * NamesEmd: EMD with a name that is no spline kind. *)
From Verif Require Import PyFacts QcFacts Emd Spec EmdProofs EmdExact EmdTop EmdSimple Envelope PrepareProofs ExtremaProofs NamesSpec NamesProofs.
From Coq Require Import ZifyBool ZifyNat QArith Qcanon Lia String List.
Import ListNotations.
Local Notation length := List.length.
Open Scope Z_scope.

Lemma window_named {A} `{Num A} (T : list A) p l : time_window T (p :: l) =
  Ok (filter (fun u => nleb (fst p) u && nleb u (fst (last (p :: l) p)))%bool T).
Proof.
  unfold time_window. rewrite (py_get_nonneg (p :: l) 0 p) by (unfold zlen; cbn; lia). cbn [bind].
  rewrite (py_get_neg (p :: l) (-1) p) by (unfold zlen; cbn; lia). cbn [bind]. change (nth (Z.to_nat 0) (p :: l) p) with p.
  replace (Z.to_nat (-1 + zlen (p :: l))) with (length (p :: l) - 1)%nat by (unfold zlen; cbn [length]; lia).
  replace (nth (length (p :: l) - 1) (p :: l) p) with (last (p :: l) p); [reflexivity|].
  clear. assert (G : forall (q : A * A) r, last (q :: r) p = nth (length (q :: r) - 1) (q :: r) p).
  { intros q r. revert q. induction r as [|x r IH]; intros q; [reflexivity|]. change (last (q :: x :: r) p) with (last (x :: r) p). rewrite IH.
    replace (length (q :: x :: r) - 1)%nat with (Datatypes.S (length (x :: r) - 1)) by (cbn [length]; lia). reflexivity. }
  apply G.
Qed.
Lemma points_unknown {A} `{Num A} (spl : spline_oracle A) s T p l : parse_kind s = None -> spline_points spl s T (p :: l) = Raise ValueError.
Proof. intros E. unfold spline_points. rewrite window_named, E. reflexivity. Qed.
Lemma points_named {A} `{Num A} (spl : spline_oracle A) s k T p l : parse_kind s = Some k -> (k <> Cubic \/ 3 < zlen (p :: l)) ->
  spline_points spl s T (p :: l) = spl k (p :: l) (filter (fun u => nleb (fst p) u && nleb u (fst (last (p :: l) p)))%bool T).
Proof.
  intros E HC. unfold spline_points. rewrite window_named, E. cbn [bind]. destruct k; auto.
  destruct HC as [HC|HC]; [congruence|]. apply Z.ltb_lt in HC. rewrite HC. reflexivity.
Qed.

Lemma emd_unknown (spl : spline_oracle Qc) fuel c S T k e : (0 < fuel)%nat -> 2 <= MAX_ITERATION c ->
  extrema_detection c = Simple -> 1 <= nbsym c -> (2 <= length S)%nat -> (forall t, T = Some t -> length t = length S) ->
  find_extrema Simple (tz (length S)) S = Ok e -> 3 <= zlen (max_pos e) + zlen (min_pos e) ->
  parse_kind (spline_kind c) = None -> emd spl fuel c S T k = Raise ValueError.
Proof.
  intros Hf HM Hd Hn HS HT Ee He HK. unfold emd. rewrite simple_time by auto. cbn [bind]. rewrite tz_length, Nat.eqb_refl. cbn [negb].
  destruct fuel as [|fuel]; [lia|]. cbn [emd_loop]. cbv zeta.
  change (sum_rows (length S) []) with (@vzeros Qc _ (length S)). rewrite vsub_zeros. unfold sift_fuel. cbn [sift]. cbv zeta.
  destruct (Z.leb_spec (MAX_ITERATION c) (0 + 1)) as [|_]; [lia|]. rewrite Hd, Ee. cbn [bind].
  destruct (Z.ltb_spec 2 (ext_no e)) as [_|C]; [|unfold ext_no in C; lia].
  unfold sift_step, extract_max_min_spline. rewrite Hd, Ee. cbn [bind].
  destruct (Z.ltb_spec (zlen (max_pos e) + zlen (min_pos e)) 3) as [|_]; [lia|].
  destruct (detect_prepare S (nbsym c) Hn) as (e' & M & m & E & E1 & E2 & _ & _ & HP). rewrite E in Ee. injection Ee as ->.
  rewrite E1, E2, !zlen_map in He. destruct (HP ltac:(lia)) as (P & Q & cl & cr & EP & O1 & O2 & _). rewrite EP. cbn [bind].
  destruct O1 as [_ H3 _ _ _ _]. destruct P as [|p P]; [unfold zlen in H3; cbn in H3; lia|]. rewrite points_unknown by auto. reflexivity.
Qed.
