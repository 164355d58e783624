(** * NarrowProofs: proofs about EMD on narrower arrays. *)
From Verif Require Import PyFacts Emd Spec EmdProofs EmdControl Narrow.
From Coq Require Import ZifyBool ZifyNat.
Open Scope Z_scope.

Section Generic.
Context {N : Type} `{Num N} {W : Type} `{Num W}.
Variable up : N -> W.
Variable down : W -> N.
Variable draw : list N -> list (N * N) -> res (@arr N W).

Lemma half_sum_length n a b v : half_sum up down n a b = Ok v -> length v = n.
Proof.
  unfold half_sum. intros E.
  destruct a, b; apply bind_ok in E as (s & _ & E); eapply assign_all_length; eauto.
Qed.

Lemma sift_step_n_length c T imf imf' eM em :
  sift_step_n up down draw c T imf = Ok (imf', eM, em) -> length imf' = length imf.
Proof.
  unfold sift_step_n. intros E. apply bind_ok in E as (e & _ & E). destruct (_ <? 3); [discriminate|].
  apply bind_ok in E as ([a b] & _ & E). apply bind_ok in E as (x & _ & E). apply bind_ok in E as (y & _ & E).
  apply bind_ok in E as (mean & E3 & E). injection E as <- <- <-. apply vsub_length.
  symmetry. eapply half_sum_length; eauto.
Qed.

Lemma sift_n_length fuel c T n n_h ext imf imf' ext' fin :
  sift_n up down draw fuel c T n n_h ext imf = Ok (imf', ext', fin) -> length imf' = length imf.
Proof.
  revert n n_h ext imf. induction fuel as [|fuel IH]; intros n n_h ext imf E; cbn [sift_n] in E.
  { discriminate. }
  destruct (MAX_ITERATION c <=? n + 1). { injection E as <- <- <-. reflexivity. }
  apply bind_ok in E as (e & E1 & E).
  destruct (2 <? ext_no e). 2:{ injection E as <- <- <-. reflexivity. }
  apply bind_ok in E as ([[imf1 eM] em] & E2 & E).
  apply sift_step_n_length in E2 as L. rewrite <- L.
  destruct (negb (FIXE c =? 0)).
  { destruct (FIXE c <=? n + 1). { injection E as <- <- <-. reflexivity. } eauto. }
  destruct (negb (FIXE_H c =? 0)).
  { apply bind_ok in E as (e' & E3 & E).
    destruct (n + 1 =? 1); [eauto|].
    destruct (FIXE_H c <=? _). { injection E as <- <- <-. reflexivity. } eauto. }
  apply bind_ok in E as (e' & E3 & E).
  apply bind_ok in E as (f1 & E4 & E).
  destruct (f1 && _). { injection E as <- <- <-. reflexivity. } eauto.
Qed.

(** The rows collected so far are images of narrow arrays of the signal's length. *)
Definition narrow_rows (n : nat) (M : list (list W)) : Prop :=
  Forall (fun r => exists v, r = map up v /\ length v = n) M.
Lemma narrow_shaped n M : narrow_rows n M -> shaped n M.
Proof. unfold narrow_rows, shaped. apply Forall_impl. intros r (v & -> & L). rewrite map_length. exact L. Qed.

Lemma residue_length (S : list N) (M : list (list W)) : shaped (length S) M ->
  length (vsub (map up S) (sum_rows (length S) M)) = length S.
Proof.
  intros HM. rewrite vsub_length, map_length; auto. rewrite map_length. symmetry. apply sum_rows_length.
  intros r Hr. unfold shaped in HM. rewrite Forall_forall in HM. auto.
Qed.

Lemma emd_loop_n_rows fuel c cw S T k IMF ext IMF' ext' :
  narrow_rows (length S) IMF ->
  emd_loop_n up down draw fuel c cw S T k IMF ext = Ok (IMF', ext') -> narrow_rows (length S) IMF'.
Proof.
  revert IMF ext. induction fuel as [|fuel IH]; intros IMF ext HI E; cbn [emd_loop_n] in E.
  { discriminate. }
  apply bind_ok in E as ([[imf ext1] fin] & E1 & E).
  apply sift_n_length in E1.
  assert (HI' : narrow_rows (length S) (IMF ++ [map up imf])).
  { apply Forall_app; split; auto. constructor; [|constructor]. exists imf. split; auto.
    rewrite E1, map_length. apply residue_length. apply narrow_shaped; auto. }
  apply bind_ok in E as (stop & E2 & E).
  destruct (stop || _). { injection E as <- <-. exact HI'. }
  destruct fin. { injection E as <- <-. exact HI'. }
  eapply IH; eauto.
Qed.

Lemma emd_n_ok fuel c cw S T k o :
  emd_n up down draw fuel c cw S T k = Ok o ->
  exists t IMF ext, emd_time c S T = Ok t /\ length t = length S /\
    emd_loop_n up down draw fuel c cw S t k [] (-1) = Ok (IMF, ext) /\ o = emd_finish (map up S) IMF ext.
Proof.
  unfold emd_n. intros E.
  apply bind_ok in E as (t & E1 & E).
  destruct (Nat.eqb_spec (length S) (length t)) as [L|L]; simpl in E; [|discriminate].
  apply bind_ok in E as ([IMF ext] & E2 & E).
  injection E as <-. exists t, IMF, ext. auto.
Qed.

Lemma emd_n_rows fuel c cw S T k o :
  emd_n up down draw fuel c cw S T k = Ok o -> narrow_rows (length S) (imfs o).
Proof.
  intros E. apply emd_n_ok in E as (t & IMF & ext & _ & _ & E & ->).
  apply emd_loop_n_rows in E; [|constructor]. unfold emd_finish; simpl.
  destruct (ext <=? 2); auto. apply Forall_removelast; auto.
Qed.

Lemma emd_n_shape fuel c cw S T k o :
  emd_n up down draw fuel c cw S T k = Ok o ->
  shaped (length S) (out o) /\ shaped (length S) (imfs o) /\ length (residue o) = length S.
Proof.
  intros E. apply emd_n_ok in E as (t & IMF & ext & _ & _ & E & ->).
  apply emd_loop_n_rows in E; [|constructor]. apply narrow_shaped in E.
  rewrite <- (map_length up S) in *. eapply emd_finish_shape; eauto.
Qed.

Lemma emd_n_residue fuel c cw S T k o :
  emd_n up down draw fuel c cw S T k = Ok o -> residue o = vsub (map up S) (sum_rows (length S) (imfs o)).
Proof.
  intros E. apply emd_n_ok in E as (t & IMF & ext & _ & _ & _ & ->). simpl. rewrite map_length. reflexivity.
Qed.

Lemma emd_n_out fuel c cw S T k o :
  emd_n up down draw fuel c cw S T k = Ok o ->
  out o = if allclose0 (residue o) then imfs o else imfs o ++ [residue o].
Proof. intros E. apply emd_n_ok in E as (t & IMF & ext & _ & _ & _ & ->). reflexivity. Qed.

(** ** The limit max_imf *)
Lemma emd_loop_n_count fuel c cw S T k IMF ext IMF' ext' :
  (0 < k -> zlen IMF < k) ->
  emd_loop_n up down draw fuel c cw S T k IMF ext = Ok (IMF', ext') -> 0 < k -> zlen IMF' <= k.
Proof.
  revert IMF ext. induction fuel as [|fuel IH]; intros IMF ext HI E Hk; cbn [emd_loop_n] in E.
  { discriminate. }
  apply bind_ok in E as ([[imf ext1] fin] & E1 & E).
  apply bind_ok in E as (stop & E2 & E).
  assert (HL : zlen (IMF ++ [map up imf]) = zlen IMF + 1) by (rewrite zlen_app; reflexivity).
  specialize (HI Hk).
  destruct (stop || (zlen (IMF ++ [map up imf]) =? k)) eqn:D. { injection E as <- <-. lia. }
  destruct fin. { injection E as <- <-. lia. }
  apply orb_false_iff in D as [_ D]. apply (IH (IMF ++ [map up imf]) ext1); auto. lia.
Qed.

Lemma emd_n_max_imf fuel c cw S T k o :
  emd_n up down draw fuel c cw S T k = Ok o -> 0 < k -> zlen (imfs o) <= k /\ zlen (out o) <= k + 1.
Proof.
  intros E Hk. pose proof (emd_n_out _ _ _ _ _ _ _ E) as Eo.
  assert (HL : zlen (imfs o) <= k).
  { apply emd_n_ok in E as (t & IMF & ext & _ & _ & E & ->). apply emd_loop_n_count in E; auto.
    simpl. destruct (ext <=? 2); auto. unfold zlen in *. pose proof (removelast_length_le IMF). lia. }
  split; auto. rewrite Eo. destruct (allclose0 _); [lia|]. rewrite zlen_app. unfold zlen at 2; simpl. lia.
Qed.

(** ** Termination *)
Hypothesis Hdraw : forall T e, ff (draw T e).

Lemma ff_step_n c (T imf : list N) : ff (sift_step_n up down draw c T imf).
Proof.
  unfold sift_step_n, half_sum. ff_auto; auto; apply ff_find_extrema || apply ff_prepare.
Qed.
Lemma sift_n_total fuel c T n n_h ext imf :
  (Z.to_nat (MAX_ITERATION c - n) < fuel)%nat -> ff (sift_n up down draw fuel c T n n_h ext imf).
Proof.
  revert n n_h ext imf. induction fuel as [|fuel IH]; intros n n_h ext imf Hf; [lia|].
  cbn [sift_n].
  destruct (MAX_ITERATION c <=? n + 1) eqn:D; [apply ff_ok|].
  assert (Hf' : (Z.to_nat (MAX_ITERATION c - (n + 1)) < fuel)%nat) by lia.
  ff_auto; auto; apply ff_find_extrema || apply ff_step_n || apply ff_check_imf.
Qed.
Lemma emd_loop_n_total fuel c cw S T k IMF ext :
  zlen IMF < k -> (Z.to_nat (k - zlen IMF) <= fuel)%nat ->
  ff (emd_loop_n up down draw fuel c cw S T k IMF ext).
Proof.
  revert IMF ext. induction fuel as [|fuel IH]; intros IMF ext Hk Hf; [lia|].
  cbn [emd_loop_n]. apply ff_bind.
  { apply sift_n_total. unfold sift_fuel. lia. }
  intros [[imf e1] fin] _. apply ff_bind; [apply ff_end_condition|]. intros stop _.
  assert (HL : zlen (IMF ++ [map up imf]) = zlen IMF + 1) by (rewrite zlen_app; reflexivity).
  destruct (stop || (zlen (IMF ++ [map up imf]) =? k)) eqn:D; [apply ff_ok|].
  destruct fin; [apply ff_ok|]. apply IH; lia.
Qed.
Lemma emd_n_total fuel c cw S T k :
  0 < k -> (Z.to_nat k <= fuel)%nat -> ff (emd_n up down draw fuel c cw S T k).
Proof.
  intros Hk Hf. unfold emd_n. apply ff_bind; [apply ff_emd_time|]. intros t _.
  destruct (negb _); [discriminate|].
  apply ff_bind. { apply emd_loop_n_total; unfold zlen; simpl; lia. }
  intros [IMF ext] _. apply ff_ok.
Qed.
End Generic.

(** ** On double precision arrays the two models agree *)
Section Same.
Context {A : Type} `{Num A}.
Variable spl : spline_oracle A.
Variable draw : list A -> list (A * A) -> res (@arr A A).
Notation idn := (fun x : A => x).

Lemma half_sum_same n (a b : @arr A A) :
  half_sum idn idn n a b =
  bind (broadcast2 nadd (wide idn a) (wide idn b)) (fun s => assign_all n (map (nmul nhalf) s)).
Proof. destruct a, b; simpl; rewrite ?map_id; reflexivity. Qed.

Variable c : emd_config A.
Hypothesis Hd : forall T e, bind (draw T e) (fun a => Ok (wide idn a)) = spline_points spl (spline_kind c) T e.

Lemma sift_step_same T imf : sift_step_n idn idn draw c T imf = sift_step spl c T imf.
Proof.
  unfold sift_step_n, sift_step, extract_max_min_spline.
  destruct (find_extrema _ T imf) as [e|]; [|reflexivity]. cbn [bind].
  destruct (_ <? 3); [reflexivity|].
  destruct (prepare_points _ _ _ _ _) as [[eM em]|]; [|reflexivity]. cbn [bind].
  rewrite <- !Hd.
  destruct (draw T eM) as [a|]; [|reflexivity]. cbn [bind].
  destruct (draw T em) as [b|]; [|reflexivity]. cbn [bind].
  rewrite half_sum_same. destruct (broadcast2 _ _ _); reflexivity.
Qed.
Lemma sift_same fuel T n n_h ext imf :
  sift_n idn idn draw fuel c T n n_h ext imf = sift spl fuel c T n n_h ext imf.
Proof.
  revert n n_h ext imf. induction fuel as [|fuel IH]; intros n n_h ext imf; [reflexivity|].
  cbn [sift_n sift]. destruct (_ <=? n + 1); [reflexivity|].
  destruct (find_extrema _ T imf) as [e|]; [|reflexivity]. cbn [bind].
  destruct (2 <? _); [|reflexivity]. rewrite sift_step_same.
  destruct (sift_step spl c T imf) as [[[imf1 eM] em]|]; [|reflexivity]. cbn [bind].
  rewrite !IH.
  destruct (negb _). { reflexivity. }
  destruct (negb _).
  { destruct (find_extrema _ T imf1) as [e'|]; [|reflexivity]. cbn [bind]. rewrite !IH. reflexivity. }
  destruct (find_extrema _ T imf1) as [e'|]; [|reflexivity]. cbn [bind].
  destruct (check_imf _ _ _ _ _); [|reflexivity]. cbn [bind]. rewrite IH. reflexivity.
Qed.
Lemma emd_loop_same fuel S T k IMF ext :
  emd_loop_n idn idn draw fuel c c S T k IMF ext = emd_loop spl fuel c S T k IMF ext.
Proof.
  revert IMF ext. induction fuel as [|fuel IH]; intros IMF ext; [reflexivity|].
  cbn [emd_loop_n emd_loop]. rewrite !map_id, sift_same.
  destruct (sift _ _ _ _ _ _ _ _) as [[[imf e1] fin]|]; [|reflexivity]. cbn [bind]. rewrite !map_id.
  destruct (end_condition _ _ _); [|reflexivity]. cbn [bind]. rewrite IH. reflexivity.
Qed.
Lemma emd_n_same fuel S T k : emd_n idn idn draw fuel c c S T k = emd spl fuel c S T k.
Proof.
  unfold emd_n, emd. destruct (emd_time c S T) as [t|]; [|reflexivity]. cbn [bind].
  destruct (negb _); [reflexivity|]. rewrite emd_loop_same, map_id. reflexivity.
Qed.
End Same.

Lemma combine_diag {X} (l : list X) x y : In (x, y) (combine l l) -> x = y.
Proof. induction l as [|a l IH]; cbn; [tauto|]. intros [E|E]; [congruence|auto]. Qed.

(** ** Timelines the type cannot count *)
Lemma ndiff_count {N} `{Num N} n : forall s k, s <= k -> k + 1 < s + Z.of_nat n ->
  In (nsub (nofZ (k + 1)) (nofZ k)) (ndiff (map nofZ (zseq s n))).
Proof.
  induction n as [|n IH]; intros s k Hs Hk; [lia|]. destruct n as [|n]; [lia|].
  cbn [zseq map]. unfold ndiff, adj. cbn [tl map2]. destruct (Z.eq_dec s k) as [->|Hn].
  - left. reflexivity.
  - right. specialize (IH (s + 1) k ltac:(lia) ltac:(lia)). cbn [zseq map] in IH. unfold ndiff, adj in IH. cbn [tl map2] in IH. exact IH.
Qed.
Lemma emd_n_too_long {N W} `{Num N} `{Num W} up down draw fuel (c : emd_config N) (cw : emd_config W) (S : list N) T max_imf k :
  0 <= k -> k + 1 < zlen S -> is0 (nsub (nofZ (k + 1)) (nofZ k) : N) = true ->
  T = None \/ (exists t, T = Some t /\ length t = length S /\ extrema_detection c = Simple) ->
  emd_n up down draw fuel c cw S T max_imf = Raise AssertionError.
Proof.
  intros Hk Hn Hz HT. unfold emd_n.
  assert (E : emd_time c S T = normalize_time (map (nofZ : Z -> N) (zseq 0 (length S)))).
  { unfold emd_time, timeline. unfold zlen in Hn. destruct (length S) as [|n] eqn:L; [lia|].
    destruct HT as [->|(t & -> & Lt & Hd)]; cbn [bind].
    - destruct (extrema_detection c); reflexivity.
    - rewrite Lt, Nat.eqb_refl, Hd. reflexivity. }
  rewrite E. unfold normalize_time.
  assert (Hx : existsb is0 (ndiff (map (nofZ : Z -> N) (zseq 0 (length S)))) = true).
  { apply existsb_exists. eexists. split; [|exact Hz]. apply ndiff_count; unfold zlen in Hn; lia. }
  rewrite Hx. reflexivity.
Qed.
