(** * VisProofs: what the plotting helper draws. *)
From Verif Require Import PyFacts QcFacts Spec Vis VisSpec Compact CompactSpec CompactSchemes CompactExact ExtremaProofs EmdExact.
From Coq Require Import ZifyBool ZifyNat QArith Qcanon.
Open Scope Z_scope.

Notation panels := (list (panel Qc)).
Definition no_panel : panel Qc := empty_panel.

Lemma change_at_spec k f : forall (ps : panels) p', (k < length ps)%nat -> f (nth k ps no_panel) = Ok p' ->
  exists qs, change_at k f ps = Ok qs /\ length qs = length ps /\
    forall i, nth i qs no_panel = if (i =? k)%nat then p' else nth i ps no_panel.
Proof.
  induction k as [|k IH]; intros [|p ps] p' Hk E; cbn [length] in Hk; try lia; cbn [change_at].
  - cbn [nth] in E. rewrite E. cbn [bind]. exists (p' :: ps). split; auto. split; auto. intros [|i]; reflexivity.
  - cbn [nth] in E. destruct (IH ps p' ltac:(lia) E) as (qs & -> & L & N). cbn [bind]. exists (p :: qs). split; auto.
    split; [cbn; lia|]. intros [|i]; cbn [nth]; auto. rewrite N. reflexivity.
Qed.
Lemma change_spec (k : nat) f (ps : panels) p' : (k < length ps)%nat -> f (nth k ps no_panel) = Ok p' ->
  exists qs, change (Z.of_nat k) f ps = Ok qs /\ length qs = length ps /\
    forall i, nth i qs no_panel = if (i =? k)%nat then p' else nth i ps no_panel.
Proof.
  intros Hk E. unfold change. replace (Z.of_nat k <? 0) with false by lia. rewrite Nat2Z.id. replace (Z.of_nat k <? 0) with false by lia.
  apply change_at_spec; auto.
Qed.
Lemma change_last f (ps : panels) p' : (0 < length ps)%nat -> f (nth (length ps - 1) ps no_panel) = Ok p' ->
  exists qs, change (-1) f ps = Ok qs /\ length qs = length ps /\
    forall i, nth i qs no_panel = if (i =? length ps - 1)%nat then p' else nth i ps no_panel.
Proof.
  intros Hk E. unfold change. replace (-1 <? 0) with true by lia. unfold zlen.
  replace (-1 + Z.of_nat (length ps) <? 0) with false by lia.
  replace (Z.to_nat (-1 + Z.of_nat (length ps))) with (length ps - 1)%nat by lia. apply change_at_spec; auto; lia.
Qed.
Lemma ax_plot_ok (x y : list Qc) p : length x = length y ->
  ax_plot x y p = Ok (MkPanel (title p) (ylabel p) (curves p ++ [(x, y)])).
Proof. intros E. unfold ax_plot, zlen. replace (Z.of_nat (length x) =? Z.of_nat (length y)) with true by lia. reflexivity. Qed.

Lemma draw_rows_spec cap t : forall rows (num : nat) (ps : panels),
  (num + length rows <= length ps)%nat -> Forall (fun r => length t = length r) rows ->
  exists qs, draw_rows cap t (Z.of_nat num) rows ps = Ok qs /\ length qs = length ps /\
    forall i, nth i qs no_panel =
      if (num <=? i)%nat && (i <? num + length rows)%nat
      then MkPanel (title (nth i ps no_panel)) (Some (cap (Z.of_nat i + 1)))
             (curves (nth i ps no_panel) ++ [(t, nth (i - num) rows [])])
      else nth i ps no_panel.
Proof.
  induction rows as [|row rows IH]; intros num ps L F; cbn [length] in L; cbn [draw_rows].
  - exists ps. split; auto. split; auto. intros i. replace ((num <=? i)%nat && (i <? num + length (@nil (list Qc)))%nat) with false by (cbn [length]; lia). auto.
  - inversion_clear F as [|? ? Hr F'].
    destruct (change_spec num (fun p => let! p := ax_plot t row p in Ok (set_ylabel (cap (Z.of_nat num + 1)) p)) ps
      (set_ylabel (cap (Z.of_nat num + 1)) (MkPanel (title (nth num ps no_panel)) (ylabel (nth num ps no_panel)) (curves (nth num ps no_panel) ++ [(t, row)]))))
      as (qs & -> & Lq & Nq).
    { lia. } { rewrite ax_plot_ok by auto. reflexivity. }
    cbn [bind]. replace (Z.of_nat num + 1) with (Z.of_nat (Datatypes.S num)) by lia.
    destruct (IH (Datatypes.S num) qs ltac:(lia) F') as (rs & -> & Lr & Nr). exists rs. split; auto. split; [lia|].
    intros i. rewrite Nr, Nq. cbn [length]. destruct (Nat.eqb_spec i num) as [->|Ne].
    + replace ((Datatypes.S num <=? num)%nat && _) with false by lia.
      replace ((num <=? num)%nat && (num <? num + Datatypes.S (length rows))%nat) with true by lia.
      rewrite Nat.sub_diag. unfold set_ylabel. cbn. try (do 2 f_equal; lia).
    + replace ((num <=? i)%nat && (i <? num + Datatypes.S (length rows))%nat)
        with ((Datatypes.S num <=? i)%nat && (i <? Datatypes.S num + length rows)%nat) by lia.
      destruct ((Datatypes.S num <=? i)%nat && (i <? Datatypes.S num + length rows)%nat) eqn:E; auto.
      replace (i - num)%nat with (Datatypes.S (i - Datatypes.S num)) by lia. reflexivity.
Qed.

Lemma chosen_or_else {X} (g s : option X) x : chosen g s x <-> or_else g s = Some x.
Proof. unfold chosen, or_else. destruct g; split; [intros [E|[E _]]|intros E|intros [E|[_ E]]|intros E]; auto; congruence. Qed.
Lemma nth_repeat_panel k i : nth i (repeat (@empty_panel Qc) k) no_panel = no_panel.
Proof. revert i. induction k as [|k IH]; intros [|i]; cbn; auto. Qed.

Definition times (t : option (list Qc)) (n : nat) : list Qc :=
  match t with Some t => t | None => map nofZ (zrange 0 (Z.of_nat n)) end.
Lemma times_drawn t n : (forall u, t = Some u -> length u = n) -> drawn_at t n (times t n).
Proof.
  intros H. destruct t as [u|]; unfold drawn_at, times; [auto|].
  unfold zrange. rewrite map_length, zseq_length. split; [lia|]. intros i Hi.
  rewrite (nth_indep _ 0%Qc (nofZ 0)) by (rewrite map_length, zseq_length; lia).
  rewrite map_nth, zseq_nth by lia. reflexivity.
Qed.

Section Plot.
Variable v : vis Qc.
Variables (imfs : option (array2 Qc)) (residue t : option (list Qc)).

(** The panels before the residue. *)
Lemma plot_body (I : array2 Qc) (k : nat) x : (2 <= k)%nat -> (length (body I) <= k)%nat ->
  Forall (fun r => length x = length r) (body I) ->
  exists ps, (let! axs := subplots k in
    let! axs := (if Nat.eqb k 1 then list_of axs else Ok (fig_axes axs)) in
    let! axs := change 0 (fun p => Ok (set_title TimeSeries p)) axs in
    draw_rows ImfCaption x 0 (body I) axs) = Ok ps /\ length ps = k /\
    forall i, (i < k)%nat -> nth i ps no_panel =
      MkPanel (if (i =? 0)%nat then Some TimeSeries else None)
        (if (i <? length (body I))%nat then Some (ImfCaption (Z.of_nat i + 1)) else None)
        (if (i <? length (body I))%nat then [(x, nth i (body I) [])] else []).
Proof.
  intros Hk Hl F. destruct k as [|[|k]]; try lia. unfold subplots. cbn [bind]. replace (Nat.eqb _ 1) with false by auto. cbn [fig_axes bind].
  set (k' := Datatypes.S (Datatypes.S k)) in *.
  destruct (change_spec 0 (fun p => Ok (set_title TimeSeries p)) (repeat (@empty_panel Qc) k') (set_title TimeSeries no_panel)) as (qs & E & Lq & Nq).
  { rewrite repeat_length. lia. } { rewrite nth_repeat_panel. auto. }
  change (Z.of_nat 0) with 0 in E. rewrite E. cbn [bind]. rewrite repeat_length in Lq.
  destruct (draw_rows_spec ImfCaption x (body I) 0 qs ltac:(lia) F) as (ps & Ep & Lp & Np). change (Z.of_nat 0) with 0 in Ep.
  exists ps. split; auto. split; [lia|]. intros i Hi. rewrite Np, Nq, nth_repeat_panel. cbn [Nat.leb andb plus]. rewrite Nat.sub_0_r.
  destruct (i <? length (body I))%nat; destruct (i =? 0)%nat; reflexivity.
Qed.

Variable I : array2 Qc.
Hypothesis HI : chosen imfs (v_imfs v) I.
Hypothesis Hw : Forall (fun r => length r = width I) (body I).
Hypothesis Ht : forall u, t = Some u -> length u = width I.

Lemma plot_without : (2 <= length (body I))%nat ->
  exists x ps, drawn_at t (width I) x /\ plot_imfs v imfs residue t Falsy = Ok ps /\ length ps = length (body I) /\
    forall i, (i < length (body I))%nat -> nth i ps no_panel =
      MkPanel (if (i =? 0)%nat then Some TimeSeries else None) (Some (ImfCaption (Z.of_nat i + 1))) [(x, nth i (body I) [])].
Proof.
  intros H2. apply chosen_or_else in HI. assert (D := times_drawn t (width I) Ht).
  exists (times t (width I)). unfold plot_imfs, check_imfs. rewrite HI. cbn [holds bind]. fold (times t (width I)). rewrite Nat.add_0_r.
  destruct (plot_body I (length (body I)) (times t (width I))) as (ps & E & L & N); auto.
  { eapply Forall_impl; [|exact Hw]. intros r Hr. cbv beta in *. rewrite (proj1 D). auto. }
  exists ps. split; auto. split; [|split; auto].
  - destruct (subplots (length (body I))) as [a|] eqn:E1; cbn [bind] in E |- *; [|discriminate E].
    destruct (if Nat.eqb (length (body I)) 1 then list_of a else Ok (fig_axes a)) as [b|] eqn:E2; cbn [bind] in E |- *; [|discriminate E].
    destruct (change 0 _ b) as [c|]; cbn [bind] in E |- *; [|discriminate E]. rewrite E. reflexivity.
  - intros i Hi. rewrite N by auto. replace (i <? length (body I))%nat with true by lia. reflexivity.
Qed.

Lemma plot_with R : chosen residue (v_residue v) R -> length R = width I -> (1 <= length (body I))%nat ->
  exists x ps, drawn_at t (width I) x /\ plot_imfs v imfs residue t IsTrue = Ok ps /\ length ps = Datatypes.S (length (body I)) /\
    (forall i, (i < length (body I))%nat -> nth i ps no_panel =
      MkPanel (if (i =? 0)%nat then Some TimeSeries else None) (Some (ImfCaption (Z.of_nat i + 1))) [(x, nth i (body I) [])]) /\
    nth (length (body I)) ps no_panel = MkPanel None (Some ResCaption) [(x, R)].
Proof.
  intros HR HL H1. apply chosen_or_else in HI, HR. assert (D := times_drawn t (width I) Ht).
  exists (times t (width I)). unfold plot_imfs, check_imfs. rewrite HI, HR. cbn [holds bind]. fold (times t (width I)).
  set (k := (length (body I) + 1)%nat).
  destruct (plot_body I k (times t (width I))) as (ps & E & L & N); try lia.
  { eapply Forall_impl; [|exact Hw]. intros r Hr. cbv beta in *. rewrite (proj1 D). auto. }
  destruct (change_last (fun p => let! p := ax_plot (times t (width I)) R p in Ok (set_ylabel ResCaption p)) ps
    (MkPanel None (Some ResCaption) [(times t (width I), R)])) as (qs & Eq & Lq & Nq).
  { lia. }
  { rewrite N by lia. rewrite L. replace (k - 1 <? length (body I))%nat with false by lia. replace (k - 1 =? 0)%nat with false by lia.
    rewrite ax_plot_ok by (rewrite (proj1 D); auto). reflexivity. }
  exists qs. split; auto. split; [|split; [lia|split]].
  - destruct (subplots k) as [a|] eqn:E1; cbn [bind] in E |- *; [|discriminate E].
    destruct (if Nat.eqb k 1 then list_of a else Ok (fig_axes a)) as [b|] eqn:E2; cbn [bind] in E |- *; [|discriminate E].
    destruct (change 0 _ b) as [c|]; cbn [bind] in E |- *; [|discriminate E]. rewrite E. cbn [bind]. exact Eq.
  - intros i Hi. rewrite Nq, L. replace (i =? k - 1)%nat with false by lia. rewrite N by lia.
    replace (i <? length (body I))%nat with true by lia. reflexivity.
  - rewrite Nq, L. replace (length (body I) =? k - 1)%nat with true by lia. reflexivity.
Qed.

(** A true value other than [True]: the residue lands in the panel of the last imf. *)
Lemma plot_truthy R : chosen residue (v_residue v) R -> length R = width I -> (2 <= length (body I))%nat ->
  exists x ps, drawn_at t (width I) x /\ plot_imfs v imfs residue t Truthy = Ok ps /\ length ps = length (body I) /\
    nth (length (body I) - 1) ps no_panel =
      MkPanel None (Some ResCaption) [(x, nth (length (body I) - 1) (body I) []); (x, R)].
Proof.
  intros HR HL H1. apply chosen_or_else in HI, HR. assert (D := times_drawn t (width I) Ht).
  exists (times t (width I)). unfold plot_imfs, check_imfs. rewrite HI, HR. cbn [holds bind]. fold (times t (width I)).
  rewrite Nat.add_0_r. set (k := length (body I)) in *.
  destruct (plot_body I k (times t (width I))) as (ps & E & L & N); try lia.
  { eapply Forall_impl; [|exact Hw]. intros r Hr. cbv beta in *. rewrite (proj1 D). auto. }
  fold k in N.
  destruct (change_last (fun p => let! p := ax_plot (times t (width I)) R p in Ok (set_ylabel ResCaption p)) ps
    (MkPanel None (Some ResCaption) [(times t (width I), nth (k - 1) (body I) []); (times t (width I), R)])) as (qs & Eq & Lq & Nq).
  { lia. }
  { rewrite N by lia. rewrite L. replace (k - 1 <? k)%nat with true by lia. replace (k - 1 =? 0)%nat with false by lia.
    rewrite ax_plot_ok by (rewrite (proj1 D); auto). reflexivity. }
  exists qs. split; auto. split; [|split; [lia|]].
  - destruct (subplots k) as [a|] eqn:E1; cbn [bind] in E |- *; [|discriminate E].
    destruct (if Nat.eqb k 1 then list_of a else Ok (fig_axes a)) as [b|] eqn:E2; cbn [bind] in E |- *; [|discriminate E].
    destruct (change 0 _ b) as [c|]; cbn [bind] in E |- *; [|discriminate E]. rewrite E. cbn [bind]. exact Eq.
  - rewrite Nq, L. replace (k - 1 =? k - 1)%nat with true by lia. reflexivity.
Qed.

(** One panel in all. *)
Lemma plot_one include : (holds include = true -> exists R, chosen residue (v_residue v) R) ->
  (length (body I) + match include with IsTrue => 1 | _ => 0 end = 1)%nat ->
  plot_imfs v imfs residue t include = Raise TypeError.
Proof.
  intros HR H1. apply chosen_or_else in HI. unfold plot_imfs, check_imfs. rewrite HI.
  destruct (holds include) eqn:Eh.
  - destruct (HR eq_refl) as [R CR]. apply chosen_or_else in CR. rewrite CR. cbn [bind]. rewrite H1. reflexivity.
  - cbn [bind]. rewrite H1. reflexivity.
Qed.
End Plot.

Lemma bind_ae {X Y} (r : res X) (f : X -> res Y) : (let! x := r in f x) = Raise AttributeError ->
  r = Raise AttributeError \/ exists x, r = Ok x /\ f x = Raise AttributeError.
Proof. destruct r as [x|e]; cbn [bind]; [eauto|intros [= ->]; auto]. Qed.
Lemma change_at_ae k f : (forall p, f p <> Raise AttributeError) -> forall ps : panels, change_at k f ps <> Raise AttributeError.
Proof.
  intros Hf. induction k as [|k IH]; intros [|p ps]; cbn [change_at]; try discriminate.
  - intros E. apply bind_ae in E. destruct E as [E|(x & _ & E)]; [exact (Hf _ E)|discriminate].
  - intros E. apply bind_ae in E. destruct E as [E|(x & _ & E)]; [exact (IH _ E)|discriminate].
Qed.
Lemma change_ae i f (ps : panels) : (forall p, f p <> Raise AttributeError) -> change i f ps <> Raise AttributeError.
Proof. intros Hf. unfold change. cbv zeta. destruct (_ <? 0); [discriminate|]. apply change_at_ae; auto. Qed.
Lemma draw_label_ae (x y : list Qc) c p : (let! p := ax_plot x y p in Ok (set_ylabel c p)) <> Raise AttributeError.
Proof. unfold ax_plot. destruct (_ =? _); discriminate. Qed.
Lemma draw_rows_ae cap t rows : forall num (ps : panels), draw_rows cap t num rows ps <> Raise AttributeError.
Proof.
  induction rows as [|r rows IH]; intros num ps; cbn [draw_rows]; [discriminate|]. intros E. apply bind_ae in E.
  destruct E as [E|(x & _ & E)]; [|exact (IH _ _ E)]. revert E. apply change_ae. intros p. apply draw_label_ae.
Qed.

Lemma plot_missing (v : vis Qc) imfs residue t include :
  plot_imfs v imfs residue t include = Raise AttributeError <->
  (imfs = None /\ v_imfs v = None) \/ (include <> Falsy /\ residue = None /\ v_residue v = None).
Proof.
  unfold plot_imfs, check_imfs. split.
  - destruct (or_else imfs (v_imfs v)) as [I|] eqn:EI; [|intros _; left; destruct imfs; [discriminate|auto]].
    intros E. right.
    assert (NF : forall r, (let! axs := subplots (length (body I) + match include with IsTrue => 1 | _ => 0 end) in
       let! axs := (if Nat.eqb (length (body I) + match include with IsTrue => 1 | _ => 0 end) 1 then list_of axs else Ok (fig_axes axs)) in
       let! axs := change 0 (fun p => Ok (set_title TimeSeries p)) axs in
       let! axs := draw_rows ImfCaption (times t (width I)) 0 (body I) axs in
       if holds include then match r with Some r => change (-1) (fun p => let! p := ax_plot (times t (width I)) r p in Ok (set_ylabel ResCaption p)) axs
         | None => Raise AttributeError end else Ok axs) = Raise AttributeError -> holds include = true /\ r = None).
    { intros r Q. apply bind_ae in Q. destruct Q as [Q|(a & _ & Q)].
      { unfold subplots in Q. destruct (_ + _)%nat as [|[|]]; discriminate. }
      apply bind_ae in Q. destruct Q as [Q|(b & _ & Q)].
      { destruct (Nat.eqb _ 1); [destruct a|]; discriminate. }
      apply bind_ae in Q. destruct Q as [Q|(c & _ & Q)]; [apply change_ae in Q; [tauto|discriminate]|].
      apply bind_ae in Q. destruct Q as [Q|(d & _ & Q)]; [apply draw_rows_ae in Q; tauto|].
      destruct (holds include); [|discriminate]. destruct r; auto. apply change_ae in Q; [tauto|]. intros p. apply draw_label_ae. }
    destruct (holds include) eqn:Eh.
    + destruct (or_else residue (v_residue v)) as [R|] eqn:ER.
      * cbn [bind] in E. apply (NF (Some R)) in E. destruct E; discriminate.
      * split; [intros ->; discriminate|]. destruct residue; [discriminate|auto].
    + cbn [bind] in E. destruct (NF None E). congruence.
  - intros [[-> ->]|(NF & -> & ->)]; [reflexivity|]. destruct (or_else imfs (v_imfs v)); [|reflexivity].
    destruct include; [reflexivity|reflexivity|congruence].
Qed.

(** ** Instantaneous frequency *)
Section Frequency.
Variable hilbert : list Qc -> list Qc * list Qc.
Variable angle : Qc -> Qc -> Qc.
Variable unwrap : list Qc -> list Qc.
Variable pi : Qc.
Hypothesis Hpi : pi <> 0%Qc.
Notation two_pi := (Q2Qc 2 * pi)%Qc.

Lemma alpha_ok_iff (a : Qc) : alpha_ok a = true <-> (- Q2Qc (1 # 2) < a /\ a < Q2Qc (1 # 2))%Qc.
Proof.
  unfold alpha_ok. rewrite andb_true_iff. change nltb with Qc_ltb. rewrite !Qc_ltb_lt.
  replace (nlit (-1) 2) with (- Q2Qc (1 # 2))%Qc by (apply Qc_is_canon; reflexivity). tauto.
Qed.
Lemma two_pi_nz : two_pi <> 0%Qc.
Proof. intros E. apply Hpi. assert (Q : (Q2Qc (1 # 2) * (Q2Qc 2 * pi) = 0)%Qc) by (rewrite E; ring).
  rewrite <- Q. rewrite Qcmult_assoc. replace (Q2Qc (1 # 2) * Q2Qc 2)%Qc with 1%Qc by (apply Qc_is_canon; reflexivity). ring. Qed.

Lemma low_order t p t0 t1 : nth_error t 0 = Some t0 -> nth_error t 1 = Some t1 -> (t1 - t0 <> 0)%Qc -> (2 <= length p)%nat ->
  exists f, inst_freq pi t false None p = Ok f /\ turns two_pi (t1 - t0) p f.
Proof.
  intros E0 E1 Hd Hp. unfold inst_freq.
  destruct t as [|a [|b t]]; try discriminate. cbn in E0, E1. injection E0 as ->. injection E1 as ->.
  change (py_get (t0 :: t1 :: t) 1) with (py_get ([t0; t1] ++ t) 1).
  rewrite (py_get_nonneg ([t0; t1] ++ t) 1 0%Qc) by (unfold zlen; rewrite app_length; cbn [length]; lia).
  rewrite (py_get_nonneg (t0 :: t1 :: t) 0 0%Qc) by (unfold zlen; cbn [length]; lia). cbn [bind].
  change (nth (Z.to_nat 1) ([t0; t1] ++ t) 0%Qc) with t1. change (nth (Z.to_nat 0) (t0 :: t1 :: t) 0%Qc) with t0.
  change (@nsub Qc QcNum t1 t0) with (t1 - t0)%Qc. set (dt := (t1 - t0)%Qc) in *.
  set (g := fun x : Qc => ndiv x (nmul (nmul n2 pi) dt)). set (f := map g (ndiff p)).
  assert (Lf : length f = (length p - 1)%nat). { unfold f. rewrite map_length. unfold ndiff, adj. rewrite map2_length. destruct p; cbn [tl length]; lia. }
  assert (Nf : forall i, (Datatypes.S i < length p)%nat -> (nth i f 0 * (two_pi * dt) = nth (Datatypes.S i) p 0 - nth i p 0)%Qc).
  { intros i Hi. assert (Li : (i < length (ndiff p))%nat) by (unfold f in Lf; rewrite map_length in Lf; lia).
    unfold f. rewrite (nth_indep _ 0%Qc (g 0%Qc)) by (rewrite map_length; auto). rewrite map_nth.
    unfold ndiff, adj. rewrite (nth_map2 _ _ _ _ 0%Qc 0%Qc 0%Qc) by (auto; destruct p; cbn [tl length] in *; lia).
    replace (nth i (tl p) 0%Qc) with (nth (Datatypes.S i) p 0%Qc) by (destruct p; [destruct i|]; reflexivity).
    unfold g. change (@n2 Qc QcNum) with (Q2Qc 2). change (@ndiv Qc QcNum) with Qcdiv. change (@nmul Qc QcNum) with Qcmult. change (@nsub Qc QcNum) with Qcminus.
    field. repeat split; auto; discriminate. }
  assert (NE : f <> []) by (intros E; rewrite E in Lf; cbn in Lf; lia).
  destruct (exists_last NE) as (f' & z & Ef). rewrite Ef, py_get_last. cbn [bind maybe_filter].
  exists (f ++ [z]). rewrite <- Ef. split; auto. split; [rewrite app_length; cbn; lia|]. split.
  - intros i Hi. rewrite app_nth1 by lia. apply Nf; auto.
  - rewrite (app_nth2 f [z]) by lia. rewrite (app_nth1 f [z]) by lia. replace (length p - 1 - length f)%nat with 0%nat by lia.
    rewrite Ef. rewrite Ef, app_length in Lf. cbn [length] in Lf. rewrite app_nth2 by lia. replace (length p - 2 - length f')%nat with 0%nat by lia. reflexivity.
Qed.

(** A phase that rotates evenly has its frequency drawn, by either scheme, filtered or not. *)
Definition long_enough (high : bool) (alpha : option Qc) (n : nat) : Prop :=
  (2 <= n)%nat /\ (high = true -> (7 <= n)%nat) /\ (alpha <> None -> (5 <= n)%nat).
Definition alpha_in (alpha : option Qc) : Prop :=
  forall a, alpha = Some a -> (- Q2Qc (1 # 2) < a /\ a < Q2Qc (1 # 2))%Qc.

Lemma constant_sampled (f h t0 : Qc) n : repeat f n = sampled [f] t0 h n.
Proof.
  unfold sampled. transitivity (map (fun _ : nat => f) (seq 0 n)).
  - generalize 0%nat. induction n as [|n IH]; intros s; cbn; auto. rewrite (IH (Datatypes.S s)). reflexivity.
  - apply map_ext. intros i. unfold peval. cbn [fold_right]. ring.
Qed.
Lemma nth_mapseq {Y} (F : nat -> Y) d : forall n s i, (i < n)%nat -> nth i (map F (seq s n)) d = F (s + i)%nat.
Proof.
  induction n as [|n IH]; intros s [|i] Hi; try lia; cbn [seq map nth]; [rewrite Nat.add_0_r; auto|].
  rewrite IH by lia. f_equal. lia.
Qed.
Lemma rotating_sampled p0 f t p dt : rotating two_pi p0 f t p -> evenly t dt ->
  p = sampled [p0; (two_pi * f)%Qc] (nth 0 t 0%Qc) dt (length t).
Proof.
  intros [L R] Ev. apply (nth_ext _ _ 0%Qc 0%Qc); [rewrite sampled_length; auto|].
  intros i Hi. rewrite L in Hi. rewrite R, Ev by auto. unfold sampled. rewrite nth_mapseq by auto.
  unfold peval. cbn [fold_right plus]. ring.
Qed.
Lemma maybe_constant alpha f n : (alpha <> None -> (5 <= n)%nat) -> alpha_in alpha ->
  maybe_filter alpha (repeat f n) = Ok (repeat f n).
Proof.
  intros H5 Ha. destruct alpha as [a|]; auto. cbn [maybe_filter]. rewrite (constant_sampled f 0%Qc 0%Qc).
  apply filt6_cubic; [cbn; lia|apply H5; discriminate|exact (Ha a eq_refl)].
Qed.
Lemma even_first t dt : (2 <= length t)%nat -> evenly t dt ->
  exists t0 t1, nth_error t 0 = Some t0 /\ nth_error t 1 = Some t1 /\ (t1 - t0 = dt)%Qc /\ py_get t 0 = Ok t0 /\ py_get t 1 = Ok t1.
Proof.
  intros H2 Ev. destruct t as [|a [|b t]]; cbn [length] in H2; try lia. exists a, b. split; auto. split; auto.
  assert (E := Ev 1%nat ltac:(cbn [length]; lia)). cbn [nth] in E. split.
  - rewrite E. change (Q2Qc (inject_Z (Z.of_nat 1))) with 1%Qc. ring.
  - split; [rewrite (py_get_nonneg _ 0 0%Qc)|rewrite (py_get_nonneg _ 1 0%Qc)]; auto; unfold zlen; cbn [length]; lia.
Qed.
Lemma inst_freq_rotating t dt high alpha p0 f p : evenly t dt -> dt <> 0%Qc -> long_enough high alpha (length t) -> alpha_in alpha ->
  rotating two_pi p0 f t p -> inst_freq pi t high alpha p = Ok (repeat f (length t)).
Proof.
  intros Ev Hd (H2 & H7 & H5) Ha Ro. destruct (even_first t dt H2 Ev) as (t0 & t1 & E0 & E1 & Ed & G0 & G1).
  assert (Lp : length p = length t) by apply Ro.
  destruct high.
  - unfold inst_freq. rewrite G0, G1. cbn [bind]. change (@nsub Qc QcNum t1 t0) with (t1 - t0)%Qc. rewrite Ed.
    rewrite (rotating_sampled p0 f t p dt Ro Ev). rewrite pade6_exact by (auto; cbn; lia). cbn [bind].
    replace (map (fun x : Qc => ndiv x (nmul (nlit 2 1) pi)) (sampled (pderiv [p0; (two_pi * f)%Qc]) (nth 0 t 0%Qc) dt (length t)))
      with (repeat f (length t)); [apply maybe_constant; auto|].
    unfold sampled. rewrite map_map. rewrite (constant_sampled f dt (nth 0 t 0%Qc)). unfold sampled. apply map_ext. intros i.
    change (@ndiv Qc QcNum) with Qcdiv. change (@nmul Qc QcNum) with Qcmult. change (@nlit Qc QcNum 2 1) with (Q2Qc 2).
    unfold peval, pderiv. cbn [tl pderiv_from fold_right]. field. split; auto; discriminate.
  - destruct (low_order t p t0 t1 E0 E1) as (g & Eg & Lg & Tg & Lastg); [rewrite Ed; auto|lia|].
    assert (Gr : g = repeat f (length t)).
    { assert (K : forall i, (Datatypes.S i < length p)%nat -> nth i g 0%Qc = f).
      { intros i Hi. specialize (Tg i Hi). destruct Ro as [_ Ro]. rewrite (Ro (Datatypes.S i)), (Ro i), (Ev (Datatypes.S i)), (Ev i) in Tg by lia.
        rewrite Ed in Tg.
        assert (Ez : Q2Qc (inject_Z (Z.of_nat (Datatypes.S i))) = (Q2Qc (inject_Z (Z.of_nat i)) + 1)%Qc).
        { rewrite Nat2Z.inj_succ. apply (Qc_ofZ_add (Z.of_nat i) 1). }
        rewrite Ez in Tg.
        assert (Tg' : (nth i g 0 * (two_pi * dt) = f * (two_pi * dt))%Qc) by (rewrite Tg; ring).
        assert (NZ : (two_pi * dt)%Qc <> 0%Qc) by (intros Q; apply Qcmult_integral in Q; destruct Q; [apply two_pi_nz|]; auto).
        apply (f_equal (fun x => x / (two_pi * dt))%Qc) in Tg'. rewrite !Qcdiv_mult_l in Tg' by auto. exact Tg'. }
      apply (nth_ext _ _ 0%Qc 0%Qc); [rewrite repeat_length; lia|]. intros i Hi.
      rewrite (nth_indep (repeat f (length t)) 0%Qc f) by (rewrite repeat_length; lia). rewrite nth_repeat.
      destruct (Nat.eq_dec i (length p - 1)) as [->|]; [rewrite Lastg; apply K; lia|apply K; lia]. }
    subst g. unfold inst_freq in *. rewrite G0, G1 in *. cbn [bind maybe_filter] in Eg |- *.
    destruct (py_get (map _ (ndiff p)) (-1)) as [z|] eqn:EZ; cbn [bind] in Eg |- *; [|discriminate Eg].
    apply (f_equal (fun r => match r with Ok x => x | _ => [] end)) in Eg. cbv beta iota in Eg. etransitivity; [apply f_equal; exact Eg|apply maybe_constant; auto].
Qed.

Hypothesis Hh : forall row, length (fst (hilbert row)) = length row /\ length (snd (hilbert row)) = length row.

Lemma smoothed_filter alpha x y : (alpha <> None -> (5 <= length x)%nat) -> alpha_in alpha ->
  smoothed filtered alpha x y -> maybe_filter alpha x = Ok y /\ length y = length x.
Proof.
  intros H5 Ha. destruct alpha as [a|]; cbn [smoothed maybe_filter]; [|intros ->; auto].
  intros F. split; [apply filt6_iff; [apply H5; discriminate|exact (Ha a eq_refl)|auto]|apply F].
Qed.
Lemma inst_phase_rotating t dt high alpha p0 f row p : evenly t dt -> long_enough high alpha (length t) -> alpha_in alpha ->
  length row = length t -> measured filtered hilbert angle unwrap alpha row p -> rotating two_pi p0 f t p ->
  inst_phase hilbert angle unwrap alpha row = Ok p.
Proof.
  intros Ev (H2 & H7 & H5) Ha Hr (re & im & an & S1 & S2 & La & Na & Ep) Ro. unfold inst_phase.
  destruct (Hh row) as [L1 L2]. destruct (hilbert row) as [r0 i0]. cbn [fst snd] in *.
  apply smoothed_filter in S1; auto; [|rewrite L1, Hr; auto]. apply smoothed_filter in S2; auto; [|rewrite L2, Hr; auto].
  destruct S1 as [-> K1], S2 as [-> K2]. cbn [bind].
  replace (map2 angle re im) with an.
  2:{ apply (nth_ext _ _ 0%Qc 0%Qc); [rewrite map2_length; lia|]. intros i Hi. rewrite Na by lia. symmetry. apply nth_map2; lia. }
  rewrite <- Ep. destruct alpha as [a|]; [|reflexivity]. cbn [maybe_filter].
  rewrite (rotating_sampled p0 f t p dt Ro Ev). apply filt6_cubic; [cbn; lia|apply H5; discriminate|exact (Ha a eq_refl)].
Qed.

Lemma mapM_nth {X Y} (F : X -> res Y) dx dy : forall l r, length l = length r ->
  (forall i, (i < length l)%nat -> F (nth i l dx) = Ok (nth i r dy)) -> mapM F l = Ok r.
Proof.
  induction l as [|x l IH]; intros [|y r] L H; try discriminate; auto. cbn [mapM].
  pose proof (H 0%nat ltac:(cbn; lia)) as H0. cbn [nth] in H0. rewrite H0. cbn [bind]. rewrite (IH r); auto. intros i Hi. apply (H (Datatypes.S i)). cbn; lia.
Qed.

(** The panels of a plot of frequencies. *)
Lemma freq_panels t (freqs : list (list Qc)) : (1 <= length freqs)%nat -> Forall (fun r => length t = length r) freqs ->
  exists ps : panels, (let! axs := subplots (length freqs) in
    let axs := fig_axes axs in
    let! axs := change 0 (fun p => Ok (set_title InstantFrequency p)) axs in
    draw_rows HzCaption t 0 freqs axs) = Ok ps /\ length ps = length freqs /\
  forall i, (i < length freqs)%nat -> nth i ps no_panel =
    MkPanel (if (i =? 0)%nat then Some InstantFrequency else None) (Some (HzCaption (Z.of_nat i + 1))) [(t, nth i freqs [])].
Proof.
  intros H1 F.
  assert (S : exists a, @subplots Qc (length freqs) = Ok a /\ fig_axes a = repeat empty_panel (length freqs)).
  { destruct (length freqs) as [|[|k]]; [lia| |]; eexists; split; reflexivity. }
  destruct S as (a & -> & Ea). cbn [bind]. rewrite Ea.
  destruct (change_spec 0 (fun p => Ok (set_title InstantFrequency p)) (repeat (@empty_panel Qc) (length freqs)) (set_title InstantFrequency no_panel)) as (qs & E & Lq & Nq).
  { rewrite repeat_length. lia. } { rewrite nth_repeat_panel. auto. }
  change (Z.of_nat 0) with 0 in E. rewrite E. cbn [bind]. rewrite repeat_length in Lq.
  destruct (draw_rows_spec HzCaption t freqs 0 qs ltac:(lia) F) as (ps & Ep & Lp & Np). change (Z.of_nat 0) with 0 in Ep.
  exists ps. split; auto. split; [lia|]. intros i Hi. rewrite Np, Nq, nth_repeat_panel. cbn [Nat.leb andb plus]. rewrite Nat.sub_0_r.
  replace (i <? length freqs)%nat with true by lia. destruct (i =? 0)%nat; reflexivity.
Qed.

Lemma plot_rotating v t dt imfs I high alpha p0s fs phases : chosen imfs (v_imfs v) I ->
  evenly t dt -> dt <> 0%Qc -> long_enough high alpha (length t) -> alpha_in alpha ->
  (1 <= length (body I))%nat -> length fs = length (body I) ->
  (forall i, (i < length (body I))%nat -> length (nth i (body I) []) = length t /\
     measured filtered hilbert angle unwrap alpha (nth i (body I) []) (nth i phases []) /\
     rotating two_pi (nth i p0s 0%Qc) (nth i fs 0%Qc) t (nth i phases [])) ->
  exists ps, plot_instant_freq hilbert angle unwrap pi v t imfs high alpha = Ok ps /\ length ps = length (body I) /\
    forall i, (i < length (body I))%nat -> nth i ps no_panel =
      MkPanel (if (i =? 0)%nat then Some InstantFrequency else None) (Some (HzCaption (Z.of_nat i + 1)))
        [(t, repeat (nth i fs 0%Qc) (length t))].
Proof.
  intros HI Ev Hd HL Ha H1 Lf Hr. apply chosen_or_else in HI.
  set (freqs := map (fun f => repeat f (length t)) fs).
  assert (Lq : length freqs = length (body I)) by (unfold freqs; rewrite map_length; auto).
  assert (Nq : forall i, (i < length (body I))%nat -> nth i freqs [] = repeat (nth i fs 0%Qc) (length t)).
  { intros i Hi. unfold freqs. rewrite (nth_indep _ [] (repeat 0%Qc (length t))) by (rewrite map_length; lia).
    apply (map_nth (fun f => repeat f (length t))). }
  destruct (freq_panels t freqs ltac:(lia)) as (ps & Ep & Lp & Np).
  { apply Forall_forall. intros r I'. unfold freqs in I'. apply in_map_iff in I'. destruct I' as (f & <- & _). rewrite repeat_length. auto. }
  assert (AO : match alpha with Some a => negb (alpha_ok a) | None => false end = false).
  { destruct alpha as [a|]; auto. apply negb_false_iff, alpha_ok_iff, Ha. auto. }
  assert (P : calc_inst_phase hilbert angle unwrap (body I) alpha = Ok (map (fun i => nth i phases []) (seq 0 (length (body I))))).
  { assert (M : mapM (inst_phase hilbert angle unwrap alpha) (body I) = Ok (map (fun i => nth i phases []) (seq 0 (length (body I))))).
    { apply (mapM_nth _ [] []); [rewrite map_length, seq_length; auto|]. intros i Hi. destruct (Hr i Hi) as (Lr & M & R).
      rewrite nth_mapseq by auto. cbn [plus].
      eapply inst_phase_rotating; eauto. }
    unfold calc_inst_phase. destruct alpha as [a|]; auto. apply negb_false_iff in AO. rewrite AO. auto. }
  assert (C : calc_inst_freq hilbert angle unwrap pi (body I) t high alpha = Ok freqs).
  { unfold calc_inst_freq. rewrite P. cbn [bind]. apply (mapM_nth _ [] []); [rewrite map_length, seq_length; auto|].
    rewrite map_length, seq_length. intros i Hi. destruct (Hr i Hi) as (Lr & M & R).
    rewrite nth_mapseq by auto. cbn [plus]. rewrite Nq by auto.
    eapply inst_freq_rotating; eauto. }
  unfold plot_instant_freq. rewrite AO. unfold check_imfs. rewrite HI. cbn [holds bind]. rewrite C. cbn [bind]. rewrite <- Lq.
  exists ps. split; [exact Ep|]. split; [lia|]. intros i Hi. rewrite Np, Nq by lia. reflexivity.
Qed.

(** Unfiltered, first order: the phase advance of every step. *)
Lemma plot_steps v t t0 t1 imfs I phases : chosen imfs (v_imfs v) I ->
  nth_error t 0 = Some t0 -> nth_error t 1 = Some t1 -> (t1 <> t0)%Qc -> (1 <= length (body I))%nat ->
  (forall i, (i < length (body I))%nat -> length (nth i (body I) []) = length t /\ length (nth i phases []) = length t /\
     measured filtered hilbert angle unwrap None (nth i (body I) []) (nth i phases [])) ->
  exists ps, plot_instant_freq hilbert angle unwrap pi v t imfs false None = Ok ps /\ length ps = length (body I) /\
    forall i, (i < length (body I))%nat -> exists f, turns two_pi (t1 - t0)%Qc (nth i phases []) f /\
      nth i ps no_panel = MkPanel (if (i =? 0)%nat then Some InstantFrequency else None) (Some (HzCaption (Z.of_nat i + 1))) [(t, f)].
Proof.
  intros HI E0 E1 Hd H1 Hr. apply chosen_or_else in HI.
  assert (L2 : (2 <= length t)%nat) by (destruct t as [|a [|b t]]; try discriminate; cbn; lia).
  assert (P : mapM (inst_phase hilbert angle unwrap None) (body I) = Ok (map (fun i => nth i phases []) (seq 0 (length (body I))))).
  { apply (mapM_nth _ [] []); [rewrite map_length, seq_length; auto|]. intros i Hi. destruct (Hr i Hi) as (Lr & Lp & (re & im & an & S1 & S2 & La & Na & Ep)).
    rewrite nth_mapseq by auto. cbn [plus].
    cbn [smoothed] in S1, S2. unfold inst_phase. destruct (Hh (nth i (body I) [])) as [L1 L3]. destruct (hilbert (nth i (body I) [])) as [r0 i0].
    cbn [fst snd maybe_filter bind] in *. subst re im. rewrite Ep. do 2 f_equal.
    apply (nth_ext _ _ 0%Qc 0%Qc); [rewrite map2_length; lia|]. intros j Hj. rewrite map2_length in Hj. rewrite Na by lia. apply nth_map2; lia. }
  assert (F : exists freqs, mapM (inst_freq pi t false None) (map (fun i => nth i phases []) (seq 0 (length (body I)))) = Ok freqs /\
    length freqs = length (body I) /\ forall i, (i < length (body I))%nat -> turns two_pi (t1 - t0)%Qc (nth i phases []) (nth i freqs [])).
  { assert (G : forall k s, (s + k <= length (body I))%nat -> exists freqs, mapM (inst_freq pi t false None) (map (fun i => nth i phases []) (seq s k)) = Ok freqs /\
      length freqs = k /\ forall i, (i < k)%nat -> turns two_pi (t1 - t0)%Qc (nth (s + i) phases []) (nth i freqs [])).
    { induction k as [|k IHk]; intros s Hs; [exists []; split; auto; split; auto; lia|].
      destruct (Hr s ltac:(lia)) as (Lr & Lp & _).
      destruct (low_order t (nth s phases []) t0 t1 E0 E1) as (g & Eg & Tg); [intros Q; apply Hd|lia|].
      { apply (f_equal (fun x => x + t0)%Qc) in Q. transitivity (t1 - t0 + t0)%Qc; [ring|]. rewrite Q. ring. }
      destruct (IHk (Datatypes.S s) ltac:(lia)) as (fr & Ef & Lfr & Nfr).
      exists (g :: fr). cbn [seq map mapM]. rewrite Eg. cbn [bind]. rewrite Ef. cbn [bind]. split; auto. split; [cbn; lia|].
      intros [|i] Hi; [rewrite Nat.add_0_r; auto|]. cbn [nth]. rewrite <- Nat.add_succ_comm. apply Nfr. lia. }
    destruct (G (length (body I)) 0%nat ltac:(lia)) as (fr & A & B & C). exists fr. auto. }
  destruct F as (freqs & Ef & Lf & Tf).
  destruct (freq_panels t freqs ltac:(lia)) as (ps & Ep & Lp & Np).
  { apply Forall_forall. intros r Ir. destruct (In_nth _ _ [] Ir) as (i & Hi & <-). destruct (Tf i ltac:(lia)) as [L _]. rewrite L.
    destruct (Hr i ltac:(lia)) as (_ & Q & _). auto. }
  unfold plot_instant_freq, check_imfs. rewrite HI. cbn [holds bind].
  unfold calc_inst_freq, calc_inst_phase. rewrite P. cbn [bind]. rewrite Ef. cbn [bind]. rewrite <- Lf.
  exists ps. split; [exact Ep|]. split; [lia|]. intros i Hi. exists (nth i freqs []). split; [apply Tf; lia|]. apply Np; auto.
Qed.

Lemma plot_alpha v t imfs high a : ~ (- Q2Qc (1 # 2) < a /\ a < Q2Qc (1 # 2))%Qc ->
  plot_instant_freq hilbert angle unwrap pi v t imfs high (Some a) = Raise AssertionError.
Proof.
  intros N. unfold plot_instant_freq. destruct (alpha_ok a) eqn:E; [apply alpha_ok_iff in E; tauto|reflexivity].
Qed.
End Frequency.
