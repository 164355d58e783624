(** * KindsOnly: the cubic spline is the only smooth curve through its knots (exact arithmetic). *)
From Verif Require Import PyFacts QcFacts Emd Spec Demo EmdProofs EmdSimple ReverseLin RevSpec SymSpec Compact CompactSpec CompactProofs.
From Verif Require Import Runs EmdSym Kinds KindsSpec KindsProofs KindsRules KindsCubic.
From Coq Require Import ZifyBool ZifyNat QArith Qcanon Lia.
Open Scope Z_scope.

Lemma pieces_cons P Q ks : pieces (P :: Q :: ks) = piece2 P Q :: pieces (Q :: ks).
Proof. destruct P as [[x0 y0] d0], Q as [[x1 y1] d1]. reflexivity. Qed.
Lemma pieces_one P : pieces [P] = [].
Proof. destruct P as [[x0 y0] d0]. reflexivity. Qed.
Lemma pieces_end ks P Q : pieces (ks ++ [P; Q]) = pieces (ks ++ [P]) ++ [piece2 P Q].
Proof.
  induction ks as [|X ks IH]; [cbn [app]; rewrite pieces_cons, !pieces_one; reflexivity|].
  destruct ks as [|Y ks]; [cbn [app]; rewrite !pieces_cons, !pieces_one; reflexivity|].
  cbn [app] in *. rewrite !pieces_cons, IH. reflexivity.
Qed.
Lemma pieces_bend ks : increasing (map fst (map fst ks)) -> (Forall eq3 (triples ks) <-> joined bend (map fst ks) (pieces ks)).
Proof.
  induction ks as [|P ks IH]; intros HI; [cbn; split; auto|].
  destruct ks as [|Q [|R ks]]; [rewrite pieces_one; cbn; split; auto|rewrite pieces_cons, pieces_one; cbn; split; auto|].
  specialize (IH (increasing_tl _ _ HI)). rewrite triples_cons, Forall_cons_iff, IH, !pieces_cons.
  cbn [map joined]. rewrite (bend_iff P Q R); [rewrite pieces_cons in *; tauto| |].
  - exact (increasing_hd _ _ _ HI).
  - exact (increasing_hd _ _ _ (increasing_tl _ _ HI)).
Qed.
Lemma rev_three (ks : list knot) P Q R m : rev ks = R :: Q :: P :: m -> ks = rev m ++ [P; Q; R].
Proof.
  intros E. rewrite <- (rev_involutive ks), E. cbn [rev]. rewrite <- !app_assoc. reflexivity.
Qed.
Lemma increasing_three (ks : list knot) a P Q R b : increasing (map fst (map fst ks)) -> ks = a ++ P :: Q :: R :: b ->
  (fst (fst P) < fst (fst Q))%Qc /\ (fst (fst Q) < fst (fst R))%Qc.
Proof.
  intros HI ->. rewrite !map_app in HI. cbn [map] in HI. split.
  - apply (proj1 (increasing_pair _) HI (map fst (map fst a)) _ _ (fst (fst R) :: map fst (map fst b))). reflexivity.
  - apply (proj1 (increasing_pair _) HI (map fst (map fst a) ++ [fst (fst P)]) _ _ (map fst (map fst b))). rewrite <- app_assoc. reflexivity.
Qed.
Lemma pieces_ends ks : increasing (map fst (map fst ks)) -> (3 <= length ks)%nat -> Forall eq3 (triples ks) ->
  (((forall P Q R l, ks = P :: Q :: R :: l -> eqF P Q R) /\ (forall P Q R m, rev ks = R :: Q :: P :: m -> eqL P Q R)) <->
   not_a_knot (pieces ks)).
Proof.
  intros HI H3 H. unfold not_a_knot.
  assert (HF : forall P Q R l, ks = P :: Q :: R :: l -> (eqF P Q R <-> k3 (piece2 P Q) = k3 (piece2 Q R))).
  { intros P Q R l E. destruct (increasing_three ks [] P Q R l HI E) as [I1 I2]. refine (proj1 (first_iff P Q R I1 I2 _)).
    rewrite E, triples_cons in H. inversion H. auto. }
  assert (HL : forall P Q R m, rev ks = R :: Q :: P :: m -> (eqL P Q R <-> k3 (piece2 P Q) = k3 (piece2 Q R))).
  { intros P Q R m E. apply rev_three in E.
    destruct (increasing_three ks _ P Q R [] HI E) as [I1 I2]. refine (proj2 (first_iff P Q R I1 I2 _)).
    rewrite E, triples_end in H. apply Forall_app in H as [_ H]. inversion H. auto. }
  assert (PL : forall P Q R m, rev ks = R :: Q :: P :: m -> pieces ks = pieces (rev m ++ [P]) ++ [piece2 P Q; piece2 Q R]).
  { intros P Q R m E. apply rev_three in E. rewrite E.
    change [P; Q; R] with ([P] ++ [Q; R]). rewrite app_assoc, pieces_end, <- app_assoc. cbn [app].
    rewrite pieces_end, <- app_assoc. reflexivity. }
  assert (RS : exists P Q R m, rev ks = R :: Q :: P :: m).
  { pose proof (rev_length ks) as RL. destruct (rev ks) as [|R' [|Q' [|P' m]]]; cbn [length] in RL; try lia. eauto. }
  split; intros [A1 A2]; split.
  - intros X Y ps' E. destruct ks as [|P [|Q [|R l]]]; cbn [length] in H3; try lia.
    rewrite !pieces_cons in E. injection E as <- <- _. apply (HF P Q R l eq_refl). eapply A1; eauto.
  - intros X Y ps' E. destruct RS as (P & Q & R & m & RS). rewrite (PL P Q R m RS) in E.
    assert (E' := f_equal (@rev _) E). rewrite !rev_app_distr in E'. cbn [rev app] in E'. injection E' as <- <- _.
    apply (HL P Q R m RS). eapply A2; eauto.
  - intros P Q R l E. apply (HF P Q R l E). apply (A1 _ _ (pieces (R :: l))). rewrite E, !pieces_cons. reflexivity.
  - intros P Q R m E. apply (HL P Q R m E). apply (A2 _ _ (pieces (rev m ++ [P]))). apply PL. auto.
Qed.
Lemma eqs_iff ks : increasing (map fst (map fst ks)) -> (3 <= length ks)%nat ->
  (spline_eqs ks <-> joined bend (map fst ks) (pieces ks) /\ not_a_knot (pieces ks)).
Proof.
  intros HI H3. unfold spline_eqs. rewrite <- (pieces_bend ks HI). split.
  - intros [A B]. split; auto. apply pieces_ends; auto.
  - intros [A B]. split; auto. apply pieces_ends; auto.
Qed.

(** Every smooth curve of cubic polynomials is given by its slopes at the knots. *)
Lemma piece_ex P x0 y0 x1 y1 : (x0 < x1)%Qc -> value P 0%Qc = y0 -> value P (x1 - x0)%Qc = y1 ->
  P = piece_of x0 y0 (slope P 0%Qc) x1 y1 (slope P (x1 - x0)%Qc).
Proof.
  intros Hx <- <-. pose proof (gap_ne _ _ Hx) as N. destruct P as [a b c d]. unfold piece_of, value, slope. cbn [k0 k1 k2 k3].
  f_equal; field; auto.
Qed.
Lemma curve_slopes pts : forall ps, increasing (map fst pts) -> (2 <= length pts)%nat -> curve pts ps -> joined slope pts ps ->
  exists P ps' ds, ps = P :: ps' /\ length ds = (length pts - 1)%nat /\ ps = pieces (combine pts (slope P 0%Qc :: ds)).
Proof.
  induction pts as [|p pts IH]; intros ps HI H2 HC HJ; [cbn in H2; lia|]. destruct pts as [|q pts]; [cbn in H2; lia|].
  destruct ps as [|P ps]; [destruct HC|]. cbn [curve] in HC. destruct HC as (C1 & C2 & HC).
  pose proof (increasing_hd _ _ _ HI) as Hx. pose proof (piece_ex P _ _ _ _ Hx C1 C2) as EP.
  exists P, ps. destruct pts as [|r pts].
  - destruct ps as [|X ps]; [|destruct HC]. exists [slope P (fst q - fst p)%Qc]. split; auto. split; auto.
    cbn [combine]. rewrite pieces_cons. unfold piece2. cbn [fst snd pieces]. rewrite <- EP. destruct q. reflexivity.
  - destruct ps as [|X ps]; [destruct HC|].
    destruct HJ as [J1 HJ]. destruct (IH (X :: ps) (increasing_tl _ _ HI) ltac:(cbn; lia) HC HJ) as (X' & ps' & ds & E1 & E2 & E3).
    injection E1 as <- <-. exists (slope X 0%Qc :: ds). split; auto. split; [cbn [length] in *; lia|].
    cbn [combine] in *. rewrite pieces_cons. rewrite <- E3. f_equal. unfold piece2. cbn [fst snd].
    rewrite <- J1. exact EP.
Qed.

(** The curve of the cubic kind. *)
Lemma cubic_curve pts ds : (4 <= length pts)%nat -> increasing (map fst pts) -> cubic_slopes pts = Ok ds ->
  joined bend pts (pieces (combine pts ds)) /\ not_a_knot (pieces (combine pts ds)).
Proof.
  intros H4 HI E. apply cubic_iff in E as [Ld E]; auto. apply eqs_iff in E.
  - rewrite combine_fst in E by auto. exact E.
  - rewrite combine_fst; auto.
  - rewrite combine_length, Ld. lia.
Qed.
Lemma cubic_unique pts ds ps : (4 <= length pts)%nat -> increasing (map fst pts) -> cubic_slopes pts = Ok ds ->
  curve pts ps -> joined slope pts ps -> joined bend pts ps -> not_a_knot ps -> ps = pieces (combine pts ds).
Proof.
  intros H4 HI E HC HS HB HN. destruct (curve_slopes pts ps HI ltac:(lia) HC HS) as (P & ps' & ds' & -> & Ld & EP).
  assert (Ld' : length (slope P 0%Qc :: ds') = length pts) by (cbn [length]; lia).
  assert (E' : cubic_slopes pts = Ok (slope P 0%Qc :: ds')).
  { apply cubic_iff; auto. split; auto. apply eqs_iff.
    - rewrite combine_fst; auto.
    - rewrite combine_length. lia.
    - rewrite combine_fst by auto. rewrite <- EP. auto. }
  rewrite E in E'. apply ok_inv in E'. rewrite <- E'. exact EP.
Qed.
