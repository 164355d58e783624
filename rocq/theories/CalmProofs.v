(** * CalmProofs: a small change keeps the first component alive; ensembles and CEEMDAN with little noise. *)
From Verif Require Import PyFacts QcFacts Emd Eemd Ceemdan Spec EemdSpec CeemdanSpec SymSpec Demo EmdProofs EmdControl EmdTop EmdExact EmdSym EemdProofs EemdExact Kinds KindsRange LocalProofs.
From Verif Require Import PrepareProofs KindsMono KindsAll NearSpec NearProofs FaintSpec FaintProofs CalmSpec CeemdanExact Props_Kinds Props_Ceemdan.
From Coq Require Import ZifyBool ZifyNat QArith Qcanon List Lia.
Local Notation length := List.length.
Open Scope Z_scope.

(** ** When the first component is kept *)
Section First.
Variable spl : spline_oracle Qc.

Lemma sift_alive c T fuel : 0 < FIXE c < MAX_ITERATION c -> forall i nh ext x y ext' fin, i < FIXE c ->
  sift spl fuel c T i nh ext x = Ok (y, ext', fin) -> fin = negb (2 <? ext').
Proof.
  intros HF. induction fuel as [|fuel IH]; intros i nh ext x y ext' fin Hi E; cbn [sift] in E; [discriminate|].
  replace (MAX_ITERATION c <=? i + 1) with false in E by lia.
  apply bind_ok in E as (e & E1 & E). destruct (2 <? ext_no e) eqn:D.
  - apply bind_ok in E as ([[x1 eM] em] & E2 & E). replace (negb (FIXE c =? 0)) with true in E by lia.
    destruct (FIXE c <=? i + 1) eqn:D2; [injection E as <- <- <-; rewrite D; reflexivity|]. eapply IH; [|exact E]. lia.
  - injection E as <- <- <-. rewrite D. reflexivity.
Qed.

Lemma loop_grows fuel c S T mi : forall IMF ext I ext', emd_loop spl fuel c S T mi IMF ext = Ok (I, ext') -> (length IMF < length I)%nat.
Proof.
  induction fuel as [|fuel IH]; intros IMF ext I ext' E; cbn [emd_loop] in E; [discriminate|].
  apply bind_ok in E as ([[y e1] fin] & E1 & E). apply bind_ok in E as (stop & E2 & E).
  destruct (stop || _); [injection E as <- <-; rewrite app_length; cbn; lia|].
  destruct fin; [injection E as <- <-; rewrite app_length; cbn; lia|]. apply IH in E. rewrite app_length in E. cbn in E. lia.
Qed.

Lemma first_kept fuel c S T mi o : 0 < FIXE c < MAX_ITERATION c -> emd spl fuel c S T mi = Ok o ->
  exists t y ext fin, emd_time c S T = Ok t /\ sift spl (sift_fuel c) c t 0 0 (-1) S = Ok (y, ext, fin) /\ (imfs o <> [] <-> fin = false).
Proof.
  intros HF E. unfold emd in E. apply bind_ok in E as (t & Et & E). destruct (negb _); [discriminate|].
  apply bind_ok in E as ((I & x) & EL & E). injection E as <-. exists t.
  destruct fuel as [|fuel]; [discriminate EL|]. cbn [emd_loop] in EL.
  change (sum_rows (length S) []) with (@vzeros Qc _ (length S)) in EL. rewrite vsub_zeros in EL.
  apply bind_ok in EL as ([[y ext] fin] & ES & EL). exists y, ext, fin. split; auto. split; auto.
  assert (HA : fin = negb (2 <? ext)) by (eapply (sift_alive c t _ HF 0); [lia|exact ES]).
  apply bind_ok in EL as (stop & _ & EL). cbn [app] in EL. cbn [emd_finish imfs].
  destruct (stop || _).
  { injection EL as <- <-. destruct (ext <=? 2) eqn:D; cbn [removelast]; split; intros H; try congruence; subst; try discriminate; lia. }
  destruct fin.
  { injection EL as <- <-. replace (ext <=? 2) with true by lia. cbn [removelast]. split; congruence. }
  apply loop_grows in EL. cbn [length] in EL. split; auto. intros _.
  destruct I as [|a [|b I]]; cbn [length] in EL; try lia. destruct (x <=? 2); discriminate.
Qed.
End First.

(** ** The number of extrema, hence the sifts made, are those of the unchanged signal *)
Definition alike (c c' : emd_config Qc) : Prop :=
  extrema_detection c' = extrema_detection c /\ nbsym c' = nbsym c /\ spline_kind c' = spline_kind c /\
  FIXE c' = FIXE c /\ MAX_ITERATION c' = MAX_ITERATION c.
Lemma alike_refl c : alike c c.
Proof. repeat split. Qed.
Lemma alike_rescaled r c : alike c (rescaled r c).
Proof. repeat split. Qed.
Lemma alike_step spl c c' T x : alike c c' -> sift_step spl c' T x = sift_step spl c T x.
Proof.
  intros (D & N & K & _ & _). unfold sift_step, extract_max_min_spline. rewrite D, N, K. reflexivity.
Qed.
Lemma alike_sift spl c c' T x y : alike c c' -> one_sift spl c' T x y -> one_sift spl c T x y.
Proof. intros H (eM & em & E). rewrite (alike_step spl c c') in E by auto. exists eM, em. exact E. Qed.

Lemma sift_follows k c c' : alike c c' -> extrema_detection c = Simple -> 1 <= nbsym c ->
  k = Linear \/ k = Slinear -> parse_kind (spline_kind c) = Some k -> 0 < FIXE c < MAX_ITERATION c ->
  forall fuel fuel' i nh nh' ext ext' e x x' y y' f f' fin', 0 <= i < FIXE c -> close e x x' ->
  robust c (Z.to_nat (FIXE c - i)) e x ->
  sift scipy_spl fuel c (arange (length x)) i nh ext x = Ok (y, f, false) ->
  sift scipy_spl fuel' c' (arange (length x')) i nh' ext' x' = Ok (y', f', fin') -> fin' = false.
Proof.
  intros HA D N Hk K HF. pose proof HA as (D' & _ & _ & F' & M').
  induction fuel as [|fuel IH]; intros fuel' i nh nh' ext ext' e x x' y y' f f' fin' Hi HC HR E E'; [discriminate E|].
  destruct fuel' as [|fuel']; [discriminate E'|]. cbn [sift] in E, E'. rewrite M', F', D' in E'.
  replace (MAX_ITERATION c <=? i + 1) with false in E, E' by lia. rewrite D in E, E'.
  apply bind_ok in E as (a & E1 & E). apply bind_ok in E' as (a' & E1' & E').
  destruct (2 <? ext_no a) eqn:X; [|discriminate E].
  replace (Z.to_nat (FIXE c - i)) with (Datatypes.S (Z.to_nat (FIXE c - (i + 1)))) in HR by lia. cbn [robust] in HR. destruct HR as [HS HR].
  pose proof HC as [HL _]. pose proof (separated_shape _ _ _ HC HS) as SH.
  assert (T0 : length (arange (length x)) = length x) by (rewrite arange_tz; apply tz_length).
  pose proof E1' as E1''. rewrite <- HL in E1'.
  destruct (shape_extrema x x' _ a a' SH T0 E1 E1') as [X1 X2].
  assert (XA : ext_no a' = ext_no a) by (unfold ext_no; rewrite X1, X2; reflexivity). rewrite XA, X in E'.
  apply bind_ok in E as ([[x1 eM] em] & E2 & E). apply bind_ok in E' as ([[x1' eM'] em'] & E2' & E').
  replace (negb (FIXE c =? 0)) with true in E, E' by lia.
  destruct (FIXE c <=? i + 1) eqn:D2; [injection E' as <- <- <-; reflexivity|].
  assert (O1 : one_sift scipy_spl c (arange (length x)) x x1) by (exists eM, em; exact E2).
  assert (O1' : one_sift scipy_spl c (arange (length x')) x' x1') by (apply (alike_sift _ c c'); auto; exists eM', em'; exact E2').
  destruct (one_sift_mean _ _ _ _ _ O1) as (_ & _ & _ & _ & _ & _ & _ & _ & _ & _ & Ly & _).
  destruct (one_sift_mean _ _ _ _ _ O1') as (_ & _ & _ & _ & _ & _ & _ & _ & _ & _ & Ly' & _).
  rewrite <- Ly in E. rewrite <- Ly' in E'.
  eapply (IH fuel' (i + 1)); [lia| |exact (HR x1 O1)|exact E|exact E'].
  apply (sift_near e k c x x' x1 x1'); auto.
Qed.

Lemma iterates_alike c c' T l : alike c c' -> iterates (one_sift scipy_spl c' T) l -> iterates (one_sift scipy_spl c T) l.
Proof. intros HA H. induction H; constructor; auto. eapply alike_sift; eauto. Qed.

(** The first component survives a small change and moves by at most [doubled n e]. *)
Lemma first_follows k c c' n fuel fuel' e x x' mi mi' o o' : alike c c' ->
  extrema_detection c = Simple -> 1 <= nbsym c -> k = Linear \/ k = Slinear -> parse_kind (spline_kind c) = Some k ->
  FIXE c = Z.of_nat n -> (0 < n)%nat -> FIXE c < MAX_ITERATION c ->
  close e x x' -> robust c n e x ->
  emd scipy_spl fuel c x None mi = Ok o -> emd scipy_spl fuel' c' x' None mi' = Ok o' ->
  imfs o <> [] -> imfs o' <> [] /\ close (doubled n e) (nth 0 (imfs o) []) (nth 0 (imfs o') []).
Proof.
  intros HA D N Hk K Fx Hn M1 HC HR E E' O. pose proof HA as (D' & _ & _ & F' & M').
  assert (O' : imfs o' <> []).
  { assert (HF : 0 < FIXE c < MAX_ITERATION c) by lia.
    destruct (first_kept _ _ _ _ _ _ _ HF E) as (t & y & ext & fin & Et & ES & H1).
    assert (HF' : 0 < FIXE c' < MAX_ITERATION c') by lia.
    destruct (first_kept _ _ _ _ _ _ _ HF' E') as (t' & y' & ext' & fin' & Et' & ES' & H1').
    apply none_time in Et; auto. apply none_time in Et'; [|congruence]. subst t t'.
    apply H1'. apply H1 in O. subst fin.
    refine (sift_follows k c c' HA D N Hk K HF _ _ 0 0 0 _ _ e x x' _ _ _ _ _ _ HC _ ES ES'); [lia|].
    rewrite Z.sub_0_r, Fx, Nat2Z.id. exact HR. }
  split; auto.
  destruct (fixe_top _ _ _ _ _ _ _ E ltac:(lia)) as (t & Et & G).
  destruct (fixe_top _ _ _ _ _ _ _ E' ltac:(lia)) as (t' & Et' & G').
  destruct (G 0%nat) as (l & I & La & Ln). { destruct (imfs o); [congruence|cbn; lia]. }
  destruct (G' 0%nat) as (l' & I' & La' & Ln'). { destruct (imfs o'); [congruence|cbn; lia]. }
  clear G G'. apply none_time in Et; auto. apply none_time in Et'; [|congruence]. subst t t'.
  assert (Z0 : forall z : list Qc, vsub z (sum_rows (length z) []) = z).
  { intros z. change (sum_rows (length z) []) with (@vzeros Qc _ (length z)). apply vsub_zeros. }
  cbn [firstn] in I, I'. rewrite Z0 in I, I'. unfold zlen in Ln, Ln'. apply (iterates_alike c c') in I'; auto.
  rewrite <- La, <- La'.
  assert (EL : forall (m : list (list Qc)) d d', m <> [] -> last m d = last m d').
  { intros m d d'. induction m as [|z [|w m] IHm]; intros C; [congruence|reflexivity|]. apply IHm. discriminate. }
  rewrite (EL l _ x), (EL l' _ x') by (intros ->; cbn [length] in *; lia).
  apply (robust_near k c n e x x' l l'); auto; lia.
Qed.

(** ** EEMD: the first component, with no condition on the trials *)
Lemma first_row spl fuel c (X : list Qc) T k o d : emd spl fuel c X T k = Ok o -> imfs o <> [] -> nth 0 (out o) d = nth 0 (imfs o) [] /\ out o <> [].
Proof.
  intros E H. destruct (out_cases _ _ _ _ _ _ _ E) as [Q|(q & Q)]; rewrite Q; destruct (imfs o); try congruence; split; auto; discriminate.
Qed.

Lemma ensemble_first G (gen : generator Qc G) k cfg n fuel fuel' e c o S T T' mi mi' E o' r :
  sized gen -> (forall w, spread S w -> faint gen (noise_kind c) (noise_width c * w)%Qc (length S) e) -> (0 <= e)%Qc ->
  0 < trials c -> separate_trends c = false ->
  extrema_detection cfg = Simple -> 1 <= nbsym cfg -> k = Linear \/ k = Slinear -> parse_kind (spline_kind cfg) = Some k ->
  FIXE cfg = Z.of_nat n -> (0 < n)%nat -> FIXE cfg < MAX_ITERATION cfg -> robust cfg n e S ->
  emd scipy_spl fuel cfg S T mi = Ok r -> eemd gen (emd_decomposer scipy_spl fuel' cfg) c o S T' mi' = (Ok E, o') ->
  imfs r <> [] -> nth 0 (ensemble_count (all_imfs o')) 0 = trials c /\ close (doubled n e) (nth 0 (imfs r) []) (nth 0 E []).
Proof.
  intros HG HF He HT Hs D Nb Hk K Fx Hn MX HR Er EE Hr.
  pose proof (simple_no_time _ _ _ _ _ _ _ D Er) as Er'.
  pose proof (eemd_processes gen _ _ _ _ _ _ _ _ _ EE) as HP.
  destruct (eemd_means gen (emd_decomposer scipy_spl fuel' cfg) HG (emd_shapely _ _ _) c o S T' mi' E o' Hs EE)
    as (T1 & w & noises & rs & Hw & _ & Ln & Lr & HN & Hrun & LE & Lc & HM & Hmax).
  assert (Hall : forall x, In x rs -> x <> [] /\ close (doubled n e) (nth 0 (imfs r) []) (nth 0 x [])).
  { intros x Hx. apply In_nth_error in Hx as (i & Hi). assert (Hil : (i < length rs)%nat) by (apply nth_error_Some; congruence).
    destruct (Hrun i x Hi) as (X & d & d' & (Lv & LX & HX) & ER).
    apply emd_decomposer_run in ER as (oi & Eo & ->). apply (simple_no_time _ _ _ _ _ _ _ D) in Eo.
    assert (HC : close e S X).
    { destruct (noise_each gen _ c o o' S w noises i HP HT HN ltac:(lia)) as (g & g' & Hd).
      specialize (HF w Hw g _ g' Hd). split; [lia|]. intros z. unfold sample. rewrite HX.
      destruct (Nat.lt_ge_cases (Z.to_nat z) (length (nth i noises []))) as [Hz|Hz].
      - destruct (HF (nth (Z.to_nat z) (nth i noises []) 0%Qc) (nth_In _ _ Hz)) as [A B].
        set (q := nth (Z.to_nat z) (nth i noises []) 0%Qc) in *. split; qclra.
      - rewrite (nth_overflow (nth i noises [])) by lia. split; qclra. }
    destruct (first_follows k cfg cfg n fuel fuel' e S X mi mi' r oi (alike_refl _) D Nb Hk K Fx Hn MX HC HR Er' Eo Hr) as [O1 O2].
    destruct (first_row _ _ _ _ _ _ _ [] Eo O1) as [Q1 Q2]. rewrite Q1. auto. }
  assert (Lrs : rs <> []) by (intros ->; cbn [length] in Lr; lia).
  assert (HE : (0 < length E)%nat).
  { rewrite LE. destruct rs as [|x rs]; [congruence|]. destruct (Hall x (or_introl eq_refl)) as [Nx _]. cbn [map fold_right].
    destruct x; [congruence|]. cbn [length]. lia. }
  destruct (HM 0%nat HE) as (Hmean & Hc & _).
  assert (HFa : forall l : list rows, (forall x, In x l -> x <> []) -> filter (fun r : rows => (0 <? length r)%nat) l = l).
  { induction l as [|x l IHl]; intros H; [reflexivity|]. cbn [filter]. specialize (H x (or_introl eq_refl)) as Nx.
    replace (0 <? length x)%nat with true by (symmetry; apply Nat.ltb_lt; destruct x; [congruence|cbn; lia]).
    f_equal. apply IHl. intros z Hz. apply H. right; auto. }
  split. { rewrite Hc, HFa by (intros x Hx; apply Hall; auto). unfold zlen. lia. }
  assert (Lj : length (nth 0 (imfs r) []) = length S).
  { destruct (emd_shape _ _ _ _ _ _ _ Er') as (_ & Sh & _). refine (proj1 (Forall_forall _ _) Sh _ (nth_In _ _ _)). destruct (imfs r); [congruence|cbn; lia]. }
  eapply mean_near; [exact Lj| |exact Hmean].
  intros row Hrow. unfold column in Hrow. apply in_flat_map in Hrow as (ri & Hri & Hrow).
  destruct (Hall ri Hri) as [Nr Cr]. destruct ri as [|y ri]; [congruence|]. cbn [nth_error] in Hrow. destruct Hrow as [<-|[]]. exact Cr.
Qed.

(** ** CEEMDAN *)
Lemma mean_scaled s n rows v : is_mean n rows v -> is_mean n (map (map (fun x => (x * s)%Qc)) rows) (map (fun x => (x * s)%Qc) v).
Proof.
  intros (N & L & H). split; [destruct rows; [congruence|discriminate]|]. split; [rewrite map_length; auto|].
  intros i Hi. rewrite map_length.
  assert (G : forall l : list Qc, nth i (map (fun x => (x * s)%Qc) l) 0%Qc = (nth i l 0 * s)%Qc).
  { intros l. rewrite <- (Qcmult_0_l s) at 1. apply (map_nth (fun x => (x * s)%Qc)). }
  rewrite G. specialize (H i Hi).
  assert (TT : total_at (map (map (fun x => (x * s)%Qc)) rows) i = (total_at rows i * s)%Qc).
  { clear - G. unfold total_at. induction rows as [|x rows IH]; cbn [map fold_right]; [ring|]. rewrite IH, G. ring. }
  rewrite TT, <- H. ring.
Qed.

Lemma long_enough (spl : spline_oracle Qc) fuel c S T k o : extrema_detection c = Simple -> emd spl fuel c S T k = Ok o -> (2 <= length S)%nat.
Proof.
  intros D E. apply (simple_no_time _ _ _ _ _ _ _ D) in E. unfold emd in E. apply bind_ok in E as (t & Et & _).
  destruct S as [|z [|w S]]; [vm_compute in Et; destruct (extrema_detection c); discriminate Et| |cbn; lia].
  vm_compute in Et. destruct (extrema_detection c); discriminate Et.
Qed.

Lemma ceemdan_first G (gen : generator Qc G) std k cfg n fuel fuel' arrival c o S T T' mi mi' C o' r b :
  sized gen -> reorders arrival -> 0 < c_trials c -> (c_parallel c = true -> 1 <= c_processes c) -> (0 < std S)%Qc -> (0 <= epsilon c)%Qc ->
  calm gen std (emd_fun scipy_spl fuel' cfg) c o (length S) b ->
  extrema_detection cfg = Simple -> 1 <= nbsym cfg -> k = Linear \/ k = Slinear -> parse_kind (spline_kind cfg) = Some k ->
  FIXE cfg = Z.of_nat n -> (0 < n)%nat -> FIXE cfg < MAX_ITERATION cfg -> robust cfg n (std S * (epsilon c * b))%Qc S ->
  emd scipy_spl fuel cfg S T mi = Ok r -> imfs r <> [] ->
  ceemdan gen std (emd_fun scipy_spl fuel' cfg) arrival c o S T' mi' = (Ok C, o') ->
  close (doubled n (std S * (epsilon c * b))%Qc) (nth 0 (imfs r) []) (nth 0 C []).
Proof.
  intros HG HA HT HP Hs He Hc D Nb Hk K Fx Hn MX HR Er Hr EC. set (s := std S) in *. set (e := (s * (epsilon c * b))%Qc) in *.
  pose proof (simple_no_time _ _ _ _ _ _ _ D Er) as Er'.
  assert (Ns : s <> 0%Qc) by (intros Q; rewrite Q in Hs; exact (Qclt_not_eq _ _ Hs eq_refl)).
  pose proof (long_enough _ _ _ _ _ _ _ D Er) as L2.
  destruct (C57_recurrence G gen std (emd_fun scipy_spl fuel' cfg) (C57_emd_fits _ _ _) arrival c o S T' mi' C o' Ns HG HA HP HT EC)
    as (noises & modes & t & parts & c1 & cs & rr & Hdraw & _ & Hsh & Hmo & _ & Hfp & Hmean & _ & _ & _ & ->).
  cbn [map nth]. apply (mean_scaled s) in Hmean. fold s in Hfp, Hmean |- *.
  assert (Lj : length (nth 0 (imfs r) []) = length S).
  { destruct (emd_shape _ _ _ _ _ _ _ Er') as (_ & Sh & _). refine (proj1 (Forall_forall _ _) Sh _ (nth_In _ _ _)). destruct (imfs r); [congruence|cbn; lia]. }
  eapply mean_near; [exact Lj| |exact Hmean].
  intros row Hrow. apply in_map_iff in Hrow as (p & <- & Hp).
  assert (HM : exists M noise, In noise noises /\ modes_of std (emd_fun scipy_spl fuel' cfg) (beta_progress c) noise M /\ first_part (emd_fun scipy_spl fuel' cfg) (epsilon c) (map (fun x => (x / s)%Qc) S) t M p).
  { clear - Hmo Hfp Hp. revert parts Hfp Hp. induction Hmo as [|u M us Ms Hu Hus IH]; intros parts Hfp Hp; inversion Hfp; subst; [destruct Hp|].
    destruct Hp as [<-|Hp]; [exists M, u; repeat split; auto; left; auto|].
    edestruct IH as (M' & u' & I1 & I2 & I3); eauto. exists M', u'. repeat split; auto. right; auto. }
  destruct HM as (M & noise & Hin & HM & (d & rest & X & I & -> & (Lv & LX & HX) & EI & Ep)).
  pose proof (Hc noises _ Hdraw Hsh noise _ Hin HM) as Hb. cbn [nth] in Hb.
  unfold emd_fun in EI. apply bind_ok in EI as (oi & Eo & EI). apply ok_inv in EI. subst I.
  rewrite map_length in Lv, LX, Ep.
  assert (LX2 : (2 <= length X)%nat) by lia.
  assert (HF0 : FIXE cfg <> 0) by lia.
  destruct (C90_unit fuel' cfg X (Some t) 1 s s oi Hs (or_introl eq_refl) D (or_introl HF0) LX2 Eo) as (oj & Ej & Ij & _).
  assert (D' : extrema_detection (rescaled s cfg) = Simple) by exact D.
  apply (simple_no_time _ _ _ _ _ _ _ D') in Ej.
  assert (HC : close e S (map (Qcmult s) X)).
  { split; [rewrite map_length; lia|]. intros z. unfold sample.
    assert (G1 : nth (Z.to_nat z) (map (Qcmult s) X) 0%Qc = (s * nth (Z.to_nat z) X 0)%Qc).
    { replace 0%Qc with (s * 0)%Qc at 1 by ring. apply (map_nth (Qcmult s)). }
    assert (G2 : nth (Z.to_nat z) (map (fun x => (x / s)%Qc) S) 0%Qc = (nth (Z.to_nat z) S 0 / s)%Qc).
    { replace 0%Qc with (0 / s)%Qc at 1 by (field; auto). apply (map_nth (fun x => (x / s)%Qc)). }
    assert (G3 : nth (Z.to_nat z) (scaled (epsilon c) d) 0%Qc = (epsilon c * nth (Z.to_nat z) d 0)%Qc).
    { unfold scaled. replace 0%Qc with (epsilon c * 0)%Qc at 1 by ring. apply (map_nth (Qcmult (epsilon c))). }
    rewrite G1, HX, G2, G3. set (u := nth (Z.to_nat z) S 0%Qc).
    replace (s * (u / s + epsilon c * nth (Z.to_nat z) d 0))%Qc with (u + s * (epsilon c * nth (Z.to_nat z) d 0))%Qc by (field; auto).
    assert (B : (- b <= nth (Z.to_nat z) d 0)%Qc /\ (nth (Z.to_nat z) d 0 <= b)%Qc).
    { destruct (Nat.lt_ge_cases (Z.to_nat z) (length d)) as [Hz|Hz]; [apply Hb; apply nth_In; auto|].
      rewrite nth_overflow by lia. destruct d as [|q d]; [exfalso; unfold scaled in Lv; cbn in Lv; lia|].
      destruct (Hb q (or_introl eq_refl)). split; qclra. }
    destruct B as [B1 B2]. set (q := nth (Z.to_nat z) d 0%Qc) in *. clearbody q. unfold e.
    assert (P1 : (0 <= epsilon c * (b - q))%Qc) by (apply mul_nonneg; auto; qclra).
    assert (P2 : (0 <= epsilon c * (b + q))%Qc) by (apply mul_nonneg; auto; qclra).
    apply (mul_nonneg s) in P1; [|apply Qclt_le_weak; auto]. apply (mul_nonneg s) in P2; [|apply Qclt_le_weak; auto].
    replace (s * (epsilon c * (b - q)))%Qc with (s * (epsilon c * b) - s * (epsilon c * q))%Qc in P1 by ring.
    replace (s * (epsilon c * (b + q)))%Qc with (s * (epsilon c * b) + s * (epsilon c * q))%Qc in P2 by ring.
    set (v1 := (s * (epsilon c * b))%Qc) in *. set (v2 := (s * (epsilon c * q))%Qc) in *. split; qclra. }
  destruct (first_follows k cfg (rescaled s cfg) n fuel fuel' e S (map (Qcmult s) X) mi 1 r oj (alike_rescaled s cfg) D Nb Hk K Fx Hn MX HC HR Er' Ej Hr) as [O1 O2].
  assert (Oi : imfs oi <> []) by (intros Q; rewrite Ij, Q in O1; apply O1; reflexivity).
  destruct (first_row _ _ _ _ _ _ _ (repeat 0%Qc (length S)) Eo Oi) as [Q1 _]. rewrite Q1 in Ep. subst p.
  rewrite Ij in O2. destruct (imfs oi) as [|y ys]; [congruence|]. cbn [map nth] in O2 |- *.
  replace (map (fun x => (x * s)%Qc) y) with (map (Qcmult s) y); [exact O2|]. apply map_ext. intros x. ring.
Qed.

(** ** As epsilon vanishes *)
Lemma list_bound (l : list Qc) : exists b, (0 < b)%Qc /\ forall v, In v l -> (- b <= v)%Qc /\ (v <= b)%Qc.
Proof.
  induction l as [|x l (b & B0 & IH)]; [exists 1%Qc; split; [reflexivity|intros v []]|].
  destruct (Qclt_le_dec x b) as [X|X].
  - destruct (Qclt_le_dec x (- b)%Qc) as [Y|Y].
    + exists (- x)%Qc. split; [qclra|]. intros v [<-|Hv]; [split; qclra|]. destruct (IH v Hv). split; qclra.
    + exists b. split; auto. intros v [<-|Hv]; [split; qclra|]. auto.
  - exists x. split; [qclra|]. intros v [<-|Hv]; [split; qclra|]. destruct (IH v Hv). split; qclra.
Qed.
Lemma modes_bound std emd_of nrm noise : exists b, (0 < b)%Qc /\
  forall M v, modes_of std emd_of nrm noise M -> In v (nth 0 M []) -> (- b <= v)%Qc /\ (v <= b)%Qc.
Proof.
  destruct (emd_of noise None (-1)) as [D|x] eqn:E.
  2:{ exists 1%Qc. split; [reflexivity|]. intros M v (D & E' & _). congruence. }
  destruct (list_bound (nth 0 D [] ++ map (fun x => (x / std (nth 0 D []))%Qc) (nth 0 D []))) as (b & B0 & B).
  exists b. split; auto. intros M v (D' & E' & H) Hv. rewrite E in E'. apply ok_inv in E'. subst D'. apply B. apply in_or_app.
  destruct nrm; [|subst; auto]. destruct H as (d & rest & -> & ->). right. exact Hv.
Qed.
Lemma all_modes_bound std emd_of nrm (ns : list (list Qc)) : exists b, (0 < b)%Qc /\
  forall noise M v, In noise ns -> modes_of std emd_of nrm noise M -> In v (nth 0 M []) -> (- b <= v)%Qc /\ (v <= b)%Qc.
Proof.
  induction ns as [|u ns (b & B0 & IH)]; [exists 1%Qc; split; [reflexivity|intros noise M v []]|].
  destruct (modes_bound std emd_of nrm u) as (b' & B0' & H').
  assert (P : (0 < b + b')%Qc) by qclra.
  exists (b + b')%Qc. split; auto. intros noise M v [<-|Hin] HM Hv.
  - destruct (H' M v HM Hv). split; qclra.
  - destruct (IH noise M v Hin HM Hv). split; qclra.
Qed.
Lemma drawn_one G (gen : generator Qc G) kind scale n g : exists v0, forall v g', draws gen kind scale n g v g' -> v = v0.
Proof.
  destruct kind; cbn [draws].
  - exists (fst (normal gen g scale n)). intros v g' E. rewrite E. reflexivity.
  - exists (fst (uniform gen g (- scale / (1 + 1))%Qc (scale / (1 + 1))%Qc n)). intros v g' (lo & hi & H1 & H2 & E).
    assert (N2 : (1 + 1 <> 0)%Qc) by (intros C; vm_compute in C; discriminate C).
    replace (- scale / (1 + 1))%Qc with lo by (rewrite <- H1; field; auto).
    replace (scale / (1 + 1))%Qc with hi by (rewrite <- H2; field; auto). rewrite E. reflexivity.
  - exists []. intros v g' [].
Qed.
Lemma row_of_concat {B} n (rows : list (list B)) row : Forall (fun r => length r = n) rows -> In row rows ->
  exists k, (k <= length (concat rows))%nat /\ row = firstn n (skipn k (concat rows)).
Proof.
  intros HF Hin. pose proof (proj1 (Forall_forall _ _) HF row Hin) as L. apply in_split in Hin as (l1 & l2 & ->).
  exists (length (concat l1)). rewrite concat_app. cbn [concat]. split; [rewrite app_length; lia|].
  rewrite skipn_app, skipn_all, Nat.sub_diag. cbn [app skipn]. rewrite <- L, firstn_app, firstn_all, Nat.sub_diag. cbn [firstn]. rewrite app_nil_r. reflexivity.
Qed.
(** The noise is drawn from the generator's state, so some bound always exists, and it does not depend on epsilon. *)
Lemma calm_ex G (gen : generator Qc G) std emd_of c o n : exists b, (0 < b)%Qc /\ calm gen std emd_of c o n b.
Proof.
  destruct (drawn_one G gen (c_noise_kind c) (noise_scale c) (Z.to_nat (c_trials c) * n) (c_random o)) as (v0 & H0).
  destruct (all_modes_bound std emd_of (beta_progress c) (map (fun k => firstn n (skipn k v0)) (seq 0 (Datatypes.S (length v0))))) as (b & B0 & HB).
  exists b. split; auto. intros noises g' HD HS noise M Hin HM v Hv. apply (HB noise M v); auto.
  rewrite <- (H0 _ _ HD). destruct (row_of_concat n noises noise HS Hin) as (k & Hk & ->).
  apply in_map_iff. exists k. split; auto. apply in_seq. lia.
Qed.

Lemma ceemdan_limit G (gen : generator Qc G) std k cfg n fuel fuel' c o S T mi r e d :
  sized gen -> 0 < c_trials c -> (0 < std S)%Qc ->
  extrema_detection cfg = Simple -> 1 <= nbsym cfg -> k = Linear \/ k = Slinear -> parse_kind (spline_kind cfg) = Some k ->
  FIXE cfg = Z.of_nat n -> (0 < n)%nat -> FIXE cfg < MAX_ITERATION cfg -> (0 < e)%Qc -> robust cfg n e S ->
  emd scipy_spl fuel cfg S T mi = Ok r -> imfs r <> [] -> (0 < d)%Qc ->
  exists eps0, (0 < eps0)%Qc /\
  forall c' arrival T' mi' C o', reorders arrival -> (c_parallel c' = true -> 1 <= c_processes c') ->
  c_trials c' = c_trials c -> c_noise_kind c' = c_noise_kind c -> noise_scale c' = noise_scale c -> beta_progress c' = beta_progress c ->
  (0 <= epsilon c')%Qc -> (epsilon c' <= eps0)%Qc ->
  ceemdan gen std (emd_fun scipy_spl fuel' cfg) arrival c' o S T' mi' = (Ok C, o') ->
  close d (nth 0 (imfs r) []) (nth 0 C []).
Proof.
  intros HG HT Hs D Nb Hk K Fx Hn MX He HR Er Hr Hd.
  destruct (calm_ex G gen std (emd_fun scipy_spl fuel' cfg) c o (length S)) as (b & B0 & HB).
  assert (DL : forall m x, doubled m x = (Qc_ofZ (2 ^ Z.of_nat m) * x)%Qc).
  { induction m as [|m IH]; intros x; cbn [doubled]; [change (Qc_ofZ (2 ^ Z.of_nat 0)) with 1%Qc; ring|].
    rewrite IH. replace (Z.of_nat (Datatypes.S m)) with (Z.of_nat m + 1) by lia. rewrite Z.pow_add_r by lia. change (2 ^ 1) with 2.
    rewrite Z.mul_comm. replace (2 * 2 ^ Z.of_nat m) with (2 ^ Z.of_nat m + 2 ^ Z.of_nat m) by lia. rewrite Qc_ofZ_add. ring. }
  set (q := Qc_ofZ (2 ^ Z.of_nat n)) in *.
  assert (Q0 : (0 < q)%Qc).
  { change 0%Qc with (Qc_ofZ 0). apply Qc_ofZ_lt. apply Z.pow_pos_nonneg; lia. }
  assert (Hsm : exists e', (0 < e')%Qc /\ (e' <= e)%Qc /\ (q * e' <= d)%Qc).
  { destruct (Qclt_le_dec (q * e)%Qc d) as [L|L]; [exists e; repeat split; [auto|apply Qcle_refl|apply Qclt_le_weak; auto]|].
    exists (d / q)%Qc. assert (Nq : q <> 0%Qc) by (intros C; rewrite C in Q0; exact (Qclt_not_eq _ _ Q0 eq_refl)).
    repeat split.
    - unfold Qcdiv. rewrite <- (Qcmult_0_l (/ q)). apply Qcmult_lt_compat_r; auto. apply Qcinv_pos; auto.
    - replace e with (q * e / q)%Qc by (field; auto). apply Qcdiv_le_compat; auto.
    - replace (q * (d / q))%Qc with d by (field; auto). apply Qcle_refl. }
  destruct Hsm as (e' & E0 & E1 & E2).
  set (sb := (std S * b)%Qc).
  assert (S0 : (0 < sb)%Qc) by (unfold sb; rewrite <- (Qcmult_0_l b); apply Qcmult_lt_compat_r; auto).
  assert (Nsb : sb <> 0%Qc) by (intros C; rewrite C in S0; exact (Qclt_not_eq _ _ S0 eq_refl)).
  exists (e' / sb)%Qc. split.
  { unfold Qcdiv. rewrite <- (Qcmult_0_l (/ sb)). apply Qcmult_lt_compat_r; auto. apply Qcinv_pos; auto. }
  intros c' arrival T' mi' C o' HA HP I1 I2 I3 I4 P0 P1 EC.
  assert (A : (std S * (epsilon c' * b) <= e')%Qc).
  { replace (std S * (epsilon c' * b))%Qc with (epsilon c' * sb)%Qc by (unfold sb; ring).
    replace e' with (e' / sb * sb)%Qc by (field; auto). apply Qcmult_le_compat_r; auto. apply Qclt_le_weak; auto. }
  apply (close_mono (doubled n (std S * (epsilon c' * b))%Qc)).
  { eapply Qcle_trans; [apply (doubled_mono n e'); exact A|]. rewrite DL. exact E2. }
  apply (ceemdan_first G gen std k cfg n fuel fuel' arrival c' o S T T' mi mi' C o' r b); auto; try lia.
  - unfold calm. rewrite I1, I2, I3, I4. exact HB.
  - apply (robust_mono cfg n e); auto. eapply Qcle_trans; eauto.
Qed.
