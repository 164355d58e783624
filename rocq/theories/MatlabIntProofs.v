(** * MatlabIntProofs: EMD_matlab on integer arrays. *)
From Verif Require Import PyFacts QcFacts Emd EmdControl EmdExact Matlab MatlabInt Spec MatlabSpec MatlabRun.
From Coq Require Import QArith Qcanon.
From Coq Require String.
Open Scope Z_scope.

Section Gen.
Context {A : Type} `{Num A}.
Notation vec := (list A).
Variable spl : spline_oracle A.
Variable c : m_config A.

(** ** Lengths *)
Lemma m_sift_int_length fuel (T : vec) n n_h ext imf mean imf' n' ext' nf :
  m_sift_int spl fuel c T n n_h ext imf mean = Ok (imf', n', ext', nf) -> length imf' = length imf.
Proof.
  revert n n_h ext imf mean. induction fuel as [|fuel IH]; intros n n_h ext imf mean E; cbn [m_sift_int] in E; [discriminate|].
  destruct (m_MAX_ITERATION c <=? n). { injection E as <- <- <- <-. reflexivity. }
  apply bind_ok in E as (e & E1 & E).
  destruct (Z.ltb_spec 2 (ext_no e)) as [L|L]. 2:{ injection E as <- <- <- <-. reflexivity. }
  assert (L1 : length imf <> 1%nat).
  { intros L1. destruct imf as [|x [|? ?]]; try discriminate. apply one_sample in E1. lia. }
  apply bind_ok in E as (imf1 & E2 & E). apply broadcast_length in E2; auto. rewrite <- E2.
  apply bind_ok in E as (env & E3 & E). destruct env as [[up low]|]. 2:{ injection E as <- <- <- <-. reflexivity. }
  apply bind_ok in E as (sum & E4 & E). cbv zeta in E.
  destruct (maxIteration c <? n + 1). { injection E as <- <- <- <-. reflexivity. }
  destruct (negb (m_FIXE c =? 0)).
  { destruct (m_FIXE c + 1 <=? n + 1). { injection E as <- <- <- <-. reflexivity. } eauto. }
  apply bind_ok in E as (e' & E5 & E). destruct (negb (m_FIXE_H c =? 0)).
  { destruct (n + 1 =? 1); [eauto|]. destruct (m_FIXE_H c <=? _). { injection E as <- <- <- <-. reflexivity. } eauto. }
  apply bind_ok in E as (f1 & E6 & E). destruct (f1 && _). { injection E as <- <- <- <-. reflexivity. } eauto.
Qed.
Lemma m_loop_int_shape n fuel (T : vec) k Res imf rows ext rows' ext' :
  length Res = n -> length imf = n -> shaped n (map row_imf rows) ->
  m_loop_int spl fuel c T k Res imf rows ext = Ok (rows', ext') -> shaped n (map row_imf rows').
Proof.
  revert Res imf rows ext. induction fuel as [|fuel IH]; intros Res imf rows ext L1 L2 HI E; cbn [m_loop_int] in E; [discriminate|].
  apply bind_ok in E as (R & E1 & E). rewrite broadcast2_eq in E1 by congruence. injection E1 as <-.
  apply bind_ok in E as ([[[imf1 n1] ext1] nf] & E2 & E). apply m_sift_int_length in E2.
  assert (LR : length (map2 nsub Res imf) = n) by (rewrite map2_length, L1, L2; apply Nat.min_id).
  rewrite LR in E2.
  assert (HI' : shaped n (map row_imf (rows ++ [MkRow imf1 ext1 n1]))).
  { rewrite map_app. apply Forall_app. split; auto. constructor; auto. }
  destruct (_ =? k - 1). { injection E as <- <-. auto. }
  destruct nf. { eapply IH; [| | |exact E]; auto. } injection E as <- <-. auto.
Qed.
Lemma m_emd_int_ok fuel S T k rows no :
  m_emd_int spl fuel c S T k = Ok (rows, no) ->
  exists rs ext t, length t = length S /\ t = match T with Some t => t | None => zseq 0 (length S) end /\
    let Sf := map nofZ S in
    m_loop_int spl fuel c (map nofZ t) (match k with Some k => k | None => -1 end) Sf (map (fun _ => n0) Sf) [] 0 = Ok (rs, ext) /\
    no = zlen rows /\ shaped (length S) (map row_imf rs) /\
    let R := vsub Sf (sum_rows (length Sf) (map row_imf rs)) in
    rows = (if nltb (nlit 1 (10 ^ 10)) (nsum (map nabs R)) then rs ++ [MkRow R ext 0] else rs).
Proof.
  unfold m_emd_int. set (t := match T with Some t => t | None => _ end).
  destruct (Nat.eqb_spec (length S) (length t)) as [E|E]; cbn [negb]; intros HE; [|discriminate].
  apply bind_ok in HE as ([rs ext] & E1 & E2). injection E2 as <- <-.
  exists rs, ext, t. split; [auto|]. split; [reflexivity|]. cbv zeta. split; [exact E1|]. split; [reflexivity|].
  split; [|reflexivity]. eapply m_loop_int_shape; [| | |exact E1]; rewrite ?map_length; auto. constructor.
Qed.

Lemma m_int_shaped fuel S T k rows no : m_emd_int spl fuel c S T k = Ok (rows, no) ->
  shaped (length S) (map row_imf rows) /\ no = zlen rows.
Proof.
  intros E. apply m_emd_int_ok in E as (rs & ext & t & Lt & _ & E). cbv zeta in E. destruct E as (_ & -> & HS & ->).
  split; [|reflexivity]. destruct (nltb _ _); auto. rewrite map_app. apply Forall_app. split; auto. constructor; [|constructor].
  cbn [row_imf]. rewrite vsub_length; rewrite ?map_length; auto. symmetry. rewrite sum_rows_length; auto.
  unfold shaped in HS. rewrite Forall_forall in HS. auto.
Qed.

(** ** A predicate kept by the operations *)
Variable W P : A -> Prop.
Hypothesis Wint : forall x, W (to_int x).
Hypothesis WP : forall z, P (nofZ z).
Hypothesis Pmean : forall x y, W x -> W y -> P (nmul nhalf (nadd x y)).
Hypothesis Psub : forall x y, P x -> P y -> P (nsub x y).
Hypothesis Pscale : forall x, P x -> P (nmul (reduceScale c) x).

Lemma forall_broadcast (Q1 Q2 Q3 : A -> Prop) f x y z : (forall a b, Q1 a -> Q2 b -> Q3 (f a b)) ->
  Forall Q1 x -> Forall Q2 y -> broadcast2 f x y = Ok z -> Forall Q3 z.
Proof.
  intros Hf Hx Hy. unfold broadcast2. destruct (Nat.eqb _ _).
  - intros E. injection E as <-. revert y Hy. induction Hx as [|a x Ha Hx IH]; intros y Hy; [constructor|].
    destruct Hy as [|b y Hb Hy]; cbn [map2]; constructor; auto.
  - assert (G1 : forall a, Q1 a -> Forall Q3 (map (f a) y)).
    { intros a Ha. apply Forall_forall. intros u Hu. apply in_map_iff in Hu as (b & <- & Hb). rewrite Forall_forall in Hy. auto. }
    assert (G2 : forall b, Q2 b -> Forall Q3 (map (fun a => f a b) x)).
    { intros b Hb. apply Forall_forall. intros u Hu. apply in_map_iff in Hu as (a & <- & Ha). rewrite Forall_forall in Hx. auto. }
    destruct x as [|a [|a' x]]; destruct y as [|b [|b' y]]; intros E; try discriminate; injection E as <-;
      try (apply (G1 a); inversion Hx; auto); try (apply (G2 b); inversion Hy; auto).
Qed.
Lemma forall_map (Q1 Q2 : A -> Prop) f x : (forall a, Q1 a -> Q2 (f a)) -> Forall Q1 x -> Forall Q2 (map f x).
Proof. intros Hf Hx. induction Hx; cbn; constructor; auto. Qed.
Lemma all_ints x : Forall W (map to_int x).
Proof. induction x; cbn; constructor; auto. Qed.

Definition rounded : Prop := parse_kind (m_splineKind c) <> Some Akima.
Hypothesis HR : rounded.
Lemma points_int kind (T : vec) ext v : parse_kind kind <> Some Akima -> splinePoints_int spl kind T ext = Ok v -> Forall W v.
Proof.
  intros Hk E. unfold splinePoints_int in E. apply bind_ok in E as (t & _ & E).
  destruct (parse_kind kind) as [[]|]; try discriminate; try congruence.
  - destruct (3 <? zlen ext).
    + apply bind_ok in E as (u & _ & E). injection E as <-. apply all_ints.
    + apply bind_ok in E as ([u q] & _ & E). injection E as <-. apply all_ints.
  - apply bind_ok in E as (u & _ & E). injection E as <-. apply all_ints.
  - apply bind_ok in E as (u & _ & E). injection E as <-. apply all_ints.
  - apply bind_ok in E as (u & _ & E). injection E as <-. apply all_ints.
Qed.
Lemma extract_int (T x : vec) up low : extractMaxMinSpline_int spl c T x = Ok (Some (up, low)) -> Forall W up /\ Forall W low.
Proof.
  unfold extractMaxMinSpline_int. intros E. apply bind_ok in E as (e & _ & E). destruct (ext_no e <? 3); [discriminate|].
  apply bind_ok in E as ([maxE minE] & _ & E). apply bind_ok in E as (a & E1 & E). apply bind_ok in E as (b & E2 & E).
  injection E as <- <-. split; eapply points_int; eauto.
Qed.
Lemma m_sift_int_keeps fuel (T : vec) n n_h ext imf mean imf' n' ext' nf : Forall P imf -> Forall P mean ->
  m_sift_int spl fuel c T n n_h ext imf mean = Ok (imf', n', ext', nf) -> Forall P imf'.
Proof.
  revert n n_h ext imf mean. induction fuel as [|fuel IH]; intros n n_h ext imf mean Hi Hm E; cbn [m_sift_int] in E; [discriminate|].
  destruct (m_MAX_ITERATION c <=? n). { injection E as <- <- <- <-. auto. }
  apply bind_ok in E as (e & E1 & E).
  destruct (Z.ltb_spec 2 (ext_no e)) as [L|L]. 2:{ injection E as <- <- <- <-. auto. }
  apply bind_ok in E as (imf1 & E2 & E).
  assert (Hi1 : Forall P imf1).
  { eapply (forall_broadcast P P P); [exact Psub|exact Hi| |exact E2]. eapply forall_map; [exact Pscale|exact Hm]. }
  apply bind_ok in E as (env & E3 & E). destruct env as [[up low]|]. 2:{ injection E as <- <- <- <-. auto. }
  apply bind_ok in E as (sum & E4 & E). cbv zeta in E.
  assert (Hm1 : Forall P (map (nmul nhalf) sum)).
  { apply extract_int in E3 as [H1 H2]. apply (forall_map (fun s => P (nmul nhalf s)) P); [auto|].
    eapply (forall_broadcast W W); [exact Pmean|exact H1|exact H2|exact E4]. }
  destruct (maxIteration c <? n + 1). { injection E as <- <- <- <-. auto. }
  destruct (negb (m_FIXE c =? 0)).
  { destruct (m_FIXE c + 1 <=? n + 1). { injection E as <- <- <- <-. auto. } eauto. }
  apply bind_ok in E as (e' & E5 & E). destruct (negb (m_FIXE_H c =? 0)).
  { destruct (n + 1 =? 1); [eauto|]. destruct (m_FIXE_H c <=? _). { injection E as <- <- <- <-. auto. } eauto. }
  apply bind_ok in E as (f1 & E6 & E). destruct (f1 && _). { injection E as <- <- <- <-. auto. } eauto.
Qed.
Lemma m_loop_int_keeps fuel (T : vec) k Res imf rows ext rows' ext' : Forall P Res -> Forall P imf ->
  (forall r, In r rows -> Forall P (row_imf r)) ->
  m_loop_int spl fuel c T k Res imf rows ext = Ok (rows', ext') -> forall r, In r rows' -> Forall P (row_imf r).
Proof.
  revert Res imf rows ext. induction fuel as [|fuel IH]; intros Res imf rows ext HR1 Hi HI E; cbn [m_loop_int] in E; [discriminate|].
  apply bind_ok in E as (R & E1 & E). apply (forall_broadcast P P P) in E1; auto.
  apply bind_ok in E as ([[[imf1 n1] ext1] nf] & E2 & E).
  apply m_sift_int_keeps in E2; auto. 2:{ apply (forall_map P P); auto. intros; apply WP. }
  assert (HI' : forall r, In r (rows ++ [MkRow imf1 ext1 n1]) -> Forall P (row_imf r)).
  { intros r Hr. apply in_app_iff in Hr as [Hr|[<-|[]]]; auto. }
  destruct (_ =? k - 1). { injection E as <- <-. exact HI'. }
  destruct nf. { eapply IH; [| | |exact E]; auto. } injection E as <- <-. exact HI'.
Qed.
Lemma m_emd_int_loop_keeps fuel S T k rows no : m_emd_int spl fuel c S T k = Ok (rows, no) ->
  exists rs ext, (forall r, In r rs -> Forall P (row_imf r)) /\ shaped (length S) (map row_imf rs) /\
    let Sf := map nofZ S in let R := vsub Sf (sum_rows (length Sf) (map row_imf rs)) in
    rows = (if nltb (nlit 1 (10 ^ 10)) (nsum (map nabs R)) then rs ++ [MkRow R ext 0] else rs).
Proof.
  intros E. apply m_emd_int_ok in E as (rs & ext & t & Lt & _ & E). cbv zeta in E. destruct E as (E & _ & HS & ER).
  exists rs, ext. split; [|split; auto].
  eapply m_loop_int_keeps; [| | |exact E].
  - apply Forall_forall. intros x Hx. apply in_map_iff in Hx as (z & <- & _). apply WP.
  - apply Forall_forall. intros x Hx. apply in_map_iff in Hx as (z & <- & _). apply WP.
  - intros r [].
Qed.
End Gen.

(** ** Exact arithmetic *)
Lemma whole_ofZ z : whole (Qc_ofZ z). Proof. exists z. reflexivity. Qed.
Lemma inj_plus a b : (Qc_ofZ a + Qc_ofZ b)%Qc = Qc_ofZ (a + b).
Proof. apply Qc_is_canon. unfold Qc_ofZ, Qcplus. cbn [this Q2Qc]. rewrite !Qred_correct. rewrite inject_Z_plus. reflexivity. Qed.
Lemma inj_minus a b : (Qc_ofZ a - Qc_ofZ b)%Qc = Qc_ofZ (a - b).
Proof.
  replace (a - b) with (a + - b) by lia. rewrite <- inj_plus. unfold Qcminus. f_equal.
  apply Qc_is_canon. unfold Qc_ofZ, Qcopp. cbn [this Q2Qc]. rewrite !Qred_correct. rewrite inject_Z_opp. reflexivity.
Qed.
Lemma inj_mult a b : (Qc_ofZ a * Qc_ofZ b)%Qc = Qc_ofZ (a * b).
Proof. apply Qc_is_canon. unfold Qc_ofZ, Qcmult. cbn [this Q2Qc]. rewrite !Qred_correct. rewrite inject_Z_mult. reflexivity. Qed.
Lemma whole_plus x y : whole x -> whole y -> whole (x + y)%Qc.
Proof. intros [a ->] [b ->]. exists (a + b). apply inj_plus. Qed.
Lemma whole_minus x y : whole x -> whole y -> whole (x - y)%Qc.
Proof. intros [a ->] [b ->]. exists (a - b). apply inj_minus. Qed.
Lemma whole_mult x y : whole x -> whole y -> whole (x * y)%Qc.
Proof. intros [a ->] [b ->]. exists (a * b). apply inj_mult. Qed.
Lemma halves_whole x : whole x -> halves x.
Proof. intros. apply whole_plus; auto. Qed.
Lemma halves_minus x y : halves x -> halves y -> halves (x - y)%Qc.
Proof. intros Hx Hy. unfold halves. replace (x - y + (x - y))%Qc with (x + x - (y + y))%Qc by ring. apply whole_minus; auto. Qed.
Lemma halves_plus x y : halves x -> halves y -> halves (x + y)%Qc.
Proof. intros Hx Hy. unfold halves. replace (x + y + (x + y))%Qc with (x + x + (y + y))%Qc by ring. apply whole_plus; auto. Qed.
Lemma halves_scale s x : whole s -> halves x -> halves (s * x)%Qc.
Proof. intros Hs Hx. unfold halves. replace (s * x + s * x)%Qc with (s * (x + x))%Qc by ring. apply whole_mult; auto. Qed.
Lemma two_halves : (nhalf + nhalf = 1)%Qc. Proof. apply Qc_is_canon. reflexivity. Qed.
Lemma halves_mean x y : whole x -> whole y -> halves (nhalf * (x + y))%Qc.
Proof.
  intros Hx Hy. unfold halves. replace (nhalf * (x + y) + nhalf * (x + y))%Qc with ((nhalf + nhalf) * (x + y))%Qc by ring.
  rewrite two_halves, Qcmult_1_l. apply whole_plus; auto.
Qed.
Lemma halves_total M i : (forall r, In r M -> halves (nth i r 0%Qc)) -> halves (total_at M i).
Proof.
  induction M as [|r M IH]; intros HM. { apply halves_whole. exists 0. reflexivity. }
  change (total_at (r :: M) i) with (nth i r 0 + total_at M i)%Qc. apply halves_plus; [apply HM; left; auto|]. apply IH. intros; apply HM; right; auto.
Qed.
Lemma halves_nth r i : Forall halves r -> halves (nth i r 0%Qc).
Proof.
  intros HF. destruct (Nat.lt_ge_cases i (length r)) as [L|L].
  - rewrite Forall_forall in HF. apply HF, nth_In, L.
  - rewrite nth_overflow by auto. apply halves_whole. exists 0. reflexivity.
Qed.
(** A multiple of one half that is not zero is far from zero. *)
Lemma halves_far x : halves x -> absolute x = 0%Qc \/ (Q2Qc (1 # 2) <= absolute x)%Qc.
Proof.
  intros [z Hz]. assert (Hz' : (x = Qc_ofZ z / (1 + 1))%Qc).
  { change (Q2Qc (inject_Z z)) with (Qc_ofZ z) in Hz. rewrite <- Hz. field. discriminate. }
  assert (HL : forall a b, a <= b -> (Qc_ofZ a <= Qc_ofZ b)%Qc).
  { intros a b L. unfold Qcle, Qc_ofZ. cbn [this Q2Qc]. rewrite !Qred_correct. rewrite <- Zle_Qle. exact L. }
  assert (E1 : Qc_ofZ 1 = 1%Qc) by (apply Qc_is_canon; reflexivity). assert (E2 : Qc_ofZ (-1) = (- (1))%Qc) by (apply Qc_is_canon; reflexivity).
  assert (E0 : Q2Qc (1 # 2) = (1 / (1 + 1))%Qc) by (apply Qc_is_canon; reflexivity).
  assert (D : (x = x / (1+1) + x / (1 + 1))%Qc) by (field; discriminate).
  destruct (Z.eq_dec z 0) as [->|Nz].
  - left. assert (x = 0%Qc). { rewrite Hz'. apply Qc_is_canon. reflexivity. } subst x. apply Qc_is_canon. reflexivity.
  - right. rewrite E0. unfold absolute. assert (G : (1 <= - Qc_ofZ z \/ 1 <= Qc_ofZ z)%Qc).
    { destruct (Z.lt_ge_cases z 0) as [L|L].
      - left. pose proof (HL z (-1) ltac:(lia)) as G. rewrite E2 in G. qclra.
      - right. rewrite <- E1. apply HL. lia. }
    change (Q2Qc (inject_Z z)) with (Qc_ofZ z) in Hz. assert (T : (1 / (1 + 1) + 1 / (1 + 1) = 1)%Qc) by (field; discriminate).
    set (h := (1 / (1 + 1))%Qc) in *. clearbody h. clear D Hz'. set (w := Qc_ofZ z) in *. clearbody w. destruct (Qclt_le_dec x 0); destruct G; qclra.
Qed.
Lemma absolute_pos x : (0 <= absolute x)%Qc.
Proof. unfold absolute. destruct (Qclt_le_dec x 0); qclra. Qed.
Lemma absolute_zero x : absolute x = 0%Qc -> x = 0%Qc.
Proof. unfold absolute. destruct (Qclt_le_dec x 0); intros E; auto. replace x with (- - x)%Qc by ring. rewrite E. ring. Qed.
Lemma total_pos l : (0 <= total (map absolute l))%Qc.
Proof. induction l as [|x l IH]; cbn [map total fold_right]; [qclra|]. change (fold_right Qcplus 0 (map absolute l))%Qc with (total (map absolute l)). pose proof (absolute_pos x). qclra. Qed.
Lemma tiny_halves v : Forall halves v -> tiny v -> Forall (fun x => x = 0%Qc) v.
Proof.
  unfold tiny. assert (HB : (Q2Qc (1 # 10000000000) < Q2Qc (1 # 2))%Qc) by reflexivity.
  set (b := Q2Qc (1 # 10000000000)) in *. set (h := Q2Qc (1 # 2)) in *.
  assert (G : Forall halves v -> (total (map absolute v) < h)%Qc -> Forall (fun x => x = 0%Qc) v).
  { induction v as [|x v IH]; intros HF L; [constructor|]. inversion HF as [|? ? Hx Hv]; subst. cbn [map] in L.
    change (total (absolute x :: map absolute v)) with (absolute x + total (map absolute v))%Qc in L.
    pose proof (total_pos v) as P0. pose proof (absolute_pos x) as P1.
    constructor.
    - apply absolute_zero. destruct (halves_far x Hx) as [E|E]; auto. exfalso. fold h in E. qclra.
    - apply IH; auto. qclra. }
  intros HF L. apply G; auto. qclra.
Qed.

Section Exact.
Variables (spl : spline_oracle Qc) (c : m_config Qc).
Lemma m_int_sum fuel S T k rows no : m_emd_int spl fuel c S T k = Ok (rows, no) ->
  adds_up (map row_imf rows) (map Qc_ofZ S) \/
  exists R, remainder (map Qc_ofZ S) (map row_imf rows) R /\ tiny R.
Proof.
  intros E. apply m_emd_int_ok in E as (rs & ext & t & Lt & HT & E). cbv zeta in E. destruct E as (_ & _ & HS & Er).
  change (map nofZ S) with (map Qc_ofZ S) in Er. fold (residual (map Qc_ofZ S) rs) in Er.
  rewrite <- (map_length Qc_ofZ S) in HS.
  destruct (nltb _ _) eqn:D in Er; subst rows.
  - left. intros i Hi. rewrite map_app, total_at_app. cbn [map row_imf]. rewrite total_at_one.
    rewrite Qcplus_comm. apply residue_spec. auto.
  - right. exists (residual (map Qc_ofZ S) rs). split; [apply residual_remainder; auto|]. apply tiny_iff. exact D.
Qed.
Lemma m_int_exact fuel S T k rows no :
  parse_kind (m_splineKind c) <> Some Akima -> whole (reduceScale c) ->
  m_emd_int spl fuel c S T k = Ok (rows, no) ->
  adds_up (map row_imf rows) (map Qc_ofZ S) /\ (forall r, In r rows -> Forall halves (row_imf r)).
Proof.
  intros HK Hs E. pose proof (m_int_shaped _ _ _ _ _ _ _ _ E) as [HM _].
  apply (m_emd_int_loop_keeps spl c whole halves) in E; auto.
  2:{ intros x. apply whole_ofZ. }
  2:{ intros z. apply halves_whole, whole_ofZ. }
  2:{ apply halves_mean. }
  2:{ apply halves_minus. }
  2:{ intros x. apply halves_scale. auto. }
  destruct E as (rs & ext & Hr & HS & ER). cbv zeta in ER.
  change (map nofZ S) with (map Qc_ofZ S) in ER. fold (residual (map Qc_ofZ S) rs) in ER.
  rewrite <- (map_length Qc_ofZ S) in HS.
  pose proof (residual_remainder _ _ HS) as [HL HV].
  assert (HR : Forall halves (residual (map Qc_ofZ S) rs)).
  { apply Forall_forall. intros x Hx. apply In_nth with (d := 0%Qc) in Hx as (i & Hi & <-).
    rewrite HV by (rewrite <- HL; exact Hi). apply halves_minus.
    - apply halves_nth. apply Forall_forall. intros y Hy. apply in_map_iff in Hy as (z & <- & _). apply halves_whole, whole_ofZ.
    - apply halves_total. intros r Hr'. apply in_map_iff in Hr' as (q & <- & Hq). apply halves_nth. auto. }
  destruct (nltb _ _) eqn:D in ER; subst rows.
  - split.
    + intros i Hi. rewrite map_app, total_at_app. cbn [map row_imf]. rewrite total_at_one.
      rewrite Qcplus_comm. apply residue_spec. auto.
    + intros r Hr'. apply in_app_iff in Hr' as [Hr'|[<-|[]]]; auto.
  - split; auto. apply tiny_iff in D. pose proof (tiny_halves _ HR D) as Z0. intros i Hi. specialize (HV i Hi).
    rewrite Forall_forall in Z0. rewrite (Z0 (nth i _ _)) in HV by (apply nth_In; rewrite HL; exact Hi).
    replace (nth i (map Qc_ofZ S) 0%Qc) with (nth i (map Qc_ofZ S) 0 - total_at (map row_imf rs) i + total_at (map row_imf rs) i)%Qc by ring.
    rewrite <- HV. ring.
Qed.
End Exact.
