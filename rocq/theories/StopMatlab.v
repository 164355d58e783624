(** * StopMatlab: EMD_matlab stops sifting as soon as the rule is met (lemmas). *)
From Verif Require Import PyFacts QcFacts Emd Matlab Spec MatlabSpec StopSpec Runs EmdProofs EmdControl EmdExact EmdStop Stop StopTop ExtremaProofs MatlabProofs MatlabRun EmdSimple PrepareProofs.
From Coq Require Import ZifyBool ZifyNat Lia QArith Qcanon.
From Coq Require Import List.
Import ListNotations.
Open Scope Z_scope.

Lemma stretch_all v : stretch (length v) v = v.
Proof.
  unfold stretch. destruct v as [|a [|b v]]; auto. apply nth_ext with (d := env_at (a :: b :: v) 0) (d' := 0%Qc); [rewrite map_length, seq_length; auto|].
  intros i Hi. rewrite map_length, seq_length in Hi. rewrite (map_nth (env_at (a :: b :: v))), seq_nth by auto. reflexivity.
Qed.
Lemma stretch_one n a : stretch n [a] = repeat a n.
Proof. unfold stretch. generalize 0%nat. induction n; intros k; cbn [seq map repeat]; auto. f_equal. apply IHn. Qed.
Lemma broadcast_stretch {D} (f : Qc -> Qc -> D) up low z : broadcast2 f up low = Ok z ->
  z = map2 f (stretch (span up low) up) (stretch (span up low) low).
Proof.
  unfold broadcast2, span. destruct (Nat.eqb_spec (length up) (length low)) as [L|L].
  - intros E. injection E as <-. destruct (Nat.eqb_spec (length up) 1) as [L1|L1].
    + destruct up as [|a [|? ?]]; try discriminate. destruct low as [|b [|? ?]]; try discriminate. reflexivity.
    + rewrite stretch_all, L, stretch_all. reflexivity.
  - destruct (Nat.eqb_spec (length up) 1) as [L1|L1].
    + destruct up as [|a [|? ?]]; try discriminate. intros E.
      assert (E' : z = map (f a) low) by congruence. rewrite stretch_all, stretch_one. subst z. clear.
      induction low; cbn; auto. f_equal. auto.
    + intros E. assert (exists b, low = [b] /\ z = map (fun a => f a b) up) as (b & -> & ->).
      { destruct up as [|a [|a' up]]; [|cbn in L1; congruence|]; destruct low as [|b [|? ?]]; try discriminate; injection E as <-; eauto. }
      rewrite stretch_all, stretch_one. clear. induction up; cbn; auto. f_equal. auto.
Qed.
Lemma broadcast_ok_any {B C D D'} (f : B -> C -> D) (g : B -> C -> D') x y z : broadcast2 f x y = Ok z -> exists w, broadcast2 g x y = Ok w.
Proof.
  unfold broadcast2. destruct (Nat.eqb _ _); eauto. destruct x as [|a [|a' x]], y as [|b [|b' y]]; eauto; discriminate.
Qed.
Lemma stretch_length n v : length (stretch n v) = n.
Proof. unfold stretch. rewrite map_length. apply seq_length. Qed.
Lemma stop_sifting_stretch c up low sum ext : broadcast2 nadd up low = Ok sum ->
  (stop_sifting c up low (map (nmul nhalf) sum) ext = Ok true <->
   settled (stop1 c) (stop2 c) (stop3 c) (stretch (span up low) up) (stretch (span up low) low) /\ 2 < ext).
Proof.
  intros E. pose proof (broadcast_stretch _ _ _ _ E) as Es. set (u := stretch (span up low) up) in *. set (v := stretch (span up low) low) in *.
  assert (L : length u = length v) by (unfold u, v; rewrite !stretch_length; reflexivity).
  rewrite <- (stop_sifting_settled c u v sum ext L) by (rewrite broadcast2_eq by auto; congruence).
  destruct (broadcast_ok_any _ nsub _ _ _ E) as (w & Ew). pose proof (broadcast_stretch _ _ _ _ Ew) as Es'. fold u v in Es'.
  unfold stop_sifting. rewrite Ew, broadcast2_eq by auto. rewrite <- Es'. reflexivity.
Qed.

Section Rows.
Variable spl : spline_oracle Qc.
Variable c : m_config Qc.
Variable T : list Qc.
Definition m_balanced (x : list Qc) : Prop := exists e, findExtrema T x = Ok e /\ Z.abs (ext_no e - zlen (indzer e)) <= 1.
Definition m_good (x : list Qc) : Prop :=
  exists up low e, extractMaxMinSpline spl c T x = Ok (Some (up, low)) /\ findExtrema T x = Ok e /\
    settled (stop1 c) (stop2 c) (stop3 c) (stretch (span up low) up) (stretch (span up low) low) /\ 2 < ext_no e /\
    Z.abs (ext_no e - zlen (indzer e)) <= 1.
Definition mbal (x : list Qc) : bool := match findExtrema T x with Ok e => Z.abs (ext_no e - zlen (indzer e)) <? 2 | _ => false end.
Definition mpass (x : list Qc) : bool :=
  match extractMaxMinSpline spl c T x with
  | Ok (Some (up, low)) =>
    match broadcast2 nadd up low with
    | Ok sum => match findExtrema T x with
      | Ok e => okb (stop_sifting c up low (map (nmul nhalf) sum) (ext_no e)) && (Z.abs (ext_no e - zlen (indzer e)) <? 2) | _ => false end
    | _ => false end
  | _ => false end.
Lemma mbal_iff x : mbal x = true <-> m_balanced x.
Proof.
  unfold mbal, m_balanced. split.
  - destruct (findExtrema _ _) as [e|]; [|discriminate]. intros E. exists e. split; auto. lia.
  - intros (e & -> & E). lia.
Qed.
Lemma mpass_iff x : (forall up low, extractMaxMinSpline spl c T x = Ok (Some (up, low)) -> exists sum, broadcast2 nadd up low = Ok sum) ->
  mpass x = true <-> m_good x.
Proof.
  unfold mpass, m_good. intros HB. split.
  - destruct (extractMaxMinSpline _ _ _ _) as [[[up low]|]|]; try discriminate. destruct (broadcast2 _ _ _) as [sum|] eqn:Es; [|discriminate].
    destruct (findExtrema _ _) as [e|]; [|discriminate]. intros E. apply andb_true_iff in E as [E1 E2].
    exists up, low, e. split; auto. split; auto. destruct (stop_sifting _ _ _ _ _) as [b|] eqn:Eb; [|discriminate]. cbn in E1. subst b.
    apply stop_sifting_stretch in Eb as [G1 G2]; auto. split; auto. split; auto. lia.
  - intros (up & low & e & E1 & E2 & E3 & E4 & E5). destruct (HB _ _ E1) as (sum & Es). rewrite E1, Es, E2.
    assert (G : stop_sifting c up low (map (nmul nhalf) sum) (ext_no e) = Ok true) by (apply stop_sifting_stretch; auto).
    rewrite G. cbn. lia.
Qed.
Definition mstop (l : list (list Qc)) : bool :=
  if m_FIXE_H c =? 0 then match rev l with x :: _ => mpass x | [] => false end else m_FIXE_H c <=? trail mbal l.

(** The envelopes of an array that was sifted can be added. *)
Definition addable (x : list Qc) : Prop := forall up low, extractMaxMinSpline spl c T x = Ok (Some (up, low)) -> exists sum, broadcast2 nadd up low = Ok sum.
Definition m_result (R x : list Qc) : Prop :=
  exists l, visits (m_step spl c T) R l x /\ first_at mstop [] l /\
    (mstop l = true /\ Forall addable l \/ few T x /\ Forall addable (removelast l) \/ Forall addable l /\ (maxIteration c <= zlen l - 1 \/ m_MAX_ITERATION c <= zlen l)).

Lemma visits_nonempty {X} (step : X -> X -> Prop) x l y : visits step x l y -> l <> [].
Proof. intros []; [discriminate|]. destruct l0; discriminate. Qed.
Lemma first_snoc {X} (stop : list X -> bool) l x : first_at stop [] l -> (l <> [] -> stop l = false) -> first_at stop [] (l ++ [x]).
Proof.
  intros H1 H2 e q E He Hq. cbn. destruct q as [|a q _] using rev_ind; [congruence|]. rewrite app_assoc in E. apply app_inj_tail in E as [-> ->].
  destruct q as [|b q]; [rewrite app_nil_r in *; auto|]. apply (H1 e (b :: q)); auto. discriminate.
Qed.
Lemma removelast_snoc {X} (l : list X) x : removelast (l ++ [x]) = l.
Proof. rewrite removelast_app by discriminate. cbn. apply app_nil_r. Qed.
Lemma forall_removelast {X} (P : X -> Prop) l : Forall P l -> Forall P (removelast l).
Proof.
  destruct l as [|x l _] using rev_ind; auto. rewrite removelast_snoc. intros H. apply Forall_app in H. tauto.
Qed.
Lemma m_sift_until R fuel : forall l n nh ext x mean x' n' ext' nf,
  1 <= m_MAX_ITERATION c -> m_FIXE c = 0 -> 0 <= m_FIXE_H c ->
  (n = 0 /\ l = [] /\ nh = 0 /\ x = R /\ mean = map (fun _ => n0) R \/
   0 < n /\ visits (m_step spl c T) R l x /\ zlen l = n /\ first_at mstop [] l /\ mstop l = false /\ Forall addable l /\ (m_FIXE_H c <> 0 -> nh = trail mbal l) /\
     exists up low sum, extractMaxMinSpline spl c T x = Ok (Some (up, low)) /\ broadcast2 nadd up low = Ok sum /\ mean = map (nmul nhalf) sum) ->
  m_sift spl fuel c T n nh ext x mean = Ok (x', n', ext', nf) -> m_result R x'.
Proof.
  induction fuel as [|fuel IH]; intros l n nh ext x mean x' n' ext' nf HM HX HH Hinv E; cbn [m_sift] in E; [discriminate|].
  destruct (Z.leb_spec (m_MAX_ITERATION c) n) as [LM|LM].
  { injection E as <- <- <- <-. destruct Hinv as [(-> & _)|(Hn & V & Hz & F & _ & FA & _)]; [lia|]. exists l. split; auto. split; auto. right. right. split; auto. lia. }
  apply bind_ok in E as (e & E1 & E). cbv zeta in E.
  destruct (Z.ltb_spec 2 (ext_no e)) as [L|L].
  2:{ injection E as <- <- <- <-. destruct Hinv as [(-> & -> & _ & -> & _)|(Hn & V & Hz & F & _ & FA & _)].
      - exists [R]. split; [constructor|]. split; [apply first_cons; [congruence|apply first_nil]|]. right. left. split; [exists e; auto|constructor].
      - exists l. split; auto. split; auto. right. left. split; [exists e; auto|apply forall_removelast; auto]. }
  assert (L1 : length x <> 1%nat).
  { intros L1. destruct x as [|a [|? ?]]; try discriminate. apply one_sample in E1. lia. }
  apply bind_ok in E as (y & E2 & E).
  assert (V : visits (m_step spl c T) R (l ++ [y]) y /\ zlen (l ++ [y]) = n + 1 /\ first_at mstop [] (l ++ [y]) /\ Forall addable l /\
    (n <> 0 -> l <> []) /\ (n = 0 -> l = [] /\ nh = 0) /\ (m_FIXE_H c <> 0 -> n <> 0 -> nh = trail mbal l)).
  { destruct Hinv as [(-> & -> & -> & -> & ->)|(H0 & V & Hz & F & Hs & FA & Ht & up & low & sum & F1 & F2 & ->)].
    - apply zero_removed in E2 as ->. split; [constructor|]. split; [reflexivity|]. split; [apply first_cons; [congruence|apply first_nil]|].
      split; [constructor|]. split; [lia|]. auto with zarith.
    - split; [econstructor; [exact V|]; exists up, low; split; auto; eapply step_removes; eauto|].
      split; [unfold zlen in *; rewrite app_length; cbn; lia|]. split; [apply first_snoc; auto|]. split; auto.
      split; [intros _; eapply visits_nonempty; eauto|]. split; [lia|]. auto. }
  destruct V as (V & Hz & F & FA & Hl & Hl0 & Ht).
  apply bind_ok in E as (env & E3 & E). destruct env as [[up low]|].
  2:{ injection E as <- <- <- <-. exists (l ++ [y]). split; auto. split; auto. right. left. split; [|rewrite removelast_snoc; auto].
      unfold extractMaxMinSpline in E3. apply bind_ok in E3 as (e3 & E3 & E4). exists e3. split; auto.
      destruct (Z.ltb_spec (ext_no e3) 3); [lia|]. apply bind_ok in E4 as ([P Q] & _ & E4).
      apply bind_ok in E4 as (? & _ & E4). apply bind_ok in E4 as (? & _ & E4). discriminate. }
  apply bind_ok in E as (sum & E4 & E). cbv zeta in E.
  assert (FA' : Forall addable (l ++ [y])).
  { apply Forall_app. split; auto. constructor; auto. intros u v G. rewrite E3 in G. injection G as <- <-. eauto. }
  destruct (Z.ltb_spec (maxIteration c) (n + 1)) as [LI|LI].
  { injection E as <- <- <- <-. exists (l ++ [y]). split; auto. split; auto. right. right. split; auto. lia. }
  rewrite HX in E. cbn [Z.eqb negb] in E. apply bind_ok in E as (e' & E5 & E).
  assert (STOP : forall a b d, mstop (l ++ [y]) = true -> Ok (y, a, b, d) = Ok (x', n', ext', nf) -> m_result R x').
  { intros a b d Hs G. injection G as <- _ _ _. exists (l ++ [y]). auto. }
  assert (GO : forall nh' e0, mstop (l ++ [y]) = false -> (m_FIXE_H c <> 0 -> nh' = trail mbal (l ++ [y])) ->
    m_sift spl fuel c T (n + 1) nh' e0 y (map (nmul nhalf) sum) = Ok (x', n', ext', nf) -> m_result R x').
  { intros nh' e0 Hs Hnh G. eapply (IH (l ++ [y])); [| | | |exact G]; auto. right.
    split; [unfold zlen in Hz; lia|]. repeat (split; auto). exists up, low, sum. auto. }
  assert (RV : rev (l ++ [y]) = y :: rev l) by (rewrite rev_app_distr; reflexivity).
  destruct (Z.eqb_spec (m_FIXE_H c) 0) as [HY|HY]; cbn [negb] in E.
  - apply bind_ok in E as (f1 & E6 & E).
    assert (SN : mstop (l ++ [y]) = f1 && (Z.abs (ext_no e' - zlen (indzer e')) <? 2)).
    { unfold mstop. rewrite HY, RV. cbn [Z.eqb]. unfold mpass. rewrite E3, E4, E5, E6. reflexivity. }
    rewrite <- SN in E. destruct (mstop (l ++ [y])) eqn:D; revert E; [apply STOP; auto|apply GO; auto].
    intros; lia.
  - assert (SN : mstop (l ++ [y]) = (m_FIXE_H c <=? trail mbal (l ++ [y]))) by (unfold mstop; destruct (Z.eqb_spec (m_FIXE_H c) 0); [lia|reflexivity]).
    assert (BS : (1 <? Z.abs (ext_no e' - zlen (indzer e'))) = negb (mbal y)) by (unfold mbal; rewrite E5; lia).
    destruct (Z.eqb_spec (n + 1) 1) as [N1|N1].
    + destruct (Hl0 ltac:(lia)) as [-> ->]. change (trail mbal ([] ++ [y])) with 0 in *. revert E. apply GO; [rewrite SN; lia|auto].
    + specialize (Hl ltac:(lia)). specialize (Ht HY ltac:(lia)). rewrite (trail_snoc _ _ _ Hl) in *. rewrite BS, Ht in E.
      destruct (mbal y); cbn [negb] in *.
      * destruct (Z.leb_spec (m_FIXE_H c) (trail mbal l + 1)); revert E; [apply STOP; auto|apply GO; auto].
      * destruct (Z.leb_spec (m_FIXE_H c) 0); revert E; [apply STOP; auto|apply GO; auto].
Qed.
End Rows.

Section Top.
Variable spl : spline_oracle Qc.
Variable c : m_config Qc.
Variable T : list Qc.
Lemma few_addable x : few T x -> addable spl c T x.
Proof.
  intros (e & E & HE) up low G. unfold extractMaxMinSpline in G. rewrite E in G. cbn [bind] in G.
  destruct (Z.ltb_spec (ext_no e) 3); [discriminate|lia].
Qed.
Lemma visits_last {X} (step : X -> X -> Prop) x l y : visits step x l y -> exists e, l = e ++ [y].
Proof. intros []; [exists []; reflexivity|eauto]. Qed.
Lemma m_result_until R x : 0 <= m_FIXE_H c -> m_result spl c T R x ->
  exists l, visits (m_step spl c T) R l x /\
    until (fun l => if m_FIXE_H c =? 0 then last_good (m_good spl c T) l else last_all_good (m_balanced T) (Z.to_nat (m_FIXE_H c)) l)
      (few T x \/ maxIteration c <= zlen l - 1 \/ m_MAX_ITERATION c <= zlen l) l.
Proof.
  intros HH (l & V & F & HE). exists l. split; auto.
  assert (FA : Forall (addable spl c T) l).
  { destruct HE as [[_ H]|[[H1 H2]|[H _]]]; auto. destruct (visits_last _ _ _ _ V) as (e & ->). rewrite removelast_snoc in H2.
    apply Forall_app. split; auto. constructor; auto. apply few_addable; auto. }
  apply (first_until (mstop spl c T)); auto.
  - destruct (_ =? 0); [apply none_good|apply none_all_good].
  - intros e q Eq. unfold mstop. destruct (Z.eqb_spec (m_FIXE_H c) 0) as [HZ|HZ].
    + apply last_good_iff. eapply prefix_forall; [|exact Eq]. rewrite Forall_forall in *. intros y Hy. apply mpass_iff. apply FA. auto.
    + rewrite Z.leb_le, <- (trail_iff (mbal T)) by (try lia; apply Forall_forall; intros; apply mbal_iff). lia.
  - pose proof (visits_nonempty _ _ _ _ V). destruct HE as [[H1 _]|[[H1 _]|[_ H1]]]; auto.
Qed.
Lemma m_loop_until S fuel : forall k Res imf rows ext rows' ext',
  1 <= m_MAX_ITERATION c -> m_FIXE c = 0 -> 0 <= m_FIXE_H c ->
  length Res = length S -> length imf = length S ->
  remainder S (map row_imf rows) (map2 nsub Res imf) ->
  m_loop spl fuel c T k Res imf rows ext = Ok (rows', ext') ->
  exists new, rows' = rows ++ new /\ forall j r, nth_error new j = Some r ->
    exists R, remainder S (map row_imf (rows ++ firstn j new)) R /\ m_result spl c T R (row_imf r).
Proof.
  induction fuel as [|fuel IH]; intros k Res imf rows ext rows' ext' HM HX HH L1 L2 HR E; cbn [m_loop] in E; [discriminate|].
  rewrite broadcast2_eq in E by congruence. cbn [bind] in E.
  set (R := map2 nsub Res imf) in *. assert (LR : length R = length S) by apply HR.
  apply bind_ok in E as ([[[imf1 n1] ext1] nf] & E2 & E). cbv zeta in E.
  pose proof (m_sift_length _ _ _ _ _ _ _ _ _ _ _ _ _ E2) as L3. rewrite LR in L3.
  assert (SE : m_result spl c T R imf1).
  { eapply (m_sift_until spl c T R _ []); [| | | |exact E2]; auto. left. auto. }
  assert (One : exists new, rows ++ [MkRow imf1 ext1 n1] = rows ++ new /\ forall j r, nth_error new j = Some r ->
    exists R, remainder S (map row_imf (rows ++ firstn j new)) R /\ m_result spl c T R (row_imf r)).
  { exists [MkRow imf1 ext1 n1]. split; auto. intros [|j] r Hj; [|destruct j; discriminate]. injection Hj as <-.
    exists R. cbn [firstn]. rewrite app_nil_r. auto. }
  destruct (_ =? k - 1). { injection E as <- <-. exact One. }
  destruct nf; [|injection E as <- <-; exact One].
  eapply IH in E as (new & -> & Hnew); auto.
  - exists (MkRow imf1 ext1 n1 :: new). rewrite <- app_assoc. split; auto.
    intros [|j] r Hj.
    + injection Hj as <-. exists R. cbn [firstn]. rewrite app_nil_r. auto.
    + cbn [nth_error firstn] in *. destruct (Hnew j r Hj) as (R' & HR' & SE'). exists R'. rewrite <- app_assoc in HR'. auto.
  - destruct HR as [_ HR]. split; [rewrite map2_length, L3, LR; apply Nat.min_id|]. intros i Hi.
    change (map2 nsub R imf1) with (vsub R imf1). rewrite nth_vsub by congruence. rewrite HR by auto.
    rewrite map_app, total_at_app. cbn [map row_imf]. rewrite total_at_one. ring.
Qed.
End Top.
Lemma m_emd_until spl fuel c S T k rows no : 1 <= m_MAX_ITERATION c -> m_FIXE c = 0 -> 0 <= m_FIXE_H c ->
  m_emd spl fuel c S T k = Ok (rows, no) ->
  exists rs rest, map row_imf rows = map row_imf rs ++ rest /\
    (rest = [] \/ exists R, rest = [R] /\ remainder S (map row_imf rs) R) /\
    forall j r, nth_error rs j = Some r ->
    exists R l, remainder S (map row_imf (firstn j rs)) R /\ visits (m_step spl c (m_time S T)) R l (row_imf r) /\
      until (fun l => if m_FIXE_H c =? 0 then last_good (m_good spl c (m_time S T)) l else last_all_good (m_balanced (m_time S T)) (Z.to_nat (m_FIXE_H c)) l)
        (few (m_time S T) (row_imf r) \/ maxIteration c <= zlen l - 1 \/ m_MAX_ITERATION c <= zlen l) l.
Proof.
  intros HM HX HH E. apply m_emd_ok in E as (rs & ext & t & Lt & HT & E & -> & Er). cbv zeta in Er. fold (residual S rs) in Er.
  assert (HS : shaped (length S) (map row_imf rs)).
  { eapply m_loop_shape; [| | |exact E]; auto; [apply map_length|constructor]. }
  assert (Ht : t = m_time S T) by (unfold m_time; destruct T; [auto|rewrite arange_tz; auto]). rewrite <- Ht.
  exists rs, (if nltb (nlit 1 (10 ^ 10)) (nsum (map nabs (residual S rs))) then [residual S rs] else []). split.
  { destruct (nltb _ _) in *; subst rows; [rewrite map_app; reflexivity|rewrite app_nil_r; reflexivity]. }
  split.
  { destruct (nltb _ _); auto. right. exists (residual S rs). split; auto. apply residual_remainder; auto. }
  eapply m_loop_until with (S := S) in E as (new & -> & Hn); auto; [|apply map_length|].
  2:{ split; [rewrite map2_length, map_length; apply Nat.min_id|]. intros i Hi. change (total_at (map row_imf []) i) with 0%Qc.
      change (map2 nsub S (map (fun _ => n0) S)) with (vsub S (map (fun _ => n0) S)). rewrite nth_vsub by (rewrite map_length; auto).
      f_equal. f_equal. clear. revert i. induction S; intros [|i]; cbn; auto. }
  intros j r Hj. destruct (Hn j r Hj) as (R & HR & HE). apply m_result_until in HE as (l & V & U); auto. exists R, l. auto.
Qed.
Lemma m_until_h spl fuel c S T k rows no : 1 <= m_MAX_ITERATION c -> m_FIXE c = 0 -> 0 < m_FIXE_H c ->
  m_emd spl fuel c S T k = Ok (rows, no) ->
  exists rs rest, map row_imf rows = map row_imf rs ++ rest /\
    (rest = [] \/ exists R, rest = [R] /\ remainder S (map row_imf rs) R) /\
    forall j r, nth_error rs j = Some r ->
    exists R l, remainder S (map row_imf (firstn j rs)) R /\ visits (m_step spl c (m_time S T)) R l (row_imf r) /\
      until (last_all_good (m_balanced (m_time S T)) (Z.to_nat (m_FIXE_H c)))
        (few (m_time S T) (row_imf r) \/ maxIteration c <= zlen l - 1 \/ m_MAX_ITERATION c <= zlen l) l.
Proof.
  intros HM HX HH E. apply m_emd_until in E as (rs & rest & E1 & E2 & E3); auto; [|lia]. exists rs, rest. split; auto. split; auto.
  intros j r Hj. destruct (E3 j r Hj) as (R & l & H1 & H2 & H3). exists R, l. split; auto. split; auto.
  destruct (Z.eqb_spec (m_FIXE_H c) 0); [lia|]. exact H3.
Qed.
Lemma m_until spl fuel c S T k rows no : 1 <= m_MAX_ITERATION c -> m_FIXE c = 0 -> m_FIXE_H c = 0 ->
  m_emd spl fuel c S T k = Ok (rows, no) ->
  exists rs rest, map row_imf rows = map row_imf rs ++ rest /\
    (rest = [] \/ exists R, rest = [R] /\ remainder S (map row_imf rs) R) /\
    forall j r, nth_error rs j = Some r ->
    exists R l, remainder S (map row_imf (firstn j rs)) R /\ visits (m_step spl c (m_time S T)) R l (row_imf r) /\
      until (last_good (m_good spl c (m_time S T)))
        (few (m_time S T) (row_imf r) \/ maxIteration c <= zlen l - 1 \/ m_MAX_ITERATION c <= zlen l) l.
Proof.
  intros HM HX HH E. apply m_emd_until in E as (rs & rest & E1 & E2 & E3); auto; [|lia]. exists rs, rest. split; auto. split; auto.
  intros j r Hj. destruct (E3 j r Hj) as (R & l & H1 & H2 & H3). exists R, l. split; auto. split; auto.
  rewrite HH in H3. exact H3.
Qed.
