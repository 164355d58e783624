(** * Limit: what a limit on the number of components cuts off (every arithmetic). *)
From Verif Require Import PyFacts Emd EmdProofs EmdSym Image Ceemdan Matlab.
From Coq Require Import ZifyBool ZifyNat.
Open Scope Z_scope.

(** The limit [k'] allows at least as many components as [k >= 1]; 0 and negative numbers mean
    no limit. *)
Definition looser (k k' : Z) : Prop := 1 <= k /\ (k' <= 0 \/ k <= k').

Lemma zlen_snoc {X} (l : list X) x : zlen (l ++ [x]) = zlen l + 1.
Proof. unfold zlen. rewrite app_length. cbn [length]. lia. Qed.
Lemma prefix_firstn {X} (R Y : list X) k : zlen R = k -> firstn (Z.to_nat k) (R ++ Y) = R.
Proof. unfold zlen. intros E. rewrite firstn_app. replace (Z.to_nat k - length R)%nat with O by lia. rewrite firstn_all2 by lia. cbn [firstn]. apply app_nil_r. Qed.

Section Limit.
Context {A : Type} `{Num A}.

Section Emd1.
Variable spl : spline_oracle A.

Lemma loop_limit c (S T : list A) k k' : looser k k' -> forall fuel IMF ext R' e', zlen IMF < k ->
  emd_loop spl fuel c S T k' IMF ext = Ok (R', e') ->
  exists R e, emd_loop spl fuel c S T k IMF ext = Ok (R, e) /\
    ((R, e) = (R', e') /\ zlen R <= k \/ zlen R = k /\ exists X, X <> [] /\ R' = R ++ X).
Proof.
  intros [Hk Hkk]. induction fuel as [|fuel IH]; intros IMF ext R' e' HI; cbn [emd_loop]; [discriminate|].
  assert (HZ : 0 <= zlen IMF) by (unfold zlen; lia).
  intros E. apply bind_ok in E as ([[imf e1] fin] & E1 & E). apply bind_ok in E as (st & E2 & E).
  rewrite E1. cbn [bind]. rewrite E2. cbn [bind]. rewrite zlen_snoc in *.
  destruct st; cbn [orb] in *.
  { apply ok_inv in E. apply pair_inv in E as [-> ->]. do 2 eexists. split; [reflexivity|]. left. split; auto. rewrite zlen_snoc. lia. }
  destruct (Z.eqb_spec (zlen IMF + 1) k) as [Ek|Ek].
  - do 2 eexists. split; [reflexivity|]. destruct (Z.eqb_spec (zlen IMF + 1) k') as [Ek'|Ek'].
    { apply ok_inv in E. apply pair_inv in E as [-> ->]. left. split; auto. rewrite zlen_snoc. lia. }
    destruct fin. { apply ok_inv in E. apply pair_inv in E as [-> ->]. left. split; auto. rewrite zlen_snoc. lia. }
    right. split; [rewrite zlen_snoc; lia|]. apply emd_loop_prefix in E as (X & HX & ->). eauto.
  - destruct (Z.eqb_spec (zlen IMF + 1) k') as [Ek'|Ek']; [lia|].
    destruct fin. { apply ok_inv in E. apply pair_inv in E as [-> ->]. do 2 eexists. split; [reflexivity|]. left. split; auto. rewrite zlen_snoc. lia. }
    apply IH; auto. rewrite zlen_snoc. lia.
Qed.
Lemma removelast_prefix {X} (R Y : list X) : Y <> [] -> removelast (R ++ Y) = R ++ removelast Y.
Proof. intros HY. apply removelast_app. exact HY. Qed.

Lemma emd_limit fuel c (S : list A) T k k' o' : looser k k' -> emd spl fuel c S T k' = Ok o' ->
  exists o, emd spl fuel c S T k = Ok o /\
    (o = o' \/ k <= zlen (imfs o') /\ (imfs o = firstn (Z.to_nat k) (imfs o') \/ imfs o = firstn (Z.to_nat (k - 1)) (imfs o'))).
Proof.
  intros HK. unfold emd. intros E. apply bind_ok in E as (t & Et & E). rewrite Et. cbn [bind].
  destruct (negb _); [discriminate|]. apply bind_ok in E as ([R' e'] & El & E). apply ok_inv in E. subst o'.
  destruct (loop_limit c S t k k' HK fuel [] (-1) R' e') as (R & e & Er & D); auto.
  { unfold zlen. cbn [length]. destruct HK. lia. }
  rewrite Er. cbn [bind]. eexists. split; [reflexivity|].
  destruct D as [[D _]|(HL & X & HX & ->)].
  { apply pair_inv in D as [-> ->]. left. reflexivity. }
  right. unfold emd_finish. cbv zeta. cbn [imfs].
  assert (Q : exists Y, (if e' <=? 2 then removelast (R ++ X) else R ++ X) = R ++ Y).
  { destruct (e' <=? 2); [rewrite removelast_prefix by auto|]; eauto. }
  destruct Q as [Y ->]. split. { unfold zlen in *. rewrite app_length. lia. }
  destruct (e <=? 2).
  - right. destruct R as [|x R0 _] using rev_ind; [destruct HK; unfold zlen in HL; cbn [length] in HL; lia|]. rewrite removelast_last, <- app_assoc.
    symmetry. apply prefix_firstn. rewrite zlen_snoc in HL. lia.
  - left. symmetry. apply prefix_firstn. auto.
Qed.

Lemma sift_fixe c T : FIXE c <> 0 -> forall fuel n h ext x y e, n + 1 < MAX_ITERATION c \/ 2 < ext ->
  sift spl fuel c T n h ext x = Ok (y, e, false) -> 2 < e.
Proof.
  intros HF. induction fuel as [|fuel IH]; intros n h ext x y e HM; cbn [sift]; [discriminate|].
  destruct (Z.leb_spec (MAX_ITERATION c) (n + 1)).
  { intros E. apply ok_inv in E. assert (e = ext) by congruence. lia. }
  intros E. apply bind_ok in E as (e1 & E1 & E). destruct (Z.ltb_spec 2 (ext_no e1)); [|discriminate].
  apply bind_ok in E as ([[z P] Q] & E2 & E). destruct (Z.eqb_spec (FIXE c) 0); [contradiction|]. cbn [negb] in E.
  destruct (FIXE c <=? n + 1). { apply ok_inv in E. assert (e = ext_no e1) by congruence. lia. }
  apply IH in E; auto.
Qed.
Lemma emd_limit_fixe fuel c (S : list A) T k k' o' : looser k k' -> FIXE c <> 0 -> 1 < MAX_ITERATION c ->
  emd spl fuel c S T k' = Ok o' ->
  exists o, emd spl fuel c S T k = Ok o /\ imfs o = firstn (Z.to_nat k) (imfs o').
Proof.
  intros HK HF HM. unfold emd. intros E. apply bind_ok in E as (t & Et & E). rewrite Et. cbn [bind].
  destruct (negb _); [discriminate|]. apply bind_ok in E as ([R' e'] & El & E). apply ok_inv in E. subst o'.
  destruct (loop_limit c S t k k' HK fuel [] (-1) R' e') as (R & e & Er & D); auto.
  { unfold zlen. cbn [length]. destruct HK. lia. }
  rewrite Er. cbn [bind]. eexists. split; [reflexivity|].
  destruct D as [[D DL]|(HL & X & HX & ->)].
  { apply pair_inv in D as [-> ->]. unfold emd_finish. cbv zeta. cbn [imfs]. symmetry. apply firstn_all2.
    unfold zlen in *. destruct (e' <=? 2); [|lia]. destruct R' as [|x R0 _] using rev_ind; [cbn; lia|].
    rewrite removelast_last. rewrite app_length in DL. cbn [length] in DL. lia. }
  unfold emd_finish. cbv zeta. cbn [imfs].
  assert (Q : exists Y, (if e' <=? 2 then removelast (R ++ X) else R ++ X) = R ++ Y).
  { destruct (e' <=? 2); [rewrite removelast_prefix by auto|]; eauto. }
  destruct Q as [Y ->].
  assert (G : 2 < e).
  { clear -Er El HF HM HL HX HK.
    assert (W : forall fuel IMF ext, zlen IMF < k -> emd_loop spl fuel c S t k IMF ext = Ok (R, e) ->
      emd_loop spl fuel c S t k' IMF ext = Ok (R ++ X, e') -> 2 < e).
    { clear fuel Er El. induction fuel as [|fuel IH]; intros IMF ext HI; cbn [emd_loop]; [discriminate|].
      assert (HZ : 0 <= zlen IMF) by (unfold zlen; lia).
      intros E E'. apply bind_ok in E as ([[imf e1] fin] & E1 & E). apply bind_ok in E as (st & E2 & E).
      rewrite E1 in E'. cbn [bind] in E'. rewrite E2 in E'. cbn [bind] in E'. rewrite zlen_snoc in *.
      assert (NE : R <> R ++ X). { intros C. apply (f_equal (@length _)) in C. rewrite app_length in C. destruct X; [congruence|cbn [length] in C; lia]. }
      destruct st; cbn [orb] in *. { exfalso. apply NE. congruence. }
      destruct fin.
      { exfalso. destruct (_ =? k), (_ =? k'); apply NE; congruence. }
      destruct (Z.eqb_spec (zlen IMF + 1) k) as [Ek|Ek].
      - assert (e = e1) by congruence. subst e1. eapply (sift_fixe c t HF _ 0); [|exact E1]. left. lia.
      - destruct (Z.eqb_spec (zlen IMF + 1) k') as [Ek'|Ek']; [destruct HK; lia|].
        apply (IH (IMF ++ [imf]) e1); auto. rewrite zlen_snoc. lia. }
    apply (W fuel [] (-1)); auto. unfold zlen. cbn [length]. destruct HK. lia. }
  destruct (Z.leb_spec e 2); [lia|]. symmetry. apply prefix_firstn. auto.
Qed.
End Emd1.

(** ** Images *)
Notation img := (list (list A)).
Lemma modes2_more sift (xs : img) k fuel x I R : modes2 sift fuel x xs k I = Ok R -> exists X, X <> [] /\ R = I ++ X.
Proof.
  revert I. induction fuel as [|fuel IH]; intros I; cbn [modes2]; [discriminate|]. intros E.
  apply bind_ok in E as ([imf nf] & E1 & E). destruct (_ || _). { apply ok_inv in E. subst. exists [imf]. split; [discriminate|auto]. }
  destruct nf. 2:{ apply ok_inv in E. subst. exists [imf]. split; [discriminate|auto]. }
  apply IH in E as (X & _ & ->). exists (imf :: X). split; [discriminate|]. rewrite <- app_assoc. reflexivity.
Qed.
Lemma modes2_limit sift (x xs : img) k k' : looser k k' -> forall fuel I R', zlen I < k ->
  modes2 sift fuel x xs k' I = Ok R' ->
  exists R, modes2 sift fuel x xs k I = Ok R /\ (R = R' \/ zlen R = k /\ exists X, X <> [] /\ R' = R ++ X).
Proof.
  intros [Hk Hkk]. induction fuel as [|fuel IH]; intros I R' HI; cbn [modes2]; [discriminate|].
  assert (HZ : 0 <= zlen I) by (unfold zlen; lia).
  intros E. apply bind_ok in E as ([imf nf] & E1 & E). rewrite E1. cbn [bind]. rewrite zlen_snoc in *.
  destruct (iallclose _ _ _); cbn [orb] in *. { apply ok_inv in E. subst. eauto. }
  destruct ((0 <? k) && (k <=? zlen I + 1)) eqn:C.
  - eexists. split; [reflexivity|]. destruct (_ && _) in E. { apply ok_inv in E. auto. }
    destruct nf. 2:{ apply ok_inv in E. auto. } right. rewrite zlen_snoc. split; [lia|]. eapply modes2_more; eauto.
  - replace ((0 <? k') && (k' <=? zlen I + 1)) with false in E by lia.
    destruct nf. 2:{ apply ok_inv in E. subst. eauto. } apply IH; auto. rewrite zlen_snoc. lia.
Qed.
Lemma with_residue_app (x : img) I : exists r, with_residue x I = I ++ r.
Proof. unfold with_residue. destruct (forallb _ _); eauto. exists []. rewrite app_nil_r. auto. Qed.
Lemma bemd_limit rec f c fuel (x : img) k k' rows' : looser k k' -> bemd rec f c fuel x k' = Ok rows' ->
  exists rows, bemd rec f c fuel x k = Ok rows /\ firstn (Z.to_nat k) rows = firstn (Z.to_nat k) rows' /\
    (rows = rows' \/ k <= zlen rows).
Proof.
  intros HK. unfold bemd. intros E. apply bind_ok in E as (R' & E1 & E). apply ok_inv in E. subst rows'.
  destruct (modes2_limit _ x x k k' HK fuel [] R' ltac:(unfold zlen; cbn [length]; destruct HK; lia) E1) as (R & E2 & D).
  rewrite E2. cbn [bind]. eexists. split; [reflexivity|]. destruct D as [->|(HL & X & HX & ->)]; auto.
  destruct (with_residue_app x R) as [r ->]. destruct (with_residue_app x (R ++ X)) as [r' ->]. split.
  - rewrite <- app_assoc, !prefix_firstn by auto. reflexivity.
  - right. unfold zlen in *. rewrite app_length. lia.
Qed.
Lemma on_last_firstn (f : img -> img) (I : list img) j : (j < length I)%nat -> firstn j (on_last f I) = firstn j I.
Proof.
  intros Hj. unfold on_last. destruct I as [|l I0 _] using rev_ind; [cbn [length] in Hj; lia|]. rewrite rev_app_distr. cbn [rev app].
  rewrite app_length in Hj. cbn [length] in Hj. rewrite rev_involutive, !firstn_app. replace (j - length I0)%nat with O by lia. reflexivity.
Qed.
Lemma on_last_length (f : img -> img) (I : list img) : length (on_last f I) = length I.
Proof.
  unfold on_last. destruct I as [|l I0 _] using rev_ind; auto. rewrite rev_app_distr. cbn [rev app].
  rewrite rev_involutive, !app_length. reflexivity.
Qed.
Lemma emd2d_limit sbs c fuel (x : img) k k' rows' : looser k k' -> emd2d sbs c fuel x k' = Ok rows' ->
  exists rows, emd2d sbs c fuel x k = Ok rows /\ firstn (length rows - 1) rows = firstn (length rows - 1) rows' /\
    (rows = rows' \/ k <= zlen rows).
Proof.
  intros HK. unfold emd2d. intros E. apply bind_ok in E as (lo & E1 & E). rewrite E1. cbn [bind].
  apply bind_ok in E as (hi & E2 & E). rewrite E2. cbn [bind]. destruct (neqb _ _); [discriminate|].
  set (xs := imap _ x) in *. apply bind_ok in E as (R' & E3 & E). apply ok_inv in E. subst rows'.
  destruct (modes2_limit _ x xs k k' HK fuel [] R' ltac:(unfold zlen; cbn [length]; destruct HK; lia) E3) as (R & E4 & D).
  rewrite E4. cbn [bind]. eexists. split; [reflexivity|]. destruct D as [->|(HL & X & HX & ->)]; auto.
  rewrite on_last_length, map_length. unfold zlen in HL.
  assert (W : exists r, with_residue xs R = R ++ r /\ (length r <= 1)%nat).
  { unfold with_residue. destruct (forallb _ _); [exists []; rewrite app_nil_r|eexists]; split; auto. }
  destruct W as (r & -> & Lr). destruct (with_residue_app xs (R ++ X)) as [r' ->]. split.
  - assert (1 <= length X)%nat by (destruct X; [congruence|cbn [length]; lia]). destruct HK as [HK _].
    rewrite !on_last_firstn by (rewrite map_length, !app_length; lia). rewrite !firstn_map. f_equal.
    rewrite <- app_assoc, app_length, !firstn_app.
    replace (length R + length r - 1 - length R)%nat with O by lia. reflexivity.
  - right. unfold zlen. rewrite on_last_length, map_length, app_length. lia.
Qed.
End Limit.

(** ** CEEMDAN *)
Section CeemdanLimit.
Context {A : Type} `{Num A} {G : Type}.
Variable gen : generator A G.
Variable std : list A -> A.
Variable emd_of : list A -> option (list A) -> Z -> res (list (list A)).
Variable arrival : list (list (list A)) -> list (list (list A)).

Lemma c_loop_more c ne (S : list A) T k : forall n I p R,
  ceemdan_loop std emd_of n c ne S T k I p = Ok R -> exists X, R = I ++ X.
Proof.
  induction n as [|n IH]; intros I p R; cbn [ceemdan_loop]. { intros E. apply ok_inv in E. subst. exists []. rewrite app_nil_r. auto. }
  intros E. apply bind_ok in E as (st & E1 & E). destruct st. { apply ok_inv in E. subst. exists []. rewrite app_nil_r. auto. }
  apply bind_ok in E as (m & E2 & E). apply IH in E as (X & ->). eexists. rewrite <- app_assoc. reflexivity.
Qed.
Lemma c_loop_limit c ne (S : list A) T k k' : looser k k' -> forall n I p R', 1 <= zlen I <= k ->
  ceemdan_loop std emd_of n c ne S T k' I p = Ok R' ->
  exists R, ceemdan_loop std emd_of n c ne S T k I p = Ok R /\ (R = R' \/ zlen R = k /\ exists X, R' = R ++ X).
Proof.
  intros [Hk Hkk]. induction n as [|n IH]; intros I p R' HI; cbn [ceemdan_loop]; [eauto|].
  intros E. destruct (Z.eq_dec (zlen I) k) as [Ek|Ek].
  - assert (E' : c_end_condition emd_of c S I k = Ok true). { unfold c_end_condition. replace (_ && _) with true by lia. auto. }
    rewrite E'. cbn [bind]. eexists. split; [reflexivity|]. right. split; auto.
    apply bind_ok in E as (st & E1 & E). destruct st. { apply ok_inv in E. subst. exists []. rewrite app_nil_r. auto. }
    apply bind_ok in E as (m & E2 & E). apply c_loop_more in E as (X & ->). eexists. rewrite <- app_assoc. reflexivity.
  - assert (E' : c_end_condition emd_of c S I k = c_end_condition emd_of c S I k').
    { unfold c_end_condition. replace ((0 <? k) && _) with false by lia. replace ((0 <? k') && _) with false by lia. auto. }
    rewrite E'. apply bind_ok in E as (st & E1 & E). rewrite E1. cbn [bind]. destruct st; [eauto|].
    apply bind_ok in E as (m & E2 & E). rewrite E2. cbn [bind]. apply IH; auto. rewrite zlen_snoc. lia.
Qed.
Lemma ceemdan_limit c o (S : list A) T k k' C' o' : looser k k' ->
  ceemdan gen std emd_of arrival c o S T k' = (Ok C', o') ->
  exists C o1, ceemdan gen std emd_of arrival c o S T k = (Ok C, o1) /\ firstn (Z.to_nat k) C = firstn (Z.to_nat k) C' /\ (C = C' \/ zlen C = k + 1) /\ c_random o1 = c_random o'.
Proof.
  intros HK. unfold ceemdan. destruct (all_noises _ _ _ _) as [noises g]. cbn [bind].
  set (S1 := map _ S). destruct noises as [noises|]; cbn [bind]; [|discriminate].
  unfold ceemdan_rows. destruct (decompose_noise _ _ _) as [ne|]; cbn [bind]; [|discriminate].
  destruct (inner_eemd _ _ _ _ _ _) as [E|]; cbn [bind]; [|discriminate].
  destruct (py_get E 0) as [first|]; cbn [bind]; [|discriminate].
  destruct (ceemdan_loop _ _ _ _ _ _ _ k' _ _) as [R'|] eqn:E1; cbn [bind]; [|discriminate].
  destruct (c_loop_limit c ne S1 T k k' HK _ [first] _ R' ltac:(unfold zlen; cbn [length]; destruct HK; lia) E1) as (R & E2 & D).
  rewrite E2. cbn [bind]. intros X. apply pair_inv in X as [X1 X2]. apply ok_inv in X1. subst C' o'.
  do 2 eexists. split; [reflexivity|]. cbn [c_random]. destruct D as [->|(HL & X & ->)]; auto.
  split; [|split; auto].
  - rewrite !firstn_map. f_equal. rewrite <- app_assoc, !prefix_firstn by auto. reflexivity.
  - right. rewrite zlen_map, zlen_snoc. lia.
Qed.
End CeemdanLimit.

(** ** EMD_matlab *)
Section MatlabLimit.
Context {A : Type} `{Num A}.
Variable spl : spline_oracle A.
Lemma m_loop_more c (T : list A) k : forall fuel Res imf rows ext rows' ext',
  m_loop spl fuel c T k Res imf rows ext = Ok (rows', ext') -> exists X, rows' = rows ++ X.
Proof.
  induction fuel as [|fuel IH]; intros Res imf rows ext rows' ext'; cbn [m_loop]; [discriminate|].
  intros E. apply bind_ok in E as (R1 & E1 & E). apply bind_ok in E as ([[[y n] e] nf] & E2 & E).
  destruct (_ =? _). { apply ok_inv in E. apply pair_inv in E as [-> _]. eauto. }
  destruct nf. 2:{ apply ok_inv in E. apply pair_inv in E as [-> _]. eauto. }
  apply IH in E as (X & ->). eexists. rewrite <- app_assoc. reflexivity.
Qed.
Lemma m_loop_limit c (T : list A) k k' : 2 <= k -> k' <= 1 \/ k <= k' -> forall fuel Res imf rows ext rows' ext', zlen rows < k - 1 ->
  m_loop spl fuel c T k' Res imf rows ext = Ok (rows', ext') ->
  exists R e, m_loop spl fuel c T k Res imf rows ext = Ok (R, e) /\ ((R, e) = (rows', ext') \/ zlen R = k - 1 /\ exists X, rows' = R ++ X).
Proof.
  intros Hk Hkk. induction fuel as [|fuel IH]; intros Res imf rows ext rows' ext' HI; cbn [m_loop]; [discriminate|].
  assert (HZ : 0 <= zlen rows) by (unfold zlen; lia).
  intros E. apply bind_ok in E as (R1 & E1 & E). rewrite E1. cbn [bind]. apply bind_ok in E as ([[[y n] e] nf] & E2 & E).
  rewrite E2. cbn [bind]. rewrite zlen_snoc in *. destruct (Z.eqb_spec (zlen rows + 1) (k - 1)) as [Ek|Ek].
  - do 2 eexists. split; [reflexivity|]. right. split; [rewrite zlen_snoc; lia|].
    destruct (_ =? _). { apply ok_inv in E. apply pair_inv in E as [-> _]. exists []. rewrite app_nil_r. auto. }
    destruct nf. 2:{ apply ok_inv in E. apply pair_inv in E as [-> _]. exists []. rewrite app_nil_r. auto. }
    eapply m_loop_more; eauto.
  - destruct (Z.eqb_spec (zlen rows + 1) (k' - 1)) as [Ek'|Ek']; [lia|].
    destruct nf. 2:{ apply ok_inv in E. apply pair_inv in E as [-> ->]. eauto. }
    apply IH; auto. rewrite zlen_snoc. lia.
Qed.
(** The limit read by the code: [None] is -1. *)
Definition limit_of (k : option Z) : Z := match k with Some k => k | None => -1 end.
Lemma m_emd_limit fuel c (S : list A) T k k' rows' n' : 2 <= k -> limit_of k' <= 1 \/ k <= limit_of k' ->
  m_emd spl fuel c S T k' = Ok (rows', n') ->
  exists rows n, m_emd spl fuel c S T (Some k) = Ok (rows, n) /\ firstn (Z.to_nat (k - 1)) rows = firstn (Z.to_nat (k - 1)) rows'.
Proof.
  intros Hk Hkk. unfold m_emd. fold (limit_of k'). cbv zeta. destruct (negb _); [discriminate|].
  intros E. apply bind_ok in E as ([R' e'] & E1 & E).
  destruct (m_loop_limit c _ k (limit_of k') Hk Hkk fuel _ _ [] 0 R' e' ltac:(unfold zlen; cbn [length]; lia) E1) as (R & e & E2 & D).
  rewrite E2. cbn [bind]. do 2 eexists. split; [reflexivity|]. apply ok_inv in E. apply pair_inv in E as [-> _].
  assert (W : forall (M : list (m_row A)) b x, exists r, (if b : bool then M ++ [x] else M) = M ++ r).
  { intros M b x. destruct b; [eauto|]. exists []. rewrite app_nil_r. auto. }
  destruct D as [D|(HL & X & ->)].
  - apply pair_inv in D as [-> ->]. reflexivity.
  - match goal with |- firstn _ (if ?b then _ ++ [?x] else _) = _ => destruct (W R b x) as [r ->] end.
    match goal with |- _ = firstn _ (if ?b then _ ++ [?x] else _) => destruct (W (R ++ X) b x) as [r' ->] end.
    rewrite <- app_assoc, !prefix_firstn by auto. reflexivity.
Qed.
End MatlabLimit.
