(** * Stop: sifting stops as soon as its rule is met (lemmas). *)
From Verif Require Import PyFacts Emd Jit Spec StopSpec EmdProofs EmdControl.
From Coq Require Import ZifyBool ZifyNat Lia.
From Coq Require Import List.
Import ListNotations.
Open Scope Z_scope.

Section Trail.
Context {X : Type}.
Variable chk : X -> bool.
(** How many at the end are good, the first not counting. *)
Definition run_of (q : list X) : Z := fold_left (fun k s => if chk s then k + 1 else 0) q 0.
Definition trail (p : list X) : Z := run_of (tl p).
Lemma run_snoc q s : run_of (q ++ [s]) = if chk s then run_of q + 1 else 0.
Proof. unfold run_of. rewrite fold_left_app. reflexivity. Qed.
Lemma run_nonneg q : 0 <= run_of q.
Proof. induction q using rev_ind; [reflexivity|]. rewrite run_snoc. destruct (chk x); lia. Qed.
Lemma run_iff : forall q h, Z.of_nat h <= run_of q <-> exists earlier recent, q = earlier ++ recent /\ length recent = h /\ Forall (fun s => chk s = true) recent.
Proof.
  induction q as [|s q IH] using rev_ind; intros h.
  - change (run_of []) with 0. split.
    + intros Hh. exists [], []. assert (h = 0%nat) by lia. subst. auto.
    + intros (e & r & E & L & _). symmetry in E. apply app_eq_nil in E as [-> ->]. cbn in L. lia.
  - rewrite run_snoc. split.
    + intros Hh. destruct h as [|h]; [exists (q ++ [s]), []; rewrite app_nil_r; auto|].
      destruct (chk s) eqn:C; [|lia]. destruct (proj1 (IH h) ltac:(lia)) as (e & r & -> & L & F).
      exists e, (r ++ [s]). rewrite app_assoc. split; auto. split; [rewrite app_length; cbn; lia|]. apply Forall_app. auto.
    + intros (e & r & E & L & F). destruct h as [|h]; [pose proof (run_nonneg q); destruct (chk s); lia|].
      destruct r as [|a r0 _] using rev_ind; [discriminate|]. rewrite app_assoc in E. apply app_inj_tail in E as [-> ->].
      apply Forall_app in F as [F1 F2]. inversion F2; subst. rewrite H1.
      assert (Z.of_nat h <= run_of (e ++ r0)); [|lia]. apply IH. exists e, r0. split; auto. split; auto. rewrite app_length in L. cbn in L. lia.
Qed.
Lemma trail_snoc p s : p <> [] -> trail (p ++ [s]) = if chk s then trail p + 1 else 0.
Proof. destruct p as [|a p]; [congruence|]. intros _. apply run_snoc. Qed.
Lemma trail_iff p h (good : X -> Prop) : (0 < h)%nat -> Forall (fun s => chk s = true <-> good s) p ->
  (Z.of_nat h <= trail p <-> last_all_good good h p).
Proof.
  intros Hh HF. unfold trail, last_all_good. rewrite run_iff. split.
  - intros (e & r & E & L & F). destruct p as [|a p]; cbn [tl] in E.
    + symmetry in E. apply app_eq_nil in E as [-> ->]. cbn in L. lia.
    + exists (a :: e), r. subst p. split; auto. split; [discriminate|]. split; auto.
      inversion HF; subst. apply Forall_app in H2 as [_ H2]. rewrite Forall_forall in *. intros x Hx. apply H2; auto.
  - intros (e & r & -> & N & L & F). destruct e as [|a e]; [congruence|]. exists e, r. split; auto. split; auto.
    apply Forall_app in HF as [_ HF]. rewrite Forall_forall in *. intros x Hx. apply HF; auto.
Qed.
End Trail.

(** Going on from the past [p]: the boolean rule [stop] fails until the end. *)
Definition first_at {X} (stop : list X -> bool) (p q : list X) : Prop :=
  forall e l, q = e ++ l -> e <> [] -> l <> [] -> stop (p ++ e) = false.
Lemma first_nil {X} (stop : list X -> bool) p : first_at stop p [].
Proof. intros e l E. symmetry in E. apply app_eq_nil in E as [-> ->]. congruence. Qed.
Lemma first_cons {X} (stop : list X -> bool) p s q : (q <> [] -> stop (p ++ [s]) = false) -> first_at stop (p ++ [s]) q -> first_at stop p (s :: q).
Proof.
  intros H1 H2 e l E He Hl. destruct e as [|a e]; [congruence|]. cbn in E. injection E as -> ->.
  destruct e as [|b e]; [apply H1; destruct l; [congruence|discriminate]|].
  replace (p ++ a :: b :: e) with ((p ++ [a]) ++ b :: e) by (rewrite <- app_assoc; reflexivity). apply (H2 (b :: e) l); auto. discriminate.
Qed.

Section Emd.
Context {A : Type} `{Num A}.
Notation vec := (list A).
Notation knots := (list (A * A)).
Notation sft := (sifted vec knots).
Variable spl : spline_oracle A.
Variable c : emd_config A.
Variable T : vec.

Definition bal (x : vec) : bool :=
  match find_extrema (extrema_detection c) T x with
  | Ok e => Z.abs (zlen (max_pos e) + zlen (min_pos e) - zlen (indzer e)) <? 2 | _ => false end.
Lemma bal_iff x : bal x = true <-> balanced c T x.
Proof.
  unfold bal, balanced. split.
  - destruct (find_extrema _ _ _) as [e|]; [|discriminate]. intros E. exists e. split; auto. lia.
  - intros (e & -> & E). lia.
Qed.
Definition okb (r : res bool) : bool := match r with Ok b => b | _ => false end.
Definition test (s : sft) : bool := okb (check_imf c (after s) (before s) (upper s) (lower s)) && bal (after s).
Definition stop_now (p : list sft) : bool :=
  if FIXE_H c =? 0 then match rev p with s :: _ => test s | [] => false end
  else FIXE_H c <=? trail (fun s => bal (after s)) p.
Definition real_step (s : sft) : Prop := sift_step spl c T (before s) = Ok (after s, upper s, lower s).

Lemma sift_run fuel : forall p n nh ext x y ext' fin, FIXE c = 0 -> 0 <= FIXE_H c -> n = zlen p -> (FIXE_H c <> 0 -> nh = trail (fun s => bal (after s)) p) ->
  n + 1 <= MAX_ITERATION c -> sift spl fuel c T n nh ext x = Ok (y, ext', fin) ->
  exists q, leads real_step x q y /\ first_at stop_now p q /\
    (q <> [] /\ stop_now (p ++ q) = true \/ fin = true \/ zlen (p ++ q) = MAX_ITERATION c - 1).
Proof.
  induction fuel as [|fuel IH]; intros p n nh ext x y ext' fin HX HH Hn Hnh HM; [discriminate|]. cbn [sift]. cbv zeta. intros E.
  destruct (Z.leb_spec (MAX_ITERATION c) (n + 1)) as [LM|LM].
  { injection E as <- <- <-. exists []. split; [constructor|]. split; [apply first_nil|]. right. right. rewrite app_nil_r. lia. }
  apply bind_ok in E as (e & E1 & E). destruct (2 <? _).
  2:{ injection E as <- <- <-. exists []. split; [constructor|]. split; [apply first_nil|]. auto. }
  apply bind_ok in E as ([[x1 P] Q] & E2 & E). rewrite HX in E. cbn [Z.eqb negb] in E.
  set (s := MkSifted x x1 P Q : sft). assert (HS : real_step s) by exact E2.
  assert (STOP : forall e' f, stop_now (p ++ [s]) = true -> Ok (x1, e', f) = Ok (y, ext', fin) -> exists q, leads real_step x q y /\ first_at stop_now p q /\
    (q <> [] /\ stop_now (p ++ q) = true \/ fin = true \/ zlen (p ++ q) = MAX_ITERATION c - 1)).
  { intros e' f Hs G. injection G as <- <- <-. exists [s]. split; [econstructor; [exact HS|constructor]|].
    split; [apply first_cons; [congruence|apply first_nil]|]. left. split; [discriminate|auto]. }
  assert (GO : forall nh' e', stop_now (p ++ [s]) = false -> (FIXE_H c <> 0 -> nh' = trail (fun s => bal (after s)) (p ++ [s])) ->
    sift spl fuel c T (n + 1) nh' e' x1 = Ok (y, ext', fin) -> exists q, leads real_step x q y /\ first_at stop_now p q /\
    (q <> [] /\ stop_now (p ++ q) = true \/ fin = true \/ zlen (p ++ q) = MAX_ITERATION c - 1)).
  { intros nh' e' Hs Ht G. apply (IH (p ++ [s])) in G as (q & G1 & G2 & G3); auto; try lia.
    2:{ unfold zlen in *. rewrite app_length. cbn. lia. }
    exists (s :: q). split; [econstructor; [exact HS|auto]|]. split; [apply first_cons; auto|].
    replace (p ++ s :: q) with ((p ++ [s]) ++ q) by (rewrite <- app_assoc; reflexivity).
    destruct G3 as [[G3 G4]|G3]; [left; split; [discriminate|auto]|auto]. }
  assert (RV : rev (p ++ [s]) = s :: rev p) by (rewrite rev_app_distr; reflexivity).
  destruct (Z.eqb_spec (FIXE_H c) 0) as [HZ|HZ]; cbn [negb] in E.
  - assert (SN : stop_now (p ++ [s]) = test s) by (unfold stop_now; rewrite HZ, RV; reflexivity).
    apply bind_ok in E as (e2 & E3 & E). apply bind_ok in E as (f1 & E4 & E).
    assert (TS : test s = f1 && (Z.abs (zlen (max_pos e2) + zlen (min_pos e2) - zlen (indzer e2)) <? 2)).
    { unfold test, s. cbn [after before upper lower]. rewrite E4. cbn [okb]. unfold bal. rewrite E3. reflexivity. }
    unfold ext_no in E. rewrite <- TS in E. destruct (test s) eqn:ET.
    + revert E. apply STOP. congruence.
    + revert E. apply GO; [congruence|lia].
  - specialize (Hnh HZ). apply bind_ok in E as (e2 & E3 & E).
    assert (BS : bal x1 = (Z.abs (zlen (max_pos e2) + zlen (min_pos e2) - zlen (indzer e2)) <? 2)) by (unfold bal; rewrite E3; reflexivity).
    assert (SN : stop_now (p ++ [s]) = (FIXE_H c <=? trail (fun s => bal (after s)) (p ++ [s]))).
    { unfold stop_now. destruct (Z.eqb_spec (FIXE_H c) 0); [lia|reflexivity]. }
    destruct (Z.eqb_spec (n + 1) 1) as [N1|N1].
    + assert (p = []) by (destruct p; auto; unfold zlen in Hn; cbn in Hn; lia). subst p. change ([] ++ [s]) with [s] in *.
      change (trail (fun s => bal (after s)) [s]) with 0 in *. revert E. apply GO; [rewrite SN; lia|].
      intros _. unfold trail, run_of in Hnh. cbn in Hnh. auto.
    + assert (HP : p <> []) by (intros ->; unfold zlen in Hn; cbn in Hn; lia).
      rewrite (trail_snoc _ p s HP) in *. cbn [after s] in *. unfold ext_no in E. rewrite <- BS, Hnh in E.
      destruct (Z.leb_spec (FIXE_H c) (if bal x1 then trail (fun s => bal (after s)) p + 1 else 0)) as [LF|LF].
      * revert E. apply STOP. exact SN.
      * revert E. apply GO; auto.
Qed.
End Emd.

(** ** The compiled variant *)
Definition jit_balanced {A} `{Num A} (c : emd_config A) (T x : list A) : Prop :=
  exists e, jit_find_extrema (extrema_detection c) T x = Ok e /\
    Z.abs (zlen (max_pos e) + zlen (min_pos e) - zlen (indzer e)) < 2.
Section Jit.
Context {A : Type} `{Num A}.
Notation vec := (list A).
Notation knots := (list (A * A)).
Notation sft := (sifted vec knots).
Variable spl : spline_oracle A.
Variable c : emd_config A.
Variable T : vec.
Variable strict : bool.

(** As [balanced], with the extrema the compiled variant finds. *)
Definition jbal (x : vec) : bool :=
  match jit_find_extrema (extrema_detection c) T x with
  | Ok e => Z.abs (zlen (max_pos e) + zlen (min_pos e) - zlen (indzer e)) <? 2 | _ => false end.
Lemma jbal_iff x : jbal x = true <-> jit_balanced c T x.
Proof.
  unfold jbal, jit_balanced. split.
  - destruct (jit_find_extrema _ _ _) as [e|]; [|discriminate]. intros E. exists e. split; auto. lia.
  - intros (e & -> & E). lia.
Qed.
Definition jtest (s : sft) : bool := okb (jit_check_imf strict c (after s) (before s) (upper s) (lower s)) && jbal (after s).
Definition jstop_now (p : list sft) : bool :=
  if FIXE_H c =? 0 then match rev p with s :: _ => jtest s | [] => false end
  else FIXE_H c <=? trail (fun s => jbal (after s)) p.
Definition jit_curved (x : vec) : Prop :=
  exists e, jit_find_extrema (extrema_detection c) T x = Ok e /\ 2 < zlen (min_pos e) + zlen (max_pos e).
Definition jreal_step (s : sft) : Prop := jit_sift_step spl c T (before s) = Ok (after s, upper s, lower s) /\ jit_curved (before s).

Lemma jsift_run fuel : forall p n nh ext x y ext' fin, FIXE c = 0 -> 0 <= FIXE_H c -> n = zlen p -> (FIXE_H c <> 0 -> nh = trail (fun s => jbal (after s)) p) ->
  n + 1 <= MAX_ITERATION c -> jit_sift spl fuel strict c T n nh ext x = Ok (y, ext', fin) ->
  exists q, leads jreal_step x q y /\ first_at jstop_now p q /\
    (q <> [] /\ jstop_now (p ++ q) = true \/ fin = true \/ zlen (p ++ q) = MAX_ITERATION c - 1).
Proof.
  induction fuel as [|fuel IH]; intros p n nh ext x y ext' fin HX HH Hn Hnh HM; [discriminate|]. cbn [jit_sift]. cbv zeta. intros E.
  destruct (Z.leb_spec (MAX_ITERATION c) (n + 1)) as [LM|LM].
  { injection E as <- <- <-. exists []. split; [constructor|]. split; [apply first_nil|]. right. right. rewrite app_nil_r. lia. }
  apply bind_ok in E as (e & E1 & E). destruct (Z.ltb_spec 2 (zlen (min_pos e) + zlen (max_pos e))).
  2:{ injection E as <- <- <-. exists []. split; [constructor|]. split; [apply first_nil|]. auto. }
  apply bind_ok in E as ([[x1 P] Q] & E2 & E). rewrite HX in E. cbn [Z.eqb negb] in E.
  set (s := MkSifted x x1 P Q : sft). assert (HS : jreal_step s) by (split; [exact E2|exists e; auto]).
  assert (STOP : forall e' f, jstop_now (p ++ [s]) = true -> Ok (x1, e', f) = Ok (y, ext', fin) -> exists q, leads jreal_step x q y /\ first_at jstop_now p q /\
    (q <> [] /\ jstop_now (p ++ q) = true \/ fin = true \/ zlen (p ++ q) = MAX_ITERATION c - 1)).
  { intros e' f Hs G. injection G as <- <- <-. exists [s]. split; [econstructor; [exact HS|constructor]|].
    split; [apply first_cons; [congruence|apply first_nil]|]. left. split; [discriminate|auto]. }
  assert (GO : forall nh' e', jstop_now (p ++ [s]) = false -> (FIXE_H c <> 0 -> nh' = trail (fun s => jbal (after s)) (p ++ [s])) ->
    jit_sift spl fuel strict c T (n + 1) nh' e' x1 = Ok (y, ext', fin) -> exists q, leads jreal_step x q y /\ first_at jstop_now p q /\
    (q <> [] /\ jstop_now (p ++ q) = true \/ fin = true \/ zlen (p ++ q) = MAX_ITERATION c - 1)).
  { intros nh' e' Hs Ht G. apply (IH (p ++ [s])) in G as (q & G1 & G2 & G3); auto; try lia.
    2:{ unfold zlen in *. rewrite app_length. cbn. lia. }
    exists (s :: q). split; [econstructor; [exact HS|auto]|]. split; [apply first_cons; auto|].
    replace (p ++ s :: q) with ((p ++ [s]) ++ q) by (rewrite <- app_assoc; reflexivity).
    destruct G3 as [[G3 G4]|G3]; [left; split; [discriminate|auto]|auto]. }
  assert (RV : rev (p ++ [s]) = s :: rev p) by (rewrite rev_app_distr; reflexivity).
  destruct (Z.eqb_spec (FIXE_H c) 0) as [HZ|HZ]; cbn [negb] in E.
  - assert (SN : jstop_now (p ++ [s]) = jtest s) by (unfold jstop_now; rewrite HZ, RV; reflexivity).
    apply bind_ok in E as (e2 & E3 & E). apply bind_ok in E as (f1 & E4 & E).
    assert (TS : jtest s = f1 && (Z.abs (zlen (max_pos e2) + zlen (min_pos e2) - zlen (indzer e2)) <? 2)).
    { unfold jtest, s. cbn [after before upper lower]. rewrite E4. cbn [okb]. unfold jbal. rewrite E3. reflexivity. }
    rewrite <- TS in E. destruct (jtest s) eqn:ET.
    + revert E. apply STOP. congruence.
    + revert E. apply GO; [congruence|lia].
  - specialize (Hnh HZ). apply bind_ok in E as (e2 & E3 & E).
    assert (BS : jbal x1 = (Z.abs (zlen (max_pos e2) + zlen (min_pos e2) - zlen (indzer e2)) <? 2)) by (unfold jbal; rewrite E3; reflexivity).
    assert (SN : jstop_now (p ++ [s]) = (FIXE_H c <=? trail (fun s => jbal (after s)) (p ++ [s]))).
    { unfold jstop_now. destruct (Z.eqb_spec (FIXE_H c) 0); [lia|reflexivity]. }
    destruct (Z.eqb_spec (n + 1) 1) as [N1|N1].
    + assert (p = []) by (destruct p; auto; unfold zlen in Hn; cbn in Hn; lia). subst p. change ([] ++ [s]) with [s] in *.
      change (trail (fun s => jbal (after s)) [s]) with 0 in *. revert E. apply GO; [rewrite SN; lia|].
      intros _. unfold trail, run_of in Hnh. cbn in Hnh. auto.
    + assert (HP : p <> []) by (intros ->; unfold zlen in Hn; cbn in Hn; lia).
      rewrite (trail_snoc _ p s HP) in *. cbn [after s] in *. rewrite <- BS, Hnh in E.
      destruct (Z.leb_spec (FIXE_H c) (if jbal x1 then trail (fun s => jbal (after s)) p + 1 else 0)) as [LF|LF].
      * revert E. apply STOP. exact SN.
      * revert E. apply GO; auto.
Qed.
End Jit.
