(** * HeapCeemdanProofs: CEEMDAN on memory computes what the functional model computes. *)
From Coq Require Import QArith Qcanon.
From Verif Require Import PyFacts Emd Spec EmdProofs EemdSpec Ceemdan CeemdanProofs Heap HeapSpec HeapProofs HeapClient HeapEemdSpec HeapCeemdan HeapCeemdanSpec.
From Coq Require Import ZifyBool ZifyNat Lia.

Section HeapCeemdanProofs.
Context {A : Type} `{Num A}.
Notation vec := (list A).
Notation rows := (list (list A)).

(** ** Running a computation beside its functional counterpart *)
(** Arrays below [b] (all if [b] is None) keep their contents. *)
Definition below (b : option nat) (l : nat) : Prop := match b with None => True | Some b => (l < b)%nat end.
Definition oframe (b : option nat) (m m' : mem A) : Prop :=
  (length (heap m) <= length (heap m'))%nat /\
  forall l, (l < length (heap m))%nat -> below b l -> nth_error (heap m') l = nth_error (heap m) l.
Lemma oframe_refl b m : oframe b m m.
Proof. split; auto. Qed.
Lemma oframe_trans b m0 m1 m2 : oframe b m0 m1 -> oframe b m1 m2 -> oframe b m0 m2.
Proof. intros (A1 & B1) (A2 & B2). split; [lia|]. intros l Hl Hb. rewrite B2 by (auto; lia). auto. Qed.
Lemma hframe_oframe b m m' : hframe m m' -> oframe b m m'.
Proof. intros (A1 & B1). split; auto. Qed.
Lemma oframe_hframe m m' : oframe None m m' -> hframe m m'.
Proof. intros (A1 & B1). split; auto. intros. apply B1; cbn; auto. Qed.
Lemma oframe_new m m1 m' : hframe m m1 -> oframe (Some (length (heap m))) m1 m' -> oframe None m m'.
Proof.
  intros (A1 & B1) (A2 & B2). split; [lia|]. intros l Hl _. rewrite B2 by (cbn; lia). auto.
Qed.
Lemma keeps b m m' a x : oframe b m m' -> contents m a = Some x -> below b (base a) -> contents m' a = Some x.
Proof.
  intros (A1 & B1) E Hb. rewrite <- E. pose proof (contents_live _ _ _ E) as La.
  unfold contents. rewrite B1; auto.
Qed.
Lemma keeps_all m m' a x : oframe None m m' -> contents m a = Some x -> contents m' a = Some x.
Proof. intros F E. eapply keeps; eauto. exact I. Qed.

Definition runs {X Y} (b : option nat) (m : mem A) (o : res X * mem A) (y : res Y) (R : mem A -> X -> Y -> Prop) : Prop :=
  oframe b m (snd o) /\
  match fst o, y with Ok a, Ok v => R (snd o) a v | Raise e, Raise e' => e = e' | _, _ => False end.

Lemma runs_step {X Y} b m m1 (o : res X * mem A) (y : res Y) R :
  oframe b m m1 -> runs b m1 o y R -> runs b m o y R.
Proof. intros F (F' & Q). split; auto. eapply oframe_trans; eauto. Qed.
Lemma runs_eq {X Y} b m (o : res X * mem A) (y y' : res Y) R : y = y' -> runs b m o y' R -> runs b m o y R.
Proof. intros ->. auto. Qed.
Lemma runs_bind {X Y X' Y'} b m (x : M A X) (f : X -> M A X') (y : res Y) (g : Y -> res Y') R R' :
  runs b m (x m) y R ->
  (forall a v m', oframe b m m' -> R m' a v -> runs b m' (f a m') (g v) R') ->
  runs b m (mbind x f m) (bind y g) R'.
Proof.
  intros (F & Q) K. unfold mbind. destruct (x m) as [[a|e] m']; cbn [fst snd] in *; destruct y as [v|e']; try contradiction; cbn [bind].
  - eapply runs_step; eauto.
  - subst. split; auto; cbn; auto.
Qed.
(** The same when nothing happens on the functional side. *)
Lemma runs_bind_l {X Y X' Y'} b m (x : M A X) (f : X -> M A X') (y : Y) (z : res Y') R R' :
  runs b m (x m) (Ok y) R ->
  (forall a m', oframe b m m' -> R m' a y -> runs b m' (f a m') z R') ->
  runs b m (mbind x f m) z R'.
Proof.
  intros (F & Q) K. unfold mbind. destruct (x m) as [[a|e] m']; cbn [fst snd] in *; try contradiction.
  eapply runs_step; eauto.
Qed.
Lemma runs_lift {X X' Y'} b m (y : res X) (f : X -> M A X') (g : X -> res Y') R :
  (forall v, y = Ok v -> runs b m (f v m) (g v) R) -> runs b m (mbind (lift y) f m) (bind y g) R.
Proof.
  intros K. unfold mbind, lift. destruct y; cbn [bind]; auto. split; [apply oframe_refl|]. cbn. auto.
Qed.
Lemma runs_ret {X Y} b m (a : X) (v : Y) (R : mem A -> X -> Y -> Prop) : R m a v -> runs b m (ret a m) (Ok v) R.
Proof. intros K. split; [apply oframe_refl|exact K]. Qed.
Lemma runs_imp {X Y} b m (o : res X * mem A) (y : res Y) (R R' : mem A -> X -> Y -> Prop) :
  runs b m o y R -> (forall m' a v, oframe b m m' -> R m' a v -> R' m' a v) -> runs b m o y R'.
Proof. intros (F & Q) K. split; auto. destruct (fst o), y; auto. Qed.
Lemma runs_weak {X Y} b m (o : res X * mem A) (y : res Y) R :
  runs None m o y R -> runs b m o y R.
Proof. intros (F & Q). split; auto. apply hframe_oframe, oframe_hframe; auto. Qed.
Lemma runs_new {X Y} m m1 (o : res X * mem A) (y : res Y) R :
  hframe m m1 -> runs (Some (length (heap m))) m1 o y R -> runs None m o y R.
Proof. intros F (F' & Q). split; auto. eapply oframe_new; eauto. Qed.
Lemma runs_alloc {X Y} b m x (f : arr -> M A X) (y : res Y) R :
  runs b (grow m x) (f (MkArr (length (heap m)) Whole) (grow m x)) y R -> runs b m (mbind (alloc x) f m) y R.
Proof. intros K. rewrite mbind_alloc. eapply runs_step; [|exact K]. apply hframe_oframe, hframe_grow. Qed.
Lemma runs_alloc_last {Y} b m x (v : Y) (R : mem A -> arr -> Y -> Prop) :
  R (grow m x) (MkArr (length (heap m)) Whole) v -> runs b m (alloc x m) (Ok v) R.
Proof. intros K. rewrite alloc_eq. split; cbn; auto. apply hframe_oframe, hframe_grow. Qed.
Lemma contents_new (m : mem A) x : contents (grow m x) (MkArr (length (heap m)) Whole) = Some x.
Proof. apply at_contents, at_grow. Qed.

Definition mats_show (m : mem A) : list arr -> list rows -> Prop :=
  Forall2 (fun a v => contents m a = Some (Mat v)).
Definition all_below (b : option nat) (l : list arr) : Prop := Forall (fun a => below b (base a)) l.
Lemma keeps_mats b m m' l vs : oframe b m m' -> mats_show m l vs -> all_below b l -> mats_show m' l vs.
Proof.
  intros F. induction 1; intros B; constructor; inversion B; subst; auto.
  - eapply keeps; eauto.
  - apply IHForall2; auto.
Qed.
Lemma all_below_none l : all_below None l.
Proof. apply Forall_forall. intros; exact I. Qed.
Lemma mats_live (m : mem A) l vs : mats_show m l vs -> all_below (Some (length (heap m))) l.
Proof. induction 1; constructor; auto. apply contents_live in H0. exact H0. Qed.

Lemma runs_each {X Y X' Y'} b (P : mem A -> X -> X' -> Prop) (R : mem A -> Y -> Y' -> Prop)
    (f : X -> M A Y) (g : X' -> res Y') :
  (forall m m' x x', oframe b m m' -> P m x x' -> P m' x x') ->
  (forall m m' y y', oframe b m m' -> R m y y' -> R m' y y') ->
  (forall m x x', P m x x' -> runs b m (f x m) (g x') R) ->
  forall l l' m, Forall2 (P m) l l' ->
  runs b m (each f l m) (mapM g l') (fun m => Forall2 (R m)).
Proof.
  intros KP KR K. induction l as [|x l IH]; intros l' m F; inversion F; subst; cbn [each mapM].
  { apply runs_ret. constructor. }
  eapply runs_bind; [apply K; eauto|]. intros a v m' F1 Ra.
  eapply runs_bind.
  { apply IH. clear - H4 F1 KP. induction H4; constructor; eauto. }
  intros ys vs m'' F2 Rs. apply runs_ret. constructor; eauto.
Qed.

(** ** EMD *)
Context {G : Type}.
Variable gen : generator A G.
Variable std : vec -> A.
Variable arrival : list rows -> list rows.
Variable spl : spline_oracle A.
Variable fuel : nat.
Variable ec : emd_config A.
Variable conv : bool * bool.
Notation run_h := (run_h spl fuel ec conv).
Notation dec := (emd_fun spl fuel ec).

Lemma run_h_spec S T s t k m : contents m S = Some (Vec s) -> shows m T t ->
  runs None m (run_h S T k m) (dec s t k) (fun m' a v =>
    contents m' a = Some (Mat v) /\ (length (heap m) <= base a)%nat).
Proof.
  intros HS HT. unfold emd_fun, HeapCeemdan.run_h.
  pose proof (emd_h_spec spl fuel ec (fst conv) (snd conv) S T s t k m HS HT) as E.
  destruct (emd spl fuel ec s t k) as [o|e]; cbn [bind emd_effect] in *.
  - destruct E as (m' & x & i & d & -> & F & _ & _ & C & _ & _ & (N & _) & _).
    split; cbn; [apply hframe_oframe; auto|]. split; auto. unfold live in N. lia.
  - destruct E as (m' & -> & F & _). split; cbn; auto. apply hframe_oframe; auto.
Qed.
Lemma dec_shaped s t k M : dec s t k = Ok M -> shaped (length s) M.
Proof.
  unfold emd_fun. intros E. apply bind_ok in E as (o & E & Eo). injection Eo as <-.
  apply (emd_shape _ _ _ _ _ _ _ E).
Qed.

Lemma keeps_shows b (m m' : mem A) T t : oframe b m m' -> shows m T t ->
  (forall a, T = Some a -> below b (base a)) -> shows m' T t.
Proof.
  intros F. destruct T, t; cbn; auto. intros E B. eapply keeps; eauto.
Qed.

(** ** The noise *)
Lemma rows_numbered (m : mem A) l : forall (N : rows) k,
  (forall i v, nth_error N i = Some v -> contents m (MkArr l (Row (k + i))) = Some (Vec v)) ->
  Forall2 (fun i v => contents m (MkArr l (Row i)) = Some (Vec v)) (seq k (length N)) N.
Proof.
  induction N as [|v N IH]; intros k K; cbn; constructor.
  - specialize (K 0%nat v eq_refl). rewrite Nat.add_0_r in K. exact K.
  - apply IH. intros i w E. replace (Datatypes.S k + i)%nat with (k + Datatypes.S i)%nat by lia. apply K. exact E.
Qed.

Lemma mapM_ok_id {X Y} (g : X -> Y) l : mapM (fun x => Ok (g x)) l = Ok (map g l).
Proof. induction l; cbn; auto. rewrite IHl. reflexivity. Qed.

Lemma decompose_h_spec c noises N m : contents m noises = Some (Mat N) -> shown noises = Whole ->
  runs None m (decompose_noise_h std spl fuel ec conv c noises m) (decompose_noise std dec c N) mats_show.
Proof.
  intros HN Wn. unfold decompose_noise_h, decompose_noise.
  rewrite (mbind_load_mat _ _ _ _ HN).
  apply runs_lift. intros _ _.
  apply runs_bind with mats_show.
  { destruct (c_parallel c).
    - assert (E : mapM (fun noise => dec noise None (-1)) N
                  = bind (mapM (fun noise => dec noise None (-1)) N) (mapM (fun v => Ok v))).
      { destruct (mapM _ N); cbn; auto. rewrite (mapM_ok_id (fun x => x)), map_id. reflexivity. }
      apply (runs_eq _ _ _ _ _ _ E). apply runs_lift. intros Ms _.
      apply (runs_each None (fun _ => eq) (fun m a v => contents m a = Some (Mat v))); auto.
      + intros. eapply keeps_all; eauto.
      + intros m' x x' <-. apply runs_alloc_last. apply contents_new.
      + clear. induction Ms; constructor; auto.
    - apply (runs_each None (fun m i v => contents m (MkArr (base noises) (Row i)) = Some (Vec v))
               (fun m a v => contents m a = Some (Mat v))).
      + intros. eapply keeps_all; eauto.
      + intros. eapply keeps_all; eauto.
      + intros m' i v Hv. eapply runs_imp; [apply run_h_spec with (t := None); eauto; exact I|].
        intros m2 a w _ (E & _). exact E.
      + apply rows_numbered. intros i v E. unfold contents in *. cbn. rewrite Wn in HN.
        destruct (nth_error (heap m) (base noises)) as [[x|x]|]; try discriminate; injection HN as ->.
        rewrite E. reflexivity. }
  intros all vs m1 F1 Hall. destruct (beta_progress c).
  2:{ apply runs_ret. exact Hall. }
  apply runs_bind with (fun _ => eq).
  { eapply runs_imp; [apply (runs_each None (fun m a v => contents m a = Some (Mat v)) (fun _ => eq)); auto|].
    - intros. eapply keeps_all; eauto.
    - intros m' a v Ha. rewrite (mbind_load_mat _ _ _ _ Ha). apply runs_lift. intros x _.
      apply runs_ret. reflexivity.
    - cbn. intros m' l l' _ F. clear - F. induction F; congruence. }
  intros stds ? m2 F2 <-.
  assert (Ez : Ok (map2 div_rows vs stds) = mapM (fun p => Ok (div_rows (fst p) (snd p))) (combine vs stds)).
  { rewrite mapM_ok_id. f_equal. clear. revert stds. induction vs; destruct stds; cbn; auto. f_equal. auto. }
  rewrite Ez.
  apply (runs_each None (fun m p q => contents m (fst p) = Some (Mat (fst q)) /\ snd p = snd q)
           (fun m a v => contents m a = Some (Mat v))).
  - intros m3 m4 x x' F (K1 & K2). split; auto. eapply keeps_all; eauto.
  - intros. eapply keeps_all; eauto.
  - intros m' p q (Hp & ->). rewrite (mbind_load_mat _ _ _ _ Hp). apply runs_alloc_last. apply contents_new.
  - assert (Hall2 : mats_show m2 all vs) by (eapply keeps_mats; eauto; apply all_below_none).
    clear - Hall2. revert stds. induction Hall2; intros [|d stds]; cbn; constructor; auto.
Qed.

(** ** Sums of imfs *)
Lemma add_rows_zeros n : forall (E M : rows), (length E < length M)%nat ->
  add_rows n (E ++ repeat (vzeros n) (length M - length E)) M = add_rows n E M.
Proof.
  induction E as [|e E IH]; intros M HL.
  - cbn [length app] in *. rewrite Nat.sub_0_r. clear HL. induction M; cbn; auto. f_equal; auto.
  - destruct M as [|i M]; cbn [length] in *; [lia|]. cbn. f_equal. apply IH. lia.
Qed.

Lemma accumulate_h_spec b n E IMFs Ev Mv m :
  contents m IMFs = Some (Mat Mv) -> at_ m E (Mat Ev) -> (b <= E)%nat -> (b <= length (heap m))%nat ->
  runs (Some b) m (accumulate_h n (MkArr E Whole) IMFs m) (accumulate n (Ok Ev) Mv)
    (fun m' a v => shown a = Whole /\ at_ m' (base a) (Mat v) /\ (b <= base a)%nat).
Proof.
  intros HI HE LE Lb. unfold accumulate_h, accumulate. cbn [bind].
  rewrite (mbind_load_mat _ _ _ _ HI), (mbind_load_mat _ _ _ _ (at_contents _ _ _ HE)).
  assert (Fin : forall m E Ev', at_ m E (Mat Ev') -> (b <= E)%nat -> add_rows n Ev' Mv = add_rows n Ev Mv ->
    runs (Some b) m ((let* Ev0 := load_mat (MkArr E Whole) in
       if forallb (fun r => Nat.eqb (length r) n) Mv
       then fun m0 : mem A => (Ok (MkArr E Whole), set_cell m0 (base (MkArr E Whole)) (Mat (add_rows n Ev0 Mv)))
       else lift (Raise ValueError)) m)
      (if forallb (fun r => Nat.eqb (length r) n) Mv then Ok (add_rows n Ev Mv) else Raise ValueError)
      (fun m' a v => shown a = Whole /\ at_ m' (base a) (Mat v) /\ (b <= base a)%nat)).
  { clear m E HI HE LE Lb. intros m E Ev' HE LE EA.
    rewrite (mbind_load_mat _ _ _ _ (at_contents _ _ _ HE)). rewrite EA.
    destruct (forallb _ Mv).
    - split; cbn [fst snd base shown].
      + split; [cbn; rewrite set_nth_length; auto|]. intros l Hl Hb. cbn in *. apply nth_error_set_neq. lia.
      + split; auto. split; auto. apply at_set. eapply at_lt; eauto.
    - split; cbn; auto. apply oframe_refl. }
  destruct (Nat.ltb (length Ev) (length Mv)) eqn:EL.
  - apply runs_alloc. apply (Fin _ _ (Ev ++ repeat (vzeros n) (length Mv - length Ev))).
    + apply at_grow. + auto. + apply add_rows_zeros. lia.
  - rewrite mbind_ret. apply Fin with Ev; auto.
Qed.

Lemma fold_bind {X Y} (f : res X -> Y -> res X) l x :
  (forall e y, f (Raise e) y = Raise e) ->
  fold_left f l x = bind x (fun x => fold_left f l (Ok x)).
Proof.
  intros K. destruct x; cbn [bind]; auto. apply fold_raise. intros; apply K.
Qed.

Lemma py_get_shows {X Y} (P : X -> Y -> Prop) l l' i : Forall2 P l l' ->
  match py_get l i, py_get l' i with Ok a, Ok v => P a v | Raise e, Raise e' => e = e' | _, _ => False end.
Proof.
  intros F. unfold py_get. assert (EL : zlen l = zlen l').
  { unfold zlen. f_equal. clear - F. induction F; cbn; congruence. }
  rewrite EL. destruct (_ <? 0)%Z; auto. clear EL.
  generalize (Z.to_nat (if i <? 0 then i + zlen l' else i)). intros j. revert j.
  induction F as [|x y l l' Pxy F IH]; intros [|j]; cbn; auto. apply IH.
Qed.

Lemma runs_get {X' Y'} b m l vs i (f : arr -> M A X') (g : rows -> res Y') R :
  mats_show m l vs ->
  (forall a v, py_get l i = Ok a -> In a l -> contents m a = Some (Mat v) -> py_get vs i = Ok v -> runs b m (f a m) (g v) R) ->
  runs b m (mbind (lift (py_get l i)) f m) (bind (py_get vs i) g) R.
Proof.
  intros F K. pose proof (py_get_shows _ _ _ i F) as Q. unfold mbind, lift.
  destruct (py_get l i) as [a|e] eqn:E1, (py_get vs i) as [v|e'] eqn:E2; try contradiction; cbn [bind].
  - apply K; auto. eapply py_get_in; eauto.
  - subst. split; cbn; auto. apply oframe_refl.
Qed.

Lemma c_trial_h_spec c ne vs S T s t i m :
  contents m S = Some (Vec s) -> contents m T = Some (Vec t) -> mats_show m ne vs ->
  runs None m (c_trial_h spl fuel ec conv c ne S T i m) (c_trial dec c vs s t i)
    (fun m' a v => contents m' a = Some (Mat v) /\ (length (heap m) <= base a)%nat).
Proof.
  intros HS HT Hn. unfold c_trial_h, c_trial.
  eapply runs_get; [exact Hn|]. intros a v _ _ Ha _.
  rewrite (mbind_load_mat _ _ _ _ Ha). apply runs_lift. intros first _.
  rewrite (mbind_load_vec _ _ _ _ HS). apply runs_lift. intros x _.
  apply runs_alloc. eapply runs_imp; [apply run_h_spec with (t := Some t)|].
  - apply contents_new.
  - cbn. apply contents_grow; auto.
  - cbn. intros m' a' w _ (E & L). split; auto. rewrite app_length in L. cbn in L. lia.
Qed.

Lemma shaped_forallb n (M : rows) : shaped n M -> forallb (fun r => Nat.eqb (length r) n) M = true.
Proof.
  intros F. apply forallb_forall. unfold shaped in F. rewrite Forall_forall in F.
  intros r Hr. apply Nat.eqb_eq. auto.
Qed.

(** When the noise has the length of the signal, all trials give rows of that length. *)
Lemma c_trial_shaped c vs s t i M : Forall (shaped (length s)) vs -> c_trial dec c vs s t i = Ok M -> shaped (length s) M.
Proof.
  intros Hv E. unfold c_trial in E. apply bind_ok in E as (imfs & E1 & E).
  apply bind_ok in E as (first & E2 & E). apply bind_ok in E as (x & E3 & E).
  apply py_get_in in E1. rewrite Forall_forall in Hv. apply Hv in E1.
  apply py_get_in in E2. unfold shaped in E1. rewrite Forall_forall in E1. apply E1 in E2.
  assert (El : length s = length (vscale (epsilon c) first)).
  { unfold vscale. rewrite map_length. auto. }
  rewrite broadcast2_eq in E3 by exact El. injection E3 as <-.
  apply dec_shaped in E. assert (Ex : length (map2 nadd s (vscale (epsilon c) first)) = length s).
  { clear - El. revert El. generalize (vscale (epsilon c) first). induction s; destruct l; cbn; intros; try lia; auto. }
  rewrite Ex in E. exact E.
Qed.

Lemma serial_eemd_h_spec b c ne vs S T s t : forall ts E Ev m,
  contents m S = Some (Vec s) -> (base S < b)%nat -> contents m T = Some (Vec t) -> (base T < b)%nat ->
  mats_show m ne vs -> all_below (Some b) ne -> Forall (shaped (length s)) vs ->
  at_ m E (Mat Ev) -> (b <= E)%nat ->
  runs (Some b) m (serial_eemd_h spl fuel ec conv c ne (length s) S T ts (MkArr E Whole) m)
    (let! rs := mapM (c_trial dec c vs s t) ts in fold_left (accumulate (length s)) rs (Ok Ev))
    (fun m' a v => shown a = Whole /\ at_ m' (base a) (Mat v) /\ (b <= base a)%nat).
Proof.
  induction ts as [|i ts IH]; intros E Ev m HS BS HT BT Hn Bn Sh HE LE; cbn [serial_eemd_h mapM].
  { cbn [bind fold_left]. apply runs_ret. auto. }
  pose proof (c_trial_h_spec c ne vs S T s t i m HS HT Hn) as Tr.
  destruct (c_trial dec c vs s t i) as [M|e] eqn:ET; cbn [bind].
  2:{ destruct Tr as (F & Q). unfold mbind. destruct (c_trial_h _ _ _ _ _ _ _ _ _ m) as [[a|e1] m1]; cbn in *; try contradiction.
      subst. split; cbn; auto. apply hframe_oframe, oframe_hframe; auto. }
  apply runs_bind_l with (y := M) (R := fun m' a v =>
      hframe m m' /\ contents m' a = Some (Mat v) /\ (length (heap m) <= base a)%nat).
  { destruct Tr as (F & Q). split; [apply hframe_oframe, oframe_hframe; auto|].
    destruct (c_trial_h _ _ _ _ _ _ _ _ _ m) as [[a|e1] m1]; cbn in *; try contradiction.
    split; [apply oframe_hframe; auto|]. auto. }
  intros r m1 F1 (F1' & Hr & _).
  assert (HE1 : at_ m1 E (Mat Ev)).
  { unfold at_ in *. destruct F1' as (_ & K). rewrite K; auto. apply (at_lt m E (Mat Ev)); auto. }
  assert (Eq : bind (bind (mapM (c_trial dec c vs s t) ts) (fun ys => Ok (M :: ys)))
                 (fun rs => fold_left (accumulate (length s)) rs (Ok Ev))
             = bind (accumulate (length s) (Ok Ev) M)
                 (fun E' => bind (mapM (c_trial dec c vs s t) ts)
                      (fun rs => fold_left (accumulate (length s)) rs (Ok E')))).
  { apply c_trial_shaped in ET; auto. unfold accumulate at 2. cbn [bind]. rewrite (shaped_forallb _ _ ET).
    destruct (mapM _ ts); cbn [bind fold_left]; auto. unfold accumulate at 2. cbn [bind].
    rewrite (shaped_forallb _ _ ET). reflexivity. }
  rewrite Eq. assert (Lb : (b <= length (heap m1))%nat) by (apply at_lt in HE1; lia).
  eapply runs_bind; [apply accumulate_h_spec; eauto|].
  intros a v m2 F2 (W & Ha & La). destruct a as [la wa]. cbn in W, Ha, La. subst wa.
  apply IH; auto.
  - apply (keeps (Some b) m); auto. eapply oframe_trans; eauto.
  - apply (keeps (Some b) m); auto. eapply oframe_trans; eauto.
  - apply (keeps_mats (Some b) m); auto. eapply oframe_trans; eauto.
Qed.

Lemma receive_eemd_h_spec b n : forall rs E Ev m,
  at_ m E (Mat Ev) -> (b <= E)%nat ->
  runs (Some b) m (receive_eemd_h n rs (MkArr E Whole) m) (fold_left (accumulate n) rs (Ok Ev))
    (fun m' a v => shown a = Whole /\ at_ m' (base a) (Mat v) /\ (b <= base a)%nat).
Proof.
  induction rs as [|M rs IH]; intros E Ev m HE LE; cbn [receive_eemd_h fold_left].
  { apply runs_ret. auto. }
  apply runs_alloc. rewrite fold_bind by reflexivity.
  eapply runs_bind; [apply accumulate_h_spec|].
  - apply contents_new. - apply at_grow_old; eauto. - auto.
  - apply at_lt in HE. cbn. rewrite app_length. lia.
  - intros a v m2 F2 (W & Ha & La). destruct a as [la wa]. cbn in W, Ha, La. subst wa. apply IH; auto.
Qed.

Lemma each_load (m : mem A) l vs : mats_show m l vs -> each load_mat l m = (Ok vs, m).
Proof.
  induction 1 as [|a v l vs E F IH]; cbn [each]; auto.
  rewrite (mbind_load_mat _ _ _ _ E). rewrite (mbind_ok _ _ _ _ _ IH). reflexivity.
Qed.

Lemma inner_eemd_h_spec c ne vs S T s t m :
  contents m S = Some (Vec s) -> shows m T t -> mats_show m ne vs -> Forall (shaped (length s)) vs ->
  runs None m (inner_eemd_h arrival spl fuel ec conv c ne S T m) (inner_eemd dec arrival c vs s t)
    (fun m' a v => shown a = Whole /\ contents m' a = Some (Mat v)).
Proof.
  intros HS HT Hn Sh. unfold inner_eemd_h, inner_eemd. rewrite (mbind_load_vec _ _ _ _ HS).
  set (t' := match t with Some t => t | None => map nofZ (zseq 0 (length s)) end).
  apply runs_bind_l with (y := t') (R := fun m' a v => contents m' a = Some (Vec v)).
  { destruct T as [T|], t as [t|]; cbn in HT; try contradiction.
    - apply runs_ret. auto.
    - apply runs_alloc_last. apply contents_new. }
  intros T' m1 F1 HT'. clearbody t'.
  assert (HS1 : contents m1 S = Some (Vec s)) by (eapply keeps_all; eauto).
  assert (Hn1 : mats_show m1 ne vs) by (eapply keeps_mats; eauto; apply all_below_none).
  apply runs_lift. intros _ _.
  rewrite mbind_alloc. set (m2 := grow m1 _). set (lE := length (heap m1)).
  apply runs_new with m2; [apply hframe_grow|].
  assert (HE : at_ m2 lE (Mat [vzeros (length s)])) by apply at_grow.
  assert (HS2 : contents m2 S = Some (Vec s)) by (apply contents_grow; auto).
  assert (HT2 : contents m2 T' = Some (Vec t')) by (apply contents_grow; auto).
  assert (Hn2 : mats_show m2 ne vs).
  { eapply keeps_mats; [apply hframe_oframe, hframe_grow|eauto|apply (all_below_none ne)]. }
  pose proof (contents_live _ _ _ HS1) as BS. pose proof (contents_live _ _ _ HT') as BT.
  pose proof (mats_live _ _ _ Hn1) as Bn. unfold live in BS, BT. fold lE in BS, BT, Bn |- *.
  assert (Eq : (let! results := mapM (c_trial dec c vs s t') (zrange 0 (c_trials c)) in
                let results := if c_parallel c then arrival results else results in
                let! E := fold_left (accumulate (length s)) results (Ok [vzeros (length s)]) in
                Ok (div_rows E (nofZ (c_trials c))))
             = bind (bind (mapM (c_trial dec c vs s t') (zrange 0 (c_trials c)))
                 (fun rs => fold_left (accumulate (length s)) (if c_parallel c then arrival rs else rs) (Ok [vzeros (length s)])))
                 (fun E => Ok (div_rows E (nofZ (c_trials c))))).
  { destruct (mapM _ _); reflexivity. }
  apply (runs_eq _ _ _ _ _ _ Eq). clear Eq. clearbody lE m2.
  apply runs_bind with (fun m' a v => shown a = Whole /\ at_ m' (base a) (Mat v) /\ (lE <= base a)%nat).
  { destruct (c_parallel c).
    - rewrite (mbind_load_vec _ _ _ _ HT2). rewrite (mbind_ok _ _ _ _ _ (each_load _ _ _ Hn2)).
      apply runs_lift. intros rs _. apply receive_eemd_h_spec; auto.
    - apply serial_eemd_h_spec; auto. }
  intros a v m3 F3 (W & Ha & La). destruct a as [la wa]; cbn in W, Ha, La; subst wa.
  rewrite (mbind_load_mat _ _ _ _ (at_contents _ _ _ Ha)). apply runs_alloc_last.
  split; auto. apply contents_new.
Qed.

(** ** The main loop *)
Lemma c_end_condition_h_spec c S cimfs s C k m :
  contents m S = Some (Vec s) -> contents m cimfs = Some (Mat C) ->
  runs None m (c_end_condition_h spl fuel ec conv c S cimfs k m) (c_end_condition dec c s C k) (fun _ => eq).
Proof.
  intros HS HC. unfold c_end_condition_h, c_end_condition.
  rewrite (mbind_load_vec _ _ _ _ HS), (mbind_load_mat _ _ _ _ HC).
  destruct (_ && _). { apply runs_ret. reflexivity. }
  apply runs_alloc. set (R := vsub s _). set (m1 := grow m _). set (lR := length (heap m)).
  assert (HR : contents m1 (MkArr lR Whole) = Some (Vec R)) by apply contents_new. clearbody lR m1.
  eapply runs_bind; [apply run_h_spec with (t := None); [exact HR|exact I]|].
  intros a v m2 F2 (Ha & _). rewrite (mbind_load_mat _ _ _ _ Ha).
  destruct (zlen v =? 1). { apply runs_ret. reflexivity. }
  assert (HR2 : contents m2 (MkArr lR Whole) = Some (Vec R)) by (eapply keeps_all; eauto).
  rewrite (mbind_load_vec _ _ _ _ HR2).
  apply runs_lift. intros mx _. apply runs_lift. intros mn _.
  destruct (nltb _ _); [apply runs_ret; reflexivity|].
  destruct (nltb _ _); apply runs_ret; reflexivity.
Qed.

Lemma iadd_h_spec b l v y m : at_ m l (Vec v) -> (b <= l)%nat ->
  runs (Some b) m (iadd_h (MkArr l Whole) y m) (iadd v y)
    (fun m' _ z => at_ m' l (Vec z) /\ length (heap m') = length (heap m)).
Proof.
  intros E L. unfold iadd_h. rewrite (mbind_load_vec _ _ _ _ (at_contents _ _ _ E)).
  unfold mbind, lift. destruct (iadd v y) as [z|e].
  - split; cbn [fst snd base].
    + split; [cbn; rewrite set_nth_length; auto|]. intros l' Hl Hb. cbn in *. apply nth_error_set_neq. lia.
    + split. apply at_set. eapply at_lt; eauto. cbn. apply set_nth_length.
  - split; cbn; auto. apply oframe_refl.
Qed.

Lemma mean_step_h_spec b c ne vs T t prev pv beta k lm mv i m :
  mats_show m ne vs -> all_below (Some b) ne -> shows m T t -> (forall a, T = Some a -> (base a < b)%nat) ->
  contents m prev = Some (Vec pv) -> (base prev < b)%nat ->
  at_ m lm (Vec mv) -> (b <= lm)%nat ->
  runs (Some b) m (mean_step_h spl fuel ec conv c ne T prev beta k (MkArr lm Whole) i m)
    (mean_step dec c vs t pv beta k (Ok mv) i) (fun m' _ v => at_ m' lm (Vec v)).
Proof.
  intros Hn Bn HT BT Hp Bp Hm Lm. unfold mean_step_h, mean_step. cbn [bind].
  eapply runs_get; [exact Hn|]. intros a v _ Ia Ha _.
  rewrite (mbind_load_mat _ _ _ _ Ha). rewrite (mbind_copy_vec _ _ _ _ Hp).
  set (m1 := grow m (Vec pv)). set (lr := length (heap m)).
  apply runs_step with m1; [apply hframe_oframe, hframe_grow|].
  assert (Hr : at_ m1 lr (Vec pv)) by apply at_grow.
  assert (Hm1 : at_ m1 lm (Vec mv)) by (apply at_grow_old; auto).
  assert (HT1 : shows m1 T t).
  { apply (keeps_shows None m); auto. apply hframe_oframe, hframe_grow. intros; exact I. }
  pose proof (at_lt _ _ _ Hm) as Llm. fold lr in Llm.
  clearbody lr m1.
  apply runs_bind with (fun m' _ rv => at_ m' lr (Vec rv) /\ at_ m' lm (Vec mv)).
  { destruct (k <? zlen v).
    - apply runs_lift. intros x _.
      assert (Q : runs (Some lr) m1 (iadd_h (MkArr lr Whole) (vscale beta x) m1) (iadd pv (vscale beta x))
        (fun m' _ z => at_ m' lr (Vec z) /\ length (heap m') = length (heap m1))) by (apply iadd_h_spec; auto).
      destruct Q as ((Q1 & Q2) & Q3). split.
      + split; auto. intros l Hl Hb. apply Q2; auto. cbn in *. lia.
      + destruct (fst _), (iadd _ _); auto. split; [tauto|].
        unfold at_ in *. rewrite Q2; auto. apply (at_lt m1 lm (Vec mv)); auto.
    - apply runs_ret. auto. }
  intros _ rv m2 F2 (Hr2 & Hm2).
  assert (HT2 : shows m2 T t) by (apply (keeps_shows (Some b) m1); auto).
  apply runs_bind with (fun m' a v => contents m' a = Some (Mat v) /\ at_ m' lm (Vec mv)).
  { pose proof (run_h_spec (MkArr lr Whole) T rv t 1 m2 (at_contents _ _ _ Hr2) HT2) as (Q1 & Q2).
    split; [apply hframe_oframe, oframe_hframe; auto|].
    destruct (fst _), (dec _ _ _); auto. split; [tauto|].
    unfold at_ in *. destruct Q1 as (_ & Q1). rewrite Q1; auto. apply (at_lt m2 lm (Vec mv)); auto. exact I. }
  intros x iv m3 F3 (Hx & Hm3). rewrite (mbind_load_mat _ _ _ _ Hx).
  apply runs_lift. intros last _.
  eapply runs_imp; [apply iadd_h_spec; eauto|]. cbn. tauto.
Qed.

Lemma mean_loop_h_spec b c ne vs T t prev pv beta k lm : forall ts mv m,
  mats_show m ne vs -> all_below (Some b) ne -> shows m T t -> (forall a, T = Some a -> (base a < b)%nat) ->
  contents m prev = Some (Vec pv) -> (base prev < b)%nat ->
  at_ m lm (Vec mv) -> (b <= lm)%nat ->
  runs (Some b) m (mean_loop_h spl fuel ec conv c ne T prev beta k (MkArr lm Whole) ts m)
    (fold_left (mean_step dec c vs t pv beta k) ts (Ok mv)) (fun m' _ v => at_ m' lm (Vec v)).
Proof.
  induction ts as [|i ts IH]; intros mv m Hn Bn HT BT Hp Bp Hm Lm; cbn [mean_loop_h fold_left].
  { apply runs_ret. auto. }
  rewrite fold_bind by reflexivity.
  eapply runs_bind; [apply mean_step_h_spec; eauto|].
  intros u v m1 F1 Hv. apply IH; auto.
  - eapply keeps_mats; eauto.
  - eapply keeps_shows; eauto.
  - eapply keeps; eauto.
Qed.

Lemma ceemdan_loop_h_spec c ne vs S T s t k : Forall (shaped (length s)) vs ->
  forall n cimfs prev C pv m,
  contents m S = Some (Vec s) -> shows m T t -> mats_show m ne vs ->
  contents m cimfs = Some (Mat C) -> contents m prev = Some (Vec pv) ->
  runs None m (ceemdan_loop_h std spl fuel ec conv n c ne S T k cimfs prev m)
    (ceemdan_loop std dec n c vs s t k C pv) (fun m' a v => contents m' a = Some (Mat v)).
Proof.
  intros Sh. induction n as [|n IH]; intros cimfs prev C pv m HS HT Hn HC Hp; cbn [ceemdan_loop_h ceemdan_loop].
  { apply runs_ret. auto. }
  eapply runs_bind; [apply c_end_condition_h_spec; eauto|].
  intros stop ? m1 F1 <-. destruct stop.
  { apply runs_ret. eapply keeps_all; eauto. }
  assert (HS1 : contents m1 S = Some (Vec s)) by (eapply keeps_all; eauto).
  assert (HC1 : contents m1 cimfs = Some (Mat C)) by (eapply keeps_all; eauto).
  assert (Hp1 : contents m1 prev = Some (Vec pv)) by (eapply keeps_all; eauto).
  assert (HT1 : shows m1 T t) by (eapply keeps_shows; eauto; intros; exact I).
  assert (Hn1 : mats_show m1 ne vs) by (eapply keeps_mats; eauto; apply all_below_none).
  rewrite (mbind_load_vec _ _ _ _ HS1), (mbind_load_mat _ _ _ _ HC1), (mbind_load_vec _ _ _ _ Hp1).
  rewrite mbind_alloc. set (m2 := grow m1 _). set (lm := length (heap m1)).
  apply runs_new with m2; [apply hframe_grow|]. fold lm.
  assert (F2 : oframe None m1 m2) by apply hframe_oframe, hframe_grow.
  assert (Hm2 : at_ m2 lm (Vec (vzeros (length s)))) by apply at_grow.
  pose proof (contents_live _ _ _ HS1) as BS. pose proof (contents_live _ _ _ Hp1) as Bp.
  pose proof (contents_live _ _ _ HC1) as BC.
  pose proof (mats_live _ _ _ Hn1) as Bn. unfold live in *. fold lm in BS, Bp, Bn, BC.
  assert (BT : forall a, T = Some a -> (base a < lm)%nat).
  { intros a ->. destruct t as [t|]; cbn in HT1; try contradiction. apply contents_live in HT1. exact HT1. }
  clearbody lm m2.
  eapply runs_bind.
  { apply mean_loop_h_spec with (b := lm); eauto.
    - eapply keeps_mats; eauto. apply all_below_none.
    - eapply keeps_shows; eauto. intros; exact I.
    - eapply keeps_all; eauto. }
  intros u mv m3 F3 Hm3. cbn beta in Hm3 |- *.
  rewrite (mbind_load_vec _ _ _ _ (at_contents _ _ _ Hm3)).
  assert (Hp3 : contents m3 prev = Some (Vec pv)).
  { eapply keeps; [exact F3| |exact Bp]. eapply keeps_all; eauto. }
  rewrite (mbind_load_vec _ _ _ _ Hp3).
  apply runs_alloc. set (m4 := grow m3 _). set (ll := length (heap m3)).
  assert (Hl : contents m4 (MkArr ll Whole) = Some (Vec (vsub pv mv))) by apply contents_new.
  rewrite (mbind_load_vec _ _ _ _ Hl).
  apply runs_alloc. set (m5 := grow m4 _). set (lc := length (heap m4)).
  assert (Hc : contents m5 (MkArr lc Whole) = Some (Mat (C ++ [vsub pv mv]))) by apply contents_new.
  assert (F35 : oframe None m3 m5).
  { apply oframe_trans with m4; apply hframe_oframe, hframe_grow. }
  assert (Hm5 : contents m5 (MkArr lm Whole) = Some (Vec mv)).
  { eapply keeps_all; [exact F35|]. apply at_contents; auto. }
  rewrite (mbind_copy_vec _ _ _ _ Hm5). set (m6 := grow m5 _). set (lp := length (heap m5)).
  apply runs_step with m6; [apply hframe_oframe, hframe_grow|].
  assert (F56 : oframe None m5 m6) by apply hframe_oframe, hframe_grow.
  assert (Hp6 : contents m6 (MkArr lp Whole) = Some (Vec mv)) by apply contents_new.
  clearbody lp lc ll. apply runs_weak. apply IH; auto.
  - eapply keeps_all; [exact F56|]. eapply keeps_all; [exact F35|]. eapply keeps; [exact F3| |exact BS]. eapply keeps_all; eauto.
  - eapply keeps_shows; [exact F56| |intros; exact I]. eapply keeps_shows; [exact F35| |intros; exact I].
    eapply keeps_shows; [exact F3| |exact BT]. eapply keeps_shows; [exact F2| |intros; exact I]. exact HT1.
  - eapply keeps_mats; [exact F56| |apply all_below_none]. eapply keeps_mats; [exact F35| |apply all_below_none].
    eapply keeps_mats; [exact F3| |exact Bn]. eapply keeps_mats; [exact F2| |apply all_below_none]. exact Hn1.
  - eapply keeps_all; [exact F56|exact Hc].
Qed.

(** ** CEEMDAN.ceemdan *)
Lemma decompose_shaped n c N vs : shaped n N -> decompose_noise std dec c N = Ok vs -> Forall (shaped n) vs.
Proof.
  intros HN E. unfold decompose_noise in E. apply bind_ok in E as (_ & _ & E).
  apply bind_ok in E as (all & E1 & E).
  assert (Ha : Forall (shaped n) all).
  { clear E. revert all E1. induction HN as [|x N Hx HN IH]; cbn; intros all E1.
    - injection E1 as <-. constructor.
    - apply bind_ok in E1 as (y & Ey & E1). apply bind_ok in E1 as (ys & Eys & E1). injection E1 as <-.
      constructor; auto. apply dec_shaped in Ey. rewrite Hx in Ey. auto. }
  destruct (beta_progress c).
  - apply bind_ok in E as (stds & _ & E). injection E as <-. clear E1.
    revert stds. induction Ha; intros [|d stds]; cbn; constructor; auto. apply div_rows_shaped; auto.
  - injection E as <-. auto.
Qed.

Lemma ceemdan_rows_h_spec c noises N S T s t k m :
  contents m noises = Some (Mat N) -> shown noises = Whole -> shaped (length s) N ->
  contents m S = Some (Vec s) -> shows m T t ->
  runs None m (ceemdan_rows_h std arrival spl fuel ec conv c noises S T k m) (ceemdan_rows std dec arrival c N s t k)
    (fun m' a v => contents m' a = Some (Mat v)).
Proof.
  intros HN WN Sh HS HT. unfold ceemdan_rows_h, ceemdan_rows.
  pose proof (decompose_shaped (length s) c N) as Shv.
  pose proof (decompose_h_spec c noises N m HN WN) as D.
  destruct (decompose_noise std dec c N) as [vs|e]; cbn [bind].
  2:{ destruct D as (D1 & D2). unfold mbind. destruct (decompose_noise_h _ _ _ _ _ _ _ m) as [[a|e1] m1]; cbn in *; try contradiction.
      subst. split; cbn; auto. }
  specialize (Shv vs Sh eq_refl).
  eapply runs_bind_l; [exact D|]. intros ne m1 F1 Hn.
  assert (HS1 : contents m1 S = Some (Vec s)) by (eapply keeps_all; eauto).
  assert (HT1 : shows m1 T t) by (eapply keeps_shows; eauto; intros; exact I).
  eapply runs_bind; [apply inner_eemd_h_spec; eauto|]. intros E Ev m2 F2 (WE & HE).
  rewrite (mbind_load_mat _ _ _ _ HE). apply runs_lift. intros first Ef.
  assert (HS2 : contents m2 S = Some (Vec s)) by (eapply keeps_all; eauto).
  rewrite (mbind_load_vec _ _ _ _ HS2).
  apply runs_alloc. set (m3 := grow m2 _). set (lp := length (heap m2)).
  assert (F3 : oframe None m2 m3) by apply hframe_oframe, hframe_grow.
  assert (Hp : contents m3 (MkArr lp Whole) = Some (Vec (vsub s first))) by apply contents_new.
  assert (HC : contents m3 (MkArr (base E) (Head 1)) = Some (Mat [first])).
  { assert (HE3 : contents m3 E = Some (Mat Ev)) by (eapply keeps_all; eauto).
    destruct E as [lE wE]. cbn in WE. subst wE. unfold contents in *. cbn [base shown] in *.
    destruct (nth_error (heap m3) lE) as [[x|x]|]; try discriminate; injection HE3 as ->.
    destruct Ev as [|r Ev]; cbn in Ef; try discriminate. injection Ef as ->. reflexivity. }
  clearbody lp m3.
  eapply runs_bind.
  { eapply ceemdan_loop_h_spec; [exact Shv|..]; eauto.
    - eapply keeps_all; eauto.
    - eapply keeps_shows; eauto; try (intros; exact I). eapply keeps_shows; eauto; intros; exact I.
    - eapply keeps_mats; eauto; try apply all_below_none. eapply keeps_mats; eauto; apply all_below_none. }
  intros cimfs C m4 F4 HC4. rewrite (mbind_load_mat _ _ _ _ HC4).
  assert (HS4 : contents m4 S = Some (Vec s)).
  { eapply keeps_all; [exact F4|]. eapply keeps_all; eauto. }
  rewrite (mbind_load_vec _ _ _ _ HS4). apply runs_alloc.
  rewrite (mbind_load_vec _ _ _ _ (contents_new _ _)). apply runs_alloc_last. apply contents_new.
Qed.

Lemma runs_lift_l {X X' Y'} b m (y : res X) v (f : X -> M A X') (z : res Y') R :
  y = Ok v -> runs b m (f v m) z R -> runs b m (mbind (lift y) f m) z R.
Proof. intros -> K. exact K. Qed.

Lemma ceemdan_h_spec c o p S T s t k :
  contents (c_mem o) S = Some (Vec s) -> shows (c_mem o) T t -> c_shows o p ->
  (forall N, fst (all_noises gen c (h_random o) (length s)) = Ok N -> shaped (length s) N) ->
  match ceemdan gen std dec arrival c p s t k with
  | (Ok C, p') => exists a b o', ceemdan_h gen std arrival spl fuel ec conv c o S T k = (Ok a, o') /\
      ceemdan_imfs_and_residue_h o' = Ok (a, b) /\
      contents (c_mem o') a = Some (Mat C) /\
      c_shows o' p' /\ hframe (c_mem o) (c_mem o') /\
      created (c_mem o) (c_mem o') a /\ created (c_mem o) (c_mem o') b /\ apart a b /\ shown a = Whole
  | (Raise e, p') => exists o', ceemdan_h gen std arrival spl fuel ec conv c o S T k = (Raise e, o') /\
      c_shows o' p' /\ hframe (c_mem o) (c_mem o')
  end.
Proof.
  intros HS HT (Hg & Hi & Hd) HZ. unfold ceemdan_h, ceemdan.
  assert (EL : load_vec S (c_mem o) = (Ok s, c_mem o)) by (unfold load_vec; rewrite HS; reflexivity).
  rewrite EL. set (m := c_mem o) in *.
  set (sc := std s). set (s1 := map (fun x => ndiv x sc) s).
  assert (L1 : length s1 = length s) by (unfold s1; rewrite map_length; auto).
  rewrite L1, <- Hg. destruct (all_noises gen c (h_random o) (length s)) as [noises g] eqn:EN.
  set (prog := mbind (alloc (Vec s1)) _).
  assert (Q : runs None m (prog m)
     (let! N := noises in let! cimfs := ceemdan_rows std dec arrival c N s1 t k in
      Ok (map (map (fun x => nmul x sc)) cimfs))
     (fun m' (p : arr * arr) C => let (a, b) := p in shown a = Whole /\
        contents m' a = Some (Mat C) /\
        contents m' b = Some (Vec (vsub (map (fun x => nmul x sc) s1) (sum_rows (length s) C))) /\
        (length (heap m) <= base a)%nat /\ (base a < base b)%nat)).
  { unfold prog. apply runs_alloc. set (m1 := grow m _). set (lS := length (heap m)).
    assert (HS1 : contents m1 (MkArr lS Whole) = Some (Vec s1)) by apply contents_new.
    assert (HT1 : shows m1 T t).
    { eapply (keeps_shows None); [apply hframe_oframe, hframe_grow|exact HT|intros; exact I]. }
    assert (Lm1 : (length (heap m) < length (heap m1))%nat).
    { unfold m1. cbn. rewrite app_length. cbn. lia. }
    assert (ElS : lS = length (heap m)) by reflexivity.
    clearbody lS m1. apply runs_lift. intros N ->.
    specialize (HZ N eq_refl).
    apply runs_alloc. set (m2 := grow m1 _). set (lN := length (heap m1)).
    assert (HN : contents m2 (MkArr lN Whole) = Some (Mat N)) by apply contents_new.
    assert (HS2 : contents m2 (MkArr lS Whole) = Some (Vec s1)) by (apply contents_grow; auto).
    assert (HT2 : shows m2 T t).
    { eapply (keeps_shows None); [apply hframe_oframe, hframe_grow|exact HT1|intros; exact I]. }
    assert (Lm2 : (length (heap m) < length (heap m2))%nat).
    { unfold m2. cbn. rewrite app_length. cbn. lia. }
    clearbody lN m2.
    eapply runs_bind; [apply ceemdan_rows_h_spec; eauto; rewrite L1; auto|].
    intros cimfs C m3 F3 HC. rewrite (mbind_load_mat _ _ _ _ HC).
    apply runs_alloc. set (m4 := grow m3 _). set (la := length (heap m3)).
    assert (Ha : contents m4 (MkArr la Whole) = Some (Mat (map (map (fun x => nmul x sc)) C))) by apply contents_new.
    assert (HS4 : contents m4 (MkArr lS Whole) = Some (Vec s1)).
    { apply contents_grow. eapply keeps_all; eauto. }
    rewrite (mbind_load_vec _ _ _ _ HS4), (mbind_load_mat _ _ _ _ Ha). rewrite L1.
    apply runs_alloc. apply runs_ret. split; auto. split; [apply contents_grow; auto|].
    split; [apply contents_new|]. cbn [base]. destruct F3 as (F3 & _). subst la.
    split; [lia|]. unfold m4. cbn. rewrite app_length. cbn. lia. }
  destruct Q as (F & Q). apply oframe_hframe in F. destruct (prog m) as [r m'] eqn:EP. cbn [fst snd] in *.
  destruct (let! N := noises in _) as [C|e], r as [[a b]|e']; try contradiction.
  - destruct Q as (W & Ha & Hb & La & Lab).
    exists a, b, (MkCMem m' g (Some a) (Some b)).
    split; [reflexivity|]. split; [reflexivity|]. split; [exact Ha|].
    split; [split; [reflexivity|split; [exact Ha|exact Hb]]|]. split; [exact F|].
    apply contents_live in Ha, Hb. unfold created, live, apart in *. cbn [c_mem] in *. repeat split; auto; lia.
  - subst e'. exists (MkCMem m' g (h_C_IMF o) (h_res o)). split; [reflexivity|]. split; [|exact F].
    split; [reflexivity|]. cbn [h_C_IMF h_res c_mem C_IMF c_residue]. split.
    + clear - Hi F. destruct (h_C_IMF o), (C_IMF p); cbn in *; auto. eapply hframe_contents; eauto.
    + clear - Hd F. destruct (h_res o), (c_residue p); cbn in *; auto. eapply hframe_contents; eauto.
Qed.

(** ** The caller's side *)
Hypothesis HZ : forall c g n N, fst (all_noises gen c g n) = Ok N -> shaped n N.

Lemma ceemdan_call_ok c o p S T s t k C p' :
  contents (c_mem o) S = Some (Vec s) -> shows (c_mem o) T t -> c_shows o p ->
  ceemdan gen std dec arrival c p s t k = (Ok C, p') ->
  exists a b o', ceemdan_h gen std arrival spl fuel ec conv c o S T k = (Ok a, o') /\
    ceemdan_imfs_and_residue_h o' = Ok (a, b) /\
    contents (c_mem o') a = Some (Mat C) /\
    c_shows o' p' /\ untouched (c_mem o) (c_mem o') /\
    created (c_mem o) (c_mem o') a /\ created (c_mem o) (c_mem o') b /\ apart a b.
Proof.
  intros HS HT St E. pose proof (ceemdan_h_spec c o p S T s t k HS HT St (HZ c _ _)) as X. rewrite E in X.
  destruct X as (a & b & o' & E1 & E2 & E3 & E4 & F & E5 & E6 & E7 & _). exists a, b, o'.
  split; [exact E1|]. split; [exact E2|]. split; [exact E3|]. split; [exact E4|].
  split; [apply hframe_untouched; exact F|]. split; [exact E5|]. split; [exact E6|exact E7].
Qed.
Lemma ceemdan_call_raise c o p S T s t k e p' :
  contents (c_mem o) S = Some (Vec s) -> shows (c_mem o) T t -> c_shows o p ->
  ceemdan gen std dec arrival c p s t k = (Raise e, p') ->
  exists o', ceemdan_h gen std arrival spl fuel ec conv c o S T k = (Raise e, o') /\
    c_shows o' p' /\ untouched (c_mem o) (c_mem o').
Proof.
  intros HS HT St E. pose proof (ceemdan_h_spec c o p S T s t k HS HT St (HZ c _ _)) as X. rewrite E in X.
  destruct X as (o' & E1 & E2 & F). exists o'. split; auto. split; auto. apply hframe_untouched; auto.
Qed.

Lemma ceemdan_write_seen c o p S T s t k C p' a o' i j y :
  contents (c_mem o) S = Some (Vec s) -> shows (c_mem o) T t -> c_shows o p ->
  ceemdan gen std dec arrival c p s t k = (Ok C, p') ->
  ceemdan_h gen std arrival spl fuel ec conv c o S T k = (Ok a, o') ->
  contents (c_mem (c_writes o' [MkWrite a i j y])) a = Some (Mat (set_nth C i (set_nth (nth i C []) j y))).
Proof.
  intros HS HT St E Eh. pose proof (ceemdan_h_spec c o p S T s t k HS HT St (HZ c _ _)) as X. rewrite E in X.
  destruct X as (a' & b & o1 & E1 & E2 & Ca & E4 & F & E5 & E6 & E7 & W). rewrite Eh in E1. injection E1 as <- <-.
  pose proof (contents_live _ _ _ Ca) as L. unfold contents in Ca. rewrite W in Ca.
  destruct (nth_error (heap (c_mem o')) (base a)) as [x|] eqn:Ex; [|discriminate].
  assert (x = Mat C) by (destruct x; congruence). subst x.
  cbn [c_writes c_mem do_writes fold_left]. unfold do_write. cbn [target row col value]. rewrite Ex, W. cbn [put].
  unfold contents. cbn [heap set_cell]. rewrite nth_error_set_eq by exact L. rewrite W. reflexivity.
Qed.

Lemma ceemdan_write_through c o p S T s t k C p' a o' ws :
  contents (c_mem o) S = Some (Vec s) -> shows (c_mem o) T t -> c_shows o p ->
  ceemdan gen std dec arrival c p s t k = (Ok C, p') ->
  ceemdan_h gen std arrival spl fuel ec conv c o S T k = (Ok a, o') ->
  Forall (fun w => base (target w) = base a) ws ->
  exists b r, ceemdan_imfs_and_residue_h (c_writes o' ws) = Ok (a, b) /\
    c_residue p' = Some r /\ contents (c_mem (c_writes o' ws)) b = Some (Vec r) /\
    forall x, live (c_mem o) x -> contents (c_mem (c_writes o' ws)) x = contents (c_mem o) x.
Proof.
  intros HS HT St E Eh HW. pose proof (ceemdan_h_spec c o p S T s t k HS HT St (HZ c _ _)) as X. rewrite E in X.
  destruct X as (a' & b & o1 & E1 & E2 & Ca & (_ & _ & Sd) & F & (Na & _) & (Nb & _) & Ab & W).
  rewrite Eh in E1. injection E1 as <- <-.
  assert (Eb : h_res o' = Some b).
  { unfold ceemdan_imfs_and_residue_h in E2. destruct (h_C_IMF o'), (h_res o'); congruence. }
  rewrite Eb in Sd. destruct (c_residue p') as [r|]; [|contradiction]. exists b, r.
  assert (Ap : forall x, apart a x -> Forall (fun w => apart (target w) x) ws).
  { intros x Ax. eapply Forall_impl; [|exact HW]. cbn. intros w Ew. unfold apart in *. congruence. }
  split; [exact E2|]. split; [reflexivity|]. cbn [c_mem c_writes].
  split. { rewrite do_writes_other; auto. }
  intros x Lx. rewrite do_writes_other. { apply (hframe_untouched _ _ F); auto. }
  apply Ap. unfold apart, live in *. intros Eq. apply Na. rewrite Eq. exact Lx.
Qed.

Lemma ceemdan_twice c o p S T s t k C p' a o' c2 S2 T2 s2 t2 k2 :
  contents (c_mem o) S = Some (Vec s) -> shows (c_mem o) T t -> c_shows o p ->
  ceemdan gen std dec arrival c p s t k = (Ok C, p') ->
  ceemdan_h gen std arrival spl fuel ec conv c o S T k = (Ok a, o') ->
  contents (c_mem o') S2 = Some (Vec s2) -> shows (c_mem o') T2 t2 ->
  let '(r, o'') := ceemdan_h gen std arrival spl fuel ec conv c2 o' S2 T2 k2 in
  contents (c_mem o'') a = Some (Mat C) /\ forall a2, r = Ok a2 -> apart a a2.
Proof.
  intros HS HT St E Eh HS2 HT2. pose proof (ceemdan_h_spec c o p S T s t k HS HT St (HZ c _ _)) as X. rewrite E in X.
  destruct X as (a' & b & o1 & E1 & E2 & Ca & St' & _). rewrite Eh in E1. injection E1 as <- <-.
  pose proof (ceemdan_h_spec c2 o' p' S2 T2 s2 t2 k2 HS2 HT2 St' (HZ c2 _ _)) as Y.
  pose proof (contents_live _ _ _ Ca) as L. unfold live in L.
  destruct (ceemdan gen std dec arrival c2 p' s2 t2 k2) as [[C2|e] p2].
  - destruct Y as (a2 & b2 & o2 & -> & _ & _ & _ & F & (Na & _) & _). split. { eapply hframe_contents; eauto. }
    intros a3 Ea. injection Ea as <-. unfold apart, live in *. lia.
  - destruct Y as (o2 & -> & _ & F). split. { eapply hframe_contents; eauto. } discriminate.
Qed.
End HeapCeemdanProofs.

(** The generator returns as many samples as asked for. *)
Lemma all_noises_shaped {G} (gen : generator Qc G) : sized gen ->
  forall c g n N, fst (all_noises gen c g n) = Ok N -> shaped n N.
Proof.
  intros HZ c g n N E. unfold all_noises, c_generate_noise in E.
  assert (K : forall m (v : list Qc), length v = (m * n)%nat -> shaped n (reshape m n v)).
  { induction m as [|m IH]; intros v L; cbn [reshape]; constructor.
    - rewrite firstn_length. cbn in L. lia.
    - apply IH. rewrite skipn_length. cbn in L. lia. }
  destruct (c_noise_kind c).
  - destruct (c_trials c <? 0); [discriminate|].
    destruct (normal gen g (noise_scale c) _) as [v g'] eqn:En. injection E as <-. apply K.
    pose proof (HZ g (noise_scale c) (Z.to_nat (c_trials c) * n)%nat) as (Q & _). rewrite En in Q. exact Q.
  - destruct (c_trials c <? 0); [discriminate|].
    destruct (uniform gen g _ _ _) as [v g'] eqn:En. injection E as <-. apply K.
    pose proof (HZ g (noise_scale c) (Z.to_nat (c_trials c) * n)%nat) as (_ & Q).
    specialize (Q (ndiv (nopp (noise_scale c)) n2) (ndiv (noise_scale c) n2)). rewrite En in Q. exact Q.
  - discriminate.
Qed.
