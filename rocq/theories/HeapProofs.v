(** * HeapProofs: the memory model computes what the functional model computes, and assigns
    only into arrays it has created. *)
From Verif Require Import PyFacts Emd Spec EmdProofs Heap HeapSpec.
From Coq Require Import ZifyBool ZifyNat Lia.

Section HeapProofs.
Context {A : Type} `{Num A}.
Notation vec := (list A).
Notation rows := (list (list A)).

(** ** Lists *)
Lemma set_nth_length {X} (l : list X) i x : length (set_nth l i x) = length l.
Proof. revert i; induction l; destruct i; cbn; auto. Qed.
Lemma nth_error_set_eq {X} (l : list X) i x :
  (i < length l)%nat -> nth_error (set_nth l i x) i = Some x.
Proof. revert i; induction l; destruct i; cbn; intros; try lia; auto. apply IHl. lia. Qed.
Lemma nth_error_set_neq {X} (l : list X) i j x :
  i <> j -> nth_error (set_nth l i x) j = nth_error l j.
Proof. revert i j; induction l; destruct i, j; cbn; intros; try congruence; auto. Qed.

(** ** Frames: what changed, outside of a list of buffers *)
Definition frame (L : list nat) (m m' : mem A) : Prop :=
  (length (heap m) <= length (heap m'))%nat /\
  (forall l, (l < length (heap m))%nat -> ~ In l L -> nth_error (heap m') l = nth_error (heap m) l) /\
  o_imfs m' = o_imfs m /\ o_residue m' = o_residue m.

Lemma frame_refl L m : frame L m m.
Proof. repeat split; auto. Qed.

Lemma frame_trans L1 L2 m0 m1 m2 :
  frame L1 m0 m1 -> frame L2 m1 m2 ->
  (forall l, In l L2 -> In l L1 \/ (length (heap m0) <= l)%nat) -> frame L1 m0 m2.
Proof.
  intros (A1 & B1 & C1 & D1) (A2 & B2 & C2 & D2) HL. repeat split; try congruence; try lia.
  intros l Hl Hn. rewrite B2; [apply B1; auto|lia|].
  intros Hi. apply HL in Hi as [Hi|Hi]; [tauto|lia].
Qed.

Lemma contents_frame L (m m' : mem A) a :
  frame L m m' -> live m a -> ~ In (base a) L -> contents m' a = contents m a.
Proof. intros (_ & B & _) La Hn. unfold contents. rewrite B; auto. Qed.

Lemma contents_live (m : mem A) a x : contents m a = Some x -> live m a.
Proof.
  unfold contents, live. intros E. apply nth_error_Some. destruct (nth_error _ _); congruence.
Qed.

Definition at_ (m : mem A) (l : nat) (x : cell A) : Prop := nth_error (heap m) l = Some x.
Lemma at_lt m l x : at_ m l x -> (l < length (heap m))%nat.
Proof. unfold at_. intros E. apply nth_error_Some. congruence. Qed.
Lemma at_frame L m m' l x : frame L m m' -> at_ m l x -> ~ In l L -> at_ m' l x.
Proof. intros (_ & B & _) E Hn. unfold at_. rewrite B; auto. eapply at_lt; eauto. Qed.

(** ** Steps *)
Definition grow (m : mem A) (x : cell A) : mem A := MkMem (heap m ++ [x]) (o_imfs m) (o_residue m).
Lemma alloc_eq x m : alloc x m = (Ok (MkArr (length (heap m)) Whole), grow m x).
Proof. reflexivity. Qed.
Lemma frame_grow L m x : frame L m (grow m x).
Proof.
  repeat split; cbn; auto. rewrite app_length; cbn; lia.
  intros l Hl _. rewrite nth_error_app1; auto.
Qed.
Lemma at_grow m x : at_ (grow m x) (length (heap m)) x.
Proof. unfold at_; cbn. rewrite nth_error_app2, Nat.sub_diag; auto. Qed.
Lemma frame_set m l x : frame [l] m (set_cell m l x).
Proof.
  repeat split; cbn; auto. rewrite set_nth_length; auto.
  intros l' Hl Hn. apply nth_error_set_neq. intros ->; tauto.
Qed.
Lemma at_set m l x : (l < length (heap m))%nat -> at_ (set_cell m l x) l x.
Proof. intros Hl. unfold at_; cbn. apply nth_error_set_eq; auto. Qed.

Lemma mbind_ok {X Y} (x : M A X) (f : X -> M A Y) m a m' :
  x m = (Ok a, m') -> mbind x f m = f a m'.
Proof. intros E. unfold mbind. rewrite E. reflexivity. Qed.
Lemma mbind_raise {X Y} (x : M A X) (f : X -> M A Y) m e m' :
  x m = (Raise e, m') -> mbind x f m = (Raise e, m').
Proof. intros E. unfold mbind. rewrite E. reflexivity. Qed.
Lemma mbind_lift_ok {X Y} (x : res X) (f : X -> M A Y) m a :
  x = Ok a -> mbind (lift x) f m = f a m.
Proof. intros ->. reflexivity. Qed.
Lemma mbind_lift_raise {X Y} (x : res X) (f : X -> M A Y) m e :
  x = Raise e -> mbind (lift x) f m = (Raise e, m).
Proof. intros ->. reflexivity. Qed.
Lemma mbind_alloc {Y} x (f : arr -> M A Y) m :
  mbind (alloc x) f m = f (MkArr (length (heap m)) Whole) (grow m x).
Proof. reflexivity. Qed.
Lemma mbind_load_vec {Y} a (f : vec -> M A Y) m v :
  contents m a = Some (Vec v) -> mbind (load_vec a) f m = f v m.
Proof. intros E. unfold mbind, load_vec. rewrite E. reflexivity. Qed.
Lemma mbind_load_mat {Y} a (f : rows -> M A Y) m v :
  contents m a = Some (Mat v) -> mbind (load_mat a) f m = f v m.
Proof. intros E. unfold mbind, load_mat. rewrite E. reflexivity. Qed.
Lemma mbind_copy_vec {Y} a (f : arr -> M A Y) m v :
  contents m a = Some (Vec v) ->
  mbind (copy_vec a) f m = f (MkArr (length (heap m)) Whole) (grow m (Vec v)).
Proof. intros E. unfold copy_vec. unfold mbind at 1. rewrite (mbind_load_vec _ _ _ v E). reflexivity. Qed.
Lemma mbind_copy_mat {Y} a (f : arr -> M A Y) m v :
  contents m a = Some (Mat v) ->
  mbind (copy_mat a) f m = f (MkArr (length (heap m)) Whole) (grow m (Mat v)).
Proof. intros E. unfold copy_mat. unfold mbind at 1. rewrite (mbind_load_mat _ _ _ v E). reflexivity. Qed.
Lemma mbind_ret {X Y} (x : X) (f : X -> M A Y) m : mbind (ret x) f m = f x m.
Proof. reflexivity. Qed.

Lemma at_contents m l x : at_ m l x -> contents m (MkArr l Whole) = Some x.
Proof. unfold at_, contents. cbn. intros ->. destruct x; reflexivity. Qed.

Lemma mbind_assign_ok {Y} l old v new (f : unit -> M A Y) m :
  at_ m l (Vec old) -> assign_all (length old) v = Ok new ->
  mbind (assign (MkArr l Whole) v) f m = f tt (set_cell m l (Vec new)).
Proof.
  intros E1 E2. unfold assign. unfold mbind at 1.
  rewrite (mbind_load_vec _ _ _ old) by (apply at_contents; auto).
  rewrite (mbind_lift_ok _ _ _ new E2). reflexivity.
Qed.
Lemma mbind_assign_raise {Y} l old v e (f : unit -> M A Y) m :
  at_ m l (Vec old) -> assign_all (length old) v = Raise e ->
  mbind (assign (MkArr l Whole) v) f m = (Raise e, m).
Proof.
  intros E1 E2. unfold assign. unfold mbind at 1.
  rewrite (mbind_load_vec _ _ _ old) by (apply at_contents; auto).
  rewrite (mbind_lift_raise _ _ _ e E2). reflexivity.
Qed.

(** ** Sifting *)
Variable spl : spline_oracle A.

Lemma sift_h_spec fuel c T li lm t : forall n nh ext v mv m,
  contents m T = Some (Vec t) -> base T <> li -> base T <> lm -> li <> lm ->
  at_ m li (Vec v) -> at_ m lm (Vec mv) -> length mv = length v ->
  exists m', frame [li; lm] m m' /\
    match sift spl fuel c t n nh ext v with
    | Ok (v', ext', fin) =>
        sift_h spl fuel c T (MkArr li Whole) (MkArr lm Whole) n nh ext m = (Ok (ext', fin), m') /\
        at_ m' li (Vec v')
    | Raise e => sift_h spl fuel c T (MkArr li Whole) (MkArr lm Whole) n nh ext m = (Raise e, m')
    end.
Proof.
  induction fuel as [|fuel IH]; intros n nh ext v mv m HT Ti Tm Him Hi Hm HL; cbn [sift sift_h].
  { exists m. split; [apply frame_refl|reflexivity]. }
  destruct (MAX_ITERATION c <=? n + 1).
  { exists m. split; [apply frame_refl|split; auto]. }
  rewrite (mbind_load_vec _ _ _ t HT), (mbind_load_vec _ _ _ v (at_contents _ _ _ Hi)).
  destruct (find_extrema (extrema_detection c) t v) as [e|e] eqn:E1; cbn [bind].
  2:{ exists m. split; [apply frame_refl|reflexivity]. }
  rewrite (mbind_lift_ok _ _ _ e eq_refl).
  destruct (2 <? ext_no e) eqn:E2.
  2:{ exists m. split; [apply frame_refl|split; auto]. }
  unfold sift_step.
  destruct (extract_max_min_spline spl c t v) as [[[[mx mn] eM] em]|e3] eqn:E3; cbn [bind].
  2:{ exists m. split; [apply frame_refl|reflexivity]. }
  rewrite (mbind_lift_ok _ _ _ _ eq_refl).
  destruct (broadcast2 nadd mx mn) as [sum|e4] eqn:E4; cbn [bind].
  2:{ exists m. split; [apply frame_refl|reflexivity]. }
  rewrite (mbind_lift_ok _ _ _ _ eq_refl). rewrite <- HL.
  destruct (assign_all (length mv) (map (nmul nhalf) sum)) as [mean|e5] eqn:E5; cbn [bind].
  2:{ exists m. split; [apply frame_refl|]. apply (mbind_assign_raise _ _ _ _ _ _ Hm E5). }
  rewrite (mbind_assign_ok _ _ _ _ _ _ Hm E5).
  set (m1 := set_cell m lm (Vec mean)).
  assert (F1 : frame [li; lm] m m1).
  { apply frame_trans with [lm] m; [apply frame_refl|apply frame_set|cbn; tauto]. }
  assert (Hi1 : at_ m1 li (Vec v)).
  { eapply at_frame; [apply frame_set|eauto|cbn; intuition congruence]. }
  assert (Hm1 : at_ m1 lm (Vec mean)) by (apply at_set; eapply at_lt; eauto).
  rewrite (mbind_copy_vec _ _ _ v (at_contents _ _ _ Hi1)).
  set (m2 := grow m1 (Vec v)). set (lo := length (heap m1)).
  assert (F2 : frame [li; lm] m m2).
  { apply frame_trans with [] m1; auto; [apply frame_grow|cbn; tauto]. }
  assert (Hi2 : at_ m2 li (Vec v)) by (eapply at_frame; [apply (frame_grow [])|eauto|cbn; tauto]).
  assert (Hm2 : at_ m2 lm (Vec mean)) by (eapply at_frame; [apply (frame_grow [])|eauto|cbn; tauto]).
  assert (Ho2 : at_ m2 lo (Vec v)) by (apply at_grow).
  rewrite (mbind_load_vec _ _ _ v (at_contents _ _ _ Hi2)).
  rewrite (mbind_load_vec _ _ _ mean (at_contents _ _ _ Hm2)).
  assert (Lm : length mean = length v) by (apply assign_all_length in E5; lia).
  assert (Lv : length (vsub v mean) = length v) by (apply vsub_length; auto).
  rewrite (mbind_assign_ok _ _ _ _ _ _ Hi2 (assign_all_eq _ _ Lv)).
  set (x := vsub v mean) in *. set (m3 := set_cell m2 li (Vec x)).
  assert (F3 : frame [li; lm] m m3).
  { apply frame_trans with [li] m2; auto; [apply frame_set|cbn; tauto]. }
  assert (Hi3 : at_ m3 li (Vec x)) by (apply at_set; eapply at_lt; eauto).
  assert (Hm3 : at_ m3 lm (Vec mean)).
  { eapply at_frame; [apply frame_set|eauto|cbn; intuition congruence]. }
  assert (Ho3 : at_ m3 lo (Vec v)).
  { eapply at_frame; [apply frame_set|eauto|]. pose proof (at_lt _ _ _ Hi1) as Q. fold lo in Q.
    clearbody lo. intros [Eq|[]]. lia. }
  assert (HT3 : contents m3 T = Some (Vec t)).
  { rewrite (contents_frame _ _ _ _ F3); auto. eapply contents_live; eauto.
    cbn. intuition congruence. }
  rewrite (mbind_load_vec _ _ _ x (at_contents _ _ _ Hi3)).
  assert (Again : forall n nh ext, exists m', frame [li; lm] m m' /\
    match sift spl fuel c t n nh ext x with
    | Ok (v', ext', fin) =>
        sift_h spl fuel c T (MkArr li Whole) (MkArr lm Whole) n nh ext m3 = (Ok (ext', fin), m') /\
        at_ m' li (Vec v')
    | Raise e => sift_h spl fuel c T (MkArr li Whole) (MkArr lm Whole) n nh ext m3 = (Raise e, m')
    end).
  { intros n' nh' ext'. destruct (IH n' nh' ext' x mean m3) as (m' & F & R); auto. lia.
    exists m'. split; auto. eapply frame_trans; eauto. }
  destruct (negb (FIXE c =? 0)).
  { destruct (FIXE c <=? n + 1); [|apply Again]. exists m3. split; [exact F3|]. split; [reflexivity|exact Hi3]. }
  destruct (find_extrema (extrema_detection c) t x) as [e'|e'] eqn:E6; cbn [bind].
  2:{ destruct (negb (FIXE_H c =? 0)); exists m3; split; auto; apply (mbind_lift_raise (Raise e')); auto. }
  destruct (negb (FIXE_H c =? 0)).
  { rewrite (mbind_lift_ok _ _ _ _ eq_refl).
    destruct (n + 1 =? 1); [apply Again|].
    destruct (FIXE_H c <=? _); [|apply Again]. exists m3. split; [exact F3|]. split; [reflexivity|exact Hi3]. }
  rewrite (mbind_lift_ok _ _ _ _ eq_refl).
  rewrite (mbind_load_vec _ _ _ v (at_contents _ _ _ Ho3)).
  destruct (check_imf c x v eM em) as [f1|e7] eqn:E7; cbn [bind].
  2:{ exists m3. split; auto. }
  rewrite (mbind_lift_ok _ _ _ _ eq_refl).
  destruct (f1 && _); [|apply Again]. exists m3. split; [exact F3|]. split; [reflexivity|exact Hi3].
Qed.

(** ** The outer loop *)
Lemma frame_ge L m m' : frame L m m' -> (length (heap m) <= length (heap m'))%nat.
Proof. intros (F & _). exact F. Qed.
Lemma contents_grow m a x y : contents m a = Some y -> contents (grow m x) a = Some y.
Proof.
  intros E. rewrite (contents_frame [] m); auto. apply frame_grow. eapply contents_live; eauto.
Qed.
Lemma at_grow_old m l x y : at_ m l y -> at_ (grow m x) l y.
Proof. intros E. eapply at_frame; [apply (frame_grow [])|eauto|cbn; tauto]. Qed.

Lemma shaped_sum n (S : vec) M : length S = n -> shaped n M ->
  length (vsub S (sum_rows n M)) = n.
Proof.
  intros <- HM. apply vsub_length. symmetry. apply sum_rows_length.
  intros r Hr. unfold shaped in HM. rewrite Forall_forall in HM. auto.
Qed.

Lemma emd_loop_h_spec fuel c S T lr s t k : forall IMF Mv ext rv m,
  contents m S = Some (Vec s) -> base S <> lr ->
  contents m T = Some (Vec t) -> base T <> lr ->
  at_ m lr (Vec rv) -> length rv = length s ->
  contents m IMF = Some (Mat Mv) -> base IMF <> lr -> shaped (length s) Mv ->
  exists m', frame [lr] m m' /\
    match emd_loop spl fuel c s t k Mv ext with
    | Ok (Mv', ext') => exists l', (length (heap m) <= l')%nat /\
        emd_loop_h spl fuel c S T (MkArr lr Whole) k IMF ext m = (Ok (MkArr l' Whole, ext'), m') /\
        at_ m' l' (Mat Mv') /\ Mv' <> []
    | Raise e => emd_loop_h spl fuel c S T (MkArr lr Whole) k IMF ext m = (Raise e, m')
    end.
Proof.
  induction fuel as [|fuel IH]; intros IMF Mv ext rv m HS Sr HT Tr Hr Lr HI Ir Sh; cbn [emd_loop emd_loop_h].
  { exists m. split; [apply frame_refl|reflexivity]. }
  rewrite (mbind_load_vec _ _ _ s HS), (mbind_load_mat _ _ _ Mv HI).
  pose proof (shaped_sum (length s) s Mv eq_refl Sh) as Lx.
  set (x := vsub s (sum_rows (length s) Mv)) in *.
  rewrite (mbind_assign_ok _ _ x x _ _ Hr) by (apply assign_all_eq; lia).
  set (m1 := set_cell m lr (Vec x)).
  assert (F1 : frame [lr] m m1) by apply frame_set.
  assert (Hr1 : at_ m1 lr (Vec x)) by (apply at_set; eapply at_lt; eauto).
  assert (HS1 : contents m1 S = Some (Vec s)).
  { rewrite (contents_frame _ _ _ _ F1); auto. eapply contents_live; eauto. cbn; intuition congruence. }
  assert (HT1 : contents m1 T = Some (Vec t)).
  { rewrite (contents_frame _ _ _ _ F1); auto. eapply contents_live; eauto. cbn; intuition congruence. }
  rewrite (mbind_copy_vec _ _ _ x (at_contents _ _ _ Hr1)).
  rewrite mbind_alloc.
  set (m2 := grow m1 (Vec x)). set (m3 := grow m2 (Vec (vzeros (length s)))).
  set (li := length (heap m1)). set (lm := length (heap m2)).
  assert (Elm : lm = Datatypes.S li) by (unfold lm, li, m2; cbn; rewrite app_length; cbn; lia).
  assert (Eli : li = length (heap m)) by (unfold li, m1; cbn; apply set_nth_length).
  assert (F3 : frame [lr] m m3).
  { apply frame_trans with [] m1; [exact F1| |intros ? []].
    apply frame_trans with [] m2; [apply frame_grow|apply frame_grow|intros ? []]. }
  assert (HT3 : contents m3 T = Some (Vec t)) by (do 2 apply contents_grow; auto).
  assert (HS3 : contents m3 S = Some (Vec s)) by (do 2 apply contents_grow; auto).
  assert (Hr3 : at_ m3 lr (Vec x)) by (do 2 apply at_grow_old; auto).
  assert (Hi3 : at_ m3 li (Vec x)) by (apply at_grow_old, at_grow).
  assert (Hm3 : at_ m3 lm (Vec (vzeros (length s)))) by apply at_grow.
  pose proof (contents_live _ _ _ HS1) as LS. pose proof (contents_live _ _ _ HT1) as LT.
  unfold live in LS, LT. fold li in LS, LT.
  pose proof (at_lt _ _ _ Hr1) as LR. fold li in LR.
  clearbody li lm.
  destruct (sift_h_spec (sift_fuel c) c T li lm t 0 0 ext x (vzeros (length s)) m3) as (m4 & F4 & R4);
    auto; try lia.
  { unfold vzeros. rewrite repeat_length. lia. }
  assert (F4' : frame [lr] m m4).
  { eapply frame_trans; [exact F3|exact F4|]. cbn. intros l [El|[El|[]]]; lia. }
  destruct (sift spl (sift_fuel c) c t 0 0 ext x) as [[[v ext1] fin]|e4] eqn:ES; cbn [bind].
  2:{ exists m4. split; auto. apply (mbind_raise _ _ _ _ _ R4). }
  destruct R4 as (R4 & Hv4). rewrite (mbind_ok _ _ _ _ _ R4).
  rewrite (mbind_copy_vec _ _ _ v (at_contents _ _ _ Hv4)).
  set (m5 := grow m4 (Vec v)). set (ll := length (heap m4)).
  rewrite (mbind_load_vec _ _ m5 v) by apply at_contents, at_grow.
  rewrite mbind_alloc. set (m6 := grow m5 (Mat (Mv ++ [v]))). set (lI := length (heap m5)).
  rewrite (mbind_load_mat _ _ m6 (Mv ++ [v])) by apply at_contents, at_grow.
  assert (F46 : frame [] m4 m6).
  { apply frame_trans with [] m5; [apply frame_grow|apply frame_grow|intros ? []]. }
  assert (F6 : frame [lr] m m6) by (eapply frame_trans; [exact F4'|exact F46|intros ? []]).
  assert (Hv6 : at_ m6 lI (Mat (Mv ++ [v]))) by apply at_grow.
  assert (ElI : (length (heap m) <= lI)%nat).
  { apply frame_ge in F4'. unfold lI, m5; cbn; rewrite app_length; cbn. lia. }
  clearbody lI.
  destruct (end_condition c s (Mv ++ [v])) as [stop|e5] eqn:EC; cbn [bind].
  2:{ exists m6. split; auto. }
  rewrite (mbind_lift_ok _ _ _ _ eq_refl).
  assert (NE : Mv ++ [v] <> []) by (destruct Mv; discriminate).
  destruct (stop || _). { exists m6. split; auto. exists lI. auto. }
  destruct fin. { exists m6. split; auto. exists lI. auto. }
  assert (Sh' : shaped (length s) (Mv ++ [v])).
  { apply Forall_app; split; auto. constructor; auto. apply sift_length in ES. lia. }
  assert (F36 : frame [li; lm] m3 m6) by (eapply frame_trans; [exact F4|exact F46|intros ? []]).
  destruct (IH (MkArr lI Whole) (Mv ++ [v]) ext1 x m6) as (m7 & F7 & R7); auto.
  { rewrite (contents_frame _ _ _ _ F36); auto. eapply contents_live; eauto. cbn; intros [?|[?|[]]]; lia. }
  { rewrite (contents_frame _ _ _ _ F36); auto. eapply contents_live; eauto. cbn; intros [?|[?|[]]]; lia. }
  { eapply at_frame; [exact F36|eauto|cbn; intros [?|[?|[]]]; lia]. }
  { apply at_contents; auto. }
  { cbn. apply at_lt in Hr. lia. }
  exists m7. split. { eapply frame_trans; eauto. }
  destruct (emd_loop spl fuel c s t k (Mv ++ [v]) ext1) as [[Mv' ext']|e]; auto.
  destruct R7 as (l' & Hl & R7 & H7 & N7). exists l'. repeat split; auto.
  apply frame_ge in F6. lia.
Qed.

(** ** After the loop *)
Definition hframe (m m' : mem A) : Prop :=
  (length (heap m) <= length (heap m'))%nat /\
  (forall l, (l < length (heap m))%nat -> nth_error (heap m') l = nth_error (heap m) l).
Lemma hframe_refl m : hframe m m.
Proof. split; auto. Qed.
Lemma hframe_trans m0 m1 m2 : hframe m0 m1 -> hframe m1 m2 -> hframe m0 m2.
Proof. intros (A1 & B1) (A2 & B2). split; [lia|]. intros l Hl. rewrite B2 by lia. auto. Qed.
Lemma hframe_untouched m m' : hframe m m' -> untouched m m'.
Proof. intros (_ & B) a La. unfold contents. rewrite B; auto. Qed.
Lemma hframe_live m m' a : hframe m m' -> live m a -> live m' a.
Proof. intros (L & _). unfold live. lia. Qed.
Lemma frame_hframe m m' : frame [] m m' -> hframe m m'.
Proof. intros (L & B & _). split; auto. Qed.
(** Assignments into new buffers only. *)
Lemma frame_new L m m1 m' : hframe m m1 -> frame L m1 m' ->
  (forall l, In l L -> (length (heap m) <= l)%nat) -> hframe m m'.
Proof.
  intros (A1 & B1) (A2 & B2 & _) HL. split; [lia|]. intros l Hl. rewrite B2; auto; [lia|].
  intros Hi. apply HL in Hi. lia.
Qed.
Lemma hframe_contents m m' a x : hframe m m' -> contents m a = Some x -> contents m' a = Some x.
Proof. intros F E. rewrite (hframe_untouched _ _ F a); auto. eapply contents_live; eauto. Qed.
Lemma hframe_grow m x : hframe m (grow m x).
Proof. apply frame_hframe, frame_grow. Qed.

Lemma emd_finish_h_spec S s lI Mv ext m :
  contents m S = Some (Vec s) -> at_ m lI (Mat Mv) ->
  let o := emd_finish s Mv ext in
  exists m' r i d,
    emd_finish_h S (MkArr lI Whole) ext m = (Ok r, m') /\ hframe m m' /\
    o_imfs m' = Some i /\ o_residue m' = Some d /\
    contents m' r = Some (Mat (out o)) /\ contents m' i = Some (Mat (imfs o)) /\
    contents m' d = Some (Vec (residue o)) /\
    live m' i /\ live m' d /\
    (length (heap m) <= base i)%nat /\ (base i < base d)%nat /\
    (base r = lI \/ (base d < base r)%nat) /\ shown i = Whole /\ shown d = Whole.
Proof.
  intros HS HI o. unfold emd_finish_h.
  set (M' := if ext <=? 2 then removelast Mv else Mv).
  assert (EV : exists v, (if ext <=? 2 then drop_last (MkArr lI Whole) else ret (MkArr lI Whole)) m
                         = (Ok v, m) /\ base v = lI /\ contents m v = Some (Mat M')).
  { unfold M'. destruct (ext <=? 2).
    - eexists. split. unfold drop_last. rewrite (mbind_load_mat _ _ _ Mv (at_contents _ _ _ HI)). reflexivity.
      split; auto. unfold contents. cbn. unfold at_ in HI. rewrite HI.
      rewrite removelast_firstn_len. reflexivity.
    - eexists. split; [reflexivity|]. split; auto. apply at_contents; auto. }
  destruct EV as (v & EV & Bv & Cv). rewrite (mbind_ok _ _ _ _ _ EV).
  rewrite (mbind_copy_mat _ _ _ M' Cv).
  set (i := MkArr (length (heap m)) Whole).
  set (m1 := grow m (Mat M')).
  set (m2 := MkMem (heap m1) (Some i) (o_residue m1)).
  rewrite (mbind_ok (set_imfs i) _ m1 tt m2 eq_refl).
  assert (F2 : hframe m m2) by apply hframe_grow.
  assert (HS2 : contents m2 S = Some (Vec s)) by (apply (hframe_contents m); auto).
  assert (Hi2 : contents m2 i = Some (Mat M')) by apply at_contents, at_grow.
  rewrite (mbind_load_vec _ _ _ s HS2), (mbind_load_mat _ _ _ M' Hi2).
  rewrite mbind_alloc. set (rv := vsub s (sum_rows (length s) M')).
  set (d := MkArr (length (heap m2)) Whole). set (m3 := grow m2 (Vec rv)).
  set (m4 := MkMem (heap m3) (o_imfs m3) (Some d)).
  rewrite (mbind_ok (set_residue d) _ m3 tt m4 eq_refl).
  assert (F24 : hframe m2 m4) by apply hframe_grow.
  assert (F4 : hframe m m4) by (eapply hframe_trans; eauto).
  assert (Hd4 : contents m4 d = Some (Vec rv)) by apply at_contents, at_grow.
  assert (Hi4 : contents m4 i = Some (Mat M')) by (apply (hframe_contents m2); auto).
  assert (Hv4 : contents m4 v = Some (Mat M')) by (apply (hframe_contents m); auto).
  rewrite (mbind_load_vec _ _ _ rv Hd4).
  assert (Ld : base d = Datatypes.S (length (heap m))).
  { cbn. rewrite app_length. cbn. lia. }
  unfold o, emd_finish. fold M'. fold rv. cbn [imfs residue out].
  destruct (allclose0 rv).
  - exists m4, v, i, d. repeat split; auto; try (apply F4); try (eapply contents_live; eauto); try lia.

  - rewrite (mbind_load_mat _ _ _ M' Hv4). rewrite alloc_eq.
    set (m5 := grow m4 (Mat (M' ++ [rv]))).
    assert (F45 : hframe m4 m5) by apply hframe_grow.
    assert (F5 : hframe m m5) by (eapply hframe_trans; eauto).
    exists m5, (MkArr (length (heap m4)) Whole), i, d.
    split; [reflexivity|]. split; [exact F5|]. split; [reflexivity|]. split; [reflexivity|].
    split; [apply at_contents, at_grow|].
    split; [apply (hframe_contents m4); auto|]. split; [apply (hframe_contents m4); auto|].
    split; [eapply hframe_live; [exact F45|eapply contents_live; eauto]|].
    split; [eapply hframe_live; [exact F45|eapply contents_live; eauto]|].
    split; [cbn; lia|]. split; [rewrite Ld; cbn; lia|]. split; [|split; reflexivity]. right.
    pose proof (contents_live _ _ _ Hd4) as Q. unfold live in Q. cbn [base]. exact Q.
Qed.

(** ** EMD.emd *)
Lemma emd_time_h_spec c S T s t m :
  contents m S = Some (Vec s) -> shows m T t ->
  exists m', frame [] m m' /\
    match emd_time c s t with
    | Ok t' => exists l, (length (heap m) <= l)%nat /\
                 emd_time_h c S T m = (Ok (MkArr l Whole), m') /\ at_ m' l (Vec t')
    | Raise e => emd_time_h c S T m = (Raise e, m')
    end.
Proof.
  intros HS HT. unfold emd_time_h, emd_time.
  rewrite (mbind_load_vec _ _ _ s HS).
  assert (Fin : forall T1 t1 m1, frame [] m m1 -> contents m1 T1 = Some (Vec t1) ->
    exists m', frame [] m m' /\
    match normalize_time t1 with
    | Ok t' => exists l, (length (heap m) <= l)%nat /\
        (let* t := load_vec T1 in let* t := lift (normalize_time t) in alloc (Vec t)) m1
          = (Ok (MkArr l Whole), m') /\ at_ m' l (Vec t')
    | Raise e => (let* t := load_vec T1 in let* t := lift (normalize_time t) in alloc (Vec t)) m1
          = (Raise e, m')
    end).
  { intros T1 t1 m1 F1 H1. rewrite (mbind_load_vec _ _ _ t1 H1).
    destruct (normalize_time t1) as [t'|e]; [|exists m1; split; auto].
    rewrite (mbind_lift_ok _ _ _ _ eq_refl), alloc_eq. exists (grow m1 (Vec t')).
    split. { eapply frame_trans; [exact F1|apply (frame_grow [])|intros ? []]. }
    exists (length (heap m1)). split; [apply frame_ge in F1; auto|]. split; auto. apply at_grow. }
  assert (TL : exists m', frame [] m m' /\
    match (let! t := timeline (length s) in normalize_time t) with
    | Ok t' => exists l, (length (heap m) <= l)%nat /\
        (let* T := (let* t := lift (timeline (length s)) in alloc (Vec t)) in
         let* t := load_vec T in let* t := lift (normalize_time t) in alloc (Vec t)) m
          = (Ok (MkArr l Whole), m') /\ at_ m' l (Vec t')
    | Raise e => (let* T := (let* t := lift (timeline (length s)) in alloc (Vec t)) in
         let* t := load_vec T in let* t := lift (normalize_time t) in alloc (Vec t)) m
          = (Raise e, m')
    end).
  { destruct (timeline (length s)) as [tl|e]; cbn [bind].
    2:{ exists m. split; [apply frame_refl|reflexivity]. }
    specialize (Fin (MkArr (length (heap m)) Whole) tl (grow m (Vec tl)) (frame_grow _ _ _)).
    destruct Fin as (m' & F & R); [apply at_contents, at_grow|]. exists m'. split; auto. }
  destruct T as [T|], t as [t|]; cbn [shows] in HT; try contradiction.
  2:{ rewrite mbind_ret. cbn [bind]. exact TL. }
  destruct (Nat.eqb (length s) (length t)) eqn:EL; cbn [bind].
  2:{ exists m. split; [apply frame_refl|]. apply mbind_raise.
      rewrite (mbind_load_vec _ _ _ t HT), EL. reflexivity. }
  rewrite (mbind_ok _ _ m tt m).
  2:{ rewrite (mbind_load_vec _ _ _ t HT), EL. reflexivity. }
  destruct (extrema_detection c); cbn [bind].
  - exact TL.
  - rewrite mbind_ret. apply Fin; auto. apply frame_refl.
  - rewrite mbind_ret. apply Fin; auto. apply frame_refl.
Qed.

Definition emd_effect fuel c cS cT S T k (m : mem A) (r : res (emd_out A)) : Prop :=
  match r with
  | Ok o => exists m' x i d,
      emd_h spl fuel c cS cT S T k m = (Ok x, m') /\ hframe m m' /\
      o_imfs m' = Some i /\ o_residue m' = Some d /\
      contents m' x = Some (Mat (out o)) /\ contents m' i = Some (Mat (imfs o)) /\
      contents m' d = Some (Vec (residue o)) /\
      created m m' x /\ created m m' i /\ created m m' d /\
      apart x i /\ apart x d /\ apart i d /\ shown i = Whole /\ shown d = Whole
  | Raise e => exists m', emd_h spl fuel c cS cT S T k m = (Raise e, m') /\ hframe m m' /\
      o_imfs m' = o_imfs m /\ o_residue m' = o_residue m
  end.

Lemma unify_spec conv a v m : contents m a = Some (Vec v) ->
  exists a' m', frame [] m m' /\ unify conv a m = (Ok a', m') /\
    contents m' a' = Some (Vec v) /\ (a' = a \/ (length (heap m) <= base a')%nat).
Proof.
  intros E. unfold unify. destruct conv.
  - exists (MkArr (length (heap m)) Whole), (grow m (Vec v)). split; [apply frame_grow|].
    split. { unfold copy_vec. rewrite (mbind_load_vec _ _ _ v E). reflexivity. }
    split; [apply at_contents, at_grow|]. right; cbn; lia.
  - exists a, m. split; [apply frame_refl|]. split; [reflexivity|]. auto.
Qed.

Lemma emd_h_spec fuel c cS cT S T s t k m :
  contents m S = Some (Vec s) -> shows m T t ->
  emd_effect fuel c cS cT S T k m (emd spl fuel c s t k).
Proof.
  intros HS HT. unfold emd.
  destruct (emd_time_h_spec c S T s t m HS HT) as (m1 & F1 & R1).
  destruct (emd_time c s t) as [tv|e] eqn:ET; cbn [bind].
  2:{ exists m1. split. apply mbind_raise; auto. split; [apply frame_hframe; auto|]. apply F1. }
  destruct R1 as (l1 & L1 & R1 & H1).
  assert (HS1 : contents m1 S = Some (Vec s)).
  { eapply hframe_contents; [apply frame_hframe; eauto|auto]. }
  destruct (unify_spec cS S s m1 HS1) as (S2 & m2 & F2 & R2 & HS2 & BS2).
  assert (HT2 : contents m2 (MkArr l1 Whole) = Some (Vec tv)).
  { apply (hframe_contents m1); [apply frame_hframe; auto|]. apply at_contents; auto. }
  destruct (unify_spec cT (MkArr l1 Whole) tv m2 HT2) as (T3 & m3 & F3 & R3 & HT3 & BT3).
  assert (HS3 : contents m3 S2 = Some (Vec s)).
  { apply (hframe_contents m2); [apply frame_hframe; auto|auto]. }
  set (m4 := grow m3 (Vec s)). set (lr := length (heap m3)).
  set (m5 := grow m4 (Vec (vzeros (length s)))).
  set (m6 := grow m5 (Mat [])). set (lI := length (heap m5)).
  assert (Run : forall r, (if negb (Nat.eqb (length s) (length tv)) then lift (Raise ValueError)
      else let* IMF := alloc (Mat []) in
           let* (IMF, extNo) := emd_loop_h spl fuel c S2 T3 (MkArr lr Whole) k IMF (-1) in
           emd_finish_h S2 IMF extNo) m5 = r ->
      emd_h spl fuel c cS cT S T k m = r).
  { intros r <-. unfold emd_h. rewrite (mbind_ok _ _ _ _ _ R1), (mbind_ok _ _ _ _ _ R2),
      (mbind_ok _ _ _ _ _ R3), (mbind_load_vec _ _ _ s HS3), (mbind_load_vec _ _ _ tv HT3),
      (mbind_copy_vec _ _ _ s HS3), mbind_alloc. reflexivity. }
  assert (F05 : frame [] m m5).
  { apply frame_trans with [] m4; [|apply frame_grow|intros ? []].
    apply frame_trans with [] m3; [|apply frame_grow|intros ? []].
    apply frame_trans with [] m2; [|auto|intros ? []].
    apply frame_trans with [] m1; [auto|auto|intros ? []]. }
  assert (F06 : frame [] m m6) by (apply frame_trans with [] m5; [auto|apply frame_grow|intros ? []]).
  destruct (negb (Nat.eqb (length s) (length tv))) eqn:EL.
  { exists m5. split; [apply Run; reflexivity|]. split; [apply frame_hframe; auto|]. apply F05. }
  assert (F36 : hframe m3 m6).
  { apply hframe_trans with m4; [apply hframe_grow|].
    apply hframe_trans with m5; [apply hframe_grow|apply hframe_grow]. }
  assert (Hr6 : at_ m6 lr (Vec s)) by (do 2 apply at_grow_old; apply at_grow).
  assert (HI6 : at_ m6 lI (Mat [])) by apply at_grow.
  assert (ElI : lI = Datatypes.S (Datatypes.S lr)).
  { unfold lI, lr, m5, m4. cbn. rewrite !app_length. cbn. lia. }
  assert (L3 : (length (heap m) <= lr)%nat).
  { apply frame_ge in F1, F2, F3. unfold lr. lia. }
  pose proof (contents_live _ _ _ HS3) as LS3. pose proof (contents_live _ _ _ HT3) as LT3.
  assert (LV6 : live m6 S2) by (apply (hframe_live m3); auto).
  unfold live in LS3, LT3. fold lr in LS3, LT3.
  rewrite mbind_alloc in Run. fold lI m6 in Run. clearbody lI lr.
  destruct (emd_loop_h_spec fuel c S2 T3 lr s tv k (MkArr lI Whole) [] (-1) s m6)
    as (m7 & F7 & R7); auto; try (cbn; lia).
  { apply (hframe_contents m3); auto. }
  { apply (hframe_contents m3); auto. }
  { apply at_contents; auto. }
  { constructor. }
  assert (F07 : hframe m m7).
  { eapply frame_new; [apply frame_hframe; exact F06|exact F7|]. intros l [<-|[]]. lia. }
  assert (A7 : o_imfs m7 = o_imfs m /\ o_residue m7 = o_residue m).
  { destruct F7 as (_ & _ & -> & ->). apply F06. }
  destruct (emd_loop spl fuel c s tv k [] (-1)) as [[Mv ext]|e] eqn:EE; cbn [bind].
  2:{ exists m7. split; [apply Run; apply mbind_raise; auto|]. split; auto. }
  destruct R7 as (l7 & L7 & R7 & H7 & N7).
  assert (HS7 : contents m7 S2 = Some (Vec s)).
  { rewrite (contents_frame _ _ _ _ F7). apply (hframe_contents m3); auto.
    exact LV6. cbn; intros [Q|[]]; lia. }
  destruct (emd_finish_h_spec S2 s l7 Mv ext m7 HS7 H7)
    as (m8 & r & i & d & R8 & F8 & Oi & Od & Cr & Ci & Cd & Li & Ld & Bi & Bd & Br & Wi & Wd).
  exists m8, r, i, d.
  assert (L07 : (length (heap m) <= length (heap m7))%nat) by apply F07.
  assert (L06 : (length (heap m) <= length (heap m6))%nat) by (apply frame_ge in F06; auto).
  pose proof (at_lt _ _ _ H7) as L7'.
  split. { apply Run. rewrite (mbind_ok _ _ _ _ _ R7). exact R8. }
  split. { eapply hframe_trans; eauto. }
  unfold created, live, apart in *.
  pose proof (contents_live _ _ _ Cr) as Lr. unfold live in Lr.
  repeat (split; auto); lia.
Qed.

(** Whatever the arguments are, nothing that existed changes. *)
Lemma emd_h_hframe fuel c cS cT S T k m : hframe m (snd (emd_h spl fuel c cS cT S T k m)).
Proof.
  destruct (contents m S) as [[s|Ms]|] eqn:ES.
  2,3: unfold emd_h, emd_time_h, mbind, load_vec; rewrite ES; cbn; apply hframe_refl.
  assert (Good : forall t, shows m T t -> hframe m (snd (emd_h spl fuel c cS cT S T k m))).
  { intros t HT. pose proof (emd_h_spec fuel c cS cT S T s t k m ES HT) as E.
    destruct (emd spl fuel c s t k); cbn [emd_effect] in E.
    - destruct E as (m' & x & i & d & -> & F & _). exact F.
    - destruct E as (m' & -> & F & _). exact F. }
  destruct T as [T|]; [|apply (Good None); exact I].
  destruct (contents m T) as [[t|Mt]|] eqn:ET; [apply (Good (Some t)); exact ET| |];
    unfold emd_h, emd_time_h, mbind, load_vec; rewrite ES; cbn; rewrite ET; cbn; apply hframe_refl.
Qed.
End HeapProofs.
