(** * HeapEemdProofs: EEMD on memory computes what the functional model computes. *)
From Verif Require Import PyFacts Emd Spec EmdProofs Heap HeapSpec HeapProofs HeapClient HeapEemd HeapEemdSpec.
From Coq Require Import ZifyBool ZifyNat Lia.

Section HeapEemdProofs.
Context {A : Type} `{Num A}.
Notation vec := (list A).
Notation rows := (list (list A)).
Context {G : Type}.
Variable gen : generator A G.
Variable spl : spline_oracle A.
Variable fuel : nat.
Variable ec : emd_config A.

Definition rows_shows (m : mem A) (d : list (Z * entry)) (p : list (Z * rows)) : Prop :=
  Forall2 (fun x y => fst x = fst y /\ exists l, snd x = RowList l /\
             Forall2 (fun a x => contents m a = Some (Vec x)) l (snd y)) d p.
Definition trial_shows (m : mem A) (a : arr * option arr) (t : trial (A := A)) : Prop :=
  contents m (fst a) = Some (Mat (fst t)) /\ opt_vec m (snd a) (snd t).

Lemma hframe_opt_mat (m m' : mem A) a v : hframe m m' -> opt_mat m a v -> opt_mat m' a v.
Proof. intros F. destruct a, v; cbn; auto. apply hframe_contents; auto. Qed.
Lemma hframe_opt_vec (m m' : mem A) a v : hframe m m' -> opt_vec m a v -> opt_vec m' a v.
Proof. intros F. destruct a, v; cbn; auto. apply hframe_contents; auto. Qed.
Lemma hframe_inner (m m' : mem A) st : hframe m m' -> o_imfs m' = o_imfs m -> o_residue m' = o_residue m ->
  inner_shows m st -> inner_shows m' st.
Proof.
  intros F E1 E2 (I1 & I2). split; [rewrite E1; eapply hframe_opt_mat|rewrite E2; eapply hframe_opt_vec]; eauto.
Qed.
Lemma Forall2_imp {X Y} (P Q : X -> Y -> Prop) l l' :
  (forall x y, P x y -> Q x y) -> Forall2 P l l' -> Forall2 Q l l'.
Proof. induction 2; constructor; auto. Qed.
Lemma hframe_rows m m' d p : hframe m m' -> rows_shows m d p -> rows_shows m' d p.
Proof.
  intros F. apply Forall2_imp. intros x y (E & l & El & Fl). split; auto. exists l. split; auto.
  eapply Forall2_imp; [|exact Fl]. intros a v. apply hframe_contents; auto.
Qed.
Lemma hframe_dict (m m' : mem A) d p : hframe m m' -> dict_shows m d p -> dict_shows m' d p.
Proof.
  intros F. apply Forall2_imp. intros x y (E & Ee). split; auto.
  destruct (snd x); cbn in *.
  - eapply Forall2_imp; [|exact Ee]. intros a v. apply hframe_contents; auto.
  - eapply hframe_contents; eauto.
Qed.
Lemma rows_dict m d p : rows_shows m d p -> dict_shows m d p.
Proof.
  apply Forall2_imp. intros x y (E & l & El & Fl). split; auto. rewrite El. exact Fl.
Qed.
Lemma inner_now_eq (m : mem A) st : inner_shows m st -> inner_now m = st.
Proof.
  intros (I1 & I2). destruct st as [si sr]. unfold inner_now, read_mat, read_vec. cbn in *. f_equal.
  - destruct (o_imfs m), si; cbn in I1; try contradiction; auto. rewrite I1. reflexivity.
  - destruct (o_residue m), sr; cbn in I2; try contradiction; auto. rewrite I2. reflexivity.
Qed.

(** ** The dictionary *)
Lemma append_shows m d p k a v :
  rows_shows m d p -> contents m a = Some (Vec v) ->
  rows_shows m (append_h d k a) (dict_append p k v).
Proof.
  intros R C. induction R as [|[k1 e1] [k2 l2] d p (E & l & El & Fl) R IH]; cbn.
  - constructor; [|constructor]. cbn. split; auto. exists [a]. split; auto.
  - cbn in E, El, Fl. subst k2 e1. destruct (k1 =? k).
    + constructor; auto. cbn. split; auto. exists (l ++ [a]). split; auto.
      apply Forall2_app; auto.
    + constructor; auto. cbn. split; auto. exists l. auto.
Qed.
Lemma row_contents (m : mem A) a Mv i v :
  contents m a = Some (Mat Mv) -> nth_error Mv i = Some v ->
  contents m (MkArr (base a) (Row i)) = Some (Vec v).
Proof.
  unfold contents. cbn. destruct (nth_error (heap m) (base a)) as [[x|x]|]; destruct (shown a) as [|k|i'];
    try discriminate; intros E En.
  - injection E as <-. rewrite En. reflexivity.
  - injection E as <-. assert (nth_error x i = Some v) as ->; auto.
    rewrite <- (firstn_skipn k x). rewrite nth_error_app1; auto. apply nth_error_Some. congruence.
  - destruct (nth_error x i'); discriminate.
Qed.
Lemma enumerate_shows m a Mv : contents m a = Some (Mat Mv) ->
  forall suf i k d p, (forall j v, nth_error suf j = Some v -> nth_error Mv (i + j) = Some v) ->
  rows_shows m d p ->
  rows_shows m (enumerate_h k i (length suf) d a) (enumerate_append k p suf).
Proof.
  intros C. induction suf as [|v suf IH]; intros i k d p HN R; cbn; auto.
  apply IH. { intros j w Ej. specialize (HN (S j) w Ej). replace (S i + j)%nat with (i + S j)%nat by lia. auto. }
  apply append_shows; auto. eapply row_contents; eauto.
  specialize (HN O v eq_refl). rewrite Nat.add_0_r in HN. exact HN.
Qed.
Lemma collect_shows m d p a t :
  rows_shows m d p -> trial_shows m a t ->
  exists d', collect_h d a m = (Ok d', m) /\ rows_shows m d' (collect_one p t).
Proof.
  intros R (C1 & C2). destruct a as [a b], t as [Mv tr]. cbn [fst snd] in *.
  unfold collect_h, collect_one. cbn [fst snd].
  rewrite (mbind_load_mat _ _ _ Mv C1). eexists. split; [reflexivity|].
  apply enumerate_shows with (Mv := Mv); auto.
  destruct b, tr; cbn in C2; try contradiction; auto. apply append_shows; auto.
Qed.
Lemma get_shows m d p k : rows_shows m d p ->
  match get_h d k, dict_get p k with
  | Some e, Some l => exists r, e = RowList r /\ Forall2 (fun a x => contents m a = Some (Vec x)) r l
  | None, None => True
  | _, _ => False
  end.
Proof.
  induction 1 as [|[k1 e1] [k2 l2] d p (E & l & El & Fl) R IH]; cbn; auto.
  cbn in E, El, Fl. subst. destruct (k2 =? k); eauto.
Qed.
Lemma del_shows m d p k : rows_shows m d p -> rows_shows m (del_h d k) (dict_del p k).
Proof.
  induction 1 as [|[k1 e1] [k2 l2] d p (E & l & El & Fl) R IH]; cbn; [constructor|].
  cbn in E, El, Fl. subst. destruct (negb (k2 =? k)); auto. constructor; auto. cbn. eauto.
Qed.
Lemma set_shows m d p k r l : rows_shows m d p ->
  Forall2 (fun a x => contents m a = Some (Vec x)) r l ->
  rows_shows m (set_h d k (RowList r)) (dict_set p k l).
Proof.
  intros R F. induction R as [|[k1 e1] [k2 l2] d p (E & l' & El & Fl) R IH]; cbn.
  - constructor; [|constructor]. cbn. eauto.
  - cbn in E, El, Fl. subst. destruct (k2 =? k); constructor; auto; cbn; eauto.
Qed.
Lemma Forall2_zlen {X Y} (P : X -> Y -> Prop) l l' : Forall2 P l l' -> zlen l = zlen l'.
Proof. unfold zlen. induction 1; cbn [length]; lia. Qed.
Lemma rename_shows m d p : rows_shows m d p -> rows_shows m (rename_h d) (rename_trend p).
Proof.
  intros R. unfold rename_h, rename_trend. pose proof (get_shows m d p (-1) R) as Q.
  destruct (get_h d (-1)) as [e|], (dict_get p (-1)) as [l|]; try contradiction; auto.
  destruct Q as (r & -> & F). cbv zeta.
  rewrite (Forall2_zlen _ _ _ (del_shows m d p (-1) R)). apply set_shows; auto. apply del_shows; auto.
Qed.

Lemma load_rows_ok (m : mem A) l vs : Forall2 (fun a x => contents m a = Some (Vec x)) l vs ->
  load_rows l m = (Ok vs, m).
Proof.
  induction 1 as [|a v l vs C F IH]; cbn [load_rows]; auto.
  rewrite (mbind_load_vec _ _ _ v C), (mbind_ok _ _ _ _ _ IH). reflexivity.
Qed.
Lemma load_entry_ok (m : mem A) e v : entry_shows m e v -> load_entry e m = (Ok v, m).
Proof.
  destruct e; cbn; intros C. apply load_rows_ok; auto.
  unfold load_mat. rewrite C. reflexivity.
Qed.
Lemma load_entries_ok (m : mem A) d p : dict_shows m d p -> load_entries d m = (Ok p, m).
Proof.
  induction 1 as [|[k1 e1] [k2 l2] d p (E & C) R IH]; cbn [load_entries]; auto. cbn in E, C. subst.
  rewrite (mbind_ok _ _ _ _ _ (load_entry_ok _ _ _ C)), (mbind_ok _ _ _ _ _ IH). reflexivity.
Qed.

(** Blocks: new arrays with the same values. *)
Lemma blocks_spec d : forall p (m : mem A), dict_shows m d p ->
  exists m', hframe m m' /\ o_imfs m' = o_imfs m /\ o_residue m' = o_residue m /\
  match mapM (fun q => np_array (snd q)) p with
  | Ok _ => exists d', blocks_h d m = (Ok d', m') /\ dict_shows m' d' p /\
              Forall (fun q => exists b, snd q = Block b /\ ~ live m b) d'
  | Raise e => blocks_h d m = (Raise e, m')
  end.
Proof.
  induction d as [|[k e] d IH]; intros p m D; inversion D as [|? [k2 l2] ? p' (E & C) D']; subst; cbn [mapM blocks_h].
  { exists m. split; [apply hframe_refl|]. split; auto. split; auto. exists []. split; [reflexivity|split; constructor]. }
  cbn in E, C. subst k2. rewrite (mbind_ok _ _ _ _ _ (load_entry_ok _ _ _ C)). cbn [snd].
  destruct (np_array l2) as [l3|e3] eqn:EN; cbn [bind].
  2:{ exists m. split; [apply hframe_refl|]. repeat split. }
  assert (l3 = l2) as ->.
  { unfold np_array in EN. destruct l2; [congruence|]. destruct (forallb _ _); congruence. }
  rewrite (mbind_lift_ok _ _ _ _ eq_refl), mbind_alloc. set (m1 := grow m (Mat l2)).
  assert (F1 : hframe m m1) by apply hframe_grow.
  destruct (IH p' m1) as (m' & F & E1 & E2 & R). { eapply hframe_dict; eauto. }
  exists m'. split; [eapply hframe_trans; eauto|]. split; [rewrite E1; auto|]. split; [rewrite E2; auto|].
  destruct (mapM (fun q => np_array (snd q)) p') as [r|e4]; cbn [bind].
  2:{ rewrite (mbind_raise _ _ _ _ _ R). reflexivity. }
  destruct R as (d' & R & D'' & N). eexists. rewrite (mbind_ok _ _ _ _ _ R). split; [reflexivity|]. split.
  - constructor; auto. cbn. split; auto. apply (hframe_contents m1); auto. apply at_contents, at_grow.
  - constructor. { cbn. eexists. split; auto. unfold live. cbn. lia. }
    eapply Forall_impl; [|exact N]. cbn. intros q (b & Eb & Nb). exists b. split; auto.
    intros L. apply Nb. eapply hframe_live; eauto.
Qed.

(** ** One trial *)
Lemma trend_attrs (m : mem A) :
  o_imfs (snd (imfs_and_trend_h m)) = o_imfs m /\ o_residue (snd (imfs_and_trend_h m)) = o_residue m.
Proof.
  unfold imfs_and_trend_h, imfs_and_residue_h, mbind, load_vec, load_mat, lift, alloc, ret.
  destruct (o_imfs m) as [i|] eqn:Ei; [|auto].
  destruct (o_residue m) as [r|] eqn:Er; [|auto].
  destruct (contents m r) as [[rv|]|]; auto.
  destruct (allclose0 rv); [|auto].
  destruct (contents m i) as [[|Mv]|]; auto.
  destruct (py_get Mv (-1)) as [x|e]; cbn; auto.
Qed.

Lemma trend_spec_h (m : mem A) st : inner_shows m st ->
  let '(r, m') := imfs_and_trend_h m in
  hframe m m' /\ inner_shows m' st /\
  match get_imfs_and_trend st, r with
  | Ok (Mv, t), Ok (a, b) => contents m' a = Some (Mat Mv) /\ contents m' b = Some (Vec t)
  | Raise e, Raise e' => e = e'
  | _, _ => False
  end.
Proof.
  intros I. pose proof (trend_hframe m) as F. destruct (trend_attrs m) as (T1 & T2).
  assert (X : match get_imfs_and_trend st, fst (imfs_and_trend_h m) with
    | Ok (Mv, t), Ok (a, b) => contents (snd (imfs_and_trend_h m)) a = Some (Mat Mv) /\
                               contents (snd (imfs_and_trend_h m)) b = Some (Vec t)
    | Raise e, Raise e' => e = e'
    | _, _ => False
    end).
  { destruct st as [si sr], I as (I1 & I2). cbn in I1, I2.
    destruct (o_imfs m) as [i|] eqn:Ei, si as [si|]; cbn in I1; try contradiction.
    2:{ unfold imfs_and_trend_h, imfs_and_residue_h, mbind. rewrite Ei. reflexivity. }
    destruct (o_residue m) as [r|] eqn:Er, sr as [sr|]; cbn in I2; try contradiction.
    2:{ unfold imfs_and_trend_h, imfs_and_residue_h, mbind. rewrite Ei, Er. reflexivity. }
    pose proof (trend_h_spec m i r si sr Ei Er I1 I2) as Q.
    destruct (get_imfs_and_trend _) as [[Mt t]|e].
    - destruct Q as (m' & a & b & EQ & _ & _ & _ & Ca & Cb & _). rewrite EQ. cbn [fst snd]. auto.
    - rewrite Q. reflexivity. }
  destruct (imfs_and_trend_h m) as [r m'] eqn:E. cbn [fst snd] in *.
  split; auto. split; auto. eapply hframe_inner; eauto.
Qed.

Lemma emd_call_h cS cT S T s t k m st :
  contents m S = Some (Vec s) -> contents m T = Some (Vec t) -> inner_shows m st ->
  let '(r, m') := emd_h spl fuel ec cS cT S (Some T) k m in
  let '(r', st') := emd_call spl fuel ec st s (Some t) k in
  hframe m m' /\ inner_shows m' st' /\
  match r', r with
  | Ok Mv, Ok a => contents m' a = Some (Mat Mv)
  | Raise e, Raise e' => e = e'
  | _, _ => False
  end.
Proof.
  intros HS HT I. pose proof (emd_h_spec spl fuel ec cS cT S (Some T) s (Some t) k m HS HT) as X.
  unfold emd_call. destruct (emd spl fuel ec s (Some t) k) as [o|e]; cbn [emd_effect] in X.
  - destruct X as (m' & x & i & d & -> & F & Oi & Od & Cx & Ci & Cd & _). split; auto. split; auto.
    split; cbn; [rewrite Oi|rewrite Od]; auto.
  - destruct X as (m' & -> & F & Oi & Od). split; auto. split; auto. eapply hframe_inner; eauto.
Qed.

Lemma trial_h_spec c conv scale S T s t k g m st :
  contents m S = Some (Vec s) -> contents m T = Some (Vec t) -> inner_shows m st ->
  let '(r, (g1, m')) := trial_h gen spl fuel ec c conv scale S T k g m in
  let '(r', (g2, st')) := trial_update gen (emd_decomposer spl fuel ec) c scale s t k (g, st) in
  g1 = g2 /\ hframe m m' /\ inner_shows m' st' /\
  match r', r with
  | Ok t, Ok a => trial_shows m' a t
  | Raise e, Raise e' => e = e'
  | _, _ => False
  end.
Proof.
  intros HS HT I. unfold trial_h, trial_update. cbn [fst snd].
  rewrite (mbind_load_vec _ _ _ s HS). cbn [ret].
  destruct (generate_noise gen c g scale (length s)) as [[nv|e] g1].
  2:{ cbn. split; auto. split; [apply hframe_refl|]. split; auto. }
  rewrite (mbind_lift_ok _ _ _ _ eq_refl), mbind_alloc.
  set (m1 := grow m (Vec nv)).
  rewrite (mbind_load_vec _ _ m1 nv) by apply at_contents, at_grow.
  rewrite mbind_alloc. set (m2 := grow m1 (Vec (vadd s nv))).
  assert (F2 : hframe m m2) by (eapply hframe_trans; apply hframe_grow).
  assert (I2 : inner_shows m2 st) by (eapply hframe_inner; eauto).
  assert (HT2 : contents m2 T = Some (Vec t)) by (eapply hframe_contents; eauto).
  pose proof (emd_call_h (fst conv) (snd conv) (MkArr (length (heap m1)) Whole) T (vadd s nv) t k m2 st
    (at_contents _ _ _ (at_grow _ _)) HT2 I2) as X.
  unfold mbind at 1. cbn [run emd_decomposer].
  destruct (emd_h spl fuel ec (fst conv) (snd conv) _ (Some T) k m2) as [r m3].
  destruct (emd_call spl fuel ec st (vadd s nv) (Some t) k) as [r' st'].
  destruct X as (F3 & I3 & X).
  assert (F03 : hframe m m3) by (eapply hframe_trans; eauto).
  destruct r' as [Mv|e], r as [a|e']; try contradiction.
  2:{ split; auto. }
  destruct (separate_trends c).
  2:{ cbn [ret]. split; auto. split; auto. split; auto. split; cbn; auto. }
  pose proof (trend_spec_h m3 st' I3) as Y. unfold mbind. cbn [trend_of emd_decomposer].
  destruct (imfs_and_trend_h m3) as [r m4]. destruct Y as (F4 & I4 & Y).
  assert (F04 : hframe m m4) by (eapply hframe_trans; eauto).
  destruct (get_imfs_and_trend st') as [[Mt tt]|e], r as [[a' b']|e']; try contradiction; cbn [ret].
  - split; [reflexivity|]. split; [exact F04|]. split; [exact I4|exact Y].
  - split; auto.
Qed.

(** ** The loops over the trials *)
Lemma serial_spec c conv scale S T s t k n : forall d p g m st,
  contents m S = Some (Vec s) -> contents m T = Some (Vec t) -> inner_shows m st ->
  rows_shows m d p ->
  let '(x, d', (g1, m')) := serial_h gen spl fuel ec c conv scale S T k n d g m in
  let '(ts, x', (g2, st')) := run_trials (trial_update gen (emd_decomposer spl fuel ec) c scale s t k) n (g, st) in
  x = x' /\ g1 = g2 /\ hframe m m' /\ inner_shows m' st' /\ rows_shows m' d' (fold_left collect_one ts p).
Proof.
  induction n as [|n IH]; intros d p g m st HS HT I R; cbn [serial_h run_trials].
  { cbn. split; auto. split; auto. split; [apply hframe_refl|]. auto. }
  pose proof (trial_h_spec c conv scale S T s t k g m st HS HT I) as X.
  destruct (trial_h gen spl fuel ec c conv scale S T k g m) as [r [g1 m1]].
  destruct (trial_update gen (emd_decomposer spl fuel ec) c scale s t k (g, st)) as [r' [g2 st1]].
  destruct X as (<- & F1 & I1 & X).
  assert (R1 : rows_shows m1 d p) by (eapply hframe_rows; eauto).
  destruct r' as [tr|e], r as [a|e']; try contradiction.
  2:{ subst. cbn. auto. }
  destruct (collect_shows m1 d p a tr R1 X) as (d1 & -> & R2).
  specialize (IH d1 (collect_one p tr) g1 m1 st1).
  destruct (serial_h gen spl fuel ec c conv scale S T k n d1 g1 m1) as [[x d'] [g3 m']].
  destruct (run_trials _ n (g1, st1)) as [[ts x'] [g4 st']].
  destruct IH as (-> & -> & F & I' & R'); auto.
  { eapply hframe_contents; eauto. } { eapply hframe_contents; eauto. }
  split; auto. split; auto. split; [eapply hframe_trans; eauto|]. auto.
Qed.

Lemma receive_spec ts : forall d p m, rows_shows m d p ->
  exists d' m', receive_h ts d m = (Ok d', m') /\ hframe m m' /\
    o_imfs m' = o_imfs m /\ o_residue m' = o_residue m /\ rows_shows m' d' (fold_left collect_one ts p).
Proof.
  induction ts as [|[Mv tr] ts IH]; intros d p m R; cbn [receive_h].
  { exists d, m. split; auto. split; [apply hframe_refl|]. auto. }
  rewrite mbind_alloc. set (a := MkArr (length (heap m)) Whole). set (m1 := grow m (Mat Mv)).
  assert (F1 : hframe m m1) by apply hframe_grow.
  assert (C1 : contents m1 a = Some (Mat Mv)) by apply at_contents, at_grow.
  assert (Y : exists b m2, (let* b := match tr with
                   | Some v => let* b := alloc (Vec v) in ret (Some b)
                   | None => ret None
                   end in ret (a, b)) m1 = (Ok (a, b), m2) /\ hframe m1 m2 /\
                o_imfs m2 = o_imfs m1 /\ o_residue m2 = o_residue m1 /\ opt_vec m2 b tr).
  { destruct tr as [v|].
    - exists (Some (MkArr (length (heap m1)) Whole)), (grow m1 (Vec v)). split; [reflexivity|].
      split; [apply hframe_grow|]. split; auto. split; auto. cbn [opt_vec]. apply at_contents, at_grow.
    - exists None, m1. split; [reflexivity|]. split; [apply hframe_refl|]. cbn. auto. }
  destruct Y as (b & m2 & -> & F2 & E1 & E2 & C2).
  assert (F02 : hframe m m2) by (eapply hframe_trans; eauto).
  destruct (collect_shows m2 d p (a, b) (Mv, tr)) as (d1 & -> & R2).
  { eapply hframe_rows; eauto. }
  { split; cbn [fst snd]; auto. apply (hframe_contents m1); auto. }
  destruct (IH d1 (collect_one p (Mv, tr)) m2 R2) as (d' & m' & E & F & O1 & O2 & R').
  exists d', m'. split; auto. split; [eapply hframe_trans; eauto|].
  split; [rewrite O1, E1; auto|]. split; [rewrite O2, E2; auto|]. exact R'.
Qed.

(** ** EEMD.eemd *)
Lemma eemd_h_spec c conv o p S T s t k :
  contents (e_mem o) S = Some (Vec s) -> shows (e_mem o) T t -> state_shows o p ->
  let '(r, o') := eemd_h gen spl fuel ec c conv o S T k in
  let '(r', p') := eemd gen (emd_decomposer spl fuel ec) c p s t k in
  hframe (e_mem o) (e_mem o') /\ state_shows o' p' /\
  match r', r with
  | Ok E, Ok a => contents (e_mem o') a = Some (Mat E) /\
      e_imf o' = Some a /\ shown a = Whole /\ ~ live (e_mem o) a /\
      (exists b, e_res o' = Some b /\ ~ live (e_mem o) b /\ apart a b) /\
      Forall (fun q => exists b, snd q = Block b /\ ~ live (e_mem o) b /\ apart a b) (e_all o')
  | Raise e, Raise e' => e = e'
  | _, _ => False
  end.
Proof.
  intros HS HT (SI & SR & SE & SD & SA). unfold eemd_h, eemd.
  set (m := e_mem o) in *.
  assert (St : exists m1, hframe m m1 /\ o_imfs m1 = o_imfs m /\ o_residue m1 = o_residue m /\
    match (let! T := match t with Some t => Ok t | None => timeline (length s) end in
           let! mx := np_max s in let! mn := np_min s in
           Ok (T, nmul (noise_width c) (nabs (nsub mx mn)))) with
    | Ok (tv, sc) => exists T1, contents m1 T1 = Some (Vec tv) /\
      (let* s := load_vec S in
       let* T := match T with
               | Some T => ret T
               | None => let* t := lift (timeline (length s)) in alloc (Vec t)
               end in
       let* mx := lift (np_max s) in
       let* mn := lift (np_min s) in
       ret (s, T, nmul (noise_width c) (nabs (nsub mx mn)))) m = (Ok (s, T1, sc), m1)
    | Raise e => 
      (let* s := load_vec S in
       let* T := match T with
               | Some T => ret T
               | None => let* t := lift (timeline (length s)) in alloc (Vec t)
               end in
       let* mx := lift (np_max s) in
       let* mn := lift (np_min s) in
       ret (s, T, nmul (noise_width c) (nabs (nsub mx mn)))) m = (Raise e, m1)
    end).
  { rewrite (mbind_load_vec _ _ _ s HS).
    assert (Y : exists m1, hframe m m1 /\ o_imfs m1 = o_imfs m /\ o_residue m1 = o_residue m /\
      match match t with Some t => Ok t | None => timeline (length s) end with
      | Ok tv => exists T1, contents m1 T1 = Some (Vec tv) /\
          (match T with
               | Some T => ret T
               | None => let* t := lift (timeline (length s)) in alloc (Vec t)
               end) m = (Ok T1, m1)
      | Raise e => (match T with
               | Some T => ret T
               | None => let* t := lift (timeline (length s)) in alloc (Vec t)
               end) m = (Raise e, m1)
      end).
    { destruct T as [T|], t as [t|]; cbn in HT; try contradiction.
      - exists m. split; [apply hframe_refl|]. split; auto. split; auto. exists T. auto.
      - destruct (timeline (length s)) as [tl|e].
        + exists (grow m (Vec tl)). split; [apply hframe_grow|]. split; auto. split; auto.
          exists (MkArr (length (heap m)) Whole). split; auto. apply at_contents, at_grow.
        + exists m. split; [apply hframe_refl|]. repeat split. }
    destruct Y as (m1 & F1 & E1 & E2 & Y). exists m1. split; auto. split; auto. split; auto.
    destruct (match t with Some t => Ok t | None => timeline (length s) end) as [tv|e]; cbn [bind].
    2:{ rewrite (mbind_raise _ _ _ _ _ Y). reflexivity. }
    destruct Y as (T1 & C1 & Y). rewrite (mbind_ok _ _ _ _ _ Y).
    destruct (np_max s) as [mx|e]; cbn [bind]; [|reflexivity].
    rewrite (mbind_lift_ok _ _ _ _ eq_refl).
    destruct (np_min s) as [mn|e]; cbn [bind]; [|reflexivity].
    rewrite (mbind_lift_ok _ _ _ _ eq_refl). exists T1. auto. }
  destruct St as (m1 & F1 & E1 & E2 & St).
  assert (I1 : inner_shows m1 (inner p)) by (eapply hframe_inner; eauto).
  destruct (let! T := match t with Some t => Ok t | None => timeline (length s) end in
           let! mx := np_max s in let! mn := np_min s in
           Ok (T, nmul (noise_width c) (nabs (nsub mx mn)))) as [[tv scale]|e].
  2:{ rewrite St. cbn [e_mem]. split; auto. split; auto.
      repeat split; cbn [e_mem e_random e_imf e_res e_all]; auto.
      apply I1. apply I1. eapply hframe_opt_mat; eauto. eapply hframe_opt_vec; eauto. eapply hframe_dict; eauto. }
  destruct St as (T1 & C1 & St). rewrite St. clear St.
  assert (HS1 : contents m1 S = Some (Vec s)) by (eapply hframe_contents; eauto).
  (* the trials *)
  match goal with |- context [if parallel c then ?u else ?v] => set (hp := if parallel c then u else v) end.
  match goal with |- context [if parallel c then ?u else run_trials ?a ?b ?d] =>
    set (pp := if parallel c then u else run_trials a b d) end.
  assert (X : let '(x, d, (g, m2)) := hp in let '(ts, x', st) := pp in
     x = x' /\ g = fst st /\ hframe m m2 /\ inner_shows m2 (snd st) /\
     dict_shows m2 d (match x' with Some _ => if parallel c then all_imfs p else collect ts
                        | None => rename_trend (collect ts) end)).
  { unfold hp, pp. destruct (parallel c).
    - rewrite (mbind_load_vec _ _ _ tv C1). cbn [ret]. rewrite (inner_now_eq _ _ I1), SR.
      destruct (pool_map (processes c) _ (trials c) (random p, inner p)) as [ts [e|]].
      { cbn. split; auto. split; auto. split; auto. split; auto. eapply hframe_dict; eauto. }
      destruct (receive_spec ts [] [] m1) as (d' & m2 & -> & F2 & O1 & O2 & R2); [constructor|].
      cbn [fst snd]. split; auto. split; auto. split; [eapply hframe_trans; eauto|].
      split; [eapply hframe_inner; eauto|]. apply rows_dict, rename_shows. exact R2.
    - pose proof (serial_spec c conv scale S T1 s tv k (Z.to_nat (trials c)) [] [] (e_random o) m1 (inner p)
        HS1 C1 I1 (Forall2_nil _)) as Y. rewrite SR in Y. rewrite SR.
      destruct (serial_h gen spl fuel ec c conv scale S T1 k (Z.to_nat (trials c)) [] (random p) m1) as [[x d] [g m2]].
      destruct (run_trials _ (Z.to_nat (trials c)) (random p, inner p)) as [[ts x'] [g2 st2]].
      destruct Y as (-> & -> & F2 & I2 & R2). cbn [fst snd]. split; auto. split; auto.
      split; [eapply hframe_trans; eauto|]. split; auto. apply rows_dict.
      destruct x'; auto. apply rename_shows. exact R2. }
  clearbody hp pp. destruct hp as [[x d] [g m2]], pp as [[ts x'] [g' st]].
  destruct X as (-> & Eg & F2 & I2 & D2). cbn [fst snd] in *. subst g'.
  set (dp := match x' with Some _ => if parallel c then all_imfs p else collect ts
                        | None => rename_trend (collect ts) end) in *.
  assert (Keep : forall m3 d3 dp3, hframe m2 m3 -> o_imfs m3 = o_imfs m2 -> o_residue m3 = o_residue m2 ->
     dict_shows m3 d3 dp3 ->
     state_shows (MkEMem m3 g (e_imf o) (e_res o) d3) (MkESt g st (E_IMF p) (e_residue p) dp3) /\ hframe m m3).
  { intros m3 d3 dp3 F3 O1 O2 D3. assert (F03 : hframe m m3) by (eapply hframe_trans; eauto).
    split; auto. repeat split; cbn [e_mem e_random e_imf e_res e_all inner E_IMF e_residue all_imfs random]; auto.
    apply (hframe_inner m2); auto. apply (hframe_inner m2); auto.
    apply (hframe_opt_mat m); auto. apply (hframe_opt_vec m); auto. }
  destruct x' as [e|].
  { destruct (Keep m2 d dp (hframe_refl _) eq_refl eq_refl D2) as (K1 & K2). split; auto. }
  cbn [e_imf e_res all_imfs].
  destruct (blocks_spec d dp m2 D2) as (m3 & F3 & O1 & O2 & B).
  destruct (mapM (fun q => np_array (snd q)) dp) as [bl|e] eqn:EB.
  2:{ rewrite B. destruct (Keep m3 d dp F3 O1 O2 (hframe_dict _ _ _ _ F3 D2)) as (K1 & K2). split; auto. }
  destruct B as (d3 & -> & D3 & N3).
  unfold mean_h at 1. rewrite (mbind_ok _ _ _ _ _ (load_entries_ok _ _ _ D3)).
  destruct (ensemble_mean dp) as [E|e] eqn:EM.
  2:{ cbn. destruct (Keep m3 d3 dp F3 O1 O2 D3) as (K1 & K2). split; auto. }
  rewrite (mbind_lift_ok _ _ _ _ eq_refl), alloc_eq. set (m4 := grow m3 (Mat E)).
  set (a := MkArr (length (heap m3)) Whole).
  assert (F34 : hframe m3 m4) by apply hframe_grow.
  assert (F24 : hframe m2 m4) by (eapply hframe_trans; eauto).
  assert (F04 : hframe m m4) by (eapply hframe_trans; eauto).
  assert (Ca : contents m4 a = Some (Mat E)) by apply at_contents, at_grow.
  assert (HS4 : contents m4 S = Some (Vec s)) by (apply (hframe_contents m); auto).
  rewrite (mbind_load_vec _ _ _ s HS4), (mbind_load_mat _ _ _ E Ca).
  cbn [random inner E_IMF e_residue all_imfs].
  assert (L03 : (length (heap m) <= length (heap m3))%nat) by (apply (hframe_trans _ _ _ F2 F3)).
  destruct (minus_rows s E) as [rv|e] eqn:ER.
  2:{ cbn. split; auto. split; auto.
      repeat split; cbn [e_mem e_random e_imf e_res e_all inner E_IMF e_residue all_imfs random]; auto.
      apply (hframe_inner m2); auto. apply (hframe_inner m2); auto.
      apply (hframe_opt_vec m); auto. apply (hframe_dict m3); auto. }
  rewrite (mbind_lift_ok _ _ _ _ eq_refl), alloc_eq. set (m5 := grow m4 (Vec rv)).
  assert (F45 : hframe m4 m5) by apply hframe_grow.
  assert (F05 : hframe m m5) by (eapply hframe_trans; eauto).
  cbn [e_mem e_imf e_res e_all]. split; auto. split.
  { repeat split; cbn [e_mem e_random e_imf e_res e_all inner E_IMF e_residue all_imfs random opt_mat opt_vec]; auto.
    - apply (hframe_inner m2); auto. eapply hframe_trans; eauto.
    - apply (hframe_inner m2); auto. eapply hframe_trans; eauto.
    - apply (hframe_contents m4); auto.
    - apply at_contents, at_grow.
    - apply (hframe_dict m4); auto. apply (hframe_dict m3); auto. }
  split. { apply (hframe_contents m4); auto. }
  split; auto. split; auto. split. { unfold live, a. cbn. lia. }
  split. { exists (MkArr (length (heap m4)) Whole). split; auto. unfold live, apart, a, m4. cbn.
           rewrite app_length. cbn. lia. }
  rewrite Forall_forall in N3 |- *. intros q Hq. destruct (N3 q Hq) as (b & Eb & Nb).
  exists b. split; auto. split. { intros L. apply Nb. eapply hframe_live; eauto. }
  (* blocks live in m3 *)
  unfold apart, a. cbn. intros Eq.
  assert (Lb : live m3 b).
  { clear - D3 Hq Eb. unfold dict_shows in D3. induction D3 as [|x y l l' (E1 & E2) D3 IH]; [destruct Hq|].
    destruct Hq as [<-|Hq]; auto. rewrite Eb in E2. cbn in E2. eapply contents_live; eauto. }
  unfold live in Lb. lia.
Qed.
End HeapEemdProofs.

(** ** EEMD.eemd seen by its caller *)
Section HeapEemdClient.
Context {A : Type} `{Num A} {G : Type}.
Variable gen : generator A G.
Variable spl : spline_oracle A.
Variable fuel : nat.
Variable ec : emd_config A.

Lemma eemd_call_ok c conv o p S T s t k E p' :
  contents (e_mem o) S = Some (Vec s) -> shows (e_mem o) T t -> state_shows o p ->
  eemd gen (emd_decomposer spl fuel ec) c p s t k = (Ok E, p') ->
  exists a b o', eemd_h gen spl fuel ec c conv o S T k = (Ok a, o') /\
    eemd_imfs_and_residue_h o' = Ok (a, b) /\
    contents (e_mem o') a = Some (Mat E) /\
    state_shows o' p' /\ untouched (e_mem o) (e_mem o') /\
    created (e_mem o) (e_mem o') a /\ created (e_mem o) (e_mem o') b /\ apart a b.
Proof.
  intros HS HT St Ep. pose proof (eemd_h_spec gen spl fuel ec c conv o p S T s t k HS HT St) as X.
  rewrite Ep in X. destruct (eemd_h gen spl fuel ec c conv o S T k) as [[a|e] o']; [|tauto].
  destruct X as (F & St' & Ca & Ea & W & Na & (b & Eb & Nb & Ab) & _).
  exists a, b, o'. split; auto. split. { unfold eemd_imfs_and_residue_h. rewrite Ea, Eb. reflexivity. }
  split; auto. split; auto. split; [apply hframe_untouched; auto|].
  split. { split; auto. eapply contents_live; eauto. }
  split; auto. split; auto.
  destruct St' as (_ & _ & _ & Sb & _). rewrite Eb in Sb. cbn in Sb.
  destruct (e_residue p'); [|contradiction]. eapply contents_live; eauto.
Qed.

Lemma eemd_call_raise c conv o p S T s t k e p' :
  contents (e_mem o) S = Some (Vec s) -> shows (e_mem o) T t -> state_shows o p ->
  eemd gen (emd_decomposer spl fuel ec) c p s t k = (Raise e, p') ->
  exists o', eemd_h gen spl fuel ec c conv o S T k = (Raise e, o') /\
    state_shows o' p' /\ untouched (e_mem o) (e_mem o').
Proof.
  intros HS HT St Ep. pose proof (eemd_h_spec gen spl fuel ec c conv o p S T s t k HS HT St) as X.
  rewrite Ep in X. destruct (eemd_h gen spl fuel ec c conv o S T k) as [[a|e'] o']; [tauto|].
  destruct X as (F & St' & ->). exists o'. split; auto. split; auto. apply hframe_untouched; auto.
Qed.

Lemma eemd_write_through c conv o p S T s t k E p' a o' ws :
  contents (e_mem o) S = Some (Vec s) -> shows (e_mem o) T t -> state_shows o p ->
  eemd gen (emd_decomposer spl fuel ec) c p s t k = (Ok E, p') ->
  eemd_h gen spl fuel ec c conv o S T k = (Ok a, o') ->
  Forall (fun w => base (target w) = base a) ws ->
  exists b r, eemd_imfs_and_residue_h (e_writes o' ws) = Ok (a, b) /\
    e_residue p' = Some r /\ contents (e_mem (e_writes o' ws)) b = Some (Vec r) /\
    dict_shows (e_mem (e_writes o' ws)) (e_all (e_writes o' ws)) (all_imfs p') /\
    forall x, live (e_mem o) x -> contents (e_mem (e_writes o' ws)) x = contents (e_mem o) x.
Proof.
  intros HS HT St Ep Eh HW.
  pose proof (eemd_h_spec gen spl fuel ec c conv o p S T s t k HS HT St) as X.
  rewrite Ep, Eh in X. destruct X as (F & St' & Ca & Ea & W & Na & (b & Eb & Nb & Ab) & NB).
  destruct St' as (SI & SR & SE & SD & SA). rewrite Eb in SD. cbn in SD.
  destruct (e_residue p') as [r|]; [|contradiction]. exists b, r.
  split. { unfold eemd_imfs_and_residue_h. cbn. rewrite Ea, Eb. reflexivity. }
  split; auto. cbn [e_mem e_writes e_all].
  assert (Ap : forall x, apart a x -> Forall (fun w => apart (target w) x) ws).
  { intros x Ax. eapply Forall_impl; [|exact HW]. cbn. intros w Ew. unfold apart in *. congruence. }
  split. { rewrite do_writes_other; auto. }
  split.
  { clear - SA NB Ap. unfold dict_shows in *.
    induction SA as [|x y l l' (E1 & E2) SA IH]; constructor.
    - inversion NB as [|? ? (b & Eb & _ & Ab) NB']; subst. split; auto. rewrite Eb in *. cbn in *.
      rewrite do_writes_other; auto.
    - apply IH. inversion NB; auto. }
  intros x Lx. rewrite do_writes_other. { apply (hframe_untouched _ _ F); auto. }
  apply Ap. unfold apart, live in *. intros Eq. apply Na. rewrite Eq. exact Lx.
Qed.

(** The stored array itself is what changes. *)
Lemma eemd_write_seen c conv o p S T s t k E p' a o' i j y :
  contents (e_mem o) S = Some (Vec s) -> shows (e_mem o) T t -> state_shows o p ->
  eemd gen (emd_decomposer spl fuel ec) c p s t k = (Ok E, p') ->
  eemd_h gen spl fuel ec c conv o S T k = (Ok a, o') ->
  contents (e_mem (e_writes o' [MkWrite a i j y])) a
    = Some (Mat (set_nth E i (set_nth (nth i E []) j y))).
Proof.
  intros HS HT St Ep Eh.
  pose proof (eemd_h_spec gen spl fuel ec c conv o p S T s t k HS HT St) as X.
  rewrite Ep, Eh in X. destruct X as (F & St' & Ca & _ & W & _).
  pose proof (contents_live _ _ _ Ca) as L. unfold contents in Ca. rewrite W in Ca.
  destruct (nth_error (heap (e_mem o')) (base a)) as [x|] eqn:Ex; [|discriminate].
  assert (x = Mat E) by (destruct x; congruence). subst x.
  cbn [e_writes e_mem do_writes fold_left]. unfold do_write. cbn [target row col value]. rewrite Ex, W. cbn [put].
  unfold contents. cbn [heap set_cell]. rewrite nth_error_set_eq by exact L. rewrite W. reflexivity.
Qed.

(** A later run leaves earlier results alone. *)
Lemma eemd_twice c conv o p S T s t k E p' a o' c2 conv2 S2 T2 s2 t2 k2 :
  contents (e_mem o) S = Some (Vec s) -> shows (e_mem o) T t -> state_shows o p ->
  eemd gen (emd_decomposer spl fuel ec) c p s t k = (Ok E, p') ->
  eemd_h gen spl fuel ec c conv o S T k = (Ok a, o') ->
  contents (e_mem o') S2 = Some (Vec s2) -> shows (e_mem o') T2 t2 ->
  let '(r, o'') := eemd_h gen spl fuel ec c2 conv2 o' S2 T2 k2 in
  contents (e_mem o'') a = Some (Mat E) /\ forall a2, r = Ok a2 -> apart a a2.
Proof.
  intros HS HT St Ep Eh HS2 HT2.
  pose proof (eemd_h_spec gen spl fuel ec c conv o p S T s t k HS HT St) as X.
  rewrite Ep, Eh in X. destruct X as (F & St' & Ca & _).
  pose proof (eemd_h_spec gen spl fuel ec c2 conv2 o' p' S2 T2 s2 t2 k2 HS2 HT2 St') as Y.
  destruct (eemd_h gen spl fuel ec c2 conv2 o' S2 T2 k2) as [r o''].
  destruct (eemd gen (emd_decomposer spl fuel ec) c2 p' s2 t2 k2) as [r' p''].
  destruct Y as (F2 & _ & Y). split. { eapply hframe_contents; eauto. }
  intros a2 ->. destruct r' as [E2|]; [|contradiction]. destruct Y as (_ & _ & _ & Na & _).
  pose proof (contents_live _ _ _ Ca) as L. unfold live, apart in *. intros Eq. apply Na. rewrite <- Eq. exact L.
Qed.
End HeapEemdClient.
