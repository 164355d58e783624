(** * HeapMatlabProofs: EMD_matlab on memory computes what it computes on values, and assigns only into
    arrays it has made. *)
From Verif Require Import PyFacts Emd Spec EmdProofs Heap HeapSpec HeapProofs HeapClient Matlab MatlabRun HeapMatlab HeapMatlabSpec.
From Coq Require Import ZifyBool ZifyNat Lia.

Section HeapMatlabProofs.
Context {A : Type} `{Num A}.
Notation vec := (list A).
Variable spl : spline_oracle A.

Lemma hframe_at (m m' : mem A) l x : hframe m m' -> at_ m l x -> at_ m' l x.
Proof. intros (_ & B) E. unfold at_. rewrite B; auto. eapply at_lt; eauto. Qed.

(** ** Sifting makes new arrays only *)
Lemma m_sift_h_spec fuel c T t : forall n nh ext li lm v mv m,
  contents m T = Some (Vec t) -> at_ m li (Vec v) -> at_ m lm (Vec mv) ->
  exists m', hframe m m' /\
    match m_sift spl fuel c t n nh ext v mv with
    | Ok (v', n', ext', nf) => exists l',
        m_sift_h spl fuel c T n nh ext (MkArr li Whole) (MkArr lm Whole) m = (Ok (MkArr l' Whole, n', ext', nf), m') /\
        at_ m' l' (Vec v')
    | Raise e => m_sift_h spl fuel c T n nh ext (MkArr li Whole) (MkArr lm Whole) m = (Raise e, m')
    end.
Proof.
  induction fuel as [|fuel IH]; intros n nh ext li lm v mv m HT Hi Hm; cbn [m_sift m_sift_h].
  { exists m. split; [apply hframe_refl|reflexivity]. }
  destruct (m_MAX_ITERATION c <=? n). { exists m. split; [apply hframe_refl|]. exists li. auto. }
  rewrite (mbind_load_vec _ _ _ t HT), (mbind_load_vec _ _ _ v (at_contents _ _ _ Hi)).
  destruct (findExtrema t v) as [e|e] eqn:E1; cbn [bind].
  2:{ exists m. split; [apply hframe_refl|reflexivity]. }
  rewrite (mbind_lift_ok _ _ _ e eq_refl).
  destruct (2 <? ext_no e). 2:{ exists m. split; [apply hframe_refl|]. exists li. auto. }
  rewrite (mbind_copy_vec _ _ _ v (at_contents _ _ _ Hi)).
  set (m1 := grow m (Vec v)). assert (F1 : hframe m m1) by apply hframe_grow.
  assert (Hi1 : at_ m1 li (Vec v)) by (eapply hframe_at; eauto).
  assert (Hm1 : at_ m1 lm (Vec mv)) by (eapply hframe_at; eauto).
  rewrite (mbind_load_vec _ _ _ v (at_contents _ _ _ Hi1)), (mbind_load_vec _ _ _ mv (at_contents _ _ _ Hm1)).
  destruct (broadcast2 nsub v (map (nmul (reduceScale c)) mv)) as [y|e2] eqn:E2; cbn [bind].
  2:{ exists m1. split; auto. }
  rewrite (mbind_lift_ok _ _ _ _ eq_refl), mbind_alloc.
  set (m2 := grow m1 (Vec y)). set (ly := length (heap m1)).
  assert (F2 : hframe m m2) by (eapply hframe_trans; [exact F1|apply hframe_grow]).
  assert (Hy2 : at_ m2 ly (Vec y)) by apply at_grow.
  rewrite (mbind_load_vec _ _ _ y (at_contents _ _ _ Hy2)).
  destruct (extractMaxMinSpline spl c t y) as [[[maxE minE]|]|e3] eqn:E3; cbn [bind].
  2:{ exists m2. split; auto. exists ly. auto. }
  2:{ exists m2. split; auto. }
  rewrite (mbind_lift_ok _ _ _ _ eq_refl).
  destruct (broadcast2 nadd maxE minE) as [sum|e4] eqn:E4; cbn [bind].
  2:{ exists m2. split; auto. }
  rewrite (mbind_lift_ok _ _ _ _ eq_refl), mbind_alloc.
  set (mean := map (nmul nhalf) sum). set (m3 := grow m2 (Vec mean)). set (lq := length (heap m2)).
  assert (F3 : hframe m m3) by (eapply hframe_trans; [exact F2|apply hframe_grow]).
  assert (Hy3 : at_ m3 ly (Vec y)) by (apply at_grow_old; auto).
  assert (Hq3 : at_ m3 lq (Vec mean)) by apply at_grow.
  assert (HT3 : contents m3 T = Some (Vec t)) by (eapply hframe_contents; eauto).
  clearbody ly lq.
  assert (Done : forall (n' ext' : Z) (nf : bool), exists m', hframe m m' /\ exists l',
     ret (MkArr ly Whole, n', ext', nf) m3 = (Ok (MkArr l' Whole, n', ext', nf), m') /\ at_ m' l' (Vec y)).
  { intros. exists m3. split; auto. exists ly. auto. }
  assert (Again : forall n nh ext, exists m', hframe m m' /\
    match m_sift spl fuel c t n nh ext y mean with
    | Ok (v', n', ext', nf) => exists l',
        m_sift_h spl fuel c T n nh ext (MkArr ly Whole) (MkArr lq Whole) m3 = (Ok (MkArr l' Whole, n', ext', nf), m') /\
        at_ m' l' (Vec v')
    | Raise e => m_sift_h spl fuel c T n nh ext (MkArr ly Whole) (MkArr lq Whole) m3 = (Raise e, m')
    end).
  { intros n' nh' ext'. destruct (IH n' nh' ext' ly lq y mean m3) as (m' & F & R); auto.
    exists m'. split; auto. eapply hframe_trans; eauto. }
  destruct (maxIteration c <? n + 1); [apply Done|].
  destruct (negb (m_FIXE c =? 0)).
  { destruct (m_FIXE c + 1 <=? n + 1); [apply Done|apply Again]. }
  destruct (findExtrema t y) as [e'|e'] eqn:E5; cbn [bind].
  2:{ exists m3. split; auto. }
  rewrite (mbind_lift_ok _ _ _ _ eq_refl).
  destruct (negb (m_FIXE_H c =? 0)).
  { destruct (n + 1 =? 1); [apply Again|]. destruct (m_FIXE_H c <=? _); [apply Done|apply Again]. }
  rewrite (mbind_load_vec _ _ _ mean (at_contents _ _ _ Hq3)).
  destruct (stop_sifting c maxE minE mean (ext_no e')) as [f1|e6] eqn:E6; cbn [bind].
  2:{ exists m3. split; auto. }
  rewrite (mbind_lift_ok _ _ _ _ eq_refl).
  destruct (f1 && _); [apply Done|apply Again].
Qed.

(** ** The dictionaries *)
(** Entries with whole arrays of their own, none below [b] and none at [x]. *)
Definition own (b : nat) (bad : list nat) (hs : list h_row) : Prop :=
  NoDup (map (fun h => base (hr_imf h)) hs) /\
  forall h, In h hs -> shown (hr_imf h) = Whole /\ (b <= base (hr_imf h))%nat /\ ~ In (base (hr_imf h)) bad.

Lemma hframe_entries (m m' : mem A) hs rs : hframe m m' -> entries_show m hs rs -> entries_show m' hs rs.
Proof.
  intros F HE. induction HE as [|h r hs rs (E1 & E2 & E3) HE IH]; constructor; auto.
  split; auto. eapply hframe_contents; eauto.
Qed.
Lemma entries_live (m : mem A) hs rs h : entries_show m hs rs -> In h hs -> live m (hr_imf h).
Proof.
  intros HE. induction HE as [|h' r hs rs (E1 & _) HE IH]; intros [].
  - subst. eapply contents_live; eauto.
  - auto.
Qed.
Lemma entries_length (m : mem A) hs rs : entries_show m hs rs -> length hs = length rs.
Proof. induction 1; cbn; auto. Qed.

(** Buffers outside [L] keep their contents. *)
Definition gframe (L : list nat) (m m' : mem A) : Prop :=
  (length (heap m) <= length (heap m'))%nat /\
  (forall l, (l < length (heap m))%nat -> ~ In l L -> nth_error (heap m') l = nth_error (heap m) l).
Lemma gframe_refl L m : gframe L m m.
Proof. split; auto. Qed.
Lemma gframe_trans L m0 m1 m2 : gframe L m0 m1 -> gframe L m1 m2 -> gframe L m0 m2.
Proof. intros (A1 & B1) (A2 & B2). split; [lia|]. intros l Hl Hn. rewrite B2 by (auto; lia). auto. Qed.
Lemma hframe_gframe L m m' : hframe m m' -> gframe L m m'.
Proof. intros (L1 & B). split; auto. Qed.
Lemma gframe_set m l x : gframe [l] m (set_cell m l x).
Proof. destruct (frame_set m l x) as (F1 & F2 & _). split; auto. Qed.
Lemma gframe_contents L m m' a x : gframe L m m' -> contents m a = Some x -> ~ In (base a) L -> contents m' a = Some x.
Proof. intros (_ & B) E Hn. rewrite <- E. unfold contents. rewrite B; auto. apply (contents_live _ _ _ E). Qed.
Lemma gframe_at L m m' l x : gframe L m m' -> at_ m l x -> ~ In l L -> at_ m' l x.
Proof. intros (_ & B) E Hn. unfold at_. rewrite B; auto. eapply at_lt; eauto. Qed.
Lemma gframe_entries L (m m' : mem A) hs rs : gframe L m m' ->
  (forall h, In h hs -> ~ In (base (hr_imf h)) L) -> entries_show m hs rs -> entries_show m' hs rs.
Proof.
  intros F HL HE. induction HE as [|h r hs rs (E1 & E2 & E3) HE IH]; constructor.
  - split; auto. eapply gframe_contents; eauto. apply HL. left; auto.
  - apply IH. intros h' Hh. apply HL. right. auto.
Qed.

Lemma broadcast_sub_length (x y : vec) z : length x = length y -> broadcast2 nsub x y = Ok z -> length z = length x.
Proof. intros L E. rewrite broadcast2_eq in E by auto. injection E as <-. rewrite map2_length_eq by auto. reflexivity. Qed.

Lemma entries_app (m : mem A) hs rs h r : entries_show m hs rs -> entry_shows m h r -> entries_show m (hs ++ [h]) (rs ++ [r]).
Proof. intros H1 H2. apply Forall2_app; auto. Qed.

Lemma Add_app_nil {X} (a : X) l : Add a l (l ++ [a]).
Proof. rewrite <- (app_nil_r l) at 1. apply Add_app. Qed.

Lemma own_app b bad hs h (m : mem A) rs : own b bad hs -> entries_show m hs rs ->
  shown (hr_imf h) = Whole -> (b <= base (hr_imf h))%nat -> ~ In (base (hr_imf h)) bad -> (length (heap m) <= base (hr_imf h))%nat ->
  own b bad (hs ++ [h]).
Proof.
  intros (ND & HO) HE Hs Hb Hn Hl. split.
  - rewrite map_app. cbn [map]. apply NoDup_Add with (a := base (hr_imf h)) (l := map (fun h => base (hr_imf h)) hs); [apply Add_app_nil|split; auto].
    intros Hin. apply in_map_iff in Hin as (h' & Eh & Hh). pose proof (entries_live _ _ _ _ HE Hh) as Q. unfold live in Q. lia.
  - intros h' Hh. apply in_app_or in Hh as [Hh|[<-|[]]]; auto.
Qed.

(** ** The outer loop *)
Lemma m_loop_h_spec fuel c T lr t k b N : forall imf x hs rs ext rv m,
  contents m T = Some (Vec t) -> base T <> lr ->
  at_ m lr (Vec rv) -> length rv = N -> contents m imf = Some (Vec x) -> length x = N ->
  (b <= length (heap m))%nat -> entries_show m hs rs -> own b [lr] hs ->
  exists m', gframe [lr] m m' /\
    match m_loop spl fuel c t k rv x rs ext with
    | Ok (rs', ext') => exists hs', m_loop_h spl fuel c T k (MkArr lr Whole) imf hs ext m = (Ok (hs', ext'), m') /\
        entries_show m' hs' rs' /\ own b [lr] hs'
    | Raise e => m_loop_h spl fuel c T k (MkArr lr Whole) imf hs ext m = (Raise e, m')
    end.
Proof.
  induction fuel as [|fuel IH]; intros imf x hs rs ext rv m HT Tr Hr Lr Hx Lx Hb HE HO; cbn [m_loop m_loop_h].
  { exists m. split; [apply gframe_refl|reflexivity]. }
  rewrite (mbind_load_vec _ _ _ rv (at_contents _ _ _ Hr)), (mbind_load_vec _ _ _ x Hx).
  assert (Lrx : length rv = length x) by congruence.
  destruct (broadcast2 nsub rv x) as [d|e] eqn:E1; cbn [bind].
  2:{ exists m. split; [apply gframe_refl|reflexivity]. }
  rewrite (mbind_lift_ok _ _ _ _ eq_refl).
  pose proof (broadcast_sub_length _ _ _ Lrx E1) as Ld.
  rewrite (mbind_assign_ok _ _ _ _ _ _ Hr (assign_all_eq _ _ Ld)).
  set (m1 := set_cell m lr (Vec d)).
  assert (F1 : gframe [lr] m m1) by apply gframe_set.
  assert (Hr1 : at_ m1 lr (Vec d)) by (apply at_set; eapply at_lt; eauto).
  assert (HT1 : contents m1 T = Some (Vec t)) by (eapply gframe_contents; eauto; cbn; intuition congruence).
  assert (HE1 : entries_show m1 hs rs) by (eapply gframe_entries; eauto; intros h Hh; apply HO; auto).
  rewrite (mbind_copy_vec _ _ _ d (at_contents _ _ _ Hr1)).
  set (m2 := grow m1 (Vec d)). set (li := length (heap m1)).
  assert (Hr2 : at_ m2 lr (Vec d)) by (apply at_grow_old; auto).
  rewrite (mbind_load_vec _ _ _ d (at_contents _ _ _ Hr2)), mbind_alloc.
  set (m3 := grow m2 (Vec (map (fun _ => n0) d))). set (lm := length (heap m2)).
  assert (F13 : hframe m1 m3) by (eapply hframe_trans; apply hframe_grow).
  assert (Hi3 : at_ m3 li (Vec d)) by (apply at_grow_old, at_grow).
  assert (Hm3 : at_ m3 lm (Vec (map (fun _ => n0) d))) by apply at_grow.
  assert (HT3 : contents m3 T = Some (Vec t)) by (eapply hframe_contents; eauto).
  destruct (m_sift_h_spec (m_sift_fuel c) c T t 0 0 ext li lm d (map (fun _ => n0) d) m3 HT3 Hi3 Hm3) as (m4 & F34 & R4).
  assert (F14 : hframe m1 m4) by (eapply hframe_trans; eauto).
  destruct (m_sift spl (m_sift_fuel c) c t 0 0 ext d (map (fun _ => n0) d)) as [[[[v n'] ext1] nf]|e2] eqn:E2; cbn [bind].
  2:{ exists m4. split; [eapply gframe_trans; [exact F1|apply hframe_gframe; auto]|]. apply (mbind_raise _ _ _ _ _ R4). }
  destruct R4 as (lv & R4 & Hv4). rewrite (mbind_ok _ _ _ _ _ R4).
  rewrite (mbind_copy_vec _ _ _ v (at_contents _ _ _ Hv4)).
  set (m5 := grow m4 (Vec v)). set (lk := length (heap m4)).
  assert (F15 : hframe m1 m5) by (eapply hframe_trans; [exact F14|apply hframe_grow]).
  assert (F5 : gframe [lr] m m5) by (eapply gframe_trans; [exact F1|apply hframe_gframe; auto]).
  assert (Hk5 : at_ m5 lk (Vec v)) by apply at_grow.
  assert (HE5 : entries_show m5 (hs ++ [MkHRow (MkArr lk Whole) ext1 n']) (rs ++ [MkRow v ext1 n'])).
  { apply entries_app; [eapply hframe_entries; eauto|]. split; [apply at_contents; exact Hk5|split; reflexivity]. }
  assert (Bk : (length (heap m1) <= lk)%nat) by (apply F14).
  assert (E1m : length (heap m1) = length (heap m)) by (cbn; apply set_nth_length).
  assert (Lk : (lr < lk)%nat) by (apply at_lt in Hr; lia).
  assert (HO5 : own b [lr] (hs ++ [MkHRow (MkArr lk Whole) ext1 n'])).
  { apply (own_app b [lr] hs _ m1 rs); auto; cbn [hr_imf base]; try lia. cbn. intros [Q|[]]; lia. }
  assert (EZ : zlen (hs ++ [MkHRow (MkArr lk Whole) ext1 n']) = zlen (rs ++ [MkRow v ext1 n'])).
  { unfold zlen. rewrite !app_length, (entries_length _ _ _ HE1). reflexivity. }
  rewrite EZ. destruct (zlen (rs ++ [MkRow v ext1 n']) =? k - 1).
  { exists m5. split; auto. eexists. split; [reflexivity|]. auto. }
  destruct nf. 2:{ exists m5. split; auto. eexists. split; [reflexivity|]. auto. }
  destruct (IH (MkArr lv Whole) v (hs ++ [MkHRow (MkArr lk Whole) ext1 n']) (rs ++ [MkRow v ext1 n']) ext1 d m5) as (m6 & F6 & R6); auto.
  { eapply gframe_contents; eauto. cbn. intuition congruence. }
  { eapply hframe_at; [exact F15|exact Hr1]. }
  { congruence. }
  { apply at_contents. apply at_grow_old. exact Hv4. }
  { apply m_sift_length in E2. congruence. }
  { destruct F5 as (L5 & _). lia. }
  exists m6. split; [eapply gframe_trans; eauto|]. exact R6.
Qed.

Lemma load_rows_ok (m : mem A) hs rs : entries_show m hs rs -> load_rows hs m = (Ok (map row_imf rs), m).
Proof.
  induction 1 as [|h r hs rs (E1 & _) HE IH]; [reflexivity|]. cbn [load_rows map].
  rewrite (mbind_load_vec _ _ _ _ E1), (mbind_ok _ _ _ _ _ IH). reflexivity.
Qed.

Lemma set_same {X} (l : list X) i x : nth_error l i = Some x -> set_nth l i x = l.
Proof. revert i. induction l as [|a l IH]; intros [|i] E; cbn in *; try congruence. rewrite IH; auto. Qed.

Lemma rescale_ok (m : mem A) hs rs : entries_show m hs rs -> (forall h, In h hs -> shown (hr_imf h) = Whole) ->
  rescale_rows hs m = (Ok tt, m).
Proof.
  induction 1 as [|h r hs rs (E1 & _) HE IH]; intros HW; [reflexivity|]. cbn [rescale_rows].
  rewrite (mbind_load_vec _ _ _ _ E1).
  assert (E2 : hr_imf h = MkArr (base (hr_imf h)) Whole).
  { rewrite <- (HW h) by (left; auto). destruct (hr_imf h); reflexivity. }
  assert (E3 : at_ m (base (hr_imf h)) (Vec (row_imf r))).
  { unfold at_. unfold contents in E1. rewrite (HW h) in E1 by (left; auto). destruct (nth_error _ _) as [[]|]; congruence. }
  rewrite E2 at 1. rewrite (mbind_assign_ok _ _ _ _ _ _ E3 (assign_all_eq _ _ eq_refl)).
  unfold set_cell. rewrite (set_same _ _ _ E3). destruct m as [hp oi orr]. cbn [heap o_imfs o_residue].
  apply IH. intros h' Hh. apply HW. right; auto.
Qed.

(** ** EMD.emd *)
Theorem m_emd_h_spec fuel c convS convT S T s t k m :
  contents m S = Some (Vec s) -> shows m T t ->
  exists m', untouched m m' /\
    match m_emd spl fuel c s t k with
    | Ok (rs, z) => exists hs, m_emd_h spl fuel c convS convT S T k m = (Ok (hs, z), m') /\
        entries_show m' hs rs /\ (forall h, In h hs -> created m m' (hr_imf h)) /\
        NoDup (map (fun h => base (hr_imf h)) hs)
    | Raise e => m_emd_h spl fuel c convS convT S T k m = (Raise e, m')
    end.
Proof.
  intros HS HT. unfold m_emd_h, m_emd. rewrite (mbind_load_vec _ _ _ s HS).
  set (tv := match t with Some t => t | None => map nofZ (zseq 0 (length s)) end).
  set (kv := match k with Some k => k | None => -1 end).
  assert (ST : exists T1 m1, (match T with Some T => ret T | None => alloc (Vec (map nofZ (zseq 0 (length s)))) end) m = (Ok T1, m1) /\
    hframe m m1 /\ contents m1 T1 = Some (Vec tv)).
  { destruct T as [T|], t as [t|]; cbn [shows] in HT; try tauto.
    - exists T, m. split; [reflexivity|]. split; [apply hframe_refl|exact HT].
    - eexists _, _. split; [reflexivity|]. split; [apply hframe_grow|]. apply at_contents, at_grow. }
  destruct ST as (T1 & m1 & ET & F1 & HT1). rewrite (mbind_ok _ _ _ _ _ ET).
  assert (U : forall (conv : bool) (a : arr) (v : vec) (m1 : mem A), contents m1 a = Some (Vec v) ->
     exists a' m2, unify conv a m1 = (Ok a', m2) /\ hframe m1 m2 /\ contents m2 a' = Some (Vec v)).
  { intros conv a v mm Ha. destruct conv; cbn [unify].
    - eexists _, _. split; [unfold copy_vec; rewrite (mbind_load_vec _ _ _ v Ha); apply alloc_eq|].
      split; [apply hframe_grow|]. apply at_contents, at_grow.
    - exists a, mm. split; [reflexivity|]. split; [apply hframe_refl|exact Ha]. }
  assert (HS1 : contents m1 S = Some (Vec s)) by (eapply hframe_contents; eauto).
  destruct (U convS S s m1 HS1) as (S2 & m2 & EU & F2 & HS2). rewrite (mbind_ok _ _ _ _ _ EU).
  assert (HT2 : contents m2 T1 = Some (Vec tv)) by (eapply hframe_contents; eauto).
  destruct (U convT T1 tv m2 HT2) as (T3 & m3 & EU3 & F3 & HT3). rewrite (mbind_ok _ _ _ _ _ EU3).
  assert (HS3 : contents m3 S2 = Some (Vec s)) by (eapply hframe_contents; eauto).
  rewrite (mbind_copy_vec _ _ _ s HS3). set (m4 := grow m3 (Vec s)).
  rewrite (mbind_copy_vec _ _ m4 s) by apply at_contents, at_grow.
  set (m5 := grow m4 (Vec s)). set (lr := length (heap m4)).
  assert (F35 : hframe m3 m5) by (eapply hframe_trans; apply hframe_grow).
  assert (HS5 : contents m5 S2 = Some (Vec s)) by (eapply hframe_contents; eauto).
  rewrite (mbind_copy_vec _ _ _ s HS5). set (m6 := grow m5 (Vec s)). set (lc := length (heap m5)).
  assert (F36 : hframe m3 m6) by (eapply hframe_trans; [exact F35|apply hframe_grow]).
  assert (HS6 : contents m6 S2 = Some (Vec s)) by (eapply hframe_contents; eauto).
  rewrite (mbind_load_vec _ _ _ s HS6), mbind_alloc.
  set (m7 := grow m6 (Vec (map (fun _ => n0) s))). set (lz := length (heap m6)).
  assert (Hr5 : at_ m5 lr (Vec s)) by apply at_grow.
  assert (Hr7 : at_ m7 lr (Vec s)) by (do 2 apply at_grow_old; exact Hr5).
  rewrite (mbind_copy_vec _ _ _ s (at_contents _ _ _ Hr7)). set (m8 := grow m7 (Vec s)).
  assert (F67 : hframe m6 m7) by apply hframe_grow. assert (F78 : hframe m7 m8) by apply hframe_grow. assert (F56 : hframe m5 m6) by apply hframe_grow.
  assert (F58 : hframe m5 m8) by (eapply hframe_trans; [exact F56|eapply hframe_trans; eauto]).
  assert (F38 : hframe m3 m8) by (eapply hframe_trans; [exact F35|exact F58]).
  assert (HT8 : contents m8 T3 = Some (Vec tv)) by (eapply hframe_contents; eauto).
  rewrite (mbind_load_vec _ _ _ tv HT8).
  assert (F03 : hframe m m3) by (eapply hframe_trans; [exact F1|eapply hframe_trans; eauto]).
  assert (F08 : hframe m m8) by (eapply hframe_trans; [exact F03|exact F38]).
  destruct (negb (Nat.eqb (length s) (length tv))) eqn:EL.
  { exists m8. split; [apply hframe_untouched; auto|]. reflexivity. }
  assert (B34 : length (heap m4) = Datatypes.S (length (heap m3))) by (cbn; rewrite app_length; cbn; lia).
  assert (B45 : length (heap m5) = Datatypes.S (length (heap m4))) by (cbn; rewrite app_length; cbn; lia).
  assert (B56 : length (heap m6) = Datatypes.S (length (heap m5))) by (cbn; rewrite app_length; cbn; lia).
  assert (Elr : (length (heap m) <= lr)%nat) by (unfold lr; destruct F03 as (L03 & _); lia).
  assert (Tlr : base T3 <> lr).
  { apply contents_live in HT3. unfold live in HT3. unfold lr. lia. }
  assert (Hz8 : at_ m8 lz (Vec (map (fun _ => n0) s))) by (eapply hframe_at; [exact F78|apply at_grow]).
  assert (Hc8 : at_ m8 lc (Vec s)) by (eapply hframe_at; [exact F78|eapply hframe_at; [exact F67|apply at_grow]]).
  assert (Hr8 : at_ m8 lr (Vec s)) by (eapply hframe_at; [exact F58|exact Hr5]).
  assert (Ncr : lc <> lr) by (unfold lc, lr; lia).
  clearbody lr lc lz.
  destruct (m_loop_h_spec fuel c T3 lr tv kv (length (heap m)) (length s) (MkArr lz Whole) (map (fun _ => n0) s) [] [] 0 s m8)
    as (m9 & F9 & R9); auto.
  { apply at_contents. exact Hz8. }
  { apply map_length. }
  { apply F08. }
  { constructor. }
  { split; [constructor|intros h []]. }
  assert (F09 : hframe m m9).
  { destruct F08 as (L1 & B1), F9 as (L2 & B2). split; [lia|]. intros l Hl. rewrite B2; [auto|lia|]. cbn. intros [Q|[]]. lia. }
  destruct (m_loop spl fuel c tv kv s (map (fun _ => n0) s) [] 0) as [[rs ext]|e] eqn:EM; cbn [bind].
  2:{ exists m9. split; [apply hframe_untouched; auto|]. apply (mbind_raise _ _ _ _ _ R9). }
  destruct R9 as (hs & R9 & HE9 & HO9). rewrite (mbind_ok _ _ _ _ _ R9).
  assert (Hc9 : at_ m9 lc (Vec s)) by (eapply gframe_at; eauto; cbn; intuition congruence).
  rewrite (mbind_load_vec _ _ _ s (at_contents _ _ _ Hc9)), (mbind_ok _ _ _ _ _ (load_rows_ok _ _ _ HE9)), mbind_alloc.
  set (res := vsub s (sum_rows (length s) (map row_imf rs))). set (m10 := grow m9 (Vec res)). set (ld := length (heap m9)).
  assert (Hd : at_ m10 ld (Vec res)) by apply at_grow.
  rewrite (mbind_load_vec _ _ _ res (at_contents _ _ _ Hd)).
  assert (F910 : hframe m9 m10) by apply hframe_grow.
  assert (F010 : hframe m m10) by (eapply hframe_trans; [exact F09|exact F910]).
  assert (HE10 : entries_show m10 hs rs) by (eapply hframe_entries; [exact F910|exact HE9]).
  set (hs' := if nltb (nlit 1 (10 ^ 10)) (nsum (map nabs res)) then hs ++ [MkHRow (MkArr ld Whole) ext 0] else hs).
  set (rs' := if nltb (nlit 1 (10 ^ 10)) (nsum (map nabs res)) then rs ++ [MkRow res ext 0] else rs).
  assert (G : entries_show m10 hs' rs' /\ own (length (heap m)) [lr] hs').
  { unfold hs', rs'. destruct (nltb _ _); auto. split.
    - apply entries_app; auto. split; [apply at_contents; exact Hd|split; reflexivity].
    - apply (own_app _ [lr] hs _ m9 rs); auto; cbn [hr_imf base]; unfold ld; destruct F09 as (L9 & _); try lia.
      cbn. intros [Q|[]]. assert (live m8 (MkArr lr Whole)) by (eapply contents_live; apply at_contents; eauto).
      unfold live in *. cbn [base] in *. destruct F9 as (L89 & _). lia. }
  destruct G as (HE' & HO').
  rewrite (mbind_ok _ _ _ _ _ (rescale_ok _ _ _ HE' (fun h Hh => proj1 (proj2 HO' h Hh)))).
  exists m10. split; [apply hframe_untouched; auto|]. exists hs'. split.
  { unfold ret. unfold zlen. rewrite (entries_length _ _ _ HE'). reflexivity. }
  split; [exact HE'|]. split; [|apply HO'].
  intros h Hh. split; [|eapply entries_live; eauto]. unfold live. destruct (proj2 HO' h Hh) as (_ & Q & _). lia.
Qed.

(** ** What the caller sees *)
Lemma m_call_ok fuel c convS convT S T s t k m rs z :
  contents m S = Some (Vec s) -> shows m T t -> m_emd spl fuel c s t k = Ok (rs, z) ->
  exists m' hs, m_emd_h spl fuel c convS convT S T k m = (Ok (hs, z), m') /\
    entries_show m' hs rs /\ untouched m m' /\
    (forall h, In h hs -> created m m' (hr_imf h)) /\
    (forall i j g h, nth_error hs i = Some g -> nth_error hs j = Some h -> i <> j -> apart (hr_imf g) (hr_imf h)).
Proof.
  intros HS HT E. destruct (m_emd_h_spec fuel c convS convT S T s t k m HS HT) as (m' & U & R).
  rewrite E in R. destruct R as (hs & R1 & R2 & R3 & R4). exists m', hs. repeat (split; auto).
  intros i j g h Hi Hj Hn C. apply Hn. unfold apart in *. rewrite NoDup_nth_error in R4. apply R4.
  - rewrite map_length. apply nth_error_Some. congruence.
  - rewrite !nth_error_map, Hi, Hj. cbn. congruence.
Qed.

Lemma m_call_raise fuel c convS convT S T s t k m e :
  contents m S = Some (Vec s) -> shows m T t -> m_emd spl fuel c s t k = Raise e ->
  exists m', m_emd_h spl fuel c convS convT S T k m = (Raise e, m') /\ untouched m m'.
Proof.
  intros HS HT E. destruct (m_emd_h_spec fuel c convS convT S T s t k m HS HT) as (m' & U & R).
  rewrite E in R. eauto.
Qed.

Lemma m_later_writes fuel c convS convT S T s t k m rs z m' hs i h ws :
  contents m S = Some (Vec s) -> shows m T t -> m_emd spl fuel c s t k = Ok (rs, z) ->
  m_emd_h spl fuel c convS convT S T k m = (Ok (hs, z), m') ->
  nth_error hs i = Some h ->
  Forall (fun w => ~ apart (target w) (hr_imf h)) ws ->
  (forall a, live m a -> contents (do_writes m' ws) a = contents m a) /\
  (forall j g r, nth_error hs j = Some g -> nth_error rs j = Some r -> i <> j ->
     contents (do_writes m' ws) (hr_imf g) = Some (Vec (row_imf r))).
Proof.
  intros HS HT E EH Hi HW. destruct (m_call_ok fuel c convS convT S T s t k m rs z HS HT E) as (m1 & hs1 & E1 & E2 & U & CR & AP).
  rewrite EH in E1. injection E1 as -> ->. split.
  - intros a La. rewrite do_writes_other; [apply U; auto|]. eapply Forall_impl; [|exact HW]. intros w Hw C.
    destruct (CR h (nth_error_In _ _ Hi)) as (Nh & _). apply Hw. unfold apart. intros C2. apply Nh. unfold live in *. congruence.
  - intros j g r Hg Hr Hn. rewrite do_writes_other.
    + clear -E2 Hg Hr. revert j Hg Hr. induction E2 as [|x y l l' (Q & _) Q2 IH]; intros [|j] Hg Hr; cbn in *; try discriminate; eauto.
      congruence.
    + eapply Forall_impl; [|exact HW]. intros w Hw C. apply Hw. intros C2. apply (AP i j h g Hi Hg Hn). congruence.
Qed.
End HeapMatlabProofs.
