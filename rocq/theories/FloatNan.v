(** * FloatNan: samples that are not finite. *)
From Flocq Require Import Core BinarySingleNaN.
From Coq Require Import Reals Lra Lia.
From Verif Require Import Py PyFacts Emd EmdProofs Jit JitProofs Matlab MatlabRun Eemd Ceemdan Image ImageUnit Spec Float64 FloatSpec Float64Proofs FloatEnsemble FloatImage EemdProofs CeemdanProofs.
Open Scope Z_scope.

Lemma bad_dec (x : f64) : finite x \/ ~ finite x.
Proof. unfold finite. destruct (is_finite x); auto. Qed.
Lemma leb_abs_finite (x : f64) : nleb (nabs x) (nlit 1 (10 ^ 8)) = true -> finite x.
Proof. intros E. apply leb_finite in E as [F _]; [exact F|reflexivity]. Qed.
Lemma allclose_finite (v : list f64) : allclose0 v = true -> Forall finite v.
Proof.
  unfold allclose0. rewrite forallb_forall. intros F. apply Forall_forall. intros x Hx. apply leb_abs_finite. auto.
Qed.
Lemma minus_bad (x y : f64) : ~ finite x -> ~ finite (nsub x y).
Proof. intros Hx F. apply Hx. apply (minus_finite x y F). Qed.
Lemma not_close (v : list f64) i : (i < length v)%nat -> ~ finite (nth i v n0) -> allclose0 v = false.
Proof.
  intros Hi Hb. destruct (allclose0 v) eqn:E; auto. exfalso. apply allclose_finite in E. rewrite Forall_forall in E.
  apply Hb, E, nth_In, Hi.
Qed.

(** ** EMD and JitEMD *)
Lemma emd_bad spl fuel c (S : list f64) T k o i : emd spl fuel c S T k = Ok o -> (i < length S)%nat ->
  ~ finite (nth i S n0) -> ~ finite (nth i (residue o) n0) /\ out o = imfs o ++ [residue o].
Proof.
  intros E Hi Hb. pose proof (f64_residue _ _ _ _ _ _ _ _ E Hi) as Er.
  pose proof (emd_shape _ _ _ _ _ _ _ E) as (_ & _ & Lr).
  assert (EO : out o = if allclose0 (residue o) then imfs o else imfs o ++ [residue o]).
  { apply emd_ok in E as (t & IMF & ext & _ & _ & _ & ->). reflexivity. }
  assert (Hr : ~ finite (nth i (residue o) n0)) by (rewrite Er; apply minus_bad; auto).
  split; auto. rewrite EO, (not_close _ i); auto. rewrite Lr. auto.
Qed.
Lemma finish_bad (S : list f64) IMF ext i : shaped (length S) IMF -> (i < length S)%nat -> ~ finite (nth i S n0) ->
  let o := emd_finish S IMF ext in out o = imfs o ++ [residue o] /\ length (residue o) = length S /\ ~ finite (nth i (residue o) n0).
Proof.
  intros HI Hi Hb. unfold emd_finish. set (M := if ext <=? 2 then removelast IMF else IMF). cbv zeta. cbn [out imfs residue].
  assert (HM : shaped (length S) M).
  { unfold M. destruct (ext <=? 2); auto. destruct IMF as [|a IMF']; [constructor|].
    assert (N : a :: IMF' <> []) by discriminate. pose proof (app_removelast_last [] N) as E. rewrite E in HI. apply Forall_app in HI. tauto. }
  assert (LS : length (sum_rows (length S) M) = length S) by (apply sum_rows_length; apply Forall_forall; exact HM).
  assert (Lr : length (vsub S (sum_rows (length S) M)) = length S) by (apply vsub_length; auto).
  assert (Hr : ~ finite (nth i (vsub S (sum_rows (length S) M)) n0)).
  { unfold vsub. rewrite (nth_map2 nsub _ _ i n0 n0 n0) by lia. apply minus_bad; auto. }
  split; auto. rewrite (not_close _ i); auto. rewrite Lr. auto.
Qed.
Lemma jit_bad spl fuel strict c (S : list f64) T k M i : (2 <= length S)%nat ->
  jit_emd spl fuel strict c S T k = Ok M -> (i < length S)%nat -> ~ finite (nth i S n0) ->
  exists l r, M = l ++ [r] /\ length r = length S /\ ~ finite (nth i r n0).
Proof.
  intros HL E Hi Hb. apply jit_emd_rows in E as (IMF & ext & HI & ->); auto.
  destruct (finish_bad S IMF ext i HI Hi Hb) as (H1 & H2 & H3). eauto.
Qed.

(** ** EMD_matlab *)
Definition bad_at (n i : nat) (x : list f64) : Prop := length x = n /\ ~ finite (nth i x n0).
Lemma broadcast_bad n i (x y z : list f64) : (2 <= n)%nat -> (i < n)%nat -> bad_at n i x -> broadcast2 nsub x y = Ok z -> bad_at n i z.
Proof.
  intros Hn Hi [Lx Hb] E. unfold broadcast2 in E. destruct (Nat.eqb_spec (length x) (length y)) as [Ey|Ny].
  - assert (Ez : z = map2 nsub x y) by congruence. subst z. split; [rewrite map2_length_eq; auto|].
    rewrite (nth_map2 nsub _ _ i n0 n0 n0) by lia. apply minus_bad; auto.
  - destruct x as [|a [|b x]]; [cbn in Lx; lia|cbn in Lx; lia|]. destruct y as [|u [|v y]]; try discriminate.
    assert (Ez : z = map (fun a => nsub a u) (a :: b :: x)) by congruence. subst z. split; [rewrite map_length; auto|].
    rewrite (nth_map_in (fun a => nsub a u) _ _ _ n0) by lia. apply minus_bad; auto.
Qed.
Lemma m_sift_bad spl n i fuel c T k n_h ext (imf mean : list f64) imf' k' ext' nf : (2 <= n)%nat -> (i < n)%nat ->
  bad_at n i imf -> m_sift spl fuel c T k n_h ext imf mean = Ok (imf', k', ext', nf) -> bad_at n i imf'.
Proof.
  intros Hn Hi. revert k n_h ext imf mean. induction fuel as [|fuel IH]; intros k n_h ext imf mean Hb; [discriminate|].
  cbn [m_sift]. destruct (_ <=? k); [intros E; congruence|].
  destruct (findExtrema T imf) as [e|]; [|discriminate]. cbn [bind].
  destruct (2 <? ext_no e); [|intros E; congruence].
  destruct (broadcast2 nsub imf _) as [x|] eqn:Ex; [|discriminate]. cbn [bind]. apply (broadcast_bad n i) in Ex; auto.
  destruct (extractMaxMinSpline spl c T x) as [[[u l]|]|]; [|intros E; cbn [bind] in E; congruence|discriminate]. cbn [bind].
  destruct (broadcast2 nadd u l) as [s|]; [|discriminate]. cbn [bind].
  destruct (_ <? _); [intros E; congruence|]. destruct (negb (m_FIXE c =? 0)); [destruct (_ <=? _); [intros E; congruence|apply IH; auto]|].
  destruct (findExtrema T x) as [e'|]; [|discriminate]. cbn [bind].
  destruct (negb (m_FIXE_H c =? 0)).
  - destruct (_ =? 1); [apply IH; auto|]. cbv zeta. destruct (m_FIXE_H c <=? _); [intros E; congruence|apply IH; auto].
  - destruct (stop_sifting _ _ _ _ _) as [f|]; [|discriminate]. cbn [bind]. destruct (f && _); [intros E; congruence|apply IH; auto].
Qed.
Lemma m_loop_keeps {A} `{Num A} (spl : spline_oracle A) fuel c T k Res imf rows ext rows' ext' :
  m_loop spl fuel c T k Res imf rows ext = Ok (rows', ext') -> exists more, rows' = rows ++ more.
Proof.
  revert Res imf rows ext. induction fuel as [|fuel IH]; intros Res imf rows ext; [discriminate|]. cbn [m_loop].
  destruct (broadcast2 nsub Res imf) as [R|]; [|discriminate]. cbn [bind].
  destruct (m_sift _ _ _ _ _ _ _ _ _) as [[[[x n] e] nf]|]; [|discriminate]. cbn [bind].
  destruct (_ =? _); [intros E; exists [MkRow x e n]; congruence|]. destruct nf; [|intros E; exists [MkRow x e n]; congruence].
  intros E. apply IH in E as [more ->]. rewrite <- app_assoc. eauto.
Qed.
Lemma m_bad spl fuel c (S : list f64) T k rows no i : (2 <= length S)%nat -> m_emd spl fuel c S T k = Ok (rows, no) ->
  (i < length S)%nat -> ~ finite (nth i S n0) ->
  exists r more, rows = r :: more /\ ~ finite (nth i (row_imf r) n0).
Proof.
  intros HL E Hi Hb. unfold m_emd in E. destruct (negb _); [discriminate E|]. set (TT := match T with Some _ => _ | None => _ end) in *.
  destruct (m_loop _ _ _ _ _ _ _ _ _) as [[M e]|] eqn:EM; [|discriminate E]. cbn [bind] in E.
  assert (ER : exists more, rows = M ++ more).
  { revert E. destruct (nltb _ _); intros E; [exists [MkRow (vsub S (sum_rows (length S) (map row_imf M))) e 0]|exists []; rewrite app_nil_r]; congruence. }
  destruct ER as [m1 ER]. clear E. destruct fuel as [|fuel]; [discriminate EM|]. cbn [m_loop] in EM.
  destruct (broadcast2 nsub S _) as [R|] eqn:EB; [|discriminate EM]. cbn [bind] in EM.
  apply (broadcast_bad (length S) i) in EB; auto; [|split; auto].
  destruct (m_sift _ _ _ _ _ _ _ _ _) as [[[[x n] e'] nf]|] eqn:Es; [|discriminate EM]. cbn [bind] in EM.
  apply (m_sift_bad spl (length S) i) in Es as [_ Hx]; auto. cbn [app] in EM.
  assert (EM' : exists m2, M = MkRow x e' n :: m2).
  { revert EM. destruct (_ =? _); [intros EM; exists []; congruence|]. destruct nf; [|intros EM; exists []; congruence].
    intros EM. apply m_loop_keeps in EM as [m2 ->]. exists m2. reflexivity. }
  destruct EM' as [m2 ->]. exists (MkRow x e' n), (m2 ++ m1). rewrite ER. split; auto.
Qed.

(** ** EEMD, CEEMDAN *)
Lemma eemd_bad {G D} (gen : generator f64 G) (dec : decomposer f64 D) c o S T k E o' :
  eemd gen dec c o S T k = (Ok E, o') -> shaped (length S) E ->
  exists r, eemd_imfs_and_residue o' = Ok (E, r) /\ length r = length S /\
  forall i, (i < length S)%nat -> ~ finite (nth i S n0) -> ~ finite (nth i r n0).
Proof.
  intros He Hs. destruct (eemd_float _ _ _ _ _ _ _ _ _ He Hs) as (r & H1 & H2 & H3). exists r. split; auto. split; auto.
  intros i Hi Hb F. apply Hb. apply (H3 i Hi F).
Qed.
Lemma some_bad (C : list (list f64)) i : ~ (forall r, In r C -> finite (nth i r n0)) -> exists r, In r C /\ ~ finite (nth i r n0).
Proof.
  induction C as [|r C IH]; intros H; [exfalso; apply H; intros r []|].
  destruct (bad_dec (nth i r n0)) as [F|F]; [|exists r; split; [left; auto|auto]].
  destruct IH as (x & Hx & Hb); [|exists x; split; [right; auto|auto]].
  intros H'. apply H. intros y [<-|Hy]; auto.
Qed.
Lemma ceemdan_bad {G} (gen : generator f64 G) std emd_of arrival c o S T k C o' i :
  ceemdan gen std emd_of arrival c o S T k = (Ok C, o') -> (i < length S)%nat -> ~ finite (nth i S n0) ->
  exists r, In r C /\ ~ finite (nth i r n0).
Proof.
  intros E Hi Hb. apply some_bad. intros F. apply Hb. apply (ceemdan_float _ _ _ _ _ _ _ _ _ _ _ i E Hi F).
Qed.
Lemma ceemdan_std_bad {G} (gen : generator f64 G) std emd_of arrival c o S T k C o' :
  ceemdan gen std emd_of arrival c o S T k = (Ok C, o') -> ~ finite (std S) ->
  forall r a, In r C -> In a r -> ~ finite a.
Proof.
  intros E Hs r a Hr Ha. unfold ceemdan in E. destruct (all_noises _ _ _ _) as [[nz|] g]; [|discriminate E]. cbn [bind] in E.
  destruct (ceemdan_rows _ _ _ _ _ _ _ _) as [M|]; [|discriminate E]. cbn [bind] in E.
  apply pair_equal_spec in E as [E _]. assert (EC : C = map (map (fun x => nmul x (std S))) M) by congruence. subst C.
  apply in_map_iff in Hr as (x & <- & _). apply in_map_iff in Ha as (y & <- & _). intros F. apply mult_finite in F. apply Hs. apply F.
Qed.

(** ** Images *)
Lemma bemd_bad rec f c fuel (image : list (list f64)) k rows n m i j :
  bemd rec f c fuel image k = Ok rows -> of_shape n m image -> Forall (of_shape n m) rows -> (i < n)%nat -> (j < m)%nat ->
  ~ finite (grey image i j) -> exists l r, rows = l ++ [r] /\ ~ finite (grey r i j).
Proof.
  unfold bemd. intros E Hx HR Hi Hj Hb. destruct (modes2 _ _ _ _ _ _) as [IMF|]; [|discriminate E]. cbn [bind] in E.
  assert (ER : rows = with_residue image IMF) by congruence. clear E.
  assert (HI : Forall (of_shape n m) IMF).
  { rewrite ER in HR. unfold with_residue in HR. destruct (forallb _ _); auto. apply Forall_app in HR. tauto. }
  assert (Hs : of_shape n m (isum image IMF)).
  { unfold isum. assert (H0 : of_shape n m (izeros image)) by (apply shape_imap; auto). revert H0. generalize (izeros image).
    clear - HI. induction HI as [|x l Hx _ IH]; intros acc Ha; auto. cbn [fold_left]. apply IH. apply shape_imap2; auto. }
  set (r := isub image (isum image IMF)) in *.
  assert (Hr : of_shape n m r) by (apply shape_imap2; auto).
  assert (Gr : ~ finite (grey r i j)).
  { unfold r. unfold isub. rewrite (grey_imap2 n m) by auto. apply minus_bad; auto. }
  exists IMF, r. split; auto. rewrite ER. unfold with_residue. fold r.
  destruct (forallb allclose0 r) eqn:Ec; auto. exfalso. apply Gr. rewrite forallb_forall in Ec.
  destruct Hr as [Ln Lm]. assert (Hin : In (nth i r []) r) by (apply nth_In; congruence).
  specialize (Ec _ Hin). apply allclose_finite in Ec. rewrite Forall_forall in Ec. apply Ec. unfold grey. apply nth_In.
  rewrite Forall_forall in Lm. rewrite Lm; auto.
Qed.

(** A NaN passes through [np.min] and [np.max]; an infinity is one of the two. *)
Lemma nan_self (x : f64) : not_a_number x = true <-> x = B754_nan.
Proof.
  split; [|intros ->; reflexivity]. intros H. destruct x as [s|s| |s m e Hb]; auto; exfalso.
  - destruct s; discriminate H.
  - destruct s; discriminate H.
  - assert (F : finite (B754_finite s m e Hb)) by reflexivity. rewrite (not_nan_finite _ F) in H. discriminate H.
Qed.
Lemma find_nan (l : list f64) : In B754_nan l -> find not_a_number l = Some B754_nan.
Proof.
  induction l as [|x l IH]; [intros []|]. intros [->|Hx]; [reflexivity|]. cbn [find].
  destruct (not_a_number x) eqn:E; [apply nan_self in E; subst; reflexivity|auto].
Qed.
Lemma np_min_nan (l : list f64) : In B754_nan l -> np_min l = Ok B754_nan.
Proof. intros H. destruct l as [|x l]; [destruct H|]. unfold np_min. rewrite find_nan by auto. reflexivity. Qed.
Lemma np_max_nan (l : list f64) : In B754_nan l -> np_max l = Ok B754_nan.
Proof. intros H. destruct l as [|x l]; [destruct H|]. unfold np_max. rewrite find_nan by auto. reflexivity. Qed.
Definition pinf : f64 := B754_infinity false.
Definition minf : f64 := B754_infinity true.
Lemma below_pinf (x : f64) : nltb pinf x = false.
Proof. destruct x as [[]|[]| |[] m e Hb]; reflexivity. Qed.
Lemma above_minf (x : f64) : nltb x minf = false.
Proof. destruct x as [[]|[]| |[] m e Hb]; reflexivity. Qed.
Lemma lt_pinf (x : f64) : x <> B754_nan -> x = pinf \/ nltb x pinf = true.
Proof. destruct x as [[]|[]| |[] m e Hb]; intros H; try (right; reflexivity); try (left; reflexivity). congruence. Qed.
Lemma minf_lt (x : f64) : x <> B754_nan -> x = minf \/ nltb minf x = true.
Proof. destruct x as [[]|[]| |[] m e Hb]; intros H; try (right; reflexivity); try (left; reflexivity). congruence. Qed.
Lemma fold_max_pinf (l : list f64) (x : f64) : x <> B754_nan -> ~ In B754_nan l -> In pinf (x :: l) ->
  fold_left (fun m y => if nltb m y then y else m) l x = pinf.
Proof.
  revert x. induction l as [|y l IH]; intros x Hx Hl Hin; [destruct Hin as [->|[]]; reflexivity|]. cbn [fold_left].
  assert (Hy : y <> B754_nan) by (intros ->; apply Hl; left; auto).
  apply IH; [destruct (nltb x y); [exact Hy|exact Hx]|intros H; apply Hl; right; auto|]. destruct Hin as [->|[->|Hin]].
  - rewrite below_pinf. left. auto.
  - destruct (lt_pinf x Hx) as [->| ->]; [rewrite below_pinf|]; left; auto.
  - right. auto.
Qed.
Lemma fold_min_minf (l : list f64) (x : f64) : x <> B754_nan -> ~ In B754_nan l -> In minf (x :: l) ->
  fold_left (fun m y => if nltb y m then y else m) l x = minf.
Proof.
  revert x. induction l as [|y l IH]; intros x Hx Hl Hin; [destruct Hin as [->|[]]; reflexivity|]. cbn [fold_left].
  assert (Hy : y <> B754_nan) by (intros ->; apply Hl; left; auto).
  apply IH; [destruct (nltb y x); [exact Hy|exact Hx]|intros H; apply Hl; right; auto|]. destruct Hin as [->|[->|Hin]].
  - rewrite above_minf. left. auto.
  - destruct (minf_lt x Hx) as [->| ->]; [rewrite above_minf|]; left; auto.
  - right. auto.
Qed.
Lemma no_nan_find (l : list f64) : ~ In B754_nan l -> find not_a_number l = None.
Proof.
  induction l as [|x l IH]; intros H; [reflexivity|]. cbn [find]. destruct (not_a_number x) eqn:E.
  - apply nan_self in E. exfalso. apply H. left. auto.
  - apply IH. intros Hx. apply H. right. auto.
Qed.
Lemma in_nan_dec (l : list f64) : In B754_nan l \/ ~ In B754_nan l.
Proof.
  induction l as [|x l IH]; [right; intros []|]. destruct IH as [|IH]; [left; right; auto|].
  destruct x as [s|s| |s m e Hb]; try (left; left; reflexivity); right; intros [Hx|Hx]; (discriminate Hx || auto).
Qed.
Lemma extremes_bad (l : list f64) lo hi x : np_min l = Ok lo -> np_max l = Ok hi -> In x l -> ~ finite x -> ~ finite lo \/ ~ finite hi.
Proof.
  intros E1 E2 Hx Hb. destruct (in_nan_dec l) as [Hn|Hn].
  - rewrite np_min_nan in E1 by auto. left. assert (lo = B754_nan) by congruence. subst. discriminate.
  - destruct l as [|y l]; [destruct Hx|]. unfold np_min in E1. unfold np_max in E2. rewrite no_nan_find in E1, E2 by auto.
    assert (Hy : y <> B754_nan) by (intros ->; apply Hn; left; auto). assert (Hl : ~ In B754_nan l) by (intros H; apply Hn; right; auto).
    destruct x as [s|s| |s m e B]; [exfalso; apply Hb; reflexivity| |exfalso; auto|exfalso; apply Hb; reflexivity].
    destruct s.
    + rewrite fold_min_minf in E1 by auto. left. assert (lo = minf) by congruence. subst. discriminate.
    + rewrite fold_max_pinf in E2 by auto. right. assert (hi = pinf) by congruence. subst. discriminate.
Qed.
Lemma emd2d_bad sbs c fuel (image : list (list f64)) k rows x : emd2d sbs c fuel image k = Ok rows ->
  In x (concat image) -> ~ finite x ->
  forall im row a, In im rows -> In row im -> In a row -> ~ finite a.
Proof.
  unfold emd2d. intros E Hx Hb.
  destruct (np_min (concat image)) as [lo|] eqn:Elo; [|discriminate E]. cbn [bind] in E.
  destruct (np_max (concat image)) as [hi|] eqn:Ehi; [|discriminate E]. cbn [bind] in E.
  assert (Hs : ~ finite (nsub hi lo)).
  { intros F. apply minus_finite in F. destruct (extremes_bad _ _ _ _ Elo Ehi Hx Hb) as [H|H]; apply H; apply F. }
  set (s := nsub hi lo) in *. destruct (neqb s n0); [discriminate E|].
  destruct (modes2 _ _ _ _ _ _) as [IMF|]; [|discriminate E]. cbn [bind] in E.
  set (W := map (imap (fun y => nmul y s)) _) in *.
  assert (HW : forall im row a, In im W -> In row im -> In a row -> ~ finite a).
  { intros im row a H1 H2 H3 F. unfold W in H1. apply in_map_iff in H1 as (z & <- & _). unfold imap in H2.
    apply in_map_iff in H2 as (q & <- & _). apply in_map_iff in H3 as (p & <- & _). apply mult_finite in F. apply Hs. apply F. }
  clearbody W. assert (ER : rows = on_last (imap (fun y => nadd y lo)) W) by congruence. clear E. subst rows.
  intros im row a H1 H2 H3. unfold on_last in H1. destruct (rev W) as [|z q] eqn:EW; [destruct H1|].
  apply in_rev in H1. assert (Hq : forall y, In y (z :: q) -> In y W) by (intros y Hy; apply in_rev; rewrite EW; auto).
  destruct H1 as [<-|H1]; [|apply (HW im row a); auto; apply Hq; right; auto].
  unfold imap in H2. apply in_map_iff in H2 as (y & <- & Hy). apply in_map_iff in H3 as (b & <- & Hb').
  intros F. apply plus_finite in F as [F _]. apply (HW z y b) in F; auto. apply Hq. left. auto.
Qed.

(** One NaN pixel: EMD2D's result is two images of NaN. *)
Definition blank (image : list (list f64)) : list (list f64) := imap (fun _ => B754_nan) image.
Lemma imap2_same (f : f64 -> f64 -> f64) g h (x : list (list f64)) : imap2 f (imap g x) (imap h x) = imap (fun a => f (g a) (h a)) x.
Proof.
  unfold imap2, imap. induction x as [|r x IH]; [reflexivity|]. cbn [map map2]. rewrite IH. f_equal.
  clear. induction r as [|a r IH]; [reflexivity|]. cbn [map map2]. rewrite IH. reflexivity.
Qed.
Lemma imap_imap (f g : f64 -> f64) x : imap f (imap g x) = imap (fun a => f (g a)) x.
Proof. unfold imap. rewrite map_map. apply map_ext. intros r. apply map_map. Qed.
Lemma imap_ext (f g : f64 -> f64) x : (forall a, f a = g a) -> imap f x = imap g x.
Proof. intros H. apply map_ext. intros r. apply map_ext. auto. Qed.
Lemma isub_blank g x : isub (blank x) (imap g x) = blank x.
Proof. unfold isub, blank. rewrite imap2_same. apply imap_ext. reflexivity. Qed.
Lemma isum_blank g x : isum (imap g x) [blank x] = blank x.
Proof.
  unfold isum, iadd, izeros, blank. cbn [fold_left]. rewrite imap_imap, imap2_same. apply imap_ext. reflexivity.
Qed.
Lemma imap_blank f x : f B754_nan = B754_nan -> imap f (blank x) = blank x.
Proof. intros E. unfold blank. rewrite imap_imap. apply imap_ext. intros _. exact E. Qed.
Lemma imap_id (x : list (list f64)) : imap (fun a => a) x = x.
Proof. unfold imap. rewrite <- (map_id x) at 2. apply map_ext. intros r. apply map_id. Qed.
Lemma no_peaks n m x : of_shape n m x -> peaks (blank x) = [].
Proof.
  intros [Ln Lm]. unfold peaks. set (g := grid _ _). clearbody g. induction g as [|[i j] g IH]; [reflexivity|]. cbn [filter].
  destruct (is_peak (blank x) (i, j)) eqn:E; auto. exfalso. unfold is_peak in E. cbn [fst snd] in E. apply andb_prop in E as [E1 E2].
  unfold inside in E1. apply andb_prop in E1 as [A B]. apply andb_prop in A as [_ A]. apply andb_prop in B as [_ B].
  apply Nat.ltb_lt in A, B. unfold nrows in A. unfold blank, imap in A. rewrite map_length in A.
  assert (Hp : pix (blank x) i j = B754_nan).
  { unfold pix, blank, imap. change (@nil f64) with (map (fun _ : f64 => B754_nan : f64) []) at 1. rewrite map_nth.
    assert (Hj : (j < length (nth i x []))%nat).
    { rewrite Forall_forall in Lm. rewrite (Lm (nth i x [])) by (apply nth_In; eapply Nat.lt_trans; [|exact A]; lia). unfold ncols in B.
      destruct x as [|r x]; [cbn in A; lia|]. cbn in B. rewrite map_length in B. pose proof (Lm r (or_introl eq_refl)) as Lr.
      apply Nat.lt_trans with (j + 1)%nat; [lia|]. rewrite <- Lr. exact B. }
    rewrite (nth_map_in (fun _ : f64 => B754_nan : f64) _ _ _ n0) by exact Hj. reflexivity. }
  rewrite Hp in E2. destruct (largest _) as [[]|[]| |[] ? ? ?]; discriminate E2.
Qed.
Lemma combine_nan (l : list f64) : In B754_nan l -> In ((B754_nan : f64), (B754_nan : f64)) (combine l (map (fun _ => B754_nan) l)).
Proof.
  induction l as [|a l IH]; intros Hx; [destruct Hx|]. cbn [map combine].
  destruct Hx as [->|Hx]; [left; reflexivity|right; auto].
Qed.
Lemma emd2d_nan sbs c fuel (image : list (list f64)) k n m : of_shape n m image -> In B754_nan (concat image) ->
  1 <= MAX_ITERATION2 c -> emd2d sbs c (Datatypes.S fuel) image k = Ok [blank image; blank image].
Proof.
  intros Hs Hx Hm. unfold emd2d. rewrite np_min_nan, np_max_nan by auto. cbn [bind].
  set (s := nsub (B754_nan : f64) B754_nan). replace (neqb s n0) with false by reflexivity.
  assert (Ex : imap (fun y => ndiv (nsub y (B754_nan : f64)) s) image = blank image).
  { apply imap_ext. intros a. destruct a as [[]|[]| |[] ? ? ?]; reflexivity. }
  rewrite Ex. cbn [modes2].
  assert (E0 : isub (blank image) (isum (blank image) []) = blank image).
  { unfold isum. cbn [fold_left]. unfold izeros. unfold blank at 2. rewrite imap_imap. apply isub_blank. }
  rewrite E0. destruct (Z.to_nat (MAX_ITERATION2 c)) as [|k0] eqn:EK; [lia|]. cbn [sift2 find_extrema2].
  rewrite imap_blank by reflexivity. rewrite (no_peaks n m) by auto. cbn [zlen length Z.of_nat Z.ltb Z.compare andb bind app].
  assert (EI : isum image [blank image] = blank image).
  { rewrite <- (imap_id image) at 1. apply isum_blank. }
  assert (EC : iallclose rtol_default image (blank image) = false).
  { unfold iallclose. destruct (forallb _ _) eqn:E; auto. exfalso. rewrite forallb_forall in E.
    unfold blank, imap in E. rewrite <- concat_map in E. specialize (E _ (combine_nan _ Hx)). discriminate E. }
  rewrite EI, EC. cbn [orb].
  assert (EW : with_residue (blank image) [blank image] = [blank image; blank image]).
  { assert (ER : isub (blank image) (isum (blank image) [blank image]) = blank image).
    { replace (isum (blank image) [blank image]) with (blank image) by (symmetry; apply (isum_blank (fun _ => B754_nan))).
      apply (isub_blank (fun _ => B754_nan)). }
    unfold with_residue. rewrite ER.
    destruct (forallb allclose0 (blank image)) eqn:E; [|reflexivity]. exfalso. rewrite forallb_forall in E.
    apply in_concat in Hx as (r & Hr & Hn). assert (Hr' : In (map (fun _ : f64 => B754_nan : f64) r) (blank image)) by (apply in_map; auto).
    apply E, allclose_finite in Hr'. rewrite Forall_forall in Hr'.
    assert (F : finite B754_nan) by (apply Hr', in_map_iff; exists B754_nan; auto). discriminate F. }
  destruct ((0 <? k) && (k <=? _)); cbn [bind]; rewrite EW; cbn [map on_last rev app]; unfold on_last; cbn [rev app];
    rewrite !imap_blank by reflexivity; reflexivity.
Qed.
