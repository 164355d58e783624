(** * VisUnits: frequencies scale with the unit of time and do not depend on the level (C117). *)
From Verif Require Import PyFacts QcFacts Spec Vis Compact VisUnitsSpec.
From Coq Require Import QArith Qcanon.
Open Scope Z_scope.

Notation vec := (list Qc).
Notation sc k := (map (Qcmult k)).

Lemma zlen_mapped {X Y} (f : X -> Y) l : zlen (map f l) = zlen l.
Proof. unfold zlen. rewrite map_length. reflexivity. Qed.
Lemma outcome_bind {X Y Z' W} (f : X -> Y) (g : Z' -> W) (r : res X) (k : X -> res Z') (k' : Y -> res W) :
  (forall x, k' (f x) = outcome g (k x)) -> bind (outcome f r) k' = outcome g (bind r k).
Proof. intros E. destruct r; cbn; auto. Qed.
Lemma py_get_map {X Y} (f : X -> Y) l i : py_get (map f l) i = outcome f (py_get l i).
Proof.
  unfold py_get. rewrite zlen_mapped. destruct (_ <? 0); [reflexivity|].
  rewrite nth_error_map. destruct (nth_error l _); reflexivity.
Qed.
Lemma py_slice_map {X Y} (f : X -> Y) l a b : py_slice (map f l) a b = map f (py_slice l a b).
Proof. unfold py_slice. rewrite zlen_mapped, skipn_map, firstn_map. reflexivity. Qed.

Lemma replace_map k i v (l : vec) : replace_at i (k * v)%Qc (sc k l) = sc k (replace_at i v l).
Proof. revert i. induction l as [|x l IH]; intros [|i]; cbn; auto. rewrite IH. reflexivity. Qed.
Lemma py_set_map k (l : vec) i v : py_set (sc k l) i (k * v)%Qc = outcome (sc k) (py_set l i v).
Proof. unfold py_set. rewrite zlen_mapped. destruct (_ || _); [reflexivity|]. rewrite replace_map. reflexivity. Qed.
Definition scu (k : Qc) (us : list (Z * Qc)) : list (Z * Qc) := map (fun u => (fst u, k * snd u)%Qc) us.
Lemma py_sets_map k us : forall r : res vec,
  fold_left (fun r u => let! l := r in py_set l (fst u) (snd u)) (scu k us) (outcome (sc k) r) =
  outcome (sc k) (fold_left (fun r u => let! l := r in py_set l (fst u) (snd u)) us r).
Proof.
  induction us as [|u us IH]; intros r; cbn [scu map fold_left]; [reflexivity|]. fold (scu k us). rewrite <- IH. f_equal.
  apply outcome_bind. intros l. apply py_set_map.
Qed.
Lemma sets_map k (l : vec) us : py_sets (sc k l) (scu k us) = outcome (sc k) (py_sets l us).
Proof. exact (py_sets_map k us (Ok l)). Qed.
Lemma set_slice_map k (l : vec) lo hi v : py_set_slice (sc k l) lo hi (sc k v) = outcome (sc k) (py_set_slice l lo hi v).
Proof.
  unfold py_set_slice. rewrite !zlen_mapped. destruct (_ =? _); [|reflexivity]. cbn [outcome].
  rewrite !map_app, firstn_map, skipn_map. reflexivity.
Qed.
Lemma zeros_map k n : @vzeros Qc _ n = sc k (@vzeros Qc _ n).
Proof.
  unfold vzeros. induction n as [|n IH]; [reflexivity|]. cbn [repeat map]. rewrite <- IH. f_equal.
  change (0 = k * 0)%Qc. ring.
Qed.
Lemma map2_map k (f : Qc -> Qc -> Qc) (x y : vec) : (forall a b, f (k * a)%Qc (k * b)%Qc = k * f a b)%Qc ->
  map2 f (sc k x) (sc k y) = sc k (map2 f x y).
Proof. intros E. revert y. induction x as [|a x IH]; intros [|b y]; cbn; auto. rewrite E, IH. reflexivity. Qed.
Lemma map_map_sc k (f g : Qc -> Qc) (x : vec) : (forall a, f (k * a) = k * g a)%Qc -> map f (sc k x) = sc k (map g x).
Proof. intros E. rewrite !map_map. apply map_ext. exact E. Qed.

(** Elimination. *)
Lemma dp_rest_map k : forall cps prev (r r' : list (Qc * Qc * Qc)),
  r' = map (fun q => (fst q, k * snd q)%Qc) r ->
  dp_rest (k * prev)%Qc cps r' = sc k (dp_rest prev cps r).
Proof.
  induction cps as [|cp cps IH]; intros prev r r' ->; [reflexivity|].
  destruct r as [|[[a b] d] r]; [reflexivity|]. cbn [map fst snd dp_rest].
  assert (E : ndiv (nsub (k * d)%Qc (nmul a (k * prev)%Qc)) (nsub b (nmul a cp)) =
              (k * ndiv (nsub d (nmul a prev)) (nsub b (nmul a cp)))%Qc).
  { change (((k * d) - a * (k * prev)) / (b - a * cp) = k * ((d - a * prev) / (b - a * cp)))%Qc. unfold Qcdiv. ring. }
  rewrite E. f_equal. apply IH. reflexivity.
Qed.
Lemma back_map k : forall dc : list (Qc * Qc), back (map (fun q => (k * fst q, snd q)%Qc) dc) = sc k (back dc).
Proof.
  induction dc as [|[d c] dc IH]; [reflexivity|]. cbn [map fst snd back]. rewrite IH.
  destruct (back dc) as [|x xs]; [reflexivity|]. cbn [map]. f_equal.
  change (k * d - c * (k * x) = k * (d - c * x))%Qc. ring.
Qed.
Lemma combine_map_r {X} k (x : list X) (d : vec) : combine x (sc k d) = map (fun q => (fst q, k * snd q)%Qc) (combine x d).
Proof. revert d. induction x as [|a x IH]; intros [|b d]; cbn; auto. rewrite IH. reflexivity. Qed.
Lemma combine_map_l {X} k (x : list X) (d : vec) : combine (sc k d) x = map (fun q => (k * fst q, snd q)%Qc) (combine d x).
Proof. revert x. induction d as [|a d IH]; intros [|b x]; cbn; auto. rewrite IH. reflexivity. Qed.
Lemma tdma_map k (a b c d : vec) : TDMAsolver a b c (sc k d) = outcome (sc k) (TDMAsolver a b c d).
Proof.
  unfold TDMAsolver. rewrite map_length. destruct (_ && _ && _); [|reflexivity].
  destruct a as [|a0 a], b as [|b0 b], c as [|c0 c], d as [|d0 d]; cbn [map]; try reflexivity.
  assert (E : ndiv (k * d0)%Qc b0 = (k * ndiv d0 b0)%Qc) by (change (k * d0 / b0 = k * (d0 / b0))%Qc; unfold Qcdiv; ring).
  rewrite E. rewrite (dp_rest_map k _ _ (combine (combine a b) d)) by apply combine_map_r.
  cbv zeta. cbn [outcome]. f_equal. rewrite <- back_map. f_equal. rewrite <- combine_map_l. reflexivity.
Qed.

(** The filter is linear; the derivative scales with the step. *)
Ltac toQc := repeat match goal with
  | |- context [@ndiv Qc _ ?a ?b] => change (@ndiv Qc _ a b) with (a / b)%Qc
  | |- context [@nmul Qc _ ?a ?b] => change (@nmul Qc _ a b) with (a * b)%Qc
  | |- context [@nadd Qc _ ?a ?b] => change (@nadd Qc _ a b) with (a + b)%Qc
  | |- context [@nsub Qc _ ?a ?b] => change (@nsub Qc _ a b) with (a - b)%Qc
  | |- context [@nopp Qc _ ?a] => change (@nopp Qc _ a) with (- a)%Qc
  end; unfold Qcdiv.
Lemma cons_upd (i : Z) (x y : Qc) l m : x = y -> l = m -> (i, x) :: l = (i, y) :: m.
Proof. congruence. Qed.
Lemma filt6_rhs_map k (f : vec) alpha : filt6_rhs (sc k f) alpha = outcome (sc k) (filt6_rhs f alpha).
Proof.
  unfold filt6_rhs. rewrite zlen_mapped, map_length, !py_slice_map, !py_get_map.
  cbv zeta.
  assert (E : forall c x y, map2 (fun a b => nmul (nmul c nhalf) (nadd a b)) (sc k x) (sc k y) =
              sc k (map2 (fun a b => nmul (nmul c nhalf) (nadd a b)) x y)).
  { intros c x y. apply map2_map. intros. toQc. ring. }
  rewrite !E. unfold vadd, vscale.
  assert (E1 : forall c x, map (nmul c) (sc k x) = sc k (map (nmul c) x)).
  { intros c x. apply map_map_sc. intros. toQc. ring. }
  rewrite E1.
  rewrite !(map2_map k nadd) by (intros; toQc; ring).
  rewrite (zeros_map k) at 1. rewrite set_slice_map.
  apply outcome_bind; intros rhs. do 10 (apply outcome_bind; intros ?).
  rewrite <- sets_map. f_equal. unfold scu. cbn [map fst snd]. repeat (apply cons_upd; [toQc; ring|]). reflexivity.
Qed.
Lemma filt6_map k (f : vec) alpha : filt6 (sc k f) alpha = outcome (sc k) (filt6 f alpha).
Proof.
  unfold filt6. rewrite filt6_rhs_map, map_length. apply outcome_bind. intros rhs. cbv zeta.
  destruct (py_sets _ _) as [Da|]; [|reflexivity]. cbn [bind]. destruct (py_sets _ _) as [Dc|]; [|reflexivity]. cbn [bind].
  apply tdma_map.
Qed.
Lemma pade6_rhs_step c (v : vec) h : pade6_rhs v (c * h)%Qc = outcome (sc (/ c)%Qc) (pade6_rhs v h).
Proof.
  unfold pade6_rhs. cbv zeta.
  assert (E : forall a (x : vec), map (fun x => nmul x (ndiv a (c * h)%Qc)) x = sc (/ c)%Qc (map (fun x => nmul x (ndiv a h)) x)).
  { intros a x. rewrite map_map. apply map_ext. intros y. toQc. rewrite Qcinv_mult_distr. ring. }
  rewrite !E. unfold vadd. rewrite (map2_map (/ c)%Qc nadd) by (intros; toQc; ring).
  rewrite (zeros_map (/ c)%Qc) at 1. rewrite set_slice_map.
  apply outcome_bind; intros rhs. do 12 (match goal with |- bind ?r _ = _ => destruct r; [cbn [bind]|reflexivity] end).
  rewrite <- sets_map. f_equal. unfold scu. cbn [map fst snd]. repeat (apply cons_upd; [toQc; rewrite Qcinv_mult_distr; ring|]). reflexivity.
Qed.
Lemma pade6_step c (v : vec) h : pade6 v (c * h)%Qc = outcome (sc (/ c)%Qc) (pade6 v h).
Proof.
  unfold pade6. rewrite pade6_rhs_step. apply outcome_bind. intros rhs. cbv zeta.
  destruct (py_sets _ _) as [Da|]; [|reflexivity]. cbn [bind]. destruct (py_sets _ _) as [Dc|]; [|reflexivity]. cbn [bind].
  apply tdma_map.
Qed.

Lemma maybe_filter_map k alpha (f : vec) : maybe_filter alpha (sc k f) = outcome (sc k) (maybe_filter alpha f).
Proof. destruct alpha as [a|]; [apply filt6_map|reflexivity]. Qed.
Lemma mapM_outcome {X Y X' Y'} (h : X -> X') (g : Y -> Y') (F : X -> res Y) (F' : X' -> res Y') l :
  (forall x, In x l -> F' (h x) = outcome g (F x)) -> mapM F' (map h l) = outcome (map g) (mapM F l).
Proof.
  induction l as [|x l IH]; intros E; [reflexivity|]. cbn [map mapM]. rewrite (E x) by (left; reflexivity).
  apply outcome_bind. intros y. rewrite IH by (intros z Hz; apply E; right; exact Hz). apply outcome_bind. reflexivity.
Qed.

(** ** The clock *)
Section Clock.
Variables c d : Qc.
Notation per := (sc (/ c)%Qc).

Lemma inst_freq_clock pi t high alpha (phase : vec) :
  inst_freq pi (other_clock c d t) high alpha phase = outcome per (inst_freq pi t high alpha phase).
Proof.
  unfold inst_freq, other_clock. rewrite !py_get_map.
  apply outcome_bind; intros t1. apply outcome_bind; intros t0. cbv zeta.
  assert (Edt : nsub (c * t1 + d)%Qc (c * t0 + d)%Qc = (c * nsub t1 t0)%Qc) by (toQc; ring).
  rewrite Edt. set (dt := nsub t1 t0).
  set (F := if high then bind (pade6 phase dt) _ else _).
  match goal with |- bind ?x _ = _ => assert (EF : x = outcome per F) end.
  { unfold F. destruct high.
    - rewrite pade6_step. apply outcome_bind. intros x. cbn [outcome]. f_equal. apply map_map_sc. intros a. toQc. ring.
    - match goal with |- bind (py_get ?x _) _ = bind (py_get _ _) _ => idtac | _ => idtac end.
      assert (El : map (fun x => ndiv x (nmul (nmul n2 pi) (c * dt)%Qc)) (ndiff phase) =
                   per (map (fun x => ndiv x (nmul (nmul n2 pi) dt)) (ndiff phase))).
      { rewrite map_map. apply map_ext. intros a. toQc. rewrite !Qcinv_mult_distr. ring. }
      rewrite El, py_get_map. apply outcome_bind. intros last. cbn [outcome]. rewrite map_app. reflexivity. }
  rewrite EF. apply outcome_bind. intros f. apply maybe_filter_map.
Qed.

Definition R (p : panel Qc) : panel Qc :=
  MkPanel (title p) (ylabel p) (map (fun xy => (other_clock c d (fst xy), per (snd xy))) (curves p)).
Lemma redrawn_R p : redrawn c d p = R p.
Proof.
  unfold redrawn, R. f_equal. apply map_ext. intros xy. f_equal. apply map_ext. intros f. unfold Qcdiv. ring.
Qed.
Lemma change_at_R f f' : (forall p, f' (R p) = outcome R (f p)) -> forall k ps,
  change_at k f' (map R ps) = outcome (map R) (change_at k f ps).
Proof.
  intros E. induction k as [|k IH]; intros [|p ps]; cbn [map change_at]; try reflexivity.
  - rewrite E. apply outcome_bind. reflexivity.
  - rewrite IH. apply outcome_bind. reflexivity.
Qed.
Lemma change_R f f' i ps : (forall p, f' (R p) = outcome R (f p)) ->
  change i f' (map R ps) = outcome (map R) (change i f ps).
Proof. intros E. unfold change. rewrite zlen_mapped. destruct (_ <? 0); [reflexivity|]. apply change_at_R. exact E. Qed.
Lemma draw_R cap t : forall rows num ps,
  draw_rows cap (other_clock c d t) num (map per rows) (map R ps) = outcome (map R) (draw_rows cap t num rows ps).
Proof.
  induction rows as [|row rows IH]; intros num ps; [reflexivity|]. cbn [map draw_rows].
  rewrite (change_R (fun p => let! p := ax_plot t row p in Ok (set_ylabel (cap (num + 1)) p))).
  - apply outcome_bind. intros qs. apply IH.
  - intros p. unfold ax_plot, other_clock. rewrite !zlen_mapped. destruct (_ =? _); [|reflexivity].
    cbn [bind outcome]. f_equal. unfold set_ylabel, R. cbn. rewrite map_app. reflexivity.
Qed.
Lemma axes_R n a : subplots n = Ok a -> fig_axes a = map R (fig_axes a).
Proof.
  destruct n as [|[|n]]; cbn; intros E; try discriminate E; injection E as <-; [reflexivity|].
  cbn. do 2 f_equal. induction n as [|n IH]; cbn; [reflexivity|]. rewrite <- IH. reflexivity.
Qed.

Lemma plot_clock hb an un pi v t imfs high alpha :
  plot_instant_freq hb an un pi v (other_clock c d t) imfs high alpha =
  outcome (map (redrawn c d)) (plot_instant_freq hb an un pi v t imfs high alpha).
Proof.
  assert (ER : forall r : res (list (panel Qc)), outcome (map (redrawn c d)) r = outcome (map R) r).
  { intros [ps|e]; [|reflexivity]. cbn. f_equal. apply map_ext. apply redrawn_R. }
  rewrite ER. unfold plot_instant_freq. destruct (match alpha with Some _ => _ | None => _ end); [reflexivity|].
  destruct (check_imfs v imfs None Falsy) as [[I r]|]; [|reflexivity]. cbn [bind]. cbv zeta.
  assert (EC : calc_inst_freq hb an un pi (body I) (other_clock c d t) high alpha =
               outcome (map per) (calc_inst_freq hb an un pi (body I) t high alpha)).
  { unfold calc_inst_freq. destruct (calc_inst_phase hb an un (body I) alpha) as [ph|]; [|reflexivity]. cbn [bind].
    rewrite <- (map_id ph) at 1. apply mapM_outcome. intros x _. apply inst_freq_clock. }
  rewrite EC. apply outcome_bind. intros freqs. destruct (subplots (length (body I))) as [a|] eqn:Ea; [|reflexivity]. cbn [bind].
  rewrite (axes_R _ a Ea) at 1. rewrite (change_R (fun p => Ok (set_title InstantFrequency p))) by reflexivity.
  apply outcome_bind. intros ps. apply draw_R.
Qed.
End Clock.

(** ** The level *)
Lemma phase_level k hb an un alpha (row : vec) :
  hb (sc k row) = (sc k (fst (hb row)), sc k (snd (hb row))) -> (forall x y, an (k * x)%Qc (k * y)%Qc = an x y) ->
  inst_phase hb an un alpha (sc k row) = inst_phase hb an un alpha row.
Proof.
  intros Eh Ea. unfold inst_phase. rewrite Eh. destruct (hb row) as [re im]. cbn [fst snd]. rewrite !maybe_filter_map.
  destruct (maybe_filter alpha re) as [re'|]; [|reflexivity]. cbn [outcome bind].
  destruct (maybe_filter alpha im) as [im'|]; [|reflexivity]. cbn [outcome bind]. do 2 f_equal.
  revert im'. induction re' as [|x re' IH]; intros [|y im']; cbn; auto. rewrite Ea, IH. reflexivity.
Qed.
Lemma plot_level k hb an un pi v w t I high alpha :
  (forall row, hb (sc k row) = (sc k (fst (hb row)), sc k (snd (hb row)))) -> (forall x y, an (k * x)%Qc (k * y)%Qc = an x y) ->
  plot_instant_freq hb an un pi v t (Some (louder k I)) high alpha = plot_instant_freq hb an un pi w t (Some I) high alpha.
Proof.
  intros Eh Ea. unfold plot_instant_freq. destruct (match alpha with Some _ => _ | None => _ end); [reflexivity|].
  unfold check_imfs. cbn [or_else holds bind louder body]. cbv zeta. rewrite map_length.
  assert (EC : calc_inst_phase hb an un (map (sc k) (body I)) alpha = calc_inst_phase hb an un (body I) alpha).
  { assert (EM : mapM (inst_phase hb an un alpha) (map (sc k) (body I)) = mapM (inst_phase hb an un alpha) (body I)).
    { induction (body I) as [|r l IH]; [reflexivity|]. cbn [map mapM]. rewrite phase_level by auto. rewrite IH. reflexivity. }
    unfold calc_inst_phase. rewrite EM. reflexivity. }
  unfold calc_inst_freq. rewrite EC. reflexivity.
Qed.
