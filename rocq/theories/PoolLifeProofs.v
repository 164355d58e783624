(** * PoolLifeProofs: proofs about [PoolLife.v]. *)
From Verif Require Import PyFacts EmdSym PoolLife PoolLifeSpec.
From Coq Require Import Lia.
Open Scope Z_scope.

Lemma held_app l l' : held (l ++ l') = held l + held l'.
Proof. induction l as [|[] l IH]; cbn [held app]; lia. Qed.

Lemma one_nil : one_at_a_time [].
Proof. intros l1 l2 E. destruct l1; [cbn; lia|discriminate]. Qed.
Lemma one_once : one_at_a_time [Opened; Closed].
Proof.
  intros l1 l2 E. destruct l1 as [|a [|b [|x l1]]]; cbn [app] in E; [cbn; lia| | |discriminate];
    injection E; intros; subst; cbn; lia.
Qed.
Lemma one_twice : one_at_a_time [Opened; Closed; Opened; Closed].
Proof.
  intros l1 l2 E. destruct l1 as [|a [|b [|x [|y [|z l1]]]]]; cbn [app] in E; [cbn; lia| | | | |discriminate];
    injection E; intros; subst; cbn; lia.
Qed.

Section Life.
Context {A : Type} `{Num A}.
Context {G D : Type}.
Variable gen : generator A G.
Variable dec : decomposer A D.

Lemma lbind_quietly {X Y} (r : res X) (f : X -> logged Y) :
  lbind (quietly r) f = match r with Ok x => f x | Raise e => (Raise e, []) end.
Proof. destruct r as [x|e]; cbn; [destruct (f x)|]; reflexivity. Qed.
Lemma lbind_ok {X Y} x l (f : X -> logged Y) : lbind (Ok x, l) f = (fst (f x), l ++ snd (f x)).
Proof. unfold lbind; cbn [fst snd]. destruct (f x); reflexivity. Qed.
Lemma lbind_raise {X Y} e l (f : X -> logged Y) : lbind (Raise e, l) f = (Raise e, l).
Proof. reflexivity. Qed.

Lemma eemd_events_same c o S T k : fst (eemd_events gen dec c o S T k) = eemd gen dec c o S T k.
Proof.
  unfold eemd_events, eemd_pool, eemd. rewrite lbind_quietly.
  destruct (match T with Some t => Ok t | None => timeline (length S) end) as [t|e]; cbn [bind]; [|reflexivity].
  rewrite lbind_quietly. destruct (np_max S) as [mx|e]; cbn [bind]; [|reflexivity].
  rewrite lbind_quietly. destruct (np_min S) as [mn|e]; cbn [bind]; [|reflexivity].
  set (scale := nmul (noise_width c) (nabs (nsub mx mn))). unfold enter, leave.
  destruct (parallel c) eqn:P.
  - unfold pool_map. destruct (processes c <? 1) eqn:Q; [rewrite lbind_raise; cbn; destruct o; reflexivity|].
    rewrite lbind_ok, lbind_quietly.
    destruct (pool_chunks _ _ _) as [ts [e|]] eqn:R; [cbn; destruct o; reflexivity|].
    rewrite lbind_ok. cbn [fst snd quietly app]. unfold eemd_rest. reflexivity.
  - rewrite lbind_ok, lbind_quietly, lbind_ok. cbn [fst snd quietly app]. unfold eemd_rest.
    destruct (run_trials _ _ _) as [[ts x] st]. destruct x; reflexivity.
Qed.

(** What raised inside the pool was raised by a trial. *)
Lemma run_trials_raise step n st ts e st' : run_trials (G := G) (D := D) (A := A) step n st = (ts, Some e, st') ->
  exists st1, fst (step st1) = Raise e.
Proof.
  revert st ts st'. induction n as [|n IH]; intros st ts st'; cbn [run_trials]; [discriminate|].
  destruct (step st) as [r s1] eqn:E. destruct r as [t|e'].
  - destruct (run_trials step n s1) as [[ts1 x] s2] eqn:R. intros F. inversion F; subst. eapply IH; eauto.
  - intros F. inversion F; subst. exists st. rewrite E. reflexivity.
Qed.
Lemma pool_chunks_raise step st lens ts e : pool_chunks (G := G) (D := D) (A := A) step st lens = (ts, Some e) ->
  exists st1, fst (step st1) = Raise e.
Proof.
  revert ts. induction lens as [|n lens IH]; intros ts; cbn [pool_chunks]; [discriminate|].
  destruct (run_trials step n st) as [[ts1 x] s2] eqn:R. destruct x as [e'|].
  - intros F. inversion F; subst. eapply run_trials_raise; eauto.
  - destruct (pool_chunks step st lens) as [ts' x'] eqn:R'. intros F. inversion F; subst. eapply IH; eauto.
Qed.

Lemma eemd_events_serial c o S T k : parallel c = false -> snd (eemd_events gen dec c o S T k) = [].
Proof.
  intros P. unfold eemd_events, eemd_pool. rewrite lbind_quietly.
  destruct (match T with Some t => Ok t | None => timeline (length S) end) as [t|e]; [|reflexivity].
  rewrite lbind_quietly. destruct (np_max S) as [mx|e]; [|reflexivity].
  rewrite lbind_quietly. destruct (np_min S) as [mn|e]; [|reflexivity].
  unfold enter, leave. rewrite P. rewrite lbind_ok, lbind_quietly, lbind_ok. reflexivity.
Qed.

Lemma eemd_events_cases c o S T k : parallel c = true ->
  let '((r, o'), ev) := eemd_events gen dec c o S T k in
  match r with
  | Ok _ => ev = [Opened; Closed]
  | Raise e => ev = [] \/ ev = [Opened; Closed] \/
      ev = [Opened] /\ exists scale t st, fst (trial_update gen dec c scale S t k st) = Raise e
  end.
Proof.
  intros P. unfold eemd_events, eemd_pool. rewrite lbind_quietly.
  destruct (match T with Some t => Ok t | None => timeline (length S) end) as [t|e]; [|left; reflexivity].
  rewrite lbind_quietly. destruct (np_max S) as [mx|e]; [|left; reflexivity].
  rewrite lbind_quietly. destruct (np_min S) as [mn|e]; [|left; reflexivity].
  set (scale := nmul (noise_width c) (nabs (nsub mx mn))). unfold enter, leave. rewrite P.
  unfold pool_map. destruct (processes c <? 1) eqn:Q; [rewrite lbind_raise; left; reflexivity|].
  rewrite lbind_ok, lbind_quietly.
  destruct (pool_chunks _ _ _) as [ts [e|]] eqn:R.
  - cbn [fst snd quietly app]. right. right. split; [reflexivity|]. exists scale, t. eapply pool_chunks_raise; eauto.
  - rewrite lbind_ok. cbn [fst snd quietly app].
    destruct (eemd_rest gen dec c o S k (t, scale, Some ts)) as [r o']. destruct r; [reflexivity|right; left; reflexivity].
Qed.

Lemma eemd_go c o S T k :
  let '((r, o'), ev) := eemd_events gen dec c o S T k in
  match r with Ok _ => held ev = 0 /\ one_at_a_time ev | Raise _ => 0 <= held ev <= 1 end.
Proof.
  destruct (parallel c) eqn:P.
  - pose proof (eemd_events_cases c o S T k P) as E. destruct (eemd_events gen dec c o S T k) as [[[r|e] o'] ev].
    + subst. split; [reflexivity|apply one_once].
    + destruct E as [->|[->|[-> _]]]; cbn; lia.
  - pose proof (eemd_events_serial c o S T k P) as E. destruct (eemd_events gen dec c o S T k) as [[[r|e] o'] ev];
      cbn [snd] in E; subst; [split; [reflexivity|apply one_nil]|cbn; lia].
Qed.

(** ** CEEMDAN *)
Variable std : list A -> A.
Variable emd_of : list A -> option (list A) -> Z -> res (list (list A)).
Variable arrival : list (list (list A)) -> list (list (list A)).

Lemma decompose_noise_same c noises :
  fst (decompose_noise_events std emd_of c noises) = decompose_noise std emd_of c noises.
Proof.
  unfold decompose_noise_events, decompose_noise, open_pool, enter, leave.
  destruct (c_parallel c); cbn [andb]; [destruct (c_processes c <? 1); [reflexivity|]|];
    rewrite lbind_ok, lbind_quietly; destruct (mapM _ _); cbn [bind]; try reflexivity; rewrite lbind_ok; reflexivity.
Qed.
Lemma inner_eemd_same c ne S T :
  fst (inner_eemd_events emd_of arrival c ne S T) = inner_eemd emd_of arrival c ne S T.
Proof.
  unfold inner_eemd_events, inner_eemd, open_pool, enter, leave.
  destruct (c_parallel c); cbn [andb]; [destruct (c_processes c <? 1); [reflexivity|]|];
    rewrite lbind_ok, lbind_quietly; destruct (mapM _ _); cbn [bind]; try reflexivity;
    destruct (fold_left _ _ _); cbn [bind]; try reflexivity; rewrite lbind_ok; reflexivity.
Qed.
Lemma lbind_fst {X Y} (m : logged X) (f : X -> logged Y) :
  fst (lbind m f) = match fst m with Ok x => fst (f x) | Raise e => Raise e end.
Proof. unfold lbind. destruct (fst m) as [x|]; [destruct (f x)|]; reflexivity. Qed.
Lemma ceemdan_rows_same c noises S T k :
  fst (ceemdan_rows_events std emd_of arrival c noises S T k) = ceemdan_rows std emd_of arrival c noises S T k.
Proof.
  unfold ceemdan_rows_events, ceemdan_rows. rewrite lbind_fst, decompose_noise_same.
  destruct (decompose_noise _ _ _ _) as [ne|]; cbn [bind]; [|reflexivity].
  rewrite lbind_fst, inner_eemd_same. destruct (inner_eemd _ _ _ _ _ _); reflexivity.
Qed.
Lemma ceemdan_events_same c o S T k :
  fst (ceemdan_events gen std emd_of arrival c o S T k) = ceemdan gen std emd_of arrival c o S T k.
Proof.
  unfold ceemdan_events, ceemdan. destruct (all_noises gen c (c_random o) _) as [noises g].
  rewrite lbind_quietly. destruct noises as [noises|e]; [|reflexivity]. cbn [bind].
  set (m := ceemdan_rows_events _ _ _ _ _ _ _ _).
  replace (ceemdan_rows std emd_of arrival c noises _ T k) with (fst m) by apply ceemdan_rows_same.
  unfold lbind. destruct m as [[x|e] l]; reflexivity.
Qed.

Lemma decompose_noise_cases c noises :
  let '(r, ev) := decompose_noise_events std emd_of c noises in
  if c_parallel c then
    match r with
    | Ok _ => ev = [Opened; Closed]
    | Raise e => ev = [] \/ ev = [Opened; Closed] \/
        ev = [Opened] /\ exists x, In x noises /\ emd_of x None (-1) = Raise e
    end
  else ev = [].
Proof.
  unfold decompose_noise_events, enter, leave.
  destruct (c_parallel c).
  - destruct (c_processes c <? 1); [left; reflexivity|]. rewrite lbind_ok, lbind_quietly.
    destruct (mapM _ noises) as [all|e] eqn:M.
    + rewrite lbind_ok. cbn [fst snd quietly app]. destruct (if beta_progress c then _ else _); [reflexivity|right; left; reflexivity].
    + right. right. split; [reflexivity|]. clear -M. revert M. induction noises as [|x l IH]; cbn [mapM]; [discriminate|].
      destruct (emd_of x None (-1)) as [r|e'] eqn:E; cbn [bind].
      * destruct (mapM _ l) as [|e'']; cbn [bind]; [discriminate|]. intros M. injection M as ->.
        destruct (IH eq_refl) as (y & Hy & Ey). exists y. split; [right; auto|auto].
      * intros M. injection M as ->. exists x. split; [left; auto|auto].
  - rewrite lbind_ok, lbind_quietly. destruct (mapM _ noises); [rewrite lbind_ok|]; reflexivity.
Qed.
Lemma inner_eemd_cases c ne S T :
  let '(r, ev) := inner_eemd_events emd_of arrival c ne S T in
  if c_parallel c then
    match r with
    | Ok _ => ev = [Opened; Closed]
    | Raise e => ev = [] \/ ev = [Opened]
    end
  else ev = [].
Proof.
  unfold inner_eemd_events, enter, leave.
  destruct (c_parallel c).
  - destruct (c_processes c <? 1); [left; reflexivity|]. rewrite lbind_ok, lbind_quietly.
    destruct (mapM _ _) as [all|e]; cbn [bind]; [|right; reflexivity].
    destruct (fold_left _ _ _); [rewrite lbind_ok; reflexivity|right; reflexivity].
  - rewrite lbind_ok, lbind_quietly. destruct (mapM _ _); cbn [bind]; [|reflexivity].
    destruct (fold_left _ _ _); [rewrite lbind_ok|]; reflexivity.
Qed.

(** The event lists a run can leave. *)
Lemma ceemdan_events_cases c o S T k :
  let '((r, o'), ev) := ceemdan_events gen std emd_of arrival c o S T k in
  if c_parallel c then
    match r with
    | Ok _ => ev = [Opened; Closed; Opened; Closed]
    | Raise e => In ev [[]; [Opened]; [Opened; Closed]; [Opened; Closed; Opened]; [Opened; Closed; Opened; Closed]]
    end
  else ev = [].
Proof.
  unfold ceemdan_events. destruct (all_noises gen c (c_random o) _) as [noises g].
  rewrite lbind_quietly. destruct noises as [noises|e]; [|destruct (c_parallel c); cbn; auto].
  unfold ceemdan_rows_events.
  pose proof (decompose_noise_cases c noises) as HD. destruct (decompose_noise_events std emd_of c noises) as [[ne|e] l1].
  2:{ rewrite !lbind_raise. destruct (c_parallel c); [|exact HD]. destruct HD as [->|[->|[-> _]]]; cbn; auto. }
  rewrite lbind_ok.
  match goal with |- context [inner_eemd_events emd_of arrival c ne ?x T] => pose proof (inner_eemd_cases c ne x T) as HI;
    destruct (inner_eemd_events emd_of arrival c ne x T) as [[E|e] l2] end.
  - rewrite lbind_ok. cbn [fst snd quietly].
    match goal with |- context [bind (py_get E 0) ?f] => destruct (bind (py_get E 0) f) as [M|e] end.
    + rewrite lbind_ok. cbn [fst snd quietly]. destruct (c_parallel c); [subst; reflexivity|subst; reflexivity].
    + rewrite lbind_raise. destruct (c_parallel c); [subst; cbn; auto 10|subst; reflexivity].


  - rewrite lbind_raise. cbn [fst snd]. rewrite lbind_raise. destruct (c_parallel c); [|subst; reflexivity].
    subst l1. destruct HI as [->| ->]; cbn; auto 10.
Qed.

(** ** Programs *)
Section Programs.
Context {C St : Type}.
Variable go : C -> St -> list A -> option (list A) -> Z -> (res (list (list A)) * St) * list event.

Lemma program_failures o l :
  (forall c o S T k, let '((r, o'), ev) := go c o S T k in
     match r with Ok _ => held ev = 0 | Raise _ => 0 <= held ev <= 1 end) ->
  0 <= held (snd (program go o l)) <= failures (fst (program go o l)).
Proof.
  intros Hgo. revert o. induction l as [|q l IH]; intros o; [cbn; lia|]. cbn [program].
  specialize (Hgo (r_cfg q) o (r_S q) (r_T q) (r_k q)). destruct (go _ _ _ _ _) as [[r o'] ev].
  specialize (IH o'). destruct (program go o' l) as [rs evs]. cbn [fst snd] in *. rewrite held_app.
  unfold failures in *. destruct r; cbn [filter]; [|rewrite zlen_cons]; lia.
Qed.

Lemma prefix_split {X} (a b l1 l2 : list X) : a ++ b = l1 ++ l2 ->
  (exists m, a = l1 ++ m) \/ (exists m, l1 = a ++ m /\ b = m ++ l2).
Proof.
  revert l1. induction a as [|x a IH]; intros l1 E; [right; exists l1; split; auto|].
  destruct l1 as [|y l1]; [left; exists (x :: a); reflexivity|]. cbn [app] in E. injection E as -> E.
  destruct (IH l1 E) as [(m & ->)|(m & -> & ->)]; [left; exists m; reflexivity|right; exists m; split; reflexivity].
Qed.
Lemma program_returned o l :
  (forall c o S T k, let '((r, o'), ev) := go c o S T k in
     match r with Ok _ => held ev = 0 /\ one_at_a_time ev | Raise _ => True end) ->
  all_returned (fst (program go o l)) ->
  held (snd (program go o l)) = 0 /\ one_at_a_time (snd (program go o l)).
Proof.
  intros Hgo. revert o. induction l as [|q l IH]; intros o.
  { intros _. split; [reflexivity|]. intros l1 l2 E. destruct l1; [cbn; lia|discriminate]. }
  cbn [program].
  specialize (Hgo (r_cfg q) o (r_S q) (r_T q) (r_k q)). destruct (go _ _ _ _ _) as [[r o'] ev].
  specialize (IH o'). destruct (program go o' l) as [rs evs]. cbn [fst snd] in *. intros Ha.
  inversion Ha as [|? ? Hr Hrs]; subst. destruct r as [r|]; [|contradiction]. destruct Hgo as [H0 H1].
  destruct (IH Hrs) as [I0 I1]. split; [rewrite held_app; lia|].
  intros l1 l2 E. destruct (prefix_split _ _ _ _ E) as [(m & Em)|(m & -> & Em)].
  - exact (H1 l1 m Em).
  - rewrite held_app. specialize (I1 m l2 Em). lia.
Qed.
End Programs.

Lemma ceemdan_go c o S T k :
  let '((r, o'), ev) := ceemdan_events gen std emd_of arrival c o S T k in
  match r with Ok _ => held ev = 0 /\ one_at_a_time ev | Raise _ => 0 <= held ev <= 1 end.
Proof.
  pose proof (ceemdan_events_cases c o S T k) as E. destruct (ceemdan_events gen std emd_of arrival c o S T k) as [[[r|e] o'] ev].
  - destruct (c_parallel c); subst; [split; [reflexivity|apply one_twice]|split; [reflexivity|apply one_nil]].
  - destruct (c_parallel c); [|subst; cbn; lia]. cbn [In] in E. intuition (subst; cbn; lia).
Qed.
End Life.
