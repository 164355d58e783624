(** * AskProofs: what EEMD's ensemble queries say, over any history. *)
From Verif Require Import PyFacts QcFacts Eemd EemdStats EemdAsk Spec EemdSpec StatsSpec FailedSpec AskSpec
  EmdProofs EmdExact EemdProofs EemdExact StatsProofs Failed.
From Coq Require Import QArith Qcanon.
Open Scope Z_scope.

Section Erase.
Context {A : Type} `{Num A}.
Notation rows := (list (list A)).

Lemma np_array_same (l l' : rows) : np_array l = Ok l' -> l' = l.
Proof. unfold np_array. destruct l; [congruence|]. destruct (forallb _ _); congruence. Qed.

Lemma stack_rows (d : list (Z * rows)) :
  map (fun p => (fst p, rows_of (snd p))) (fst (stack_all d)) = d.
Proof.
  induction d as [|[k l] d IH]; cbn [stack_all]; auto. destruct (np_array l) as [l'|e] eqn:E.
  - apply np_array_same in E. subst l'. destruct (stack_all d) as [bs x]. cbn [fst map snd rows_of] in *. congruence.
  - cbn [fst map snd rows_of]. f_equal. rewrite map_map. cbn [fst snd rows_of]. clear.
    induction d as [|[? ?] d IH]; cbn [map fst snd]; congruence.
Qed.
Lemma stack_exn (d : list (Z * rows)) :
  match mapM (fun p => np_array (snd p)) d with Ok _ => None | Raise e => Some e end = snd (stack_all d).
Proof.
  induction d as [|[k l] d IH]; cbn [stack_all mapM snd]; auto. destruct (np_array l); cbn [bind snd]; auto.
  destruct (stack_all d) as [bs x]. cbn [snd] in *. rewrite <- IH. destruct (mapM _ d); reflexivity.
Qed.
Lemma stack_stacked (d : list (Z * rows)) bs : stack_all d = (bs, None) ->
  bs = map (fun p => (fst p, Stacked (snd p))) d.
Proof.
  revert bs. induction d as [|[k l] d IH]; cbn [stack_all]; intros bs E; [cbn; congruence|].
  destruct (np_array l) as [l'|e] eqn:El; [|congruence]. apply np_array_same in El. subst l'.
  destruct (stack_all d) as [b x]. injection E as <- ->. cbn [map fst snd]. f_equal. auto.
Qed.
Lemma mean_stacked (d : list (Z * rows)) g :
  ask_mean (MkEns g (map (fun p => (fst p, Stacked (snd p))) d)) = ensemble_mean d.
Proof.
  unfold ask_mean, ensemble_mean. cbn [orders].
  rewrite (mapM_map_ok _ (fun p => mean_rows (rows_of (snd p)))).
  - cbn [bind]. rewrite map_map. reflexivity.
  - intros p Hp. apply in_map_iff in Hp as (q & <- & _). reflexivity.
Qed.
Lemma std_stacked sqrt (d : list (Z * rows)) g :
  ask_std sqrt (MkEns g (map (fun p => (fst p, Stacked (snd p))) d)) = ensemble_std sqrt d.
Proof.
  unfold ask_std, ensemble_std. cbn [orders].
  rewrite (mapM_map_ok _ (fun p => std_rows sqrt (rows_of (snd p)))).
  - cbn [bind]. rewrite map_map. reflexivity.
  - intros p Hp. apply in_map_iff in Hp as (q & <- & _). reflexivity.
Qed.

Context {G D : Type}.
Variable gen : generator A G.
Variable dec : decomposer A D.

Lemma map_listed (d : list (Z * rows)) :
  map (fun p => (fst p, rows_of (snd p))) (map (fun p => (fst p, Listed (snd p))) d) = d.
Proof. rewrite map_map. cbn [fst snd rows_of]. induction d as [|[? ?] d IH]; cbn [map fst snd]; congruence. Qed.

Theorem ask_eemd_seen c (o : eemd_object A G D) S T k :
  fst (ask_eemd gen dec c o S T k) = fst (eemd gen dec c (seen o) S T k) /\
  seen (snd (ask_eemd gen dec c o S T k)) = snd (eemd gen dec c (seen o) S T k).
Proof.
  unfold ask_eemd, eemd. destruct (bind _ _) as [[T' scale]|e]; [|auto].
  set (step := trial_update gen dec c scale S T' k).
  assert (F : forall ts st, let d := rename_trend (collect ts) in
    fst (finish o st S ts) = fst
     (match mapM (fun p => np_array (snd p)) d with
      | Raise e => (Raise e, MkESt (fst st) (snd st) (o_E_IMF o) (o_residue o) d)
      | Ok _ => match ensemble_mean d with
        | Raise e => (Raise e, MkESt (fst st) (snd st) (o_E_IMF o) (o_residue o) d)
        | Ok E => match minus_rows S E with
          | Raise e => (Raise e, MkESt (fst st) (snd st) (Some E) (o_residue o) d)
          | Ok r => (Ok E, MkESt (fst st) (snd st) (Some E) (Some r) d) end end end) /\
    seen (snd (finish o st S ts)) = snd
     (match mapM (fun p => np_array (snd p)) d with
      | Raise e => (Raise e, MkESt (fst st) (snd st) (o_E_IMF o) (o_residue o) d)
      | Ok _ => match ensemble_mean d with
        | Raise e => (Raise e, MkESt (fst st) (snd st) (o_E_IMF o) (o_residue o) d)
        | Ok E => match minus_rows S E with
          | Raise e => (Raise e, MkESt (fst st) (snd st) (Some E) (o_residue o) d)
          | Ok r => (Ok E, MkESt (fst st) (snd st) (Some E) (Some r) d) end end end)).
  { intros ts st d. unfold finish. fold d. pose proof (stack_exn d) as X. pose proof (stack_rows d) as Y.
    destruct (stack_all d) as [bs x] eqn:Es. cbn [fst snd] in X, Y. destruct (mapM _ d) as [v|e]; subst x.
    - apply stack_stacked in Es. subst bs. rewrite mean_stacked.
      destruct (ensemble_mean d) as [E|e]; [|unfold seen; cbn; rewrite Y; auto].
      destruct (minus_rows S E) as [r|e]; unfold seen; cbn; rewrite Y; auto.
    - unfold seen; cbn; rewrite Y; auto. }
  cbn [random inner E_IMF e_residue all_imfs seen].
  destruct (parallel c).
  - destruct (pool_map (processes c) step (trials c) (o_random o, o_inner o)) as [ts [e|]]; cbn [fst snd].
    + split; [reflexivity|]. reflexivity.
    + apply (F ts (o_random o, o_inner o)).
  - destruct (run_trials step (Z.to_nat (trials c)) (o_random o, o_inner o)) as [[ts [e|]] st]; cbn [fst snd].
    + split; [reflexivity|]. unfold seen. cbn. rewrite map_listed. reflexivity.
    + apply (F ts st).
Qed.

(** Looking changes nothing a run depends on. *)
Lemma eemd_blind c (o1 o2 : eemd_state A G D) S T k :
  random o1 = random o2 -> inner o1 = inner o2 -> E_IMF o1 = E_IMF o2 -> e_residue o1 = e_residue o2 ->
  fst (eemd gen dec c o1 S T k) = fst (eemd gen dec c o2 S T k) /\
  (let o1' := snd (eemd gen dec c o1 S T k) in let o2' := snd (eemd gen dec c o2 S T k) in
   random o1' = random o2' /\ inner o1' = inner o2' /\ E_IMF o1' = E_IMF o2' /\ e_residue o1' = e_residue o2').
Proof.
  destruct o1 as [g1 d1 E1 r1 a1], o2 as [g2 d2 E2 r2 a2]. cbn [random inner E_IMF e_residue].
  intros -> -> -> ->. unfold eemd. destruct (bind _ _) as [[T' scale]|e]; [|cbn; auto].
  cbn [random inner E_IMF e_residue all_imfs].
  set (R := if parallel c then _ else _). destruct R as [[ts [e|]] st]; [cbn; auto|].
  cbn [random inner E_IMF e_residue all_imfs].
  destruct (mapM _ _); [|cbn; auto]. destruct (ensemble_mean _) as [E|e]; [|cbn; auto].
  destruct (minus_rows S E); cbn; auto.
Qed.
Theorem looking_blind (l : list (deed (eemd_config A) A)) (o : eemd_object A G D) (o2 : eemd_state A G D) :
  o_random o = random o2 -> o_inner o = inner o2 -> o_E_IMF o = E_IMF o2 -> o_residue o = e_residue o2 ->
  let o' := all_did gen dec o l in
  let o2' := after_all (noise_seed gen) (eemd gen dec) o2 (blind l) in
  o_random o' = random o2' /\ o_inner o' = inner o2' /\ o_E_IMF o' = E_IMF o2' /\ o_residue o' = e_residue o2'.
Proof.
  cbv zeta. revert o o2. induction l as [|a l IH]; intros o o2 H1 H2 H3 H4; [cbn; auto|].
  destruct a as [s|c S T k|k]; cbn [all_did after_all blind fold_left].
  - apply IH; cbn; auto.
  - cbn [did does]. destruct (ask_eemd_seen c o S T k) as [_ X].
    destruct (eemd_blind c (seen o) o2 S T k H1 H2 H3 H4) as (_ & Y1 & Y2 & Y3 & Y4).
    rewrite <- X in Y1, Y2, Y3, Y4. apply IH; auto.
  - apply IH; cbn; auto.
Qed.
Theorem looking_result l c S T k (o : eemd_object A G D) :
  fst (ask_eemd gen dec c (all_did gen dec o l) S T k) =
  fst (eemd gen dec c (after_all (noise_seed gen) (eemd gen dec) (seen o) (blind l)) S T k).
Proof.
  rewrite (proj1 (ask_eemd_seen c (all_did gen dec o l) S T k)).
  destruct (looking_blind l o (seen o)) as (Y1 & Y2 & Y3 & Y4); auto.
  apply (eemd_blind c (seen (all_did gen dec o l)) _ S T k Y1 Y2 Y3 Y4).
Qed.

(** ** Settled and unsettled ensembles *)
Lemma settled_mean (e : ensemble A) : settled e ->
  ask_mean e = np_array (map (fun p => mean_rows (rows_of (snd p))) (orders e)) /\
  forall sqrt, ask_std sqrt e = np_array (map (fun p => std_rows sqrt (rows_of (snd p))) (orders e)).
Proof.
  intros [_ F]. rewrite Forall_forall in F. unfold ask_mean, ask_std. split; [|intros sqrt].
  - rewrite (mapM_map_ok _ (fun p => mean_rows (rows_of (snd p)))); [reflexivity|].
    intros p Hp. apply F in Hp. destruct (snd p); [destruct Hp|reflexivity].
  - rewrite (mapM_map_ok _ (fun p => std_rows sqrt (rows_of (snd p)))); [reflexivity|].
    intros p Hp. apply F in Hp. destruct (snd p); [destruct Hp|reflexivity].
Qed.
Lemma settled_order (e : ensemble A) k : settled e -> snd (ask_order e k) = e.
Proof. intros [g _]. unfold ask_order. destruct (order_get _ k); auto. rewrite g. auto. Qed.
Lemma settled_idle l (o : eemd_object A G D) : settled (o_ens o) -> idle l ->
  o_ens (all_did gen dec o l) = o_ens o.
Proof.
  revert o. induction l as [|a l IH]; intros o Hs Hi; [auto|]. inversion Hi; subst.
  cbn [all_did fold_left]. destruct a as [s|c S T k|k]; [|tauto|].
  - apply (IH (ask_seed gen o s)); auto.
  - assert (E : o_ens (did gen dec o (Looks k)) = o_ens o) by (cbn; apply settled_order; auto).
    unfold all_did in IH. rewrite IH; auto. rewrite E. auto.
Qed.

Lemma unsettled_mean (e : ensemble A) : unsettled e ->
  ask_mean e = (if ask_count e then Ok [] else Raise AttributeError) /\
  forall sqrt, ask_std sqrt e = (if ask_count e then Ok [] else Raise AttributeError).
Proof.
  intros [_ F]. unfold ask_mean, ask_std, ask_count. destruct (orders e) as [|[k b] l]; [split; reflexivity|].
  inversion F as [|x y F1 F2]; subst. cbn [snd] in F1. destruct b; [|exfalso; apply F1; exact I]. split; reflexivity.
Qed.
Lemma unsettled_order (e : ensemble A) k : unsettled e -> unsettled (snd (ask_order e k)).
Proof.
  intros [g F]. unfold ask_order. destruct (order_get _ k); [split; auto|]. rewrite g. split; auto.
  cbn [orders snd]. apply Forall_app. split; auto.
Qed.
Lemma unsettled_idle l (o : eemd_object A G D) : unsettled (o_ens o) -> idle l ->
  unsettled (o_ens (all_did gen dec o l)).
Proof.
  revert o. induction l as [|a l IH]; intros o Hs Hi; [auto|]. inversion Hi; subst.
  cbn [all_did fold_left]. destruct a as [s|c S T k|k]; [|tauto|].
  - apply (IH (ask_seed gen o s)); auto.
  - apply IH; auto. cbn. apply unsettled_order; auto.
Qed.
End Erase.

Section Runs.
Context {G D : Type}.
Variable gen : generator Qc G.
Variable dec : decomposer Qc D.
Hypothesis Hsz : sized gen.
Hypothesis Hsh : shapely dec.

Lemma finish_ok (o : eemd_object Qc G D) st (S : list Qc) ts : Forall (trial_shaped (length S)) ts ->
  exists E r, finish o st S ts =
    (Ok E, MkEObj (fst st) (snd st) (Some E) (Some r)
       (MkEns false (map (fun p => (fst p, Stacked (snd p))) (rename_trend (collect ts))))) /\
    ask_mean (MkEns false (map (fun p => (fst p, Stacked (snd p))) (rename_trend (collect ts)))) = Ok E.
Proof.
  intros Ht. set (d := rename_trend (collect ts)).
  assert (HS : Forall (fun p => shaped (length S) (snd p)) d).
  { apply rename_shaped. apply collect_shaped; auto. }
  assert (HF : Forall (fun p => snd p <> []) d) by (apply rename_full, collect_full; constructor).
  unfold finish. fold d. pose proof (stack_exn d) as X. destruct (mapM_arrays _ _ HS) as (x & Ex). rewrite Ex in X.
  destruct (stack_all d) as [bs y] eqn:Es. cbn [snd] in X. subst y. apply stack_stacked in Es. subst bs.
  destruct (means_shaped _ _ HF HS) as (E & E1 & _ & E2). rewrite mean_stacked, E1.
  destruct (minus_ok _ S E eq_refl E2) as (r & Er). rewrite Er. exists E, r. auto.
Qed.

(** A run either ends, with every order stacked; or leaves the object as it was; or is serial,
    raises in a trial and leaves lists. *)
Theorem run_ensemble c (o : eemd_object Qc G D) S T k r o' : ask_eemd gen dec c o S T k = (r, o') ->
  match r with
  | Ok E => settled (o_ens o') /\ ask_mean (o_ens o') = Ok E
  | Raise _ => o' = o \/ parallel c = false /\ unsettled (o_ens o')
  end.
Proof.
  unfold ask_eemd. destruct (bind _ _) as [[T' scale]|e]; [|intros X; injection X as <- <-; auto].
  assert (FF : forall ts st, Forall (trial_shaped (length S)) ts -> finish o st S ts = (r, o') ->
    match r with Ok E => settled (o_ens o') /\ ask_mean (o_ens o') = Ok E
               | Raise _ => o' = o \/ parallel c = false /\ unsettled (o_ens o') end).
  { intros ts st Ht X. destruct (finish_ok o st S ts Ht) as (E & rr & F1 & F2). rewrite F1 in X.
    injection X as <- <-. cbn [o_ens]. split; [|exact F2]. split; [reflexivity|]. cbn [orders].
    apply Forall_forall. intros p Hp. apply in_map_iff in Hp as (q & <- & _). exact I. }
  destruct (parallel c) eqn:Ep.
  - destruct (pool_map _ _ _ _) as [ts [e|]] eqn:Em; [intros X; injection X as <- <-; auto|].
    apply FF. eapply pool_shaped; eauto.
  - destruct (run_trials _ _ _) as [[ts [e|]] st] eqn:Em.
    + intros X. injection X as <- <-. right. split; auto. split; [reflexivity|]. cbn [orders o_ens].
      apply Forall_forall. intros p Hp. apply in_map_iff in Hp as (q & <- & _). cbn. auto.
    + apply FF. eapply trials_shaped; eauto.
Qed.

(** ** After a run that ended *)
Lemma order_get_nth (C : list (list (list Qc))) : forall s k,
  order_get (map (fun p => (fst p, Stacked (snd p))) (tab s C)) k =
  match nth_error C (Z.to_nat (k - s)) with Some l => if k <? s then None else Some (Stacked l) | None => None end.
Proof.
  induction C as [|x C IH]; intros s k.
  { cbn. destruct (Z.to_nat (k - s)); reflexivity. }
  unfold tab. cbn [length zseq combine map order_get fst snd]. fold (tab (s + 1) C). destruct (s =? k) eqn:E.
  - apply Z.eqb_eq in E. subst k. replace (Z.to_nat (s - s)) with O by lia. cbn [nth_error].
    destruct (Z.ltb_spec s s); [lia|reflexivity].
  - apply Z.eqb_neq in E. rewrite IH. destruct (Z.ltb_spec k s).
    + replace (Z.to_nat (k - s)) with O by lia. cbn [nth_error]. destruct (nth_error C _); auto.
      destruct (Z.ltb_spec k (s + 1)); [auto|lia].
    + replace (Z.to_nat (k - s)) with (Datatypes.S (Z.to_nat (k - (s + 1)))) by lia. cbn [nth_error].
      destruct (nth_error C _); auto. destruct (Z.ltb_spec k (s + 1)); [lia|auto].
Qed.

Theorem after_end sqrt c (o : eemd_object Qc G D) S T k E o' more :
  ask_eemd gen dec c o S T k = (Ok E, o') -> idle more ->
  let e := o_ens (all_did gen dec o' more) in
  ask_mean e = Ok E /\ length (ask_count e) = length E /\
  (exists V, ask_std sqrt e = Ok V /\ length V = length E /\
   forall i m, nth_error E i = Some m -> exists l v, ask_order e (Z.of_nat i) = (Ok (Stacked l), e) /\
     nth_error V i = Some v /\ nth_error (ask_count e) i = Some (zlen l) /\
     is_mean (length S) l m /\ is_std sqrt (length S) l v) /\
  forall j, j < 0 \/ zlen E <= j -> ask_order e j = (Raise KeyError, e).
Proof.
  intros Ha Hi. cbv zeta. destruct (run_ensemble _ _ _ _ _ _ _ Ha) as [Hs Hm]. rewrite settled_idle by auto.
  split; [exact Hm|].
  destruct (ask_eemd_seen gen dec c o S T k) as [X1 X2]. rewrite Ha in X1, X2. cbn [fst snd] in X1, X2.
  destruct (eemd gen dec c (seen o) S T k) as [r o2] eqn:Ee. cbn [fst snd] in X1, X2. subst r.
  destruct (eemd_tab gen dec Hsz Hsh _ _ _ _ _ _ _ Ee) as (C & HC & HE & HS).
  assert (HO : orders (o_ens o') = map (fun p => (fst p, Stacked (snd p))) (tab 0 C)).
  { rewrite <- HC, <- X2. unfold seen. cbn [all_imfs]. rewrite map_map. cbn [fst snd].
    destruct Hs as [_ Hs]. induction Hs as [|[kk b] l Hb Hl IH]; [reflexivity|]. cbn [map fst snd].
    rewrite <- IH. destruct b; [destruct Hb|reflexivity]. }
  assert (HG : o_ens o' = MkEns false (map (fun p => (fst p, Stacked (snd p))) (tab 0 C))).
  { destruct Hs as [Hs _]. rewrite <- HO. destruct (o_ens o') as [g b]. cbn in Hs. subst g. reflexivity. }
  assert (Hcnt : ask_count (o_ens o') = map zlen C).
  { unfold ask_count. rewrite HO, map_map. cbn [snd rows_of]. rewrite <- (tab_vals 0 C) at 2. rewrite map_map. reflexivity. }
  rewrite Hcnt. subst E. rewrite !map_length. split; [reflexivity|].
  destruct (tab_means C (length S) HS (std_rows sqrt)) as [V1 V2].
  { intros l N1 N2. destruct (is_std_rows sqrt _ _ N1 N2) as (m & _ & L & _). exact L. }
  assert (HV : ask_std sqrt (o_ens o') = Ok (map (std_rows sqrt) C)).
  { rewrite HG, std_stacked. unfold ensemble_std. exact V1. }
  split.
  - exists (map (std_rows sqrt) C). split; [exact HV|]. split; [apply map_length|]. intros i m Hi'.
    rewrite nth_error_map in Hi'. destruct (nth_error C i) as [l|] eqn:El; [|discriminate]. injection Hi' as <-.
    exists l, (std_rows sqrt l). assert (Hl := nth_error_In _ _ El). destruct (HS l Hl) as [N1 N2].
    split; [|split; [rewrite nth_error_map, El; reflexivity|split; [rewrite nth_error_map, El; reflexivity|]]].
    + unfold ask_order. rewrite HO, order_get_nth. replace (Z.to_nat (Z.of_nat i - 0)) with i by lia. rewrite El.
      destruct (Z.ltb_spec (Z.of_nat i) 0); [lia|reflexivity].
    + split; [apply mean_rows_spec; auto|apply is_std_rows; auto].
  - intros j Hj. unfold ask_order. rewrite HO, order_get_nth. destruct (nth_error C _) as [l|] eqn:El.
    + assert (HL : (Z.to_nat (j - 0) < length C)%nat) by (apply nth_error_Some; congruence).
      unfold zlen in Hj. rewrite map_length in Hj. destruct (Z.ltb_spec j 0); [|lia].
      rewrite (proj1 Hs). reflexivity.
    + rewrite (proj1 Hs). reflexivity.
Qed.

(** ** After a run that raised *)
Theorem after_raise c (o : eemd_object Qc G D) S T k e o' more :
  ask_eemd gen dec c o S T k = (Raise e, o') -> idle more ->
  o' = o \/
  parallel c = false /\
  let en := o_ens (all_did gen dec o' more) in
  (ask_count en = [] -> ask_mean en = Ok [] /\ forall sqrt, ask_std sqrt en = Ok []) /\
  (ask_count en <> [] -> ask_mean en = Raise AttributeError /\ forall sqrt, ask_std sqrt en = Raise AttributeError) /\
  (forall j, (exists l, ask_order en j = (Ok (Listed l), en)) \/
     exists en', ask_order en j = (Ok (Listed []), en') /\ ask_count en' = ask_count en ++ [0] /\
       ask_mean en' = Raise AttributeError).
Proof.
  intros Ha Hi. destruct (run_ensemble _ _ _ _ _ _ _ Ha) as [->|[Hp Hu]]; auto. right. split; auto. cbv zeta.
  assert (Hu' := unsettled_idle gen dec more o' Hu Hi). set (en := o_ens (all_did gen dec o' more)) in *. clearbody en.
  destruct (unsettled_mean en Hu') as [M1 M2]. split; [|split].
  - intros E. rewrite E in M1, M2. auto.
  - intros N. destruct (ask_count en); [congruence|]. auto.
  - intros j. unfold ask_order. destruct (order_get (orders en) j) as [b|] eqn:E.
    + left. assert (HB : ~ stacked b).
      { destruct Hu' as [_ F]. clear - E F. induction F as [|[kk b'] l Hb Hl IH]; cbn [order_get] in E; [discriminate|].
        destruct (kk =? j); auto. injection E as <-. exact Hb. }
      destruct b as [l|l]; [exists l; reflexivity|exfalso; apply HB; exact I].
    + right. destruct Hu' as [g F]. rewrite g. eexists. split; [reflexivity|]. split.
      { unfold ask_count. cbn [orders]. rewrite map_app. reflexivity. }
      assert (U : unsettled (MkEns true (orders en ++ [(j, Listed [])]))).
      { split; [reflexivity|]. cbn [orders]. apply Forall_app. split; auto. }
      destruct (unsettled_mean _ U) as [M _]. rewrite M. unfold ask_count. cbn [orders]. rewrite map_app.
      destruct (map _ (orders en)); reflexivity.
Qed.

(** ** At any time *)
Definition even (e : ensemble Qc) : Prop := settled e /\
  exists n, Forall (fun p => rows_of (snd p) <> [] /\ shaped n (rows_of (snd p))) (orders e).
Lemma even_run c (o : eemd_object Qc G D) S T k E o' : ask_eemd gen dec c o S T k = (Ok E, o') -> even (o_ens o').
Proof.
  intros Ha. split; [apply (run_ensemble _ _ _ _ _ _ _ Ha)|]. exists (length S).
  destruct (ask_eemd_seen gen dec c o S T k) as [X1 X2]. rewrite Ha in X1, X2. cbn [fst snd] in X1, X2.
  destruct (eemd gen dec c (seen o) S T k) as [r o2] eqn:Ee. cbn [fst snd] in X1, X2. subst r.
  destruct (eemd_tab gen dec Hsz Hsh _ _ _ _ _ _ _ Ee) as (C & HC & _ & HS).
  apply Forall_forall. intros p Hp. apply HS. rewrite <- (tab_vals 0 C), <- HC, <- X2. unfold seen. cbn [all_imfs].
  rewrite map_map. cbn [snd]. apply in_map_iff. exists p. auto.
Qed.
Lemma even_always l (o : eemd_object Qc G D) : even (o_ens o) \/ unsettled (o_ens o) ->
  even (o_ens (all_did gen dec o l)) \/ unsettled (o_ens (all_did gen dec o l)).
Proof.
  revert o. induction l as [|a l IH]; intros o Ho; [auto|]. cbn [all_did fold_left]. apply IH.
  destruct a as [s|c S T k|k]; cbn [did]; auto.
  - destruct (ask_eemd gen dec c o S T k) as [r o'] eqn:E. pose proof (run_ensemble _ _ _ _ _ _ _ E) as R. cbn [snd].
    destruct r; [left; eapply even_run; eauto|]. destruct R as [->|R]; auto. right. apply R.
  - cbn [o_ens]. destruct Ho as [Ho|Ho]; [left; rewrite settled_order; auto; apply Ho|right; apply unsettled_order; auto].
Qed.
Theorem any_time (g : G) (d : D) l sqrt :
  let e := o_ens (all_did gen dec (new_object g d) l) in
  (exists M V, ask_mean e = Ok M /\ ask_std sqrt e = Ok V /\
     length M = length (ask_count e) /\ length V = length (ask_count e)) \/
  (ask_count e <> [] /\ ask_mean e = Raise AttributeError /\ ask_std sqrt e = Raise AttributeError).
Proof.
  cbv zeta. set (e := o_ens _). assert (H : even e \/ unsettled e).
  { apply even_always. left. split; [split; [reflexivity|constructor]|]. exists O. constructor. }
  clearbody e. destruct H as [[Hs (n & Hn)]|Hu].
  - left. destruct (settled_mean e Hs) as [M1 M2]. rewrite M1, M2.
    rewrite Forall_forall in Hn.
    eexists _, _. split; [apply (np_array_shaped n)|split; [apply (np_array_shaped n)|]].
    + apply Forall_forall. intros v Hv. apply in_map_iff in Hv as (p & <- & Hp). apply Hn in Hp as [N1 N2].
      destruct (mean_rows_spec n _ N1 N2) as (_ & L & _). exact L.
    + apply Forall_forall. intros v Hv. apply in_map_iff in Hv as (p & <- & Hp). apply Hn in Hp as [N1 N2].
      destruct (is_std_rows sqrt n _ N1 N2) as (m & _ & L & _). exact L.
    + unfold ask_count. rewrite !map_length. auto.
  - destruct (unsettled_mean e Hu) as [M1 M2]. rewrite M1, M2. destruct (ask_count e) as [|x l'] eqn:E.
    + left. exists [], []. auto.
    + right. split; [discriminate|auto].
Qed.
End Runs.
