(** * JitObjProofs: shared settings and shared results of JitEMD. *)
From Verif Require Import Py PyFacts QcFacts Emd Jit JitObj Ctor.
From Coq Require Import String List Lia ZArith.
Import ListNotations.
Local Notation length := List.length.
Open Scope string_scope.
Open Scope Z_scope.

Lemma update_length {X} (l : list X) i f : length (update l i f) = length l.
Proof. revert i. induction l as [|x l IH]; intros [|i]; cbn; auto. Qed.
Lemma update_nth {X} (l : list X) i f j d : nth j (update l i f) d = if Nat.eqb i j then (if Nat.ltb j (length l) then f (nth j l d) else d) else nth j l d.
Proof.
  revert i j. induction l as [|x l IH]; intros i j; [destruct i, j; cbn; try destruct (Nat.eqb _ _); reflexivity|].
  destruct i as [|i], j as [|j]; try reflexivity. cbn [update nth]. rewrite IH. reflexivity.
Qed.
Lemma update_error {X} (l : list X) i f j : nth_error (update l i f) j = if Nat.eqb i j then option_map f (nth_error l j) else nth_error l j.
Proof.
  revert i j. induction l as [|x l IH]; intros i j; [destruct i, j; cbn; try destruct (Nat.eqb _ _); reflexivity|].
  destruct i as [|i], j as [|j]; try reflexivity. cbn [update nth_error]. rewrite IH. reflexivity.
Qed.

Section Facts.
Context {A : Type} `{Num A}.
Variable spl : spline_oracle A.
Variable fuel : nat.
Variable strict : bool.
Notation run := (jit_run spl fuel strict).
Notation step := (jit_step spl fuel strict).

Lemma lookup_set (d : list (string * A)) k v k' : lookup (set_item d k v) k' = if String.eqb k k' then Ok v else lookup d k'.
Proof.
  induction d as [|[a b] d IH]; cbn [set_item lookup].
  - destruct (String.eqb k k'); reflexivity.
  - destruct (String.eqb_spec a k) as [->|Na]; cbn [lookup].
    + destruct (String.eqb k k'); reflexivity.
    + rewrite IH. destruct (String.eqb_spec a k') as [->|]; auto. destruct (String.eqb_spec k k'); congruence.
Qed.
(** Dictionaries are changed by assignments to them alone. *)
Definition item_of (d : nat) (op : jit_op A) : list (string * A) := match op with SetItem d' k v => if Nat.eqb d' d then [(k, v)] else [] | _ => [] end.
Lemma step_dict w op d : (d < length (dicts w))%nat ->
  (d < length (dicts (step w op)))%nat /\
  nth d (dicts (step w op)) [] = fold_left (fun s p => set_item s (fst p) (snd p)) (item_of d op) (nth d (dicts w) []).
Proof.
  intros Hd. destruct op as [d'|d' k v|cf ki de|o S T k|a i j x]; cbn [jit_step item_of dicts fold_left]; auto.
  - rewrite app_length. split; [lia|]. apply app_nth1. auto.
  - rewrite update_length. split; auto. rewrite update_nth. destruct (Nat.eqb_spec d' d); cbn [fold_left fst snd]; auto.
    assert (E : Nat.ltb d (length (dicts w)) = true) by (apply Nat.ltb_lt; auto). rewrite E. reflexivity.
  - destruct (nth_error (objects w) o) as [ob|]; auto. destruct (decompose _ _ _ _ _ _ _ _); auto.
Qed.
Lemma run_dict ops w d : (d < length (dicts w))%nat ->
  nth d (dicts (run w ops)) [] = fold_left (fun s p => set_item s (fst p) (snd p)) (flat_map (item_of d) ops) (nth d (dicts w) []).
Proof.
  revert w. induction ops as [|op ops IH]; intros w Hd; [reflexivity|]. cbn [jit_run fold_left flat_map].
  destruct (step_dict w op d Hd) as [H1 H2]. rewrite fold_left_app, <- H2. apply (IH (step w op) H1).
Qed.
Lemma run_dicts_grow ops w : (length (dicts w) <= length (dicts (run w ops)))%nat.
Proof.
  revert w. induction ops as [|op ops IH]; intros w; [reflexivity|]. cbn [jit_run fold_left]. etransitivity; [|apply IH].
  destruct op as [d'|d' k v|cf ki de|o S T k|a i j x]; cbn [jit_step dicts]; auto.
  - rewrite app_length. lia.
  - rewrite update_length. auto.
  - destruct (nth_error (objects w) o) as [ob|]; auto. destruct (decompose _ _ _ _ _ _ _ _); auto.
Qed.
(** Objects keep their dictionary and strings. *)
Lemma step_object w op i o : nth_error (objects w) i = Some o ->
  exists o', nth_error (objects (step w op)) i = Some o' /\ j_config o' = j_config o /\ j_kind o' = j_kind o /\ j_det o' = j_det o.
Proof.
  intros E. destruct op as [d'|d' k v|cf ki de|n S T k|a r j x]; cbn [jit_step objects]; eauto.
  - exists o. split; auto. rewrite nth_error_app1; auto. apply nth_error_Some. congruence.
  - destruct (nth_error (objects w) n) as [ob|] eqn:En; eauto. destruct (decompose _ _ _ _ _ _ _ _); eauto. cbn [objects].
    rewrite update_error, E. destruct (Nat.eqb n i); cbn [option_map]; eauto.
Qed.
Lemma run_object ops w i o : nth_error (objects w) i = Some o ->
  exists o', nth_error (objects (run w ops)) i = Some o' /\ j_config o' = j_config o /\ j_kind o' = j_kind o /\ j_det o' = j_det o.
Proof.
  revert w o. induction ops as [|op ops IH]; intros w o E; [eauto|]. cbn [jit_run fold_left].
  destruct (step_object w op i o E) as (o1 & E1 & H1 & H2 & H3). destruct (IH _ _ E1) as (o2 & E2 & G1 & G2 & G3).
  exists o2. unfold jit_run in E2. split; [exact E2|]. split; [congruence|]. split; congruence.
Qed.
(** Until it decomposes again, an object refers to the same array. *)
Definition decomposes (i : nat) (op : jit_op A) : bool := match op with Decompose j _ _ _ => Nat.eqb j i | _ => false end.
Lemma step_result w op i o : nth_error (objects w) i = Some o -> decomposes i op = false -> nth_error (objects (step w op)) i = Some o.
Proof.
  intros E Hd. destruct op as [d'|d' k v|cf ki de|n S T k|a r j x]; cbn [jit_step objects]; auto.
  - rewrite nth_error_app1; auto. apply nth_error_Some. congruence.
  - destruct (nth_error (objects w) n) as [ob|] eqn:En; auto. destruct (decompose _ _ _ _ _ _ _ _); auto. cbn [objects].
    rewrite update_error. cbn [decomposes] in Hd. rewrite Hd. auto.
Qed.
Lemma run_result ops w i o : nth_error (objects w) i = Some o -> forallb (fun op => negb (decomposes i op)) ops = true ->
  nth_error (objects (run w ops)) i = Some o.
Proof.
  revert w. induction ops as [|op ops IH]; intros w E Hd; [exact E|]. cbn [forallb] in Hd. apply andb_prop in Hd as [H1 H2].
  cbn [jit_run fold_left]. apply IH; auto. apply step_result; auto. destruct (decomposes i op); [discriminate H1|reflexivity].
Qed.
Definition write_of (a : nat) (op : jit_op A) : list (nat * nat * A) := match op with WriteTo b i j x => if Nat.eqb b a then [(i, j, x)] else [] | _ => [] end.
Definition write_all (M : list (list A)) (ws : list (nat * nat * A)) : list (list A) :=
  fold_left (fun M p => update M (fst (fst p)) (fun r => update r (snd (fst p)) (fun _ => snd p))) ws M.
Lemma step_array w op a : (a < length (arrays w))%nat ->
  (a < length (arrays (step w op)))%nat /\ nth a (arrays (step w op)) [] = write_all (nth a (arrays w) []) (write_of a op).
Proof.
  intros Ha. destruct op as [d'|d' k v|cf ki de|n S T k|b i j x]; cbn [jit_step arrays write_of]; auto.
  - destruct (nth_error (objects w) n) as [ob|] eqn:En; auto. destruct (decompose _ _ _ _ _ _ _ _); auto. cbn [arrays].
    rewrite app_length. split; [lia|]. apply app_nth1. auto.
  - rewrite update_length. split; auto. rewrite update_nth. destruct (Nat.eqb_spec b a); auto.
    assert (E : Nat.ltb a (length (arrays w)) = true) by (apply Nat.ltb_lt; auto). rewrite E. reflexivity.
Qed.
Lemma run_array ops w a : (a < length (arrays w))%nat -> nth a (arrays (run w ops)) [] = write_all (nth a (arrays w) []) (flat_map (write_of a) ops).
Proof.
  revert w. induction ops as [|op ops IH]; intros w Ha; [reflexivity|]. cbn [jit_run fold_left flat_map].
  destruct (step_array w op a Ha) as [H1 H2]. unfold write_all. rewrite fold_left_app. fold (write_all (nth a (arrays w) []) (write_of a op)).
  rewrite <- H2. apply (IH (step w op) H1).
Qed.

(** ** Settings *)
Definition settings_of (w : world A) (o : jit_object) := nth (j_config o) (dicts w) [].
Definition needed : list string :=
  ["MAX_ITERATION"; "FIXE"; "FIXE_H"; "nbsym"; "svar_thr"; "std_thr"; "energy_ratio_thr"; "range_thr"; "total_power_thr"].
Lemma lookup_in (d : list (string * A)) k : (exists v, lookup d k = Ok v) <-> In k (map fst d).
Proof.
  induction d as [|[a b] d IH]; cbn [lookup map fst In].
  - split; [intros [v E]; discriminate E|intros []].
  - destruct (String.eqb_spec a k) as [->|N]; [split; eauto|]. rewrite IH. split; [auto|]. intros [E|E]; [congruence|auto].
Qed.
Lemma lookup_key (d : list (string * A)) k e : lookup d k = Raise e -> e = KeyError.
Proof. induction d as [|[a b] d IH]; cbn [lookup]; [congruence|]. destruct (String.eqb a k); [discriminate|auto]. Qed.
Lemma read_all (d : list (string * A)) kind det :
  (forall k, In k needed -> In k (map fst d)) <-> exists c, read_settings d kind det = Ok c.
Proof.
  unfold needed, read_settings. split.
  - intros Hk. assert (L : forall k, In k needed -> exists v, lookup d k = Ok v) by (intros k Hk'; apply lookup_in; auto).
    repeat match goal with |- context [lookup d ?k] => destruct (L k) as [? ->]; [unfold needed; cbn; tauto|]; cbn [bind] end. eauto.
  - intros [c E] k Hk. apply lookup_in.
    repeat match type of E with context [lookup d ?k] => let v := fresh "v" in let Ev := fresh "Ev" in destruct (lookup d k) as [v|] eqn:Ev; [|discriminate E]; cbn [bind] in E end.
    cbn [In] in Hk. decompose [or] Hk; try contradiction; subst; eauto.
Qed.
Lemma read_key (d : list (string * A)) kind det e : read_settings d kind det = Raise e -> e = KeyError.
Proof.
  unfold read_settings. intros E.
  repeat match type of E with context [lookup d ?k] => let v := fresh "v" in let Ev := fresh "Ev" in
    destruct (lookup d k) as [v|] eqn:Ev; cbn [bind] in E; [|apply lookup_key in Ev; congruence] end.
  discriminate E.
Qed.

(** ** Specification: the last value assigned to a key, and to an element of an array *)
Fixpoint last_set (d : nat) (k : string) (ops : list (jit_op A)) : option A :=
  match ops with
  | [] => None
  | op :: ops' =>
    match last_set d k ops', op with
    | Some v, _ => Some v
    | None, SetItem d' k' v => if Nat.eqb d' d && String.eqb k' k then Some v else None
    | None, _ => None
    end
  end.
Fixpoint last_write (a i j : nat) (ops : list (jit_op A)) : option A :=
  match ops with
  | [] => None
  | op :: ops' =>
    match last_write a i j ops', op with
    | Some v, _ => Some v
    | None, WriteTo a' i' j' v => if Nat.eqb a' a && Nat.eqb i' i && Nat.eqb j' j then Some v else None
    | None, _ => None
    end
  end.
Lemma last_set_lookup ops w d k : (d < length (dicts w))%nat ->
  lookup (nth d (dicts (run w ops)) []) k = match last_set d k ops with Some v => Ok v | None => lookup (nth d (dicts w) []) k end.
Proof.
  revert w. induction ops as [|op ops IH]; intros w Hd; [reflexivity|]. cbn [jit_run fold_left last_set].
  destruct (step_dict w op d Hd) as [H1 H2]. unfold jit_run in IH. rewrite (IH _ H1), H2. destruct (last_set d k ops); [reflexivity|].
  destruct op as [d'|d' k' v|cf ki de|n S T m|b i j x]; cbn [item_of fold_left]; auto.
  destruct (Nat.eqb d' d); cbn [fold_left andb fst snd]; auto. rewrite lookup_set. destruct (String.eqb k' k); reflexivity.
Qed.
Lemma run_app w p q : run w (p ++ q) = run (run w p) q.
Proof. unfold jit_run. apply fold_left_app. Qed.
Lemma last_set_app d k p q : last_set d k (p ++ q) = match last_set d k q with Some v => Some v | None => last_set d k p end.
Proof. induction p as [|op p IH]; cbn [app last_set]; [destruct (last_set d k q); reflexivity|]. rewrite IH. destruct (last_set d k q); reflexivity. Qed.

Lemma new_object w cf kind det more :
  exists o, nth_error (objects (run w (NewObject cf kind det :: more))) (length (objects w)) = Some o /\
    j_config o = choose_config w cf /\ j_kind o = kind /\ j_det o = det.
Proof.
  cbn [jit_run fold_left]. destruct (run_object more (step w (NewObject cf kind det)) (length (objects w)) (MkJObj (choose_config w cf) kind det None)) as (o & E & H1 & H2 & H3).
  - cbn [jit_step objects]. rewrite nth_error_app2 by lia. rewrite Nat.sub_diag. reflexivity.
  - exists o. unfold jit_run in E. auto.
Qed.
Lemma shared_defaults ops cf kind det more : (forall d, cf = Some d -> nth d (dicts (run start ops)) [] = []) ->
  exists o, nth_error (objects (run start (ops ++ NewObject cf kind det :: more))) (length (objects (run start ops))) = Some o /\
    j_kind o = kind /\ j_det o = det /\
    forall k, lookup (settings_of (run start (ops ++ NewObject cf kind det :: more)) o) k =
      match last_set 0 k (ops ++ more) with Some v => Ok v | None => lookup default_emd_config k end.
Proof.
  intros Hc. destruct (new_object (run start ops) cf kind det more) as (o & E & H1 & H2 & H3). rewrite run_app.
  exists o. split; auto. split; auto. split; auto. intros k. unfold settings_of. rewrite H1.
  assert (E0 : choose_config (run start ops) cf = 0%nat) by (unfold choose_config; destruct cf as [d|]; auto; rewrite (Hc d eq_refl); reflexivity).
  rewrite E0, <- run_app, last_set_lookup by (cbn; lia). rewrite !last_set_app. cbn [last_set].
  destruct (last_set 0 k more); reflexivity.
Qed.
Lemma own_settings w d kind det more : (d < length (dicts w))%nat -> nth d (dicts w) [] <> [] ->
  exists o, nth_error (objects (run w (NewObject (Some d) kind det :: more))) (length (objects w)) = Some o /\
    j_kind o = kind /\ j_det o = det /\
    forall k, lookup (settings_of (run w (NewObject (Some d) kind det :: more)) o) k =
      match last_set d k more with Some v => Ok v | None => lookup (nth d (dicts w) []) k end.
Proof.
  intros Hd Hn. destruct (new_object w (Some d) kind det more) as (o & E & H1 & H2 & H3).
  exists o. split; auto. split; auto. split; auto. intros k. unfold settings_of. rewrite H1.
  assert (E0 : choose_config w (Some d) = d) by (unfold choose_config; destruct (nth d (dicts w) []); congruence).
  rewrite E0, last_set_lookup by auto. cbn [last_set]. destruct (last_set d k more); reflexivity.
Qed.

Lemma only_needed w w' (o o' : jit_object) S T k :
  (forall n, In n needed -> lookup (settings_of w o) n = lookup (settings_of w' o') n) -> j_kind o = j_kind o' -> j_det o = j_det o' ->
  decompose spl fuel strict w o S T k = decompose spl fuel strict w' o' S T k.
Proof.
  intros Hn Hk Hd. unfold decompose. f_equal. unfold read_settings. rewrite Hk, Hd. fold (settings_of w o). fold (settings_of w' o').
  rewrite !(Hn "MAX_ITERATION"), !(Hn "FIXE"), !(Hn "FIXE_H"), !(Hn "nbsym"), !(Hn "svar_thr"), !(Hn "std_thr"), !(Hn "energy_ratio_thr"),
    !(Hn "range_thr"), !(Hn "total_power_thr") by (unfold needed; cbn; tauto).
  reflexivity.
Qed.
Lemma missing w (o : jit_object) S T k n : In n needed -> ~ In n (map fst (settings_of w o)) -> decompose spl fuel strict w o S T k = Raise KeyError.
Proof.
  intros Hn Hm. unfold decompose. fold (settings_of w o). destruct (read_settings (settings_of w o) (j_kind o) (j_det o)) as [c|e] eqn:E.
  - exfalso. apply Hm. apply (proj2 (read_all (settings_of w o) (j_kind o) (j_det o))); eauto.
  - apply read_key in E. subst. reflexivity.
Qed.
Lemma failed w i o S T k e : nth_error (objects w) i = Some o -> decompose spl fuel strict w o S T k = Raise e -> step w (Decompose i S T k) = w.
Proof. intros E Ed. cbn [jit_step]. rewrite E, Ed. reflexivity. Qed.

Lemma step_arrays_grow w op a : (a < length (arrays w))%nat -> (a < length (arrays (step w op)))%nat.
Proof. intros Ha. apply step_array; auto. Qed.
Definition same_shape (M M' : list (list A)) := map (@List.length A) M' = map (@List.length A) M.
Lemma update_shape (M : list (list A)) i j x : same_shape M (update M i (fun r => update r j (fun _ => x))).
Proof.
  unfold same_shape. revert i. induction M as [|r M IH]; intros [|i]; cbn [update map]; auto.
  - f_equal. apply update_length.
  - f_equal. apply IH.
Qed.
Lemma update_elem (M : list (list A)) i j x r c z : (c < length (nth r M []))%nat ->
  nth c (nth r (update M i (fun v => update v j (fun _ => x))) []) z = if Nat.eqb i r && Nat.eqb j c then x else nth c (nth r M []) z.
Proof.
  intros Hc. assert (Hr : (r < length M)%nat) by (destruct (Nat.lt_ge_cases r (length M)); auto; rewrite nth_overflow in Hc by auto; cbn in Hc; lia).
  rewrite update_nth. destruct (Nat.eqb i r); cbn [andb]; auto.
  assert (E : Nat.ltb r (length M) = true) by (apply Nat.ltb_lt; auto). rewrite E. rewrite update_nth.
  destruct (Nat.eqb j c); auto. assert (E' : Nat.ltb c (length (nth r M [])) = true) by (apply Nat.ltb_lt; auto). rewrite E'. reflexivity.
Qed.
Lemma shaped_row (M M' : list (list A)) r : same_shape M M' -> length (nth r M' []) = length (nth r M []).
Proof.
  unfold same_shape. intros E. change (length (nth r M' [])) with (length (nth r M' (@nil A))).
  rewrite <- (map_nth (@List.length A) M' [] r), <- (map_nth (@List.length A) M [] r), E. reflexivity.
Qed.
Lemma array_now ops w a : (a < length (arrays w))%nat ->
  same_shape (nth a (arrays w) []) (nth a (arrays (run w ops)) []) /\
  forall r c z, (c < length (nth r (nth a (arrays w) []) []))%nat ->
  nth c (nth r (nth a (arrays (run w ops)) []) []) z = match last_write a r c ops with Some x => x | None => nth c (nth r (nth a (arrays w) []) []) z end.
Proof.
  revert w. induction ops as [|op ops IH]; intros w Ha; [split; [reflexivity|auto]|]. cbn [jit_run fold_left last_write].
  destruct (step_array w op a Ha) as [H1 H2]. destruct (IH _ H1) as [I1 I2]. unfold jit_run in I1, I2.
  assert (Sh : same_shape (nth a (arrays w) []) (nth a (arrays (step w op)) [])).
  { rewrite H2. destruct op as [d'|d' k v|cf ki de|n S T k|b i j x]; cbn [write_of]; try reflexivity.
    destruct (Nat.eqb b a); [|reflexivity]. cbn [write_all fold_left fst snd]. apply update_shape. }
  split; [unfold same_shape in *; congruence|]. intros r c z Hc. rewrite I2 by (rewrite (shaped_row _ _ r Sh); auto).
  destruct (last_write a r c ops); auto. rewrite H2. destruct op as [d'|d' k v|cf ki de|n S T k|b i j x]; cbn [write_of]; try reflexivity.
  destruct (Nat.eqb b a); cbn [andb]; [|reflexivity]. cbn [write_all fold_left fst snd]. rewrite update_elem by auto.
  destruct (Nat.eqb i r); cbn [andb]; auto. destruct (Nat.eqb j c); auto.
Qed.
(** After a decomposition that returned [M]. *)
Lemma stored w i o S T k M more : nth_error (objects w) i = Some o -> decompose spl fuel strict w o S T k = Ok M ->
  forallb (fun op => negb (decomposes i op)) more = true ->
  exists o' M', nth_error (objects (run w (Decompose i S T k :: more))) i = Some o' /\
    jit_stored (run w (Decompose i S T k :: more)) o' = MkJit (Some (py_slice M' 0 (-1))) (Some (py_from M' (-1))) /\
    same_shape M M' /\
    forall r c z, (c < length (nth r M []))%nat ->
      nth c (nth r M' []) z = match last_write (length (arrays w)) r c more with Some x => x | None => nth c (nth r M []) z end.
Proof.
  intros E Ed Hm. cbn [jit_run fold_left]. set (w1 := step w (Decompose i S T k)).
  assert (E1 : nth_error (objects w1) i = Some (MkJObj (j_config o) (j_kind o) (j_det o) (Some (length (arrays w)))) /\ arrays w1 = (arrays w ++ [M])%list).
  { unfold w1. cbn [jit_step]. rewrite E, Ed. cbn [objects arrays]. split; auto. rewrite update_error, Nat.eqb_refl, E. reflexivity. }
  destruct E1 as [E1 Ea]. eexists. exists (nth (length (arrays w)) (arrays (run w1 more)) []).
  split; [apply (run_result more w1 i _ E1 Hm)|]. split; [reflexivity|].
  assert (Ha : (length (arrays w) < length (arrays w1))%nat) by (rewrite Ea, app_length; cbn; lia).
  assert (En : nth (length (arrays w)) (arrays w1) [] = M) by (rewrite Ea, app_nth2, Nat.sub_diag by lia; reflexivity).
  destruct (array_now more w1 _ Ha) as [A1 A2]. rewrite En in A1, A2. split; auto.
Qed.
End Facts.
(** The defaults, where whole numbers survive being stored as floats. *)
Lemma defaults_agree A (N : Num A) : (forall z, In z [0; 2; 1000] -> ntrunc (nofZ z : A) = z) ->
  exists o, @emd_new A N [] = Ok o /\ read_settings default_emd_config "cubic" "simple" = Ok (e_cfg o).
Proof.
  intros Hz. eexists. split; [reflexivity|]. unfold read_settings, default_emd_config.
  repeat match goal with |- context [lookup ?d ?k] => let v := eval cbn [lookup String.eqb Ascii.eqb Bool.eqb] in (lookup d k) in change (lookup d k) with v; cbn [bind] end.
  rewrite !Hz by (cbn; tauto). reflexivity.
Qed.
