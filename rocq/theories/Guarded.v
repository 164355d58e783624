(** * Guarded: properties of outcomes and of the object under every schedule, by rely and guarantee (Steps.v). *)
From Verif Require Import PyFacts Steps StepsProofs.
From Coq Require Import Lia.

Section Guarded.
Context {St J R : Type}.
(** [I] always holds of the object; every step leads to a [later] object. *)
Variable I : St -> Prop.
Variable later : St -> St -> Prop.
Hypothesis later_refl : forall a, later a a.
Hypothesis later_trans : forall a b c, later a b -> later b c -> later a c.
(** While others keep [I] and only make the object later, the thread, which has left it as [last], does so too and
    ends with an outcome in [Q]. *)
Fixpoint guarded {R} (Q : res R -> Prop) (last : St) (p : steps St R) : Prop :=
  match p with
  | Done r => Q r
  | Step w k => forall a, I a -> later last a -> I (w a) /\ later a (w a) /\ guarded Q (w a) (k a)
  end.
Variable method : J -> steps St R.
Variable P : J -> Prop.
Variable Q : J -> res R -> Prop.
Hypothesis HM : forall j a, P j -> I a -> guarded (Q j) a (method j).
Notation office := (office St J R).

Definition safe (w : office) : Prop :=
  I (o_state w) /\ (forall i j r, In (i, j, r) (o_log w) -> Q j r) /\
  (forall i t, nth_error (o_workers w) i = Some t -> (forall j, In j (ahead t) -> P j) /\
     forall j p, inside t = Some (j, p) -> exists last, later last (o_state w) /\ guarded (Q j) last p).
Lemma proceed_safe w i t l a j p : safe w -> nth_error (o_workers w) i = Some t -> I a -> later (o_state w) a ->
  (forall j, In j l -> P j) -> guarded (Q j) a p -> safe (proceed w i l a j p).
Proof.
  intros (H0 & H1 & H2) Hi Ha La Hl HP.
  assert (K : forall i' t', nth_error (o_workers w) i' = Some t' -> (forall j, In j (ahead t') -> P j) /\
     forall j p, inside t' = Some (j, p) -> exists last, later last a /\ guarded (Q j) last p).
  { intros i' t' Hn. destruct (H2 i' t' Hn) as [K1 K2]. split; auto. intros j' p' E. destruct (K2 j' p' E) as (last & L1 & L2). eauto. }
  destruct p as [r|f k]; cbn [proceed]; (split; [|split]); cbn [o_log o_workers o_state]; auto.
  - intros i' j' r' Hin. apply in_app_or in Hin as [Hin|[Hin|[]]]; [eauto|]. injection Hin as <- <- <-. exact HP.
  - intros i' t' Hn. destruct (Nat.eq_dec i i') as [<-|N]; [|rewrite swap_in_other in Hn by auto; eauto].
    rewrite (swap_in_same _ _ _ _ Hi) in Hn. injection Hn as <-. cbn [ahead inside]. split; auto. discriminate.
  - intros i' t' Hn. destruct (Nat.eq_dec i i') as [<-|N]; [|rewrite swap_in_other in Hn by auto; eauto].
    rewrite (swap_in_same _ _ _ _ Hi) in Hn. injection Hn as <-. cbn [ahead inside]. split; auto.
    intros j' p' E. injection E as <- <-. exists a. auto.
Qed.
Theorem workers_guarded a jobs s : I a -> (forall l j, In l jobs -> In j l -> P j) ->
  I (o_state (run_all method (opening a jobs) s)) /\
  forall i j r, In (i, j, r) (o_log (run_all method (opening a jobs) s)) -> Q j r.
Proof.
  intros Ha Hj.
  assert (G0 : safe (opening a jobs)).
  { split; [exact Ha|]. split; [intros i j r []|]. intros i t Hn. cbn [opening o_workers] in Hn. apply nth_error_In, in_map_iff in Hn as (l & <- & Hl).
    cbn [ahead inside]. split; [eauto|discriminate]. }
  assert (Gs : forall s w, safe w -> safe (run_all method w s)).
  { clear s G0. induction s as [|i s IH]; intros w HS; cbn [run_all fold_left]; auto. apply IH. unfold turn.
    destruct (nth_error (o_workers w) i) as [t|] eqn:Hi; auto. pose proof HS as (H0 & H1 & H2). destruct (H2 i t Hi) as [Hl Hp].
    destruct (inside t) as [(j, [r|f k])|] eqn:Hc.
    - destruct (Hp j _ eq_refl) as (last & L1 & L2). eapply proceed_safe; eauto.
    - destruct (Hp j _ eq_refl) as (last & L1 & L2). destruct (L2 (o_state w) H0 L1) as (K1 & K2 & K3). eapply proceed_safe; eauto.
    - destruct (ahead t) as [|j l] eqn:Et; auto. eapply proceed_safe; eauto; [intros j' Hj'; apply Hl; right; exact Hj'|apply HM; auto; apply Hl; left; reflexivity]. }
  destruct (Gs s _ G0) as (K0 & K1 & _). split; assumption.
Qed.
End Guarded.

Lemma two_kept {X} (f : X -> bool) l i j t u : nth_error l i = Some t -> nth_error l j = Some u -> f t = true -> f u = true -> i <> j ->
  (2 <= length (filter f l))%nat.
Proof.
  assert (One : forall l i t, nth_error l i = Some t -> f t = true -> (1 <= length (filter f l))%nat).
  { clear. induction l as [|x l IH]; intros [|i] t E F; cbn in *; try discriminate.
    - injection E as <-. rewrite F. cbn. lia.
    - specialize (IH _ _ E F). destruct (f x); cbn; lia. }
  revert i j. induction l as [|x l IH]; intros [|i] [|j] Hi Hj Ft Fu N; cbn in *; try discriminate; try congruence.
  - injection Hi as <-. rewrite Ft. cbn. specialize (One _ _ _ Hj Fu). lia.
  - injection Hj as <-. rewrite Fu. cbn. specialize (One _ _ _ Hi Ft). lia.
  - specialize (IH i j Hi Hj Ft Fu ltac:(congruence)). destruct (f x); cbn; lia.
Qed.
