(** * GuardedLog: rely and guarantee as in Guarded.v, with the object as it was when each call ended (Steps.v). *)
From Verif Require Import PyFacts Steps StepsProofs.
From Coq Require Import Lia.

Section GuardedLog.
Context {St J R : Type}.
Variable I : St -> Prop.
Variable later : St -> St -> Prop.
Hypothesis later_refl : forall a, later a a.
Hypothesis later_trans : forall a b c, later a b -> later b c -> later a c.
(** As [guarded], with an outcome related to the object at the end. *)
Fixpoint guarded_at {R} (Q : St -> res R -> Prop) (last : St) (p : steps St R) : Prop :=
  match p with
  | Done r => Q last r
  | Step w k => forall a, I a -> later last a -> I (w a) /\ later a (w a) /\ guarded_at Q (w a) (k a)
  end.
Variable method : J -> steps St R.
Variable Q : J -> St -> res R -> Prop.
Hypothesis HM : forall j a, I a -> guarded_at (Q j) a (method j).
Notation office := (office St J R).

(** The objects at the ends of the calls of a log, each later than those before it. *)
Inductive ends_at : list (nat * J * res R) -> list St -> Prop :=
| ends_nil : ends_at [] []
| ends_snoc log hs i j r a : ends_at log hs -> Q j a r -> (forall b, In b hs -> later b a) -> ends_at (log ++ [(i, j, r)]) (hs ++ [a]).
Definition kept (w : office) : Prop :=
  I (o_state w) /\ (exists hs, ends_at (o_log w) hs /\ forall b, In b hs -> later b (o_state w)) /\
  (forall i t j p, nth_error (o_workers w) i = Some t -> inside t = Some (j, p) ->
     (forall r, p <> Done r) /\ exists last, later last (o_state w) /\ guarded_at (Q j) last p).
Lemma proceed_kept w i t l a j p : kept w -> nth_error (o_workers w) i = Some t -> I a -> later (o_state w) a ->
  guarded_at (Q j) a p -> kept (proceed w i l a j p).
Proof.
  intros (H0 & (hs & H1 & H1') & H2) Hi Ha La HP.
  assert (K : forall i' t' j' p', nth_error (o_workers w) i' = Some t' -> inside t' = Some (j', p') ->
     (forall r, p' <> Done r) /\ exists last, later last a /\ guarded_at (Q j') last p').
  { intros i' t' j' p' Hn Hc. destruct (H2 i' t' j' p' Hn Hc) as (D & last & L1 & L2). split; auto. eauto. }
  destruct p as [r|f k]; cbn [proceed]; (split; [|split]); cbn [o_log o_workers o_state]; auto.
  - exists (hs ++ [a]). split; [constructor; auto; intros b Hb; eauto|].
    intros b Hb. apply in_app_or in Hb as [Hb|[<-|[]]]; eauto.
  - intros i' t' j' p' Hn Hc. destruct (Nat.eq_dec i i') as [<-|N]; [|rewrite swap_in_other in Hn by auto; eauto].
    rewrite (swap_in_same _ _ _ _ Hi) in Hn. injection Hn as <-. discriminate.
  - eauto.
  - intros i' t' j' p' Hn Hc. destruct (Nat.eq_dec i i') as [<-|N]; [|rewrite swap_in_other in Hn by auto; eauto].
    rewrite (swap_in_same _ _ _ _ Hi) in Hn. injection Hn as <-. cbn [inside] in Hc. injection Hc as <- <-. split; [discriminate|]. exists a. auto.
Qed.
Theorem workers_log a jobs s : I a -> exists hs, ends_at (o_log (run_all method (opening a jobs) s)) hs.
Proof.
  intros Ha.
  assert (G0 : kept (opening a jobs)).
  { split; [exact Ha|]. split; [exists []; split; [constructor|intros b []]|].
    intros i t j p Hn. cbn [opening o_workers] in Hn. apply nth_error_In, in_map_iff in Hn as (l & <- & Hl). discriminate. }
  assert (Gs : forall s w, kept w -> kept (run_all method w s)).
  { clear s G0. induction s as [|i s IH]; intros w HS; cbn [run_all fold_left]; auto. apply IH. unfold turn.
    destruct (nth_error (o_workers w) i) as [t|] eqn:Hi; auto. pose proof HS as (H0 & H1 & H2).
    destruct (inside t) as [(j, [r|f k])|] eqn:Hc.
    - destruct (H2 i t j _ Hi Hc) as (D & _). destruct (D r eq_refl).
    - destruct (H2 i t j _ Hi Hc) as (_ & last & L1 & L2). destruct (L2 (o_state w) H0 L1) as (K1 & K2 & K3). eapply proceed_kept; eauto.
    - destruct (ahead t) as [|j l] eqn:Et; auto. eapply proceed_kept; eauto. }
  destruct (Gs s _ G0) as (_ & (hs & E & _) & _). eauto.
Qed.
(** Two calls, one after the other in the log. *)
Lemma ends_order log hs : ends_at log hs -> forall l1 i j r l2 i' j' r', log = l1 ++ (i, j, r) :: l2 -> In (i', j', r') l2 ->
  exists a b, Q j a r /\ Q j' b r' /\ later a b.
Proof.
  intros HE.
  assert (One : forall log hs, ends_at log hs -> forall i j r, In (i, j, r) log -> exists a, In a hs /\ Q j a r).
  { clear log hs HE. induction 1 as [|log hs i j r a HE IH HQ HL]; intros i0 j0 r0 Hin; [destruct Hin|].
    apply in_app_or in Hin as [Hin|[Hin|[]]]; [destruct (IH _ _ _ Hin) as (b & Hb & HQb); exists b; split; auto; apply in_or_app; auto|].
    injection Hin as <- <- <-. exists a. split; auto. apply in_or_app. right. left. reflexivity. }
  induction HE as [|log hs i0 j0 r0 a HE IH HQ HL]; intros l1 i j r l2 i' j' r' E Hin; [destruct l1; discriminate|].
  assert (N : l2 <> []) by (intros ->; destruct Hin). destruct (exists_last N) as (l3 & x & ->).
  rewrite app_comm_cons, app_assoc in E. apply app_inj_tail in E as [E Ex].
  apply in_app_or in Hin as [Hin|[Hin|[]]]; [eapply IH; eauto|]. rewrite <- Ex in Hin. injection Hin as <- <- <-.
  destruct (One log hs HE i j r) as (b & Hb & HQb); [rewrite E; apply in_or_app; right; left; reflexivity|].
  exists b, a. auto.
Qed.
End GuardedLog.
