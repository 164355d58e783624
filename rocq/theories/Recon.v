(** * Recon: an executable morphological reconstruction by dilation, to instantiate the
    assumption about skimage.  It is not part of the model of PyEMD. *)
From Verif Require Import PyFacts QcFacts Spec Image ImageSpec EmdExact ImageProofs ImageSift BemdProofs.
From Coq Require Import ZifyBool ZifyNat QArith Qcanon Sorting.Sorted.

Definition qmx (a b : Qc) : Qc := if Qc_ltb a b then b else a.
Definition qmn (a b : Qc) : Qc := if Qc_ltb a b then a else b.
Lemma qmx_l a b : (a <= qmx a b)%Qc.
Proof. unfold qmx. destruct (Qc_ltb a b) eqn:E; [apply Qc_ltb_lt in E; qclra|apply Qcle_refl]. Qed.
Lemma qmx_r a b : (b <= qmx a b)%Qc.
Proof. unfold qmx. destruct (Qc_ltb a b) eqn:E; [apply Qcle_refl|]. destruct (Qclt_le_dec a b) as [C|C]; auto. apply Qc_ltb_lt in C. congruence. Qed.
Lemma qmx_or a b : qmx a b = a \/ qmx a b = b.
Proof. unfold qmx. destruct (Qc_ltb a b); auto. Qed.
Lemma qmn_or a b : qmn a b = a \/ qmn a b = b.
Proof. unfold qmn. destruct (Qc_ltb a b); auto. Qed.
Lemma qmn_l a b : (qmn a b <= a)%Qc.
Proof. unfold qmn. destruct (Qc_ltb a b) eqn:E; [apply Qcle_refl|]. destruct (Qclt_le_dec a b) as [C|C]; auto. apply Qc_ltb_lt in C. congruence. Qed.
Lemma qmn_r a b : (qmn a b <= b)%Qc.
Proof. unfold qmn. destruct (Qc_ltb a b) eqn:E; [apply Qc_ltb_lt in E; qclra|apply Qcle_refl]. Qed.

Definition nb (i j : nat) (p : nat * nat) : bool :=
  Nat.leb i (fst p + 1) && Nat.leb (fst p) (i + 1) && (Nat.leb j (snd p + 1) && Nat.leb (snd p) (j + 1)).
Definition nbrs (n m i j : nat) : list (nat * nat) := filter (nb i j) (grid n m).
Definition up (n m : nat) (x r : img) : img :=
  build n m (fun i j => fold_left (fun v p => qmx v (qmn (pixel x i j) (pixel r (fst p) (snd p)))) (nbrs n m i j) (pixel r i j)).
Definition stable (n m : nat) (r r' : img) : bool :=
  forallb (fun p => Qc_eq_bool (pixel r (fst p) (snd p)) (pixel r' (fst p) (snd p))) (grid n m).
Fixpoint rise (n m : nat) (fuel : nat) (x r : img) : img :=
  match fuel with
  | O => r
  | Datatypes.S fuel' => let r' := up n m x r in if stable n m r r' then r else rise n m fuel' x r'
  end.
Definition recon (s x : img) : img :=
  let n := nrows x in let m := ncols x in
  rise n m (length (concat s ++ concat x) * (n * m)) x s.

Lemma nbrs_In n m i j a b : In (a, b) (nbrs n m i j) <-> (a < n /\ b < m)%nat /\ neighbour i j a b.
Proof.
  unfold nbrs. rewrite filter_In, grid_In. cbn [fst snd]. unfold nb, neighbour. cbn [fst snd].
  rewrite !andb_true_iff, !Nat.leb_le. tauto.
Qed.
Lemma fold_spec (g : nat * nat -> Qc) l : forall v0,
  let v := fold_left (fun v p => qmx v (g p)) l v0 in
  (v0 <= v)%Qc /\ (forall p, In p l -> (g p <= v)%Qc) /\ (v = v0 \/ exists p, In p l /\ v = g p).
Proof.
  induction l as [|p l IH]; intros v0; cbn [fold_left].
  - split; [apply Qcle_refl|]. split; [intros ? []|auto].
  - destruct (IH (qmx v0 (g p))) as (A & B & C). split; [|split].
    + eapply Qcle_trans; [apply qmx_l|exact A].
    + intros q [<-|I]; auto. eapply Qcle_trans; [apply qmx_r|exact A].
    + destruct C as [C|(q & I & C)]; [|right; exists q; split; [right|]; auto].
      rewrite C. destruct (qmx_or v0 (g p)) as [E|E]; rewrite E; [auto|right; exists p; split; [left|]; auto].
Qed.
Lemma up_spec n m x r i j : (i < n)%nat -> (j < m)%nat ->
  (pixel r i j <= pixel (up n m x r) i j)%Qc /\
  (forall a b, (a < n)%nat -> (b < m)%nat -> neighbour i j a b ->
     (pixel x i j <= pixel (up n m x r) i j)%Qc \/ (pixel r a b <= pixel (up n m x r) i j)%Qc) /\
  (pixel (up n m x r) i j = pixel r i j \/
   exists a b, (a < n)%nat /\ (b < m)%nat /\ neighbour i j a b /\ pixel (up n m x r) i j = qmn (pixel x i j) (pixel r a b)).
Proof.
  intros Hi Hj. unfold up. rewrite pixel_build by auto.
  destruct (fold_spec (fun p => qmn (pixel x i j) (pixel r (fst p) (snd p))) (nbrs n m i j) (pixel r i j)) as (A & B & C).
  split; [exact A|]. split.
  - intros a b Ha Hb N. specialize (B (a, b) ltac:(apply nbrs_In; auto)). cbn [fst snd] in B.
    destruct (qmn_or (pixel x i j) (pixel r a b)) as [E|E]; rewrite E in B; auto.
  - destruct C as [C|([a b] & I & C)]; [left; exact C|right]. apply nbrs_In in I. exists a, b. tauto.
Qed.
Lemma filter_less {X} (f f' : X -> bool) l a : (forall a, In a l -> f' a = true -> f a = true) -> In a l ->
  f a = true -> f' a = false -> (length (filter f' l) < length (filter f l))%nat.
Proof.
  assert (LE : forall l, (forall a, In a l -> f' a = true -> f a = true) -> (length (filter f' l) <= length (filter f l))%nat).
  { induction l0 as [|b l0 IH]; cbn [filter]; intros S; auto.
    specialize (IH ltac:(intros; apply S; [right|]; auto)).
    destruct (f' b) eqn:E; [rewrite (S b ltac:(left; auto) E); cbn; lia|]. destruct (f b); cbn; lia. }
  induction l as [|b l IH]; intros S I Hf Hf'; [destruct I|]. cbn [filter].
  assert (S' : forall a, In a l -> f' a = true -> f a = true) by (intros; apply S; [right|]; auto).
  destruct I as [<-|I].
  - rewrite Hf, Hf'. cbn. specialize (LE l S'). lia.
  - specialize (IH S' I Hf Hf'). destruct (f' b) eqn:E; [rewrite (S b ltac:(left; auto) E); cbn; lia|]. destruct (f b); cbn; lia.
Qed.
Definition height (n m : nat) (V : list Qc) (r : img) : nat :=
  length (filter (fun q : (nat * nat) * Qc => Qc_ltb (pixel r (fst (fst q)) (snd (fst q))) (snd q)) (list_prod (grid n m) V)).
Lemma rise_spec n m x s V : rect n m s ->
  (forall i j, (i < n)%nat -> (j < m)%nat -> In (pixel x i j) V) ->
  forall fuel r, rect n m r -> (height n m V r <= fuel)%nat ->
  (forall i j, (i < n)%nat -> (j < m)%nat -> In (pixel r i j) V) ->
  (forall i j, (i < n)%nat -> (j < m)%nat -> (pixel s i j <= pixel r i j)%Qc) ->
  (forall r', grown n m s x r' -> forall i j, (i < n)%nat -> (j < m)%nat -> (pixel r i j <= pixel r' i j)%Qc) ->
  reconstructed n m s x (rise n m fuel x r).
Proof.
  intros Hs HV.
  assert (Next : forall r, (forall i j, (i < n)%nat -> (j < m)%nat -> In (pixel r i j) V) ->
    (forall i j, (i < n)%nat -> (j < m)%nat -> In (pixel (up n m x r) i j) V)).
  { intros r Hr i j Hi Hj.
    destruct (up_spec n m x r i j Hi Hj) as (_ & _ & [->|(a & b & Ha & Hb & _ & ->)]); auto.
    destruct (qmn_or (pixel x i j) (pixel r a b)) as [-> | ->]; auto. }
  assert (Done : forall r, rect n m r -> stable n m r (up n m x r) = true ->
    (forall i j, (i < n)%nat -> (j < m)%nat -> (pixel s i j <= pixel r i j)%Qc) ->
    (forall r', grown n m s x r' -> forall i j, (i < n)%nat -> (j < m)%nat -> (pixel r i j <= pixel r' i j)%Qc) ->
    reconstructed n m s x r).
  { intros r Hr E Low Least. split; auto. split; [auto|]. split; [auto|]. intros i j a b Hi Hj Ha Hb N.
    assert (Eq : pixel r i j = pixel (up n m x r) i j).
    { unfold stable in E. rewrite forallb_forall in E. specialize (E (i, j) ltac:(apply grid_In; cbn; lia)).
      apply Qc_eq_bool_correct in E. exact E. }
    rewrite Eq. destruct (up_spec n m x r i j Hi Hj) as (_ & U & _). auto. }
  assert (Unst : forall r, stable n m r (up n m x r) = false ->
    (forall i j, (i < n)%nat -> (j < m)%nat -> In (pixel r i j) V) ->
    (height n m V (up n m x r) < height n m V r)%nat).
  { intros r E Hr. unfold stable in E.
    assert (X : exists p, In p (grid n m) /\ pixel r (fst p) (snd p) <> pixel (up n m x r) (fst p) (snd p)).
    { clear - E. induction (grid n m) as [|p l IH]; [discriminate|]. cbn [forallb] in E. apply andb_false_iff in E.
      destruct E as [E|E].
      - exists p. split; [left; auto|]. intros Q. unfold Qc_eq_bool in E. destruct (Qc_eq_dec _ _); [discriminate|congruence].
      - destruct (IH E) as (q & I & Q). exists q. split; [right; auto|auto]. }
    destruct X as ([i j] & I & NE). cbn [fst snd] in NE. assert (I' := I). apply grid_In in I'. cbn in I'. destruct I' as [Hi Hj].
    destruct (up_spec n m x r i j Hi Hj) as (LE & _).
    unfold height. apply (filter_less _ _ _ ((i, j), pixel (up n m x r) i j)).
    - intros [[a b] v] Iv. cbn [fst snd]. rewrite !Qc_ltb_lt. intros L. apply in_prod_iff in Iv. destruct Iv as [Ig _].
      apply grid_In in Ig. cbn in Ig. destruct Ig as [Ca Cb].
      destruct (up_spec n m x r a b Ca Cb) as (LE' & _). eapply Qcle_lt_trans; eauto.
    - apply in_prod; auto.
    - cbn [fst snd]. apply Qc_ltb_lt. apply Qcle_lt_or_eq in LE. destruct LE; auto. contradiction.
    - cbn [fst snd]. apply not_true_iff_false. rewrite Qc_ltb_lt. intros L. apply Qclt_not_eq in L. congruence. }
  induction fuel as [|fuel IH]; intros r Hr Hh HVr Low Least; cbn [rise].
  - destruct (stable n m r (up n m x r)) eqn:E; [auto|]. specialize (Unst r E HVr). lia.
  - destruct (stable n m r (up n m x r)) eqn:E; [auto|]. specialize (Unst r E HVr). apply IH; auto; [apply rect_build|lia| |].
    + intros i j Hi Hj. destruct (up_spec n m x r i j Hi Hj) as (LE & _). eapply Qcle_trans; [|exact LE]. auto.
    + intros r' G i j Hi Hj. destruct (up_spec n m x r i j Hi Hj) as (_ & _ & [->|(a & b & Ha & Hb & N & ->)]); auto.
      assert (G' := G). destruct G' as (_ & _ & C). destruct (C i j a b Hi Hj Ha Hb N) as [Q|Q].
      * eapply Qcle_trans; [apply qmn_l|exact Q].
      * eapply Qcle_trans; [apply qmn_r|]. eapply Qcle_trans; [|exact Q]. auto.
Qed.
Lemma filter_length_le {X} (f : X -> bool) l : (length (filter f l) <= length l)%nat.
Proof. induction l; cbn; auto. destruct (f a); cbn; lia. Qed.
Lemma recon_spec n m s x : (0 < n)%nat -> rect n m s -> rect n m x -> reconstructed n m s x (recon s x).
Proof.
  intros Hn Hs Hx. unfold recon. rewrite (nrows_rect n m), (ncols_rect n m) by auto.
  apply (rise_spec n m x s (concat s ++ concat x)); auto.
  - intros i j Hi Hj. apply in_or_app. right. apply (concat_In n m); eauto.
  - unfold height. eapply Nat.le_trans; [apply filter_length_le|]. rewrite prod_length. unfold grid. rewrite prod_length, !seq_length. lia.
  - intros i j Hi Hj. apply in_or_app. left. apply (concat_In n m); eauto.
  - intros. apply Qcle_refl.
  - intros r' (_ & L & _). exact L.
Qed.
