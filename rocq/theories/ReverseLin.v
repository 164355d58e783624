(** * ReverseLin: piecewise linear interpolation does not care about the direction of the axis. *)
From Verif Require Import PyFacts QcFacts Runs Emd Spec EmdExact ExtremaProofs EmdSym RevSpec Reverse Demo.
From Coq Require Import ZifyBool ZifyNat QArith Qcanon.
Open Scope Z_scope.

Definition seg (x0 y0 x1 y1 u : Qc) : Qc := (y0 + (u - x0) / (x1 - x0) * (y1 - y0))%Qc.
Lemma lin_at_seg pts u v : lin_at pts u = Ok v ->
  exists a x0 y0 x1 y1 b, pts = a ++ (x0, y0) :: (x1, y1) :: b /\ (x0 <= u)%Qc /\ (u <= x1)%Qc /\ v = seg x0 y0 x1 y1 u.
Proof.
  induction pts as [|[x0 y0] pts IH]; [discriminate|]. cbn [lin_at]. destruct pts as [|[x1 y1] b]; [discriminate|].
  num_qc. destruct (Qc_ltb u x0) eqn:C0; [discriminate|]. destruct (Qc_leb u x1) eqn:C1.
  - intros E. apply ok_inv in E. subst v. qc_bool. exists [], x0, y0, x1, y1, b. repeat split; auto; qclra.
  - intros E. destruct (IH E) as (a & X0 & Y0 & X1 & Y1 & b' & -> & H1 & H2 & ->).
    exists ((x0, y0) :: a), X0, Y0, X1, Y1, b'. auto.
Qed.
Lemma increasing_tl a l : increasing (a :: l) -> increasing l.
Proof. intros I i Hi. apply (I (Datatypes.S i)). cbn [length]. lia. Qed.
Lemma increasing_hd a b l : increasing (a :: b :: l) -> (a < b)%Qc.
Proof. intros I. apply (I O). cbn [length]. lia. Qed.
Lemma increasing_in a l : increasing (a :: l) -> forall x, In x l -> (a < x)%Qc.
Proof.
  revert a. induction l as [|b l IH]; intros a I x Hx; [destruct Hx|]. pose proof (increasing_hd _ _ _ I).
  destruct Hx as [->|Hx]; auto. apply increasing_tl in I. specialize (IH b I x Hx). qclra.
Qed.
Lemma seg_right x0 y0 x1 y1 : (x0 < x1)%Qc -> seg x0 y0 x1 y1 x1 = y1.
Proof. intros Hx. unfold seg. field. intros C. qclra. Qed.
Lemma seg_left x0 y0 x1 y1 : seg x0 y0 x1 y1 x0 = y0.
Proof. unfold seg. replace (x0 - x0)%Qc with 0%Qc by ring. unfold Qcdiv. ring. Qed.
Lemma seg_lin_at u x0 y0 x1 y1 b a : increasing (map fst (a ++ (x0, y0) :: (x1, y1) :: b)) -> (x0 <= u)%Qc -> (u <= x1)%Qc ->
  lin_at (a ++ (x0, y0) :: (x1, y1) :: b) u = Ok (seg x0 y0 x1 y1 u).
Proof.
  induction a as [|[p w] a IH]; intros I H0 H1.
  - cbn [app lin_at]. num_qc. destruct (Qc_ltb u x0) eqn:C0; qc_bool; [qclra|].
    destruct (Qc_leb u x1) eqn:C1; qc_bool; [reflexivity|qclra].
  - cbn [app map fst] in I. pose proof (increasing_tl _ _ I) as I'. specialize (IH I' H0 H1).
    assert (Hp : (p < x0)%Qc).
    { apply (increasing_in _ _ I). rewrite map_app. apply in_or_app. right. left. reflexivity. }
    change (((p, w) :: a) ++ (x0, y0) :: (x1, y1) :: b) with ((p, w) :: (a ++ (x0, y0) :: (x1, y1) :: b)).
    destruct a as [|[q w'] a].
    + cbn [app lin_at] in *. num_qc. destruct (Qc_ltb u p) eqn:C0; qc_bool; [qclra|].
      destruct (Qc_leb u x0) eqn:C1; qc_bool; auto.
      assert (u = x0) by qclra. subst u. change (Ok (seg p w x0 y0 x0) = Ok (seg x0 y0 x1 y1 x0)).
      rewrite seg_right, seg_left; auto.
    + cbn [app map fst] in *. pose proof (increasing_hd _ _ _ I) as Hq.
      assert (Hq' : (q < x0)%Qc).
      { apply (increasing_in _ _ I'). rewrite map_app. apply in_or_app. right. left. reflexivity. }
      remember (a ++ (x0, y0) :: (x1, y1) :: b) as R. cbn [lin_at]. num_qc.
      destruct (Qc_ltb u p) eqn:C0; qc_bool; [qclra|]. destruct (Qc_leb u q) eqn:C1; qc_bool; [qclra|]. exact IH.
Qed.
Lemma increasing_pair l : increasing l <-> forall a x y b, l = a ++ x :: y :: b -> (x < y)%Qc.
Proof.
  split.
  - intros I a x y b ->. specialize (I (length a)). rewrite !app_length in I. cbn [length] in I.
    rewrite !app_nth2 in I by lia. replace (length a - length a)%nat with O in I by lia.
    replace (Datatypes.S (length a) - length a)%nat with 1%nat in I by lia. apply I. lia.
  - intros I i Hi. apply (I (firstn i l) _ _ (skipn (Datatypes.S (Datatypes.S i)) l)).
    rewrite <- (firstn_skipn i l) at 1. f_equal.
    revert i Hi. clear I. induction l as [|x l IH]; intros i Hi; cbn [length] in Hi; [lia|].
    destruct i as [|i]; cbn [skipn nth].
    + destruct l as [|y l]; cbn [length] in Hi; [lia|]. reflexivity.
    + apply IH. lia.
Qed.
Lemma increasing_turned L pts : increasing (map fst pts) -> increasing (map fst (turned L pts)).
Proof.
  rewrite !increasing_pair. intros I a x y b E. unfold turned in E. rewrite map_map in E. cbn [fst] in E.
  rewrite <- (map_map fst (fun u => L - u)%Qc), map_rev in E.
  apply (f_equal (fun l => rev (map (fun u => L - u)%Qc l))) in E. rewrite map_map, map_rev, rev_involutive in E.
  rewrite <- (map_id (map fst pts)) in I.
  rewrite map_ext with (g := fun x => x) in E by (intros; ring).
  rewrite map_app, rev_app_distr in E. cbn [map rev] in E. rewrite <- !app_assoc in E. cbn [app] in E.
  specialize (I _ _ _ _ E). qclra.
Qed.
Lemma lin_at_turned L pts u v : increasing (map fst pts) -> lin_at pts u = Ok v -> lin_at (turned L pts) (L - u)%Qc = Ok v.
Proof.
  intros I E. destruct (lin_at_seg _ _ _ E) as (a & x0 & y0 & x1 & y1 & b & -> & H0 & H1 & ->).
  pose proof (increasing_turned L _ I) as I'. rewrite turned_app in *. unfold turned at 1 in I'. unfold turned at 1.
  cbn [rev] in I' |- *. rewrite !map_app, <- !app_assoc in I'. rewrite !map_app, <- !app_assoc. cbn [map app fst snd] in *.
  assert (Hx : (x0 < x1)%Qc). { apply (proj1 (increasing_pair _) I (map fst a) x0 x1 (map fst b)). rewrite map_app. reflexivity. }
  rewrite seg_lin_at.
  - f_equal. unfold seg. field. repeat split; intros C; qclra.
  - rewrite !map_app in *. exact I'.
  - qclra.
  - qclra.
Qed.
Lemma mapM_app {X Y} (f : X -> res Y) a b va vb : mapM f a = Ok va -> mapM f b = Ok vb -> mapM f (a ++ b) = Ok (va ++ vb).
Proof.
  revert va. induction a as [|x a IH]; intros va Ea Eb; cbn [mapM app] in *.
  - apply ok_inv in Ea. subst. exact Eb.
  - apply bind_ok in Ea as (y & E1 & Ea). apply bind_ok in Ea as (ys & E2 & Ea). apply ok_inv in Ea. subst va.
    rewrite E1. cbn [bind]. rewrite (IH ys E2 Eb). reflexivity.
Qed.
Theorem lin_turns : turns lin_spl.
Proof.
  intros kind pts t v L I. unfold lin_spl. revert v. induction t as [|u t IH]; intros v; cbn [mapM rev map].
  - intros E. apply ok_inv in E. subst v. reflexivity.
  - intros E. apply bind_ok in E as (y & E1 & E). apply bind_ok in E as (ys & E2 & E). apply ok_inv in E. subst v.
    rewrite map_app. cbn [rev]. apply mapM_app; auto. cbn [map mapM]. rewrite (lin_at_turned L pts u y I E1). reflexivity.
Qed.
