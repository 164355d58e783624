(** * PyFacts: lemmas about the NumPy fragment of Py.v. *)
From Verif Require Export Py.
From Coq Require Import ZifyBool ZifyNat.

Lemma map2_length {A B C} (f : A -> B -> C) l m :
  length (map2 f l m) = Nat.min (length l) (length m).
Proof. revert m; induction l as [|x l IH]; intros [|y m]; simpl; auto. Qed.

Lemma map2_length_eq {A B C} (f : A -> B -> C) l m :
  length l = length m -> length (map2 f l m) = length l.
Proof. rewrite map2_length. lia. Qed.

Lemma nth_map2 {A B C} (f : A -> B -> C) l m i da db dc :
  (i < length l)%nat -> (i < length m)%nat ->
  nth i (map2 f l m) dc = f (nth i l da) (nth i m db).
Proof.
  revert m i; induction l as [|x l IH]; intros [|y m] [|i]; simpl; try lia; intros; auto.
  apply IH; lia.
Qed.

Lemma nth_error_map2 {A B C} (f : A -> B -> C) l m i :
  nth_error (map2 f l m) i =
  match nth_error l i, nth_error m i with
  | Some a, Some b => Some (f a b)
  | _, _ => None
  end.
Proof.
  revert m i; induction l as [|x l IH]; intros [|y m] [|i]; simpl; auto.
  destruct (nth_error l i); reflexivity.
Qed.

Lemma map_map2 {A B C D} (g : C -> D) (f : A -> B -> C) l m :
  map g (map2 f l m) = map2 (fun a b => g (f a b)) l m.
Proof. revert m; induction l as [|x l IH]; intros [|y m]; simpl; f_equal; auto. Qed.

Lemma map2_map_l {A B C D} (f : B -> C -> D) (g : A -> B) l m :
  map2 f (map g l) m = map2 (fun a c => f (g a) c) l m.
Proof. revert m; induction l as [|x l IH]; intros [|y m]; simpl; f_equal; auto. Qed.

Lemma map2_map_r {A B C D} (f : A -> C -> D) (g : B -> C) l m :
  map2 f l (map g m) = map2 (fun a b => f a (g b)) l m.
Proof. revert m; induction l as [|x l IH]; intros [|y m]; simpl; f_equal; auto. Qed.

Lemma map2_ext {A B C} (f g : A -> B -> C) l m :
  (forall a b, f a b = g a b) -> map2 f l m = map2 g l m.
Proof. intros E. revert m; induction l as [|x l IH]; intros [|y m]; simpl; f_equal; auto. Qed.

(** ** bind and mapM *)
Lemma bind_ok {A B} (x : res A) (f : A -> res B) b :
  bind x f = Ok b -> exists a, x = Ok a /\ f a = Ok b.
Proof. destruct x as [a|e]; simpl; intros E; [exists a; auto | discriminate]. Qed.

Lemma bind_raise {A B} (x : res A) (f : A -> res B) e :
  bind x f = Raise e -> x = Raise e \/ exists a, x = Ok a /\ f a = Raise e.
Proof. destruct x as [a|e']; simpl; intros E; [right; exists a; auto | left; congruence]. Qed.

Lemma mapM_ok_length {A B} (f : A -> res B) l r : mapM f l = Ok r -> length r = length l.
Proof.
  revert r; induction l as [|x l IH]; intros r E; simpl in E.
  - injection E as <-. reflexivity.
  - apply bind_ok in E as (y & E1 & E). apply bind_ok in E as (ys & E2 & E).
    injection E as <-. simpl. f_equal. auto.
Qed.

Lemma mapM_ok_iff {A B} (f : A -> res B) l r :
  mapM f l = Ok r <-> Forall2 (fun x y => f x = Ok y) l r.
Proof.
  split.
  - revert r; induction l as [|x l IH]; intros r E; simpl in E.
    + injection E as <-. constructor.
    + apply bind_ok in E as (y & E1 & E). apply bind_ok in E as (ys & E2 & E).
      injection E as <-. constructor; auto.
  - induction 1 as [|x y l r E H IH]; simpl; auto.
    rewrite E. simpl. rewrite IH. reflexivity.
Qed.

Lemma mapM_map_ok {A B} (f : A -> res B) (g : A -> B) l :
  (forall x, In x l -> f x = Ok (g x)) -> mapM f l = Ok (map g l).
Proof.
  induction l as [|x l IH]; simpl; intros E; auto.
  rewrite E by auto. simpl. rewrite IH by auto. reflexivity.
Qed.

Lemma mapM_raise {A B} (f : A -> res B) l e :
  mapM f l = Raise e -> exists x, In x l /\ f x = Raise e.
Proof.
  induction l as [|x l IH]; simpl; intros E; [discriminate|].
  apply bind_raise in E as [E|(y & E1 & E)]; [exists x; auto|].
  apply bind_raise in E as [E|(ys & E2 & E)]; [|discriminate].
  destruct (IH E) as (z & Hz & Ez). exists z; auto.
Qed.

(** ** py_get *)
Lemma py_get_raise {A} (l : list A) i e : py_get l i = Raise e -> e = IndexError.
Proof.
  unfold py_get. destruct (_ <? 0); [congruence|].
  destruct (nth_error _ _); congruence.
Qed.

Lemma py_get_nonneg {A} (l : list A) i d :
  0 <= i < zlen l -> py_get l i = Ok (nth (Z.to_nat i) l d).
Proof.
  unfold py_get, zlen. intros Hi.
  replace (i <? 0) with false by lia. replace (i <? 0) with false by lia.
  rewrite (nth_error_nth' l d) by lia. reflexivity.
Qed.

Lemma py_get_neg {A} (l : list A) i d :
  - zlen l <= i < 0 -> py_get l i = Ok (nth (Z.to_nat (i + zlen l)) l d).
Proof.
  unfold py_get, zlen. intros Hi.
  replace (i <? 0) with true by lia. replace (i + _ <? 0) with false by lia.
  rewrite (nth_error_nth' l d) by lia. reflexivity.
Qed.

Lemma py_get_in {A} (l : list A) i x : py_get l i = Ok x -> In x l.
Proof.
  unfold py_get. destruct (_ <? 0); [discriminate|].
  destruct (nth_error _ _) eqn:E; [|discriminate].
  intros [= <-]. eapply nth_error_In; eauto.
Qed.

Lemma zlen_nonneg {A} (l : list A) : 0 <= zlen l.
Proof. unfold zlen. lia. Qed.
Lemma zlen_app {A} (l m : list A) : zlen (l ++ m) = zlen l + zlen m.
Proof. unfold zlen. rewrite app_length. lia. Qed.
Lemma zlen_map {A B} (f : A -> B) l : zlen (map f l) = zlen l.
Proof. unfold zlen. rewrite map_length. reflexivity. Qed.
Lemma zlen_cons {A} (x : A) l : zlen (x :: l) = zlen l + 1.
Proof. unfold zlen. simpl. lia. Qed.
Lemma zlen_nil {A} : zlen (@nil A) = 0.
Proof. reflexivity. Qed.
Lemma zlen_rev {A} (l : list A) : zlen (rev l) = zlen l.
Proof. unfold zlen. rewrite rev_length. reflexivity. Qed.

(** ** zseq *)
Lemma zseq_length lo n : length (zseq lo n) = n.
Proof. revert lo; induction n; simpl; auto. Qed.
Lemma zseq_nth lo n i d : (i < n)%nat -> nth i (zseq lo n) d = lo + Z.of_nat i.
Proof.
  revert lo i; induction n as [|n IH]; intros lo [|i] Hi; simpl; try lia.
  rewrite IH by lia. lia.
Qed.

(** ** Vectors *)
Section Vec.
Context {A : Type} `{Num A}.
Lemma vadd_length (x y : list A) : length x = length y -> length (vadd x y) = length x.
Proof. apply map2_length_eq. Qed.
Lemma vsub_length (x y : list A) : length x = length y -> length (vsub x y) = length x.
Proof. apply map2_length_eq. Qed.
Lemma vzeros_length n : length (vzeros n) = n.
Proof. apply repeat_length. Qed.

Lemma fold_vadd_length (M : list (list A)) acc n :
  length acc = n -> (forall r, In r M -> length r = n) -> length (fold_left vadd M acc) = n.
Proof.
  revert acc; induction M as [|r M IH]; simpl; intros acc Ha Hr; auto.
  apply IH; auto. rewrite vadd_length; auto. rewrite Ha. symmetry; auto.
Qed.
Lemma sum_rows_length n (M : list (list A)) :
  (forall r, In r M -> length r = n) -> length (sum_rows n M) = n.
Proof. intros Hr. apply fold_vadd_length; auto. apply vzeros_length. Qed.
Lemma sum_rows_app n (M : list (list A)) r :
  sum_rows n (M ++ [r]) = vadd (sum_rows n M) r.
Proof. unfold sum_rows. rewrite fold_left_app. reflexivity. Qed.

Lemma broadcast2_raise {B C D} (f : B -> C -> D) x y e :
  broadcast2 f x y = Raise e -> e = ValueError.
Proof.
  unfold broadcast2. destruct (Nat.eqb _ _); [congruence|].
  destruct x as [|a [|b x]]; destruct y as [|c [|d' y]]; congruence.
Qed.
Lemma assign_all_length {B} n (src dst : list B) :
  assign_all n src = Ok dst -> length dst = n.
Proof.
  unfold assign_all. destruct (Nat.eqb_spec n (length src)) as [E|E].
  - intros [= <-]. auto.
  - destruct src as [|a [|b src]]; intros [= <-]. apply repeat_length.
Qed.
Lemma assign_all_raise {B} n (src : list B) e : assign_all n src = Raise e -> e = ValueError.
Proof.
  unfold assign_all. destruct (Nat.eqb n (length src)); [congruence|].
  destruct src as [|a [|b src]]; congruence.
Qed.
Lemma broadcast2_eq {B C D} (f : B -> C -> D) x y :
  length x = length y -> broadcast2 f x y = Ok (map2 f x y).
Proof. intros E. unfold broadcast2. rewrite E, Nat.eqb_refl. reflexivity. Qed.
Lemma assign_all_eq {B} n (x : list B) : length x = n -> assign_all n x = Ok x.
Proof. intros <-. unfold assign_all. rewrite Nat.eqb_refl. reflexivity. Qed.
End Vec.

(** ** Slices *)
Lemma clip_in n i : 0 <= i <= n -> clip_bound n i = i.
Proof. unfold clip_bound. intros. destruct (Z.ltb_spec i 0); lia. Qed.
Lemma clip_over n i : 0 <= n <= i -> clip_bound n i = n.
Proof. unfold clip_bound. intros. destruct (Z.ltb_spec i 0); lia. Qed.
Lemma clip_neg n i : - n <= i < 0 -> clip_bound n i = i + n.
Proof. unfold clip_bound. intros. destruct (Z.ltb_spec i 0); lia. Qed.
Lemma clip_under n i : 0 <= n -> i < - n -> clip_bound n i = 0.
Proof. unfold clip_bound. intros. destruct (Z.ltb_spec i 0); lia. Qed.
Lemma clip_range n i : 0 <= n -> 0 <= clip_bound n i <= n.
Proof. unfold clip_bound. intros. destruct (Z.ltb_spec i 0); lia. Qed.

Lemma py_slice_in {A} (l : list A) lo hi :
  0 <= lo <= zlen l -> 0 <= hi <= zlen l ->
  py_slice l lo hi = firstn (Z.to_nat (hi - lo)) (skipn (Z.to_nat lo) l).
Proof. intros. unfold py_slice. rewrite !clip_in by lia. reflexivity. Qed.
Lemma py_slice_init {A} (l : list A) lo :
  0 <= lo <= zlen l -> 0 < zlen l ->
  py_slice l lo (-1) = firstn (Z.to_nat (zlen l - 1 - lo)) (skipn (Z.to_nat lo) l).
Proof.
  intros. unfold py_slice. rewrite (clip_in _ lo), (clip_neg _ (-1)) by lia. f_equal. lia.
Qed.
Lemma py_from_in {A} (l : list A) lo :
  0 <= lo <= zlen l -> py_from l lo = skipn (Z.to_nat lo) l.
Proof. intros. unfold py_from. rewrite clip_in by lia. reflexivity. Qed.
Lemma In_firstn {A} n (l : list A) x : In x (firstn n l) -> In x l.
Proof. intros Hx. rewrite <- (firstn_skipn n l). apply in_or_app. auto. Qed.
Lemma In_skipn {A} n (l : list A) x : In x (skipn n l) -> In x l.
Proof. intros Hx. rewrite <- (firstn_skipn n l). apply in_or_app. auto. Qed.
Lemma py_slice_incl {A} (l : list A) lo hi x : In x (py_slice l lo hi) -> In x l.
Proof.
  unfold py_slice. intros Hx. eapply In_skipn, In_firstn, Hx.
Qed.
Lemma py_from_incl {A} (l : list A) lo x : In x (py_from l lo) -> In x l.
Proof.
  unfold py_from. apply In_skipn.
Qed.
Lemma py_slice_all_but_last {X} (l : list X) x : py_slice (l ++ [x]) 0 (-1) = l.
Proof.
  rewrite py_slice_init by (rewrite zlen_app; unfold zlen; simpl; lia).
  rewrite zlen_app. change (zlen [x]) with 1. change (Z.to_nat 0) with O. cbn [skipn].
  replace (Z.to_nat (zlen l + 1 - 1 - 0)) with (length l + 0)%nat by (unfold zlen; lia).
  rewrite firstn_app_2. simpl. apply app_nil_r.
Qed.
