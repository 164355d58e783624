(** * VisSum: the filter and the derivative of a sum (C117). *)
From Verif Require Import PyFacts QcFacts Spec Compact VisUnits VisUnitsSpec.
From Coq Require Import QArith Qcanon Lia.
Open Scope Z_scope.

Notation sum := (map2 Qcplus).

Lemma sum_length : forall x y : vec, length x = length y -> length (sum x y) = length x.
Proof. induction x as [|a x IH]; intros [|b y] L; try discriminate L; cbn in *; auto. Qed.
Lemma both_bind {X Y Z' X1 Y1 Z1} (P : X -> Y -> Prop) (f : X -> Y -> Z') (g : X1 -> Y1 -> Z1) (r : res X) (s : res Y) k1 k2 k3 :
  (forall x y, r = Ok x -> s = Ok y -> P x y) ->
  (forall x y, P x y -> k3 (f x y) = both g (k1 x) (k2 y)) -> (forall e, r = Raise e <-> s = Raise e) ->
  bind (both f r s) k3 = both g (bind r k1) (bind s k2).
Proof.
  intros HP E HR. destruct r as [x|e], s as [y|e']; cbn; auto.
  exfalso. pose proof (proj2 (HR e') eq_refl). discriminate.
Qed.
Lemma get_sum (x y : vec) i : length x = length y ->
  py_get (sum x y) i = both Qcplus (py_get x i) (py_get y i) /\ (forall e, py_get x i = Raise e <-> py_get y i = Raise e).
Proof.
  intros L. unfold py_get, zlen. rewrite sum_length, <- L by exact L.
  destruct (_ <? 0); [split; [reflexivity|tauto]|].
  generalize (Z.to_nat (if i <? 0 then i + Z.of_nat (length x) else i)). intros n. revert y L n.
  induction x as [|a x IH]; intros [|b y] L n; try discriminate L.
  - destruct n; cbn; split; auto; tauto.
  - destruct n as [|n]; cbn; [split; [reflexivity|split; intros; discriminate]|]. apply IH. auto.
Qed.
Lemma slice_sum (x y : vec) a b : length x = length y ->
  py_slice (sum x y) a b = sum (py_slice x a b) (py_slice y a b) /\ length (py_slice x a b) = length (py_slice y a b).
Proof.
  intros L. unfold py_slice, zlen. rewrite sum_length, <- L by exact L.
  generalize (Z.to_nat (clip_bound (Z.of_nat (length x)) b - clip_bound (Z.of_nat (length x)) a)) as p.
  generalize (Z.to_nat (clip_bound (Z.of_nat (length x)) a)) as q. intros q p.
  split; [|rewrite !firstn_length, !skipn_length; lia].
  assert (S : forall q (x y : vec), length x = length y -> skipn q (sum x y) = sum (skipn q x) (skipn q y)).
  { induction q0 as [|q0 IH]; intros [|u x0] [|v y0] E; try discriminate E; cbn; auto. }
  assert (F : forall p (x y : vec), length x = length y -> firstn p (sum x y) = sum (firstn p x) (firstn p y)).
  { induction p0 as [|p0 IH]; intros [|u x0] [|v y0] E; try discriminate E; cbn; auto. rewrite IH by auto. reflexivity. }
  rewrite S by exact L. apply F. rewrite !skipn_length. lia.
Qed.
Lemma map2_sum f (x y u v : vec) : (forall a b c d, f (a + c) (b + d) = f a b + f c d)%Qc -> length x = length u -> length y = length v ->
  map2 f (sum x u) (sum y v) = sum (map2 f x y) (map2 f u v).
Proof.
  intros E. revert y u v. induction x as [|a x IH]; intros [|b y] [|c u] [|d v] L1 L2; try discriminate; cbn; auto.
  rewrite E, IH by auto. reflexivity.
Qed.
Lemma map_sum f (x u : vec) : (forall a c, f (a + c) = f a + f c)%Qc -> map f (sum x u) = sum (map f x) (map f u).
Proof. intros E. revert u. induction x as [|a x IH]; intros [|c u]; cbn; auto. rewrite E, IH. reflexivity. Qed.
Lemma set_sum (x y : vec) i a b : length x = length y ->
  py_set (sum x y) i (a + b)%Qc = both sum (py_set x i a) (py_set y i b) /\
  (forall u v, py_set x i a = Ok u -> py_set y i b = Ok v -> length u = length v) /\
  (forall e, py_set x i a = Raise e <-> py_set y i b = Raise e).
Proof.
  intros L. unfold py_set, zlen. rewrite sum_length, <- L by exact L. destruct (_ || _).
  { split; [reflexivity|]. split; [discriminate|tauto]. }
  split; [|split; [|split; intros; discriminate]].
  - cbn [both]. f_equal. generalize (Z.to_nat (if i <? 0 then i + Z.of_nat (length x) else i)). intros n. revert y L n.
    induction x as [|c x IH]; intros [|d y] L [|n]; try discriminate L; cbn; auto. rewrite IH by auto. reflexivity.
  - intros u v Hu Hv. injection Hu as <-. injection Hv as <-.
    assert (R : forall n w (l : vec), length (replace_at n w l) = length l).
    { intros n w l. revert n. induction l as [|q l IH]; intros [|n]; cbn; auto. }
    rewrite !R. exact L.
Qed.
Fixpoint usum (us vs : list (Z * Qc)) : list (Z * Qc) :=
  match us, vs with (i, a) :: us, (_, b) :: vs => (i, a + b)%Qc :: usum us vs | _, _ => [] end.
Lemma sets_sum us : forall vs (x y : vec), map fst us = map fst vs -> length x = length y ->
  py_sets (sum x y) (usum us vs) = both sum (py_sets x us) (py_sets y vs) /\
  (forall u v, py_sets x us = Ok u -> py_sets y vs = Ok v -> length u = length v) /\
  (forall e, py_sets x us = Raise e <-> py_sets y vs = Raise e).
Proof.
  unfold py_sets. induction us as [|[i a] us IH]; intros [|[j b] vs] x y E L; try discriminate E.
  - split; [reflexivity|]. split; [|cbn; split; intros; discriminate]. intros u v Hu Hv. injection Hu as <-. injection Hv as <-. exact L.
  - cbn [map fst] in E. injection E as <- E. cbn [usum fold_left bind fst snd].
    destruct (set_sum x y i a b L) as (E1 & E2 & E3). rewrite E1.
    destruct (py_set x i a) as [x'|e] eqn:Ex, (py_set y i b) as [y'|e'] eqn:Ey.
    + cbn [both]. apply IH; auto.
    + exfalso. pose proof (proj2 (E3 e') eq_refl). discriminate.
    + exfalso. pose proof (proj1 (E3 e) eq_refl). discriminate.
    + assert (e = e') by (pose proof (proj1 (E3 e) eq_refl); congruence). subst e'. cbn [both].
      assert (G : forall us, fold_left (fun (r : res vec) (u : Z * Qc) => let! l := r in py_set l (fst u) (snd u)) us (Raise e) = Raise e).
      { induction us0 as [|? ? IH0]; cbn; auto. }
      rewrite !G. split; [reflexivity|]. split; [discriminate|tauto].
Qed.
Lemma set_slice_sum (x y : vec) lo hi u v : length x = length y -> length u = length v ->
  py_set_slice (sum x y) lo hi (sum u v) = both sum (py_set_slice x lo hi u) (py_set_slice y lo hi v) /\
  (forall p q, py_set_slice x lo hi u = Ok p -> py_set_slice y lo hi v = Ok q -> length p = length q) /\
  (forall e, py_set_slice x lo hi u = Raise e <-> py_set_slice y lo hi v = Raise e).
Proof.
  intros L M. unfold py_set_slice, zlen. rewrite !sum_length, <- L, <- M by assumption. destruct (_ =? _).
  2:{ split; [reflexivity|]. split; [discriminate|tauto]. }
  assert (AP : forall (a b c d : vec), length a = length c -> sum (a ++ b) (c ++ d) = sum a c ++ sum b d).
  { induction a as [|p a IH]; intros b [|q c] d E; try discriminate E; cbn; auto. rewrite IH by auto. reflexivity. }
  assert (S : forall q (x y : vec), length x = length y -> skipn q (sum x y) = sum (skipn q x) (skipn q y)).
  { induction q as [|q IH]; intros [|a x0] [|b y0] E; try discriminate E; cbn; auto. }
  assert (F : forall p (x y : vec), length x = length y -> firstn p (sum x y) = sum (firstn p x) (firstn p y)).
  { induction p as [|p IH]; intros [|a x0] [|b y0] E; try discriminate E; cbn; auto. rewrite IH by auto. reflexivity. }
  split; [|split; [|split; intros; discriminate]].
  - cbn [both]. f_equal. rewrite AP by (rewrite !firstn_length; lia). rewrite AP by exact M. rewrite S, F by exact L. reflexivity.
  - intros p q Hp Hq. injection Hp as <-. injection Hq as <-. rewrite !app_length, !firstn_length, !skipn_length. lia.
Qed.
Lemma zeros_sum n : @vzeros Qc _ n = sum (@vzeros Qc _ n) (@vzeros Qc _ n).
Proof.
  unfold vzeros. induction n as [|n IH]; [reflexivity|]. cbn [repeat map2]. rewrite <- IH. reflexivity.
Qed.

(** Elimination. *)
Lemma dp_sum : forall cps p q (ab : list (Qc * Qc)) (d e : vec), length d = length e ->
  dp_rest (p + q)%Qc cps (combine ab (sum d e)) = sum (dp_rest p cps (combine ab d)) (dp_rest q cps (combine ab e)).
Proof.
  induction cps as [|cp cps IH]; intros p q ab d e L; [reflexivity|].
  destruct ab as [|[a b] ab]; [reflexivity|]. destruct d as [|x d], e as [|y e]; try discriminate L; [reflexivity|].
  cbn [combine map2 dp_rest].
  assert (E : ndiv (nsub (x + y)%Qc (nmul a (p + q)%Qc)) (nsub b (nmul a cp)) =
    (ndiv (nsub x (nmul a p)) (nsub b (nmul a cp)) + ndiv (nsub y (nmul a q)) (nsub b (nmul a cp)))%Qc) by (toQc; ring).
  rewrite E. f_equal. apply IH. auto.
Qed.
Lemma dp_len : forall cps p (ab : list (Qc * Qc)) (d : vec) q (e : vec), length d = length e ->
  length (dp_rest p cps (combine ab d)) = length (dp_rest q cps (combine ab e)).
Proof.
  induction cps as [|cp cps IH]; intros p ab d q e L; [reflexivity|].
  destruct ab as [|[a b] ab]; [reflexivity|]. destruct d as [|x d], e as [|y e]; try discriminate L; [reflexivity|].
  cbn. f_equal. apply IH. auto.
Qed.
Lemma back_sum : forall (d e : vec) c, length d = length e ->
  back (combine (sum d e) c) = sum (back (combine d c)) (back (combine e c)) /\ length (back (combine d c)) = length (back (combine e c)).
Proof.
  induction d as [|x d IH]; intros [|y e] c L; try discriminate L; [cbn; auto|].
  destruct c as [|c0 c]; [cbn; auto|]. cbn [map2 combine back]. destruct (IH e c) as (E & M); [auto|]. rewrite E.
  destruct (back (combine d c)) as [|u us], (back (combine e c)) as [|v vs]; try discriminate M; cbn; [auto|].
  split; [|cbn in M; lia]. f_equal. toQc. ring.
Qed.
Lemma tdma_sum (a b c d e : vec) : length d = length e ->
  TDMAsolver a b c (sum d e) = both sum (TDMAsolver a b c d) (TDMAsolver a b c e).
Proof.
  intros L. unfold TDMAsolver. rewrite sum_length, <- L by exact L. destruct (_ && _ && _); [|reflexivity].
  destruct a as [|a0 a], b as [|b0 b], c as [|c0 c], d as [|d0 d], e as [|e0 e]; try discriminate L; cbn [map2]; try reflexivity.
  cbv zeta. assert (E : ndiv (d0 + e0)%Qc b0 = (ndiv d0 b0 + ndiv e0 b0)%Qc) by (toQc; ring).
  rewrite E. cbn [length] in L. injection L as L. rewrite dp_sum by exact L. cbn [both]. f_equal.
  rewrite <- (proj1 (back_sum (ndiv d0 b0 :: _) (ndiv e0 b0 :: _) _ (f_equal S (dp_len _ _ _ d _ e L)))). reflexivity.
Qed.

Ltac next L := eapply (both_bind (fun _ _ => True)); [intros ? ? _ _; exact I|intros ? ? _|exact (proj2 (get_sum _ _ _ L))].
Lemma filt6_rhs_sum (f g : vec) alpha : length f = length g ->
  filt6_rhs (sum f g) alpha = both sum (filt6_rhs f alpha) (filt6_rhs g alpha).
Proof.
  intros L. unfold filt6_rhs.
  assert (SL : forall a b, py_slice (sum f g) a b = sum (py_slice f a b) (py_slice g a b)) by (intros; apply slice_sum; exact L).
  assert (GL : forall a b, length (py_slice f a b) = length (py_slice g a b)) by (intros; apply slice_sum; exact L).
  unfold zlen. rewrite sum_length, <- L by exact L. rewrite !SL, !(fun i => proj1 (get_sum f g i L)).
  cbv zeta.
  assert (E : forall c (x y u v : vec), length x = length u -> length y = length v ->
    map2 (fun a b => nmul (nmul c nhalf) (nadd a b)) (sum x u) (sum y v) =
    sum (map2 (fun a b => nmul (nmul c nhalf) (nadd a b)) x y) (map2 (fun a b => nmul (nmul c nhalf) (nadd a b)) u v)).
  { intros c x y u v H1 H2. apply map2_sum; auto. intros. toQc. ring. }
  assert (M2 : forall (h : Qc -> Qc -> Qc) (x y u v : vec), length x = length u -> length y = length v ->
     length (map2 h x y) = length (map2 h u v)).
  { intros h x. induction x as [|? x IH]; intros [|? y] [|? u] [|? v] H1 H2; try discriminate; cbn; auto. }
  assert (VA : forall x y u v : vec, length x = length u -> length y = length v -> vadd (sum x u) (sum y v) = sum (vadd x y) (vadd u v)).
  { intros x y u v H1 H2. apply map2_sum; auto. intros. toQc. ring. }
  assert (VL : forall x y u v : vec, length x = length u -> length y = length v -> length (vadd x y) = length (vadd u v)).
  { intros x y u v H1 H2. apply M2; auto. }
  assert (VS : forall c (x u : vec), vscale c (sum x u) = sum (vscale c x) (vscale c u)).
  { intros c x u. apply map_sum. intros. toQc. ring. }
  assert (VC : forall c (x u : vec), length x = length u -> length (vscale c x) = length (vscale c u)).
  { intros c x u H1. unfold vscale. rewrite !map_length. exact H1. }
  rewrite !E by apply GL. rewrite VS.
  rewrite !VA by (repeat first [apply GL | apply VL | apply VC | apply M2]).
  rewrite (zeros_sum (length f)) at 1.
  match goal with |- bind (py_set_slice (sum ?x ?y) ?lo ?hi (sum ?u ?v)) _ = _ =>
    destruct (set_slice_sum x y lo hi u v) as (Q1 & Q2 & Q3); [reflexivity|repeat first [apply GL | apply VL | apply VC | apply M2]|rewrite Q1] end.
  eapply (both_bind (fun p q => length p = length q)); [exact Q2| |exact Q3]. intros p q PQ.
  do 10 next L.
  match goal with |- _ = both sum (py_sets p ?us) (py_sets q ?vs) => rewrite <- (proj1 (sets_sum us vs p q eq_refl PQ)) end. f_equal. cbn [usum]. repeat (apply cons_upd; [toQc; ring|]). reflexivity.
Qed.

(** Lengths. *)
Lemma set_len (l : vec) i v l' : py_set l i v = Ok l' -> length l' = length l.
Proof.
  unfold py_set. destruct (_ || _); intros E; [discriminate E|]. injection E as <-.
  generalize (Z.to_nat (if i <? 0 then i + zlen l else i)). induction l as [|q l IH]; intros [|n]; cbn; auto.
Qed.
Lemma sets_len us : forall (l l' : vec), py_sets l us = Ok l' -> length l' = length l.
Proof.
  unfold py_sets. induction us as [|u us IH]; intros l l'; cbn [fold_left bind]; [intros E; injection E as <-; reflexivity|].
  destruct (py_set l (fst u) (snd u)) as [l1|e] eqn:E1.
  - intros E. rewrite (IH l1 l' E). exact (set_len _ _ _ _ E1).
  - assert (G : forall us, fold_left (fun (r : res vec) (u : Z * Qc) => let! l := r in py_set l (fst u) (snd u)) us (Raise e) = Raise e).
    { induction us0 as [|? ? IH0]; cbn; auto. }
    rewrite G. discriminate.
Qed.
Lemma set_slice_len (l : vec) lo hi v l' : py_set_slice l lo hi v = Ok l' -> length l' = length l.
Proof.
  unfold py_set_slice. destruct (_ =? _) eqn:B; intros E; [|discriminate E]. injection E as <-.
  rewrite !app_length, firstn_length, skipn_length. apply Z.eqb_eq in B. unfold zlen, clip_bound in *.
  repeat match goal with H : context [if ?b then _ else _] |- _ => destruct b eqn:? | |- context [if ?b then _ else _] => destruct b eqn:? end; lia.
Qed.
Ltac skip_get := match goal with |- bind ?r _ = Ok _ -> _ => destruct r; cbn [bind]; [|discriminate] end.
Lemma filt6_rhs_len (f p : vec) alpha : filt6_rhs f alpha = Ok p -> length p = length f.
Proof.
  unfold filt6_rhs. cbv zeta. match goal with |- bind ?r _ = _ -> _ => destruct r as [r0|] eqn:E end; cbn [bind]; [|discriminate].
  apply set_slice_len in E. rewrite vzeros_length in E. do 10 skip_get. intros E1. apply sets_len in E1. congruence.
Qed.
Lemma pade6_rhs_len (f p : vec) h : pade6_rhs f h = Ok p -> length p = length f.
Proof.
  unfold pade6_rhs. cbv zeta. match goal with |- bind ?r _ = _ -> _ => destruct r as [r0|] eqn:E end; cbn [bind]; [|discriminate].
  apply set_slice_len in E. rewrite vzeros_length in E. do 12 skip_get. intros E1. apply sets_len in E1. congruence.
Qed.

Lemma filt6_sum (f g x y : vec) alpha : length f = length g -> filt6 f alpha = Ok x -> filt6 g alpha = Ok y ->
  filt6 (sum f g) alpha = Ok (sum x y).
Proof.
  intros L. unfold filt6. rewrite filt6_rhs_sum, sum_length, <- L by exact L.
  destruct (filt6_rhs f alpha) as [p|e] eqn:Ef; [|discriminate].
  destruct (filt6_rhs g alpha) as [q|e] eqn:Eg; cbn [both bind]; cbv zeta; [|discriminate].
  destruct (py_sets _ _) as [Da|]; [|discriminate]. cbn [bind]. destruct (py_sets _ _) as [Dc|]; [|discriminate]. cbn [bind].
  intros Ex Ey. rewrite tdma_sum by (apply filt6_rhs_len in Ef, Eg; congruence). rewrite Ex, Ey. reflexivity.
Qed.

Lemma pade6_rhs_sum (f g : vec) h : length f = length g ->
  pade6_rhs (sum f g) h = both sum (pade6_rhs f h) (pade6_rhs g h).
Proof.
  intros L. unfold pade6_rhs.
  assert (SL : forall a b, py_slice (sum f g) a b = sum (py_slice f a b) (py_slice g a b)) by (intros; apply slice_sum; exact L).
  assert (GL : forall a b, length (py_slice f a b) = length (py_slice g a b)) by (intros; apply slice_sum; exact L).
  assert (GS : forall i, py_get (sum f g) i = both Qcplus (py_get f i) (py_get g i)) by (intros; apply get_sum; exact L).
  unfold zlen. rewrite sum_length, <- L by exact L. rewrite !SL, !GS. cbv zeta.
  assert (M2 : forall (h : Qc -> Qc -> Qc) (x y u v : vec), length x = length u -> length y = length v ->
     length (map2 h x y) = length (map2 h u v)).
  { intros k x. induction x as [|? x IH]; intros [|? y] [|? u] [|? v] H1 H2; try discriminate; cbn; auto. }
  assert (VA : forall x y u v : vec, length x = length u -> length y = length v -> vadd (sum x u) (sum y v) = sum (vadd x y) (vadd u v)).
  { intros x y u v H1 H2. apply map2_sum; auto. intros. toQc. ring. }
  assert (VB : forall x y u v : vec, length x = length u -> length y = length v -> vsub (sum x u) (sum y v) = sum (vsub x y) (vsub u v)).
  { intros x y u v H1 H2. apply map2_sum; auto. intros. toQc. ring. }
  assert (VS : forall k (x u : vec), map (fun z => nmul z (ndiv k h)) (sum x u) =
     sum (map (fun z => nmul z (ndiv k h)) x) (map (fun z => nmul z (ndiv k h)) u)).
  { intros k x u. apply map_sum. intros. toQc. ring. }
  assert (VL : forall x y u v : vec, length x = length u -> length y = length v -> length (vsub x y) = length (vsub u v)).
  { intros x y u v H1 H2. apply M2; auto. }
  assert (VC : forall k (x u : vec), length x = length u -> length (map (fun z => nmul z (ndiv k h)) x) = length (map (fun z => nmul z (ndiv k h)) u)).
  { intros k x u H1. rewrite !map_length. exact H1. }
  assert (VD : forall x y u v : vec, length x = length u -> length y = length v -> length (vadd x y) = length (vadd u v)).
  { intros x y u v H1 H2. apply M2; auto. }
  rewrite !VB by apply GL. rewrite !VS. rewrite !VA by (repeat first [apply GL | apply VC | apply VL]).
  rewrite (zeros_sum (length f)) at 1.
  match goal with |- bind (py_set_slice (sum ?x ?y) ?lo ?hi (sum ?u ?v)) _ = _ =>
    destruct (set_slice_sum x y lo hi u v) as (Q1 & Q2 & Q3); [reflexivity|repeat first [apply GL | apply VD | apply VC | apply VL]|rewrite Q1] end.
  eapply (both_bind (fun p q => length p = length q)); [exact Q2| |exact Q3]. intros p q PQ.
  do 12 next L.
  match goal with |- _ = both sum (py_sets p ?us) (py_sets q ?vs) => rewrite <- (proj1 (sets_sum us vs p q eq_refl PQ)) end. f_equal.
  cbn [usum]. repeat (apply cons_upd; [toQc; ring|]). reflexivity.
Qed.
Lemma pade6_sum (f g x y : vec) h : length f = length g -> pade6 f h = Ok x -> pade6 g h = Ok y ->
  pade6 (sum f g) h = Ok (sum x y).
Proof.
  intros L. unfold pade6. rewrite pade6_rhs_sum, sum_length, <- L by exact L.
  destruct (pade6_rhs f h) as [p|e] eqn:Ef; [|discriminate].
  destruct (pade6_rhs g h) as [q|e] eqn:Eg; cbn [both bind]; cbv zeta; [|discriminate].
  destruct (py_sets _ _) as [Da|]; [|discriminate]. cbn [bind]. destruct (py_sets _ _) as [Dc|]; [|discriminate]. cbn [bind].
  intros Ex Ey. rewrite tdma_sum by (apply pade6_rhs_len in Ef, Eg; congruence). rewrite Ex, Ey. reflexivity.
Qed.
