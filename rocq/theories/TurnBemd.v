(** * TurnBemd: BEMD of a turned image; surfaces that favour no direction. *)
From Verif Require Import PyFacts QcFacts Spec Image ImageSpec EmdExact ImageProofs ImageSift BemdProofs ImageFinal ImageStop TurnSpec Turn ImageDemo.
From Coq Require Import ZifyBool ZifyNat QArith Qcanon Sorting.Sorted Permutation.
Open Scope Z_scope.

Lemma square_tall t n : tall t n n = n. Proof. destruct t; reflexivity. Qed.
Lemma square_wide t n : wide t n n = n. Proof. destruct t; reflexivity. Qed.

Section Prominent.
Variable t : turning.
Variables n m : nat.
Lemma walk_turned x y a i j k l : turned t n m x y -> walk n m x a i j k l ->
  walk (tall t n m) (wide t n m) y a (fst (place t n m (i, j))) (snd (place t n m (i, j))) (fst (place t n m (k, l))) (snd (place t n m (k, l))).
Proof.
  intros E W. destruct E as (A & B & C). induction W as [i j Hi Hj L|i j i' j' k l Hi Hj L N W IH].
  - destruct (place_in t n m (i, j) Hi Hj). apply walk_stay; auto. rewrite C; auto.
  - assert (I' : (i' < n)%nat /\ (j' < m)%nat) by (clear - W; destruct W; auto). destruct I' as [Hi' Hj']. destruct (place_in t n m (i, j) Hi Hj).
    eapply walk_step; auto; [rewrite C; auto| |exact IH]. apply place_neighbour; auto.
Qed.
End Prominent.
Lemma walk_ends n m x a i j k l : walk n m x a i j k l -> (k < n)%nat /\ (l < m)%nat.
Proof. induction 1; auto. Qed.
Lemma prominent_turned t n m x y i j : turned t n m x y -> prominent n m x i j ->
  prominent (tall t n m) (wide t n m) y (fst (place t n m (i, j))) (snd (place t n m (i, j))).
Proof.
  intros E (Hi & Hj & P). destruct (place_in t n m (i, j) Hi Hj) as [H1 H2]. split; auto. split; auto. intros (k & l & W & L). apply P.
  destruct (walk_ends _ _ _ _ _ _ _ _ W) as [Hk Hl]. destruct (place_forth t n m (k, l) Hk Hl) as ([a b] & Ha & Hb & Ep).
  pose proof (walk_turned t _ _ _ _ _ _ _ _ _ (turned_sym t n m x y E) W) as W'. rewrite <- !surjective_pairing, tall_back, wide_back in W'.
  rewrite <- Ep, !place_back in W' by auto. cbn [fst snd] in W'. exists a, b. assert (C := proj2 (proj2 E)). rewrite C in W', L by auto. split; [exact W'|].
  replace k with (fst (place t n m (a, b))) in L by (rewrite Ep; auto). replace l with (snd (place t n m (a, b))) in L by (rewrite Ep; auto).
  cbn [fst snd] in Ha, Hb. rewrite C in L by auto. exact L.
Qed.
Lemma listed_turned t n m x y ps qs : turned t n m x y -> listed (prominent n m x) ps -> listed (prominent (tall t n m) (wide t n m) y) qs ->
  Permutation qs (map (place t n m) ps).
Proof.
  intros E [S1 I1] [S2 I2].
  apply NoDup_Permutation; [apply NoDup_before; auto|apply NoDup_place; [apply NoDup_before; auto|intros [i j] I; apply I1 in I; destruct I as (A & B & _); auto]|].
  intros [a b]. rewrite I2, in_map_iff. split.
  - intros L. pose proof (prominent_turned t _ _ _ _ _ _ (turned_sym t n m x y E) L) as L'. rewrite tall_back, wide_back in L'.
    exists (place t (tall t n m) (wide t n m) (a, b)). destruct L as (La & Lb & _). split.
    + pose proof (place_back t (tall t n m) (wide t n m) (a, b)) as P. rewrite tall_back, wide_back in P. apply P; auto.
    + rewrite (surjective_pairing (place _ _ _ _)). apply I1. exact L'.
  - intros ([i j] & Ep & I). apply I1 in I. apply (prominent_turned t n m x y) in I; auto. rewrite Ep in I. exact I.
Qed.

Section Bemd.
Variable t : turning.
Hypothesis Ht : t = Transposed \/ t = HalfTurn.
Variable n : nat.
Hypothesis Hn : (0 < n)%nat.
Notation R := (turned t n n).
Variable rec : reconstruction Qc.
Hypothesis Hrec : rec_ok n n rec.
Variable f : rbf Qc.
Hypothesis Hf : rbf_ok f.
Hypothesis Hfair : fair_rbf t f.
Notation flip := (fun p => swap (place t n n (swap p))).

Lemma flip_place p : (fst p < n)%nat -> (snd p < n)%nat -> flip p = place t n n p.
Proof. destruct p as [a b]. destruct Ht as [-> | ->]; reflexivity. Qed.
Lemma positions_turned x y ps qs : R x y -> listed (prominent n n x) (map swap ps) -> listed (prominent n n y) (map swap qs) -> Permutation qs (map flip ps).
Proof.
  intros E L1 L2. assert (L2' : listed (prominent (tall t n n) (wide t n n) y) (map swap qs)) by (rewrite square_tall, square_wide; auto).
  pose proof (Permutation_map swap (listed_turned t n n x y _ _ E L1 L2')) as P. rewrite swap_swap, !map_map in P. exact P.
Qed.
Lemma listed_in x ps p : listed (prominent n n x) (map swap ps) -> In p ps -> (fst p < n /\ snd p < n)%nat.
Proof.
  intros [_ L] I. destruct p as [a b]. apply (in_map swap) in I. cbn [swap fst snd] in I. apply L in I. destruct I as (A & B & _). cbn. auto.
Qed.
Lemma fit_b_turned x y ps qs : R x y -> (forall p, In p ps -> (fst p < n /\ snd p < n)%nat) -> Permutation qs (map flip ps) ->
  exists vs ws, mapM (pick x) ps = Ok vs /\ mapM (pick y) qs = Ok ws /\ alike R (f ps vs n n) (f qs ws n n).
Proof.
  intros E Ip P. exists (map (fun p => pixel x (fst p) (snd p)) ps), (map (fun p => pixel y (fst p) (snd p)) qs).
  assert (Hy : rect n n y) by (pose proof (proj1 (proj2 E)) as Y; rewrite square_tall, square_wide in Y; exact Y).
  split; [apply (mapM_pick n n); [apply E|auto]|]. split.
  - apply (mapM_pick n n); auto. intros q I. apply (Permutation_in _ P) in I. apply in_map_iff in I as (p & <- & I). destruct (Ip _ I) as [A B].
    rewrite flip_place by auto. pose proof (place_in t n n p A B) as C. rewrite square_tall, square_wide in C. exact C.
  - apply Hfair; auto; rewrite ?map_length; auto. rewrite combine_values, (Permutation_map _ P), map_map. apply Permutation_refl'.
    destruct E as (_ & _ & C). clear - Ip C Ht. induction ps as [|[i j] ps IH]; cbn [map combine]; auto.
    destruct (Ip (i, j) (or_introl eq_refl)) as [A B]. f_equal; [|apply IH; intros; apply Ip; right; auto].
    apply (f_equal2 pair); [reflexivity|]. cbn [fst snd] in A, B. cbn [fst snd swap]. rewrite <- (C i j A B). destruct Ht as [-> | ->]; reflexivity.
Qed.
Lemma turned_negative x y : R x y -> R (negative x) (negative y).
Proof. apply turned_imap. Qed.
Lemma square_y x y : R x y -> rect n n y.
Proof. intros E. pose proof (proj1 (proj2 E)) as Y. rewrite square_tall, square_wide in Y. exact Y. Qed.
Lemma check_proto_b_turned c p q a b u v : R p q -> R a b -> R u v -> check_proto_b c q b v = check_proto_b c p a u.
Proof.
  intros E1 E2 E3. unfold check_proto_b. rewrite (imean_turned t n n u v E3), (forallb_perm _ _ _ (turned_concat t n n _ _ E3)), (iallclose_turned t n n _ p q a b E1 E2).
  rewrite (imean_turned t n n _ _ (turned_imap t n n nabs _ _ E1)). reflexivity.
Qed.
Lemma sift_b_turned c left : forall k h x y, R x y ->
  alike (fun p q => R (fst p) (fst q) /\ snd p = snd q) (sift_b rec f c left k h x) (sift_b rec f c left k h y).
Proof.
  induction left as [|left IH]; intros k h x y E; cbn [sift_b]; [cbn; auto|].
  assert (Hx : rect n n x) by apply E. assert (Hy := square_y x y E).
  pose proof (mins_listed rec n n Hrec Hn x Hx) as L1. pose proof (mins_listed rec n n Hrec Hn y Hy) as L2.
  pose proof (maxs_listed rec n n Hrec Hn x Hx) as L3. pose proof (maxs_listed rec n n Hrec Hn y Hy) as L4.
  pose proof (positions_turned _ _ _ _ (turned_negative x y E) L1 L2) as P1. pose proof (positions_turned _ _ _ _ E L3 L4) as P2.
  unfold zlen. rewrite (Permutation_length P1), (Permutation_length P2), !map_length.
  destruct (_ && _); [|cbn; auto]. unfold envelopes_b.
  destruct (fit_b_turned x y _ _ E (fun p => listed_in _ _ p L1) P1) as (v1 & w1 & V1 & W1 & F1).
  destruct (fit_b_turned x y _ _ E (fun p => listed_in _ _ p L3) P2) as (v2 & w2 & V2 & W2 & F2).
  rewrite V1, W1, V2, W2. cbn [bind]. rewrite (nrows_rect n n x), (ncols_rect n n x), (nrows_rect n n y), (ncols_rect n n y) by auto.
  destruct (f (minima_positions rec x) v1 n n) as [lo|e], (f (minima_positions rec y) w1 n n) as [lo'|e']; cbn [bind alike] in *; try contradiction; auto.
  destruct (f (maxima_positions rec x) v2 n n) as [up|e], (f (maxima_positions rec y) w2 n n) as [up'|e']; cbn [bind alike] in *; try contradiction; auto.
  assert (E2 : R (imap (nmul nhalf) (iadd lo up)) (imap (nmul nhalf) (iadd lo' up'))) by (apply turned_imap, turned_imap2; auto).
  assert (S1 : same_shape x (imap (nmul nhalf) (iadd lo up)) = true) by (apply (same_shape_iff n n n n); auto; apply E2).
  assert (S2 : same_shape y (imap (nmul nhalf) (iadd lo' up')) = true) by (apply (same_shape_iff n n n n); auto; apply (square_y _ _ E2)).
  rewrite S1, S2. cbn [negb].
  assert (E3 := turned_imap2 t n n nsub _ _ _ _ E E2). change (imap2 nsub x) with (isub x) in E3. change (imap2 nsub y) with (isub y) in E3.
  rewrite (check_proto_b_turned c _ _ _ _ _ _ E3 E E2).
  repeat match goal with |- context [if ?b then _ else _] => destruct b end; cbn [alike fst snd]; auto; apply IH; auto.
Qed.
Theorem bemd_turned c fuel x y k : R x y -> alike (Forall2 R) (bemd rec f c fuel x k) (bemd rec f c fuel y k).
Proof.
  intros E. unfold bemd.
  assert (M := modes2_turned t n n (fun r => sift_b rec f c (Z.to_nat (MAX_ITERATION2 c)) 0 0 r) (fun r => sift_b rec f c (Z.to_nat (MAX_ITERATION2 c)) 0 0 r)
    x y _ _ k E E ltac:(intros a b Hab; apply sift_b_turned; auto) fuel [] [] ltac:(constructor)).
  destruct (modes2 _ fuel x _ k []) as [I|e], (modes2 _ fuel y _ k []) as [I'|e']; cbn [bind alike] in *; try contradiction; auto.
  apply with_residue_turned; auto.
Qed.
End Bemd.

(** ** Surfaces that favour no direction *)
(** The average of the values, weighted by 1 / (1 + squared distance). *)
Definition dist2 (i j : nat) (p : nat * nat) : Z := (Z.of_nat i - Z.of_nat (fst p)) * (Z.of_nat i - Z.of_nat (fst p)) + (Z.of_nat j - Z.of_nat (snd p)) * (Z.of_nat j - Z.of_nat (snd p)).
Definition weight (i j : nat) (p : nat * nat) : Qc := Q2Qc (1 # Z.to_pos (1 + dist2 i j p)).
Definition total_of {X} (g : X -> Qc) (l : list X) : Qc := fold_right Qcplus 0%Qc (map g l).
Definition near (pts : list (nat * nat * Qc)) (i j : nat) : Qc :=
  (total_of (fun q => weight i j (fst q) * snd q) pts / total_of (fun q => weight i j (fst q)) pts)%Qc.
Definition near_surface : surface Qc := fun ps vs xi yi =>
  match vs with [] => Raise ValueError | _ => Ok (map (fun i => map (fun j => near (combine ps vs) i j) yi) xi) end.
Definition near_rbf : rbf Qc := fun ps vs n m =>
  match vs with [] => Raise ValueError | _ => Ok (map (fun i => map (fun j => near (combine ps vs) j i) (seq 0 n)) (seq 0 m)) end.
Lemma total_perm {X} (g : X -> Qc) l k : Permutation l k -> total_of g l = total_of g k.
Proof. unfold total_of. induction 1; cbn [map fold_right]; try congruence. rewrite !Qcplus_assoc, (Qcplus_comm (g y)). reflexivity. Qed.
Lemma total_ext {X} (g h : X -> Qc) l : (forall a, In a l -> g a = h a) -> total_of g l = total_of h l.
Proof. unfold total_of. intros E. f_equal. apply map_ext_in. auto. Qed.
Lemma near_perm l k i j : Permutation l k -> near l i j = near k i j.
Proof. intros P. unfold near. rewrite (total_perm _ _ _ P), (total_perm (fun q => weight i j (fst q)) _ _ P). reflexivity. Qed.
Lemma combine_fst {X Y Z} (g : X -> Z) (l : list X) : forall k : list Y, combine (map g l) k = map (fun q => (g (fst q), snd q)) (combine l k).
Proof. induction l as [|a l IH]; intros [|b k]; cbn; auto. rewrite IH. reflexivity. Qed.
Lemma near_moved (g : nat * nat -> nat * nat) ps vs i j i' j' : (forall p, In p ps -> dist2 i' j' (g p) = dist2 i j p) ->
  near (combine (map g ps) vs) i' j' = near (combine ps vs) i j.
Proof.
  intros D. rewrite combine_fst. unfold near, total_of. rewrite !map_map.
  assert (W : forall q, In q (combine ps vs) -> weight i' j' (g (fst q)) = weight i j (fst q)).
  { intros [p v] I. apply in_combine_l in I. unfold weight. cbn [fst]. rewrite D by auto. reflexivity. }
  apply (f_equal2 Qcdiv); apply f_equal; apply map_ext_in; intros q I; cbn [fst snd]; rewrite W by auto; reflexivity.
Qed.
Lemma dist2_place t n m i j p : (i < n)%nat -> (j < m)%nat -> (fst p < n)%nat -> (snd p < m)%nat ->
  dist2 (fst (place t n m (i, j))) (snd (place t n m (i, j))) (place t n m p) = dist2 i j p.
Proof.
  destruct p as [a b]. cbn [fst snd]. intros. unfold dist2. destruct t; cbn [place fst snd]; rewrite ?Nat2Z.inj_sub by lia; ring.
Qed.
Lemma pixel_table (g : nat -> nat -> Qc) xi yi i j : (i < length xi)%nat -> (j < length yi)%nat ->
  pixel (map (fun a => map (fun b => g a b) yi) xi) i j = g (nth i xi O) (nth j yi O).
Proof. intros Hi Hj. unfold pixel. rewrite (nth_map_lt _ _ _ O) by auto. rewrite (nth_map_lt _ _ _ O) by auto. reflexivity. Qed.
Lemma rect_table (g : nat -> nat -> Qc) xi yi : rect (length xi) (length yi) (map (fun a => map (fun b => g a b) yi) xi).
Proof. split; [apply map_length|]. apply Forall_forall. intros r I. apply in_map_iff in I as (a & <- & _). apply map_length. Qed.
Lemma near_surface_ok : surface_ok near_surface.
Proof. intros ps vs xi yi e. unfold near_surface. destruct vs; intros [= <-]. apply rect_table. Qed.
Lemma near_rbf_ok : rbf_ok near_rbf.
Proof.
  intros ps vs n m e. unfold near_rbf. destruct vs as [|v vs]; intros [= <-].
  pose proof (rect_table (fun a b => near (combine ps (v :: vs)) b a) (seq 0 m) (seq 0 n)) as G. rewrite !seq_length in G. exact G.
Qed.
Lemma perm_nil_both {X Y} (ps ps' : list X) (vs vs' : list Y) g : length ps = length vs -> length ps' = length vs' ->
  Permutation (combine ps' vs') (combine (map g ps) vs) -> length vs = length vs'.
Proof. intros L L' P. apply Permutation_length in P. rewrite !combine_length, map_length in P. lia. Qed.
Lemma near_surface_fair t : fair_surface t near_surface.
Proof.
  intros n m ps vs ps' vs' Hn Hm L L' I P. pose proof (perm_nil_both _ _ _ _ _ L L' P) as LL. unfold near_surface.
  destruct vs as [|v vs], vs' as [|v' vs']; try discriminate LL; [reflexivity|]. cbn [alike].
  pose proof (rect_table (fun a b => near (combine ps (v :: vs)) a b) (seq n n) (seq m m)) as G1.
  pose proof (rect_table (fun a b => near (combine ps' (v' :: vs')) a b) (seq (tall t n m) (tall t n m)) (seq (wide t n m) (wide t n m))) as G2.
  rewrite !seq_length in G1, G2. split; [exact G1|]. split; [exact G2|]. intros i j Hi Hj. destruct (place_in t n m (i, j) Hi Hj) as [A B].
  rewrite !pixel_table by (rewrite seq_length; auto). rewrite !seq_nth by auto. rewrite (near_perm _ _ _ _ P). apply near_moved. intros p Ip.
  destruct (I p Ip) as [C D]. rewrite <- (dist2_place t (3 * n) (3 * m) (n + i) (m + j) p) by lia. f_equal.
  - destruct t; cbn [place tall fst snd]; lia.
  - destruct t; cbn [place wide fst snd]; lia.
Qed.
Lemma near_rbf_fair t : fair_rbf t near_rbf.
Proof.
  intros n ps vs ps' vs' Hn L L' I P. pose proof (perm_nil_both _ _ _ _ _ L L' P) as LL. unfold near_rbf.
  destruct vs as [|v vs], vs' as [|v' vs']; try discriminate LL; [reflexivity|]. cbn [alike].
  pose proof (rect_table (fun a b => near (combine ps (v :: vs)) b a) (seq 0 n) (seq 0 n)) as G1.
  pose proof (rect_table (fun a b => near (combine ps' (v' :: vs')) b a) (seq 0 n) (seq 0 n)) as G2.
  rewrite !seq_length in G1, G2. split; [exact G1|]. rewrite square_tall, square_wide. split; [exact G2|]. intros i j Hi Hj.
  destruct (place_in t n n (i, j) Hi Hj) as [A B]. rewrite square_tall in A. rewrite square_wide in B.
  rewrite (pixel_table (fun a b => near (combine ps (v :: vs)) b a)), (pixel_table (fun a b => near (combine ps' (v' :: vs')) b a)) by (rewrite seq_length; auto).
  rewrite !seq_nth by auto. cbn [Nat.add]. rewrite (near_perm _ _ _ _ P). apply near_moved. intros p Ip.
  destruct (I p Ip) as [C D]. pose proof (dist2_place t n n i j (swap p) Hi Hj D C) as E. destruct p as [a b]. unfold dist2, swap in *. cbn [fst snd] in *. lia.
Qed.
