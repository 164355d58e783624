(** * HeapImageProofs: the image decompositions on mutable arrays refine those on values. *)
From Verif Require Import PyFacts Image HeapImage HeapImageSpec.
From Coq Require Import Lia.

Notation "'do' p '<-' x 'in' b" := (ibind x (fun p => b))
  (at level 200, p pattern, x at level 100, b at level 200, right associativity).

Section Proofs.
Context {A : Type} `{Num A}.
Notation image := (list (list A)).

Definition grows (m m' : imem A) : Prop := exists e, m' = m ++ e.
Lemma grows_refl m : grows m m. Proof. exists []. symmetry. apply app_nil_r. Qed.
Lemma grows_trans m m' m'' : grows m m' -> grows m' m'' -> grows m m''.
Proof. intros (e & ->) (e' & ->). exists (e ++ e'). symmetry. apply app_assoc. Qed.
Lemma grows_shows m m' a x : grows m m' -> icontents m a = Some x -> icontents m' a = Some x.
Proof.
  intros (e & ->) E. unfold icontents in *. destruct (nth_error m (ibase a)) as [y|] eqn:EN; [|discriminate].
  rewrite nth_error_app1, EN by (apply nth_error_Some; congruence). exact E.
Qed.
Lemma grows_untouched m m' : grows m m' -> iuntouched m m'.
Proof. intros (e & ->) a Ha. unfold icontents. rewrite nth_error_app1 by exact Ha. reflexivity. Qed.
Lemma grows_length m m' : grows m m' -> (length m <= length m')%nat.
Proof. intros (e & ->). rewrite app_length. lia. Qed.

(** Started in [m], [f] ends as [r] does, only adding arrays; results are related by [R]. *)
Definition does {X V} (f : IM A X) (m : imem A) (r : res V) (R : imem A -> X -> V -> Prop) : Prop :=
  exists o m', f m = (o, m') /\ grows m m' /\
    match o, r with Ok a, Ok v => R m' a v | Raise e, Raise e' => e = e' | _, _ => False end.
Lemma does_bind {X V Y W} (f : IM A X) (g : X -> IM A Y) m (r : res V) (h : V -> res W) R R' :
  does f m r R -> (forall m' a v, grows m m' -> R m' a v -> does (g a) m' (h v) R') -> does (ibind f g) m (bind r h) R'.
Proof.
  intros (o & m' & E & G & Ho) HG. unfold does, ibind. rewrite E. destruct o as [a|e], r as [v|e']; try contradiction.
  - destruct (HG m' a v G Ho) as (o' & m'' & E' & G' & Ho'). exists o', m''. split; [exact E'|]. split; [eapply grows_trans; eauto|exact Ho'].
  - subst e'. exists (Raise e), m'. split; [reflexivity|]. split; [exact G|reflexivity].
Qed.
Lemma does_more {X V} (f : IM A X) m m0 (r : res V) R : grows m0 m -> does f m r R -> (exists o m', f m = (o, m') /\ grows m0 m' /\
    match o, r with Ok a, Ok v => R m' a v | Raise e, Raise e' => e = e' | _, _ => False end).
Proof. intros G (o & m' & E & G' & Ho). exists o, m'. split; auto. split; auto. eapply grows_trans; eauto. Qed.
Lemma step_pic {X V} a x (g : image -> IM A X) m (r : res V) R : icontents m a = Some (Pic x) -> does (g x) m r R -> does (ibind (load_pic a) g) m r R.
Proof. intros E D. unfold does, ibind, load_pic. rewrite E. exact D. Qed.
Lemma step_stack {X V} a x (g : list image -> IM A X) m (r : res V) R : icontents m a = Some (Stack x) -> does (g x) m r R -> does (ibind (load_stack a) g) m r R.
Proof. intros E D. unfold does, ibind, load_stack. rewrite E. exact D. Qed.
Lemma step_alloc {X V} c (g : iarr -> IM A X) m (r : res V) R :
  (forall m' a, grows m m' -> icontents m' a = Some c -> (length m <= ibase a)%nat -> page a = None -> does (g a) m' r R) -> does (ibind (ialloc c) g) m r R.
Proof.
  intros D. unfold does, ibind, ialloc. apply does_more; [exists [c]; reflexivity|]. apply D; [exists [c]; reflexivity| |cbn; lia|reflexivity].
  unfold icontents. cbn [ibase page]. rewrite nth_error_app2, Nat.sub_diag by lia. destruct c; reflexivity.
Qed.
Lemma step_copy {X V} b x (g : iarr -> IM A X) m (r : res V) R : icontents m b = Some (Pic x) ->
  (forall m' a, grows m m' -> icontents m' a = Some (Pic x) -> does (g a) m' r R) -> does (ibind (copy_pic b) g) m r R.
Proof.
  intros E D. assert (EQ : ibind (copy_pic b) g m = ibind (ialloc (Pic x)) g m) by (unfold copy_pic, ibind, load_pic; rewrite E; reflexivity).
  unfold does. rewrite EQ. apply step_alloc. auto.
Qed.
Lemma step_minus {X V} b x d y (g : iarr -> IM A X) m (r : res V) R : icontents m b = Some (Pic x) -> icontents m d = Some (Pic y) ->
  (forall m' a, grows m m' -> icontents m' a = Some (Pic (isub x y)) -> does (g a) m' r R) -> does (ibind (minus_pic b d) g) m r R.
Proof.
  intros E E' D. assert (EQ : ibind (minus_pic b d) g m = ibind (ialloc (Pic (isub x y))) g m) by (unfold minus_pic, ibind, load_pic; rewrite E, E'; reflexivity).
  unfold does. rewrite EQ. apply step_alloc. auto.
Qed.
Lemma does_ret {X V} (a : X) m (v : V) (R : imem A -> X -> V -> Prop) : R m a v -> does (iret a) m (Ok v) R.
Proof. intros HR. exists (Ok a), m. split; [reflexivity|]. split; [apply grows_refl|exact HR]. Qed.
Lemma does_raise {X V} e m R : does (ilift (Raise e) : IM A X) m (Raise e : res V) R.
Proof. exists (Raise e), m. split; [reflexivity|]. split; [apply grows_refl|reflexivity]. Qed.
Lemma step_lift {X V W} (r : res W) (g : W -> IM A X) m (h : W -> res V) R :
  (forall w, r = Ok w -> does (g w) m (h w) R) -> does (ibind (ilift r) g) m (bind r h) R.
Proof. intros D. unfold does, ibind, ilift. destruct r as [w|e]; cbn [bind]; [apply D; reflexivity|]. exists (Raise e), m. split; [reflexivity|]. split; [apply grows_refl|reflexivity]. Qed.

Definition shows_pic (m : imem A) (a : iarr * bool) (v : image * bool) : Prop := icontents m (fst a) = Some (Pic (fst v)) /\ snd a = snd v.
Ltac keep := repeat match goal with G : grows ?m ?m', E : icontents ?m ?a = Some ?x |- _ =>
  lazymatch goal with _ : icontents m' a = Some x |- _ => fail | _ => pose proof (grows_shows _ _ _ _ G E) end end.
Lemma sift2_h_does sbs c left : forall n nh imf mean m x y, icontents m imf = Some (Pic x) -> icontents m mean = Some (Pic y) ->
  does (sift2_h sbs c left n nh imf mean) m (sift2 sbs c left n nh x y) shows_pic.
Proof.
  induction left as [|left IH]; intros n nh imf mean m x y E1 E2; cbn [sift2_h sift2]; [apply does_ret; split; auto|]. cbv zeta.
  eapply step_pic; [exact E1|]. destruct (find_extrema2 x) as [mins maxs]. destruct (_ && _); [|apply does_ret; split; auto].
  eapply step_copy; [exact E1|]. intros m1 a1 G1 C1. keep. eapply step_minus; [eassumption|eassumption|]. intros m2 a2 G2 C2. keep.
  eapply step_pic; [exact C2|]. apply step_lift. intros [mn mx] _. apply step_alloc. intros m3 a3 G3 C3 _ _. keep.
  eapply step_copy; [eassumption|]. intros m4 a4 G4 C4. keep. eapply step_minus; [eassumption|eassumption|]. intros m5 a5 G5 C5. keep.
  eapply step_pic; [exact C5|]. eapply step_pic; [eassumption|]. eapply step_pic; [eassumption|].
  destruct (negb (FIXE2 c =? 0)).
  - destruct (_ <=? _); [apply does_ret; split; auto|apply IH; auto].
  - destruct (negb (FIXE_H2 c =? 0)).
    + destruct (_ =? 1); [apply IH; auto|]. destruct (FIXE_H2 c <=? _); [apply does_ret; split; auto|apply IH; auto].
    + destruct (check_proto _ _ _ _); [apply does_ret; split; auto|apply IH; auto].
Qed.
Lemma sift_b_h_does rec f c left : forall n nh imf m x, icontents m imf = Some (Pic x) ->
  does (sift_b_h rec f c left n nh imf) m (sift_b rec f c left n nh x) shows_pic.
Proof.
  induction left as [|left IH]; intros n nh imf m x E1; cbn [sift_b_h sift_b]; [apply does_ret; split; auto|]. cbv zeta.
  eapply step_pic; [exact E1|]. destruct (_ && _); [|apply does_ret; split; auto].
  apply step_lift. intros [mn mx] _. apply step_alloc. intros m3 a3 G3 C3 _ _. keep.
  eapply step_copy; [eassumption|]. intros m4 a4 G4 C4. keep. eapply step_pic; [eassumption|].
  destruct (negb (same_shape _ _)); [apply does_raise|].
  eapply step_minus; [eassumption|eassumption|]. intros m5 a5 G5 C5. keep.
  eapply step_pic; [exact C5|]. eapply step_pic; [eassumption|].
  destruct (negb (FIXE2 c =? 0)).
  - destruct (_ <=? _); [apply does_ret; split; auto|apply IH; auto].
  - destruct (negb (FIXE_H2 c =? 0)).
    + destruct (_ =? 1); [apply IH; auto|]. destruct (FIXE_H2 c <=? _); [apply does_ret; split; auto|apply IH; auto].
    + destruct (check_proto_b _ _ _ _); [apply does_ret; split; auto|apply IH; auto].
Qed.
Definition new_stack (n : nat) (m : imem A) (a : iarr) (v : list image) : Prop := icontents m a = Some (Stack v) /\ (n <= ibase a)%nat.
Section Modes.
Variables (sift_h : iarr -> IM A (iarr * bool)) (sift : image -> res (image * bool)).
Hypothesis HS : forall m a x, icontents m a = Some (Pic x) -> does (sift_h a) m (sift x) shows_pic.
Lemma modes2_h_does n fuel img ims k : forall IMF m x s l, icontents m img = Some (Pic x) -> icontents m ims = Some (Pic s) -> icontents m IMF = Some (Stack l) ->
  (n <= length m)%nat ->
  does (modes2_h sift_h fuel img ims k IMF) m (modes2 sift fuel x s k l) (fun m a v => new_stack n m a v /\ v <> []).
Proof.
  induction fuel as [|fuel IH]; intros IMF m x s l E1 E2 E3 HN; cbn [modes2_h modes2]; [apply does_raise|].
  eapply step_pic; [eassumption|]. eapply step_stack; [eassumption|]. apply step_alloc. intros m1 a1 G1 C1 _ _. keep.
  eapply step_copy; [eassumption|]. intros m2 a2 G2 C2. keep.
  eapply does_bind; [apply HS; exact C2|]. intros m3 [a b] [y b'] G3 [C3 Eb]. cbn [fst snd] in C3, Eb. subst b'. keep.
  eapply step_pic; [eassumption|]. eapply step_stack; [eassumption|]. cbv zeta. apply step_alloc. intros m4 a4 G4 C4 L4 _. keep.
  eapply step_stack; [eassumption|]. eapply step_pic; [eassumption|].
  assert (HN4 : (n <= ibase a4)%nat) by (pose proof (grows_length _ _ G1); pose proof (grows_length _ _ G2); pose proof (grows_length _ _ G3); lia).
  assert (NE : l ++ [y] <> []) by (destruct l; discriminate).
  destruct (_ || _); [apply does_ret; split; [split; auto|exact NE]|]. destruct b; [|apply does_ret; split; [split; auto|exact NE]].
  apply IH; auto. pose proof (grows_length _ _ G1); pose proof (grows_length _ _ G2); pose proof (grows_length _ _ G3); pose proof (grows_length _ _ G4); lia.
Qed.
End Modes.
Lemma with_residue_does n ims IMF m s l : icontents m ims = Some (Pic s) -> icontents m IMF = Some (Stack l) -> (n <= ibase IMF)%nat -> (n <= length m)%nat ->
  does (with_residue_h ims IMF) m (Ok (with_residue s l)) (new_stack n).
Proof.
  intros E1 E2 HN HL. unfold with_residue_h, with_residue. eapply step_pic; [eassumption|]. eapply step_stack; [eassumption|]. apply step_alloc.
  intros m1 a1 G1 C1 _ _. keep. eapply step_pic; [eassumption|]. cbv zeta. destruct (forallb _ _); [apply does_ret; split; auto|].
  eapply step_stack; [eassumption|]. pose proof (grows_length _ _ G1) as L1.
  exists (Ok (MkIArr (length m1) None)), (m1 ++ [Stack (l ++ [isub s (isum s l)])]). split; [reflexivity|]. split; [eexists; reflexivity|].
  split; [unfold icontents; cbn [ibase page]; rewrite nth_error_app2, Nat.sub_diag by lia; reflexivity|cbn; lia].
Qed.
Lemma replace_app {X} (l : list X) x y : replace (l ++ [x]) (length l) y = l ++ [y].
Proof. induction l as [|z l IH]; [reflexivity|]. cbn. rewrite IH. reflexivity. Qed.
Lemma bemd_h_does rec f c fuel img k m x : icontents m img = Some (Pic x) ->
  does (bemd_h rec f c fuel img k) m (bemd rec f c fuel x k) (new_stack (length m)).
Proof.
  intros E. unfold bemd_h, bemd. eapply step_copy; [eassumption|]. intros m1 a1 G1 C1. keep. eapply step_pic; [eassumption|].
  apply step_alloc. intros m2 a2 G2 C2 _ _. keep. eapply step_copy; [eassumption|]. intros m3 a3 G3 C3. keep.
  apply step_alloc. intros m4 a4 G4 C4 _ _. keep. cbv zeta.
  assert (L4 : (length m <= length m4)%nat) by (pose proof (grows_length _ _ G1); pose proof (grows_length _ _ G2); pose proof (grows_length _ _ G3); pose proof (grows_length _ _ G4); lia).
  eapply does_bind.
  - apply (modes2_h_does _ (fun r => sift_b rec f c (Z.to_nat (MAX_ITERATION2 c)) 0 0 r)) with (n := length m); [|eassumption|eassumption|eassumption|exact L4].
    intros m' a y Ea. apply step_alloc. intros m'' a' G' _ _ _. apply sift_b_h_does. eapply grows_shows; eauto.
  - intros m5 IMF l G5 [[C5 HN] _]. keep. apply with_residue_does; auto. pose proof (grows_length _ _ G5); lia.
Qed.
Lemma emd2d_h_does sbs c fuel img k m x : icontents m img = Some (Pic x) ->
  does (emd2d_h sbs c fuel img k) m (emd2d sbs c fuel x k) (new_stack (length m)).
Proof.
  intros E. unfold emd2d_h, emd2d. eapply step_pic; [eassumption|]. apply step_lift. intros mn _. apply step_lift. intros mx _. cbv zeta.
  destruct (neqb _ _); [apply does_raise|]. apply step_alloc. intros m1 a1 G1 C1 _ _. keep.
  apply step_alloc. intros m2 a2 G2 C2 _ _. keep. eapply step_copy; [eassumption|]. intros m3 a3 G3 C3. keep.
  apply step_alloc. intros m4 a4 G4 C4 _ _. keep.
  assert (L4 : (length m <= length m4)%nat) by (pose proof (grows_length _ _ G1); pose proof (grows_length _ _ G2); pose proof (grows_length _ _ G3); pose proof (grows_length _ _ G4); lia).
  eapply does_bind.
  - apply (modes2_h_does _ (fun r => sift2 sbs c (Z.to_nat (MAX_ITERATION2 c)) 0 0 r (izeros x))) with (n := length m); [|eassumption|eassumption|eassumption|exact L4].
    intros m' a y Ea. apply step_alloc. intros m'' a' G' C' _ _. apply sift2_h_does; auto. eapply grows_shows; eauto.
  - intros m5 IMF l G5 [[C5 HN] NE]. keep. pose proof (grows_length _ _ G5) as L5.
    set (is := imap (fun y => ndiv (nsub y mn) (nsub mx mn)) x) in *. set (sc := nsub mx mn) in *. clearbody is sc.
    destruct (with_residue_does (length m) a1 IMF m5 is l ltac:(eassumption) C5 HN ltac:(lia)) as (o & m6 & E6 & G6 & Ho).
    destruct o as [a6|]; [|contradiction]. destruct Ho as [C6 N6]. set (w := with_residue is l) in *.
    assert (NW : w <> []) by (unfold w, with_residue; cbv zeta; destruct (forallb _ _); [exact NE|destruct l; discriminate]). clearbody w.
    set (l' := map (imap (fun y => nmul y sc)) w).
    assert (NL : exists h z, l' = h ++ [z]).
    { destruct (@exists_last _ l') as (h & z & E'); [unfold l'; destruct w; [congruence|discriminate]|eauto]. }
    destruct NL as (h & z & El).
    unfold does, ibind. rewrite E6. cbv iota. unfold load_stack at 1. rewrite C6. cbv iota. unfold ialloc. fold l'.
    unfold add_to_last, ibind, load_stack. 
    assert (C7 : icontents (m6 ++ [Stack l']) (MkIArr (length m6) None) = Some (Stack l')).
    { unfold icontents. cbn [ibase page]. rewrite nth_error_app2, Nat.sub_diag by lia. reflexivity. }
    rewrite C7. cbv iota. rewrite El. rewrite rev_app_distr. cbn [rev app]. cbv iota beta. unfold iret. cbn [ibase]. rewrite replace_app.
    assert (Ll : (length (h ++ [z]) - 1 = length h)%nat) by (rewrite app_length; cbn; lia). rewrite Ll, replace_app.
    eexists _, _. split; [reflexivity|]. split; [eapply grows_trans; [exact G6|eexists; reflexivity]|].
    split; [|cbn; pose proof (grows_length _ _ G6); lia]. unfold icontents. cbn [ibase page]. rewrite nth_error_app2, Nat.sub_diag by lia. cbn [nth_error].
    unfold on_last. rewrite rev_app_distr. cbn [rev app]. rewrite rev_involutive. reflexivity.
Qed.

(** ** What the caller sees *)
Lemma does_ok {X V} (f : IM A X) m (v : V) R : does f m (Ok v) R -> exists a m', f m = (Ok a, m') /\ grows m m' /\ R m' a v.
Proof. intros (o & m' & E & G & Ho). destruct o as [a|]; [|contradiction]. eauto. Qed.
Lemma does_fail {X V} (f : IM A X) m e (R : imem A -> X -> V -> Prop) : does f m (Raise e) R -> exists m', f m = (Raise e, m') /\ grows m m'.
Proof. intros (o & m' & E & G & Ho). destruct o as [a|e']; [contradiction|]. subst. eauto. Qed.
Lemma stack_live (m : imem A) a v : icontents m a = Some v -> ilive m a.
Proof. unfold icontents, ilive. intros E. apply nth_error_Some. destruct (nth_error m (ibase a)); congruence. Qed.
Lemma new_created (m m' : imem A) a v : new_stack (length m) m' a v -> icreated m m' a.
Proof. intros [E HN]. split; [unfold ilive; lia|eapply stack_live; eauto]. Qed.
Lemma replace_length {X} (l : list X) i x : length (replace l i x) = length l.
Proof. revert i. induction l as [|y l IH]; intros [|i]; cbn; auto. Qed.
Lemma replace_other {X} (l : list X) i j x : i <> j -> nth_error (replace l i x) j = nth_error l j.
Proof. revert i j. induction l as [|y l IH]; intros [|i] [|j] Hij; cbn; auto; try congruence. Qed.
Lemma iwrite_other (m : imem A) w a : ibase (itarget w) <> ibase a -> icontents (do_iwrite m w) a = icontents m a.
Proof. intros Hne. unfold do_iwrite. destruct (nth_error m (ibase (itarget w))); auto. unfold icontents. rewrite replace_other by auto. reflexivity. Qed.
Lemma iwrite_length (m : imem A) w : length (do_iwrite m w) = length m.
Proof. unfold do_iwrite. destruct (nth_error m (ibase (itarget w))); auto. apply replace_length. Qed.
Lemma iwrites_other ws : forall (m : imem A) a, Forall (fun w => ibase (itarget w) <> ibase a) ws -> icontents (fold_left do_iwrite ws m) a = icontents m a.
Proof. induction ws as [|w ws IH]; intros m a HF; cbn [fold_left]; auto. inversion HF; subst. rewrite IH by auto. apply iwrite_other. auto. Qed.
Lemma emd2d_h_grows sbs c fuel img k m : grows m (snd (emd2d_h sbs c fuel img k m)).
Proof.
  destruct (icontents m img) as [[x|l]|] eqn:E.
  - destruct (emd2d_h_does sbs c fuel img k m x E) as (o & m' & E' & G & _). rewrite E'. exact G.
  - unfold emd2d_h, ibind, load_pic. rewrite E. apply grows_refl.
  - unfold emd2d_h, ibind, load_pic. rewrite E. apply grows_refl.
Qed.
Lemma bemd_h_grows rec f c fuel img k m : grows m (snd (bemd_h rec f c fuel img k m)).
Proof.
  destruct (icontents m img) as [[x|l]|] eqn:E.
  - destruct (bemd_h_does rec f c fuel img k m x E) as (o & m' & E' & G & _). rewrite E'. exact G.
  - unfold bemd_h, copy_pic, ibind, load_pic. rewrite E. apply grows_refl.
  - unfold bemd_h, copy_pic, ibind, load_pic. rewrite E. apply grows_refl.
Qed.
Lemma iperform_other sbs rec f fuel os : forall m a, ilive m a -> Forall (fun o => ~ iassigns_into a o) os ->
  icontents (fold_left (iperform sbs rec f fuel) os m) a = icontents m a.
Proof.
  induction os as [|o os IH]; intros m a Ha HF; cbn [fold_left]; auto. inversion HF; subst.
  assert (G : ilive (iperform sbs rec f fuel m o) a /\ icontents (iperform sbs rec f fuel m o) a = icontents m a).
  { destruct o as [c x k|c x k|w]; cbn [iperform].
    - pose proof (emd2d_h_grows sbs c fuel x k m) as G. split; [unfold ilive in *; pose proof (grows_length _ _ G); lia|apply grows_untouched; auto].
    - pose proof (bemd_h_grows rec f c fuel x k m) as G. split; [unfold ilive in *; pose proof (grows_length _ _ G); lia|apply grows_untouched; auto].
    - cbn in H2. split; [unfold ilive; rewrite iwrite_length; auto|apply iwrite_other; auto]. }
  destruct G as [G1 G2]. rewrite IH; auto.
Qed.
End Proofs.
