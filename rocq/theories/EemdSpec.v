(** * EemdSpec: vocabulary of the EEMD and CEEMDAN properties. *)
From Verif Require Import Eemd Spec.
From Coq Require Import QArith Qcanon.
Open Scope Z_scope.

(** ** Noise *)
Section Noise.
Context {G : Type}.
Variable gen : generator Qc G.
(** One noise vector of [n] samples drawn in generator state [g], leaving state [g']: normal
    with the given standard deviation, or uniform in [-scale/2, scale/2]. *)
Definition draws (kind : noise_kinds) (scale : Qc) (n : nat) (g : G) (v : list Qc) (g' : G) : Prop :=
  match kind with
  | Normal => normal gen g scale n = (v, g')
  | Uniform => exists lo hi, (lo + lo = - scale)%Qc /\ (hi + hi = scale)%Qc /\
                             uniform gen g lo hi n = (v, g')
  | OtherNoise => False
  end.
(** [vs] are consecutive draws from state [g], leaving the generator in state [last]. *)
Fixpoint noise_stream (kind : noise_kinds) (scale : Qc) (n : nat) (g : G) (vs : list (list Qc)) (last : G) : Prop :=
  match vs with
  | [] => last = g
  | v :: vs' => exists g', draws kind scale n g v g' /\ noise_stream kind scale n g' vs' last
  end.

(** Two facts about NumPy's generator, used as hypotheses where needed.  It returns as many
    samples as asked for; with scale 0 they are all 0. *)
Definition sized : Prop := forall g s n,
  length (fst (normal gen g s n)) = n /\ forall lo hi, length (fst (uniform gen g lo hi n)) = n.
Definition quiet : Prop := forall g n,
  fst (normal gen g 0%Qc n) = repeat 0%Qc n /\ fst (uniform gen g 0%Qc 0%Qc n) = repeat 0%Qc n.
End Noise.

(** Difference between the largest and the smallest sample. *)
Definition spread (S : list Qc) (w : Qc) : Prop :=
  exists hi lo, In hi S /\ In lo S /\ (forall x, In x S -> (lo <= x)%Qc /\ (x <= hi)%Qc) /\ (w = hi - lo)%Qc.
(** [X] is the signal [S] plus the noise [v]. *)
Definition noisy (S v X : list Qc) : Prop :=
  length v = length S /\ length X = length S /\ forall i, (nth i X 0 = nth i S 0 + nth i v 0)%Qc.

(** The decomposer returns rows as long as its input, also when it separates the trend.
    EMD does ([emd_shapely]). *)
Definition shapely {D} (dec : decomposer Qc D) : Prop := forall d S T k imfs d',
  run dec d S T k = (Ok imfs, d') -> shaped (length S) imfs /\
  forall i tr, trend_of dec d' = Ok (i, tr) -> shaped (length S) (i ++ [tr]).

(** The noise vectors of an EEMD call.  Serially: consecutive draws, and the generator of the
    object advances.  In parallel: every chunk of trials starts again from the same state, so
    only the first [chunk] draws are ever used, and the object's generator does not move. *)
Definition serial_noise {G} (gen : generator Qc G) kind scale n (g g' : G) (noises : list (list Qc)) : Prop :=
  noise_stream gen kind scale n g noises g'.
Definition parallel_noise {G} (gen : generator Qc G) kind scale n (chunk : nat) (g g' : G)
    (noises : list (list Qc)) : Prop :=
  g' = g /\ exists base last, noise_stream gen kind scale n g base last /\
    length base = Nat.min chunk (length noises) /\
    forall i, (i < length noises)%nat -> nth i noises [] = nth (i mod chunk) base [].
Definition noise_of {G D} (gen : generator Qc G) c (o o' : eemd_state Qc G D) (S : list Qc) (w : Qc)
    (noises : list (list Qc)) : Prop :=
  if parallel c
  then parallel_noise gen (noise_kind c) (noise_width c * w)%Qc (length S)
         (Z.to_nat (chunksize (trials c) (processes c))) (random o) (random o') noises
  else serial_noise gen (noise_kind c) (noise_width c * w)%Qc (length S) (random o) (random o') noises.

(** Two states of the decomposer behave alike: its results do not depend on its history. EMD's
    do not ([emd_forgetful]). *)
Definition forgetful {A D} (dec : decomposer A D) : Prop := forall d1 d2 S T k,
  fst (run dec d1 S T k) = fst (run dec d2 S T k) /\
  (forall r, fst (run dec d1 S T k) = Ok r ->
     trend_of dec (snd (run dec d1 S T k)) = trend_of dec (snd (run dec d2 S T k))).
