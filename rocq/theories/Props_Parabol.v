(** * Props_Parabol: properties C23 and C24, extrema detection in 'parabol' mode (exact
    arithmetic).

    [kept_triple], [parabola_through], [is_vertex], [in_window] are defined in Spec.v. *)
From Verif Require Import PyFacts QcFacts Emd Spec Demo DemoFacts EmdSimple ParabolProofs ParabolSpec ParabolAlt.
From Coq Require Import QArith Qcanon.
Open Scope Z_scope.

(** ** C23 *)
(** Maxima: exactly the vertices, inside the window of the middle sample, of the downward
    parabolas through three consecutive kept samples. *)
Theorem C23_parabol_maxima :
  forall (T S : list Qc) t v, increasing T -> (2 <= length S)%nat -> length T = length S ->
  forall e, find_extrema Parabol T S = Ok e ->
  In (t, v) (combine (max_pos e) (max_val e)) <->
  exists i j k a b c, kept_triple S i j k /\ parabola_through a b c T S i j k /\ (a < 0)%Qc /\
    is_vertex a b c t v /\ in_window (sample T i) (sample T j) (sample T k) t.
Proof. exact parabol_max. Qed.
Print Assumptions C23_parabol_maxima.

(** Minima: the same with upward parabolas; but three samples on a straight line are treated
    as if the quadratic coefficient were 1e-14, which may put a spurious vertex in the window. *)
Theorem C23_parabol_minima :
  forall (T S : list Qc) t v, increasing T -> (2 <= length S)%nat -> length T = length S ->
  forall e, find_extrema Parabol T S = Ok e ->
  In (t, v) (combine (min_pos e) (min_val e)) <->
  exists i j k a b c, kept_triple S i j k /\ parabola_through a b c T S i j k /\
    in_window (sample T i) (sample T j) (sample T k) t /\
    (((0 < a)%Qc /\ is_vertex a b c t v) \/
     (a = 0%Qc /\ is_vertex (Qcdiv 1 (Qc_ofZ (10 ^ 14))) b c t v)).
Proof. exact parabol_min. Qed.
Print Assumptions C23_parabol_minima.

(** Where no three consecutive kept samples lie on a straight line the minima are exactly the
    vertices, inside the window of the middle sample, of the upward parabolas. *)
Theorem C23_minima_not_straight :
  forall (T S : list Qc) t v, increasing T -> (2 <= length S)%nat -> length T = length S ->
  (forall i j k, kept_triple S i j k -> ~ straight T S i j k) ->
  forall e, find_extrema Parabol T S = Ok e ->
  In (t, v) (combine (min_pos e) (min_val e)) <->
  exists i j k a b c, kept_triple S i j k /\ parabola_through a b c T S i j k /\ (0 < a)%Qc /\
    is_vertex a b c t v /\ in_window (sample T i) (sample T j) (sample T k) t.
Proof. exact curved_min. Qed.
Print Assumptions C23_minima_not_straight.

(** The call succeeds, and both lists of positions are strictly increasing, so an extremum is
    reported once. *)
Theorem C23_parabol_ordered :
  forall T S : list Qc, increasing T -> (2 <= length S)%nat -> length T = length S ->
  exists e, find_extrema Parabol T S = Ok e /\ increasing (max_pos e) /\ increasing (min_pos e) /\
    length (max_val e) = length (max_pos e) /\ length (min_val e) = length (min_pos e).
Proof. exact parabol_ordered. Qed.
Print Assumptions C23_parabol_ordered.

(** In terms of samples: three consecutive kept samples yield a maximum iff the middle one is
    at least the previous one and above the next one; dually for minima. *)
Theorem C23_rule_maximum :
  forall (T S : list Qc) i j k, increasing T -> length T = length S -> kept_triple S i j k ->
  (exists t v a b c, parabola_through a b c T S i j k /\ (a < 0)%Qc /\
    is_vertex a b c t v /\ in_window (sample T i) (sample T j) (sample T k) t) <->
  (sample S i <= sample S j)%Qc /\ (sample S k < sample S j)%Qc.
Proof. exact parabol_rule_max. Qed.
Print Assumptions C23_rule_maximum.
Theorem C23_rule_minimum :
  forall (T S : list Qc) i j k, increasing T -> length T = length S -> kept_triple S i j k ->
  (exists t v a b c, parabola_through a b c T S i j k /\
    in_window (sample T i) (sample T j) (sample T k) t /\ (0 < a)%Qc /\ is_vertex a b c t v) <->
  (sample S j <= sample S i)%Qc /\ (sample S j < sample S k)%Qc.
Proof. exact parabol_rule_min. Qed.
Print Assumptions C23_rule_minimum.

(** The signal of tests/test_extrema.py (test_find_extrema_parabol). *)
Definition par_T := qs [2; 3; 4; 5; 6; 7; 8; 9; 10; 11; 12].
Definition par_S := qs [-1; 0; 1; 1; 0; -1; 0; 3; 0; -9; 0].
Example C23_nonvacuous :
  increasing par_T /\ length par_T = length par_S /\ kept_triple par_S 2 3 4 /\
  exists e, find_extrema Parabol par_T par_S = Ok e /\
    map this (max_pos e) = [(9 # 2)%Q; (9 # 1)%Q] /\ map this (max_val e) = [(9 # 8)%Q; (3 # 1)%Q] /\
    map this (min_pos e) = [(7 # 1)%Q; (11 # 1)%Q] /\ map this (min_val e) = [(-1 # 1)%Q; (-9 # 1)%Q].
Proof.
  split; [|split; [reflexivity|split]].
  - intros i Hi. do 10 (destruct i as [|i]; [vm_compute; reflexivity|]). simpl in Hi. lia.
  - unfold kept_triple, kept. simpl length. repeat split; try lia.
    + right; right. vm_compute. intros [X Y]. discriminate.
    + right; right. vm_compute. intros [X Y]. discriminate.
    + right; right. vm_compute. intros [X Y]. discriminate.
  - eexists. vm_compute. repeat split.
Qed.

(** A straight line of slope -2e-14 has a minimum for the library. *)
Theorem C23_straight_line_refuted :
  exists (T S : list Qc) e, increasing T /\ length T = length S /\
    (forall i, 0 <= i < zlen S - 1 ->
       (sample S (i + 1) - sample S i = - (Qc_ofZ 2 / Qc_ofZ (10 ^ 14)) * (sample T (i + 1) - sample T i))%Qc) /\
    find_extrema Parabol T S = Ok e /\ map this (min_pos e) = [(1 # 1)%Q].
Proof.
  exists (qs [0; 1; 2]), (map (fun z => (- (Qc_ofZ z / Qc_ofZ (10 ^ 14)))%Qc) [0; 2; 4]). eexists.
  split; [|split; [reflexivity|split; [|split; [vm_compute; reflexivity|vm_compute; reflexivity]]]].
  - intros i Hi. do 2 (destruct i as [|i]; [vm_compute; reflexivity|]). simpl in Hi. lia.
  - unfold zlen. simpl length. intros i Hi. assert (D : i = 0 \/ i = 1) by lia.
    destruct D as [-> | ->]; apply Qc_is_canon; vm_compute; reflexivity.
Qed.
Print Assumptions C23_straight_line_refuted.

(** ** C24 *)
(** A rising staircase: every step is reported as a minimum and there is no maximum, so the
    mirroring step fails, whatever the interpolation routine is. *)
Theorem C24_staircase_refuted :
  exists (T S : list Qc), increasing T /\ length T = length S /\
    forall spl fuel k, emd spl (Datatypes.S fuel) demo_parabol S (Some T) k = Raise IndexError.
Proof.
  exists (qs [0; 1; 2; 3; 4; 5; 6; 7]), (qs [0; 0; 1; 1; 2; 2; 3; 3]).
  split; [|split; [reflexivity|]].
  - intros i Hi. do 7 (destruct i as [|i]; [vm_compute; reflexivity|]). simpl in Hi. lia.
  - intros spl fuel k. vm_compute. reflexivity.
Qed.
Print Assumptions C24_staircase_refuted.

(** A hill followed by a terrace: the only maximum is mirrored about itself, the upper envelope
    does not reach the left edge and the two envelopes have different lengths. *)
Theorem C24_uncovered_refuted :
  exists (T S : list Qc), increasing T /\ length T = length S /\
    interpolates lin_spl /\ emd lin_spl 20 demo_parabol S (Some T) (-1) = Raise ValueError.
Proof.
  exists (qs [0; 1; 2; 3; 4; 5; 6]), (qs [0; 5; 3; 0; 1; 1; 2]).
  split; [|split; [reflexivity|split; [exact lin_interpolates|vm_compute; reflexivity]]].
  intros i Hi. do 6 (destruct i as [|i]; [vm_compute; reflexivity|]). simpl in Hi. lia.
Qed.
Print Assumptions C24_uncovered_refuted.

(** The positive part.  [curved]: no terrace, and no three consecutive kept samples on a straight
    line.  This holds for instance when neighbouring samples differ and no three neighbours lie on a
    line. *)
Theorem C24_curved_sufficient :
  forall T S : list Qc, length T = length S ->
  (forall i, 0 <= i < zlen S - 1 -> sample S i <> sample S (i + 1)) ->
  (forall i, 0 <= i < zlen S - 2 ->
     ((sample S (i + 1) - sample S i) * (sample T (i + 2) - sample T (i + 1)) <>
      (sample S (i + 2) - sample S (i + 1)) * (sample T (i + 1) - sample T i))%Qc) ->
  curved T S.
Proof. exact curved_sufficient. Qed.
Print Assumptions C24_curved_sufficient.

(** On a curved signal maxima and minima alternate ... *)
Theorem C24_alternate :
  forall (T S : list Qc) e, increasing T -> (2 <= length S)%nat -> length T = length S ->
  curved T S -> find_extrema Parabol T S = Ok e ->
  (forall p q, In p (max_pos e) -> In q (max_pos e) -> (p < q)%Qc ->
     exists m, In m (min_pos e) /\ (p < m)%Qc /\ (m < q)%Qc) /\
  (forall p q, In p (min_pos e) -> In q (min_pos e) -> (p < q)%Qc ->
     exists m, In m (max_pos e) /\ (p < m)%Qc /\ (m < q)%Qc).
Proof. exact curved_alternates. Qed.
Print Assumptions C24_alternate.

(** ... the mirrored points reach beyond both ends of the time axis ... *)
Theorem C24_mirroring_covers :
  forall nb (T S : list Qc) e, 1 <= nb -> increasing T -> (2 <= length S)%nat -> length T = length S ->
  curved T S -> find_extrema Parabol T S = Ok e -> 2 < zlen (max_pos e) + zlen (min_pos e) ->
  exists P Q, prepare_points Parabol nb T S e = Ok (P, Q) /\
    covers (sample T 0) (sample T (zlen T - 1)) (combine (max_pos e) (max_val e)) P /\
    covers (sample T 0) (sample T (zlen T - 1)) (combine (min_pos e) (min_val e)) Q.
Proof. exact curved_covers. Qed.
Print Assumptions C24_mirroring_covers.

(** ... and so, with any interpolation that succeeds between increasing knots, an exception of
    [emd] comes from sifting a signal that is not curved: the input minus the components found so
    far, or what sifting made of it.  [OutOfFuel] is the model's bound on the number of passes. *)
Theorem C24_raises_only_on_degenerate :
  forall spl c (S : list Qc) T fuel k e, interpolates spl -> extrema_detection c = Parabol ->
  1 <= nbsym c -> parse_kind (spline_kind c) <> None -> (2 <= length S)%nat ->
  (forall x, T = Some x -> increasing x /\ length x = length S) ->
  emd spl fuel c S T k = Raise e ->
  e = OutOfFuel \/
  exists t x, emd_time c S T = Ok t /\ met spl c t S x /\ sift_step spl c t x = Raise e /\ ~ curved t x.
Proof. exact emd_parabol_blames. Qed.
Print Assumptions C24_raises_only_on_degenerate.

Definition cur_S := qs [0; 4; 1; 3; -2; 2; 1].
Definition cur_T := qs [0; 1; 2; 3; 4; 5; 6].
Example C24_nonvacuous :
  increasing cur_T /\ curved cur_T cur_S /\
  (match find_extrema Parabol cur_T cur_S with
   | Ok e => 2 <? zlen (max_pos e) + zlen (min_pos e)
   | Raise _ => false
   end = true) /\
  interpolates lin_spl /\ extrema_detection demo_parabol = Parabol /\ 1 <= nbsym demo_parabol /\
  parse_kind (spline_kind demo_parabol) <> None /\
  is_ok (emd lin_spl 10 demo_parabol cur_S (Some cur_T) 1) = true.
Proof.
  split; [intros i Hi; do 6 (destruct i as [|i]; [vm_compute; reflexivity|]); simpl in Hi; lia|].
  split.
  { apply curved_sufficient; [reflexivity| |]; unfold zlen; simpl length; intros i Hi.
    - assert (D : i = 0 \/ i = 1 \/ i = 2 \/ i = 3 \/ i = 4 \/ i = 5) by lia.
      repeat (destruct D as [->|D]; [intros G; apply (f_equal this) in G; vm_compute in G; discriminate G|]).
      subst i. intros G; apply (f_equal this) in G; vm_compute in G; discriminate G.
    - assert (D : i = 0 \/ i = 1 \/ i = 2 \/ i = 3 \/ i = 4) by lia.
      repeat (destruct D as [->|D]; [intros G; apply (f_equal this) in G; vm_compute in G; discriminate G|]).
      subst i. intros G; apply (f_equal this) in G; vm_compute in G; discriminate G. }
  split; [vm_compute; reflexivity|]. split; [exact lin_interpolates|]. split; [reflexivity|].
  split; [simpl; lia|]. split; [discriminate|]. vm_compute. reflexivity.
Qed.

(** The staircase is such a degenerate signal: it has a terrace. *)
Example C24_staircase_not_curved :
  ~ curved (qs [0; 1; 2; 3; 4; 5; 6; 7]) (qs [0; 0; 1; 1; 2; 2; 3; 3]).
Proof.
  intros [_ H]. apply (H 2 3). unfold terrace. split; [lia|]. split; [simpl; lia|]. split.
  - intros k Hk. assert (D : k = 2 \/ k = 3) by lia. destruct D as [-> | ->]; reflexivity.
  - left. split; vm_compute; reflexivity.
Qed.
