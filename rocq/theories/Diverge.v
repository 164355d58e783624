(** * Diverge: without a component limit nothing bounds the number of passes. *)
From Verif Require Import PyFacts QcFacts Emd Spec Demo.

(** An interpolation routine: takes the knot values at the knots, and three times the
    first knot value elsewhere. *)
Fixpoint knot_value (pts : list (Qc * Qc)) (u : Qc) : option Qc :=
  match pts with
  | [] => None
  | (x, y) :: rest => if Qc_eqb x u then Some y else knot_value rest u
  end.
Definition spiky_spl : spline_oracle Qc := fun _ pts T =>
  Ok (map (fun u => match knot_value pts u with
                    | Some y => y
                    | None => (Qc_ofZ 3 * match pts with p :: _ => snd p | [] => 0 end)%Qc
                    end) T).
Definition spiky_S : list Qc := qs [-1; 1; -1; 1; -1].

Lemma spiky_pass M ext :
  sum_rows 5 M = vzeros 5 \/ sum_rows 5 M = qs [-2; 2; -2; 2; -2] ->
  exists imf e fin,
    sift spiky_spl (sift_fuel spiky_cfg) spiky_cfg (qs [0;1;2;3;4]) 0 0 ext
      (vsub spiky_S (sum_rows 5 M)) = Ok (imf, e, fin) /\ fin = false /\
    (sum_rows 5 (M ++ [imf]) = vzeros 5 \/ sum_rows 5 (M ++ [imf]) = qs [-2; 2; -2; 2; -2]) /\
    end_condition spiky_cfg spiky_S (M ++ [imf]) = Ok false.
Proof.
  intros HM.
  set (r := vsub spiky_S (sum_rows 5 M)).
  assert (Hr : r = spiky_S \/ r = qs [1; -1; 1; -1; 1]).
  { unfold r. destruct HM as [-> | ->]; [left|right]; vm_compute; reflexivity. }
  assert (Hs : exists e fin imf, fin = false /\
    sift spiky_spl (sift_fuel spiky_cfg) spiky_cfg (qs [0;1;2;3;4]) 0 0 ext r = Ok (imf, e, fin) /\
    ((r = spiky_S /\ imf = qs [-2;2;-2;2;-2]) \/ (r = qs [1;-1;1;-1;1] /\ imf = qs [2;-2;2;-2;2]))).
  { destruct Hr as [-> | ->]; eexists _, _, _; (split; [|split]);
      [|vm_compute; reflexivity| |  |vm_compute; reflexivity|]; try reflexivity.
    - left. split; reflexivity.
    - right. split; reflexivity. }
  destruct Hs as (e & fin & imf & -> & Hs & Hi). exists imf, e, false. split; [exact Hs|].
  split; auto.
  assert (Hc : sum_rows 5 (M ++ [imf]) = vzeros 5 \/ sum_rows 5 (M ++ [imf]) = qs [-2; 2; -2; 2; -2]).
  { rewrite sum_rows_app. unfold r in *. clear Hs.
    destruct HM as [E|E]; rewrite E in *; destruct Hi as [[E1 ->]|[E1 ->]];
      try (right; vm_compute; reflexivity); try (left; vm_compute; reflexivity);
      exfalso; vm_compute in E1; discriminate. }
  split; auto. unfold end_condition. change (length spiky_S) with 5%nat.
  destruct Hc as [-> | ->]; vm_compute; reflexivity.
Qed.

Lemma spiky_loop fuel M ext :
  sum_rows 5 M = vzeros 5 \/ sum_rows 5 M = qs [-2; 2; -2; 2; -2] ->
  emd_loop spiky_spl fuel spiky_cfg spiky_S (qs [0;1;2;3;4]) (-1) M ext = Raise OutOfFuel.
Proof.
  revert M ext. induction fuel as [|fuel IH]; intros M ext HM; [reflexivity|].
  destruct (spiky_pass M ext HM) as (imf & e & fin & Es & -> & HM' & Ee).
  cbn [emd_loop]. change (length spiky_S) with 5%nat. rewrite Es. cbn [bind]. rewrite Ee. cbn [bind].
  replace (zlen (M ++ [imf]) =? -1) with false by (pose proof (zlen_nonneg (M ++ [imf])); lia).
  cbn [orb]. apply IH. exact HM'.
Qed.

Lemma spiky_diverges fuel : emd spiky_spl fuel spiky_cfg spiky_S None (-1) = Raise OutOfFuel.
Proof.
  unfold emd.
  replace (emd_time spiky_cfg spiky_S None) with (Ok (qs [0;1;2;3;4])) by (vm_compute; reflexivity).
  cbn [bind]. change (negb (Nat.eqb (length spiky_S) (length (qs [0;1;2;3;4])))) with false. cbv iota.
  rewrite spiky_loop by (left; reflexivity). reflexivity.
Qed.

(** The routine interpolates: it takes the given value at every knot. *)
Lemma spiky_interpolates k pts T r :
  NoDup (map fst pts) -> spiky_spl k pts T = Ok r ->
  length r = length T /\
  forall i x y, In (x, y) pts -> nth_error T i = Some x -> nth_error r i = Some y.
Proof.
  intros Hn [= <-]. split; [apply map_length|]. intros i x y Hin Hi.
  rewrite nth_error_map, Hi. simpl. f_equal.
  replace (knot_value pts x) with (Some y); auto.
  induction pts as [|[x' y'] pts IH]; [destruct Hin|]. simpl.
  inversion Hn as [|a b Hn1 Hn2]; subst. destruct Hin as [[= -> ->]|Hin].
  - replace (Qc_eqb x x) with true; auto. symmetry. apply Qc_eqb_eq. reflexivity.
  - destruct (Qc_eqb x' x) eqn:D; [|apply IH; auto].
    apply Qc_eqb_eq in D. subst. exfalso. apply Hn1. simpl.
    change x with (fst (x, y)). apply in_map. exact Hin.
Qed.
