(** * Props_TypedMore: property C73, integer signals in EEMD and integer images in EMD2D.

    [eemd_ints], [emd2d_ints] (TypedMore.v) are EEMD.eemd and EMD2D.emd on arrays of a NumPy integer
    type [d]; [eemd], [emd2d] are the same on the numbers themselves. *)
From Verif Require Import Py PyFacts QcFacts Extrema Emd Eemd EemdSpec Image ImageSpec ImageSift ImageDemo Demo Props_Eemd Spec
  Utils UtilsSpec Typed TypedSpec TypedProofs TypedMore TypedMoreProofs.
From Coq Require Import QArith Qcanon.
Open Scope Z_scope.

(** ** C73 *)
(** If the difference of any two samples fits the type (always, if it is unsigned), the type makes
    no difference. *)
Theorem C73_eemd :
  forall G D (gen : generator Qc G) (dec : decomposer Qc D) (d : dtype) c o (S : list Z) T k,
  is_integer d -> Forall (fits d) S ->
  is_unsigned d \/ (forall x y, In x S -> In y S -> x - y <= largest_of d) ->
  eemd_ints gen dec d c o S T k = eemd gen dec c o (map Qc_ofZ S) T k.
Proof. intros G D gen dec d c o S T k Hd Hf [Hu|Hs]; apply eemd_ints_ok; auto; apply unsigned_span; auto. Qed.
Print Assumptions C73_eemd.
(** Otherwise the noise has another amplitude: that of a signal of span 2^b - (hi - lo), and the
    opposite sign if the span is exactly 2^(b-1). *)
Theorem C73_eemd_narrow :
  forall G D (gen : generator Qc G) (dec : decomposer Qc D) (d : dtype) c o (S : list Z) T k hi lo,
  is_signed d -> Forall (fits d) S ->
  In hi S -> In lo S -> (forall x, In x S -> lo <= x <= hi) -> largest_of d < hi - lo ->
  eemd_ints gen dec d c o S T k =
  eemd gen dec
    (MkECfg (trials c)
       (noise_width c * (Qc_ofZ (if hi - lo =? largest_of d + 1 then lo - hi else 2 * (largest_of d + 1) - (hi - lo))
                         / Qc_ofZ (hi - lo)))%Qc
       (separate_trends c) (noise_kind c) (parallel c) (processes c))
    o (map Qc_ofZ S) T k.
Proof. intros; apply eemd_ints_narrow; auto. Qed.
Print Assumptions C73_eemd_narrow.
Theorem C73_emd2d :
  forall (d : dtype) sbs c fuel (image : list (list Z)) k,
  is_integer d -> Forall (fits d) (concat image) ->
  is_unsigned d \/ (forall x y, In x (concat image) -> In y (concat image) -> x - y <= largest_of d) ->
  emd2d_ints d sbs c fuel image k = emd2d sbs c fuel (map (map Qc_ofZ) image) k.
Proof. intros d sbs c fuel image k Hd Hf [Hu|Hs]; apply emd2d_ints_ok; auto; apply unsigned_span; auto. Qed.
Print Assumptions C73_emd2d.
(** For any image of a signed type of b bits, the components add up to the image except at the pixels
    that exceed the darkest by 2^(b-1) or more: there the sum is 2^b too low. *)
Theorem C73_emd2d_narrow :
  forall (d : dtype) sbs c fuel (image : list (list Z)) k (n m : nat) rows,
  surface_ok sbs -> is_signed d -> (0 < n)%nat ->
  length image = n -> Forall (fun r => length r = m) image -> Forall (Forall (fits d)) image ->
  emd2d_ints d sbs c fuel image k = Ok rows ->
  exists lo hi, (exists i j, (i < n /\ j < m)%nat /\ nth j (nth i image []) 0 = lo) /\
    (exists i j, (i < n /\ j < m)%nat /\ nth j (nth i image []) 0 = hi) /\
    Forall (rect n m) rows /\
    forall i j, (i < n)%nat -> (j < m)%nat -> let y := nth j (nth i image []) 0 in
      lo <= y <= hi /\
      within (tol * Qc_ofZ (hi - lo))%Qc
        (Qc_ofZ (if y - lo <=? largest_of d then y else y - 2 * (largest_of d + 1)) - stack_sum rows i j)%Qc.
Proof. exact emd2d_ints_sum. Qed.
Print Assumptions C73_emd2d_narrow.
(** So the components of an int8 image need not add up to it. *)
Definition stark : list (list Z) := [[-100; -90; -100; -95]; [-90; 100; -92; -99]; [-100; -90; 90; -97]; [-95; -91; -93; -94]].
Theorem C73_emd2d_refuted : exists rows,
  emd2d_ints Int8 (flat_surface half) (cfg2_of 1 0 100) 5 stark 2 = Ok rows /\
  Forall (Forall (fits Int8)) stark /\ stack_sum rows 1 1 = Qc_ofZ (-156) /\ nth 1 (nth 1 stark []) 0 = 100.
Proof.
  assert (H : match emd2d_ints Int8 (flat_surface half) (cfg2_of 1 0 100) 5 stark 2 with
    | Ok rows => Qc_eqb (stack_sum rows 1 1) (Qc_ofZ (-156)) = true | _ => False end) by (vm_compute; reflexivity).
  destruct (emd2d_ints _ _ _ _ _ _) as [rows|]; [|contradiction]. exists rows. split; [reflexivity|].
  split; [repeat constructor; vm_compute; discriminate|]. split; [qc_bool; exact H|reflexivity].
Qed.
Print Assumptions C73_emd2d_refuted.
Definition loud_S : list Z := [0; -90; 30; 120; 90; 60; -60; 0; 30].
Example C73_nonvacuous :
  is_signed Int8 /\ Forall (fits Int8) loud_S /\ largest_of Int8 < 120 - -90 /\
  match eemd_ints demo_gen demo_dec Int8 (demo_ecfg 2 false false 1) demo_obj loud_S None (-1),
        eemd_ints demo_gen demo_dec Int16 (demo_ecfg 2 false false 1) demo_obj loud_S None (-1) with
  | (Ok E, _), (Ok F, _) => negb (Qc_eqb (nth 1 (nth 0 E []) 0%Qc) (nth 1 (nth 0 F []) 0%Qc)) = true
  | _, _ => False end /\
  match emd2d_ints UInt8 (flat_surface half) (cfg2_of 1 0 100) 5
    [[0;0;0;0;0;0;0]; [0;240;0;120;0;180;0]; [0;0;0;0;0;0;0]; [0;120;0;240;0;60;0]; [0;0;0;0;0;0;0]; [0;180;0;60;0;240;0]; [0;0;0;0;0;0;0]] 2 with
  | Ok rows => length rows = 3%nat | _ => False end.
Proof.
  split; [exact I|]. split; [repeat constructor; vm_compute; discriminate|]. split; [vm_compute; reflexivity|].
  split; vm_compute; reflexivity.
Qed.
