(** * CalmSpec: the noise CEEMDAN adds to the signal in its first stage (C111). *)
From Verif Require Import Ceemdan Spec EemdSpec CeemdanSpec.
From Coq Require Import QArith Qcanon.
Open Scope Z_scope.

(** Whatever is drawn for this object and a signal of n samples, the first mode of every noise row stays within
    b of zero.  [draws] is in EemdSpec.v, [modes_of] in CeemdanSpec.v. *)
Definition calm {G} (gen : generator Qc G) (std : vec -> Qc) (emd_of : vec -> option vec -> Z -> res rows)
    (c : ceemdan_config Qc) (o : ceemdan_state Qc G) (n : nat) (b : Qc) : Prop :=
  forall noises g', draws gen (c_noise_kind c) (noise_scale c) (Z.to_nat (c_trials c) * n) (c_random o) (concat noises) g' ->
  shaped n noises -> forall noise modes, In noise noises -> modes_of std emd_of (beta_progress c) noise modes ->
  forall v, In v (nth 0 modes []) -> (- b <= v)%Qc /\ (v <= b)%Qc.
