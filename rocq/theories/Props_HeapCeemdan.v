(** * Props_HeapCeemdan: C65 for CEEMDAN. *)
From Verif Require Import PyFacts QcFacts Spec Emd Ceemdan Heap HeapSpec HeapEemdSpec HeapCeemdan HeapCeemdanSpec
  HeapCeemdanProofs Demo EemdSpec Props_Eemd Props_Ceemdan.
From Coq Require Import QArith Qcanon.
Open Scope Z_scope.

(** A run of ceemdan on memory gives the values of the functional model, although sums are
    accumulated in place; nothing that existed changes; the returned array is new, and it is the
    very array get_imfs_and_residue hands out.  The generator returns as many samples as asked. *)
Theorem C65_ceemdan_returns_stored :
  forall {G} (gen : generator Qc G) std arrival (spl : spline_oracle Qc) fuel ec conv, sized gen ->
  forall c o p S T s t k C p',
  contents (c_mem o) S = Some (Vec s) -> shows (c_mem o) T t -> c_shows o p ->
  ceemdan gen std (emd_fun spl fuel ec) arrival c p s t k = (Ok C, p') ->
  exists a b o', ceemdan_h gen std arrival spl fuel ec conv c o S T k = (Ok a, o') /\
    ceemdan_imfs_and_residue_h o' = Ok (a, b) /\
    contents (c_mem o') a = Some (Mat C) /\
    c_shows o' p' /\ untouched (c_mem o) (c_mem o') /\
    created (c_mem o) (c_mem o') a /\ created (c_mem o) (c_mem o') b /\ apart a b.
Proof.
  intros G gen std arrival spl fuel ec conv HZ.
  exact (ceemdan_call_ok gen std arrival spl fuel ec conv (all_noises_shaped gen HZ)).
Qed.
Print Assumptions C65_ceemdan_returns_stored.

Theorem C65_ceemdan_after_exception :
  forall {G} (gen : generator Qc G) std arrival (spl : spline_oracle Qc) fuel ec conv, sized gen ->
  forall c o p S T s t k e p',
  contents (c_mem o) S = Some (Vec s) -> shows (c_mem o) T t -> c_shows o p ->
  ceemdan gen std (emd_fun spl fuel ec) arrival c p s t k = (Raise e, p') ->
  exists o', ceemdan_h gen std arrival spl fuel ec conv c o S T k = (Raise e, o') /\
    c_shows o' p' /\ untouched (c_mem o) (c_mem o').
Proof.
  intros G gen std arrival spl fuel ec conv HZ.
  exact (ceemdan_call_raise gen std arrival spl fuel ec conv (all_noises_shaped gen HZ)).
Qed.
Print Assumptions C65_ceemdan_after_exception.

(** An assignment by the caller to the returned array is an assignment to the stored one... *)
Theorem C65_ceemdan_write_seen :
  forall {G} (gen : generator Qc G) std arrival (spl : spline_oracle Qc) fuel ec conv, sized gen ->
  forall c o p S T s t k C p' a o' i j y,
  contents (c_mem o) S = Some (Vec s) -> shows (c_mem o) T t -> c_shows o p ->
  ceemdan gen std (emd_fun spl fuel ec) arrival c p s t k = (Ok C, p') ->
  ceemdan_h gen std arrival spl fuel ec conv c o S T k = (Ok a, o') ->
  contents (c_mem (c_writes o' [MkWrite a i j y])) a
    = Some (Mat (set_nth C i (set_nth (nth i C []) j y))).
Proof.
  intros G gen std arrival spl fuel ec conv HZ.
  exact (ceemdan_write_seen gen std arrival spl fuel ec conv (all_noises_shaped gen HZ)).
Qed.
Print Assumptions C65_ceemdan_write_seen.

(** ... which still is what get_imfs_and_residue hands out, while the residue and the caller's
    own arrays stay as they were. *)
Theorem C65_ceemdan_write_contained :
  forall {G} (gen : generator Qc G) std arrival (spl : spline_oracle Qc) fuel ec conv, sized gen ->
  forall c o p S T s t k C p' a o' ws,
  contents (c_mem o) S = Some (Vec s) -> shows (c_mem o) T t -> c_shows o p ->
  ceemdan gen std (emd_fun spl fuel ec) arrival c p s t k = (Ok C, p') ->
  ceemdan_h gen std arrival spl fuel ec conv c o S T k = (Ok a, o') ->
  Forall (fun w => base (target w) = base a) ws ->
  exists b r, ceemdan_imfs_and_residue_h (c_writes o' ws) = Ok (a, b) /\
    c_residue p' = Some r /\ contents (c_mem (c_writes o' ws)) b = Some (Vec r) /\
    forall x, live (c_mem o) x -> contents (c_mem (c_writes o' ws)) x = contents (c_mem o) x.
Proof.
  intros G gen std arrival spl fuel ec conv HZ.
  exact (ceemdan_write_through gen std arrival spl fuel ec conv (all_noises_shaped gen HZ)).
Qed.
Print Assumptions C65_ceemdan_write_contained.

(** A later run leaves the earlier result alone. *)
Theorem C65_ceemdan_next_run :
  forall {G} (gen : generator Qc G) std arrival (spl : spline_oracle Qc) fuel ec conv, sized gen ->
  forall c o p S T s t k C p' a o' c2 S2 T2 s2 t2 k2,
  contents (c_mem o) S = Some (Vec s) -> shows (c_mem o) T t -> c_shows o p ->
  ceemdan gen std (emd_fun spl fuel ec) arrival c p s t k = (Ok C, p') ->
  ceemdan_h gen std arrival spl fuel ec conv c o S T k = (Ok a, o') ->
  contents (c_mem o') S2 = Some (Vec s2) -> shows (c_mem o') T2 t2 ->
  let '(r, o'') := ceemdan_h gen std arrival spl fuel ec conv c2 o' S2 T2 k2 in
  contents (c_mem o'') a = Some (Mat C) /\ forall a2, r = Ok a2 -> apart a a2.
Proof.
  intros G gen std arrival spl fuel ec conv HZ.
  exact (ceemdan_twice gen std arrival spl fuel ec conv (all_noises_shaped gen HZ)).
Qed.
Print Assumptions C65_ceemdan_next_run.

Example C65_ceemdan_nonvacuous :
  sized demo_gen /\ c_shows (ceemdan_new [Vec short_S] 0) demo_cst /\
  match demo_ceemdan (demo_ccfg 2 1%Qc true false) demo_cst short_S (-1) with
  | (Ok C, _) => (2 <= length C)%nat | _ => False end /\
  match ceemdan_h demo_gen demo_std (@rev _) lin_spl 10 demo_fixe (false, false) (demo_ccfg 2 1%Qc true false)
          (ceemdan_new [Vec short_S] 0) (MkArr 0 Whole) None (-1) with
  | (Ok a, o') => (1 <= base a)%nat /\ h_C_IMF o' = Some a | _ => False end.
Proof.
  split; [exact demo_sized|]. split; [repeat split|]. split; [vm_compute; repeat constructor|].
  vm_compute. split; [repeat constructor|reflexivity].
Qed.
