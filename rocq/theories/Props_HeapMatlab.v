(** * Props_HeapMatlab: property C85, EMD_matlab works on arrays of its own.

    [contents], [untouched], [created], [apart], [do_writes] (HeapSpec.v) say what arrays show and
    share; [entries_show m hs rs] (HeapMatlabSpec.v): the entries [hs] of the returned dictionaries, with
    the arrays as they are in memory [m], are the rows [rs] of the functional model (Matlab.v). *)
From Verif Require Import PyFacts QcFacts Spec Emd Heap HeapSpec Matlab HeapMatlab HeapMatlabSpec HeapMatlabProofs Demo MatlabDemo.
From Coq Require Import QArith Qcanon.
Open Scope Z_scope.

(** ** C85, for every arithmetic and every memory *)
(** The call changes no array that existed (S, T and results of earlier calls included), although it
    updates its remainder in place.  Every array in the returned dictionary is new and no two of them
    share memory, and they show what the functional model computes.  S and T may be views or the same
    array. *)
Theorem C85_new_arrays :
  forall {A} `{Num A} (spl : spline_oracle A) fuel c convS convT S T s t k m rs z,
  contents m S = Some (Vec s) -> shows m T t -> m_emd spl fuel c s t k = Ok (rs, z) ->
  exists m' hs, m_emd_h spl fuel c convS convT S T k m = (Ok (hs, z), m') /\
    entries_show m' hs rs /\ untouched m m' /\
    (forall h, In h hs -> created m m' (hr_imf h)) /\
    (forall i j g h, nth_error hs i = Some g -> nth_error hs j = Some h -> i <> j -> apart (hr_imf g) (hr_imf h)).
Proof. exact @m_call_ok. Qed.
Print Assumptions C85_new_arrays.

(** When it raises, nothing that existed has changed. *)
Theorem C85_after_exception :
  forall {A} `{Num A} (spl : spline_oracle A) fuel c convS convT S T s t k m e,
  contents m S = Some (Vec s) -> shows m T t -> m_emd spl fuel c s t k = Raise e ->
  exists m', m_emd_h spl fuel c convS convT S T k m = (Raise e, m') /\ untouched m m'.
Proof. exact @m_call_raise. Qed.
Print Assumptions C85_after_exception.

(** Assignments to one of the returned arrays, in any number, change neither the caller's arrays nor the
    other components. *)
Theorem C85_writes :
  forall {A} `{Num A} (spl : spline_oracle A) fuel c convS convT S T s t k m rs z m' hs i h ws,
  contents m S = Some (Vec s) -> shows m T t -> m_emd spl fuel c s t k = Ok (rs, z) ->
  m_emd_h spl fuel c convS convT S T k m = (Ok (hs, z), m') ->
  nth_error hs i = Some h ->
  Forall (fun w => ~ apart (target w) (hr_imf h)) ws ->
  (forall a, live m a -> contents (do_writes m' ws) a = contents m a) /\
  (forall j g r, nth_error hs j = Some g -> nth_error rs j = Some r -> i <> j ->
     contents (do_writes m' ws) (hr_imf g) = Some (Vec (row_imf r))).
Proof. exact @m_later_writes. Qed.
Print Assumptions C85_writes.

(** A signal in memory, decomposed into at least two components. *)
Definition short_mem : mem Qc := MkMem [Vec (qs [0; 2; 0; 6; 4; 6; 0; 2; 0; 6; 4])] None None.
Example C85_nonvacuous :
  match m_emd lin_spl 10 mat_fixe (qs [0; 2; 0; 6; 4; 6; 0; 2; 0; 6; 4]) None None,
        m_emd_h lin_spl 10 mat_fixe false true (MkArr 0 Whole) None None short_mem with
  | Ok (rs, z), (Ok (hs, z'), m') => (2 <=? z) && (z =? z') && forallb (fun h => Nat.leb 1 (base (hr_imf h))) hs = true
  | _, _ => False
  end.
Proof. vm_compute. reflexivity. Qed.
