(** * Ctor: model of the constructors (EMD.py:61-117, EEMD.py:83-108, CEEMDAN.py:116-146,
    EMD2d.py:50-63, BEMD.py:47-54).

    Keyword arguments are a list of names and values.  Simplifications: a string is never a
    number (Python's [float("0.5")] is 0.5), numbers are ints or floats, [spline_kind] has to be a
    string already in the constructor (in Python it fails at the first spline). *)
From Verif Require Export Emd Eemd Ceemdan Image.
From Coq Require Import String List.
Import ListNotations.
Open Scope string_scope.
Open Scope Z_scope.

Section Ctor.
Context {A : Type} `{Num A}.

Inductive pyval := PInt (z : Z) | PFloat (x : A) | PStr (s : string) | PBool (b : bool) | PNone.
Notation kwargs := (list (string * pyval)).

(** [kwargs.get(k, d)] *)
Fixpoint kget (kw : kwargs) (k : string) (d : pyval) : pyval :=
  match kw with
  | [] => d
  | (k', v) :: kw' => if String.eqb k' k then v else kget kw' k d
  end.
(** The conversions [float], [int] and [bool]. *)
Definition to_float (v : pyval) : res A :=
  match v with
  | PInt z => Ok (nofZ z) | PFloat x => Ok x | PBool b => Ok (nofZ (if b then 1 else 0))
  | PStr _ => Raise ValueError | PNone => Raise TypeError
  end.
Definition to_int (v : pyval) : res Z :=
  match v with
  | PInt z => Ok z | PFloat x => Ok (ntrunc x) | PBool b => Ok (if b then 1 else 0)
  | PStr _ => Raise ValueError | PNone => Raise TypeError
  end.
Definition to_bool (v : pyval) : bool :=
  match v with
  | PInt z => negb (z =? 0) | PFloat x => negb (neqb x n0) | PStr s => negb (String.eqb s "")
  | PBool b => b | PNone => false
  end.

(** An EMD object: configuration, the unused attribute [scale_factor] (EMD.py:100), the attribute
    [DTYPE] (EMD.py:109), which every decomposition overwrites (EMD.py:807). *)
Record emd_object := MkEmd { e_cfg : emd_config A; scale_factor : A; DTYPE : pyval }.

(** EMD.__init__, EMD.py:61-117.  [spline_kind] and [nbsym] are named parameters: [kwargs] cannot
    contain them, so line 99 reads the parameter. *)
Definition emd_init_obj (sk : pyval) (nb : pyval) (kw : kwargs) : res emd_object :=
  let! er := to_float (kget kw "energy_ratio_thr" (PFloat (nlit 2 10))) in
  let! sd := to_float (kget kw "std_thr" (PFloat (nlit 2 10))) in
  let! sv := to_float (kget kw "svar_thr" (PFloat (nlit 1 1000))) in
  let! tp := to_float (kget kw "total_power_thr" (PFloat (nlit 5 1000))) in
  let! rg := to_float (kget kw "range_thr" (PFloat (nlit 1 1000))) in
  let! ns := to_int nb in
  let! sf := to_float (kget kw "scale_factor" (PFloat n1)) in
  let! kind := match sk with PStr s => Ok s | _ => Raise AttributeError end in
  let! det := match kget kw "extrema_detection" (PStr "simple") with
              | PStr s => if String.eqb s "simple" then Ok Simple
                          else if String.eqb s "parabol" then Ok Parabol else Raise AssertionError
              | _ => Raise AssertionError
              end in
  let dt := kget kw "DTYPE" (PStr "float64") in
  let! fx := to_int (kget kw "FIXE" (PInt 0)) in
  let! fh := to_int (kget kw "FIXE_H" (PInt 0)) in
  let! mx := to_int (kget kw "MAX_ITERATION" (PInt 1000)) in
  Ok (MkEmd (MkCfg sd sv er tp rg ns kind det fx fh mx) sf dt).

(** The call [EMD( **kw )]: Python binds the named parameters first. *)
Definition emd_new (kw : kwargs) : res emd_object :=
  emd_init_obj (kget kw "spline_kind" (PStr "cubic")) (kget kw "nbsym" (PInt 2))
    (filter (fun p => negb (String.eqb (fst p) "spline_kind" || String.eqb (fst p) "nbsym")) kw).

(** The attribute [noise_kind] holds any value; [generate_noise] knows two. *)
Definition to_noise (v : pyval) : noise_kinds :=
  match v with
  | PStr s => if String.eqb s "normal" then Normal else if String.eqb s "uniform" then Uniform else OtherNoise
  | _ => OtherNoise
  end.
(** EEMD.py:93-97, CEEMDAN.py:129-133: [cpus] is [os.cpu_count()].  A number of processes that is
    not an int is rejected by the pool (simplified: here). *)
Definition to_processes (par : bool) (cpus : Z) (v : pyval) : res Z :=
  match v with
  | PNone => Ok (if par then cpus else 0)
  | PInt z => Ok z
  | PBool b => Ok (if b then 1 else 0)
  | _ => if par then Raise TypeError else Ok 0
  end.

(** EEMD.__init__, EEMD.py:83-108: the settings and the inner object, [ext_EMD] or [EMD( **kwargs )].
    The generator is [RandomState()], seeded from the operating system. *)
Definition eemd_new (cpus : Z) (tr : Z) (width : A) (ext : option emd_object) (par : bool) (kw : kwargs)
  : res (eemd_config A * emd_object) :=
  let sep := to_bool (kget kw "separate_trends" (PBool false)) in
  let kind := to_noise (kget kw "noise_kind" (PStr "normal")) in
  let! procs := to_processes par cpus (kget kw "processes" PNone) in
  let! e := match ext with None => emd_new kw | Some e => Ok e end in
  Ok (MkECfg tr width sep kind par procs, e).

(** CEEMDAN.__init__, CEEMDAN.py:116-146; the generator is [RandomState(seed)], [None] for a seed
    from the operating system. *)
Definition ceemdan_new (cpus : Z) (tr : Z) (eps : A) (ext : option emd_object) (par : bool) (kw : kwargs)
  : res (ceemdan_config A * option Z * emd_object) :=
  let! ns := to_float (kget kw "noise_scale" (PFloat n1)) in
  let! rg := to_float (kget kw "range_thr" (PFloat (nlit 1 100))) in
  let! tp := to_float (kget kw "total_power_thr" (PFloat (nlit 5 100))) in
  let beta := to_bool (kget kw "beta_progress" (PBool true)) in
  let! seed := match kget kw "seed" PNone with
               | PNone => Ok None
               | PInt z => if (0 <=? z) && (z <? 2 ^ 32) then Ok (Some z) else Raise ValueError
               | PBool b => Ok (Some (if b then 1 else 0))
               | _ => Raise TypeError
               end in
  let kind := to_noise (kget kw "noise_kind" (PStr "normal")) in
  let! lim := to_int (kget kw "max_imf" (PInt 100)) in
  let! procs := to_processes par cpus (kget kw "processes" PNone) in
  let! e := match ext with None => emd_new kw | Some e => Ok e end in
  Ok (MkCCfg tr eps ns rg tp beta kind lim par procs, seed, e).

(** EMD2D.__init__, EMD2d.py:50-63: only names that are attributes already are taken over, without
    any conversion.  BEMD.__init__, BEMD.py:47-54, takes no options. *)
Definition emd2d_attributes : list (string * pyval) :=
  [("mse_thr", PFloat (nlit 1 100)); ("mean_thr", PFloat (nlit 1 100)); ("FIXE", PInt 0); ("FIXE_H", PInt 0);
   ("MAX_ITERATION", PInt 1000)].
Fixpoint assign (attrs : kwargs) (k : string) (v : pyval) : kwargs :=
  match attrs with
  | [] => []
  | (k', v') :: rest => if String.eqb k' k then (k', v) :: rest else (k', v') :: assign rest k v
  end.
Definition emd2d_new (kw : kwargs) : kwargs :=
  fold_left (fun attrs p => if existsb (fun q => String.eqb (fst q) (fst p)) attrs then assign attrs (fst p) (snd p) else attrs)
    kw emd2d_attributes.
Definition bemd_new : cfg2 A := MkCfg2 (nlit 1 100) (nlit 1 100) 1 0 5.
End Ctor.
Arguments pyval A : clear implicits.
Arguments emd_object A : clear implicits.
