(** * Compact: model of /repo/PyEMD/compact.py. *)
From Verif Require Export Py.

Section Compact.
Context {A : Type} `{Num A}.
Notation vec := (list A).
Let lit := @nlit A _.

(** ** Item and slice assignment *)
Fixpoint replace_at (k : nat) (v : A) (l : vec) : vec :=
  match k, l with
  | _, [] => []
  | O, _ :: l' => v :: l'
  | S k', x :: l' => x :: replace_at k' v l'
  end.
(** [l[i] = v] *)
Definition py_set (l : vec) (i : Z) (v : A) : res vec :=
  let j := if i <? 0 then i + zlen l else i in
  if (j <? 0) || (zlen l <=? j) then Raise IndexError else Ok (replace_at (Z.to_nat j) v l).
(** Several assignments in a row. *)
Definition py_sets (l : vec) (us : list (Z * A)) : res vec :=
  fold_left (fun r u => let! l := r in py_set l (fst u) (snd u)) us (Ok l).
(** [l[lo:hi] = v] with [v] of the length of the slice. *)
Definition py_set_slice (l : vec) (lo hi : Z) (v : vec) : res vec :=
  let a := clip_bound (zlen l) lo in
  let b := Z.max a (clip_bound (zlen l) hi) in
  if zlen v =? b - a then Ok (firstn (Z.to_nat a) l ++ v ++ skipn (Z.to_nat b) l) else Raise ValueError.

(** ** TDMAsolver, compact.py:4-31.
    The first loop leaves cp[n-1] at 0 unless n = 1.  Modelled for four arrays of one length
    (as its callers pass); otherwise the model raises IndexError. *)
Fixpoint cp_rest (prev : A) (r : list (A * A * A)) : vec :=
  match r with
  | [] => []
  | [_] => [n0]
  | (a, b, c) :: r' => let p := ndiv c (nsub b (nmul a prev)) in p :: cp_rest p r'
  end.
Fixpoint dp_rest (prev : A) (cps : vec) (r : list (A * A * A)) : vec :=
  match cps, r with
  | cp :: cps', (a, b, d) :: r' =>
      let p := ndiv (nsub d (nmul a prev)) (nsub b (nmul a cp)) in p :: dp_rest p cps' r'
  | _, _ => []
  end.
Fixpoint back (dc : list (A * A)) : vec :=
  match dc with
  | [] => []
  | (d, c) :: r => match back r with
                   | [] => [d]
                   | x :: xs => nsub d (nmul c x) :: x :: xs
                   end
  end.
Definition TDMAsolver (a b c d : vec) : res vec :=
  if Nat.eqb (length a) (length b) && Nat.eqb (length c) (length b) && Nat.eqb (length d) (length b) then
    match a, b, c, d with
    | _ :: a', b0 :: b', c0 :: c', d0 :: d' =>
        let cp0 := ndiv c0 b0 in
        let cps := cp0 :: cp_rest cp0 (combine (combine a' b') c') in
        let dp0 := ndiv d0 b0 in
        let dps := dp0 :: dp_rest dp0 cps (combine (combine a' b') d') in
        Ok (back (combine dps cps))
    | _, _, _, _ => Raise IndexError
    end
  else Raise IndexError.

(** ** filt6, compact.py:34-90 *)
Definition filt6_rhs (f : vec) (alpha : A) : res vec :=
  let n := zlen f in
  let Ca := ndiv (nadd (lit 11 1) (nmul (lit 10 1) alpha)) (lit 16 1) in
  let Cb := ndiv (nadd (lit 15 1) (nmul (lit 34 1) alpha)) (lit 32 1) in
  let Cc := ndiv (nadd (lit (-3) 1) (nmul (lit 6 1) alpha)) (lit 16 1) in
  let Cd := ndiv (nsub (lit 1 1) (nmul (lit 2 1) alpha)) (lit 32 1) in
  let term (c : A) (x y : vec) := map2 (fun a b => nmul (nmul c nhalf) (nadd a b)) x y in
  let inner :=
    vadd (vadd (vadd (term Cd (py_slice f 6 n) (py_slice f 0 (-6)))
                     (term Cc (py_slice f 5 (-1)) (py_slice f 1 (-5))))
               (term Cb (py_slice f 4 (-2)) (py_slice f 2 (-4))))
         (vscale Ca (py_slice f 3 (-3))) in
  let! rhs := py_set_slice (vzeros (length f)) 3 (-3) inner in
  let! f0 := py_get f 0 in let! f1 := py_get f 1 in let! f2 := py_get f 2 in
  let! f3 := py_get f 3 in let! f4 := py_get f 4 in
  let! e0 := py_get f (-1) in let! e1 := py_get f (-2) in let! e2 := py_get f (-3) in
  let! e3 := py_get f (-4) in let! e4 := py_get f (-5) in
  let l16 := lit 16 1 in let l4 := lit 4 1 in let l6 := lit 6 1 in
  let row0 (f0 f1 f2 f3 f4 : A) :=
    nadd (nmul (lit 15 16) f0)
         (ndiv (nsub (nadd (nsub (nmul l4 f1) (nmul l6 f2)) (nmul l4 f3)) f4) l16) in
  let row1 (f0 f1 f2 f3 f4 : A) :=
    nadd (nmul (lit 3 4) f1)
         (ndiv (nadd (nsub (nadd f0 (nmul l6 f2)) (nmul l4 f3)) f4) l16) in
  let row2 (f0 f1 f2 f3 f4 : A) :=
    nadd (nmul (lit 5 8) f2)
         (ndiv (nsub (nadd (nadd (nopp f0) (nmul l4 f1)) (nmul l4 f3)) f4) l16) in
  py_sets rhs [(0, row0 f0 f1 f2 f3 f4); (1, row1 f0 f1 f2 f3 f4); (2, row2 f0 f1 f2 f3 f4);
               (-1, row0 e0 e1 e2 e3 e4); (-2, row1 e0 e1 e2 e3 e4); (-3, row2 e0 e1 e2 e3 e4)].
Definition filt6 (f : vec) (alpha : A) : res vec :=
  let! rhs := filt6_rhs f alpha in
  let ones := repeat n1 (length f) in
  let! Da := py_sets (vscale alpha ones) [(1, n0); (2, n0); (-1, n0); (-2, n0); (-3, n0)] in
  let! Dc := py_sets (vscale alpha ones) [(0, n0); (1, n0); (2, n0); (-2, n0); (-3, n0)] in
  TDMAsolver Da ones Dc rhs.

(** ** pade6, compact.py:93-161 *)
Definition pade6_rhs (v : vec) (h : A) : res vec :=
  let n := zlen v in
  let a := lit 14 18 in
  let b := lit 1 36 in
  let inner :=
    vadd (map (fun x => nmul x (ndiv a h)) (vsub (py_slice v 3 (-1)) (py_slice v 1 (-3))))
         (map (fun x => nmul x (ndiv b h)) (vsub (py_slice v 4 n) (py_slice v 0 (-4)))) in
  let! rhs := py_set_slice (vzeros (length v)) 2 (-2) inner in
  let! v0 := py_get v 0 in let! v1 := py_get v 1 in let! v2 := py_get v 2 in
  let! v3 := py_get v 3 in let! v4 := py_get v 4 in let! v5 := py_get v 5 in
  let! e0 := py_get v (-1) in let! e1 := py_get v (-2) in let! e2 := py_get v (-3) in
  let! e3 := py_get v (-4) in let! e4 := py_get v (-5) in let! e5 := py_get v (-6) in
  let six (k0 k1 k2 k3 k4 k5 v0 v1 v2 v3 v4 v5 : A) :=
    ndiv (nadd (nadd (nadd (nadd (nadd (nmul k0 v0) (nmul k1 v1)) (nmul k2 v2)) (nmul k3 v3)) (nmul k4 v4)) (nmul k5 v5)) h in
  py_sets rhs
    [(0, six (lit (-197) 60) (lit (-5) 12) (lit 5 1) (lit (-5) 3) (lit 5 12) (lit (-1) 20) v0 v1 v2 v3 v4 v5);
     (1, six (lit (-20) 33) (lit (-35) 132) (lit 34 33) (lit (-7) 33) (lit 2 33) (lit (-1) 132) v0 v1 v2 v3 v4 v5);
     (-1, six (lit 197 60) (lit 5 12) (lit (-5) 1) (lit 5 3) (lit (-5) 12) (lit 1 20) e0 e1 e2 e3 e4 e5);
     (-2, six (lit 20 33) (lit 35 132) (lit (-34) 33) (lit 7 33) (lit (-2) 33) (lit 1 132) e0 e1 e2 e3 e4 e5)].
Definition pade6 (v : vec) (h : A) : res vec :=
  let! rhs := pade6_rhs v h in
  let ones := repeat n1 (length v) in
  let alpha1 := lit 5 1 in
  let alpha2 := lit 2 11 in
  let alpha := lit 1 3 in
  let! Da := py_sets (vscale alpha ones) [(1, alpha2); (-1, alpha1); (-2, alpha2)] in
  let! Dc := py_sets (vscale alpha ones) [(0, alpha1); (1, alpha2); (-2, alpha2)] in
  TDMAsolver Da ones Dc rhs.
End Compact.
