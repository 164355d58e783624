(** * HeapImage: EMD2D.emd and BEMD.bemd with arrays as mutable objects (EMD2d.py:278-380, BEMD.py:184-276).

    [Image.v] models both methods as functions on values.  Here the same statements act on arrays in
    memory: every arithmetic expression, [copy()], [np.zeros] and [np.vstack] makes a new array, a
    variable names one, and [IMF[-1] += offset] (EMD2d.py:379) assigns in place.

    Simplifications: temporaries and the results of the helper methods are values; the helper methods
    are the functions of [Image.v], none of which assigns into an array it is given ([big_image] of
    prepare_image, 124-150, and the masks of find_extrema, 206-209, are allocated a few lines before). *)
From Verif Require Export Image.

Section HeapImage.
Context {A : Type} `{Num A}.
Notation image := (list (list A)).

(** ** Memory *)
(** The data of a two- or three-dimensional array. *)
Inductive icell := Pic (x : image) | Stack (l : list image).
(** An array object: a buffer, all of it or the page [buf[i]] of a three-dimensional one. *)
Record iarr := MkIArr { ibase : nat; page : option nat }.
Definition imem := list icell.
(** What an array object shows. *)
Definition icontents (m : imem) (a : iarr) : option icell :=
  match nth_error m (ibase a), page a with
  | Some x, None => Some x
  | Some (Stack l), Some i => match nth_error l i with Some x => Some (Pic x) | None => None end
  | _, _ => None
  end.

(** Computations: a result or an exception, and the memory afterwards. *)
Definition IM (X : Type) : Type := imem -> res X * imem.
Definition iret {X} (x : X) : IM X := fun m => (Ok x, m).
Definition ilift {X} (x : res X) : IM X := fun m => (x, m).
Definition ibind {X Y} (x : IM X) (f : X -> IM Y) : IM Y :=
  fun m => let (r, m') := x m in
           match r with Ok a => f a m' | Raise e => (Raise e, m') end.
Notation "'do' p '<-' x 'in' b" := (ibind x (fun p => b))
  (at level 200, p pattern, x at level 100, b at level 200, right associativity).

(** A new array. *)
Definition ialloc (x : icell) : IM iarr := fun m => (Ok (MkIArr (length m) None), m ++ [x]).
(** The elements of an array of the expected dimension. *)
Definition load_pic (a : iarr) : IM image :=
  fun m => (match icontents m a with Some (Pic x) => Ok x | _ => Raise TypeError end, m).
Definition load_stack (a : iarr) : IM (list image) :=
  fun m => (match icontents m a with Some (Stack l) => Ok l | _ => Raise TypeError end, m).
(** [a.copy()] *)
Definition copy_pic (a : iarr) : IM iarr := do x <- load_pic a in ialloc (Pic x).
(** [a - b] as a new array. *)
Definition minus_pic (a b : iarr) : IM iarr :=
  do x <- load_pic a in do y <- load_pic b in ialloc (Pic (isub x y)).
Fixpoint replace {X} (l : list X) (i : nat) (x : X) : list X :=
  match l, i with
  | [], _ => []
  | _ :: l', O => x :: l'
  | y :: l', S i' => y :: replace l' i' x
  end.
(** [a[-1] += d]: the last page is assigned in place; IndexError if there is none. *)
Definition add_to_last (a : iarr) (d : A) : IM unit :=
  do l <- load_stack a in
  match rev l with
  | [] => ilift (Raise IndexError)
  | x :: _ => fun m => (Ok tt, replace m (ibase a) (Stack (replace l (length l - 1) (imap (fun y => nadd y d) x))))
  end.

(** ** EMD2D *)
(** The sifting loop, EMD2d.py:320-364: [imf] and [mean_env] name a new array after lines 329, 333
    and 336; [imf_old] is a copy. *)
Fixpoint sift2_h (sbs : surface A) (c : cfg2 A) (left : nat) (n n_h : Z) (imf mean_env : iarr)
  : IM (iarr * bool) :=
  match left with
  | O => iret (imf, true)
  | S left' =>
    let n := n + 1 in
    do x <- load_pic imf in
    let (mins, maxs) := find_extrema2 x in
    if (4 <? zlen mins) && (4 <? zlen maxs) then
      do imf_old <- copy_pic imf in
      do imf <- minus_pic imf mean_env in
      do x <- load_pic imf in
      do (min_env, max_env) <- ilift (envelopes2 sbs x) in
      do mean_env <- ialloc (Pic (imap (nmul nhalf) (iadd min_env max_env))) in
      do imf_old <- copy_pic imf in
      do imf <- minus_pic imf mean_env in
      do x <- load_pic imf in
      do old <- load_pic imf_old in
      do mean <- load_pic mean_env in
      if negb (FIXE2 c =? 0) then
        if FIXE2 c + 1 <=? n then iret (imf, true)
        else sift2_h sbs c left' n n_h imf mean_env
      else if negb (FIXE_H2 c =? 0) then
        if n =? 1 then sift2_h sbs c left' n n_h imf mean_env
        else
          let n_h := if check_proto c x old mean then n_h + 1 else 0 in
          if FIXE_H2 c <=? n_h then iret (imf, true)
          else sift2_h sbs c left' n n_h imf mean_env
      else if check_proto c x old mean then iret (imf, true)
      else sift2_h sbs c left' n n_h imf mean_env
    else iret (imf, false)
  end.

(** The outer loop, EMD2d.py:308-371 and BEMD.py:210-269: [image] is the caller's array, [image_s] the
    one that is decomposed, [IMF] the array of the components so far. *)
Fixpoint modes2_h (sift : iarr -> IM (iarr * bool)) (fuel : nat) (image image_s : iarr) (max_imf : Z) (IMF : iarr)
  : IM iarr :=
  match fuel with
  | O => ilift (Raise OutOfFuel)
  | S fuel' =>
    do s <- load_pic image_s in
    do l <- load_stack IMF in
    do res <- ialloc (Pic (isub s (isum s l))) in
    do imf <- copy_pic res in
    do (imf, notFinished) <- sift imf in
    do x <- load_pic imf in
    do l <- load_stack IMF in
    do IMF <- ialloc (Stack (l ++ [x])) in
    do l <- load_stack IMF in
    do i <- load_pic image in
    if iallclose rtol_default i (isum i l) || ((0 <? max_imf) && (max_imf <=? zlen l))
    then iret IMF
    else if (notFinished : bool) then modes2_h sift fuel' image image_s max_imf IMF
    else iret IMF
  end.
(** EMD2d.py:373-376, BEMD.py:271-274 *)
Definition with_residue_h (image_s IMF : iarr) : IM iarr :=
  do s <- load_pic image_s in
  do l <- load_stack IMF in
  do res <- ialloc (Pic (isub s (isum s l))) in
  do r <- load_pic res in
  if forallb allclose0 r then iret IMF
  else do l <- load_stack IMF in ialloc (Stack (l ++ [r])).
(** EMD2D.emd, EMD2d.py:278-380.  [np.zeros(image.shape)] of lines 301 and 313. *)
Definition emd2d_h (sbs : surface A) (c : cfg2 A) (fuel : nat) (image : iarr) (max_imf : Z) : IM iarr :=
  do x <- load_pic image in
  do image_min <- ilift (np_min (concat x)) in
  do image_max <- ilift (np_max (concat x)) in
  let offset := image_min in
  let scale := nsub image_max image_min in
  if neqb scale n0 then ilift (Raise ZeroDivisionError)
  else
    do image_s <- ialloc (Pic (imap (fun y => ndiv (nsub y offset) scale) x)) in
    do imf <- ialloc (Pic (izeros x)) in
    do imf_old <- copy_pic imf in
    do IMF <- ialloc (Stack []) in
    let sift imf :=
      do mean_env <- ialloc (Pic (izeros x)) in
      sift2_h sbs c (Z.to_nat (MAX_ITERATION2 c)) 0 0 imf mean_env in
    do IMF <- modes2_h sift fuel image image_s max_imf IMF in
    do IMF <- with_residue_h image_s IMF in
    do l <- load_stack IMF in
    do IMF <- ialloc (Stack (map (imap (fun y => nmul y scale)) l)) in
    do _ <- add_to_last IMF offset in
    iret IMF.

(** ** BEMD *)
(** The sifting loop, BEMD.py:222-262. *)
Fixpoint sift_b_h (rec : reconstruction A) (f : rbf A) (c : cfg2 A) (left : nat) (n n_h : Z) (imf : iarr)
  : IM (iarr * bool) :=
  match left with
  | O => iret (imf, true)
  | S left' =>
    let n := n + 1 in
    do x <- load_pic imf in
    let mins := minima_positions rec x in
    let maxs := maxima_positions rec x in
    if (1 <? zlen mins) && (1 <? zlen maxs) then
      do (min_env, max_env) <- ilift (envelopes_b f x mins maxs) in
      do mean_env <- ialloc (Pic (imap (nmul nhalf) (iadd min_env max_env))) in
      do imf_old <- copy_pic imf in
      do mean <- load_pic mean_env in
      if negb (same_shape x mean) then ilift (Raise ValueError)
      else
        do imf <- minus_pic imf mean_env in
        do x <- load_pic imf in
        do old <- load_pic imf_old in
        if negb (FIXE2 c =? 0) then
          if FIXE2 c + 1 <=? n then iret (imf, true)
          else sift_b_h rec f c left' n n_h imf
        else if negb (FIXE_H2 c =? 0) then
          if n =? 1 then sift_b_h rec f c left' n n_h imf
          else
            let n_h := if check_proto_b c x old mean then n_h + 1 else 0 in
            if FIXE_H2 c <=? n_h then iret (imf, true)
            else sift_b_h rec f c left' n n_h imf
        else if check_proto_b c x old mean then iret (imf, true)
        else sift_b_h rec f c left' n n_h imf
    else iret (imf, true)
  end.
(** BEMD.bemd, BEMD.py:184-276: decomposes a copy of the image. *)
Definition bemd_h (rec : reconstruction A) (f : rbf A) (c : cfg2 A) (fuel : nat) (image : iarr) (max_imf : Z) : IM iarr :=
  do image_s <- copy_pic image in
  do x <- load_pic image in
  do imf <- ialloc (Pic (izeros x)) in
  do imf_old <- copy_pic imf in
  do IMF <- ialloc (Stack []) in
  let sift imf :=
    do mean_env <- ialloc (Pic (izeros x)) in
    sift_b_h rec f c (Z.to_nat (MAX_ITERATION2 c)) 0 0 imf in
  do IMF <- modes2_h sift fuel image image_s max_imf IMF in
  with_residue_h image_s IMF.
End HeapImage.
Arguments icell A : clear implicits.
Arguments imem A : clear implicits.
Arguments IM A X : clear implicits.
