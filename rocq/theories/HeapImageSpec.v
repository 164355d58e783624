(** * HeapImageSpec: what a caller can do with images in memory, and what it means that nothing changed. *)
From Verif Require Export HeapImage.

Section HeapImageSpec.
Context {A : Type} `{Num A}.
(** [a[i, j] = x] on an image, [a[p, i, j] = x] on a stack of images.  Outside the array nothing is
    assigned (Python raises IndexError). *)
Record iwrite := MkIWrite { itarget : iarr; ip : nat; ii : nat; ij : nat; ivalue : A }.
Definition put_pixel (x : list (list A)) (i j : nat) (y : A) : list (list A) := replace x i (replace (nth i x []) j y).
Definition iput (x : icell A) (p : option nat) (w : iwrite) : icell A :=
  match x, p with
  | Pic v, None => Pic (put_pixel v (ii w) (ij w) (ivalue w))
  | Stack l, None => Stack (replace l (ip w) (put_pixel (nth (ip w) l []) (ii w) (ij w) (ivalue w)))
  | Stack l, Some q => Stack (replace l q (put_pixel (nth q l []) (ii w) (ij w) (ivalue w)))
  | _, _ => x
  end.
Definition do_iwrite (m : imem A) (w : iwrite) : imem A :=
  match nth_error m (ibase (itarget w)) with
  | Some x => replace m (ibase (itarget w)) (iput x (page (itarget w)) w)
  | None => m
  end.
(** The array exists. *)
Definition ilive (m : imem A) (a : iarr) : Prop := (ibase a < length m)%nat.
(** Every array that existed in [m] shows the same in [m']. *)
Definition iuntouched (m m' : imem A) : Prop := forall a, ilive m a -> icontents m' a = icontents m a.
(** The array was created between [m] and [m']. *)
Definition icreated (m m' : imem A) (a : iarr) : Prop := ~ ilive m a /\ ilive m' a.

(** Everything a program can do: decompose any array with either class, assign elements. *)
Inductive ioperation :=
| Decompose2d (c : cfg2 A) (image : iarr) (max_imf : Z)
| DecomposeB (c : cfg2 A) (image : iarr) (max_imf : Z)
| IAssign (w : iwrite).
Definition iperform (sbs : surface A) (rec : reconstruction A) (f : rbf A) (fuel : nat) (m : imem A) (o : ioperation) : imem A :=
  match o with
  | Decompose2d c x k => snd (emd2d_h sbs c fuel x k m)
  | DecomposeB c x k => snd (bemd_h rec f c fuel x k m)
  | IAssign w => do_iwrite m w
  end.
Definition iassigns_into (a : iarr) (o : ioperation) : Prop :=
  match o with IAssign w => ibase (itarget w) = ibase a | _ => False end.
End HeapImageSpec.
Arguments iwrite A : clear implicits.
Arguments ioperation A : clear implicits.
