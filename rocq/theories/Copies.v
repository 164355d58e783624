(** * Copies: copies of EEMD and CEEMDAN objects (EEMD.py:115-117, CEEMDAN.py:153-157).

    [__getstate__] returns a shallow copy of the object's [__dict__].  [copy.copy] puts these very
    values into a new object: the generator [self.random] and the object [self.EMD] are then common
    to both, while the attributes that a run assigns ([E_IMF] and [residue], or [C_IMF], and
    [_all_imfs]) are each object's own.  [copy.deepcopy] and pickling copy the values as well.
    (CEEMDAN.py:155-156 removes an attribute [pool], which no code sets.)

    Simplifications: the arrays of stored results are values here, since runs assign new ones and do
    not write into old ones (Heap.v, C65); an object [self.EMD] common to objects that are not
    copies of each other is in SharedEmd.v. *)
From Verif Require Export Ceemdan.

Section Copies.
(** [C] settings, [H] what copies have in common, [W] what each has of its own. *)
Context {A C H W : Type}.
Notation vec := (list A).
Notation rows := (list (list A)).
(** [noise_seed] and [eemd], or [ceemdan]. *)
Record kind := MkKind {
  k_seed : H -> Z -> H;
  k_run : C -> H -> W -> vec -> option vec -> Z -> res rows * (H * W)
}.
Variable K : kind.

(** The values common to several objects, and the objects: which of those, and what is its own. *)
Record shelf := MkShelf { cells : list H; objs : list (nat * W) }.

Inductive stmt :=
| Copy (i : nat)                     (** objs.append(copy.copy(objs[i])) *)
| Clone (i : nat)                    (** objs.append(copy.deepcopy(objs[i])), or by pickling *)
| SeedAt (i : nat) (s : Z)           (** objs[i].noise_seed(s) *)
| RunAt (i : nat) (c : C) (S : vec) (T : option vec) (k : Z).   (** objs[i](S, T, k) *)

Fixpoint set_at {X} (l : list X) (i : nat) (x : X) : list X :=
  match l, i with
  | [], _ => []
  | _ :: l', O => x :: l'
  | y :: l', Datatypes.S i' => y :: set_at l' i' x
  end.

(** One statement: the result of a run with the number of its object, and the objects afterwards. *)
Definition exec1 (b : shelf) (t : stmt) : list (nat * res rows) * shelf :=
  let find i := match nth_error (objs b) i with
                | None => None
                | Some (a, w) => match nth_error (cells b) a with None => None | Some h => Some (a, h, w) end
                end in
  match t with
  | Copy i =>
      match find i with
      | None => ([], b)
      | Some (a, h, w) => ([], MkShelf (cells b) (objs b ++ [(a, w)]))
      end
  | Clone i =>
      match find i with
      | None => ([], b)
      | Some (a, h, w) => ([], MkShelf (cells b ++ [h]) (objs b ++ [(length (cells b), w)]))
      end
  | SeedAt i s =>
      match find i with
      | None => ([], b)
      | Some (a, h, w) => ([], MkShelf (set_at (cells b) a (k_seed K h s)) (objs b))
      end
  | RunAt i c X T k =>
      match find i with
      | None => ([], b)
      | Some (a, h, w) =>
          let '(r, (h', w')) := k_run K c h w X T k in
          ([(i, r)], MkShelf (set_at (cells b) a h') (set_at (objs b) i (a, w')))
      end
  end.

Fixpoint exec (b : shelf) (p : list stmt) : list (nat * res rows) * shelf :=
  match p with
  | [] => ([], b)
  | t :: p' =>
      let '(l, b) := exec1 b t in
      let '(l', b) := exec b p' in
      (l ++ l', b)
  end.
End Copies.
Arguments kind A C H W : clear implicits.
Arguments shelf H W : clear implicits.
Arguments stmt A C : clear implicits.

(** EEMD: the generator and the EMD object are common. *)
Definition eemd_kind {A} `{Num A} {G D} (gen : generator A G) (dec : decomposer A D)
  : kind A (eemd_config A) (G * D) (option (list (list A)) * option (list A) * list (Z * list (list A))) :=
  MkKind (fun h s => (random (noise_seed gen (MkESt (fst h) (snd h) None None []) s), snd h))
         (fun c h w X T k =>
            let '(r, o) := eemd gen dec c (MkESt (fst h) (snd h) (fst (fst w)) (snd (fst w)) (snd w)) X T k in
            (r, ((random o, inner o), (E_IMF o, e_residue o, all_imfs o)))).

(** CEEMDAN: the generator is common (and the EMD object, whose state does not matter). *)
Definition ceemdan_kind {A} `{Num A} {G} (gen : generator A G) (std : list A -> A)
    (emd_of : list A -> option (list A) -> Z -> res (list (list A)))
    (arrival : list (list (list A)) -> list (list (list A)))
  : kind A (ceemdan_config A) G (option (list (list A)) * option (list A)) :=
  MkKind (fun g s => c_random (c_noise_seed gen (MkCSt g None None) s))
         (fun c g w X T k =>
            let '(r, o) := ceemdan gen std emd_of arrival c (MkCSt g (fst w) (snd w)) X T k in
            (r, (c_random o, (C_IMF o, c_residue o)))).
