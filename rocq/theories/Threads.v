(** * Threads: one EMD object called from several threads.

    An EMD object has no lock.  [emd] computes its components in local variables, and then, in its
    last lines, goes through the attributes [imfs] and [residue] of the object, which every thread
    can reach: it writes [self.imfs] (EMD.py:913), reads it back to compute and write
    [self.residue] (914), reads that to test it (917) and reads it once more to append it (918).
    Here any number of threads run any number of calls on one object.  One step of a thread is one
    access to an attribute, or the whole of lines 796-910, which touch no attribute that a call
    changes except [DTYPE].  A schedule says which thread makes the next step.

    Simplifications: all signals are binary64 arrays, so that every thread writes the same value to
    [self.DTYPE] (807); the settings of the object are not changed while the threads run; the
    interpreter makes reading or writing one attribute one step. *)
From Verif Require Export Emd.

Section Threads.
Context {A : Type} `{Num A}.
Notation vec := (list A).
Notation rows := (list (list A)).
Variable spl : spline_oracle A.
Variable fuel : nat.
Variable c : emd_config A.

(** A two-dimensional array: its second dimension and its rows.  (An array of shape (0, N) has no
    rows, but its sum along axis 0 has length N.) *)
Record arr := MkArr { width : nat; body : rows }.

(** The attributes [imfs] and [residue] of the object, [None] in a new object (EMD.py:116-117). *)
Record attrs := MkAttrs { at_imfs : option arr; at_res : option vec }.

(** What a thread does. *)
Inductive job :=
| Call (S : vec) (T : option vec) (k : Z)      (** emd.emd(S, T, k), EMD.py:760-920 *)
| Ask.                                         (** emd.get_imfs_and_residue(), EMD.py:922-936 *)

(** What it gets. *)
Inductive reply :=
| Rows (r : res rows)
| Pair (r : res (option arr * option vec)).

(** Where a thread is.  In [emd], with the signal and the local variable [IMF]:
    before line 913; before 914; in 914, with the value read from [self.imfs]; before 917; in 918,
    about to read [self.residue].  In [get_imfs_and_residue]: before the second test of line 934;
    before 936; in 936, with the value read from [self.imfs]. *)
Inductive place :=
| Between
| Found (S : vec) (IMF : arr)
| Stored (S : vec) (IMF : arr)
| Fetched (S : vec) (IMF : arr) (x : arr)
| Left (IMF : arr)
| Adding (IMF : arr)
| Asked1
| Asked2
| Asked3 (x : option arr).

(** A thread: jobs to do (the current one first), its place, and the jobs done with their replies. *)
Record thread := MkThread { todo : list job; here : place; done : list (job * reply) }.

Definition goto (t : thread) (p : place) : thread := MkThread (todo t) p (done t).
Definition finish (t : thread) (r : reply) : thread :=
  match todo t with
  | [] => goto t Between
  | j :: l => MkThread l Between (done t ++ [(j, r)])
  end.

(** [np.vstack((IMF, row))]: the row must have the width of the array. *)
Definition vstack1 (M : arr) (r : vec) : res rows :=
  if Nat.eqb (width M) (length r) then Ok (body M ++ [r]) else Raise ValueError.

(** One step of one thread: the attributes and the thread afterwards. *)
Definition advance (a : attrs) (t : thread) : attrs * thread :=
  match here t with
  | Between =>
      match todo t with
      | [] => (a, t)
      | Call X T k :: _ =>                                          (* EMD.py:796-910 *)
          match emd spl fuel c X T k with
          | Raise e => (a, finish t (Rows (Raise e)))
          | Ok o => (a, goto t (Found X (MkArr (length X) (imfs o))))
          end
      | Ask :: _ =>                                                 (* EMD.py:934, first test *)
          match at_imfs a with
          | None => (a, finish t (Pair (Raise ValueError)))
          | Some _ => (a, goto t Asked1)
          end
      end
  | Found X M => (MkAttrs (Some M) (at_res a), goto t (Stored X M))     (* EMD.py:913 *)
  | Stored X M =>                                                   (* EMD.py:914, the read *)
      match at_imfs a with
      | None => (a, finish t (Rows (Raise TypeError)))              (* cannot happen *)
      | Some x => (a, goto t (Fetched X M x))
      end
  | Fetched X M x =>                                                (* EMD.py:914, the write *)
      match broadcast2 nsub X (sum_rows (width x) (body x)) with
      | Raise e => (a, finish t (Rows (Raise e)))
      | Ok r => (MkAttrs (at_imfs a) (Some r), goto t (Left M))
      end
  | Left M =>                                                       (* EMD.py:917 *)
      match at_res a with
      | None => (a, finish t (Rows (Raise TypeError)))              (* cannot happen *)
      | Some r => if allclose0 r then (a, finish t (Rows (Ok (body M))))
                  else (a, goto t (Adding M))
      end
  | Adding M =>                                                     (* EMD.py:918-920 *)
      match at_res a with
      | None => (a, finish t (Rows (Raise TypeError)))              (* cannot happen *)
      | Some r => (a, finish t (Rows (vstack1 M r)))
      end
  | Asked1 =>                                                       (* EMD.py:934, second test *)
      match at_res a with
      | None => (a, finish t (Pair (Raise ValueError)))
      | Some _ => (a, goto t Asked2)
      end
  | Asked2 => (a, goto t (Asked3 (at_imfs a)))                      (* EMD.py:936 *)
  | Asked3 x => (a, finish t (Pair (Ok (x, at_res a))))
  end.

(** The object and the threads. *)
Record world := MkWorld { w_attrs : attrs; w_threads : list thread }.

Fixpoint replace {X} (l : list X) (i : nat) (x : X) : list X :=
  match l, i with
  | [], _ => []
  | _ :: l', O => x :: l'
  | y :: l', Datatypes.S i' => y :: replace l' i' x
  end.

(** Thread [i] makes one step (no such thread: nothing happens). *)
Definition tick (w : world) (i : nat) : world :=
  match nth_error (w_threads w) i with
  | None => w
  | Some t => let (a, t') := advance (w_attrs w) t in MkWorld a (replace (w_threads w) i t')
  end.

(** A schedule: the threads in the order in which they make steps. *)
Definition run (w : world) (schedule : list nat) : world := fold_left tick schedule w.

(** A new object, and threads that have not started. *)
Definition start (jobs : list (list job)) : world :=
  MkWorld (MkAttrs None None) (map (fun l => MkThread l Between []) jobs).
End Threads.
Arguments arr A : clear implicits.
Arguments attrs A : clear implicits.
Arguments job A : clear implicits.
Arguments reply A : clear implicits.
Arguments place A : clear implicits.
Arguments thread A : clear implicits.
Arguments world A : clear implicits.
Arguments MkArr {A}. Arguments width {A}. Arguments body {A}.
Arguments MkAttrs {A}. Arguments at_imfs {A}. Arguments at_res {A}.
Arguments Call {A}. Arguments Ask {A}. Arguments Rows {A}. Arguments Pair {A}.
Arguments Between {A}. Arguments Found {A}. Arguments Stored {A}. Arguments Fetched {A}. Arguments Left {A}.
Arguments Adding {A}. Arguments Asked1 {A}. Arguments Asked2 {A}. Arguments Asked3 {A}.
Arguments MkThread {A}. Arguments todo {A}. Arguments here {A}. Arguments done {A}.
Arguments MkWorld {A}. Arguments w_attrs {A}. Arguments w_threads {A}.
