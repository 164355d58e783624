(** * Conformance: the numbers in /repo's own tests, evaluated in the model.

    These are tests of the model, not proofs of properties: they show on the literals of
    /repo/PyEMD/tests/test_extrema.py, test_splines.py and test_utils.py that the model computes
    what the repository's test-suite expects the code to compute. *)
From Verif Require Import Emd Demo Utils.
From Coq Require Import QArith Qcanon.
From Coq Require Import String.
From Coq Require Import List.
Import ListNotations.
Open Scope Z_scope.

Definition same (x y : list Qc) : bool :=
  Nat.eqb (length x) (length y) && forallb (fun b => b) (map2 Qc_eqb x y).
Definition same_points (p : list (Qc * Qc)) (pos val : list Qc) : bool :=
  same (map fst p) pos && same (map snd p) val.
(** [np.round(x, 3)], as an integer number of thousandths, without ties. *)
Definition milli (x : Qc) : Z :=
  let y := (x * Qc_ofZ 1000 + Q2Qc (1 # 2))%Qc in Z.div (Qnum (this y)) (Z.pos (Qden (this y))).
Definition same_milli (p : list (Qc * Qc)) (pos val : list Z) : bool :=
  let eq x y := Nat.eqb (length x) (length y) && forallb (fun b => b) (map2 Z.eqb x y) in
  eq (map (fun v => milli (fst v)) p) pos && eq (map (fun v => milli (snd v)) p) val.

(** test_extrema.py:38-57, test_find_extrema_simple. *)
Example find_extrema_simple_test :
  match find_extrema Simple (qs [0;1;2;3;4;5;6;7;8;9]) (qs [-1;0;1;0;-1;0;3;0;-9;0]) with
  | Ok e => same (max_pos e) (qs [2;6]) && same (max_val e) (qs [1;3])
      && same (min_pos e) (qs [4;8]) && same (min_val e) (qs [-1;-9])
      && forallb (fun b => b) (map2 Z.eqb (indzer e) [1;3;5;7;9]) && (zlen (indzer e) =? 5)
  | Raise _ => false
  end = true.
Proof. vm_compute. reflexivity. Qed.

(** test_extrema.py:59-80, test_find_extrema_simple_repeat. *)
Example find_extrema_simple_repeat_test :
  match find_extrema Simple (qs [2;3;4;5;6;7;8;9;10;11;12]) (qs [-1;0;1;1;0;-1;0;3;0;-9;0]) with
  | Ok e => same (max_pos e) (qs [4;9]) && same (max_val e) (qs [1;3])
      && same (min_pos e) (qs [7;11]) && same (min_val e) (qs [-1;-9])
  | Raise _ => false
  end = true.
Proof. vm_compute. reflexivity. Qed.

(** test_extrema.py:158-178, test_find_extrema_parabol. *)
Example find_extrema_parabol_test :
  match find_extrema Parabol (qs [0;1;2;3;4;5;6;7;8;9]) (qs [-1;0;1;0;-1;0;3;0;-9;0]) with
  | Ok e => same (max_pos e) (qs [2;6]) && same (max_val e) (qs [1;3])
      && same (min_pos e) (qs [4;8]) && same (min_val e) (qs [-1;-9])
  | Raise _ => false
  end = true.
Proof. vm_compute. reflexivity. Qed.

(** test_extrema.py:180-203, test_find_extrema_parabol_repeat. *)
Example find_extrema_parabol_repeat_test :
  match find_extrema Parabol (qs [2;3;4;5;6;7;8;9;10;11;12]) (qs [-1;0;1;1;0;-1;0;3;0;-9;0]) with
  | Ok e => same (max_pos e) [Q2Qc (9 # 2); q 9] && same (max_val e) [Q2Qc (9 # 8); q 3]
      && same (min_pos e) (qs [7;11]) && same (min_val e) (qs [-1;-9])
  | Raise _ => false
  end = true.
Proof. vm_compute. reflexivity. Qed.

Definition points (m : detection) (T S : list Qc) :=
  let! e := find_extrema m T S in prepare_points m 1 T S e.
Definition part (lo hi : Z) (l : list Qc) := py_slice l lo hi.
Definition idx19 : list Qc := qs (zseq 0 19).

(** test_extrema.py:82-156, test_bound_extrapolation_simple: the four pairs of boundary cases. *)
Example bound_simple_1 :
  match points Simple idx19 demo_S with
  | Ok (M, m) => same_points M (qs [-1;3;9;14;20]) (qs [4;4;2;5;5])
      && same_points m (qs [-4;1;6;11;17;23]) (qs [-2;-3;-2;0;-2;0])
  | Raise _ => false end = true.
Proof. vm_compute. reflexivity. Qed.
Example bound_simple_2 :
  match points Simple (qs (zseq 0 17)) (part 1 (-1) demo_S) with
  | Ok (M, m) => same_points M (qs [-2;2;8;13;19]) (qs [4;4;2;5;5])
      && same_points m (qs [0;5;10;16]) (qs [-3;-2;0;-2])
  | Raise _ => false end = true.
Proof. vm_compute. reflexivity. Qed.
Example bound_simple_3 :
  match points Simple (qs (zseq 0 14)) (part 2 (-3) demo_S) with
  | Ok (M, m) => same_points M (qs [-5;1;7;12;17]) (qs [2;4;2;5;2])
      && same_points m (qs [-2;4;9;15]) (qs [-2;-2;0;0])
  | Raise _ => false end = true.
Proof. vm_compute. reflexivity. Qed.
Example bound_simple_4 :
  match points Simple (qs (zseq 0 12)) (part 3 (-4) demo_S) with
  | Ok (M, m) => same_points M (qs [0;6;11]) (qs [4;2;5])
      && same_points m (qs [-3;3;8;14]) (qs [-2;-2;0;0])
  | Raise _ => false end = true.
Proof. vm_compute. reflexivity. Qed.

(** test_extrema.py:205-294, test_bound_extrapolation_parabol, rounded to three decimals. *)
Example bound_parabol_1 :
  match points Parabol idx19 demo_S with
  | Ok (M, m) => same_milli M [-1393;3250;9000;14250;20083] [4125;4125;2000;5125;5125]
      && same_milli m [-4310;929;6167;11000;17167;23333] [-2083;-3018;-2083;0;-2042;0]
  | Raise _ => false end = true.
Proof. vm_compute. reflexivity. Qed.
Example bound_parabol_2 :
  match points Parabol (part 1 (-1) idx19) (part 1 (-1) demo_S) with
  | Ok (M, m) => same_milli M [-1250;3250;9000;14250;19750] [4125;4125;2000;5125;5125]
      && same_milli m [1000;6167;11000;17000] [-3000;-2083;0;-2000]
  | Raise _ => false end = true.
Proof. vm_compute. reflexivity. Qed.
Example bound_parabol_3 :
  match points Parabol (part 2 (-3) idx19) (part 2 (-3) demo_S) with
  | Ok (M, m) => same_milli M [-2500;3250;9000;14250;19500] [2000;4125;2000;5125;2000]
      && same_milli m [333;6167;11000;17500] [-2083;-2083;0;0]
  | Raise _ => false end = true.
Proof. vm_compute. reflexivity. Qed.
Example bound_parabol_4 :
  match points Parabol (part 3 (-4) idx19) (part 3 (-4) demo_S) with
  | Ok (M, m) => same_milli M [3000;9000;14000] [4000;2000;5000]
      && same_milli m [-167;6167;11000;17000] [-2083;-2083;0;0]
  | Raise _ => false end = true.
Proof. vm_compute. reflexivity. Qed.

(** test_extrema.py:15-36: an unknown detection method raises ValueError. *)
Example unknown_detection :
  find_extrema OtherDetection idx19 demo_S = Raise ValueError
  /\ forall e, prepare_points OtherDetection 1 idx19 demo_S e = Raise ValueError.
Proof. split; reflexivity. Qed.

(** test_splines.py:76-83: three knots, kind "cubic". *)
Example cubic_three_points :
  match spline_points lin_spl "cubic"%string [q 0; Q2Qc (1#2); q 1; Q2Qc (3#2); q 2]
          (combine (qs [0;1;2]) (qs [0;1;-1])) with
  | Ok s => same s [q 0; Q2Qc (25#32); q 1; Q2Qc (9#32); q (-1)]
  | Raise _ => false end = true.
Proof. vm_compute. reflexivity. Qed.

(** test_splines.py:18-25: an unknown spline kind raises ValueError. *)
Example unknown_spline :
  spline_points lin_spl "waterfall"%string idx19 [(q 0, q 1); (q 18, q 2)] = Raise ValueError.
Proof. vm_compute. reflexivity. Qed.

(** test_utils.py:11-46. *)
Definition differs_exactly (d : dtype) (x : option Z) (k : Z) : bool :=
  match x with Some x => negb (x =? k) | None => true end.
Example timeline_default :
  match get_timeline differs_exactly 100 None with
  | Ok (d, t) => dtype_eqb d Int64 && Nat.eqb (length t) 100
      && match py_get t (-1) with Ok (Some 99) => true | _ => false end
  | Raise _ => false end = true.
Proof. vm_compute. reflexivity. Qed.
Example timeline_int16 :
  match get_timeline differs_exactly (Z.to_nat (2 ^ 15 + 9)) (Some Int16) with
  | Ok (d, t) => dtype_eqb d UInt16 && (zlen t =? 2 ^ 15 + 9)
      && match py_get t (-1) with Ok (Some k) => k =? 2 ^ 15 + 8 | _ => false end
  | Raise _ => false end = true.
Proof. vm_compute. reflexivity. Qed.
Example common_types :
  deduce_common_type Int16 Int32 = Int32 /\ deduce_common_type Int32 Int16 = Int32
  /\ deduce_common_type Int32 Int32 = Int32 /\ deduce_common_type Float32 Float64 = Float64
  /\ deduce_common_type Int16 Float32 = Float32.
Proof. vm_compute. tauto. Qed.
