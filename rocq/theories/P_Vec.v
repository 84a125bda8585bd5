(* Properties of the vector utilities: C48. *)
From Coq Require Import ZArith List Reals.
From Verif Require Import Base VecUtils DegreeSpec VecSpec VecThms.
Import ListNotations.
Open Scope Z_scope.

(* C48: ComputeDistance is the Euclidean distance, and a metric *)
Theorem C48_distance_value : forall dz (a b : list R), length a = length b ->
  distance (F := Rops dz) a b = Ok (euclid a b).
Proof. exact @distance_value. Qed.
Print Assumptions C48_distance_value.

Theorem C48_distance_metric : forall dz (a b c : list R), length a = length b -> length b = length c ->
  exists ab ba ac bc, distance (F := Rops dz) a b = Ok ab /\ distance (F := Rops dz) b a = Ok ba /\
    distance (F := Rops dz) a c = Ok ac /\ distance (F := Rops dz) b c = Ok bc /\
    (0 <= ab)%R /\ ab = ba /\ (ab = 0%R <-> a = b) /\ (ac <= ab + bc)%R.
Proof. exact @distance_metric. Qed.
Print Assumptions C48_distance_metric.

(* C48: scalar product *)
Theorem C48_scalar_value : forall dz (a b : list R), length a = length b ->
  scalar_product (F := Rops dz) a b = Ok (dot a b).
Proof. exact @scalar_value. Qed.
Print Assumptions C48_scalar_value.

Theorem C48_scalar_bilinear : forall dz (a b c : list R) (x y : R), length a = length b -> length b = length c ->
  exists ab ac bc, scalar_product (F := Rops dz) a b = Ok ab /\ scalar_product (F := Rops dz) b a = Ok ab /\
    scalar_product (F := Rops dz) a c = Ok ac /\ scalar_product (F := Rops dz) b c = Ok bc /\
    scalar_product (F := Rops dz) (combination x a y b) c = Ok (x * ac + y * bc)%R /\
    (exists aa bb, scalar_product (F := Rops dz) a a = Ok aa /\ scalar_product (F := Rops dz) b b = Ok bb /\
       (0 <= aa)%R /\ (ab * ab <= aa * bb)%R).
Proof. exact @scalar_bilinear. Qed.
Print Assumptions C48_scalar_bilinear.

(* the first vector must not be longer than the second *)
Theorem C48_longer_first_refuted : forall dz (a b : list R), (length b < length a)%nat ->
  distance (F := Rops dz) a b = UB /\ scalar_product (F := Rops dz) a b = UB.
Proof. exact @distance_short. Qed.
Print Assumptions C48_longer_first_refuted.

(* C48: cross product *)
Theorem C48_cross_orthogonal : forall dz (a b : list R), length a = 3%nat -> length b = 3%nat ->
  exists c c', cross_product (F := Rops dz) a b = Ok c /\ cross_product (F := Rops dz) b a = Ok c' /\ length c = 3%nat /\
    scalar_product (F := Rops dz) a c = Ok 0%R /\ scalar_product (F := Rops dz) b c = Ok 0%R /\
    c' = map Ropp c /\ dot c c = (dot a a * dot b b - dot a b * dot a b)%R.
Proof. exact @cross_orthogonal. Qed.
Print Assumptions C48_cross_orthogonal.

(* nothing checks the number of coordinates *)
Theorem C48_cross_short : forall dz (a b : list R), (length a < 3)%nat \/ (length b < 3)%nat ->
  cross_product (F := Rops dz) a b = UB.
Proof. exact @cross_short. Qed.
Print Assumptions C48_cross_short.

Theorem C48_cross_long : forall dz (a b : list R), (3 <= length a)%nat -> (3 <= length b)%nat ->
  cross_product (F := Rops dz) a b = Ok
    ([nth 1 a 0 * nth 2 b 0 - nth 2 a 0 * nth 1 b 0; nth 2 a 0 * nth 0 b 0 - nth 0 a 0 * nth 2 b 0;
      nth 0 a 0 * nth 1 b 0 - nth 1 a 0 * nth 0 b 0]%R ++ repeat 0%R (length a - 3)).
Proof. exact @cross_long. Qed.
Print Assumptions C48_cross_long.

(* C48: FilterVector *)
Theorem C48_filter : forall A (input : list A) positions out,
  filter_vector input positions = Ok out <->
  Forall2 (fun p x => 0 <= p < zlen input /\ nth_error input (Z.to_nat p) = Some x) positions out.
Proof. exact @filter_ok. Qed.
Print Assumptions C48_filter.

(* the first position outside the input: too large throws, negative is undefined behaviour *)
Theorem C48_filter_fail : forall A (input : list A) good p rest,
  Forall (fun q => 0 <= q < zlen input) good -> ~ (0 <= p < zlen input) ->
  filter_vector input (good ++ p :: rest) = if p <? 0 then UB else Throw RuntimeError.
Proof. exact @filter_fail. Qed.
Print Assumptions C48_filter_fail.

Example C48_example : filter_vector [10; 20; 30] [2; 0; 2] = Ok [30; 10; 30] /\
  filter_vector [10; 20; 30] ([1] ++ 3 :: [0]) = Throw RuntimeError /\ filter_vector [10; 20; 30] ([1] ++ (-1) :: [0]) = UB.
Proof. exact ex_filter. Qed.
