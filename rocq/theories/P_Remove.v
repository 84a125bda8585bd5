(* Properties of knot removal: C25 to C27. *)
From Coq Require Import ZArith List Reals Floats Permutation.
From Verif Require Import Base KnotVec KnotVecSpec Basis Spaces SpacesSpec SplineEval SplineEdit SplineSpec DegreeSpec EditSpec RemoveSpec
  RemoveThms RemoveDecide InsertRepeat RemoveBound RemoveExamples.
Import ListNotations.
Open Scope Z_scope.

(* C25: the r copies InsertKnot added, RemoveKnot takes away again, exactly and for every tolerance *)
Theorem C25_remove_inverts_insert : forall dz (s : spline (Rops dz)) d kv p u tol r,
  well_formed s -> regular s -> direction s d kv p ->
  insertable kv p u r -> 0 <= r -> Z.of_nat (occurrences kv u) + r <= p -> (0 <= tol)%R -> zlen kv + r < 2 ^ 31 ->
  exists s', insert_knot s u d r = Ok s' /\ remove_knot s' u d tol r = Ok (r, s).
Proof. exact insert_remove_many. Qed.
Print Assumptions C25_remove_inverts_insert.

(* C26: the returned count *)
Theorem C26_removal_count : forall dz (s : spline (Rops dz)) d kv p u tol m,
  well_formed s -> direction s d kv p ->
  (first_knot kv < u < final_knot kv)%R -> 0 <= m <= Z.of_nat (occurrences kv u) -> Z.of_nat (occurrences kv u) <= p ->
  In u kv -> zlen kv < 2 ^ 31 ->
  exists c s' kv', remove_knot s u d tol m = Ok (c, s') /\ 0 <= c <= m /\ (c = 0 -> s' = s) /\
    well_formed s' /\ knots_of s' = upd (knots_of s) d kv' /\ Permutation kv (repeat u (Z.to_nat c) ++ kv') /\
    degs_of s' = degs_of s /\ npts_of s' = upd (npts_of s) d (nth d (npts_of s) 0 - c) /\
    ph_dim (sp_ph s') = ph_dim (sp_ph s) /\ (is_bspline s' <-> is_bspline s).
Proof. exact remove_counts. Qed.
Print Assumptions C26_removal_count.

(* C26: one copy is removed exactly when on every line of control points one of the two gaps is
   within the tolerance; the net that is left *)
Theorem C26_removal_decision : forall dz (s : spline (Rops dz)) d kv p u first last tol tol',
  well_formed s -> direction s d kv p -> removal_range kv p u first last ->
  (first_knot kv < u)%R -> Z.of_nat (occurrences kv u) <= p -> zlen kv < 2 ^ 31 ->
  is_bspline s \/ weights_nonzero s d (ratio kv p u) first last -> tolerance_in_use s tol tol' ->
  (accepted s d (ratio kv p u) first last tol' ->
     exists s', remove_knot s u d tol 1 = Ok (1, s') /\
       forall idx c, In idx (all_indices (npts_of s')) -> In c (parts s) ->
         hpart s' idx c = new_part s d (ratio kv p u) first last idx c) /\
  (~ accepted s d (ratio kv p u) first last tol' -> remove_knot s u d tol 1 = Ok (0, s)).
Proof. exact @removal_decision. Qed.
Print Assumptions C26_removal_decision.

(* C26: removing m + 1 copies is removing one and then m, and stops at the first refusal *)
Theorem C26_removal_repeats : forall dz (s : spline (Rops dz)) u d tol m, 0 <= m ->
  (forall s1, remove_knot s u d tol 1 = Ok (1, s1) ->
     remove_knot s u d tol (1 + m) = bind (remove_knot s1 u d tol m) (fun r => Ok (1 + fst r, snd r))) /\
  (forall s1, remove_knot s u d tol 1 = Ok (0, s1) -> remove_knot s u d tol (1 + m) = Ok (0, s)).
Proof. exact @removal_repeats. Qed.
Print Assumptions C26_removal_repeats.

(* C26: outside these preconditions the claim fails.  A parameter that is not a knot removes the knot
   below it and bends a straight line. *)
Theorem C26_absent_knot_refuted : exists (s s' : spline Fops) (kv : list float) (v v' : float),
  spline_new (F := Fops) [[0; 0; 1; 2; 3; 3]%float] [1] [[0]; [1]; [2]; [3]]%float None = Ok s /\
  remove_knot s 1.5%float 0 0.5%float 1 = Ok (1, s') /\
  ps_knots (sp_ps s') = [kv] /\ list_equal PrimFloat.eqb kv [0; 0; 2; 3; 3]%float = true /\
  evaluate s [2%float] [0] = Ok [v] /\ PrimFloat.eqb v 2 = true /\
  evaluate s' [2%float] [0] = Ok [v'] /\ PrimFloat.ltb v' 1.5 = true.
Proof. exact remove_absent. Qed.
Print Assumptions C26_absent_knot_refuted.

(* C26: a knot of multiplicity p+1 reads the empty scaling vector *)
Theorem C26_full_multiplicity_refuted : exists s : spline Fops,
  spline_new (F := Fops) [[0; 0; 1; 1; 2; 2]%float] [1] [[0]; [1]; [1]; [2]]%float None = Ok s /\
  remove_knot s 1%float 0 0.5%float 1 = UB.
Proof. exact remove_full. Qed.
Print Assumptions C26_full_multiplicity_refuted.

(* C27: removal reported as successful, deviation h for every h and every tolerance *)
Theorem C27_removal_deviation_refuted : forall dz (h tol : R), (0 <= tol)%R ->
  exists s s' : spline (Rops dz),
    spline_new (F := Rops dz) [[0; 0; 1; 2; 2]%R] [1] [[0%R]; [h]; [0%R]] None = Ok s /\ well_formed s /\
    remove_knot s 1%R 0 tol 1 = Ok (1, s') /\
    evaluate s [1%R] [0] = Ok [h] /\ evaluate s' [1%R] [0] = Ok [0%R].
Proof. exact removal_unbounded. Qed.
Print Assumptions C27_removal_deviation_refuted.

(* C27: the bound that does hold, for B-splines: an even number of equations, or the equation in the
   middle is within the tolerance on every line *)
Theorem C27_removal_deviation : forall dz (s s' : spline (Rops dz)) d kv p u first last tol us,
  well_formed s -> is_bspline s -> direction s d kv p -> removal_range kv p u first last ->
  (first_knot kv < u)%R -> Z.of_nat (occurrences kv u) <= p -> zlen kv < 2 ^ 31 ->
  remove_knot s u d tol 1 = Ok (1, s') ->
  (Z.Odd (p - Z.of_nat (occurrences kv u)) \/
   forall cur, In cur (lines_of s d) -> (gap_middle s d (ratio kv p u) first last cur <= tol)%R) ->
  in_domain s us ->
  exists pt pt', evaluate s us (zseq 0 (Z.to_nat (ph_dim (sp_ph s)))) = Ok pt /\
    evaluate s' us (zseq 0 (Z.to_nat (ph_dim (sp_ph s)))) = Ok pt' /\ (euclid pt pt' <= tol)%R.
Proof. exact @removal_deviation. Qed.
Print Assumptions C27_removal_deviation.

(* C27: for positive weights the bound is slightly larger than the tolerance; m is the largest distance
   of a control point from the origin *)
Theorem C27_removal_deviation_nurbs : forall dz (s s' : spline (Rops dz)) d kv p u first last tol tol' m us,
  well_formed s -> positive_weights s -> direction s d kv p -> removal_range kv p u first last ->
  (first_knot kv < u)%R -> Z.of_nat (occurrences kv u) <= p -> zlen kv < 2 ^ 31 ->
  weights_nonzero s d (ratio kv p u) first last ->
  is_largest_distance s m -> (tol < 1 + m)%R -> tolerance_in_use s tol tol' ->
  remove_knot s u d tol 1 = Ok (1, s') ->
  (Z.Odd (p - Z.of_nat (occurrences kv u)) \/
   forall cur, In cur (lines_of s d) -> (gap_middle s d (ratio kv p u) first last cur <= tol')%R) ->
  in_domain s us ->
  exists pt pt', evaluate s us (zseq 0 (Z.to_nat (ph_dim (sp_ph s)))) = Ok pt /\
    evaluate s' us (zseq 0 (Z.to_nat (ph_dim (sp_ph s)))) = Ok pt' /\
    (euclid pt pt' <= tol * (1 + m) / (1 + m - tol))%R.
Proof. exact @removal_deviation_nurbs. Qed.
Print Assumptions C27_removal_deviation_nurbs.

Example C25_C26_example : exists b n : spline (Rops (fun x => x)),
  well_formed b /\ is_bspline b /\ well_formed n /\ positive_weights n /\
  direction b 0 [0; 0; 0; 1; 2; 2; 2]%R 2 /\ direction n 0 [0; 0; 0; 1; 2; 2; 2]%R 2 /\
  insertable [0; 0; 0; 1; 2; 2; 2]%R 2 1 1 /\ In 1%R [0; 0; 0; 1; 2; 2; 2]%R /\
  occurrences [0; 0; 0; 1; 2; 2; 2]%R 1 = 1%nat /\ (first_knot [0; 0; 0; 1; 2; 2; 2] < 1 < final_knot [0; 0; 0; 1; 2; 2; 2])%R /\
  insertable [0; 0; 0; 1; 2; 2; 2]%R 2 (1/2) 2 /\ occurrences [0; 0; 0; 1; 2; 2; 2]%R (1/2) = 0%nat.
Proof. exact ex_remove. Qed.

(* a B-spline and a NURBS whose knot 1 is removed with a large and kept with a small tolerance *)
Example C26_C27_example : exists b n : spline (Rops (fun x => x)),
  well_formed b /\ is_bspline b /\ direction b 0 [0; 0; 0; 1; 2; 2; 2]%R 2 /\
  well_formed n /\ positive_weights n /\ direction n 0 [0; 0; 0; 1; 2; 2; 2]%R 2 /\
  removal_range [0; 0; 0; 1; 2; 2; 2]%R 2 1 1 2 /\ (first_knot [0; 0; 0; 1; 2; 2; 2] < 1)%R /\
  occurrences [0; 0; 0; 1; 2; 2; 2]%R 1 = 1%nat /\
  accepted b 0 (ratio [0; 0; 0; 1; 2; 2; 2]%R 2 1) 1 2 1 /\ ~ accepted b 0 (ratio [0; 0; 0; 1; 2; 2; 2]%R 2 1) 1 2 (1 / 4) /\
  weights_nonzero n 0 (ratio [0; 0; 0; 1; 2; 2; 2]%R 2 1) 1 2 /\ is_largest_distance n 1 /\ tolerance_in_use n 1 (1 / 2) /\
  accepted n 0 (ratio [0; 0; 0; 1; 2; 2; 2]%R 2 1) 1 2 (1 / 2) /\ ~ accepted n 0 (ratio [0; 0; 0; 1; 2; 2; 2]%R 2 1) 1 2 (1 / 4).
Proof. exact ex_removal_decision. Qed.
