(* C71: knot insertion in IEEE double arithmetic. *)
From Coq Require Import ZArith List Bool Reals Floats Permutation.
From Verif Require Import Base RSum MultiIndex KnotVec KnotVecSpec Basis BasisSpec Spaces SpacesSpec SplineSpec EditSpec SplineEval SplineEdit DoubleSpec DoubleExamples
  DoubleInsertThms DoubleInsertExamples.
Import ListNotations.
Open Scope Z_scope.

(* InsertKnot in doubles always gives a well-formed spline over the old knots and the new ones, no overflow occurs, and the spline moves
   by no more than a few rounding errors per knot, measured between the exact functions that the coefficients define. *)
Theorem C71_double_insertion : forall (knots : list (list float)) degs (cps : list (list float)) d kv p (u : float) r dim M,
  Forall2 double_direction knots degs -> nth_error knots d = Some kv -> nth_error degs d = Some p ->
  finite u -> insertable (map dval kv) p (dval u) r -> 0 <= r -> zlen kv < 2 ^ 31 ->
  1 <= dim -> Forall (fun cp => zlen cp = dim) cps -> zlen cps = total (point_counts knots degs) -> zlen cps * (1 + r) < 2 ^ 64 ->
  Forall (Forall (fun x => finite x /\ (Rabs (dval x) <= M)%R)) cps -> (M <= 2 ^ 499)%R ->
  exists s s' kv' cps', spline_new (F := Fops) knots degs cps None = Ok s /\ insert_knot s u d r = Ok s' /\
    spline_new (F := Fops) (upd knots d kv') degs cps' None = Ok s' /\
    Permutation kv' (repeat u (Z.to_nat r) ++ kv) /\ double_direction kv' p /\
    zlen cps' = total (point_counts (upd knots d kv') degs) /\ Forall (fun cp => zlen cp = dim) cps' /\
    Forall (Forall (fun x => finite x /\ (Rabs (dval x) <= M + IZR r * (M * / 2 ^ 48 + 4 * underflow))%R)) cps' /\
    forall us c, Forall2 (fun kv v => (first_knot (map dval kv) <= v <= final_knot (map dval kv))%R) knots us -> 0 <= c < dim ->
      (Rabs (exact_coordinate (map (map dval) (upd knots d kv')) degs (map (map dval) cps') us c -
             exact_coordinate (map (map dval) knots) degs (map (map dval) cps) us c) <= IZR r * (M * / 2 ^ 48 + 4 * underflow))%R.
Proof. exact double_insert. Qed.
Print Assumptions C71_double_insertion.

Example C71_double_insertion_example : Forall2 double_direction [kq; kl] [2; 1] /\ finite tenth /\ insertable (map dval kq) 2 (dval tenth) 2 /\
  zlen kq < 2 ^ 31 /\ Forall (fun cp => zlen cp = 2) dpts /\ zlen dpts = total (point_counts [kq; kl] [2; 1]) /\ zlen dpts * (1 + 2) < 2 ^ 64 /\
  Forall (Forall (fun x => finite x /\ (Rabs (dval x) <= 1)%R)) dpts /\ (1 <= 2 ^ 499)%R /\
  Forall2 double_parameter [kq; kl] [tenth; 1]%float /\ degree_cost [2; 1] + summands [2; 1] + 1 = 27 /\ depth [2; 1] = 8.
Proof. exact double_ex_insert. Qed.

(* What the new spline evaluates to in doubles is close to the point of the old spline in exact arithmetic. *)
Theorem C71_double_insertion_evaluate : forall (knots : list (list float)) degs (cps : list (list float)) d kv p (u : float) r (us : list float) dim dims M,
  Forall2 double_direction knots degs -> nth_error knots d = Some kv -> nth_error degs d = Some p ->
  finite u -> insertable (map dval kv) p (dval u) r -> 0 <= r -> zlen kv < 2 ^ 31 ->
  1 <= dim -> Forall (fun cp => zlen cp = dim) cps -> zlen cps = total (point_counts knots degs) -> zlen cps * (1 + r) < 2 ^ 64 ->
  Forall (Forall (fun x => finite x /\ (Rabs (dval x) <= M)%R)) cps -> (M <= 2 ^ 499)%R ->
  Forall2 double_parameter knots us -> Forall (fun c => 0 <= c < dim) dims ->
  degree_cost degs + summands degs + 1 <= 2 ^ 50 -> depth degs <= 500 ->
  exists s s' vs, spline_new (F := Fops) knots degs cps None = Ok s /\ insert_knot s u d r = Ok s' /\ evaluate s' us dims = Ok vs /\
    let e := (M * / 2 ^ 48 + 4 * underflow)%R in
    let M' := (M + IZR r * e)%R in
    Forall2 (fun c v => finite v /\
      (Rabs (dval v - exact_coordinate (map (map dval) knots) degs (map (map dval) cps) (map dval us) c) <=
        IZR (degree_cost degs + summands degs + 1) * / 2 ^ 52 * M' +
        2 * IZR (summands degs) * (4 ^ Z.to_nat (depth degs) * M' + 1) * underflow + IZR r * e)%R) dims vs.
Proof. exact double_insert_evaluate. Qed.
Print Assumptions C71_double_insertion_evaluate.

(* The same for RefineKnots: knots inserted one after the other. *)
Theorem C71_double_refinement : forall (knots : list (list float)) degs (cps : list (list float)) d kv p (new : list float) dim M,
  Forall2 double_direction knots degs -> nth_error knots d = Some kv -> nth_error degs d = Some p ->
  Forall finite new -> all_insertable (map dval kv) p (map dval new) -> zlen kv + zlen new <= 2 ^ 31 ->
  1 <= dim -> Forall (fun cp => zlen cp = dim) cps -> zlen cps = total (point_counts knots degs) -> zlen cps * (1 + zlen new) < 2 ^ 64 ->
  Forall (Forall (fun x => finite x /\ (Rabs (dval x) <= M)%R)) cps -> (M <= 2 ^ 498)%R ->
  exists s s' kv' cps', spline_new (F := Fops) knots degs cps None = Ok s /\ refine_knots s new d = Ok s' /\
    spline_new (F := Fops) (upd knots d kv') degs cps' None = Ok s' /\
    Permutation kv' (new ++ kv) /\ double_direction kv' p /\
    zlen cps' = total (point_counts (upd knots d kv') degs) /\ Forall (fun cp => zlen cp = dim) cps' /\
    Forall (Forall (fun x => finite x /\ (Rabs (dval x) <= M + IZR (zlen new) * (M * / 2 ^ 47 + 8 * underflow))%R)) cps' /\
    forall us c, Forall2 (fun kv v => (first_knot (map dval kv) <= v <= final_knot (map dval kv))%R) knots us -> 0 <= c < dim ->
      (Rabs (exact_coordinate (map (map dval) (upd knots d kv')) degs (map (map dval) cps') us c -
             exact_coordinate (map (map dval) knots) degs (map (map dval) cps) us c) <= IZR (zlen new) * (M * / 2 ^ 47 + 8 * underflow))%R.
Proof. exact double_refine. Qed.
Print Assumptions C71_double_refinement.

Example C71_double_refinement_example : Forall2 double_direction [kq; kl] [2; 1] /\ Forall finite [tenth; 0.5; tenth]%float /\
  all_insertable (map dval kq) 2 (map dval [tenth; 0.5; tenth]%float) /\
  zlen kq + 3 <= 2 ^ 31 /\ Forall (fun cp => zlen cp = 2) dpts /\ zlen dpts = total (point_counts [kq; kl] [2; 1]) /\ zlen dpts * (1 + 3) < 2 ^ 64 /\
  Forall (Forall (fun x => finite x /\ (Rabs (dval x) <= 1)%R)) dpts /\ (1 <= 2 ^ 498)%R.
Proof. exact double_ex_refine. Qed.
