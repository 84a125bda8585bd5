(* C73: knot insertion into NURBS in IEEE double arithmetic. *)
From Coq Require Import ZArith List Bool Reals Floats Permutation.
From Verif Require Import Base RSum MultiIndex KnotVec KnotVecSpec Basis BasisSpec Spaces SpacesSpec SplineSpec EditSpec SplineEval SplineEdit DoubleSpec DoubleRationalSpec
  DoubleExamples DoubleRationalExamples DoubleInsertExamples DoubleNurbsInsert DoubleNurbsExamples.
Import ListNotations.
Open Scope Z_scope.

(* InsertKnot into a NURBS in doubles gives a well-formed NURBS over the old knots and the new ones.  Weights stay positive and change
   range by at most W / 2^48 per knot, and no point of the exact rational functions moves by more than the ratio of the
   weights times a few rounding errors per knot. *)
Theorem C73_nurbs_insertion : forall (knots : list (list float)) degs (cps : list (list float)) (wts : list float) d kv p (u : float) r dim M m W,
  Forall2 double_direction knots degs -> nth_error knots d = Some kv -> nth_error degs d = Some p ->
  finite u -> insertable (map dval kv) p (dval u) r -> 0 <= r -> zlen kv < 2 ^ 31 ->
  1 <= dim -> Forall (fun cp => zlen cp = dim) cps -> zlen cps = total (point_counts knots degs) -> zlen wts = zlen cps -> zlen cps * (1 + r) < 2 ^ 64 ->
  Forall (Forall (fun x => finite x /\ (Rabs (dval x) <= M)%R)) cps -> (M <= 2 ^ 498)%R ->
  Forall (fun w => finite w /\ (m <= dval w <= W)%R) wts -> (/ 2 ^ 99 <= m)%R -> (W <= 2 ^ 99)%R -> (IZR r * W <= 2 ^ 40 * m)%R ->
  exists s s' kv' cps' wts', spline_new (F := Fops) knots degs cps (Some wts) = Ok s /\ insert_knot s u d r = Ok s' /\
    Permutation kv' (repeat u (Z.to_nat r) ++ kv) /\
    first_knot (map dval kv') = first_knot (map dval kv) /\ final_knot (map dval kv') = final_knot (map dval kv) /\
    spline_new (F := Fops) (upd knots d kv') degs cps' (Some wts') = Ok s' /\ double_direction kv' p /\
    zlen cps' = total (point_counts (upd knots d kv') degs) /\ zlen wts' = zlen cps' /\ Forall (fun cp => zlen cp = dim) cps' /\
    Forall (fun w => finite w /\ (m - IZR r * (W * / 2 ^ 48) <= dval w <= W + IZR r * (W * / 2 ^ 48))%R) wts' /\
    Forall (Forall (fun x => finite x /\ (Rabs (dval x) <= M + IZR r * (W / m * (M * / 2 ^ 44 + / 2 ^ 890)))%R)) cps' /\
    forall us c, Forall2 (fun kv v => (first_knot (map dval kv) <= v <= final_knot (map dval kv))%R) knots us -> 0 <= c < dim ->
      (Rabs (exact_rational (map (map dval) (upd knots d kv')) degs (map (map dval) cps') (map dval wts') us c -
             exact_rational (map (map dval) knots) degs (map (map dval) cps) (map dval wts) us c) <= IZR r * (W / m * (M * / 2 ^ 44 + / 2 ^ 890)))%R.
Proof. exact nurbs_insert. Qed.
Print Assumptions C73_nurbs_insertion.

Example C73_nurbs_insertion_example : Forall2 double_direction [kq; kl] [2; 1] /\ finite tenth /\ insertable (map dval kq) 2 (dval tenth) 2 /\
  zlen kq < 2 ^ 31 /\ Forall (fun cp => zlen cp = 2) dpts /\ zlen dpts = total (point_counts [kq; kl] [2; 1]) /\ zlen dwts = zlen dpts /\ zlen dpts * (1 + 2) < 2 ^ 64 /\
  Forall (Forall (fun x => finite x /\ (Rabs (dval x) <= 1)%R)) dpts /\ (1 <= 2 ^ 498)%R /\
  Forall (fun w => finite w /\ (/ 16 <= dval w <= 1)%R) dwts /\ (/ 2 ^ 99 <= / 16)%R /\ (1 <= 2 ^ 99)%R /\ (2 * 1 <= 2 ^ 40 * / 16)%R /\
  Forall2 double_parameter [kq; kl] [tenth; 1]%float /\ 3 * (degree_cost [2; 1] + summands [2; 1]) + 7 = 85 /\ depth [2; 1] = 8.
Proof. exact nurbs_ex. Qed.

(* What the new NURBS evaluates to in doubles is close to the point of the old one in exact arithmetic. *)
Theorem C73_nurbs_insertion_evaluate : forall (knots : list (list float)) degs (cps : list (list float)) (wts : list float) d kv p (u : float) r (us : list float) dim dims M m W,
  Forall2 double_direction knots degs -> nth_error knots d = Some kv -> nth_error degs d = Some p ->
  finite u -> insertable (map dval kv) p (dval u) r -> 0 <= r -> zlen kv < 2 ^ 31 ->
  1 <= dim -> Forall (fun cp => zlen cp = dim) cps -> zlen cps = total (point_counts knots degs) -> zlen wts = zlen cps -> zlen cps * (1 + r) < 2 ^ 64 ->
  Forall (Forall (fun x => finite x /\ (Rabs (dval x) <= M)%R)) cps -> (M <= 2 ^ 498)%R ->
  Forall (fun w => finite w /\ (m <= dval w <= W)%R) wts -> (/ 2 ^ 99 <= m)%R -> (W <= 2 ^ 99)%R -> (IZR r * W <= 2 ^ 40 * m)%R ->
  Forall2 double_parameter knots us -> Forall (fun c => 0 <= c < dim) dims ->
  3 * (degree_cost degs + summands degs) + 7 <= 2 ^ 50 -> depth degs <= 200 ->
  exists s s' vs, spline_new (F := Fops) knots degs cps (Some wts) = Ok s /\ insert_knot s u d r = Ok s' /\ evaluate s' us dims = Ok vs /\
    let e := (IZR r * (W / m * (M * / 2 ^ 44 + / 2 ^ 890)))%R in
    Forall2 (fun c v => finite v /\
      (Rabs (dval v - exact_rational (map (map dval) knots) degs (map (map dval) cps) (map dval wts) (map dval us) c) <=
        IZR (3 * (degree_cost degs + summands degs) + 7) * / 2 ^ 52 * (M + e) +
        2 * IZR (summands degs) * (2 ^ 202 * 4 ^ Z.to_nat (depth degs) * (M + e) + 2 ^ 104) * underflow + e)%R) dims vs.
Proof. exact nurbs_insert_evaluate. Qed.
Print Assumptions C73_nurbs_insertion_evaluate.

(* The same for RefineKnots. *)
Theorem C73_nurbs_refinement : forall (knots : list (list float)) degs (cps : list (list float)) (wts : list float) d kv p (new : list float) dim M m W,
  Forall2 double_direction knots degs -> nth_error knots d = Some kv -> nth_error degs d = Some p ->
  Forall finite new -> all_insertable (map dval kv) p (map dval new) -> zlen kv + zlen new <= 2 ^ 31 ->
  1 <= dim -> Forall (fun cp => zlen cp = dim) cps -> zlen cps = total (point_counts knots degs) -> zlen wts = zlen cps -> zlen cps * (1 + zlen new) < 2 ^ 64 ->
  Forall (Forall (fun x => finite x /\ (Rabs (dval x) <= M)%R)) cps -> (M <= 2 ^ 498)%R ->
  Forall (fun w => finite w /\ (m <= dval w <= W)%R) wts -> (/ 2 ^ 99 <= m)%R -> (W <= 2 ^ 99)%R -> (IZR (zlen new) * W <= 2 ^ 40 * m)%R ->
  exists s s' kv' cps' wts', spline_new (F := Fops) knots degs cps (Some wts) = Ok s /\ refine_knots s new d = Ok s' /\
    Permutation kv' (new ++ kv) /\
    first_knot (map dval kv') = first_knot (map dval kv) /\ final_knot (map dval kv') = final_knot (map dval kv) /\
    spline_new (F := Fops) (upd knots d kv') degs cps' (Some wts') = Ok s' /\ double_direction kv' p /\
    zlen cps' = total (point_counts (upd knots d kv') degs) /\ zlen wts' = zlen cps' /\ Forall (fun cp => zlen cp = dim) cps' /\
    Forall (fun w => finite w /\ (m - IZR (zlen new) * (W * / 2 ^ 48) <= dval w <= W + IZR (zlen new) * (W * / 2 ^ 48))%R) wts' /\
    Forall (Forall (fun x => finite x /\ (Rabs (dval x) <= M + IZR (zlen new) * (W / m * (M * / 2 ^ 44 + / 2 ^ 890)))%R)) cps' /\
    forall us c, Forall2 (fun kv v => (first_knot (map dval kv) <= v <= final_knot (map dval kv))%R) knots us -> 0 <= c < dim ->
      (Rabs (exact_rational (map (map dval) (upd knots d kv')) degs (map (map dval) cps') (map dval wts') us c -
             exact_rational (map (map dval) knots) degs (map (map dval) cps) (map dval wts) us c) <= IZR (zlen new) * (W / m * (M * / 2 ^ 44 + / 2 ^ 890)))%R.
Proof. exact nurbs_refine. Qed.
Print Assumptions C73_nurbs_refinement.

Example C73_nurbs_refinement_example : Forall2 double_direction [kq; kl] [2; 1] /\ Forall finite [tenth; 0.5; tenth]%float /\
  all_insertable (map dval kq) 2 (map dval [tenth; 0.5; tenth]%float) /\
  zlen kq + 3 <= 2 ^ 31 /\ Forall (fun cp => zlen cp = 2) dpts /\ zlen dpts = total (point_counts [kq; kl] [2; 1]) /\ zlen dwts = zlen dpts /\ zlen dpts * (1 + 3) < 2 ^ 64 /\
  Forall (Forall (fun x => finite x /\ (Rabs (dval x) <= 1)%R)) dpts /\ (1 <= 2 ^ 498)%R /\
  Forall (fun w => finite w /\ (/ 16 <= dval w <= 1)%R) dwts /\ (/ 2 ^ 99 <= / 16)%R /\ (1 <= 2 ^ 99)%R /\ (3 * 1 <= 2 ^ 40 * / 16)%R.
Proof. exact nurbs_ex_refine. Qed.
