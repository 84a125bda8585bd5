(* C85: subdivision in IEEE double arithmetic. *)
From Coq Require Import ZArith List Bool Reals Floats Permutation.
From Verif Require Import Base RSum MultiIndex KnotVec KnotVecSpec Basis BasisSpec Spaces SpacesSpec SplineSpec EditSpec SplineEval SplineEdit DoubleSpec DoubleRationalSpec DoubleExamples DoubleRationalExamples
  DoubleSplitSpec DoubleInsertExamples DoubleSplitClose DoubleSplitNurbs DoubleSplitExamples.
Import ListNotations.
Open Scope Z_scope.

(* SudivideSpline in doubles gives two well-formed splines that meet at the given knot: their knots together are those of the spline
   with the knot inserted, no overflow occurs, and on its side each piece is within a few rounding errors per inserted
   knot of the spline.  If a knot had to be inserted, the pieces share the control points of their common boundary exactly,
   so no gap opens there. *)
Theorem C85_double_subdivision : forall (knots : list (list float)) degs (cps : list (list float)) d kv p (u : float) dim M,
  Forall2 double_direction knots degs -> nth_error knots d = Some kv -> nth_error degs d = Some p ->
  finite u -> insertable (map dval kv) p (dval u) 0 -> zlen kv < 2 ^ 31 ->
  1 <= dim -> Forall (fun cp => zlen cp = dim) cps -> zlen cps = total (point_counts knots degs) -> zlen cps * (2 + p) < 2 ^ 64 ->
  Forall (Forall (fun x => finite x /\ (Rabs (dval x) <= M)%R)) cps -> (M <= 2 ^ 499)%R ->
  let r := p + 1 - Z.of_nat (occurrences (map dval kv) (dval u)) in
  let e := (M * / 2 ^ 48 + 4 * underflow)%R in
  exists s s1 s2 s' kv1 kv2 cps1 cps2, spline_new (F := Fops) knots degs cps None = Ok s /\
    subdivide s u d = Ok (s1, s2, s') /\ insert_knot s u d r = Ok s' /\
    spline_new (F := Fops) (upd knots d kv1) degs cps1 None = Ok s1 /\ spline_new (F := Fops) (upd knots d kv2) degs cps2 None = Ok s2 /\
    double_direction kv1 p /\ double_direction kv2 p /\
    first_knot (map dval kv1) = first_knot (map dval kv) /\ final_knot (map dval kv1) = dval u /\
    first_knot (map dval kv2) = dval u /\ final_knot (map dval kv2) = final_knot (map dval kv) /\
    Permutation (kv1 ++ skipn (Z.to_nat (p + 1)) kv2) (repeat u (Z.to_nat r) ++ kv) /\
    zlen cps1 = total (point_counts (upd knots d kv1) degs) /\ zlen cps2 = total (point_counts (upd knots d kv2) degs) /\
    zlen cps1 < 2 ^ 64 /\ zlen cps2 < 2 ^ 64 /\
    Forall (fun cp => zlen cp = dim) cps1 /\ Forall (fun cp => zlen cp = dim) cps2 /\
    Forall (Forall (fun x => finite x /\ (Rabs (dval x) <= M + IZR r * e)%R)) cps1 /\
    Forall (Forall (fun x => finite x /\ (Rabs (dval x) <= M + IZR r * e)%R)) cps2 /\
    (1 <= r -> layers_meet [] (point_counts (upd knots d kv1) degs) (point_counts (upd knots d kv2) degs) d cps1 cps2) /\
    forall us c, Forall2 (fun kv v => (first_knot (map dval kv) <= v <= final_knot (map dval kv))%R) knots us -> 0 <= c < dim ->
      ((nth d us 0 < dval u \/ nth d us 0 = dval u /\ (1 <= r)%Z)%R ->
        (Rabs (exact_coordinate (map (map dval) (upd knots d kv1)) degs (map (map dval) cps1) us c -
               exact_coordinate (map (map dval) knots) degs (map (map dval) cps) us c) <= IZR r * e)%R) /\
      ((dval u <= nth d us 0)%R ->
        (Rabs (exact_coordinate (map (map dval) (upd knots d kv2)) degs (map (map dval) cps2) us c -
               exact_coordinate (map (map dval) knots) degs (map (map dval) cps) us c) <= IZR r * e)%R).
Proof. exact double_split. Qed.
Print Assumptions C85_double_subdivision.

Example C85_double_subdivision_example : Forall2 double_direction [kq; kl] [2; 1] /\ finite tenth /\ insertable (map dval kq) 2 (dval tenth) 0 /\
  occurrences (map dval kq) (dval tenth) = 0%nat /\
  zlen kq < 2 ^ 31 /\ Forall (fun cp => zlen cp = 2) dpts /\ zlen dpts = total (point_counts [kq; kl] [2; 1]) /\ zlen dpts * (2 + 2) < 2 ^ 64 /\
  Forall (Forall (fun x => finite x /\ (Rabs (dval x) <= 1)%R)) dpts /\ (1 <= 2 ^ 499)%R /\
  Forall2 double_parameter [kq; kl] [tenth; 1]%float /\ degree_cost [2; 1] + summands [2; 1] + 1 = 27 /\ depth [2; 1] = 8.
Proof. exact double_ex_split. Qed.

(* What the pieces evaluate to in doubles is close to the point of the undivided spline in exact arithmetic. *)
Theorem C85_double_subdivision_evaluate : forall (knots : list (list float)) degs (cps : list (list float)) d kv p (u : float) (us : list float) dim dims M,
  Forall2 double_direction knots degs -> nth_error knots d = Some kv -> nth_error degs d = Some p ->
  finite u -> insertable (map dval kv) p (dval u) 0 -> zlen kv < 2 ^ 31 ->
  1 <= dim -> Forall (fun cp => zlen cp = dim) cps -> zlen cps = total (point_counts knots degs) -> zlen cps * (2 + p) < 2 ^ 64 ->
  Forall (Forall (fun x => finite x /\ (Rabs (dval x) <= M)%R)) cps -> (M <= 2 ^ 499)%R ->
  Forall2 double_parameter knots us -> Forall (fun c => 0 <= c < dim) dims ->
  degree_cost degs + summands degs + 1 <= 2 ^ 50 -> depth degs <= 500 ->
  let r := p + 1 - Z.of_nat (occurrences (map dval kv) (dval u)) in
  let e := (M * / 2 ^ 48 + 4 * underflow)%R in
  let M' := (M + IZR r * e)%R in
  let near := Forall2 (fun c v => finite v /\
      (Rabs (dval v - exact_coordinate (map (map dval) knots) degs (map (map dval) cps) (map dval us) c) <=
        IZR (degree_cost degs + summands degs + 1) * / 2 ^ 52 * M' +
        2 * IZR (summands degs) * (4 ^ Z.to_nat (depth degs) * M' + 1) * underflow + IZR r * e)%R) dims in
  exists s s1 s2 s', spline_new (F := Fops) knots degs cps None = Ok s /\ subdivide s u d = Ok (s1, s2, s') /\
    ((nth d (map dval us) 0 < dval u \/ nth d (map dval us) 0 = dval u /\ (1 <= r)%Z)%R -> exists vs, evaluate s1 us dims = Ok vs /\ near vs) /\
    ((dval u <= nth d (map dval us) 0)%R -> exists vs, evaluate s2 us dims = Ok vs /\ near vs).
Proof. exact double_split_evaluate. Qed.
Print Assumptions C85_double_subdivision_evaluate.

(* The same for NURBS: weights stay positive, and the pieces share points and weights of their common boundary exactly. *)
Theorem C85_nurbs_subdivision : forall (knots : list (list float)) degs (cps : list (list float)) (wts : list float) d kv p (u : float) dim M m W,
  Forall2 double_direction knots degs -> nth_error knots d = Some kv -> nth_error degs d = Some p ->
  finite u -> insertable (map dval kv) p (dval u) 0 -> zlen kv < 2 ^ 31 ->
  1 <= dim -> Forall (fun cp => zlen cp = dim) cps -> zlen cps = total (point_counts knots degs) -> zlen wts = zlen cps -> zlen cps * (2 + p) < 2 ^ 64 ->
  Forall (Forall (fun x => finite x /\ (Rabs (dval x) <= M)%R)) cps -> (M <= 2 ^ 498)%R ->
  Forall (fun w => finite w /\ (m <= dval w <= W)%R) wts -> (/ 2 ^ 99 <= m)%R -> (W <= 2 ^ 99)%R -> (IZR (p + 1) * W <= 2 ^ 40 * m)%R ->
  let r := p + 1 - Z.of_nat (occurrences (map dval kv) (dval u)) in
  let e := (IZR r * (W / m * (M * / 2 ^ 44 + / 2 ^ 890)))%R in
  exists s s1 s2 s' kv1 kv2 cps1 cps2 wts1 wts2, spline_new (F := Fops) knots degs cps (Some wts) = Ok s /\
    subdivide s u d = Ok (s1, s2, s') /\ insert_knot s u d r = Ok s' /\
    first_knot (map dval kv1) = first_knot (map dval kv) /\ final_knot (map dval kv1) = dval u /\
    first_knot (map dval kv2) = dval u /\ final_knot (map dval kv2) = final_knot (map dval kv) /\
    Permutation (kv1 ++ skipn (Z.to_nat (p + 1)) kv2) (repeat u (Z.to_nat r) ++ kv) /\
    zlen cps1 < 2 ^ 64 /\ zlen cps2 < 2 ^ 64 /\
    (1 <= r -> layers_meet [] (point_counts (upd knots d kv1) degs) (point_counts (upd knots d kv2) degs) d cps1 cps2 /\
               layers_meet 0%float (point_counts (upd knots d kv1) degs) (point_counts (upd knots d kv2) degs) d wts1 wts2) /\
    (spline_new (F := Fops) (upd knots d kv1) degs cps1 (Some wts1) = Ok s1 /\ double_direction kv1 p /\
      zlen cps1 = total (point_counts (upd knots d kv1) degs) /\ zlen wts1 = zlen cps1 /\ Forall (fun cp => zlen cp = dim) cps1 /\
      Forall (fun w => finite w /\ (m - IZR r * (W * / 2 ^ 48) <= dval w <= W + IZR r * (W * / 2 ^ 48))%R) wts1 /\
      Forall (Forall (fun x => finite x /\ (Rabs (dval x) <= M + e)%R)) cps1 /\
      forall us c, Forall2 (fun kv v => (first_knot (map dval kv) <= v <= final_knot (map dval kv))%R) knots us -> (nth d us 0 < dval u \/ nth d us 0 = dval u /\ (1 <= r)%Z)%R -> 0 <= c < dim ->
        (Rabs (exact_rational (map (map dval) (upd knots d kv1)) degs (map (map dval) cps1) (map dval wts1) us c -
               exact_rational (map (map dval) knots) degs (map (map dval) cps) (map dval wts) us c) <= e)%R) /\
    (spline_new (F := Fops) (upd knots d kv2) degs cps2 (Some wts2) = Ok s2 /\ double_direction kv2 p /\
      zlen cps2 = total (point_counts (upd knots d kv2) degs) /\ zlen wts2 = zlen cps2 /\ Forall (fun cp => zlen cp = dim) cps2 /\
      Forall (fun w => finite w /\ (m - IZR r * (W * / 2 ^ 48) <= dval w <= W + IZR r * (W * / 2 ^ 48))%R) wts2 /\
      Forall (Forall (fun x => finite x /\ (Rabs (dval x) <= M + e)%R)) cps2 /\
      forall us c, Forall2 (fun kv v => (first_knot (map dval kv) <= v <= final_knot (map dval kv))%R) knots us -> (dval u <= nth d us 0)%R -> 0 <= c < dim ->
        (Rabs (exact_rational (map (map dval) (upd knots d kv2)) degs (map (map dval) cps2) (map dval wts2) us c -
               exact_rational (map (map dval) knots) degs (map (map dval) cps) (map dval wts) us c) <= e)%R).
Proof. exact nurbs_split. Qed.
Print Assumptions C85_nurbs_subdivision.

Example C85_nurbs_subdivision_example : Forall2 double_direction [kq; kl] [2; 1] /\ finite tenth /\ insertable (map dval kq) 2 (dval tenth) 0 /\
  zlen kq < 2 ^ 31 /\ Forall (fun cp => zlen cp = 2) dpts /\ zlen dpts = total (point_counts [kq; kl] [2; 1]) /\ zlen dwts = zlen dpts /\ zlen dpts * (2 + 2) < 2 ^ 64 /\
  Forall (Forall (fun x => finite x /\ (Rabs (dval x) <= 1)%R)) dpts /\ (1 <= 2 ^ 498)%R /\
  Forall (fun w => finite w /\ (/ 16 <= dval w <= 1)%R) dwts /\ (/ 2 ^ 99 <= / 16)%R /\ (1 <= 2 ^ 99)%R /\ (IZR (2 + 1) * 1 <= 2 ^ 40 * / 16)%R /\
  Forall2 double_parameter [kq; kl] [tenth; 1]%float /\ 3 * (degree_cost [2; 1] + summands [2; 1]) + 7 = 85 /\ depth [2; 1] = 8.
Proof. exact nurbs_ex_split. Qed.

Theorem C85_nurbs_subdivision_evaluate : forall (knots : list (list float)) degs (cps : list (list float)) (wts : list float) d kv p (u : float) (us : list float) dim dims M m W,
  Forall2 double_direction knots degs -> nth_error knots d = Some kv -> nth_error degs d = Some p ->
  finite u -> insertable (map dval kv) p (dval u) 0 -> zlen kv < 2 ^ 31 ->
  1 <= dim -> Forall (fun cp => zlen cp = dim) cps -> zlen cps = total (point_counts knots degs) -> zlen wts = zlen cps -> zlen cps * (2 + p) < 2 ^ 64 ->
  Forall (Forall (fun x => finite x /\ (Rabs (dval x) <= M)%R)) cps -> (M <= 2 ^ 498)%R ->
  Forall (fun w => finite w /\ (m <= dval w <= W)%R) wts -> (/ 2 ^ 99 <= m)%R -> (W <= 2 ^ 99)%R -> (IZR (p + 1) * W <= 2 ^ 40 * m)%R ->
  Forall2 double_parameter knots us -> Forall (fun c => 0 <= c < dim) dims ->
  3 * (degree_cost degs + summands degs) + 7 <= 2 ^ 50 -> depth degs <= 200 ->
  let r := p + 1 - Z.of_nat (occurrences (map dval kv) (dval u)) in
  let e := (IZR r * (W / m * (M * / 2 ^ 44 + / 2 ^ 890)))%R in
  let near := Forall2 (fun c v => finite v /\
      (Rabs (dval v - exact_rational (map (map dval) knots) degs (map (map dval) cps) (map dval wts) (map dval us) c) <=
        IZR (3 * (degree_cost degs + summands degs) + 7) * / 2 ^ 52 * (M + e) +
        2 * IZR (summands degs) * (2 ^ 202 * 4 ^ Z.to_nat (depth degs) * (M + e) + 2 ^ 104) * underflow + e)%R) dims in
  exists s s1 s2 s', spline_new (F := Fops) knots degs cps (Some wts) = Ok s /\ subdivide s u d = Ok (s1, s2, s') /\
    ((nth d (map dval us) 0 < dval u \/ nth d (map dval us) 0 = dval u /\ (1 <= r)%Z)%R -> exists vs, evaluate s1 us dims = Ok vs /\ near vs) /\
    ((dval u <= nth d (map dval us) 0)%R -> exists vs, evaluate s2 us dims = Ok vs /\ near vs).
Proof. exact nurbs_split_evaluate. Qed.
Print Assumptions C85_nurbs_subdivision_evaluate.
