(* Vocabulary for statements about the assembled equation systems. *)
From Coq Require Import ZArith List Reals Sorted.
From Verif Require Import Base RSum MultiIndex MultiIndexSpec Spaces SplineSpec SplineEval Iga IgaSpec IgaSystem.
Import ListNotations.
Open Scope R_scope.

(* a matrix is the list of its rows *)
Definition square (n : Z) (m : list (list R)) : Prop :=
  Z.of_nat (length m) = n /\ Forall (fun r => Z.of_nat (length r) = n) m.
Definition component (v : list R) (i : Z) : R := nth (Z.to_nat i) v 0.
Definition entry (m : list (list R)) (i j : Z) : R := component (nth (Z.to_nat i) m []) j.

(* the point of element es with the coordinates xs in [-1,1]^d *)
Fixpoint element_point (lists : list (list (R * R))) (es : list Z) (xs : list R) : list R :=
  match lists, es, xs with
  | l :: lists', e :: es', x :: xs' =>
      let '(lo, hi) := nth (Z.to_nat e) l (0, 0) in
      (lo + (hi - lo) * ((x + 1) / 2)) :: element_point lists' es' xs'
  | _, _, _ => []
  end.

(* an integration rule with points in (-1, 1) *)
Definition inner_rule (rl : list (R * R)) : Prop := rl <> [] /\ Forall (fun q => -1 < fst q < 1) rl.
(* point number qs_d of the rule in direction d; the product of the weights *)
Definition grid_point (rl : list (R * R)) (qs : list Z) : list R := map (fun q => fst (nth (Z.to_nat q) rl (0, 0))) qs.
Definition grid_weight (rl : list (R * R)) (qs : list Z) : R :=
  fold_right Rmult 1 (map (fun q => snd (nth (Z.to_nat q) rl (0, 0))) qs).

(* the sum over all elements and all points of the tensor-product rule on each *)
Definition quadrature (lists : list (list (R * R))) (rl : list (R * R)) (f : list R -> R) : R :=
  lsum (fun es => lsum (fun qs => grid_weight rl qs * f (element_point lists es (grid_point rl qs)))
                       (all_indices (repeat (Z.of_nat (length rl)) (length lists))))
       (all_indices (map (fun l => Z.of_nat (length l)) lists)).

(* sum of coefficient times rational basis function over all control points *)
Definition combination {dz} (s : spline (Rops dz)) (coeffs us : list R) : R :=
  lsum (fun idx => nurbs_basis s us idx * component coeffs (position (npts_of s) idx)) (all_indices (npts_of s)).

(* every weight function value in the domain is non-zero: so for B-splines and for positive weights *)
Definition regular {dz} (s : spline (Rops dz)) : Prop := forall us, in_domain s us -> weight_function s us <> 0.

(* half the widths of the sides of element es *)
Fixpoint half_widths (lists : list (list (R * R))) (es : list Z) : list R :=
  match lists, es with
  | l :: lists', e :: es' => ((snd (nth (Z.to_nat e) l (0, 0)) - fst (nth (Z.to_nat e) l (0, 0))) / 2) :: half_widths lists' es'
  | _, _ => []
  end.
(* the n x n matrix of f *)
Definition table (n : nat) (f : nat -> nat -> R) : list (list R) := map (fun i => map (f i) (seq 0 n)) (seq 0 n).
(* coordinate c of the point of the spline at us *)
Definition geometry {dz} (s : spline (Rops dz)) (us : list R) (c : Z) : R := weighted_sum s us c / weight_function s us.
(* partial derivatives of the geometry: D c d is that of coordinate c in direction d *)
Definition partials {dz} (s : spline (Rops dz)) (us : list R) (D : Z -> nat -> R) : Prop :=
  forall c d, (0 <= c < ph_dim (sp_ph s))%Z -> (d < length us)%nat ->
  derivable_pt_lim (fun v => geometry s (upd us d v) c) (nth d us 0) (D c d).

(* minv returns a left inverse of the n x n matrix m *)
Definition inverts (minv : list (list R) -> Res (list (list R))) (n : nat) (m : list (list R)) : Prop :=
  exists w, minv m = Ok w /\ length w = n /\ Forall (fun r => length r = n) w /\
  forall k d, (k < n)%nat -> (d < n)%nat ->
    lsum (fun i => nth i (nth k w []) 0 * nth d (nth i m []) 0) (seq 0 n) = if Nat.eqb k d then 1 else 0.
(* the first n coordinates of the geometry have an invertible derivative, which minv inverts *)
Definition invertible_at {dz} (minv : list (list R) -> Res (list (list R))) (s : spline (Rops dz)) (us : list R) : Prop :=
  (Z.of_nat (length us) <= ph_dim (sp_ph s))%Z /\
  forall D, partials s us D -> inverts minv (length us) (table (length us) (fun i d => D (Z.of_nat i) d)).
(* G i is the derivative of basis function idx by coordinate i: together with those of the geometry
   they give the derivatives by the parameters *)
Definition physical_gradient {dz} (s : spline (Rops dz)) (us : list R) (idx : list Z) (G : nat -> R) : Prop :=
  forall D d, partials s us D -> (d < length us)%nat ->
  derivable_pt_lim (fun v => nurbs_basis s (upd us d v) idx) (nth d us 0)
    (lsum (fun i => G i * D (Z.of_nat i) d) (seq 0 (length us))).
Definition unit_weights {dz} (s : spline (Rops dz)) : Prop :=
  forall idx, In idx (all_indices (npts_of s)) -> weight s idx = 1.

(* control point idx has an extreme index in some direction *)
Definition at_boundary (npts idx : list Z) : Prop :=
  exists d n i, nth_error npts d = Some n /\ nth_error idx d = Some i /\ (i = 0 \/ i = n - 1)%Z.
(* x is a solution of the linear system m x = b *)
Definition solves (n : Z) (m : list (list R)) (b x : list R) : Prop :=
  Z.of_nat (length x) = n /\
  forall i, (0 <= i < n)%Z -> lsum (fun j => entry m i j * component x j) (zseq 0 (Z.to_nat n)) = component b i.
(* a becomes entry number d of the list *)
Definition put_at {A} (d : nat) (a : A) (l : list A) : list A := firstn d l ++ a :: skipn d l.

(* m' and v' are m and v with the rows of the control points [order] replaced by those of the identity and
   the numbers [values] *)
Definition conditioned (npts : list Z) (order : list (list Z)) (m m' : list (list R)) (v v' values : list R) : Prop :=
  let n : Z := total npts in
  square n m' /\ Z.of_nat (length v') = n /\
  (forall k idx, nth_error order k = Some idx ->
     component v' (position npts idx) = component values (Z.of_nat k) /\
     forall j, (0 <= j < n)%Z -> entry m' (position npts idx) j = if (j =? position npts idx)%Z then 1 else 0) /\
  (forall idx, in_box npts idx -> ~ In idx order ->
     component v' (position npts idx) = component v (position npts idx) /\
     forall j, (0 <= j < n)%Z -> entry m' (position npts idx) j = entry m (position npts idx) j).
(* the control points on the boundary in the order of their numbers *)
Definition boundary_list (npts : list Z) (order : list (list Z)) : Prop :=
  (forall idx, In idx order <-> in_box npts idx /\ at_boundary npts idx) /\
  StronglySorted (fun a b => (position npts a < position npts b)%Z) order.
(* x has the given values at the control points on the boundary; at every other control point row [lhs]
   of a matrix times x is [rhs] *)
Definition weak_form (npts : list Z) (values x : list R) (lhs : list Z -> list Z -> R) (rhs : list Z -> R) : Prop :=
  Z.of_nat (length x) = total npts /\
  (forall order k idx, boundary_list npts order -> nth_error order k = Some idx ->
     component x (position npts idx) = component values (Z.of_nat k)) /\
  (forall a, in_box npts a -> ~ at_boundary npts a ->
     lsum (fun b => lhs a b * component x (position npts b)) (all_indices npts) = rhs a).

(* the control points, weights and dimension of a are those of s with the first (e = false) or last index in direction d *)
Definition face_points_of {dz} (s : spline (Rops dz)) (d : nat) (e : bool) (a : spline (Rops dz)) : Prop :=
  npts_of a = remove_at d (npts_of s) /\ ph_dim (sp_ph a) = ph_dim (sp_ph s) /\
  forall js, in_box (remove_at d (npts_of s)) js ->
    let idx := put_at d (end_index (nth d (npts_of s) 0%Z) e) js in
    weight a js = weight s idx /\ forall c, (0 <= c < ph_dim (sp_ph s))%Z -> coordinate a js c = coordinate s idx c.
(* a is s at the first or last parameter in direction d *)
Definition face_of {dz} (s : spline (Rops dz)) (d : nat) (e : bool) (a : spline (Rops dz)) : Prop :=
  knots_of a = remove_at d (knots_of s) /\ degs_of a = remove_at d (degs_of s) /\
  forall us, in_domain a us ->
    let us' := put_at d (end_value (nth d (knots_of s) []) e) us in
    in_domain s us' /\ weight_function a us = weight_function s us' /\
    forall c, (0 <= c < ph_dim (sp_ph s))%Z -> geometry a us c = geometry s us' c.
(* x is the quadrature over the spline a of basis function js times the combination of the coefficients g *)
Definition face_load {dz} (mdet : list (list R) -> R) (rl : list (R * R)) (a : spline (Rops dz)) (g : list R) (js : list Z) (x : R) : Prop :=
  exists lists jac, element_lists a = Ok lists /\
  (forall es us, in_box (map (fun l => Z.of_nat (length l)) lists) es -> strictly_inside lists es us ->
     jacobian_determinant (F := Rops dz) mdet a us = Ok (jac us)) /\
  x = quadrature lists rl (fun u => jac u * (nurbs_basis a u js * combination a g u)).
