(* Properties of the isogeometric analysis example code: C36 and C37. *)
From Coq Require Import ZArith List Reals Floats.
From Verif Require Import Base MultiIndex MultiIndexSpec KnotVec KnotVecSpec BasisSpec Basis Spaces SpacesSpec SplineEval SplineSpec
  Iga IgaSpec IgaThms IgaBasisThms IgaExamples.
Import ListNotations.
Open Scope Z_scope.

(* C36: the element list of a direction tiles the domain and consists of the non-empty spans *)
Theorem C36_elements_tile : forall dz kv p, good_direction kv p -> exists l,
  elements (F := Rops dz) kv p = Ok l /\ l <> [] /\ tiles (first_knot kv) (final_knot kv) l /\
  forall e, In e l -> exists k, knot_interval kv p k e.
Proof. exact @elements_tile. Qed.
Print Assumptions C36_elements_tile.

(* on every element, every local number l gives the 1-based number of the control point with the
   per-direction indices k_d - p_d + l_d *)
Theorem C36_connectivity : forall dz (s : spline (Rops dz)), well_formed s -> exists lists,
  element_lists s = Ok lists /\ num_all_elements s = Ok (total (map zlen lists)) /\
  forall n, 0 <= n < total (map zlen lists) -> exists es ks,
    in_box (map zlen lists) es /\ position (map zlen lists) es = n /\
    element_spans (knots_of s) (degs_of s) ks lists es /\
    forall l, 0 <= l < total (map (fun p => p + 1) (degs_of s)) -> exists ls,
      in_box (map (fun p => p + 1) (degs_of s)) ls /\ position (map (fun p => p + 1) (degs_of s)) ls = l /\
      global_index s n l = Ok (position (npts_of s) (map2 Z.add (map2 Z.sub ks (degs_of s)) ls) + 1).
Proof. exact @connectivity. Qed.
Print Assumptions C36_connectivity.

(* the numbers delivered for an element are exactly those of the control points whose basis function
   does not vanish in its interior, each once *)
Theorem C36_connectivity_exact : forall dz (s : spline (Rops dz)), well_formed s -> exists lists,
  element_lists s = Ok lists /\
  forall es us, in_box (map zlen lists) es -> strictly_inside lists es us -> forall g,
  (exists l, 0 <= l < total (map (fun p => p + 1) (degs_of s)) /\ global_index s (position (map zlen lists) es) l = Ok g) <->
  (exists idx, in_box (npts_of s) idx /\ basis_product (knots_of s) (degs_of s) us idx <> 0%R /\ g = position (npts_of s) idx + 1).
Proof. exact @connectivity_exact. Qed.
Print Assumptions C36_connectivity_exact.

Theorem C36_connectivity_injective : forall dz (s : spline (Rops dz)), well_formed s -> exists lists,
  element_lists s = Ok lists /\
  forall n l1 l2 g, 0 <= n < total (map zlen lists) ->
  0 <= l1 < total (map (fun p => p + 1) (degs_of s)) -> 0 <= l2 < total (map (fun p => p + 1) (degs_of s)) ->
  global_index s n l1 = Ok g -> global_index s n l2 = Ok g -> l1 = l2.
Proof. exact @connectivity_injective. Qed.
Print Assumptions C36_connectivity_injective.

(* the element number found for a parameter belongs to an element that contains it *)
Theorem C36_element_at : forall dz (s : spline (Rops dz)) us, well_formed s -> in_domain s us -> exists lists es ks,
  element_lists s = Ok lists /\ in_box (map zlen lists) es /\ inside lists es us /\
  element_at s us = Ok (position (map zlen lists) es) /\
  element_spans (knots_of s) (degs_of s) ks lists es /\
  mapM (fun x => knot_span (F := Rops dz) (fst x) (snd x)) (combine (knots_of s) us) = Ok ks.
Proof. exact @element_at_ok. Qed.
Print Assumptions C36_element_at.

(* a surface with a double interior knot; element 1 of 2 in the first direction *)
Example C36_example : forall dz, exists s : spline (Rops dz),
  spline_new (F := Rops dz) ex_double [2; 1] ex_double_points None = Ok s /\ well_formed s /\
  exists lists, element_lists s = Ok lists /\ lists = [[(0, 1); (1, 2)]; [(0, 1)]]%R /\
  in_box (map zlen lists) [1; 0] /\ strictly_inside lists [1; 0] [3/2; 1/2]%R.
Proof. exact ex_connectivity. Qed.

(* C37: the values are those of the rational basis functions *)
Theorem C37_values : forall dz (s : spline (Rops dz)) us,
  well_formed s -> in_domain s us -> weight_function s us <> 0%R -> exists vals ks,
  nonzero_nurbs s us = Ok vals /\
  mapM (fun x => knot_span (F := Rops dz) (fst x) (snd x)) (combine (knots_of s) us) = Ok ks /\
  zlen vals = total (local_sizes (degs_of s)) /\
  forall ls, in_box (local_sizes (degs_of s)) ls -> in_box (npts_of s) (local_point (degs_of s) ks ls) /\
    nth (Z.to_nat (position (local_sizes (degs_of s)) ls)) vals 0%R = nurbs_basis s us (local_point (degs_of s) ks ls).
Proof. exact @nurbs_values. Qed.
Print Assumptions C37_values.

(* with unit weights the derivative routine returns the derivatives *)
Theorem C37_unit_weights : forall dz (s : spline (Rops dz)) us, well_formed s -> in_domain s us ->
  (forall idx, in_box (npts_of s) idx -> weight s idx = 1%R) ->
  Z.of_nat (length (degs_of s)) <= total (local_sizes (degs_of s)) -> exists dvals ks,
  nonzero_nurbs_derivs s us = Ok dvals /\
  mapM (fun x => knot_span (F := Rops dz) (fst x) (snd x)) (combine (knots_of s) us) = Ok ks /\
  forall d kv u ls, nth_error (knots_of s) d = Some kv -> nth_error us d = Some u -> ~ In u kv ->
    in_box (local_sizes (degs_of s)) ls ->
    derivable_pt_lim (fun v => nurbs_basis s (upd us d v) (local_point (degs_of s) ks ls)) u
      (nth (Z.to_nat (position (local_sizes (degs_of s)) ls)) (nth d dvals []) 0%R).
Proof. exact @nurbs_derivs_unit. Qed.
Print Assumptions C37_unit_weights.

(* in general it returns (A' W - A/W W') / W^2 for the first DIM local functions and A' for the others,
   where A = N w; the derivative of A / W is (A' W - A W') / W^2 *)
Theorem C37_derivatives_described : forall dz (s : spline (Rops dz)) us,
  well_formed s -> in_domain s us -> weight_function s us <> 0%R ->
  Z.of_nat (length (degs_of s)) <= total (local_sizes (degs_of s)) -> exists dvals ks,
  nonzero_nurbs_derivs s us = Ok dvals /\
  mapM (fun x => knot_span (F := Rops dz) (fst x) (snd x)) (combine (knots_of s) us) = Ok ks /\
  length dvals = length (degs_of s) /\
  forall d kv u ls, nth_error (knots_of s) d = Some kv -> nth_error us d = Some u -> ~ In u kv ->
    in_box (local_sizes (degs_of s)) ls ->
    zlen (nth d dvals []) = total (local_sizes (degs_of s)) /\
    let idx := local_point (degs_of s) ks ls in let l := position (local_sizes (degs_of s)) ls in
    let A := (basis_product (knots_of s) (degs_of s) us idx * weight s idx)%R in let W := weight_function s us in
    exists A' W' : R,
    derivable_pt_lim (fun v => basis_product (knots_of s) (degs_of s) (upd us d v) idx * weight s idx)%R u A' /\
    derivable_pt_lim (fun v => weight_function s (upd us d v)) u W' /\
    nth (Z.to_nat l) (nth d dvals []) 0%R =
      if l <? Z.of_nat (length (degs_of s)) then ((A' * W - A / W * W') / (W * W))%R else A'.
Proof. exact @nurbs_derivs_described. Qed.
Print Assumptions C37_derivatives_described.

(* a straight line with weights 1 and 2: both numbers returned are wrong *)
Theorem C37_derivatives_refuted : forall dz, exists (s : spline (Rops dz)) dvals v0 v1 d0 d1,
  well_formed s /\ positive_weights s /\ in_domain s [1/2]%R /\
  knots_of s = [[0; 0; 1; 1]%R] /\ degs_of s = [1] /\
  nonzero_nurbs_derivs s [1/2]%R = Ok dvals /\ dvals = [[v0; v1]] /\
  derivable_pt_lim (fun v => nurbs_basis s [v] [0]) (1/2) d0 /\ derivable_pt_lim (fun v => nurbs_basis s [v] [1]) (1/2) d1 /\
  v0 <> d0 /\ v1 <> d1.
Proof. exact derivs_wrong. Qed.
Print Assumptions C37_derivatives_refuted.

(* fewer local functions than directions: the loop leaves the arrays *)
Theorem C37_degree_zero_refuted : exists (s : spline Fops) v,
  spline_new (F := Fops) [[0; 1]; [0; 1]]%float [0; 0] [[5]]%float (Some [1]%float) = Ok s /\
  nonzero_nurbs s [0.5; 0.5]%float = Ok v /\ nonzero_nurbs_derivs s [0.5; 0.5]%float = UB.
Proof. exact derivs_degree_zero. Qed.
Print Assumptions C37_degree_zero_refuted.

Example C37_example : forall dz, exists s : spline (Rops dz),
  well_formed s /\ in_domain s [1/2]%R /\ weight_function s [1/2]%R <> 0%R /\
  Z.of_nat (length (degs_of s)) <= total (local_sizes (degs_of s)) /\ ~ In (1/2)%R [0; 0; 1; 1]%R /\
  in_box (local_sizes (degs_of s)) [1].
Proof. exact ex_local. Qed.
