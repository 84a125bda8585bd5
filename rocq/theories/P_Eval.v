(* Properties of evaluation: C13 to C20. *)
From Coq Require Import ZArith List Reals Floats.
From Verif Require Import Base RSum KnotVecSpec BasisSpec Basis Spaces SpacesSpec SplineEval SplineSpec SpacesThms EvalThms.
Import ListNotations.
Open Scope Z_scope.

(* C13 *)
Theorem C13_evaluation_safe : forall dz (s : spline (Rops dz)) us dims ders,
  well_formed s -> length us = length (knots_of s) -> valid_dims s dims ->
  length ders = length (degs_of s) -> Forall (fun m => 0 <= m) ders ->
  (in_domain s us -> (exists vs, evaluate s us dims = Ok vs /\ length vs = length dims) /\
                     (exists vs, evaluate_derivative s us dims ders = Ok vs /\ length vs = length dims)) /\
  (~ in_domain s us -> evaluate s us dims = Throw RangeError /\ evaluate_derivative s us dims ders = Throw RangeError).
Proof. exact eval_safe. Qed.
Print Assumptions C13_evaluation_safe.

(* a surface with and one without weights, a parameter inside and one outside *)
Example C13_C14_C16_example : exists b n,
  spline_new (F := Rops (fun x => x)) ex_knots ex_degs ex_points None = Ok b /\
  spline_new (F := Rops (fun x => x)) ex_knots ex_degs ex_points (Some ex_weights) = Ok n /\
  well_formed b /\ is_bspline b /\ in_domain b [1/2; 1/4]%R /\ valid_dims b [0; 1] /\
  well_formed n /\ positive_weights n /\ in_domain n [1/2; 1/4]%R /\ valid_dims n [0; 1] /\
  ~ in_domain b [3; 1/4]%R.
Proof. exact ex_eval. Qed.

(* C14 *)
Theorem C14_bspline_full_sum : forall dz (s : spline (Rops dz)) us dims,
  well_formed s -> is_bspline s -> in_domain s us -> valid_dims s dims ->
  evaluate s us dims =
  Ok (map (fun c => lsum (fun idx => basis_product (knots_of s) (degs_of s) us idx * coordinate s idx c)%R
                         (all_indices (npts_of s))) dims).
Proof. exact bspline_full_sum. Qed.
Print Assumptions C14_bspline_full_sum.

(* C15: control points mapped by c' |-> b c' + sum_c A c' c * P_c *)
Theorem C15_affine_invariance : forall dz (s s' : spline (Rops dz)) us (A : Z -> Z -> R) (b : Z -> R),
  well_formed s -> well_formed s' -> sp_ps s' = sp_ps s ->
  ph_wts (sp_ph s') = ph_wts (sp_ph s) -> in_domain s us -> weight_function s us <> 0%R ->
  (forall idx c', In idx (all_indices (npts_of s)) -> 0 <= c' < ph_dim (sp_ph s') ->
     coordinate s' idx c' = (b c' + lsum (fun c => A c' c * coordinate s idx c) (zseq 0 (Z.to_nat (ph_dim (sp_ph s)))))%R) ->
  exists v v', evaluate s us (zseq 0 (Z.to_nat (ph_dim (sp_ph s)))) = Ok v /\
    evaluate s' us (zseq 0 (Z.to_nat (ph_dim (sp_ph s')))) = Ok v' /\
    forall c', 0 <= c' < ph_dim (sp_ph s') ->
      nth (Z.to_nat c') v' 0%R =
      (b c' + lsum (fun c => A c' c * nth (Z.to_nat c) v 0%R) (zseq 0 (Z.to_nat (ph_dim (sp_ph s)))))%R.
Proof. exact affine_invariance. Qed.
Print Assumptions C15_affine_invariance.

(* the weight hypothesis of C15 holds for B-splines and for positive weights *)
Theorem C15_weight_function : forall dz (s : spline (Rops dz)) us, well_formed s -> in_domain s us ->
  (is_bspline s -> weight_function s us = 1%R) /\ (positive_weights s -> (0 < weight_function s us)%R).
Proof. exact weight_function_facts. Qed.
Print Assumptions C15_weight_function.

Example C15_example : exists s s' : spline (Rops (fun x => x)),
  well_formed s /\ well_formed s' /\ sp_ps s' = sp_ps s /\ ph_wts (sp_ph s') = ph_wts (sp_ph s) /\
  in_domain s [1/2; 1/4]%R /\ weight_function s [1/2; 1/4]%R <> 0%R /\
  (forall idx c', In idx (all_indices (npts_of s)) -> 0 <= c' < ph_dim (sp_ph s') ->
     coordinate s' idx c' = (1 + lsum (fun c => IZR (c' + 2) * coordinate s idx c) (zseq 0 (Z.to_nat (ph_dim (sp_ph s)))))%R).
Proof. exact ex_affine. Qed.

(* C16: the point is a convex combination of the control points *)
Theorem C16_convex_hull : forall dz (s : spline (Rops dz)) us dims,
  well_formed s -> is_bspline s \/ positive_weights s -> in_domain s us -> valid_dims s dims ->
  exists lam : list Z -> R,
    (forall idx, In idx (all_indices (npts_of s)) -> (0 <= lam idx)%R) /\
    lsum lam (all_indices (npts_of s)) = 1%R /\
    evaluate s us dims = Ok (map (fun c => lsum (fun idx => lam idx * coordinate s idx c)%R (all_indices (npts_of s))) dims).
Proof. exact convex_combination. Qed.
Print Assumptions C16_convex_hull.

Theorem C16_coordinate_bounds : forall dz (s : spline (Rops dz)) us c lo hi,
  well_formed s -> is_bspline s \/ positive_weights s -> in_domain s us -> 0 <= c < ph_dim (sp_ph s) ->
  (forall idx, In idx (all_indices (npts_of s)) -> (lo <= coordinate s idx c <= hi)%R) ->
  exists v, evaluate s us [c] = Ok [v] /\ (lo <= v <= hi)%R.
Proof. exact convex_bounds. Qed.
Print Assumptions C16_coordinate_bounds.

(* C17: [ends] says for every direction whether the first or the last end is meant *)
Theorem C17_corner_interpolation : forall dz (s : spline (Rops dz)) ends dims,
  well_formed s -> Forall2 exact_ends (knots_of s) (degs_of s) -> length ends = length (knots_of s) -> valid_dims s dims ->
  weight s (map2 end_index (npts_of s) ends) <> 0%R ->
  evaluate s (map2 end_value (knots_of s) ends) dims =
  Ok (map (coordinate s (map2 end_index (npts_of s) ends)) dims).
Proof. exact corner_interpolation. Qed.
Print Assumptions C17_corner_interpolation.

Example C17_example : exists s : spline (Rops (fun x => x)), well_formed s /\
  Forall2 exact_ends (knots_of s) (degs_of s) /\ length [false; true] = length (knots_of s) /\ valid_dims s [0; 1] /\
  weight s (map2 end_index (npts_of s) [false; true]) <> 0%R /\
  map2 end_value (knots_of s) [false; true] = [0; 1]%R /\ map2 end_index (npts_of s) [false; true] = [0; 1].
Proof. exact ex_corner. Qed.

(* the constructor also accepts longer runs of equal knots at the ends; then the corner is not met *)
Theorem C17_long_end_refuted : exists (s : spline Fops) (v : float),
  spline_new (F := Fops) [[0; 0; 0; 1; 1]%float] [1] [[7]; [5]; [3]]%float None = Ok s /\
  evaluate s [0%float] [0] = Ok [v] /\ PrimFloat.eqb v 5 = true.
Proof. exact long_end. Qed.
Print Assumptions C17_long_end_refuted.

(* C18 *)
Theorem C18_weighted_quotient : forall dz (s : spline (Rops dz)) us dims,
  well_formed s -> in_domain s us -> valid_dims s dims -> weight_function s us <> 0%R ->
  evaluate s us dims = Ok (map (fun c => weighted_sum s us c / weight_function s us)%R dims).
Proof. exact nurbs_quotient. Qed.
Print Assumptions C18_weighted_quotient.

Theorem C18_equal_weights : forall dz (s b : spline (Rops dz)) us dims w0,
  well_formed s -> well_formed b -> is_bspline b ->
  sp_ps b = sp_ps s -> ph_dim (sp_ph b) = ph_dim (sp_ph s) -> ph_cps (sp_ph b) = ph_cps (sp_ph s) ->
  w0 <> 0%R -> (exists w, ph_wts (sp_ph s) = Some w /\ Forall (fun x => x = w0) w) ->
  in_domain s us -> valid_dims s dims -> evaluate s us dims = evaluate b us dims.
Proof. exact equal_weights. Qed.
Print Assumptions C18_equal_weights.

Example C18_equal_weights_example : exists s b : spline (Rops (fun x => x)),
  well_formed s /\ well_formed b /\ is_bspline b /\ sp_ps b = sp_ps s /\
  ph_dim (sp_ph b) = ph_dim (sp_ph s) /\ ph_cps (sp_ph b) = ph_cps (sp_ph s) /\
  (exists w, ph_wts (sp_ph s) = Some w /\ Forall (fun x => x = 2%R) w) /\ in_domain s [1/2; 1/4]%R /\ valid_dims s [0; 1].
Proof. exact ex_equal_weights. Qed.

Theorem C18_scaled_weights : forall dz (s s' : spline (Rops dz)) us dims a,
  well_formed s -> well_formed s' ->
  sp_ps s' = sp_ps s -> ph_dim (sp_ph s') = ph_dim (sp_ph s) -> ph_cps (sp_ph s') = ph_cps (sp_ph s) -> a <> 0%R ->
  (exists w, ph_wts (sp_ph s) = Some w /\ ph_wts (sp_ph s') = Some (map (fun x => a * x)%R w)) ->
  in_domain s us -> valid_dims s dims -> weight_function s us <> 0%R -> evaluate s' us dims = evaluate s us dims.
Proof. exact scaled_weights. Qed.
Print Assumptions C18_scaled_weights.

Example C18_scaled_weights_example : exists s s' b : spline (Rops (fun x => x)),
  well_formed s /\ well_formed s' /\ well_formed b /\ is_bspline b /\
  sp_ps s' = sp_ps s /\ sp_ps b = sp_ps s /\ ph_dim (sp_ph s') = ph_dim (sp_ph s) /\ ph_cps (sp_ph s') = ph_cps (sp_ph s) /\
  (exists w, ph_wts (sp_ph s) = Some w /\ ph_wts (sp_ph s') = Some (map (fun x => 3 * x)%R w)) /\
  in_domain s [1/2; 1/4]%R /\ valid_dims s [0; 1] /\ weight_function s [1/2; 1/4]%R <> 0%R.
Proof. exact ex_scaled. Qed.

(* C19 and C20 *)
Theorem C19_bspline_derivative : forall dz (s : spline (Rops dz)) us ders d kv u c,
  well_formed s -> is_bspline s -> in_domain s us ->
  length ders = length (degs_of s) -> Forall (fun m => 0 <= m) ders ->
  nth_error (knots_of s) d = Some kv -> nth_error us d = Some u -> ~ In u kv -> 0 <= c < ph_dim (sp_ph s) ->
  exists l, evaluate_derivative s us [c] (upd ders d (nth d ders 0 + 1)) = Ok [l] /\
    derivable_pt_lim (fun v => only_value (evaluate_derivative s (upd us d v) [c] ders)) u l.
Proof. exact bspline_derivative_step. Qed.
Print Assumptions C19_bspline_derivative.

Theorem C20_nurbs_derivative : forall dz (s : spline (Rops dz)) us ders d kv u c,
  well_formed s -> in_domain s us -> weight_function s us <> 0%R ->
  length ders = length (degs_of s) -> Forall (fun m => 0 <= m) ders ->
  nth_error (knots_of s) d = Some kv -> nth_error us d = Some u -> ~ In u kv -> 0 <= c < ph_dim (sp_ph s) ->
  exists l, evaluate_derivative s us [c] (upd ders d (nth d ders 0 + 1)) = Ok [l] /\
    derivable_pt_lim (fun v => only_value (evaluate_derivative s (upd us d v) [c] ders)) u l.
Proof. exact nurbs_derivative_step. Qed.
Print Assumptions C20_nurbs_derivative.

Theorem C19_C20_order_zero : forall dz (s : spline (Rops dz)) us dims,
  well_formed s -> in_domain s us -> valid_dims s dims -> is_bspline s \/ weight_function s us <> 0%R ->
  evaluate_derivative s us dims (map (fun _ => 0) (degs_of s)) = evaluate s us dims.
Proof. exact derivative_order_zero. Qed.
Print Assumptions C19_C20_order_zero.

Example C19_C20_example : exists s : spline (Rops (fun x => x)), well_formed s /\ in_domain s [1/2; 1/4]%R /\
  length [1; 2] = length (degs_of s) /\ nth_error (knots_of s) 0 = Some [0; 0; 0; 1; 2; 2; 2]%R /\
  ~ In (1/2)%R [0; 0; 0; 1; 2; 2; 2]%R /\ 0 <= 1 < ph_dim (sp_ph s) /\ weight_function s [1/2; 1/4]%R <> 0%R.
Proof. exact ex_deriv. Qed.
