(* C80: on affine patches the assembled matrices hold the integrals of the Galerkin method exactly. *)
From Coq Require Import ZArith List Reals.
From Verif Require Import Base RSum MultiIndex MultiIndexSpec KnotVecSpec BasisSpec Spaces SpacesSpec SplineEval SplineSpec
  Gauss GaussSpec IgaSpec Iga IgaSystem IgaSystemSpec IgaSystemExamples GalerkinSpec GalerkinThms StiffnessExact GalerkinExamples.
Import ListNotations.
Open Scope R_scope.

(* The mass matrix: with more Gauss points than the degree, entry (i, j) is the integral of the product of the two basis functions. *)
Theorem C80_mass_exact : forall (dz : R -> R) (mdet : list (list R) -> R) (s : spline (Rops dz)) n rl A b, well_formed s -> unit_weights s ->
  gauss_rule (F := Rops dz) n = Some rl -> Forall (fun p => p < n)%Z (degs_of s) -> affine_map s A b -> scales mdet (length (degs_of s)) ->
  exists m, mass_matrix (F := Rops dz) mdet s rl = Ok m /\ square (total (npts_of s)) m /\
  forall i j, in_box (npts_of s) i -> in_box (npts_of s) j -> exists x,
    box_integral (knots_of s) (value_products (knots_of s) (degs_of s) i j) x /\
    entry m (position (npts_of s) i) (position (npts_of s) j) = volume_factor mdet (length (degs_of s)) (ph_dim (sp_ph s)) A * x.
Proof. exact mass_exact. Qed.
Print Assumptions C80_mass_exact.

(* All entries together are the volume of the patch, for every rule. *)
Theorem C80_volume : forall (dz : R -> R) (mdet : list (list R) -> R) (s : spline (Rops dz)) n rl A b m, well_formed s -> regular s ->
  gauss_rule (F := Rops dz) n = Some rl -> affine_map s A b -> scales mdet (length (degs_of s)) ->
  mass_matrix (F := Rops dz) mdet s rl = Ok m ->
  lsum (fun i => lsum (fun j => entry m (position (npts_of s) i) (position (npts_of s) j)) (all_indices (npts_of s))) (all_indices (npts_of s)) =
  volume_factor mdet (length (degs_of s)) (ph_dim (sp_ph s)) A * fold_right Rmult 1 (map (fun kv => final_knot kv - first_knot kv) (knots_of s)).
Proof. exact mass_volume. Qed.
Print Assumptions C80_volume.

(* The stiffness matrix: the integral of kappa times the scalar product of the gradients, W being the inverse of A. *)
Theorem C80_stiffness_exact : forall (dz : R -> R) (mdet : list (list R) -> R) (minv : list (list R) -> Res (list (list R))) (s : spline (Rops dz))
    n rl kappa A b (W : nat -> nat -> R),
  well_formed s -> unit_weights s -> degs_of s <> [] -> (Z.of_nat (length (degs_of s)) <= total (local_sizes (degs_of s)))%Z ->
  gauss_rule (F := Rops dz) n = Some rl -> Forall (fun p => p < n)%Z (degs_of s) -> affine_map s A b -> scales mdet (length (degs_of s)) ->
  (Z.of_nat (length (degs_of s)) <= ph_dim (sp_ph s))%Z ->
  inverts minv (length (degs_of s)) (table (length (degs_of s)) (fun i d => A (Z.of_nat i) d)) ->
  (forall i j, (i < length (degs_of s))%nat -> (j < length (degs_of s))%nat ->
     lsum (fun d => A (Z.of_nat i) d * W d j) (seq 0 (length (degs_of s))) = if Nat.eqb i j then 1 else 0) ->
  exists gs, all_slopes (knots_of s) (degs_of s) gs /\
  forall m, square (total (npts_of s)) m -> exists m',
  left_side (F := Rops dz) mdet minv s rl kappa m = Ok m' /\ square (total (npts_of s)) m' /\
  forall i j, in_box (npts_of s) i -> in_box (npts_of s) j -> exists x : nat -> nat -> R,
    (forall d e, (d < length (degs_of s))%nat -> (e < length (degs_of s))%nat ->
       box_integral (knots_of s) (slope_products (knots_of s) (degs_of s) gs (Z.of_nat d) (Z.of_nat e) i j) (x d e)) /\
    entry m' (position (npts_of s) i) (position (npts_of s) j) =
    entry m (position (npts_of s) i) (position (npts_of s) j) +
    kappa * (volume_factor mdet (length (degs_of s)) (ph_dim (sp_ph s)) A *
      lsum (fun d => lsum (fun e => lsum (fun k => W d k * W e k) (seq 0 (length (degs_of s))) * x d e) (seq 0 (length (degs_of s)))) (seq 0 (length (degs_of s)))).
Proof. exact stiffness_exact. Qed.
Print Assumptions C80_stiffness_exact.

(* The rectangle [0,2] x [0,1] with the two-point rule: the volume is 2 * 1. *)
Example C80_example : exists (s : spline (Rops (fun x => x))) rl,
  spline_new (F := Rops (fun x => x)) patch_knots [1; 1]%Z patch_points None = Ok s /\ well_formed s /\ regular s /\ unit_weights s /\
  degs_of s = [1; 1]%Z /\ (Z.of_nat (length (degs_of s)) <= total (local_sizes (degs_of s)))%Z /\ ph_dim (sp_ph s) = 2%Z /\
  gauss_rule (F := Rops (fun x => x)) 2 = Some rl /\ Forall (fun p => p < 2)%Z (degs_of s) /\
  affine_map s patch_A (fun _ => 0) /\ scales det2 (length (degs_of s)) /\
  inverts inv2 (length (degs_of s)) (table (length (degs_of s)) (fun i d => patch_A (Z.of_nat i) d)) /\
  (forall i j, (i < length (degs_of s))%nat -> (j < length (degs_of s))%nat ->
     lsum (fun d => patch_A (Z.of_nat i) d * patch_W d j) (seq 0 (length (degs_of s))) = if Nat.eqb i j then 1 else 0) /\
  volume_factor det2 (length (degs_of s)) (ph_dim (sp_ph s)) patch_A = 2 /\
  fold_right Rmult 1 (map (fun kv => final_knot kv - first_knot kv) (knots_of s)) = 1.
Proof. exact ex_galerkin. Qed.
