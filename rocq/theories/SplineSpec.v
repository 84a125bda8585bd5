(* Vocabulary for statements about splines: what a well-formed spline is and what it should
   evaluate to. *)
From Coq Require Import ZArith List Reals.
From Verif Require Import Base MultiIndex RSum KnotVecSpec BasisSpec Basis Spaces SpacesSpec SplineEval.
Import ListNotations.
Open Scope Z_scope.

(* position of a control point in the stored arrays: the first direction runs fastest *)
Fixpoint position (npts idx : list Z) : Z :=
  match npts, idx with
  | n :: npts', i :: idx' => i + n * position npts' idx'
  | _, _ => 0
  end.

(* all multi-indices [i_0; i_1; ...] with 0 <= i_d < npts_d *)
Fixpoint all_indices (npts : list Z) : list (list Z) :=
  match npts with
  | [] => [[]]
  | n :: npts' => flat_map (fun i => map (cons i) (all_indices npts')) (zseq 0 (Z.to_nat n))
  end.

(* N_{i_0,p_0}(u_0) * N_{i_1,p_1}(u_1) * ... *)
Fixpoint basis_product (knots : list (list R)) (degs : list Z) (us : list R) (idx : list Z) : R :=
  match knots, degs, us, idx with
  | kv :: knots', p :: degs', u :: us', i :: idx' =>
      (cox_de_boor kv (Z.to_nat p) (Z.to_nat i) u * basis_product knots' degs' us' idx')%R
  | _, _, _, _ => 1%R
  end.

(* the domain ends exactly after p+1 equal knots (clamped allows more) *)
Definition exact_ends (kv : list R) (p : Z) : Prop :=
  (first_knot kv < knot kv (S (Z.to_nat p)))%R /\ (knot kv (length kv - Z.to_nat p - 2) < final_knot kv)%R.

(* one end of the domain in one direction, and the control point index there *)
Definition end_value (kv : list R) (e : bool) : R := if e then final_knot kv else first_knot kv.
Definition end_index (n : Z) (e : bool) : Z := if e then n - 1 else 0.

(* the single number returned by an evaluation of one coordinate *)
Definition only_value (r : Res (list R)) : R := match r with Ok [v] => v | _ => 0%R end.

Section Spec.
Context {dz : R -> R}.
Implicit Types s : spline (Rops dz).

Definition knots_of s : list (list R) := ps_knots (sp_ps s).
Definition degs_of s : list Z := ps_degs (sp_ps s).
Definition npts_of s : list Z := ph_npts (sp_ph s).

(* coordinate c of control point idx, and its weight (1 for B-splines) *)
Definition coordinate s (idx : list Z) (c : Z) : R :=
  nth (Z.to_nat (ph_dim (sp_ph s) * position (npts_of s) idx + c)) (ph_cps (sp_ph s)) 0%R.
Definition weight s (idx : list Z) : R :=
  match ph_wts (sp_ph s) with
  | None => 1%R
  | Some w => nth (Z.to_nat (position (npts_of s) idx)) w 0%R
  end.

(* sum over all control points of N * w, and of N * w * P *)
Definition weight_function s (us : list R) : R :=
  lsum (fun idx => basis_product (knots_of s) (degs_of s) us idx * weight s idx)%R (all_indices (npts_of s)).
Definition weighted_sum s (us : list R) (c : Z) : R :=
  lsum (fun idx => basis_product (knots_of s) (degs_of s) us idx * (weight s idx * coordinate s idx c))%R
       (all_indices (npts_of s)).

(* all directions are usable, sizes agree, the basis functions belong to the knots *)
Record well_formed s : Prop := {
  wf_directions : Forall2 good_direction (knots_of s) (degs_of s);
  wf_bases : create_bases (F := Rops dz) (knots_of s) (degs_of s) = Ok (ps_bfs (sp_ps s));
  wf_npts : npts_of s = map2 (fun kv p => zlen kv - p - 1) (knots_of s) (degs_of s);
  wf_dim : 1 <= ph_dim (sp_ph s);
  wf_cps : zlen (ph_cps (sp_ph s)) = ph_dim (sp_ph s) * total (npts_of s);
  wf_wts : forall w, ph_wts (sp_ph s) = Some w -> zlen w = total (npts_of s)
}.

Definition is_bspline s : Prop := ph_wts (sp_ph s) = None.
Definition positive_weights s : Prop :=
  exists w, ph_wts (sp_ph s) = Some w /\ Forall (fun x => 0 < x)%R w.

(* one coordinate per direction, each inside [first knot, last knot] *)
Definition in_domain s (us : list R) : Prop :=
  Forall2 (fun kv u => (first_knot kv <= u <= final_knot kv)%R) (knots_of s) us.

(* requested coordinates exist *)
Definition valid_dims s (dims : list Z) : Prop := Forall (fun c => 0 <= c < ph_dim (sp_ph s)) dims.
End Spec.
