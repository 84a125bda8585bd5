(* Properties of subdivision: C28. *)
From Coq Require Import ZArith List Reals Permutation Floats.
From Verif Require Import Base MultiIndex KnotVec KnotVecSpec Basis Spaces SpacesSpec SplineEval SplineEdit SplineSpec EditSpec
  SubdivideThms.
Import ListNotations.
Open Scope Z_scope.

(* C28: the two pieces are well-formed splines over [first, u] and [u, last] in direction d; they agree with the
   split spline there, u included (the left piece at u only if u had at most p copies: with p+1 copies the
   spline may jump at u and takes its right value); the split spline has u with multiplicity p+1
   afterwards and still evaluates as before *)
Theorem C28_subdivision : forall dz (s : spline (Rops dz)) d kv p u,
  well_formed s -> direction s d kv p ->
  insertable kv p u 0 -> zlen kv < 2 ^ 31 -> total (upd (npts_of s) d (nth d (npts_of s) 0 + p + 1)) < 2 ^ 64 ->
  exists s1 s2 s' kv1 kv2 kv', subdivide s u d = Ok (s1, s2, s') /\
    (well_formed s1 /\ knots_of s1 = upd (knots_of s) d kv1 /\ degs_of s1 = degs_of s /\
     first_knot kv1 = first_knot kv /\ final_knot kv1 = u /\ ph_dim (sp_ph s1) = ph_dim (sp_ph s) /\
     (is_bspline s1 <-> is_bspline s)) /\
    (well_formed s2 /\ knots_of s2 = upd (knots_of s) d kv2 /\ degs_of s2 = degs_of s /\
     first_knot kv2 = u /\ final_knot kv2 = final_knot kv /\ ph_dim (sp_ph s2) = ph_dim (sp_ph s) /\
     (is_bspline s2 <-> is_bspline s)) /\
    (well_formed s' /\ knots_of s' = upd (knots_of s) d kv' /\ degs_of s' = degs_of s /\
     Permutation kv' (repeat u (Z.to_nat (p + 1) - occurrences kv u) ++ kv) /\
     first_knot kv' = first_knot kv /\ final_knot kv' = final_knot kv /\ ph_dim (sp_ph s') = ph_dim (sp_ph s) /\
     (is_bspline s' <-> is_bspline s)) /\
    (regular s -> regular s1 /\ regular s2 /\ regular s' /\
     (forall us dims, in_domain s1 us -> Z.of_nat (occurrences kv u) <= p \/ (nth d us 0 < u)%R ->
       valid_dims s dims -> evaluate s1 us dims = evaluate s us dims) /\
     (forall us dims, in_domain s2 us -> valid_dims s dims -> evaluate s2 us dims = evaluate s us dims) /\
     (forall us dims, length us = length (knots_of s) -> valid_dims s dims -> evaluate s' us dims = evaluate s us dims)).
Proof. exact subdivide_ok. Qed.
Print Assumptions C28_subdivision.

(* with p+1 copies the left piece can differ from the spline at u *)
Theorem C28_jump_refuted : exists (s s1 s2 s' : spline Fops) (a b : float),
  spline_new (F := Fops) [[0; 0; 1; 1; 2; 2]%float] [1] [[0]; [1]; [5]; [6]]%float None = Ok s /\
  subdivide s 1%float 0 = Ok (s1, s2, s') /\
  evaluate s1 [1%float] [0] = Ok [a] /\ evaluate s [1%float] [0] = Ok [b] /\ PrimFloat.eqb a 1 = true /\ PrimFloat.eqb b 5 = true.
Proof. exact split_jump. Qed.
Print Assumptions C28_jump_refuted.

Example C28_example : exists b n : spline (Rops (fun x => x)),
  well_formed b /\ is_bspline b /\ well_formed n /\ positive_weights n /\
  direction b 0 [0; 0; 0; 1; 2; 2; 2]%R 2 /\ direction n 0 [0; 0; 0; 1; 2; 2; 2]%R 2 /\
  insertable [0; 0; 0; 1; 2; 2; 2]%R 2 1 0 /\ insertable [0; 0; 0; 1; 2; 2; 2]%R 2 (1/2) 0 /\
  total (upd (npts_of b) 0 (nth 0 (npts_of b) 0 + 2 + 1)) < 2 ^ 64 /\
  total (upd (npts_of n) 0 (nth 0 (npts_of n) 0 + 2 + 1)) < 2 ^ 64.
Proof. exact ex_subdivide. Qed.
