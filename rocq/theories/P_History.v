(* Properties of sequences of edits: C34. *)
From Coq Require Import ZArith List Reals.
From Verif Require Import Base MultiIndex KnotVecSpec Basis Spaces SpacesSpec SplineEval SplineEdit SplineSpec EditSpec
  HistorySpec SpacesThms EvalThms HistoryThms.
Import ListNotations.
Open Scope Z_scope.

(* C34: after a successful construction over usable knot vectors, any finite sequence of admissible calls keeps
   knots clamped, sorted and separated, basis functions in sync, sizes matching; degrees, kind and dimension
   do not change; the domain is part of the first one, all of it unless a piece was chosen; and the
   next admissible call succeeds as well *)
Theorem C34_history_invariant : forall dz knots degs cps wts (s0 : spline (Rops dz)) l s,
  Forall2 good_direction knots degs -> total (map2 (fun kv p => zlen kv - p - 1) knots degs) < 2 ^ 64 ->
  1 <= zlen (nth 0 cps []) ->
  spline_new (F := Rops dz) knots degs cps wts = Ok s0 -> history admissible s0 l s ->
  (Forall2 good_direction (knots_of s) (degs_of s) /\
   create_bases (F := Rops dz) (knots_of s) (degs_of s) = Ok (ps_bfs (sp_ps s)) /\
   npts_of s = map2 (fun kv p => zlen kv - p - 1) (knots_of s) (degs_of s) /\
   zlen (ph_cps (sp_ph s)) = ph_dim (sp_ph s) * total (npts_of s) /\
   (forall w, ph_wts (sp_ph s) = Some w -> zlen w = total (npts_of s))) /\
  degs_of s = degs /\ ph_dim (sp_ph s) = ph_dim (sp_ph s0) /\ (is_bspline s <-> wts = None) /\
  (forall us, in_domain s us -> in_domain s0 us) /\
  (Forall keeps_domain l -> forall us, in_domain s0 us -> in_domain s us) /\
  (forall e, admissible s e -> exists s', apply_edit s e = Ok s').
Proof. exact history_invariant. Qed.
Print Assumptions C34_history_invariant.

Example C34_example : exists s0 s : spline (Rops (fun x => x)),
  Forall2 good_direction ex_knots ex_degs /\
  total (map2 (fun kv p => zlen kv - p - 1) ex_knots ex_degs) < 2 ^ 64 /\ 1 <= zlen (nth 0 ex_points []) /\
  spline_new (F := Rops (fun x => x)) ex_knots ex_degs ex_points (Some ex_weights) = Ok s0 /\
  history admissible s0 [Insert 0 (1/2) 1; Remove 0 (1/2) 0 1] s.
Proof. exact ex_history. Qed.

(* however often knots were inserted, refined and the spline split, the result still is the first map,
   restricted to what is left of the domain *)
Theorem C34_map_survives : forall dz (s0 : spline (Rops dz)) l s,
  well_formed s0 -> regular s0 ->
  history (fun t e => admissible t e /\ keeps_map e /\ no_jump t e) s0 l s ->
  forall us dims, in_domain s us -> valid_dims s0 dims -> in_domain s0 us /\ evaluate s us dims = evaluate s0 us dims.
Proof. exact history_map. Qed.
Print Assumptions C34_map_survives.

(* without the condition on jumps: below the upper ends of the domain *)
Theorem C34_map_survives_below : forall dz (s0 : spline (Rops dz)) l s,
  well_formed s0 -> regular s0 ->
  history (fun t e => admissible t e /\ keeps_map e) s0 l s ->
  forall us dims, below_ends s us -> valid_dims s0 dims -> in_domain s0 us /\ evaluate s us dims = evaluate s0 us dims.
Proof. exact history_map_below. Qed.
Print Assumptions C34_map_survives_below.

Example C34_map_example : exists s0 s : spline (Rops (fun x => x)),
  well_formed s0 /\ regular s0 /\ ~ is_bspline s0 /\
  history (fun t e => admissible t e /\ keeps_map e /\ no_jump t e) s0 [Insert 0 (1/2) 1; Split 0 (1/2) LeftPiece] s.
Proof. exact ex_history_map. Qed.
