(* Control points and the spline: C96. *)
From Coq Require Import ZArith List Reals.
From Verif Require Import Base RSum MultiIndexSpec KnotVecSpec Spaces SplineEval SplineEdit SplineSpec EditSpec GrevilleSpec SteepSpec ConvergeSpec Converge ConvergeExamples.
Import ListNotations.
Open Scope Z_scope.

(* C96: the distance of a control point from any point of the spline *)
Theorem C96_near : forall dz (s : spline (Rops dz)) us idx c Ks hs,
  well_formed s -> is_bspline s -> Forall (fun p => 1 <= p) (degs_of s) -> in_domain s us -> in_box (npts_of s) idx -> 0 <= c < ph_dim (sp_ph s) ->
  Forall (fun K => 0 <= K)%R Ks -> (forall d, (d < length us)%nat -> polygon_within s d c (nth d Ks 0%R)) ->
  (forall d, (d < length us)%nat -> gaps_within (nth d (knots_of s) []) (nth d hs 0%R)) ->
  exists x, evaluate s us [c] = Ok [x] /\
    (Rabs (coordinate s idx c - x) <= lsum (fun d => nth d Ks 0 * (Rabs (greville (nth d (knots_of s) []) (nth d (degs_of s) 0%Z) (nth d idx 0%Z) - nth d us 0) +
       IZR (nth d (degs_of s) 0%Z) * nth d hs 0)) (seq 0 (length us)))%R.
Proof. exact points_near. Qed.
Print Assumptions C96_near.

(* C96: after a refinement the control points are near the spline before it, with the steepness before it and the gaps after it *)
Theorem C96_refined : forall dz (s : spline (Rops dz)) new d kv p c Ks,
  well_formed s -> is_bspline s -> Forall (fun p => 1 <= p) (degs_of s) -> direction s d kv p -> all_insertable kv p new -> zlen kv + zlen new <= 2 ^ 31 ->
  0 <= c < ph_dim (sp_ph s) -> Forall (fun K => 0 <= K)%R Ks -> (forall e, (e < length (knots_of s))%nat -> polygon_within s e c (nth e Ks 0%R)) ->
  exists s', refine_knots s new d = Ok s' /\ forall hs us idx, in_domain s us -> in_box (npts_of s') idx ->
    (forall e, (e < length us)%nat -> gaps_within (nth e (knots_of s') []) (nth e hs 0%R)) ->
    exists x, evaluate s us [c] = Ok [x] /\
      (Rabs (coordinate s' idx c - x) <= lsum (fun e => nth e Ks 0 * (Rabs (greville (nth e (knots_of s') []) (nth e (degs_of s') 0%Z) (nth e idx 0%Z) - nth e us 0) +
         IZR (nth e (degs_of s') 0%Z) * nth e hs 0)) (seq 0 (length us)))%R.
Proof. exact refined_near. Qed.
Print Assumptions C96_refined.

Example C96_example : exists s : spline (Rops (fun x => x)), well_formed s /\ is_bspline s /\ Forall (fun p => 1 <= p) (degs_of s) /\ in_domain s [(1/2)%R; (1/4)%R] /\
  in_box (npts_of s) [1; 0] /\ 0 <= 1 < ph_dim (sp_ph s) /\ Forall (fun K => 0 <= K)%R [4; 3]%R /\ length (knots_of s) = 2%nat /\
  (forall d, (d < 2)%nat -> polygon_within s d 1 (nth d [4; 3] 0)%R) /\ (forall d, (d < 2)%nat -> gaps_within (nth d (knots_of s) []) (nth d [1; 1] 0)%R) /\
  direction s 0 [0; 0; 0; 1; 2; 2; 2]%R 2 /\ all_insertable [0; 0; 0; 1; 2; 2; 2]%R 2 [1; 1/2; 1]%R.
Proof. exact ex_converge. Qed.
