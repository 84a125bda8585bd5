(* Vocabulary for the iterations of point projection. *)
From Coq Require Import ZArith List Reals.
From Verif Require Import Base RSum KnotVecSpec Spaces SplineEval SplineSpec DegreeSpec VecSpec IgaSpec.
Import ListNotations.

(* From start to result by at most 1001 steps: step u d v says that v follows u by the correction d.  All corrections
   but the last have a component of size tol or more; the last has none or is number 1001. *)
Definition iterates (step : list R -> list R -> list R -> Prop) (tol : R) (start result : list R) : Prop :=
  exists (n : nat) (u d : nat -> list R), (Z.of_nat n <= 1000)%Z /\ u O = start /\ u (S n) = result /\
    (forall k, (k <= n)%nat -> step (u k) (d k) (u (S k))) /\
    (forall k, (k < n)%nat -> Exists (fun x => tol <= Rabs x)%R (d k)) /\
    (Forall (fun x => Rabs x < tol)%R (d n) \/ Z.of_nat n = 1000%Z).

(* v is the number of the interval between the ends of kv that is nearest to x *)
Definition nearest_in (kv : list R) (x v : R) : Prop :=
  (first_knot kv <= v <= final_knot kv)%R /\ forall w, (first_knot kv <= w <= final_knot kv)%R -> (Rabs (v - x) <= Rabs (w - x))%R.

Section Spec.
Context {dz : R -> R}.
Implicit Types s : spline (Rops dz).

(* the distance of pt from the point of s at us is at most r *)
Definition distance_at s (pt us : list R) (r : R) : Prop := exists x, evaluate s us (zseq 0 (length pt)) = Ok x /\ r = euclid pt x.

(* one step on a curve: the tangent at us, walked to the foot of the perpendicular from pt *)
Definition curve_step s (kv pt us ds us' : list R) : Prop :=
  exists (u d v : R) (tangent x : list R), us = [u] /\ ds = [d] /\ us' = [v] /\
    evaluate_derivative s us (zseq 0 (length pt)) [1%Z] = Ok tangent /\ evaluate s us (zseq 0 (length pt)) = Ok x /\
    (dot tangent tangent <> 0%R -> d = dot tangent (map2 Rminus pt x) / dot tangent tangent)%R /\ nearest_in kv (u + d) v.

(* one step on a surface in space: the tangent plane, walked to the foot of the perpendicular from pt *)
Definition surface_step s (k1 k2 pt us ds us' : list R) : Prop :=
  exists (u1 u2 d1 d2 v1 v2 : R) (t1 t2 x : list R), us = [u1; u2] /\ ds = [d1; d2] /\ us' = [v1; v2] /\
    evaluate_derivative s us (zseq 0 (length pt)) [1%Z; 0%Z] = Ok t1 /\ evaluate_derivative s us (zseq 0 (length pt)) [0%Z; 1%Z] = Ok t2 /\
    evaluate s us (zseq 0 (length pt)) = Ok x /\
    (dot t1 t1 * dot t2 t2 - dot t1 t2 * dot t1 t2 <> 0 ->
     dot (map2 Rminus pt x) t1 = d1 * dot t1 t1 + d2 * dot t2 t1 /\ dot (map2 Rminus pt x) t2 = d1 * dot t1 t2 + d2 * dot t2 t2)%R /\
    nearest_in k1 (u1 + d1) v1 /\ nearest_in k2 (u2 + d2) v2.

(* u is the middle of a knot interval, and no middle of another one is nearer to pt *)
Definition nearest_middle s (kv : list R) (p : Z) (pt : list R) (u : R) : Prop :=
  exists r, distance_at s pt [u] r /\ (exists k e, knot_interval kv p k e /\ u = (fst e + snd e) / 2)%R /\
    forall k e, knot_interval kv p k e -> exists q, distance_at s pt [(fst e + snd e) / 2]%R q /\ (r <= q)%R.

(* the first corner and the points at i/m, j/n of the two lengths *)
Definition sample (last1 last2 : R) (m n : Z) (us : list R) : Prop :=
  us = [0; 0]%R \/ exists i j, (1 <= i <= m)%Z /\ (1 <= j <= n)%Z /\ us = [IZR i * last1 / IZR m; IZR j * last2 / IZR n]%R.
Definition nearest_sample s (last1 last2 : R) (m n : Z) (pt us : list R) : Prop :=
  exists r, distance_at s pt us r /\ sample last1 last2 m n us /\
    forall vs, sample last1 last2 m n vs -> exists q, distance_at s pt vs q /\ (r <= q)%R.
End Spec.
