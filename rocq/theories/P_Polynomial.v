(* C79: splines reproduce the polynomials of their degree. *)
From Coq Require Import ZArith List Reals.
From Verif Require Import Base RSum MultiIndex MultiIndexSpec KnotVecSpec Spaces SpacesSpec SplineEval SplineSpec UniqueSpec PolynomialSpec
  PolynomialFacts PolynomialThms.
Import ListNotations.
Open Scope R_scope.

(* A spline whose control points are the means of the products of the knots inside the supports is the polynomial. *)
Theorem C79_polynomial : forall (dz : R -> R) (s : spline (Rops dz)) (terms : Z -> list (R * list nat)), well_formed s -> is_bspline s ->
  (forall c, (0 <= c < ph_dim (sp_ph s))%Z -> of_degrees (degs_of s) (terms c) /\
     forall idx, in_box (npts_of s) idx -> coordinate s idx c = dual_poly (knots_of s) (degs_of s) (terms c) idx) ->
  forall us dims, in_domain s us -> valid_dims s dims ->
  evaluate s us dims = Ok (map (fun c => poly (terms c) us) dims).
Proof. exact polynomial_spline. Qed.
Print Assumptions C79_polynomial.

(* x = u^2 v, y = 1 + 2 u *)
Example C79_polynomial_example : exists s : spline (Rops (fun x => x)), well_formed s /\ is_bspline s /\ knots_of s = [[0; 0; 0; 1; 2; 2; 2]; [0; 0; 1; 1]] /\
  degs_of s = [2; 1]%Z /\ ph_dim (sp_ph s) = 2%Z /\
  ph_cps (sp_ph s) = [0; 1; 0; 2; 0; 4; 0; 5; 0; 1; 0; 2; 2; 4; 4; 5] /\
  (forall c, (0 <= c < 2)%Z -> of_degrees (degs_of s) (if (c =? 0)%Z then [(1, [2; 1]%nat)] else [(1, [0; 0]%nat); (2, [1; 0]%nat)]) /\
    forall idx, in_box (npts_of s) idx -> coordinate s idx c =
      dual_poly (knots_of s) (degs_of s) (if (c =? 0)%Z then [(1, [2; 1]%nat)] else [(1, [0; 0]%nat); (2, [1; 0]%nat)]) idx) /\
  in_domain s [3/2; 1/2] /\ valid_dims s [0; 1]%Z /\ poly [(1, [2; 1]%nat)] [3/2; 1/2] = 9/8.
Proof. exact ex_polynomial. Qed.

(* So over any knots every polynomial map of these degrees is a spline, which the constructor accepts. *)
Theorem C79_every_polynomial : forall (dz : R -> R) knots degs dim (terms : Z -> list (R * list nat)),
  Forall2 good_direction knots degs -> (total (map2 (fun kv p => zlen kv - p - 1)%Z knots degs) < 2 ^ 64)%Z -> (1 <= dim)%Z ->
  (forall c, (0 <= c < dim)%Z -> of_degrees degs (terms c)) -> exists cps s,
  spline_new (F := Rops dz) knots degs cps None = Ok s /\ well_formed s /\ knots_of s = knots /\ degs_of s = degs /\ ph_dim (sp_ph s) = dim /\
  forall us dims, in_domain s us -> valid_dims s dims -> evaluate s us dims = Ok (map (fun c => poly (terms c) us) dims).
Proof. exact polynomial_exists. Qed.
Print Assumptions C79_every_polynomial.

(* Conversely, a spline that is a polynomial between two neighbouring knots of every direction has these control points there. *)
Theorem C79_points_of_polynomial : forall (dz : R -> R) (s : spline (Rops dz)) ks c terms, well_formed s -> is_bspline s -> (0 <= c < ph_dim (sp_ph s))%Z ->
  of_degrees (degs_of s) terms -> (exists us, inside_spans (knots_of s) ks us) ->
  (forall us, inside_spans (knots_of s) ks us -> evaluate s us [c] = Ok [poly terms us]) ->
  forall idx, used_there (degs_of s) ks idx -> coordinate s idx c = dual_poly (knots_of s) (degs_of s) terms idx.
Proof. exact polynomial_points. Qed.
Print Assumptions C79_points_of_polynomial.

Example C79_points_of_polynomial_example : exists s : spline (Rops (fun x => x)), well_formed s /\ is_bspline s /\ (0 <= 0 < ph_dim (sp_ph s))%Z /\
  of_degrees (degs_of s) [(1, [2; 1]%nat)] /\ (exists us, inside_spans (knots_of s) [2; 1]%Z us) /\
  (forall us, inside_spans (knots_of s) [2; 1]%Z us -> evaluate s us [0%Z] = Ok [poly [(1, [2; 1]%nat)] us]) /\
  used_there (degs_of s) [2; 1]%Z [2; 1]%Z /\ coordinate s [2; 1]%Z 0 = 2.
Proof. exact ex_converse. Qed.

(* Linear precision: control points at the means of these knots, mapped by an affine map, give the affine map. *)
Theorem C79_linear_precision : forall (dz : R -> R) (s : spline (Rops dz)) (A : Z -> nat -> R) (b : Z -> R),
  well_formed s -> is_bspline s -> Forall (fun p => 1 <= p)%Z (degs_of s) ->
  (forall idx c, in_box (npts_of s) idx -> (0 <= c < ph_dim (sp_ph s))%Z ->
     coordinate s idx c = b c + lsum (fun d => A c d * greville (nth d (knots_of s) []) (nth d (degs_of s) 0%Z) (nth d idx 0%Z)) (seq 0 (length (degs_of s)))) ->
  forall us dims, in_domain s us -> valid_dims s dims ->
  evaluate s us dims = Ok (map (fun c => b c + lsum (fun d => A c d * nth d us 0) (seq 0 (length (degs_of s)))) dims).
Proof. exact linear_precision. Qed.
Print Assumptions C79_linear_precision.

Example C79_linear_precision_example : exists s : spline (Rops (fun x => x)), well_formed s /\ is_bspline s /\ Forall (fun p => 1 <= p)%Z (degs_of s) /\
  knots_of s = [[0; 0; 0; 1; 2; 2; 2]; [0; 0; 1; 1]] /\ degs_of s = [2; 1]%Z /\ ph_dim (sp_ph s) = 2%Z /\
  (forall idx c, in_box (npts_of s) idx -> (0 <= c < 2)%Z ->
     coordinate s idx c = (if (c =? 0)%Z then 0 else 3) +
       lsum (fun d => (if (c =? 0)%Z then nth d [1; 0] 0 else nth d [-1; 2] 0) *
                      greville (nth d (knots_of s) []) (nth d (degs_of s) 0%Z) (nth d idx 0%Z)) (seq 0 (length (degs_of s)))) /\
  in_domain s [3/2; 1/2] /\ valid_dims s [0; 1]%Z.
Proof. exact ex_linear. Qed.

(* With weights the quotients of polynomials. *)
Theorem C79_rational : forall (dz : R -> R) (s : spline (Rops dz)) (wterms : list (R * list nat)) (terms : Z -> list (R * list nat)), well_formed s ->
  of_degrees (degs_of s) wterms ->
  (forall idx, in_box (npts_of s) idx -> weight s idx = dual_poly (knots_of s) (degs_of s) wterms idx) ->
  (forall c, (0 <= c < ph_dim (sp_ph s))%Z -> of_degrees (degs_of s) (terms c) /\
     forall idx, in_box (npts_of s) idx -> weight s idx * coordinate s idx c = dual_poly (knots_of s) (degs_of s) (terms c) idx) ->
  forall us dims, in_domain s us -> valid_dims s dims -> poly wterms us <> 0 ->
  evaluate s us dims = Ok (map (fun c => poly (terms c) us / poly wterms us) dims).
Proof. exact rational_spline. Qed.
Print Assumptions C79_rational.

(* in particular the quarter of the unit circle *)
Theorem C79_quarter_circle : forall (dz : R -> R), exists s : spline (Rops dz),
  spline_new (F := Rops dz) [[0; 0; 0; 1; 1; 1]] [2%Z] [[1; 0]; [1; 1]; [0; 1]] (Some [1; 1; 2]) = Ok s /\
  forall u, 0 <= u <= 1 ->
  evaluate s [u] [0; 1]%Z = Ok [(1 - u ^ 2) / (1 + u ^ 2); 2 * u / (1 + u ^ 2)] /\
  ((1 - u ^ 2) / (1 + u ^ 2)) ^ 2 + (2 * u / (1 + u ^ 2)) ^ 2 = 1.
Proof. exact quarter_circle. Qed.
Print Assumptions C79_quarter_circle.
