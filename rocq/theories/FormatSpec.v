(* Vocabulary for statements about writing splines to files and reading them back. *)
From Coq Require Import ZArith Ascii List Reals.
From Verif Require Import Base MultiIndex StrSpec Format Spaces SpacesSpec SplineEval SplineSpec Convert.
Import ListNotations.
Open Scope Z_scope.

(* dropping the fraction *)
Definition toward_zero (x : R) : Z := if Rle_dec 0 x then Int_part x else - Int_part (- x).

(* fmt writes x as a numeral that can be read back, with an error of at most tol *)
Definition prints (fmt : R -> list ascii) (tol x : R) : Prop :=
  exists n, fmt x = show_numeral n /\ numeral_ok n /\ readable n /\ (Rabs (numeral_value n - x) <= tol)%R.

(* the nearest number with six decimals, as std::to_string(double) prints it *)
Definition micro (x : R) : Z := Int_part (Rabs x * 1000000 + 1 / 2).
Definition fixed6 (x : R) : list ascii :=
  let n := micro x in
  (if Rlt_dec x 0 then ["-"%char] else []) ++ int_str (n / 1000000) ++
  "."%char :: show (map (fun k => (n / 10 ^ k) mod 10) [5; 4; 3; 2; 1; 0]).

(* what is read for a number is at most tol away, and the number itself if it is printed exactly *)
Definition comes_back (fmt : R -> list ascii) (tol a b : R) : Prop := (Rabs (b - a) <= tol)%R /\ (prints fmt 0 a -> b = a).
Definition within (fmt : R -> list ascii) (tol : R) (l l' : list R) : Prop := Forall2 (comes_back fmt tol) l l'.

Section Spec.
Context {dz : R -> R}.
Implicit Types s : spline (Rops dz).

(* the object holding a spline of d directions *)
Definition holds (d : Z) (o : any (spline (Rops dz))) s : Prop :=
  zlen (degs_of s) = d /\
  (o = AnyB d s /\ is_bspline s \/ o = AnyN d s /\ exists w, ph_wts (sp_ph s) = Some w).

(* all counts fit into an int *)
Definition int_sized s : Prop :=
  Forall (fun kv => zlen kv < 2 ^ 31) (knots_of s) /\ total (npts_of s) < 2 ^ 31 /\ ph_dim (sp_ph s) < 2 ^ 31.

(* degrees, numbers of knots and control points, dimension and kind are the same *)
Definition same_shape s s' : Prop :=
  degs_of s' = degs_of s /\ map (@zlen R) (knots_of s') = map (@zlen R) (knots_of s) /\ npts_of s' = npts_of s /\
  ph_dim (sp_ph s') = ph_dim (sp_ph s) /\ (ph_wts (sp_ph s') = None <-> ph_wts (sp_ph s) = None).

(* every number the irit writer prints: knots, weights, weighted coordinates *)
Record irit_prints (fmt : R -> list ascii) (tol : R) s : Prop := {
  ip_knots : Forall (Forall (prints fmt tol)) (knots_of s);
  ip_weights : forall w, ph_wts (sp_ph s) = Some w -> Forall (prints fmt tol) w;
  ip_points : forall idx c, In idx (all_indices (npts_of s)) -> 0 <= c < ph_dim (sp_ph s) ->
    prints fmt tol (coordinate s idx c * weight s idx)
}.

(* what a spline of d directions held by o needs for a round trip through an IRIT file *)
Record irit_ready (fmt : R -> list ascii) (tol : R) (d : Z) (o : any (spline (Rops dz))) s : Prop := {
  ir_holds : holds d o s; ir_wf : well_formed s; ir_dim : 1 <= d <= 3; ir_size : int_sized s; ir_prints : irit_prints fmt tol s }.

(* the error of a control point written with its weight and divided by it afterwards *)
Definition irit_error (tol : R) s (idx : list Z) (c : Z) : R :=
  match ph_wts (sp_ph s) with
  | None => tol
  | Some _ => (tol * (1 + Rabs (coordinate s idx c)) / (weight s idx - tol))%R
  end.
(* a spline with usable directions is well-formed *)
Definition sound s : Prop := Forall2 good_direction (knots_of s) (degs_of s) -> well_formed s.
Record irit_back (fmt : R -> list ascii) (tol : R) s s' : Prop := {
  ib_shape : same_shape s s';
  ib_sound : sound s';
  ib_knots : Forall2 (within fmt tol) (knots_of s) (knots_of s');
  ib_weights : forall idx, In idx (all_indices (npts_of s)) -> comes_back fmt tol (weight s idx) (weight s' idx);
  ib_points : forall idx c, In idx (all_indices (npts_of s)) -> 0 <= c < ph_dim (sp_ph s) ->
    ph_wts (sp_ph s) = None \/ (tol < weight s idx)%R ->
    (Rabs (coordinate s' idx c - coordinate s idx c) <= irit_error tol s idx c)%R;
  (* weights that are printed exactly *)
  ib_exact : forall idx c, In idx (all_indices (npts_of s)) -> 0 <= c < ph_dim (sp_ph s) ->
    ph_wts (sp_ph s) = None \/ prints fmt 0 (weight s idx) /\ (0 < weight s idx)%R ->
    (Rabs (coordinate s' idx c - coordinate s idx c) <= tol / weight s idx)%R
}.

(* every number the other writers print: knots, weights, coordinates *)
Record plain_prints (fmt : R -> list ascii) (tol : R) s : Prop := {
  pp_knots : Forall (Forall (prints fmt tol)) (knots_of s);
  pp_weights : forall w, ph_wts (sp_ph s) = Some w -> Forall (prints fmt tol) w;
  pp_points : forall idx c, In idx (all_indices (npts_of s)) -> 0 <= c < ph_dim (sp_ph s) -> prints fmt tol (coordinate s idx c)
}.
Record xml_ready (fmt : R -> list ascii) (tol : R) (d : Z) (o : any (spline (Rops dz))) s : Prop := {
  xr_holds : holds d o s; xr_wf : well_formed s; xr_dim : 1 <= d <= 4; xr_size : int_sized s; xr_prints : plain_prints fmt tol s }.
(* the numbers of s' are those of s up to tol *)
Record plain_back (fmt : R -> list ascii) (tol : R) s s' : Prop := {
  pb_shape : same_shape s s';
  pb_sound : sound s';
  pb_knots : Forall2 (within fmt tol) (knots_of s) (knots_of s');
  pb_weights : forall idx, In idx (all_indices (npts_of s)) -> comes_back fmt tol (weight s idx) (weight s' idx);
  pb_points : forall idx c, In idx (all_indices (npts_of s)) -> 0 <= c < ph_dim (sp_ph s) ->
    comes_back fmt tol (coordinate s idx c) (coordinate s' idx c)
}.
(* knots and weights are printed exactly *)
Record exact_parts (fmt : R -> list ascii) s : Prop := {
  ep_knots : Forall (Forall (prints fmt 0)) (knots_of s);
  ep_weights : forall w, ph_wts (sp_ph s) = Some w -> Forall (prints fmt 0) w }.
(* the maps of s and s' have the same domain and, in the coordinates both have, values at most tol apart *)
Definition near_map (tol : R) s s' : Prop :=
  well_formed s' /\ degs_of s' = degs_of s /\ knots_of s' = knots_of s /\ ph_wts (sp_ph s') = ph_wts (sp_ph s) /\
  forall us c, in_domain s us -> 0 <= c < ph_dim (sp_ph s) -> c < ph_dim (sp_ph s') ->
    exists a b, evaluate s us [c] = Ok [a] /\ evaluate s' us [c] = Ok [b] /\ (Rabs (b - a) <= tol)%R.
End Spec.

(* texts of numbers fit in a line and contain no line end, as those of an ostream with precision 18 *)
Definition short_text (fmt : R -> list ascii) : Prop :=
  forall x, Forall (fun c => c <> ascii_of_nat 10) (fmt x) /\ Z.of_nat (length (fmt x)) <= 100.

(* the name and the times in the header *)
Definition header_text (t : list ascii) : Prop :=
  Forall (fun c => c <> ascii_of_nat 10) t /\ Z.of_nat (length t) <= 900.

Section Iges.
Context {dz : R -> R}.
Implicit Types s : spline (Rops dz).
(* coordinates of a point in space: those that are missing are 0 *)
Definition padded s (idx : list Z) (c : Z) : R := if c <? ph_dim (sp_ph s) then coordinate s idx c else 0%R.
(* the numbers in the file *)
Definition iges_numbers s : Z := fold_right Z.add 0 (map (@zlen R) (knots_of s)) + 4 * total (npts_of s) + 10.

Record iges_ready (fmt : R -> list ascii) (tol : R) (d : Z) (o : any (spline (Rops dz))) s : Prop := {
  gr_holds : holds d o s; gr_wf : well_formed s; gr_dim : 1 <= d <= 2; gr_size : int_sized s;
  gr_knots : Forall (Forall (prints fmt tol)) (knots_of s);
  gr_weights : forall idx, In idx (all_indices (npts_of s)) -> prints fmt tol (weight s idx);
  gr_points : forall idx c, In idx (all_indices (npts_of s)) -> 0 <= c < 3 -> prints fmt tol (padded s idx c)
}.
(* degrees, numbers of knots and control points and kind are the same, points have three coordinates,
   all numbers are those of s up to tol *)
Record iges_back (fmt : R -> list ascii) (tol : R) s s' : Prop := {
  gb_sound : sound s';
  gb_degs : degs_of s' = degs_of s;
  gb_npts : npts_of s' = npts_of s;
  gb_dim : ph_dim (sp_ph s') = 3;
  gb_kind : ph_wts (sp_ph s') = None <-> ph_wts (sp_ph s) = None;
  gb_knots : Forall2 (within fmt tol) (knots_of s) (knots_of s');
  gb_weights : forall idx, In idx (all_indices (npts_of s)) -> comes_back fmt tol (weight s idx) (weight s' idx);
  gb_points : forall idx c, In idx (all_indices (npts_of s)) -> 0 <= c < 3 ->
    comes_back fmt tol (padded s idx c) (coordinate s' idx c)
}.
End Iges.
