(* Vocabulary for IRIT files of any origin: objects CURVE, SURFACE and TRIVAR of type BSPLINE. *)
From Coq Require Import ZArith Ascii String List Bool Reals.
From Verif Require Import Base MultiIndex KnotVecSpec StrSpec StrOps Format Spaces SpacesSpec SplineEval SplineSpec XmlReadSpec IgesReadSpec.
Import ListNotations.
Open Scope Z_scope.

(* so many coordinates for each control point *)
Definition points_of (dim : Z) (rows : list (list numeral)) (ws : option (list numeral)) (degs : list Z) (knots : list (list numeral)) : source :=
  mkSource (repeat [] (Z.to_nat dim)) dim rows ws degs knots.

(* a closing bracket behind the last word *)
Fixpoint bracket_after (ws : list (list ascii)) : list (list ascii) :=
  match ws with
  | [] => []
  | [w] => [w ++ of_string "]"]
  | w :: r => w :: bracket_after r
  end.
(* an opening bracket before the first word as well *)
Definition brackets (ws : list (list ascii)) : list (list ascii) :=
  match bracket_after ws with [] => [] | w :: r => (of_string "[" ++ w) :: r end.

(* the name of the object with so many directions *)
Definition kind_of (directions : Z) (word : list ascii) : Prop :=
  directions = 1 /\ word = of_string "[CURVE" \/ directions = 2 /\ word = of_string "[SURFACE" \/ directions = 3 /\ word = of_string "[TRIVAR".
(* E for points, P for points in homogeneous coordinates, with the number of coordinates *)
Definition point_type (x : source) : list ascii :=
  (match so_weights x with None => of_string "E" | Some _ => of_string "P" end) ++ int_str (so_dim x).
(* the numbers of the control points, with the weight in front of them if there is one *)
Definition tuples (x : source) : list (list numeral) :=
  match so_weights x with None => so_rows x | Some ws => map2 cons ws (so_rows x) end.
Definition sizes_of (x : source) : list Z := map2 (fun kv p => zlen kv - p - 1) (so_knots x) (so_degs x).

(* the words of an object *)
Definition object_words (x : source) (words : list (list ascii)) : Prop :=
  exists kind sizes orders,
    words = [kind; of_string "BSPLINE"] ++ map show_numeral sizes ++ map show_numeral orders ++ [point_type x] ++
            flat_map (fun kv => of_string "[KV" :: bracket_after (map show_numeral kv)) (so_knots x) ++
            flat_map (fun t => brackets (map show_numeral t)) (tuples x) /\
    kind_of (zlen (so_degs x)) kind /\ Forall good_numeral sizes /\ Forall good_numeral orders /\
    Forall2 integer sizes (sizes_of x) /\ Forall2 integer orders (map (fun p => p + 1) (so_degs x)).
(* a weight of 0 has no point *)
Definition divisible (x : source) : Prop := forall ws, so_weights x = Some ws -> Forall (fun n => numeral_value n <> 0%R) ws.

(* a part of the file: a spline, or something else *)
Definition says_words (words : list (list ascii)) (x : option source) : Prop :=
  match x with
  | None => ~ In (of_string "BSPLINE") words \/
            exists t, words = [t; of_string "BSPLINE"] /\ (forall d, ~ kind_of d t) /\ t <> of_string "BSPLINE"
  | Some x => describes x 0 /\ (exists dim rows ws degs knots, x = points_of dim rows ws degs knots) /\ divisible x /\ object_words x words
  end.
(* the words of the lines, which are put together without anything between them *)
Definition words_of_file (text : list ascii) (words : list (list ascii)) : Prop :=
  exists ls, text_of_lines text ls /\ text_of_words (concat ls) words.

Section Spec.
Context {dz : R -> R}.
(* the spline that x describes: the coordinates are those written divided by the weight *)
Record described_homogeneous (x : source) (s : spline (Rops dz)) : Prop := {
  dh_wf : well_formed s;
  dh_degs : degs_of s = so_degs x;
  dh_knots : knots_of s = map (map numeral_value) (so_knots x);
  dh_dim : ph_dim (sp_ph s) = so_dim x;
  dh_weights : ph_wts (sp_ph s) = option_map (map numeral_value) (so_weights x);
  dh_points : forall idx c, In idx (all_indices (npts_of s)) -> 0 <= c < so_dim x -> forall n0,
    coordinate s idx c = (numeral_value (nth (Z.to_nat c) (nth (Z.to_nat (position (npts_of s) idx)) (so_rows x) []) n0) / weight s idx)%R }.
End Spec.
