(* Vocabulary for statements about VTK files. *)
From Coq Require Import ZArith List Reals.
From Verif Require Import Base KnotVecSpec Spaces SplineEval SplineSpec Convert Vtk.
Import ListNotations.
Open Scope Z_scope.

(* all multi-indices below the given lengths, the first entry running fastest *)
Fixpoint grid (lens : list Z) : list (list Z) :=
  match lens with
  | [] => [[]]
  | l :: ls => flat_map (fun js => map (fun i => i :: js) (zseq 0 (Z.to_nat l))) (grid ls)
  end.

(* sample points per direction: one more than cells *)
Definition samples (sc : list Z) : list Z := map (fun n => n + 1) sc.
(* number of grid points / cells *)
Definition size (lens : list Z) : Z := fold_right Z.mul 1 lens.

(* the corners of the unit line, square and cube in the order of VTK_LINE, VTK_QUAD, VTK_HEXAHEDRON *)
Definition corners (d : nat) : list (list Z) :=
  match d with
  | 1%nat => [[0]; [1]]
  | 2%nat => [[0; 0]; [1; 0]; [1; 1]; [0; 1]]
  | 3%nat => [[0; 0; 0]; [1; 0; 0]; [1; 1; 0]; [0; 1; 0]; [0; 0; 1]; [1; 0; 1]; [1; 1; 1]; [0; 1; 1]]
  | _ => []
  end.
Definition vtk_type (d : nat) : Z := match d with 1%nat => 3 | 2%nat => 9 | _ => 12 end.

(* the line of the cell whose lowest corner is sample point c, when the points start at number off *)
Definition cell (sc : list Z) (off : Z) (c : list Z) : list Z :=
  let vs := corners (length sc) in
  zlen vs :: map (fun e => off + position (samples sc) (map2 Z.add c e)) vs.

(* the cell lines of all splines, the points starting at number off *)
Fixpoint all_cells (off : Z) (scattering : list (list Z)) : list (list Z) :=
  match scattering with
  | [] => []
  | sc :: rest => map (cell sc off) (grid sc) ++ all_cells (off + size (samples sc)) rest
  end.

(* total length of the lines *)
Definition entries (lines : list (list Z)) : Z := fold_right (fun l n => zlen l + n) 0 lines.

Section Points.
Context {dz : R -> R}.
(* the parameters of sample point idx *)
Fixpoint parameters (knots : list (list R)) (sc idx : list Z) : list R :=
  match knots, sc, idx with
  | kv :: knots', n :: sc', i :: idx' =>
      (first_knot kv + IZR i * ((final_knot kv - first_knot kv) / IZR n))%R :: parameters knots' sc' idx'
  | _, _, _ => []
  end.
(* three coordinates of the spline there, 0 for those it does not have *)
Definition row (s : spline (Rops dz)) (sc idx : list Z) : list R :=
  map (fun k => if k <? ph_dim (sp_ph s)
                then let us := parameters (knots_of s) sc idx in (weighted_sum s us k / weight_function s us)%R
                else 0%R) [0; 1; 2].

(* an object, the spline in it and the numbers of cells asked for: at least one cell per direction,
   one to three directions *)
Record job := mkJob { object : any (spline (Rops dz)); content : spline (Rops dz); divisions : list Z }.
Record good_job (j : job) : Prop := {
  gj_typed : object j = AnyB (zlen (degs_of (content j))) (content j) /\ is_bspline (content j) \/
             object j = AnyN (zlen (degs_of (content j))) (content j) /\ positive_weights (content j);
  gj_wf : well_formed (content j);
  gj_dims : (1 <= length (degs_of (content j)) <= 3)%nat;
  gj_divisions : length (divisions j) = length (degs_of (content j)) /\ Forall (fun n => 1 <= n) (divisions j)
}.
(* the point lines of one spline *)
Definition rows_of (j : job) : list (list R) := map (row (content j) (divisions j)) (grid (samples (divisions j))).
End Points.
