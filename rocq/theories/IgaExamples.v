(* Concrete cases for C36: a surface whose first knot vector has a double interior knot. *)
From Coq Require Import ZArith List Bool Reals Lra Lia Floats.
From Verif Require Import Base BaseFacts MultiIndex MultiIndexSpec KnotVecSpec BasisSpec Spaces SpacesSpec SplineEval SplineSpec
  SplineNew KnotVecThms BasisThms SpacesFacts EvalFacts IgaSpec Iga IgaFacts IgaThms.
Import ListNotations.
Open Scope Z_scope.

Definition ex_double : list (list R) := [[0; 0; 0; 1; 1; 2; 2; 2]; [0; 0; 1; 1]]%R.
Definition ex_double_points : list (list R) := repeat [0]%R 10.
Lemma ex_double_good : Forall2 good_direction ex_double [2; 1].
Proof.
  constructor; [|constructor; [|constructor]].
  - split; [lia|]. split; [split; [cbn; lia|]; intros [|[|[|j]]] Hj; try lia; cbn; auto|].
    split; [nondec|]. split; [sepsolve | cbn; lra].
  - split; [lia|]. split; [split; [cbn; lia|]; intros [|[|j]] Hj; try lia; cbn; auto|].
    split; [nondec|]. split; [sepsolve | cbn; lra].
Qed.

Lemma ex_connectivity : forall dz, exists s : spline (Rops dz),
  spline_new (F := Rops dz) ex_double [2; 1] ex_double_points None = Ok s /\ well_formed s /\
  exists lists, element_lists s = Ok lists /\ lists = [[(0, 1); (1, 2)]; [(0, 1)]]%R /\
  in_box (map zlen lists) [1; 0] /\ strictly_inside lists [1; 0] [3/2; 1/2]%R.
Proof.
  intros dz. destruct (spline_new_ok dz ex_double [2; 1] ex_double_points None 1 ex_double_good) as (E & Hwf); try reflexivity; try lia.
  { repeat constructor. }
  { intros w Hw. discriminate Hw. }
  eexists. split; [exact E|]. split; [exact Hwf|]. eexists. split; [now apply element_lists_ok|].
  assert (D : dlists ex_double [2; 1] = [[(0, 1); (1, 2)]; [(0, 1)]]%R).
  { cbn [dlists map2 ex_double].
    change (inner [0; 0; 0; 1; 1; 2; 2; 2]%R 2) with [0; 1; 1; 2]%R. change (inner [0; 0; 1; 1]%R 1) with [0; 1]%R.
    cbn [pairs]. repeat (destruct (Req_EM_T _ _); try lra). reflexivity. }
  change (knots_of _) with ex_double. change (degs_of _) with [2; 1]. rewrite D. split; auto. split.
  - repeat constructor; cbn; lia.
  - cbv [strictly_inside]. change (Z.to_nat 1) with 1%nat. change (Z.to_nat 0) with 0%nat. cbn [nth fst snd]. repeat split; lra.
Qed.

(* the same surface in doubles: the control points of element 1 *)
Lemma ex_table_run : match spline_new (F := Fops) [[0; 0; 0; 1; 1; 2; 2; 2]; [0; 0; 1; 1]]%float [2; 1] (repeat [0]%float 10) None with
  | Ok s => match mapM (global_index s 0) (zseq 0 6), mapM (global_index s 1) (zseq 0 6) with
            | Ok a, Ok b => forallb (fun x => fst x =? snd x) (combine (a ++ b) [1; 2; 3; 6; 7; 8; 3; 4; 5; 8; 9; 10]) && (zlen (a ++ b) =? 12)
            | _, _ => false end
  | _ => false end = true.
Proof. vm_compute. reflexivity. Qed.
