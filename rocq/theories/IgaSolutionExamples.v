(* A concrete case for C58: a line with unequal weights. *)
From Coq Require Import ZArith List Bool Reals Lra Lia.
From Verif Require Import Base BaseFacts RSum MultiIndex MultiIndexSpec MultiIndexFacts KnotVecSpec BasisSpec Spaces SpacesSpec SplineEval SplineSpec
  SplineNew KnotVecThms BasisThms VtkSpec IgaSystem IgaSystemSpec.
Import ListNotations.
Open Scope Z_scope.

Lemma ex_solution : forall dz, exists s : spline (Rops dz),
  spline_new (F := Rops dz) [[0; 0; 1; 1]]%R [1] [[0; 1]; [2; 3]]%R (Some [1; 2]%R) = Ok s /\ well_formed s /\ ph_wts (sp_ph s) = Some [1; 2]%R /\
  Forall (fun x => 0 < x)%R [1; 2]%R /\ total (npts_of s) < 2 ^ 64 /\ total (npts_of s) <= zlen [5; 7]%R /\
  length [4] = length (degs_of s) /\ Forall (fun n => 1 <= n) [4] /\ (1 <= length (degs_of s) <= 3)%nat /\
  in_box (samples [4]) [2] /\ ph_dim (sp_ph s) = 2.
Proof.
  intros dz.
  assert (G : Forall2 good_direction [[0; 0; 1; 1]]%R [1]).
  { constructor; [|constructor]. split; [lia|]. split; [split; [cbn; lia|]; intros [|[|j]] Hj; try lia; cbn; auto|].
    split; [nondec|]. split; [sepsolve | cbn; lra]. }
  destruct (spline_new_ok dz [[0; 0; 1; 1]]%R [1] [[0; 1]; [2; 3]]%R (Some [1; 2]%R) 2 G) as (E & Hwf); try reflexivity; try lia.
  - repeat constructor.
  - intros w Ew. injection Ew as <-. reflexivity.
  - eexists. split; [exact E|]. split; [exact Hwf|]. split; [reflexivity|]. split; [repeat constructor; lra|].
    split; [vm_compute; reflexivity|]. split; [vm_compute; discriminate|]. split; [reflexivity|]. split; [repeat constructor; lia|].
    split; [cbn; lia|]. split; [repeat constructor; lia|reflexivity].
Qed.
