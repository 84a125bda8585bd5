(* A concrete case for C90: the line of C56, a patch of degree two with one inner control point. *)
From Coq Require Import ZArith List Bool Reals Lra Lia.
From Verif Require Import Base BaseFacts RSum MultiIndex MultiIndexSpec MultiIndexFacts KnotVecSpec BasisSpec Spaces SpacesSpec SplineEval SplineSpec
  SplineNew KnotVecThms BasisThms SpacesFacts EvalFacts EvalThms RationalDeriv Gauss IgaBasisThms IgaSpec Iga IgaFacts IgaThms IgaSystem IgaSystemSpec
  IgaAssembly IgaStiffness IgaSystemThms IgaBoundaryFacts IgaSolveExamples UniqueSpec SolvableSpec SolvableThms SolvableExamples GalerkinSpec.
Import ListNotations.
Open Scope R_scope.

Lemma closed_bernstein u : (0 <= u <= 1)%R -> cox_de_boor [0; 0; 0; 1; 1; 1]%R 2 0 u = ((1 - u) * (1 - u))%R /\
  cox_de_boor [0; 0; 0; 1; 1; 1]%R 2 1 u = (2 * u * (1 - u))%R /\ cox_de_boor [0; 0; 0; 1; 1; 1]%R 2 2 u = (u * u)%R.
Proof.
  intros H. cbn [cox_de_boor].
  assert (P0 : ~ in_piece [0; 0; 0; 1; 1; 1]%R 0 u) by (unfold in_piece, knot, final_knot; cbn; lra).
  assert (P1 : ~ in_piece [0; 0; 0; 1; 1; 1]%R 1 u) by (unfold in_piece, knot, final_knot; cbn; lra).
  assert (P2 : in_piece [0; 0; 0; 1; 1; 1]%R 2 u) by (unfold in_piece, knot, final_knot; cbn; lra).
  assert (P3 : ~ in_piece [0; 0; 0; 1; 1; 1]%R 3 u) by (unfold in_piece, knot, final_knot; cbn; lra).
  assert (P4 : ~ in_piece [0; 0; 0; 1; 1; 1]%R 4 u) by (unfold in_piece, knot, final_knot; cbn; lra).
  cbn [Nat.add]. destruct (in_piece_dec _ 0 u) as [|_]; [contradiction|]. destruct (in_piece_dec _ 1 u) as [|_]; [contradiction|].
  destruct (in_piece_dec _ 2 u) as [_|]; [|contradiction]. destruct (in_piece_dec _ 3 u) as [|_]; [contradiction|].
  destruct (in_piece_dec _ 4 u) as [|_]; [contradiction|].
  unfold quotient, knot. cbn [nth]. repeat (destruct (Req_EM_T _ _); try lra). all: repeat split; field.
Qed.
Lemma rline_closed dz u : (0 <= u <= 1)%R -> geometry (dz := dz) rline [u] 0 = u.
Proof.
  intros Hu. destruct (closed_bernstein u Hu) as (A0 & A1 & A2). set (h := cox_de_boor [0; 0; 0; 1; 1; 1]%R 2) in *. unfold geometry.
  assert (W : weight_function (dz := dz) rline [u] = (h 0%nat u * 1 * 1 + (h 1%nat u * 1 * 1 + (h 2%nat u * 1 * 1 + 0)))%R) by reflexivity.
  assert (S0 : weighted_sum (dz := dz) rline [u] 0 =
    (h 0%nat u * 1 * (1 * 0) + (h 1%nat u * 1 * (1 * (1/2)) + (h 2%nat u * 1 * (1 * 1) + 0)))%R) by reflexivity.
  rewrite W, S0, A0, A1, A2. field. lra.
Qed.

Lemma ex_patch : forall dz, exists (s : spline (Rops dz)) rl,
  spline_new (F := Rops dz) line_knots [2%Z] [[0]; [1/2]; [1]] None = Ok s /\ gauss_rule (F := Rops dz) 3 = Some rl /\
  well_formed s /\ unit_weights s /\ degs_of s <> [] /\ (Z.of_nat (length (degs_of s)) <= total (local_sizes (degs_of s)))%Z /\
  Forall (fun p => p < 3)%Z (degs_of s) /\ affine_map s (fun _ _ => 1) (fun _ => 0) /\ scales rdet1 (length (degs_of s)) /\
  (Z.of_nat (length (degs_of s)) <= ph_dim (sp_ph s))%Z /\
  inverts rinv1 (length (degs_of s)) (table (length (degs_of s)) (fun _ _ => 1)) /\
  (forall i j, (i < length (degs_of s))%nat -> (j < length (degs_of s))%nat ->
     lsum (fun _ => 1 * 1) (seq 0 (length (degs_of s))) = if Nat.eqb i j then 1 else 0) /\
  Forall2 linked_direction (knots_of s) (degs_of s) /\ nondegenerate rdet1 s /\
  in_box (npts_of s) [1%Z] /\ ~ at_boundary (npts_of s) [1%Z] /\ correct_solver (total (npts_of s)) cramer3.
Proof.
  intros dz. destruct (ex_solvable dz) as (s & rl & E & Er & Hwf & Hunit & _ & Hlink & _ & _ & Hne & Hs & Hnd & _ & Hcs & Hb & Hnb).
  destruct (rline_ok dz) as (E' & _). rewrite E' in E. injection E as <-.
  exists rline, rl. split; [exact E'|]. split; [exact Er|]. split; [exact Hwf|]. split; [exact Hunit|]. split; [exact Hne|]. split; [exact Hs|].
  split; [repeat constructor|]. split.
  { intros us c Hus Hc. change (ph_dim (sp_ph rline)) with 1%Z in Hc. assert (c = 0%Z) by lia. subst c.
    inversion Hus as [|kv1 u ks1 us1 Hu Hus1]; subst. inversion Hus1; subst. cbn in Hu.
    rewrite (rline_closed dz) by lra. cbn. ring. }
  split; [intros h G; cbn; ring|]. split; [apply Z.leb_le; reflexivity|]. split.
  { exists [[1]]. change (length (degs_of rline)) with 1%nat. split.
    - cbn [table seq map rinv1]. destruct (Req_EM_T 1 0) as [C|_]; [lra|]. now rewrite Rinv_1.
    - split; [reflexivity|]. split; [repeat constructor|]. intros k d Hk Hd. assert (k = 0%nat) by lia. assert (d = 0%nat) by lia. subst. cbn. ring. }
  split; [|split; [exact Hlink | split; [exact Hnd | split; [exact Hb | split; [exact Hnb | exact Hcs]]]]].
  change (length (degs_of rline)) with 1%nat. intros i j Hi Hj. assert (i = 0%nat) by lia. assert (j = 0%nat) by lia. subst. cbn. ring.
Qed.
