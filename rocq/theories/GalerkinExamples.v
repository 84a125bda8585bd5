(* A concrete case for C80: the rectangle [0,2] x [0,1] as a bilinear patch, with the two-point rule. *)
From Coq Require Import ZArith List Bool Reals Lra Lia.
From Verif Require Import Base BaseFacts RSum MultiIndex MultiIndexSpec MultiIndexFacts KnotVecSpec BasisSpec Spaces SpacesSpec SplineEval SplineSpec
  SplineNew KnotVecThms BasisThms SpacesFacts EvalFacts EvalThms Gauss GaussSpec IgaSpec Iga IgaFacts IgaThms IgaSystem IgaSystemSpec
  IgaAssembly IgaStiffness IgaSystemThms IgaSystemExamples GalerkinSpec.
Import ListNotations.
Open Scope R_scope.

Lemma closed_hats u : 0 <= u <= 1 -> cox_de_boor [0; 0; 1; 1] 1 0 u = 1 - u /\ cox_de_boor [0; 0; 1; 1] 1 1 u = u.
Proof.
  intros H. cbn [cox_de_boor].
  assert (P0 : ~ in_piece [0; 0; 1; 1]%R 0 u) by (unfold in_piece, knot, final_knot; cbn; lra).
  assert (P1 : in_piece [0; 0; 1; 1]%R 1 u) by (unfold in_piece, knot, final_knot; cbn; lra).
  assert (P2 : ~ in_piece [0; 0; 1; 1]%R 2 u) by (unfold in_piece, knot, final_knot; cbn; lra).
  cbn [Nat.add]. destruct (in_piece_dec _ 0 u) as [|_]; [contradiction|]. destruct (in_piece_dec _ 1 u) as [_|]; [|contradiction].
  destruct (in_piece_dec _ 2 u) as [|_]; [contradiction|].
  unfold quotient, knot. cbn [nth]. repeat (destruct (Req_EM_T _ _); try lra). all: split; field.
Qed.

Definition patch_A (c : Z) (d : nat) : R := match c, d with 0%Z, 0%nat => 2 | 1%Z, 1%nat => 1 | _, _ => 0 end.
Definition patch_W (d c : nat) : R := match d, c with 0%nat, 0%nat => 1/2 | 1%nat, 1%nat => 1 | _, _ => 0 end.

Lemma patch_affine dz : affine_map (patch (dz := dz)) patch_A (fun _ => 0).
Proof.
  intros us c Hus Hc. change (ph_dim (sp_ph patch)) with 2%Z in Hc.
  inversion Hus as [|kv1 u ks1 us1 Hu Hus1]; subst. inversion Hus1 as [|kv2 v ks2 us2 Hv Hus2]; subst. inversion Hus2; subst.
  cbn in Hu, Hv.
  destruct (closed_hats u Hu) as (A0 & A1). destruct (closed_hats v Hv) as (B0 & B1).
  set (h := cox_de_boor [0; 0; 1; 1]%R 1) in *. unfold geometry.
  assert (W : weight_function (dz := dz) patch [u; v] =
    (h 0%nat u * (h 0%nat v * 1) * 1 + (h 0%nat u * (h 1%nat v * 1) * 1 + (h 1%nat u * (h 0%nat v * 1) * 1 + (h 1%nat u * (h 1%nat v * 1) * 1 + 0))))%R) by reflexivity.
  assert (S0 : weighted_sum (dz := dz) patch [u; v] 0 =
    (h 0%nat u * (h 0%nat v * 1) * (1 * 0) + (h 0%nat u * (h 1%nat v * 1) * (1 * 0) + (h 1%nat u * (h 0%nat v * 1) * (1 * 2) + (h 1%nat u * (h 1%nat v * 1) * (1 * 2) + 0))))%R) by reflexivity.
  assert (S1 : weighted_sum (dz := dz) patch [u; v] 1 =
    (h 0%nat u * (h 0%nat v * 1) * (1 * 0) + (h 0%nat u * (h 1%nat v * 1) * (1 * 1) + (h 1%nat u * (h 0%nat v * 1) * (1 * 0) + (h 1%nat u * (h 1%nat v * 1) * (1 * 1) + 0))))%R) by reflexivity.
  assert (C : c = 0%Z \/ c = 1%Z) by lia. rewrite W. cbn [length seq lsum nth].
  destruct C as [->| ->]; [rewrite S0 | rewrite S1]; rewrite A0, A1, B0, B1; cbv [lsum fold_right map patch_A]; field; lra.
Qed.

Lemma det2_scales : scales det2 2.
Proof. intros h G. cbn [table seq map fold_right det2]. ring. Qed.

Lemma ex_galerkin : exists (s : spline (Rops (fun x => x))) rl,
  spline_new (F := Rops (fun x => x)) patch_knots [1; 1]%Z patch_points None = Ok s /\ well_formed s /\ regular s /\ unit_weights s /\
  degs_of s = [1; 1]%Z /\ (Z.of_nat (length (degs_of s)) <= total (local_sizes (degs_of s)))%Z /\ ph_dim (sp_ph s) = 2%Z /\
  gauss_rule (F := Rops (fun x => x)) 2 = Some rl /\ Forall (fun p => p < 2)%Z (degs_of s) /\
  affine_map s patch_A (fun _ => 0) /\ scales det2 (length (degs_of s)) /\
  inverts inv2 (length (degs_of s)) (table (length (degs_of s)) (fun i d => patch_A (Z.of_nat i) d)) /\
  (forall i j, (i < length (degs_of s))%nat -> (j < length (degs_of s))%nat ->
     lsum (fun d => patch_A (Z.of_nat i) d * patch_W d j) (seq 0 (length (degs_of s))) = if Nat.eqb i j then 1 else 0) /\
  volume_factor det2 (length (degs_of s)) (ph_dim (sp_ph s)) patch_A = 2 /\
  fold_right Rmult 1 (map (fun kv => final_knot kv - first_knot kv) (knots_of s)) = 1.
Proof.
  destruct (patch_ok (fun x => x)) as (E & Hwf). exists patch. eexists. split; [exact E|]. split; [exact Hwf|].
  assert (Hunit : unit_weights (dz := fun x => x) patch) by (intros idx _; reflexivity).
  split; [exact (unit_regular patch Hwf Hunit)|]. split; [exact Hunit|]. split; [reflexivity|]. split; [vm_compute; discriminate|]. split; [reflexivity|].
  split; [reflexivity|]. split; [repeat constructor|]. split; [apply patch_affine|]. split; [exact det2_scales|].
  change (length (degs_of patch)) with 2%nat. split.
  - cbn [table seq map]. unfold inverts. cbn [inv2]. destruct (Req_EM_T _ 0) as [C|_]; [cbv [patch_A Z.of_nat Pos.of_succ_nat] in C; lra|].
    eexists. split; [reflexivity|]. split; [reflexivity|]. split; [repeat constructor|].
    intros [|[|k]] [|[|d]] Hk Hd; try lia; cbn; field.
  - split.
    + intros [|[|i]] [|[|j]] Hi Hj; try lia; cbn; field.
    + split; [|cbn; unfold final_knot, first_knot; cbn; ring].
      unfold volume_factor. change (ph_dim (sp_ph patch)) with 2%Z. change (zseq 0 (Z.to_nat 2)) with [0; 1]%Z.
      cbn [table seq map det2]. cbv [lsum fold_right map patch_A].
      replace (_ - _) with (2 * 2) by ring. rewrite Rabs_right by lra. apply sqrt_square. lra.
Qed.
