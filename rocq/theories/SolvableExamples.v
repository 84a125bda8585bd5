(* A concrete case for C82: the line of C56 with the rule of three points and Cramer's rule as solver. *)
From Coq Require Import ZArith List Bool Reals Lra Lia.
From Verif Require Import Base BaseFacts RSum MultiIndex MultiIndexSpec MultiIndexFacts KnotVecSpec BasisSpec Spaces SpacesSpec SplineEval SplineSpec
  SplineNew KnotVecThms BasisThms SpacesFacts EvalFacts EvalThms RationalDeriv Gauss IgaBasisThms IgaSpec Iga IgaFacts IgaThms IgaSystem IgaSystemSpec
  IgaAssembly IgaStiffness IgaSystemThms IgaBoundaryFacts IgaSolveExamples UniqueSpec SolvableSpec SolvableThms.
Import ListNotations.
Open Scope R_scope.

Definition rdet1 (m : list (list R)) : R := match m with [[a]] => a | _ => 0 end.
Definition det3 (m : list (list R)) : R :=
  entry m 0 0 * (entry m 1 1 * entry m 2 2 - entry m 1 2 * entry m 2 1) - entry m 0 1 * (entry m 1 0 * entry m 2 2 - entry m 1 2 * entry m 2 0) +
  entry m 0 2 * (entry m 1 0 * entry m 2 1 - entry m 1 1 * entry m 2 0).
Definition cramer3 (m : list (list R)) (b : list R) : Res (list R) :=
  let d := det3 m in
  if Req_EM_T d 0 then Throw RuntimeError else
  Ok [(component b 0 * (entry m 1 1 * entry m 2 2 - entry m 1 2 * entry m 2 1) - entry m 0 1 * (component b 1 * entry m 2 2 - entry m 1 2 * component b 2) + entry m 0 2 * (component b 1 * entry m 2 1 - entry m 1 1 * component b 2)) / d;
      (entry m 0 0 * (component b 1 * entry m 2 2 - entry m 1 2 * component b 2) - component b 0 * (entry m 1 0 * entry m 2 2 - entry m 1 2 * entry m 2 0) + entry m 0 2 * (entry m 1 0 * component b 2 - component b 1 * entry m 2 0)) / d;
      (entry m 0 0 * (entry m 1 1 * component b 2 - component b 1 * entry m 2 1) - entry m 0 1 * (entry m 1 0 * component b 2 - component b 1 * entry m 2 0) + component b 0 * (entry m 1 0 * entry m 2 1 - entry m 1 1 * entry m 2 0)) / d].

Lemma cramer3_correct : correct_solver 3 cramer3.
Proof.
  intros m b x _ Hb (Lx & Hx) Hu. change (zseq 0 (Z.to_nat 3)) with [0; 1; 2]%Z in *.
  destruct x as [|x0 [|x1 [|x2 [|]]]]; cbn [length] in Lx; try lia.
  assert (Sol : forall y0 y1 y2, solves 3 m b [y0; y1; y2] <-> forall i, (0 <= i < 3)%Z -> entry m i 0 * y0 + entry m i 1 * y1 + entry m i 2 * y2 = component b i).
  { intros. split.
    - intros (_ & H) i Hi. rewrite <- (H i Hi). change (zseq 0 (Z.to_nat 3)) with [0; 1; 2]%Z. unfold lsum, component. change (Z.to_nat 0) with 0%nat. change (Z.to_nat 1) with 1%nat. change (Z.to_nat 2) with 2%nat. cbn [nth fold_right]. ring.
    - intros H. split; [reflexivity|]. intros i Hi. rewrite <- (H i Hi). change (zseq 0 (Z.to_nat 3)) with [0; 1; 2]%Z. unfold lsum, component. change (Z.to_nat 0) with 0%nat. change (Z.to_nat 1) with 1%nat. change (Z.to_nat 2) with 2%nat. cbn [nth fold_right]. ring. }
  assert (E : forall i, (0 <= i < 3)%Z -> entry m i 0 * x0 + entry m i 1 * x1 + entry m i 2 * x2 = component b i) by (apply Sol; split; assumption).
  assert (Ker : forall v0 v1 v2, (forall i, (0 <= i < 3)%Z -> entry m i 0 * v0 + entry m i 1 * v1 + entry m i 2 * v2 = 0) -> v0 = 0 /\ v1 = 0 /\ v2 = 0).
  { intros v0 v1 v2 H. assert (S : solves 3 m b [x0 + v0; x1 + v1; x2 + v2]).
    { apply Sol. intros i Hi. specialize (E i Hi). specialize (H i Hi). lra. }
    apply Hu in S. injection S as E0 E1 E2. lra. }
  assert (Rows : forall P : Z -> Prop, P 0%Z -> P 1%Z -> P 2%Z -> forall i, (0 <= i < 3)%Z -> P i).
  { intros P P0 P1 P2 i Hi. assert (C : (i = 0 \/ i = 1 \/ i = 2)%Z) by lia. destruct C as [->|[->| ->]]; assumption. }
  pose proof (E 0%Z ltac:(lia)) as E0. pose proof (E 1%Z ltac:(lia)) as E1. pose proof (E 2%Z ltac:(lia)) as E2.
  unfold cramer3. destruct (Req_EM_T (det3 m) 0) as [D|D].
  - exfalso. unfold det3 in D.
    destruct (Ker (entry m 1 1 * entry m 2 2 - entry m 1 2 * entry m 2 1) (entry m 1 2 * entry m 2 0 - entry m 1 0 * entry m 2 2) (entry m 1 0 * entry m 2 1 - entry m 1 1 * entry m 2 0)) as (A1 & A2 & A3); [apply Rows; lra|].
    destruct (Ker (entry m 0 2 * entry m 2 1 - entry m 0 1 * entry m 2 2) (entry m 0 0 * entry m 2 2 - entry m 0 2 * entry m 2 0) (entry m 0 1 * entry m 2 0 - entry m 0 0 * entry m 2 1)) as (A4 & A5 & A6); [apply Rows; lra|].
    destruct (Ker (entry m 0 1 * entry m 1 2 - entry m 0 2 * entry m 1 1) (entry m 0 2 * entry m 1 0 - entry m 0 0 * entry m 1 2) (entry m 0 0 * entry m 1 1 - entry m 0 1 * entry m 1 0)) as (A7 & A8 & A9); [apply Rows; lra|].
    assert (Z : forall r, (0 <= r < 3)%Z -> entry m r 0 = 0 /\ entry m r 1 = 0 /\ entry m r 2 = 0).
    { apply Rows.
      - destruct (Ker (- entry m 0 1) (entry m 0 0) 0) as (B1 & B2 & _); [apply Rows; lra|]. destruct (Ker (- entry m 0 2) 0 (entry m 0 0)) as (B3 & _); [apply Rows; lra|]. lra.
      - destruct (Ker (- entry m 1 1) (entry m 1 0) 0) as (B1 & B2 & _); [apply Rows; lra|]. destruct (Ker (- entry m 1 2) 0 (entry m 1 0)) as (B3 & _); [apply Rows; lra|]. lra.
      - destruct (Ker (- entry m 2 1) (entry m 2 0) 0) as (B1 & B2 & _); [apply Rows; lra|]. destruct (Ker (- entry m 2 2) 0 (entry m 2 0)) as (B3 & _); [apply Rows; lra|]. lra. }
    destruct (Ker 1 0 0) as (C & _); [|lra]. intros i Hi. destruct (Z i Hi) as (-> & -> & ->). ring.
  - f_equal. rewrite <- E0, <- E1, <- E2. unfold det3 in *. f_equal; [field; exact D | f_equal; [field; exact D | f_equal; field; exact D]].
Qed.

Lemma ex_solvable : forall dz, exists (s : spline (Rops dz)) rl,
  spline_new (F := Rops dz) line_knots [2%Z] [[0]; [1/2]; [1]] None = Ok s /\ gauss_rule (F := Rops dz) 3 = Some rl /\
  well_formed s /\ unit_weights s /\ is_bspline s /\ Forall2 linked_direction (knots_of s) (degs_of s) /\ Forall2 full_support (knots_of s) (degs_of s) /\
  dense_rule rl (degs_of s) /\ degs_of s <> [] /\ (Z.of_nat (length (degs_of s)) <= total (local_sizes (degs_of s)))%Z /\
  nondegenerate rdet1 s /\ invertible rinv1 s /\ correct_solver (total (npts_of s)) cramer3 /\
  in_box (npts_of s) [1%Z] /\ ~ at_boundary (npts_of s) [1%Z].
Proof.
  intros dz. destruct (ex_line dz) as (s & E & Hwf & Hunit & Hne & Hs & _ & Hinv & _ & Hb & Hnb).
  destruct (rline_ok dz) as (E' & _). rewrite E' in E. injection E as <-.
  assert (L : Forall2 linked_direction line_knots [2%Z]).
  { constructor; [|constructor]. intros i H1 H2. cbn in H2. assert (C : i = 1%nat \/ i = 2%nat) by lia. change (Z.to_nat 2) with 2%nat. destruct C as [->| ->]; cbn; lra. }
  eexists rline, _. split; [exact E'|]. split; [reflexivity|]. split; [exact Hwf|]. split; [exact Hunit|]. split; [reflexivity|]. split; [exact L|].
  split; [apply linked_full_all; [exact line_good | exact L]|]. split; [apply (gauss_dense (dz := dz) 3); [reflexivity | repeat constructor]|].
  split; [exact Hne|]. split; [exact Hs|]. split; [|split; [exact Hinv | split; [exact cramer3_correct | split; [exact Hb | exact (proj1 Hnb)]]]].
  intros lists es us El He Hin. destruct (jacobian_curve (dz := dz) rdet1 rline (fun a => eq_refl) Hwf (unit_regular rline Hwf Hunit) eq_refl) as (l & El' & HJ).
  rewrite rline_lists in El, El'. injection El as <-. injection El' as <-.
  inversion He as [|? e0 ? es0 H0 He0]; subst. inversion He0; subst. assert (e0 = 0%Z) by (cbn in H0; lia). subst e0.
  destruct us as [|u [|w us]]; cbn [strictly_inside] in Hin; try tauto. change (Z.to_nat 0) with 0%nat in Hin. cbn [nth fst snd] in Hin.
  destruct (HJ 0%Z u ltac:(cbn; lia)) as (D & HD & Ej); [change (Z.to_nat 0) with 0%nat; cbn [nth fst snd]; tauto|].
  eexists. split; [exact Ej|]. change (Z.to_nat 0) with 0%nat. cbn [nth fst snd].
  assert (D0 : D 0%Z = 1).
  { assert (Pu : 0 < Rmin u (1 - u)) by (apply Rmin_pos; lra). eapply uniqueness_limite; [apply HD; cbn; lia|].
    eapply (derivable_near (fun x => x) _ _ _ (mkposreal _ Pu)); [|apply derivable_pt_lim_id].
    intros x Hx. symmetry. apply (rline_geometry dz). pose proof (Rmin_l u (1 - u)). pose proof (Rmin_r u (1 - u)). apply Rabs_def2 in Hx. cbn in Hx. lra. }
  change (lsum (fun c => D c * D c) (zseq 0 (Z.to_nat (ph_dim (sp_ph (rline (dz := dz))))))) with (D 0%Z * D 0%Z + 0).
  rewrite D0. replace (1 * 1 + 0) with 1 by ring. rewrite sqrt_1. lra.
Qed.
