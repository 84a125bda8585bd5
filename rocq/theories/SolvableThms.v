(* Closing lemmas about the solvability of the assembled systems (C82). *)
From Coq Require Import ZArith List Bool Lia Reals Lra Sorted.
From Verif Require Import Base BaseFacts RSum MultiIndex MultiIndexSpec MultiIndexFacts TensorSum
  KnotVec KnotVecSpec KnotVecFacts Basis BasisSpec BSplineTheory BasisFacts
  Spaces SpacesSpec SpacesFacts SplineEval SplineSpec EvalFacts RationalDeriv EvalThms UniqueSpec UniqueFacts
  Gauss GaussSpec GaussThms IgaSpec Iga IgaFacts IgaThms IgaBasis IgaBasisThms IgaSystem IgaSystemSpec Scatter IgaSystemFacts IgaAssembly IgaStiffness IgaSystemThms
  IgaSystemCons IgaBoundaryFacts IgaBoundaryThms IgaNeumannThms IgaSolveSpec IgaSolveThms IntegralFacts GalerkinSpec GalerkinFacts GalerkinThms StiffnessExact
  SolvableSpec PolyGrid LinearFacts SolvableFacts.
Import ListNotations.
Open Scope R_scope.

Lemma linked_full kv p : good_direction kv p -> linked_direction kv p -> full_support kv p.
Proof.
  intros (Hp & Hcl & Hn & Hs & Hlt) Hl i Hi. unfold zlen in *.
  assert (M : forall a b : nat, (a <= b)%nat -> (b < length kv)%nat -> knot kv a <= knot kv b).
  { intros a b Hab Hb. destruct (Nat.eq_dec a b) as [->|Ne]; [lra|]. apply Hn; lia. }
  destruct (Nat.eq_dec i 0) as [->|Ne].
  - destruct (Z.eq_dec (Z.of_nat (length kv) - p - 1) 1) as [E|E].
    + pose proof (proj1 Hcl) as C1. unfold first_knot, final_knot in Hlt. assert (p = 0%Z) by lia. subst p. replace (0 + Z.to_nat 0 + 1)%nat with (length kv - 1)%nat by lia. exact Hlt.
    + apply Rle_lt_trans with (knot kv 1); [apply M; lia|]. pose proof (Hl 1%nat ltac:(lia) ltac:(lia)).
      replace (0 + Z.to_nat p + 1)%nat with (1 + Z.to_nat p)%nat by lia. lra.
  - pose proof (Hl i ltac:(lia) ltac:(lia)). apply Rlt_le_trans with (knot kv (i + Z.to_nat p)); [lra|]. apply M; lia.
Qed.
Lemma linked_full_all knots degs : Forall2 good_direction knots degs -> Forall2 linked_direction knots degs -> Forall2 full_support knots degs.
Proof. induction 1; intros Hl; inversion Hl; subst; constructor; auto using linked_full. Qed.

(* vectors as functions *)
Lemma tabulated n (z : Z -> R) j : (0 <= j < n)%Z -> component (map z (zseq 0 (Z.to_nat n))) j = z j.
Proof.
  intros Hj. unfold component. rewrite (nth_indep _ 0 (z 0%Z)) by (rewrite map_length, zseq_length; lia). rewrite map_nth. f_equal.
  rewrite zseq_map, (nth_indep _ 0%Z ((fun i => (0 + Z.of_nat i)%Z) 0%nat)) by (rewrite map_length, seq_length; lia).
  rewrite (map_nth (fun i => (0 + Z.of_nat i)%Z)), seq_nth by lia. lia.
Qed.
Lemma component_ext n (x y : list R) : Z.of_nat (length x) = n -> Z.of_nat (length y) = n -> (forall j, (0 <= j < n)%Z -> component x j = component y j) -> x = y.
Proof.
  intros Hx Hy H. apply (nth_ext _ _ 0 0); [lia|]. intros k Hk. specialize (H (Z.of_nat k) ltac:(lia)). unfold component in H. now rewrite Nat2Z.id in H.
Qed.
Lemma assoc_fun (l : list Z) : NoDup l -> forall vals : nat -> R, exists f : Z -> R, forall k g, nth_error l k = Some g -> f g = vals k.
Proof.
  induction 1 as [|a l Hn Hd IH]; intros vals; [exists (fun _ => 0); intros [|k] g E; discriminate|].
  destruct (IH (fun k => vals (S k))) as (f & Hf). exists (fun g => if Z.eqb g a then vals 0%nat else f g). intros [|k] g E; cbn in E.
  - injection E as ->. now rewrite Z.eqb_refl.
  - destruct (Z.eqb_spec g a) as [->|C]; [exfalso; apply Hn; eapply nth_error_In; eauto | now apply Hf].
Qed.

(* a discrete problem whose homogeneous form has only the solution zero has exactly one solution *)
Lemma weak_solvable npts (lhs : list Z -> list Z -> R) : pos_lens npts ->
  (forall z : list R, Z.of_nat (length z) = total npts -> (forall a, in_box npts a -> at_boundary npts a -> component z (position npts a) = 0) ->
     (forall a, in_box npts a -> ~ at_boundary npts a -> lsum (fun b => lhs a b * component z (position npts b)) (all_indices npts) = 0) ->
     forall a, in_box npts a -> component z (position npts a) = 0) ->
  forall values rhs, exists x, weak_form npts values x lhs rhs /\ forall y, weak_form npts values y lhs rhs -> y = x.
Proof.
  intros Hp Hker values rhs. pose proof (total_pos _ Hp) as Ht. destruct (order_spec npts Hp) as (Ho & Hs). destruct (order_positions npts Hp) as (Hnd & _).
  destruct (assoc_fun _ Hnd (fun k => component values (Z.of_nat k))) as (bval & Hb).
  set (ix := fun i => nth_index npts (Z.to_nat i)). set (onb := fun i => on_boundary (mkMih npts (ix i))).
  assert (Ix : forall i, (0 <= i < total npts)%Z -> in_box npts (ix i) /\ position npts (ix i) = i) by (intros; now apply box_number).
  assert (Ix' : forall a, in_box npts a -> ix (position npts a) = a).
  { intros a Ha. pose proof (position_range _ _ Ha) as Hr. destruct (Ix _ Hr) as (B & P). now apply (position_inj npts). }
  set (A := fun i j : Z => if onb i then (if (j =? i)%Z then 1 else 0) else lhs (ix i) (ix j)).
  set (bb := fun i : Z => if onb i then bval i else rhs (ix i)).
  set (n := Z.to_nat (total npts)). assert (En : Z.of_nat n = total npts) by (unfold n; lia).
  assert (Row : forall (z : list R) i, (0 <= i < total npts)%Z -> lsum (fun j => A i j * component z j) (zseq 0 n) =
    if onb i then component z i else lsum (fun b => lhs (ix i) b * component z (position npts b)) (all_indices npts)).
  { intros z i Hi. unfold A. destruct (onb i) eqn:Eb.
    - unfold n. now rewrite (lsum_unit (total npts)).
    - rewrite <- (lsum_numbers (fun b => lhs (ix i) b * component z (position npts b))) by auto. apply lsum_ext. intros j Hj. apply zseq_In in Hj.
      fold (ix j). destruct (Ix j ltac:(lia)) as (_ & P). now rewrite P. }
  assert (Onb : forall i, (0 <= i < total npts)%Z -> onb i = true <-> at_boundary npts (ix i)) by (intros i Hi; apply boundary_iff, Ix, Hi).
  assert (Bnd : forall x : list R, (forall order k idx, boundary_list npts order -> nth_error order k = Some idx -> component x (position npts idx) = component values (Z.of_nat k)) <->
     (forall a, in_box npts a -> at_boundary npts a -> component x (position npts a) = bval (position npts a))).
  { intros x. split.
    - intros H a Ha Hba. assert (Hin : In a (boundary_order npts)) by (apply Ho; tauto). apply In_nth_error in Hin. destruct Hin as (k & Hk).
      rewrite (H _ k a (conj Ho Hs) Hk). symmetry. apply Hb. now apply map_nth_error.
    - intros H order k idx Hord Hk. rewrite (boundary_list_unique npts order Hp Hord) in Hk. pose proof (nth_error_In _ _ Hk) as Hin. apply Ho in Hin.
      rewrite H by tauto. apply Hb. now apply map_nth_error. }
  assert (Weak : forall x : list R, Z.of_nat (length x) = total npts ->
    ((forall i, (0 <= i < total npts)%Z -> lsum (fun j => A i j * component x j) (zseq 0 n) = bb i) <-> weak_form npts values x lhs rhs)).
  { intros x Hx. unfold weak_form. rewrite Bnd. split.
    - intros H. split; [exact Hx|]. split; intros a Ha Hba; pose proof (position_range _ _ Ha) as Hr; specialize (H _ Hr); rewrite Row in H by auto; unfold bb in H; rewrite ?Ix' in H by auto.
      + rewrite (proj2 (Onb _ Hr)) in H by (now rewrite Ix'). exact H.
      + destruct (onb (position npts a)) eqn:Eb; [apply Onb in Eb; auto; rewrite Ix' in Eb by auto; contradiction | exact H].
    - intros (_ & H2 & H3) i Hi. rewrite Row by auto. unfold bb. destruct (Ix i Hi) as (B & P). destruct (onb i) eqn:Eb.
      + apply Onb in Eb; auto. specialize (H2 _ B Eb). now rewrite P in H2.
      + apply H3; auto. intros C. apply Onb in C; auto. congruence. }
  assert (Inj : forall z : list R, Z.of_nat (length z) = total npts -> (forall i, (0 <= i < total npts)%Z -> lsum (fun j => A i j * component z j) (zseq 0 n) = 0) ->
     forall j, (0 <= j < total npts)%Z -> component z j = 0).
  { intros z Hz H j Hj. destruct (Ix j Hj) as (B & P). rewrite <- P. apply Hker; auto.
    - intros a Ha Hba. pose proof (position_range _ _ Ha) as Hr. specialize (H _ Hr). rewrite Row in H by auto. rewrite (proj2 (Onb _ Hr)) in H by (now rewrite Ix'). exact H.
    - intros a Ha Hba. pose proof (position_range _ _ Ha) as Hr. specialize (H _ Hr). rewrite Row in H by auto.
      destruct (onb (position npts a)) eqn:Eb; [apply Onb in Eb; auto; rewrite Ix' in Eb by auto; contradiction|]. now rewrite Ix' in H. }
  destruct (linear_exists n A) with (b := bb) as (x & Hx).
  { intros z H j Hj. rewrite En in *. rewrite <- (tabulated (total npts) z j Hj). apply Inj; auto; [rewrite map_length, zseq_length; lia|].
    intros i Hi. rewrite <- (H i ltac:(lia)). apply lsum_ext. intros k Hk. apply zseq_In in Hk. rewrite tabulated by lia. reflexivity. }
  assert (Lx : Z.of_nat (length (map x (zseq 0 n))) = total npts) by (rewrite map_length, zseq_length; lia).
  assert (Wx : weak_form npts values (map x (zseq 0 n)) lhs rhs).
  { apply Weak; [exact Lx|]. intros i Hi. rewrite <- (Hx i ltac:(lia)). apply lsum_ext. intros j Hj. apply zseq_In in Hj. unfold n. rewrite tabulated by lia. reflexivity. }
  exists (map x (zseq 0 n)). split; [exact Wx|]. intros y Wy.
  assert (Ly : Z.of_nat (length y) = total npts) by exact (proj1 Wy).
  apply (component_ext (total npts)); auto. intros j Hj. apply Rminus_diag_uniq.
  set (xx := map x (zseq 0 n)) in *. rewrite <- (tabulated (total npts) (fun j => component y j - component xx j) j Hj).
  apply Inj; auto; [rewrite map_length, zseq_length; lia|]. intros i Hi.
  rewrite (lsum_ext _ (fun j => A i j * component y j - A i j * component xx j)) by (intros k Hk; apply zseq_In in Hk; rewrite tabulated by lia; ring).
  rewrite lsum_minus, (proj2 (Weak y Ly) Wy i Hi), (proj2 (Weak xx Lx) Wx i Hi). ring.
Qed.

Section Dz.
Context {dz : R -> R}.
Local Notation F := (Rops dz).
Implicit Types s : spline F.

Lemma mass_definite : forall mdet s rl m, well_formed s -> is_bspline s \/ positive_weights s -> Forall2 full_support (knots_of s) (degs_of s) ->
  dense_rule rl (degs_of s) -> nondegenerate mdet s -> mass_matrix (F := F) mdet s rl = Ok m ->
  forall c, Z.of_nat (length c) = total (npts_of s) -> c <> repeat 0 (length c) -> 0 < quadratic_form (npts_of s) m c.
Proof.
  intros mdet s rl m Hwf Hpos Hfull Hd Hj Em c Hc Hn.
  assert (Hreg : regular s) by (intros us Hu; now apply weights_nonzero).
  destruct (mass_consequences mdet s rl m Hwf Hreg (proj1 Hd) Em) as (lists & jac & El & Hjac & _ & _ & HQ & HP).
  assert (H0 : 0 <= quadratic_form (npts_of s) m c).
  { unfold quadratic_form. rewrite HQ. rewrite element_lists_ok in El by auto. injection El as <-. apply (qnonneg s); auto; [apply Hd | |].
    - destruct Hd as (_ & _ & Hw & _). eapply Forall_impl; [|exact Hw]. cbv beta. intros; lra.
    - intros es us He Hu. destruct (Hj _ es us (element_lists_ok s Hwf) He Hu) as (j & Ej & Hpj). rewrite (Hjac es us He Hu) in Ej. injection Ej as <-.
      apply Rmult_le_pos; [lra | apply Rle_0_sqr]. }
  destruct H0 as [H0|H0]; [exact H0|]. exfalso. apply Hn. apply (component_ext (total (npts_of s))); [exact Hc | now rewrite repeat_length|].
  intros j Hjj. destruct (box_number _ j (npts_pos s Hwf) Hjj) as (B & P). rewrite <- P at 1.
  rewrite (mass_zero dz mdet s rl m c Hwf Hpos Hfull Hd Hj Em (eq_sym H0) _ B). symmetry. apply nth_zero.
Qed.

(* the kernel of the sums the stiffness matrix is made of *)
Lemma jac_positive mdet s (jac : list R -> R) : well_formed s -> nondegenerate mdet s ->
  (forall es us, in_box (map zlen (dlists (knots_of s) (degs_of s))) es -> strictly_inside (dlists (knots_of s) (degs_of s)) es us ->
     jacobian_determinant (F := F) mdet s us = Ok (jac us)) ->
  forall es us, in_box (map zlen (dlists (knots_of s) (degs_of s))) es -> strictly_inside (dlists (knots_of s) (degs_of s)) es us -> 0 < jac us.
Proof.
  intros Hwf Hj Hjac es us He Hu. destruct (Hj _ es us (element_lists_ok s Hwf) He Hu) as (j & Ej & Hpj). rewrite (Hjac es us He Hu) in Ej. injection Ej as <-. exact Hpj.
Qed.
Lemma positive_nonneg (rl : list (R * R)) degs : dense_rule rl degs -> Forall (fun q => 0 <= snd q) rl.
Proof. intros (_ & _ & Hw & _). eapply Forall_impl; [|exact Hw]. cbv beta. intros; lra. Qed.

Lemma stiffness_kernel : forall (mdet : list (list R) -> R) (minv : list (list R) -> Res (list (list R))) s rl kappa m,
  well_formed s -> unit_weights s -> Forall2 linked_direction (knots_of s) (degs_of s) -> dense_rule rl (degs_of s) ->
  degs_of s <> [] -> (Z.of_nat (length (degs_of s)) <= total (local_sizes (degs_of s)))%Z -> nondegenerate mdet s -> invertible minv s -> 0 < kappa ->
  left_side (F := F) mdet minv s rl kappa (mat_zeros (F := F) (total (npts_of s)) (total (npts_of s))) = Ok m ->
  forall c, 0 <= quadratic_form (npts_of s) m c /\
  (quadratic_form (npts_of s) m c = 0 <->
   forall i j, (0 <= i < total (npts_of s))%Z -> (0 <= j < total (npts_of s))%Z -> component c i = component c j).
Proof.
  intros mdet minv s rl kappa m Hwf Hunit Hlink Hd Hne Hsize Hj Hinv Hk Em c.
  destruct (stiffness_ok mdet minv s rl kappa Hwf Hunit (proj1 Hd) Hne Hsize) as (lists & El & HS).
  rewrite element_lists_ok in El by auto. injection El as <-.
  destruct (HS (fun es us => Hinv _ es us (element_lists_ok s Hwf))) as (jac & G & Hjac & HG & HA).
  pose proof (npts_pos s Hwf) as Hp. pose proof (total_pos _ Hp) as Ht.
  destruct (zeros_square (dz := dz) (total (npts_of s)) ltac:(lia)) as (Zs & Ze).
  destruct (HA _ Zs) as (m' & Em' & _ & OA). rewrite Em in Em'. injection Em' as <-.
  pose proof (jac_positive mdet s jac Hwf Hj Hjac) as J.
  assert (EF : quadratic_form (npts_of s) m c = lsum (fun a => lsum (fun b => component c (position (npts_of s) a) *
     quadrature (dlists (knots_of s) (degs_of s)) rl (fun u => (jac u * kappa) * lsum (fun i => G u i a * G u i b) (seq 0 (length (degs_of s)))) *
     component c (position (npts_of s) b)) (all_indices (npts_of s))) (all_indices (npts_of s))).
  { unfold quadratic_form. apply lsum_ext. intros a Ha. apply all_indices_box in Ha. apply lsum_ext. intros b Hb. apply all_indices_box in Hb.
    rewrite (OA a b Ha Hb), Ze, Rplus_0_l. do 2 f_equal. apply (qext s); auto; [apply Hd|]. intros es us _ _. ring. }
  rewrite EF. split; [|split].
  - rewrite (stiffness_form dz s rl (fun u => jac u * kappa) G c Hwf (proj1 Hd)). apply (qnonneg s); auto; [apply Hd | eapply positive_nonneg; eauto|].
    intros es us He Hu. pose proof (J es us He Hu). apply Rmult_le_pos; [apply Rmult_le_pos; lra | apply lsum_nonneg; intros; apply Rle_0_sqr].
  - intros Hz i j Hi Hjj. destruct (box_number _ i Hp Hi) as (B1 & P1). destruct (box_number _ j Hp Hjj) as (B2 & P2). rewrite <- P1, <- P2.
    apply (stiffness_zero dz s rl (fun u => jac u * kappa) G); auto using linked_full_all, wf_directions.
    intros es us He Hu. apply Rmult_lt_0_compat; auto. eapply J; eauto.
  - intros Hc. rewrite <- EF.
    destruct (stiffness_consequences mdet minv s rl kappa m Hwf Hunit (proj1 Hd) Hne Hsize (fun l es us => Hinv l es us) Em) as (_ & Hrow & _).
    unfold quadratic_form. apply lsum_zero. intros a Ha. apply all_indices_box in Ha. pose proof (position_range _ _ Ha) as Ra.
    rewrite (lsum_ext _ (fun b => component c (position (npts_of s) a) * component c 0%Z * entry m (position (npts_of s) a) (position (npts_of s) b))).
    + rewrite lsum_scal. rewrite <- (lsum_numbers (fun b => entry m (position (npts_of s) a) (position (npts_of s) b))) by auto.
      rewrite (lsum_ext _ (fun j => entry m (position (npts_of s) a) j)), Hrow by (auto; intros j Hjj; apply zseq_In in Hjj; destruct (box_number _ j Hp ltac:(lia)) as (_ & P); now rewrite P).
      ring.
    + intros b Hb. apply all_indices_box in Hb. rewrite (Hc (position (npts_of s) b) 0%Z) by (try lia; now apply position_range). ring.
Qed.

Lemma origin_boundary npts : pos_lens npts -> npts <> [] -> exists o, in_box npts o /\ at_boundary npts o.
Proof.
  intros Hp Hn. exists (repeat 0%Z (length npts)). split.
  - clear Hn. induction Hp; cbn [repeat length]; constructor; auto. lia.
  - destruct npts as [|n npts]; [congruence|]. exists 0%nat, n, 0%Z. cbn. auto.
Qed.

(* one call of a solver that finds solutions *)
Lemma solver_result n msolve (A : list (list R)) B (x : list R) : correct_solver n msolve -> square n A -> Z.of_nat (length B) = n ->
  solves n A B x -> (forall y, solves n A B y -> y = x) -> msolve A B = Ok x.
Proof. intros Hs HA HB Hx Hu. now apply Hs. Qed.

Lemma steady_unique : forall (mdet : list (list R) -> R) (minv : list (list R) -> Res (list (list R))) s rl,
  well_formed s -> unit_weights s -> Forall2 linked_direction (knots_of s) (degs_of s) -> dense_rule rl (degs_of s) ->
  degs_of s <> [] -> (Z.of_nat (length (degs_of s)) <= total (local_sizes (degs_of s)))%Z -> nondegenerate mdet s -> invertible minv s ->
  exists lists p0 jac G x, element_lists s = Ok lists /\ problem_new (F := F) s rl = Ok p0 /\
  (forall es us, in_box (map zlen lists) es -> strictly_inside lists es us -> jacobian_determinant (F := F) mdet s us = Ok (jac us)) /\
  (forall es us a, in_box (map zlen lists) es -> strictly_inside lists es us -> in_box (npts_of s) a ->
     physical_gradient s us a (fun i => G us i a)) /\
  (forall y, weak_form (npts_of s) [] y
    (fun a b => quadrature lists rl (fun u => jac u * lsum (fun i => G u i a * G u i b) (seq 0 (length (degs_of s)))))
    (fun a => quadrature lists rl (fun u => jac u * nurbs_basis s u a)) <-> y = x) /\
  forall msolve, correct_solver (total (npts_of s)) msolve -> forall k, exists pr pr',
  steady_calls mdet minv msolve k p0 = Ok pr /\ steady (F := F) mdet minv msolve pr = Ok (x, pr').
Proof.
  intros mdet minv s rl Hwf Hunit Hlink Hd Hne Hsize Hj Hinv.
  destruct (steady_solutions mdet minv s rl Hwf Hunit (proj1 Hd) Hne Hsize) as (lists & p0 & El & E0 & HS).
  destruct (HS (fun es us => Hinv lists es us El)) as (jac & G & Hjac & HG & HK). clear HS.
  assert (lists = dlists (knots_of s) (degs_of s)) by (rewrite element_lists_ok in El by auto; congruence). subst lists.
  pose proof (npts_pos s Hwf) as Hp. pose proof (jac_positive mdet s jac Hwf Hj Hjac) as J.
  destruct (weak_solvable (npts_of s) (fun a b => quadrature (dlists (knots_of s) (degs_of s)) rl (fun u => jac u * lsum (fun i => G u i a * G u i b) (seq 0 (length (degs_of s))))) Hp)
    with (values := @nil R) (rhs := fun a => quadrature (dlists (knots_of s) (degs_of s)) rl (fun u => jac u * nurbs_basis s u a)) as (x & Wx & Ux).
  { intros z Hz Hzb Hzi.
    assert (Eq : forall a b, in_box (npts_of s) a -> in_box (npts_of s) b -> component z (position (npts_of s) a) = component z (position (npts_of s) b)).
    { apply (stiffness_zero dz s rl jac G); auto.
      - apply linked_full_all; auto. apply Hwf.
      - apply lsum_zero. intros a Ha. apply all_indices_box in Ha. destruct (boundary_dec _ _ Ha) as [Hb|Hb].
        + rewrite (Hzb a Ha Hb). apply lsum_zero. intros; ring.
        + rewrite <- (Rmult_0_r (component z (position (npts_of s) a))). rewrite <- (Hzi a Ha Hb), <- lsum_scal. apply lsum_ext. intros; ring. }
    destruct (origin_boundary (npts_of s) Hp) as (o & O1 & O2).
    { intros C. apply Hne. destruct Hwf as [W _ N _ _ _]. rewrite N in C. destruct W; [reflexivity | discriminate]. }
    intros a Ha. rewrite (Eq a o Ha O1). now apply Hzb. }
  exists (dlists (knots_of s) (degs_of s)), p0, jac, G, x. split; [exact El|]. split; [exact E0|]. split; [exact Hjac|]. split; [exact HG|].
  split; [intros y; split; [apply Ux | intros ->; exact Wx]|]. intros msolve Hms.
  assert (One : forall k pr, steady_calls mdet minv msolve k p0 = Ok pr -> exists pr', steady (F := F) mdet minv msolve pr = Ok (x, pr')).
  { intros k pr Ek. destruct (HK msolve k pr Ek) as (A & B & Es & SA & LB & HX). exists (mkProblem (F := F) s rl A B). rewrite Es.
    rewrite (solver_result _ msolve A B x Hms SA LB); [reflexivity | now apply HX | intros y Hy; apply Ux; now apply HX]. }
  assert (Calls : forall k pr r, steady_calls mdet minv msolve k p0 = Ok pr -> steady (F := F) mdet minv msolve pr = Ok r -> steady_calls mdet minv msolve (S k) p0 = Ok (snd r)).
  { intros k. generalize p0. induction k as [|k IH]; intros q pr r Ek Er.
    - cbn [steady_calls] in *. injection Ek as ->. rewrite Er. reflexivity.
    - cbn [steady_calls] in Ek. destruct (steady (F := F) mdet minv msolve q) as [r1| |] eqn:E1; cbn [bind] in Ek; try discriminate.
      pose proof (IH _ _ _ Ek Er) as X. cbn [steady_calls] in *. rewrite E1. cbn [bind]. exact X. }
  induction k as [|k (pr & pr' & E1 & E2)].
  - destruct (One 0%nat p0 eq_refl) as (pr' & E). exists p0, pr'. auto.
  - pose proof (Calls k pr _ E1 E2) as X. destruct (One (S k) _ X) as (pr2 & E). eauto.
Qed.

Lemma unit_positive s : well_formed s -> unit_weights s -> is_bspline s \/ positive_weights s.
Proof.
  intros Hwf Hunit. unfold is_bspline, positive_weights. destruct (ph_wts (sp_ph s)) as [w|] eqn:Ew; [right | now left]. exists w. split; [reflexivity|].
  pose proof (wf_wts s Hwf w Ew) as Hl. unfold zlen in Hl. apply Forall_forall. intros x Hx. apply (In_nth _ _ 0) in Hx. destruct Hx as (k & Hk & <-).
  destruct (box_number _ (Z.of_nat k) (npts_pos s Hwf) ltac:(change (num F) with R in *; lia)) as (B & P). apply all_indices_box in B.
  pose proof (Hunit _ B) as U. unfold weight in U. rewrite Ew, P, Nat2Z.id in U. change (num F) with R in *. rewrite U. lra.
Qed.

Lemma unsteady_unique : forall (mdet : list (list R) -> R) (minv : list (list R) -> Res (list (list R))) (trunc : R -> Z) s rl dt tEnd (dirichlet : option (list R)),
  well_formed s -> unit_weights s -> Forall2 full_support (knots_of s) (degs_of s) -> dense_rule rl (degs_of s) ->
  degs_of s <> [] -> (Z.of_nat (length (degs_of s)) <= total (local_sizes (degs_of s)))%Z -> nondegenerate mdet s -> invertible minv s ->
  0 < dt -> (forall v order, dirichlet = Some v -> boundary_list (npts_of s) order -> (length order <= length v)%nat) ->
  exists p0 p1 sols, problem_new (F := F) s rl = Ok p0 /\
  forall msolve, correct_solver (total (npts_of s)) msolve -> unsteady (F := F) mdet minv msolve trunc p0 dt tEnd dirichlet = Ok (sols, p1).
Proof.
  intros mdet minv trunc s rl dt tEnd dirichlet Hwf Hunit Hfull Hd Hne Hsize Hjn Hinv Hdt Hdir. pose proof (proj1 Hd) as Hrl.
  assert (Hdt0 : dt <> 0) by lra.
  destruct (assemble_ok mdet minv s rl Hwf Hunit Hrl Hne Hsize) as (lists & El & HA).
  destruct (HA (fun es us => Hinv lists es us El)) as (jac & G & Hj & HG & HAB). clear HA.
  pose proof (npts_pos s Hwf) as Hp. pose proof (total_pos _ Hp) as Ht. set (n := total (npts_of s)) in *.
  assert (Hreg : regular s) by exact (unit_regular s Hwf Hunit).
  destruct (mass_matrix_ok mdet s rl Hwf Hreg Hrl) as (lists' & jac' & mm & El' & Hj' & Em & Sm & Om). fold n in Sm.
  assert (lists = dlists (knots_of s) (degs_of s)) by (rewrite element_lists_ok in El by auto; congruence). subst lists. clear lists' El' Hj' Om.
  set (lists := dlists (knots_of s) (degs_of s)) in *.
  set (K := fun a b => quadrature lists rl (fun u => jac u * lsum (fun i => G u i a * G u i b) (seq 0 (length (degs_of s))))) in *.
  set (M := fun a b => entry mm (position (npts_of s) a) (position (npts_of s) b)).
  destruct (zeros_square (dz := dz) n ltac:(lia)) as (Zs & Ze). destruct (zeros_ok (dz := dz) n ltac:(lia)) as (Zl & Zc).
  destruct (HAB _ _ Zs Zl) as (A & B & EA & SA & LB & OA & _). fold n in SA, LB. clear HAB.
  destruct (bdf_left_ok (dz := dz) n mm A dt Sm SA Hdt0) as (SL & OL).
  destruct (boundary_conditions (dz := dz) (npts_of s) Hp) as (order & Hord & Hbc). fold n in Hbc.
  assert (Hin : forall a, in_box (npts_of s) a -> ~ at_boundary (npts_of s) a -> ~ In a order) by (intros a _ Hn X; apply (proj1 Hord) in X; tauto).
  set (inv := fun (lhs : list (list R)) (prev : list R) => square n lhs /\
    (forall a b, in_box (npts_of s) a -> ~ at_boundary (npts_of s) a -> in_box (npts_of s) b ->
       entry lhs (position (npts_of s) a) (position (npts_of s) b) = K a b + M a b / dt) /\ Z.of_nat (length prev) = n).
  (* the homogeneous problem *)
  assert (Hom : forall lhs prev z, inv lhs prev -> (forall a, in_box (npts_of s) a -> at_boundary (npts_of s) a -> component z (position (npts_of s) a) = 0) ->
     (forall a, in_box (npts_of s) a -> ~ at_boundary (npts_of s) a -> lsum (fun b => entry lhs (position (npts_of s) a) (position (npts_of s) b) * component z (position (npts_of s) b)) (all_indices (npts_of s)) = 0) ->
     forall a, in_box (npts_of s) a -> component z (position (npts_of s) a) = 0).
  { intros lhs prev z (_ & I1 & _) Hzb Hzi. set (cz := fun a => component z (position (npts_of s) a)).
    set (FK := lsum (fun a => lsum (fun b => cz a * K a b * cz b) (all_indices (npts_of s))) (all_indices (npts_of s))).
    assert (F0 : FK + quadratic_form (npts_of s) mm z / dt = 0).
    { unfold FK, quadratic_form, Rdiv. rewrite <- lsum_scal_r, <- lsum_plus. apply lsum_zero. intros a Ha. apply all_indices_box in Ha.
      rewrite <- lsum_scal_r, <- lsum_plus. unfold cz. destruct (boundary_dec _ _ Ha) as [Hb|Hb].
      - rewrite (Hzb a Ha Hb). apply lsum_zero. intros; ring.
      - rewrite <- (Rmult_0_r (component z (position (npts_of s) a))). rewrite <- (Hzi a Ha Hb), <- lsum_scal. apply lsum_ext. intros b Hbb. apply all_indices_box in Hbb. rewrite (I1 a b Ha Hb Hbb).
        unfold M, Rdiv. ring. }
    assert (K0 : 0 <= FK).
    { pose proof (stiffness_form dz s rl jac G z Hwf Hrl) as SF. match type of SF with ?l = ?r => change (FK = r) in SF end. rewrite SF. apply (qnonneg s); auto; [eapply positive_nonneg; eauto|].
      intros es us He Hu. pose proof (jac_positive mdet s jac Hwf Hjn Hj es us He Hu). apply Rmult_le_pos; [lra | apply lsum_nonneg; intros; apply Rle_0_sqr]. }
    assert (M0 : 0 <= quadratic_form (npts_of s) mm z).
    { destruct (mass_consequences mdet s rl mm Hwf Hreg Hrl Em) as (_ & _ & _ & _ & _ & _ & _ & HP). apply HP. eapply positive_nonneg; eauto. }
    assert (MZ : quadratic_form (npts_of s) mm z = 0).
    { destruct M0 as [M0|M0]; [|now symmetry]. exfalso. pose proof (Rdiv_lt_0_compat _ _ M0 Hdt). lra. }
    assert (Hpos : is_bspline s \/ positive_weights s).
    { now apply unit_positive. }
    exact (mass_zero dz mdet s rl mm z Hwf Hpos Hfull Hd Hjn Em MZ). }
  (* one time step *)
  assert (Step : forall lhs prev, inv lhs prev -> exists lhs' x, inv lhs' x /\ forall msolve, correct_solver n msolve ->
    time_step (F := F) msolve (npts_of s) mm B dt dirichlet lhs prev = Ok (lhs', x)).
  { intros lhs prev Hi. pose proof Hi as (S1 & I1 & Lp). destruct (bdf_right_ok (dz := dz) n mm B prev dt Sm LB Lp Hdt0) as (LR & _).
    assert (HD : exists m' v', set_dirichlet (F := F) (npts_of s) lhs (bdf_right (F := F) mm B prev dt) dirichlet = Ok (m', v') /\
      conditioned (npts_of s) order lhs m' (bdf_right (F := F) mm B prev dt) v' (match dirichlet with Some v => v | None => repeat 0 (length order) end)).
    { destruct (Hbc lhs _ S1 LR) as (_ & B2 & B3 & _). destruct dirichlet as [v|]; [|exact B2]. apply B3, (Hdir v order eq_refl Hord). }
    destruct HD as (m' & v' & ED & CD). pose proof CD as (S2 & L2 & _ & C4). fold n in S2, L2, C4.
    destruct (weak_solvable (npts_of s) (fun a b => entry lhs (position (npts_of s) a) (position (npts_of s) b)) Hp (fun z _ => Hom lhs prev z Hi)
      (match dirichlet with Some v => v | None => repeat 0 (length order) end)
      (fun a => component (bdf_right (F := F) mm B prev dt) (position (npts_of s) a))) as (x & Wx & Ux).
    exists m', x. split.
    - split; [exact S2|]. split; [|exact (proj1 Wx)]. intros a b Ha Hn Hb. destruct (C4 a Ha (Hin a Ha Hn)) as (_ & Ce). rewrite Ce by (now apply position_range). auto.
    - intros msolve Hms. unfold time_step. rewrite ED. cbn [bind fst snd].
      rewrite (solver_result n msolve m' v' x Hms S2 L2); [reflexivity | |].
      + now apply (conditioned_solutions _ _ _ _ _ _ _ x Hp Hord CD).
      + intros y Hy. apply Ux. now apply (conditioned_solutions _ _ _ _ _ _ _ y Hp Hord CD). }
  assert (Run : forall (l : list Z) lhs prev sl, inv lhs prev -> exists st, forall msolve, correct_solver n msolve ->
     foldM (fun acc (_ : Z) => let '(lhs, prev, sl) := acc in
      x <- time_step (F := F) msolve (npts_of s) mm B dt dirichlet lhs prev ;; Ok (fst x, snd x, sl ++ [snd x])) l (lhs, prev, sl) = Ok st).
  { induction l as [|q l IH]; intros lhs prev sl Hi.
    - exists (lhs, prev, sl). reflexivity.
    - destruct (Step lhs prev Hi) as (lhs' & x & Hi' & Hx). destruct (IH lhs' x (sl ++ [x]) Hi') as (st & Hst). exists st. intros msolve Hms.
      cbn [foldM]. rewrite (Hx msolve Hms). cbn [bind fst snd]. now apply Hst. }
  assert (I0 : inv (bdf_left (F := F) mm A dt) (vec_zeros (F := F) n)).
  { split; [exact SL|]. split; [|exact Zl]. intros a b Ha Hn Hb. rewrite OL by (now apply position_range). rewrite (OA a b Ha Hb), Ze, Rplus_0_l. reflexivity. }
  destruct (Run (zseq 1 (Z.to_nat (trunc (ndiv (n := F) tEnd dt) + 1 - 1))) _ _ [vec_zeros (F := F) n] I0) as (st & Hst).
  exists (mkProblem (F := F) s rl (mat_zeros (F := F) n n) (vec_zeros (F := F) n)), (mkProblem (F := F) s rl A B), (snd st).
  split; [unfold problem_new; rewrite count_ok by auto; reflexivity|]. intros msolve Hms.
  unfold unsteady. cbn [pr_spline pr_rule]. setoid_rewrite Em. cbn [bind]. rewrite count_ok by auto. cbn [bind]. fold n. setoid_rewrite EA. cbn [bind fst snd].
  rewrite for_up_foldM. setoid_rewrite (Hst msolve Hms). reflexivity.
Qed.

(* the rules of the library *)
Lemma gauss_dense : forall n rl degs, gauss_rule (F := F) n = Some rl -> Forall (fun p => p < n)%Z degs -> dense_rule rl degs.
Proof.
  intros n rl degs Hr Hn. pose proof (gauss_inner dz n rl Hr) as Hin. pose proof (gauss_weights dz n rl Hr) as (Hl & Hw & _). pose proof (gauss_rule_R dz n rl Hr) as (E & Hb).
  split; [exact Hin|]. split; [|split].
  - clear Hin Hw Hl Hn Hr. subst rl. assert (Hn' : (n = 1 \/ n = 2 \/ n = 3 \/ n = 4 \/ n = 5)%Z) by lia.
    assert (D : forall l : list R, Sorted Rlt l -> NoDup l).
    { intros l Hs. apply Sorted_StronglySorted in Hs; [|intros a b c; apply Rlt_trans]. induction Hs as [|a l _ IH Hf]; constructor; auto.
      intros C. rewrite Forall_forall in Hf. specialize (Hf a C). lra. }
    apply D. destruct Hn' as [->|[->|[->|[->| ->]]]]; unfold rules_R; cbn [map fst].
    + repeat constructor.
    + pose proof (sqrt_lt_R0 (1 / 3) ltac:(lra)). repeat constructor; lra.
    + pose proof (sqrt_lt_R0 (3 / 5) ltac:(lra)). repeat constructor; lra.
    + pose proof s30. pose proof (sqrt_lt_R0 (3 / 7 - 2 / 35 * sqrt 30) ltac:(lra)).
      pose proof (sqrt_lt_1_alt (3 / 7 - 2 / 35 * sqrt 30) (3 / 7 + 2 / 35 * sqrt 30) ltac:(lra)). repeat constructor; lra.
    + pose proof s70. pose proof (sqrt_lt_R0 (5 - 2 / 7 * sqrt 70) ltac:(lra)).
      pose proof (sqrt_lt_1_alt (5 - 2 / 7 * sqrt 70) (5 + 2 / 7 * sqrt 70) ltac:(lra)). repeat constructor; lra.
  - eapply Forall_impl; [|exact Hw]. cbv beta. tauto.
  - change (num F) with R in *. rewrite Hl, Z2Nat.id by lia. exact Hn.
Qed.
End Dz.
