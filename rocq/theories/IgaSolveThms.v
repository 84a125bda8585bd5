(* Closing lemmas about the solution of the Poisson problem (C56). *)
From Coq Require Import ZArith List Bool Reals Lra Lia Permutation Sorted.
From Verif Require Import Base BaseFacts RSum MultiIndex MultiIndexSpec MultiIndexFacts TensorSum
  KnotVecSpec Basis BasisSpec Spaces SpacesSpec SplineEval SplineSpec EvalFacts
  IgaSpec Iga IgaFacts IgaThms IgaSystem IgaSystemSpec Scatter IgaSystemFacts IgaAssembly IgaStiffness IgaSystemThms IgaSystemCons
  IgaBoundaryFacts IgaBoundaryThms IgaSolveSpec.
Import ListNotations.
Open Scope Z_scope.

Section Solve.
Context {dz : R -> R}.
Local Notation F := (Rops dz).
Implicit Types s : spline F.

(* the assembled matrix and vector are those of the members plus the same sums each time *)
Lemma assemble_ok : forall (mdet : list (list R) -> R) (minv : list (list R) -> Res (list (list R))) s rl,
  well_formed s -> unit_weights s -> inner_rule rl -> degs_of s <> [] ->
  Z.of_nat (length (degs_of s)) <= total (local_sizes (degs_of s)) -> exists lists,
  element_lists s = Ok lists /\
  ((forall es us, in_box (map zlen lists) es -> strictly_inside lists es us -> invertible_at minv s us) -> exists jac G,
  (forall es us, in_box (map zlen lists) es -> strictly_inside lists es us -> jacobian_determinant (F := F) mdet s us = Ok (jac us)) /\
  (forall es us a, in_box (map zlen lists) es -> strictly_inside lists es us -> in_box (npts_of s) a ->
     physical_gradient s us a (fun i => G us i a)) /\
  forall A B, square (total (npts_of s)) A -> Z.of_nat (length B) = total (npts_of s) -> exists A' B',
  assemble (F := F) mdet minv (mkProblem (F := F) s rl A B) = Ok (A', B') /\ square (total (npts_of s)) A' /\ Z.of_nat (length B') = total (npts_of s) /\
  (forall a b, in_box (npts_of s) a -> in_box (npts_of s) b ->
    entry A' (position (npts_of s) a) (position (npts_of s) b) = (entry A (position (npts_of s) a) (position (npts_of s) b) +
     quadrature lists rl (fun u => jac u * lsum (fun i => G u i a * G u i b) (seq 0 (length (degs_of s)))))%R) /\
  (forall a, in_box (npts_of s) a -> component B' (position (npts_of s) a) = (component B (position (npts_of s) a) +
     quadrature lists rl (fun u => jac u * nurbs_basis s u a))%R)).
Proof.
  intros mdet minv s rl Hwf Hunit Hrl Hne Hsize.
  destruct (stiffness_ok mdet minv s rl 1%R Hwf Hunit Hrl Hne Hsize) as (lists & El & HS).
  exists lists. split; auto. intros Hinv. destruct (HS Hinv) as (jac & G & Hj & HG & HA). exists jac, G. split; auto. split; auto.
  intros A B SA LB. destruct (HA A SA) as (A' & EA & SA' & OA).
  assert (Hreg : regular s) by exact (unit_regular s Hwf Hunit).
  destruct (load_vector_ok mdet s rl Hwf Hreg Hrl) as (lists' & jac' & El' & Hj' & HL).
  assert (lists = dlists (knots_of s) (degs_of s)) by (rewrite element_lists_ok in El by auto; congruence). subst lists.
  assert (lists' = dlists (knots_of s) (degs_of s)) by (rewrite element_lists_ok in El' by auto; congruence). subst lists'.
  pose proof (total_pos _ (npts_pos s Hwf)) as Ht.
  destruct (HL (repeat 1%R (Z.to_nat (total (npts_of s)))) B) as (B' & EB & LB' & OB); auto.
  { unfold zlen. rewrite repeat_length. lia. }
  exists A', B'. split.
  { unfold assemble. cbn [pr_spline pr_rule pr_A pr_B]. rewrite count_ok by auto. cbn [bind]. setoid_rewrite EA. cbn [bind]. setoid_rewrite EB. reflexivity. }
  split; auto. split; auto. split.
  - intros a b Ha Hb. rewrite (OA a b Ha Hb). f_equal. apply qext; auto. intros es us _ _. now rewrite Rmult_1_l.
  - intros a Ha. rewrite (OB a Ha). f_equal. apply qext; auto. intros es us H1 H2.
    assert (jac' us = jac us) by (specialize (Hj es us H1 H2); specialize (Hj' es us H1 H2); rewrite Hj in Hj'; congruence).
    rewrite H. f_equal. destruct (located_at s es us Hwf H1 H2) as (ks & Hl).
    assert (combination s (repeat 1%R (Z.to_nat (total (npts_of s)))) us = 1%R).
    { unfold combination. rewrite (lsum_ext _ (nurbs_basis s us)).
      - apply basis_unity; auto; [exact (loc_domain _ _ _ _ Hl) | apply Hreg; exact (loc_domain _ _ _ _ Hl)].
      - intros idx Hidx. apply all_indices_box in Hidx. pose proof (position_range _ _ Hidx). unfold component.
        rewrite (nth_indep _ 0%R 1%R) by (rewrite repeat_length; lia). rewrite nth_repeat. ring. }
    rewrite H0. ring.
Qed.

Lemma weak_ext npts values x (lhs lhs' : list Z -> list Z -> R) (rhs rhs' : list Z -> R) c : (c <> 0)%R ->
  (forall a b, in_box npts a -> ~ at_boundary npts a -> in_box npts b -> lhs a b = (c * lhs' a b)%R) ->
  (forall a, in_box npts a -> ~ at_boundary npts a -> rhs a = (c * rhs' a)%R) ->
  weak_form npts values x lhs rhs <-> weak_form npts values x lhs' rhs'.
Proof.
  intros Hc HL HR. unfold weak_form.
  assert (E : forall a, in_box npts a -> ~ at_boundary npts a ->
    (lsum (fun b => lhs a b * component x (position npts b))%R (all_indices npts) = rhs a <->
     lsum (fun b => lhs' a b * component x (position npts b))%R (all_indices npts) = rhs' a)).
  { intros a Ha Hn. rewrite (HR a Ha Hn). rewrite (lsum_ext _ (fun b => c * (lhs' a b * component x (position npts b)))%R).
    - rewrite lsum_scal. split; [intros E; now apply Rmult_eq_reg_l in E | now intros ->].
    - intros b Hb. apply all_indices_box in Hb. rewrite (HL a b Ha Hn Hb). ring. }
  split; intros (H1 & H2 & H3); repeat split; auto; intros a Ha Hn; apply E; auto.
Qed.

Lemma zeros_ok n : 0 <= n -> Z.of_nat (length (vec_zeros (F := F) n)) = n /\ forall k, component (vec_zeros (F := F) n) k = 0%R.
Proof. intros H. unfold vec_zeros. change (num F) with R. split; [rewrite repeat_length; lia|]. intros k. apply nth_repeat. Qed.

Definition nth_zero k l : component (repeat 0%R l) k = 0%R := nth_repeat 0%R l (Z.to_nat k).

Lemma steady_solutions : forall (mdet : list (list R) -> R) (minv : list (list R) -> Res (list (list R))) s rl,
  well_formed s -> unit_weights s -> inner_rule rl -> degs_of s <> [] ->
  Z.of_nat (length (degs_of s)) <= total (local_sizes (degs_of s)) -> exists lists p0,
  element_lists s = Ok lists /\ problem_new (F := F) s rl = Ok p0 /\
  ((forall es us, in_box (map zlen lists) es -> strictly_inside lists es us -> invertible_at minv s us) -> exists jac G,
  (forall es us, in_box (map zlen lists) es -> strictly_inside lists es us -> jacobian_determinant (F := F) mdet s us = Ok (jac us)) /\
  (forall es us a, in_box (map zlen lists) es -> strictly_inside lists es us -> in_box (npts_of s) a ->
     physical_gradient s us a (fun i => G us i a)) /\
  forall msolve k pr, steady_calls mdet minv msolve k p0 = Ok pr -> exists A B,
  steady (F := F) mdet minv msolve pr = (x <- msolve A B ;; Ok (x, mkProblem (F := F) s rl A B)) /\ square (total (npts_of s)) A /\ Z.of_nat (length B) = total (npts_of s) /\
  forall x, solves (total (npts_of s)) A B x <->
  weak_form (npts_of s) [] x
    (fun a b => quadrature lists rl (fun u => jac u * lsum (fun i => G u i a * G u i b) (seq 0 (length (degs_of s))))%R)
    (fun a => quadrature lists rl (fun u => jac u * nurbs_basis s u a)%R)).
Proof.
  intros mdet minv s rl Hwf Hunit Hrl Hne Hsize.
  destruct (assemble_ok mdet minv s rl Hwf Hunit Hrl Hne Hsize) as (lists & El & HA).
  exists lists. eexists. split; auto. split; [unfold problem_new; rewrite count_ok by auto; reflexivity|].
  intros Hinv. destruct (HA Hinv) as (jac & G & Hj & HG & HAB). exists jac, G. split; auto. split; auto.
  pose proof (npts_pos s Hwf) as Hp. pose proof (total_pos _ Hp) as Ht.
  set (K := fun a b => quadrature lists rl (fun u => jac u * lsum (fun i => G u i a * G u i b) (seq 0 (length (degs_of s))))%R) in *.
  set (L := fun a => quadrature lists rl (fun u => jac u * nurbs_basis s u a)%R) in *.
  set (inv := fun (c : R) (pr : problem F) => exists A B, pr = mkProblem (F := F) s rl A B /\
    square (total (npts_of s)) A /\ Z.of_nat (length B) = total (npts_of s) /\
    (forall a b, in_box (npts_of s) a -> ~ at_boundary (npts_of s) a -> in_box (npts_of s) b ->
       entry A (position (npts_of s) a) (position (npts_of s) b) = (c * K a b)%R) /\
    (forall a, in_box (npts_of s) a -> ~ at_boundary (npts_of s) a -> component B (position (npts_of s) a) = (c * L a)%R)).
  destruct (boundary_conditions (dz := dz) (npts_of s) Hp) as (order & Hord & Hbc).
  (* one assembly and the boundary conditions *)
  assert (Step : forall c pr, (0 <= c)%R -> inv c pr -> exists A B, steady_system (F := F) mdet minv pr = Ok (A, B) /\
    inv (c + 1)%R (mkProblem (F := F) (pr_spline pr) (pr_rule pr) A B) /\
    forall x, solves (total (npts_of s)) A B x <-> weak_form (npts_of s) [] x K L).
  { intros c pr Hc (A & B & -> & SA & LB & IA & IB). destruct (HAB A B SA LB) as (A1 & B1 & E1 & SA1 & LB1 & OA & OB).
    destruct (Hbc A1 B1 SA1 LB1) as ((A2 & B2 & E2 & C2) & _). exists A2, B2.
    split; [unfold steady_system; setoid_rewrite E1; exact E2|].
    assert (Hin : forall a, in_box (npts_of s) a -> ~ at_boundary (npts_of s) a -> ~ In a order) by (intros a _ Hn X; apply (proj1 Hord) in X; tauto).
    pose proof C2 as (SA2 & LB2 & _ & C4). split.
    - exists A2, B2. split; [reflexivity|]. split; auto. split; auto. split.
      + intros a b Ha Hn Hb. destruct (C4 a Ha (Hin a Ha Hn)) as (_ & Ce). rewrite Ce by (now apply position_range).
        rewrite OA, IA by auto. unfold K. ring.
      + intros a Ha Hn. destruct (C4 a Ha (Hin a Ha Hn)) as (Ce & _). rewrite Ce, OB, IB by auto. unfold L. ring.
    - intros x. rewrite (conditioned_solutions _ _ _ _ _ _ _ x Hp Hord C2).
      rewrite (weak_ext _ (repeat 0%R (length order)) x _ K _ L (c + 1)%R).
      + unfold weak_form. split; intros (H1 & H2 & H3); repeat split; auto; intros order' k idx Ho Hk.
        * rewrite (H2 order' k idx Ho Hk). rewrite nth_zero. unfold component. now destruct (Z.to_nat (Z.of_nat k)).
        * rewrite (H2 order' k idx Ho Hk). rewrite nth_zero. unfold component. now destruct (Z.to_nat (Z.of_nat k)).
      + lra.
      + intros a b Ha Hn Hb. rewrite OA, IA by auto. unfold K. ring.
      + intros a Ha Hn. rewrite OB, IB by auto. unfold L. ring. }
  assert (Run : forall msolve k c pr pr', (0 <= c)%R -> inv c pr -> steady_calls mdet minv msolve k pr = Ok pr' -> exists c', (0 <= c')%R /\ inv c' pr').
  { intros msolve. induction k as [|k IH]; intros c pr pr' Hc Hi E; cbn [steady_calls] in E.
    - injection E as <-. eauto.
    - destruct (Step c pr Hc Hi) as (A & B & Es & Hi' & _). unfold steady in E. rewrite Es in E. cbn [bind fst snd] in E.
      destruct (msolve A B) as [x| |]; cbn [bind snd] in E; try discriminate. eapply (IH (c + 1)%R); [lra| |exact E]. exact Hi'. }
  intros msolve k pr E. destruct (zeros_square (dz := dz) (total (npts_of s)) ltac:(lia)) as (Zs & Ze). destruct (zeros_ok (total (npts_of s)) ltac:(lia)) as (Zl & Zc).
  match type of E with steady_calls _ _ _ _ ?p = _ => assert (I0 : inv 0%R p) end.
  { eexists _, _. split; [reflexivity|]. split; auto. split; auto. split.
    - intros a b _ _ _. rewrite Ze. ring.
    - intros a _ _. rewrite Zc. ring. }
  destruct (Run msolve k 0%R _ pr (Rle_refl 0) I0 E) as (c & Hc & Hi).
  destruct (Step c pr Hc Hi) as (A & B & Es & Hi' & Hx). exists A, B.
  split; [unfold steady; rewrite Es; destruct Hi as (A0 & B0 & -> & _); reflexivity|].
  destruct Hi' as (A' & B' & Eq & SA & LB & _). injection Eq as _ _ <- <-. auto.
Qed.

Lemma dot_component n (a b : list R) : Z.of_nat (length a) = n -> Z.of_nat (length b) = n ->
  dot (F := F) a b = lsum (fun j => component a j * component b j)%R (zseq 0 (Z.to_nat n)).
Proof.
  intros Ha Hb.
  assert (E : forall l : list R, Z.of_nat (length l) = n -> map (component l) (zseq 0 (Z.to_nat n)) = l).
  { intros l Hl. rewrite zseq_map, map_map. apply (nth_ext _ _ 0%R 0%R).
    - rewrite map_length, seq_length. lia.
    - rewrite map_length, seq_length. intros k Hk. rewrite (nth_indep _ 0%R ((fun x => component l (0 + Z.of_nat x)) 0%nat)) by (rewrite map_length, seq_length; lia).
      rewrite (map_nth (fun x => component l (0 + Z.of_nat x))). rewrite seq_nth by lia. unfold component. f_equal. lia. }
  rewrite <- (E a Ha) at 1. rewrite <- (E b Hb) at 1. apply dot_map.
Qed.

Lemma bdf_left_ok n (m A : list (list R)) dt : square n m -> square n A -> (dt <> 0)%R ->
  square n (bdf_left (F := F) m A dt) /\ forall i j, 0 <= i < n -> 0 <= j < n -> entry (bdf_left (F := F) m A dt) i j = (entry A i j + entry m i j / dt)%R.
Proof.
  intros (L1 & R1) (L2 & R2) Hdt. unfold bdf_left, mat_plus, mat_div. change (num F) with R.
  assert (Hlen : forall i, 0 <= i < n -> Z.of_nat (length (nth (Z.to_nat i) m [])) = n /\ Z.of_nat (length (nth (Z.to_nat i) A [])) = n).
  { intros i Hi. rewrite Forall_forall in R1, R2. split; [apply R1 | apply R2]; apply nth_In; lia. }
  assert (Hrow : forall i, 0 <= i < n -> nth (Z.to_nat i) (map2 (map2 (nadd (n := F))) A (map (map (fun v => v / dt)%R) m)) [] =
    map2 Rplus (nth (Z.to_nat i) A []) (map (fun v => v / dt)%R (nth (Z.to_nat i) m []))).
  { intros i Hi. change (num F) with R in *. rewrite (nth_map2 _ _ _ _ [] []) by (rewrite ?map_length; lia). f_equal.
    rewrite (nth_indep _ [] (map (fun v => v / dt)%R [])) by (rewrite map_length; change (num F) with R in *; lia). now rewrite map_nth. }
  assert (Ediv : forall v : R, ndiv (n := F) v dt = (v / dt)%R) by (intros v; cbn; destruct (Req_EM_T dt 0); [contradiction|auto]).
  assert (Em : map (map (fun v : R => ndiv (n := F) v dt)) m = map (map (fun v => v / dt)%R) m) by (apply map_ext; intros r; apply map_ext; auto).
  change (num F) with R in *. setoid_rewrite Em. split.
  - split; [rewrite map2_length; rewrite ?map_length; lia|]. apply Forall_forall. intros r Hr. apply (In_nth _ _ []) in Hr. destruct Hr as (k & Hk & <-).
    rewrite map2_length in Hk by (rewrite map_length; lia).
    specialize (Hrow (Z.of_nat k) ltac:(lia)). destruct (Hlen (Z.of_nat k) ltac:(lia)) as (H1 & H2). rewrite Nat2Z.id in *. change (num F) with R in *. rewrite Hrow.
    rewrite map2_length; rewrite ?map_length; lia.
  - intros i j Hi Hj. unfold entry. change (num F) with R in *. rewrite Hrow by auto. destruct (Hlen i Hi) as (H1 & H2). unfold component.
    rewrite (nth_map2 _ _ _ _ 0%R 0%R) by (rewrite ?map_length; lia). f_equal.
    rewrite (nth_indep _ 0%R ((fun v => v / dt)%R 0%R)) by (rewrite map_length; lia). now rewrite (map_nth (fun v => v / dt)%R).
Qed.

Lemma bdf_right_ok n (m : list (list R)) (v prev : list R) dt : square n m -> Z.of_nat (length v) = n -> Z.of_nat (length prev) = n -> (dt <> 0)%R ->
  Z.of_nat (length (bdf_right (F := F) m v prev dt)) = n /\
  forall i, 0 <= i < n -> component (bdf_right (F := F) m v prev dt) i =
    (component v i + lsum (fun j => entry m i j / dt * component prev j) (zseq 0 (Z.to_nat n)))%R.
Proof.
  intros (L1 & R1) Lv Lp Hdt. unfold bdf_right, mat_vec, mat_div. change (num F) with R.
  assert (Ediv : forall x : R, ndiv (n := F) x dt = (x / dt)%R) by (intros x; cbn; destruct (Req_EM_T dt 0); [contradiction|auto]).
  assert (Em : map (map (fun x : R => ndiv (n := F) x dt)) m = map (map (fun x => x / dt)%R) m) by (apply map_ext; intros r; apply map_ext; auto).
  change (num F) with R in *. setoid_rewrite Em. rewrite map_map. split.
  - rewrite map2_length; rewrite ?map_length; lia.
  - intros i Hi. unfold component at 1. change (num F) with R. rewrite (nth_map2 _ _ _ _ 0%R 0%R) by (rewrite ?map_length; lia).
    set (f := fun r : list R => dot (F := F) (map (fun x => x / dt)%R r) prev).
    transitivity (component v i + nth (Z.to_nat i) (map f m) 0)%R; [reflexivity|]. f_equal.
    assert (En : nth (Z.to_nat i) (map f m) 0%R = f (nth (Z.to_nat i) m [])).
    { rewrite (nth_indep _ 0%R (f [])) by (rewrite map_length; lia). apply map_nth. }
    rewrite Forall_forall in R1. assert (Hr : Z.of_nat (length (nth (Z.to_nat i) m [])) = n) by (apply R1, nth_In; lia).
    etransitivity; [exact En|]. unfold f. rewrite (dot_component n) by (rewrite ?map_length; auto). apply lsum_ext. intros j Hj. apply zseq_In in Hj. f_equal.
    unfold entry, component. rewrite (nth_indep _ 0%R ((fun x => x / dt)%R 0%R)) by (rewrite map_length; lia). now rewrite (map_nth (fun x => x / dt)%R).
Qed.

Lemma unsteady_solutions : forall (mdet : list (list R) -> R) (minv : list (list R) -> Res (list (list R))) msolve trunc s rl,
  well_formed s -> unit_weights s -> inner_rule rl -> degs_of s <> [] ->
  Z.of_nat (length (degs_of s)) <= total (local_sizes (degs_of s)) -> exists lists p0,
  element_lists s = Ok lists /\ problem_new (F := F) s rl = Ok p0 /\
  ((forall es us, in_box (map zlen lists) es -> strictly_inside lists es us -> invertible_at minv s us) ->
   (forall m v x, msolve m v = Ok x -> solves (total (npts_of s)) m v x) -> exists jac G,
  (forall es us, in_box (map zlen lists) es -> strictly_inside lists es us -> jacobian_determinant (F := F) mdet s us = Ok (jac us)) /\
  (forall es us a, in_box (map zlen lists) es -> strictly_inside lists es us -> in_box (npts_of s) a ->
     physical_gradient s us a (fun i => G us i a)) /\
  forall dt tEnd dirichlet sols p1, (dt <> 0)%R ->
  unsteady (F := F) mdet minv msolve trunc p0 dt tEnd dirichlet = Ok (sols, p1) ->
  length sols = S (Z.to_nat (trunc (tEnd / dt)%R)) /\
  nth_error sols 0 = Some (repeat 0%R (Z.to_nat (total (npts_of s)))) /\
  forall k u u', nth_error sols k = Some u -> nth_error sols (S k) = Some u' ->
  weak_form (npts_of s) (match dirichlet with Some v => v | None => [] end) u'
    (fun a b => quadrature lists rl (fun u => jac u * lsum (fun i => G u i a * G u i b) (seq 0 (length (degs_of s)))) +
                quadrature lists rl (fun u => jac u * (nurbs_basis s u a * nurbs_basis s u b)) / dt)%R
    (fun a => quadrature lists rl (fun u => jac u * nurbs_basis s u a) +
              lsum (fun b => quadrature lists rl (fun u => jac u * (nurbs_basis s u a * nurbs_basis s u b)) / dt * component u (position (npts_of s) b))
                   (all_indices (npts_of s)))%R).
Proof.
  intros mdet minv msolve trunc s rl Hwf Hunit Hrl Hne Hsize.
  destruct (assemble_ok mdet minv s rl Hwf Hunit Hrl Hne Hsize) as (lists & El & HA).
  exists lists. eexists. split; auto. split; [unfold problem_new; rewrite count_ok by auto; reflexivity|].
  intros Hinv Hsol. destruct (HA Hinv) as (jac & G & Hj & HG & HAB). exists jac, G. split; auto. split; auto.
  intros dt tEnd dirichlet sols p1 Hdt E.
  pose proof (npts_pos s Hwf) as Hp. pose proof (total_pos _ Hp) as Ht. set (n := total (npts_of s)) in *.
  assert (Hreg : regular s) by exact (unit_regular s Hwf Hunit).
  destruct (mass_matrix_ok mdet s rl Hwf Hreg Hrl) as (lists' & jac' & mm & El' & Hj' & Em & Sm & Om). fold n in Sm.
  assert (lists = dlists (knots_of s) (degs_of s)) by (rewrite element_lists_ok in El by auto; congruence). subst lists.
  assert (lists' = dlists (knots_of s) (degs_of s)) by (rewrite element_lists_ok in El' by auto; congruence). subst lists'.
  set (lists := dlists (knots_of s) (degs_of s)) in *.
  set (K := fun a b => quadrature lists rl (fun u => jac u * lsum (fun i => G u i a * G u i b) (seq 0 (length (degs_of s))))%R) in *.
  set (L := fun a => quadrature lists rl (fun u => jac u * nurbs_basis s u a)%R) in *.
  set (M := fun a b => quadrature lists rl (fun u => jac u * (nurbs_basis s u a * nurbs_basis s u b))%R) in *.
  assert (OM : forall a b, in_box (npts_of s) a -> in_box (npts_of s) b -> entry mm (position (npts_of s) a) (position (npts_of s) b) = M a b).
  { intros a b Ha Hb. rewrite (Om a b Ha Hb). apply qext; auto. intros es us H1 H2.
    assert (X : jac' us = jac us) by (specialize (Hj es us H1 H2); specialize (Hj' es us H1 H2); rewrite Hj in Hj'; congruence). now rewrite X. }
  destruct (zeros_square (dz := dz) n ltac:(lia)) as (Zs & Ze). destruct (zeros_ok n ltac:(lia)) as (Zl & Zc).
  destruct (HAB _ _ Zs Zl) as (A & B & EA & SA & LB & OA & OB). fold n in SA, LB.
  destruct (bdf_left_ok n mm A dt Sm SA Hdt) as (SL & OL).
  destruct (boundary_conditions (dz := dz) (npts_of s) Hp) as (order & Hord & Hbc). fold n in Hbc.
  unfold unsteady in E. cbn [pr_spline pr_rule] in E. setoid_rewrite Em in E. cbn [bind] in E. rewrite count_ok in E by auto. cbn [bind] in E.
  fold n in E. setoid_rewrite EA in E. cbn [bind fst snd] in E. rewrite for_up_foldM in E.
  assert (Edt : ndiv (n := F) tEnd dt = (tEnd / dt)%R) by (cbn; destruct (Req_EM_T dt 0); [contradiction|auto]).
  rewrite Edt in E. clear Edt. set (T := trunc (tEnd / dt)%R) in *.
  set (values := match dirichlet with Some v => v | None => [] end) in *.
  set (P := fun (u u' : list R) => weak_form (npts_of s) values u' (fun a b => K a b + M a b / dt)%R
     (fun a => L a + lsum (fun b => M a b / dt * component u (position (npts_of s) b)) (all_indices (npts_of s)))%R).
  set (zero := vec_zeros (F := F) n) in *.
  set (inv := fun (c : nat) (st : list (list R) * list R * list (list R)) => let '(lhs, prev, sl) := st in
    square n lhs /\
    (forall a b, in_box (npts_of s) a -> ~ at_boundary (npts_of s) a -> in_box (npts_of s) b ->
       entry lhs (position (npts_of s) a) (position (npts_of s) b) = (K a b + M a b / dt)%R) /\
    Z.of_nat (length prev) = n /\ (exists pre, sl = pre ++ [prev]) /\ length sl = S c /\ nth_error sl 0 = Some zero /\
    forall k u u', nth_error sl k = Some u -> nth_error sl (S k) = Some u' -> P u u').
  assert (Hin : forall a, in_box (npts_of s) a -> ~ at_boundary (npts_of s) a -> ~ In a order) by (intros a _ Hn X; apply (proj1 Hord) in X; tauto).
  (* one time step *)
  assert (Step : forall lhs prev sl c x, inv c (lhs, prev, sl) ->
    time_step (F := F) msolve (npts_of s) mm B dt dirichlet lhs prev = Ok x -> inv (S c) (fst x, snd x, sl ++ [snd x])).
  { intros lhs prev sl c x (S1 & I1 & Lp & (pre & Es) & Lc & H0 & Hch) Ex. unfold time_step in Ex.
    destruct (bdf_right_ok n mm B prev dt Sm LB Lp Hdt) as (LR & OR).
    assert (HD : exists m' v', set_dirichlet (F := F) (npts_of s) lhs (bdf_right (F := F) mm B prev dt) dirichlet = Ok (m', v') /\
      conditioned (npts_of s) order lhs m' (bdf_right (F := F) mm B prev dt) v' (match dirichlet with Some v => v | None => repeat 0%R (length order) end)).
    { destruct (Hbc lhs _ S1 LR) as (_ & B2 & B3 & B4). destruct dirichlet as [v|]; [|exact B2].
      destruct (Nat.le_gt_cases (length order) (length v)) as [C|C]; [now apply B3|]. rewrite (B4 v C) in Ex. discriminate Ex. }
    destruct HD as (m' & v' & ED & CD). rewrite ED in Ex. cbn [bind fst snd] in Ex.
    destruct (msolve m' v') as [y| |] eqn:Ey; cbn [bind] in Ex; try discriminate. injection Ex as <-. cbn [fst snd].
    pose proof (Hsol m' v' y Ey) as Hy. fold n in Hy. pose proof CD as (S2 & _ & _ & C4). fold n in S2, C4.
    assert (HP : P prev y).
    { pose proof (proj1 (conditioned_solutions _ _ _ _ _ _ _ y Hp Hord CD) Hy) as (W1 & W2 & W3). unfold P. split; auto. split.
      - intros order' k idx Ho Hk. rewrite (W2 order' k idx Ho Hk). unfold values. destruct dirichlet; auto. rewrite nth_zero. unfold component. now destruct (Z.to_nat (Z.of_nat k)).
      - intros a Ha Hn. specialize (W3 a Ha Hn). rewrite OR in W3 by (now apply position_range). rewrite (OB a Ha), Zc, Rplus_0_l in W3.
        rewrite (lsum_ext _ (fun b => (K a b + M a b / dt) * component y (position (npts_of s) b))%R) in W3
          by (intros b Hb; apply all_indices_box in Hb; now rewrite I1).
        rewrite W3. f_equal. rewrite <- (lsum_numbers (fun b => M a b / dt * component prev (position (npts_of s) b))%R) by auto. fold n.
        apply lsum_ext. intros j Hj0. apply zseq_In in Hj0. destruct (box_number (npts_of s) j Hp ltac:(fold n; lia)) as (Bj & Pj).
        rewrite Pj. rewrite <- (OM a _ Ha Bj), Pj. reflexivity. }
    split; auto. split.
    { intros a b Ha Hn Hb. destruct (C4 a Ha (Hin a Ha Hn)) as (_ & Ce). rewrite Ce by (now apply position_range). auto. }
    split; [exact (proj1 Hy)|]. split; [now exists sl|]. split; [rewrite app_length; cbn; lia|].
    split; [rewrite nth_error_app1 by lia; auto|].
    intros k u u' Hu Hu'. destruct (Nat.lt_ge_cases (S k) (length sl)) as [C|C].
    - rewrite nth_error_app1 in Hu, Hu' by lia. eapply Hch; eauto.
    - rewrite nth_error_app2 in Hu' by lia. assert (Hk : (S k - length sl)%nat = 0%nat).
      { destruct (S k - length sl)%nat as [|q] eqn:Eq; auto. cbn in Hu'. destruct q; discriminate. }
      rewrite Hk in Hu'. injection Hu' as <-. rewrite nth_error_app1 in Hu by lia. rewrite Es in Hu, Lc, Hk, C. rewrite app_length in Lc, Hk, C. cbn [length] in Lc, Hk, C.
      rewrite nth_error_app2 in Hu by lia. replace (k - length pre)%nat with 0%nat in Hu by lia. injection Hu as <-. exact HP. }
  assert (Run : forall l c st st', inv c st -> foldM (fun acc (_ : Z) => let '(lhs, prev, sl) := acc in
      x <- time_step (F := F) msolve (npts_of s) mm B dt dirichlet lhs prev ;; Ok (fst x, snd x, sl ++ [snd x])) l st = Ok st' -> inv (length l + c)%nat st').
  { induction l as [|q l IH]; intros c ((lhs, prev), sl) st' Hi Ef; cbn [foldM] in Ef.
    - injection Ef as <-. exact Hi.
    - destruct (time_step (F := F) msolve (npts_of s) mm B dt dirichlet lhs prev) as [x| |] eqn:Ex; cbn [bind] in Ef; try discriminate.
      cbn [length]. replace (S (length l) + c)%nat with (length l + S c)%nat by lia. eapply IH; [|exact Ef]. eapply Step; eauto. }
  assert (I0 : inv 0%nat (bdf_left (F := F) mm A dt, zero, [zero])).
  { split; auto. split.
    { intros a b Ha Hn Hb. rewrite OL by (now apply position_range). rewrite (OA a b Ha Hb), Ze, Rplus_0_l, OM by auto. reflexivity. }
    split; auto. split; [now exists []|]. split; [reflexivity|]. split; [reflexivity|]. intros [|k] u u' Hu Hu'; [discriminate Hu'|]. destruct k; discriminate. }
  match type of E with (bind ?r _) = _ => destruct r as [((lhs, prev), sl)| |] eqn:Er end; cbn [bind snd] in E; try discriminate.
  injection E as <- _.
  pose proof (Run _ 0%nat _ _ I0 Er) as (_ & _ & _ & _ & Lc & H0 & Hch). rewrite zseq_length in Lc.
  replace (T + 1 - 1) with T in Lc by lia. rewrite Nat.add_0_r in Lc. split; [exact Lc|]. split; auto.
Qed.
End Solve.
