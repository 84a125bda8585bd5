(* Closing lemmas about the assembled systems (C52, C53, C54). *)
From Coq Require Import ZArith List Bool Reals Lra Lia Permutation.
From Verif Require Import Base BaseFacts RSum MultiIndex MultiIndexSpec MultiIndexFacts TensorSum
  KnotVec KnotVecSpec KnotVecFacts Basis BasisSpec BSplineTheory BasisFacts
  Spaces SpacesSpec SpacesFacts SplineEval SplineSpec EvalFacts RationalDeriv EvalThms
  IgaSpec Iga IgaFacts IgaThms IgaBasis IgaBasisThms IgaSystem IgaSystemSpec Scatter IgaSystemFacts IgaAssembly IgaStiffness.
Import ListNotations.
Open Scope Z_scope.

Section Thms.
Context {dz : R -> R}.
Local Notation F := (Rops dz).
Implicit Types s : spline F.

(* C52 *)
Lemma reference_mapping : forall s, well_formed s -> exists lists, element_lists s = Ok lists /\
  forall es xs, in_box (map zlen lists) es -> length xs = length lists ->
  reference_to_parameter s (position (map zlen lists) es) xs = Ok (element_point lists es xs) /\
  (Forall (fun x => -1 < x < 1)%R xs ->
   strictly_inside lists es (element_point lists es xs) /\
   element_at s (element_point lists es xs) = Ok (position (map zlen lists) es)).
Proof.
  intros s Hwf. exists (dlists (knots_of s) (degs_of s)). split; [now apply element_lists_ok|]. intros es xs He Hl.
  rewrite dlists_length in Hl by (now apply wf_directions). split; [now apply reference_ok|]. intros Hx.
  pose proof (element_point_strict _ _ (wf_directions s Hwf) es xs He Hl Hx) as Hin. split; auto.
  destruct (located_at s es _ Hwf He Hin) as (ks & Hloc). exact (loc_element _ _ _ _ Hloc).
Qed.

(* C53 *)
Lemma jacobian_formula : forall (mdet : list (list R) -> R) s, well_formed s -> regular s -> exists lists,
  element_lists s = Ok lists /\
  forall es us, in_box (map zlen lists) es -> strictly_inside lists es us -> exists D,
  partials s us D /\
  jacobian_determinant (F := F) mdet s us =
  Ok (sqrt (Rabs (mdet (table (length us) (fun a b =>
        nth a (half_widths lists es) 0 * nth b (half_widths lists es) 0 *
        lsum (fun c => D c a * D c b) (zseq 0 (Z.to_nat (ph_dim (sp_ph s)))))%R)))).
Proof.
  intros mdet s Hwf Hreg. exists (dlists (knots_of s) (degs_of s)). split; [now apply element_lists_ok|]. intros es us He Hin.
  destruct (located_at s es us Hwf He Hin) as (ks & Hloc). exists (dpart s us). split.
  - apply dpart_partials; auto.
    + exact (spans_domain _ _ (wf_directions s Hwf) _ _ _ _ (loc_spans _ _ _ _ Hloc) Hin).
    + exact (strict_not_knot _ _ (wf_directions s Hwf) _ _ _ _ (loc_spans _ _ _ _ Hloc) Hin).
  - exact (jacobian_ok mdet s es us ks Hwf Hloc).
Qed.

Lemma half_pos lists : forall es us, strictly_inside lists es us -> Forall (fun h => 0 < h)%R (half_widths lists es).
Proof.
  induction lists as [|l lists IH]; intros [|e es] [|u us] H; cbn [strictly_inside half_widths] in *; try contradiction; constructor.
  - lra.
  - eapply IH. exact (proj2 H).
Qed.

Lemma jacobian_curve : forall (mdet : list (list R) -> R) s, (forall a, mdet [[a]] = a) -> well_formed s -> regular s ->
  length (degs_of s) = 1%nat -> exists l : list (R * R), element_lists s = Ok [l] /\
  forall e u, 0 <= e < zlen l -> (fst (nth (Z.to_nat e) l (0, 0)) < u < snd (nth (Z.to_nat e) l (0, 0)))%R -> exists D : Z -> R,
  (forall c, 0 <= c < ph_dim (sp_ph s) -> derivable_pt_lim (fun v => geometry s [v] c) u (D c)) /\
  jacobian_determinant (F := F) mdet s [u] =
  Ok ((snd (nth (Z.to_nat e) l (0, 0)) - fst (nth (Z.to_nat e) l (0, 0))) / 2 *
      sqrt (lsum (fun c => D c * D c) (zseq 0 (Z.to_nat (ph_dim (sp_ph s))))))%R.
Proof.
  intros mdet s Hdet Hwf Hreg H1. destruct (jacobian_formula mdet s Hwf Hreg) as (lists & El & H).
  assert (Hl : length lists = 1%nat).
  { rewrite element_lists_ok in El by auto. inversion El. rewrite dlists_length; auto. now apply wf_directions. }
  destruct lists as [|l [|l' lists]]; try discriminate. exists l. split; auto. intros e u He Hu. change (num F) with R in *.
  destruct (H [e] [u]) as (D & HD & EJ); [constructor; [exact He|constructor] | split; auto; exact I |].
  exists (fun c => D c 0%nat). split; [intros c Hc; exact (HD c 0%nat Hc ltac:(cbn; lia))|].
  rewrite EJ. cbn [length table map seq half_widths nth]. rewrite Hdet.
  set (h := ((snd (nth (Z.to_nat e) l (0, 0)) - fst (nth (Z.to_nat e) l (0, 0))) / 2)%R).
  set (S := lsum _ _). assert (HS : (0 <= S)%R) by (apply lsum_nonneg; intros c _; apply Rle_0_sqr).
  assert (Hh : (0 < h)%R) by (unfold h; lra). f_equal.
  rewrite Rabs_right by (apply Rle_ge, Rmult_le_pos; [apply Rle_0_sqr|auto]).
  rewrite sqrt_mult_alt by apply Rle_0_sqr. change (sqrt (h * h) * sqrt S = h * sqrt S)%R. now rewrite (sqrt_square h) by lra.
Qed.

Lemma jacobian_plane : forall (mdet : list (list R) -> R) s, (forall a b c d, mdet [[a; b]; [c; d]] = a * d - b * c)%R ->
  well_formed s -> regular s -> length (degs_of s) = 2%nat -> ph_dim (sp_ph s) = 2 -> exists l1 l2 : list (R * R), element_lists s = Ok [l1; l2] /\
  forall e1 e2 u1 u2, in_box [zlen l1; zlen l2] [e1; e2] -> strictly_inside [l1; l2] [e1; e2] [u1; u2] -> exists D,
  partials s [u1; u2] D /\
  jacobian_determinant (F := F) mdet s [u1; u2] =
  Ok ((snd (nth (Z.to_nat e1) l1 (0, 0)) - fst (nth (Z.to_nat e1) l1 (0, 0))) / 2 *
      ((snd (nth (Z.to_nat e2) l2 (0, 0)) - fst (nth (Z.to_nat e2) l2 (0, 0))) / 2) *
      Rabs (D 0%Z 0%nat * D 1%Z 1%nat - D 0%Z 1%nat * D 1%Z 0%nat))%R.
Proof.
  intros mdet s Hdet Hwf Hreg H2 Hdim. destruct (jacobian_formula mdet s Hwf Hreg) as (lists & El & H).
  assert (Hl : length lists = 2%nat).
  { rewrite element_lists_ok in El by auto. inversion El. rewrite dlists_length; auto. now apply wf_directions. }
  destruct lists as [|l1 [|l2 [|l3 lists]]]; try discriminate. exists l1, l2. split; auto. intros e1 e2 u1 u2 He Hu. change (num F) with R in *.
  destruct (H [e1; e2] [u1; u2] He Hu) as (D & HD & EJ). exists D. split; auto. rewrite EJ.
  pose proof (half_pos _ _ _ Hu) as Hh. cbn [half_widths] in Hh. inversion Hh as [|? ? A1 Hh']; subst. inversion Hh' as [|? ? A2 _]; subst.
  rewrite Hdim. change (zseq 0 (Z.to_nat 2)) with [0; 1]. cbn [length table map seq half_widths nth lsum]. rewrite Hdet.
  set (h1 := ((snd (nth (Z.to_nat e1) l1 (0, 0)) - fst (nth (Z.to_nat e1) l1 (0, 0))) / 2)%R) in *.
  set (h2 := ((snd (nth (Z.to_nat e2) l2 (0, 0)) - fst (nth (Z.to_nat e2) l2 (0, 0))) / 2)%R) in *.
  set (q := (D 0%Z 0%nat * D 1%Z 1%nat - D 0%Z 1%nat * D 1%Z 0%nat)%R). f_equal.
  match goal with |- sqrt (Rabs ?x) = _ => replace x with (Rsqr (h1 * h2 * q)) by (unfold Rsqr, q; ring) end.
  rewrite Rabs_right by (apply Rle_ge, Rle_0_sqr). rewrite sqrt_Rsqr_abs, Rabs_mult, (Rabs_right (h1 * h2)); auto.
  apply Rle_ge, Rlt_le, Rmult_lt_0_compat; auto.
Qed.

(* C54 *)
Lemma count_ok s : well_formed s -> num_control_points (sp_ph s) = Ok (total (npts_of s)).
Proof.
  intros Hwf. unfold num_control_points, idiv. rewrite (wf_cps s Hwf). pose proof (wf_dim s Hwf) as Hd.
  destruct (Z.eqb_spec (ph_dim (sp_ph s)) 0) as [C|C]; [lia|]. f_equal. rewrite Z.mul_comm. apply Z.quot_mul. lia.
Qed.

Definition jac_at (mdet : list (list R) -> R) s (us : list R) : R :=
  match jacobian_determinant (F := F) mdet s us with Ok v => v | _ => 0%R end.
Lemma jac_at_ok mdet s es us : well_formed s -> in_box (map zlen (dlists (knots_of s) (degs_of s))) es ->
  strictly_inside (dlists (knots_of s) (degs_of s)) es us ->
  jacobian_determinant (F := F) mdet s us = Ok (jac_at mdet s us) /\ (0 <= jac_at mdet s us)%R.
Proof.
  intros Hwf He Hin. destruct (located_at s es us Hwf He Hin) as (ks & Hloc). unfold jac_at.
  rewrite (jacobian_ok mdet s es us ks Hwf Hloc). split; auto. apply sqrt_pos.
Qed.

Lemma zeros_square n : 0 <= n -> square n (mat_zeros (F := F) n n) /\ forall i j, entry (mat_zeros (F := F) n n) i j = 0%R.
Proof.
  intros Hn. unfold mat_zeros. change (num F) with R. cbn [n0 Rops]. split.
  - split; [rewrite repeat_length; lia|]. apply Forall_forall. intros r Hr. apply repeat_spec in Hr. subst. rewrite repeat_length. lia.
  - intros i j. unfold entry, component. change (num F) with R.
    destruct (Nat.lt_ge_cases (Z.to_nat i) (Z.to_nat n)) as [H|H].
    + rewrite (nth_indep _ [] (repeat 0%R (Z.to_nat n))) by (rewrite repeat_length; lia). now rewrite !nth_repeat.
    + rewrite (nth_overflow (repeat _ _)) by (rewrite repeat_length; lia). now destruct (Z.to_nat j).
Qed.

(* sum over element numbers as sum over multi-indices *)
Lemma lsum_elements (lists : list (list (R * R))) (f : list Z -> R) : pos_lens (map zlen lists) ->
  lsum (fun n => f (nth_index (map zlen lists) (Z.to_nat n))) (zseq 0 (Z.to_nat (total (map zlen lists) - 0))) =
  lsum f (all_indices (map zlen lists)).
Proof. intros H. rewrite Z.sub_0_r. now apply lsum_numbers. Qed.

Lemma mass_adds mdet s rl : well_formed s -> regular s -> inner_rule rl ->
  adds (square (total (npts_of s))) (in_range2 (total (npts_of s))) pentry
    (for_up 0 (total (map zlen (dlists (knots_of s) (degs_of s)))) (mass_element (F := F) mdet s rl))
    (fun ij => quadrature (dlists (knots_of s) (degs_of s)) rl
       (fun u => jac_at mdet s u * (rn s u (fst ij) * rn s u (snd ij)))%R).
Proof.
  intros Hwf Hreg Hrl. pose proof (dlists_pos _ _ (wf_directions s Hwf)) as Hp.
  eapply adds_ext; [intros m _; reflexivity | intros ij _; exact (lsum_elements _ _ Hp) |].
  apply adds_for_up. intros n Hn. destruct (box_number _ n Hp Hn) as (Hb & Ep).
  eapply adds_ext; [intros m _; rewrite <- Ep at 1; reflexivity | intros ij _; reflexivity |].
  eapply (mass_element_adds mdet s rl _ (jac_at mdet s)); auto. intros us Hin. now apply (jac_at_ok mdet s (nth_index (map zlen (dlists (knots_of s) (degs_of s))) (Z.to_nat n))).
Qed.

Lemma mass_matrix_ok : forall (mdet : list (list R) -> R) s rl, well_formed s -> regular s -> inner_rule rl -> exists lists jac m,
  element_lists s = Ok lists /\
  (forall es us, in_box (map zlen lists) es -> strictly_inside lists es us -> jacobian_determinant (F := F) mdet s us = Ok (jac us)) /\
  mass_matrix (F := F) mdet s rl = Ok m /\ square (total (npts_of s)) m /\
  forall a b, in_box (npts_of s) a -> in_box (npts_of s) b ->
    entry m (position (npts_of s) a) (position (npts_of s) b) =
    quadrature lists rl (fun u => jac u * (nurbs_basis s u a * nurbs_basis s u b))%R.
Proof.
  intros mdet s rl Hwf Hreg Hrl. exists (dlists (knots_of s) (degs_of s)), (jac_at mdet s).
  pose proof (total_pos _ (npts_pos s Hwf)) as Ht.
  destruct (zeros_square (total (npts_of s)) ltac:(lia)) as (Hz & Ez).
  destruct (mass_adds mdet s rl Hwf Hreg Hrl _ Hz) as (m & Em & Hm & Om). exists m.
  split; [now apply element_lists_ok|]. split; [intros es us He Hin; now apply (jac_at_ok mdet s es)|].
  split; [unfold mass_matrix; rewrite count_ok by auto; cbn [bind]; rewrite num_all_ok by auto; exact Em|]. split; auto.
  intros a b Ha Hb. specialize (Om (position (npts_of s) a, position (npts_of s) b) (conj (position_range _ _ Ha) (position_range _ _ Hb))).
  unfold pentry in Om. cbn [fst snd] in Om. rewrite Om, Ez, Rplus_0_l. unfold rn. now rewrite !number_box by auto.
Qed.

Lemma load_vector_ok : forall (mdet : list (list R) -> R) s rl, well_formed s -> regular s -> inner_rule rl -> exists lists jac,
  element_lists s = Ok lists /\
  (forall es us, in_box (map zlen lists) es -> strictly_inside lists es us -> jacobian_determinant (F := F) mdet s us = Ok (jac us)) /\
  forall src v, zlen src = total (npts_of s) -> zlen v = total (npts_of s) -> exists v',
  right_side (F := F) mdet s rl src v = Ok v' /\ zlen v' = total (npts_of s) /\
  forall a, in_box (npts_of s) a ->
    component v' (position (npts_of s) a) =
    (component v (position (npts_of s) a) + quadrature lists rl (fun u => jac u * (nurbs_basis s u a * combination s src u)))%R.
Proof.
  intros mdet s rl Hwf Hreg Hrl. exists (dlists (knots_of s) (degs_of s)), (jac_at mdet s).
  split; [now apply element_lists_ok|]. split; [intros es us He Hin; now apply (jac_at_ok mdet s es)|]. intros src v Hsrc Hv.
  pose proof (dlists_pos _ _ (wf_directions s Hwf)) as Hp.
  assert (A : adds (vlen (total (npts_of s))) (in_range (total (npts_of s))) component
    (for_up 0 (total (map zlen (dlists (knots_of s) (degs_of s)))) (load_vector (F := F) mdet s rl src))
    (fun i => quadrature (dlists (knots_of s) (degs_of s)) rl (fun u => jac_at mdet s u * (rn s u i * combination s src u))%R)).
  { eapply adds_ext; [intros m _; reflexivity | intros i _; exact (lsum_elements _ _ Hp) |].
    apply adds_for_up. intros n Hn. destruct (box_number _ n Hp Hn) as (Hb & Ep).
    eapply adds_ext; [intros m _; rewrite <- Ep at 1; reflexivity | intros i _; reflexivity |].
    eapply (load_vector_adds mdet s rl _ (jac_at mdet s)); auto. intros us Hin. now apply (jac_at_ok mdet s (nth_index (map zlen (dlists (knots_of s) (degs_of s))) (Z.to_nat n))). }
  destruct (A v Hv) as (v' & Ev & Hv' & Ov). exists v'.
  split; [unfold right_side; rewrite num_all_ok by auto; exact Ev|]. split; auto. intros a Ha.
  rewrite Ov by (now apply position_range). unfold rn. now rewrite number_box by auto.
Qed.

Lemma stiffness_ok : forall (mdet : list (list R) -> R) (minv : list (list R) -> Res (list (list R))) s rl kappa,
  well_formed s -> unit_weights s -> inner_rule rl -> degs_of s <> [] ->
  Z.of_nat (length (degs_of s)) <= total (local_sizes (degs_of s)) -> exists lists,
  element_lists s = Ok lists /\
  ((forall es us, in_box (map zlen lists) es -> strictly_inside lists es us -> invertible_at minv s us) -> exists jac G,
  (forall es us, in_box (map zlen lists) es -> strictly_inside lists es us -> jacobian_determinant (F := F) mdet s us = Ok (jac us)) /\
  (forall es us a, in_box (map zlen lists) es -> strictly_inside lists es us -> in_box (npts_of s) a ->
     physical_gradient s us a (fun i => G us i a)) /\
  forall m, square (total (npts_of s)) m -> exists m',
  left_side (F := F) mdet minv s rl kappa m = Ok m' /\ square (total (npts_of s)) m' /\
  forall a b, in_box (npts_of s) a -> in_box (npts_of s) b ->
    entry m' (position (npts_of s) a) (position (npts_of s) b) =
    (entry m (position (npts_of s) a) (position (npts_of s) b) +
     quadrature lists rl (fun u => jac u * (kappa * lsum (fun i => G u i a * G u i b) (seq 0 (length (degs_of s))))))%R).
Proof.
  intros mdet minv s rl kappa Hwf Hunit Hrl Hne Hsize. exists (dlists (knots_of s) (degs_of s)).
  split; [now apply element_lists_ok|]. intros Hinv. exists (jac_at mdet s), (gfun minv s).
  split; [intros es us He Hin; now apply (jac_at_ok mdet s es)|].
  split; [intros es us a He Hin Ha; apply (gradient_ok minv s Hwf Hunit Hsize es); eauto|]. intros m Hm.
  pose proof (dlists_pos _ _ (wf_directions s Hwf)) as Hp.
  assert (A : adds (square (total (npts_of s))) (in_range2 (total (npts_of s))) pentry
    (for_up 0 (total (map zlen (dlists (knots_of s) (degs_of s)))) (laplace_matrix (F := F) mdet minv s rl kappa))
    (fun ij => quadrature (dlists (knots_of s) (degs_of s)) rl
       (fun u => jac_at mdet s u * (kappa * lsum (fun i => gn minv s u i (fst ij) * gn minv s u i (snd ij)) (seq 0 (length (degs_of s)))))%R)).
  { eapply adds_ext; [intros m0 _; reflexivity | intros ij _; exact (lsum_elements _ _ Hp) |].
    apply adds_for_up. intros n Hn. destruct (box_number _ n Hp Hn) as (Hb & Ep).
    eapply adds_ext; [intros m0 _; rewrite <- Ep at 1; reflexivity | intros ij _; reflexivity |].
    eapply (laplace_adds mdet minv s rl _ (jac_at mdet s)); eauto. intros us Hin. now apply (jac_at_ok mdet s (nth_index (map zlen (dlists (knots_of s) (degs_of s))) (Z.to_nat n))). }
  destruct (A m Hm) as (m' & Em & Hm' & Om). exists m'.
  split; [unfold left_side; rewrite num_all_ok by auto; exact Em|]. split; auto. intros a b Ha Hb.
  specialize (Om (position (npts_of s) a, position (npts_of s) b) (conj (position_range _ _ Ha) (position_range _ _ Hb))).
  unfold pentry in Om. cbn [fst snd] in Om. rewrite Om. unfold gn. now rewrite !number_box by auto.
Qed.
End Thms.
