(* Exactness of the stiffness matrix on affine patches. *)
From Coq Require Import ZArith List Bool Lia Reals Lra.
From Verif Require Import Base BaseFacts RSum MultiIndex MultiIndexSpec MultiIndexFacts TensorSum
  KnotVec KnotVecSpec KnotVecFacts Basis BasisSpec BSplineTheory BasisFacts
  Spaces SpacesSpec SpacesFacts SplineEval SplineSpec EvalFacts RationalDeriv EvalThms
  Gauss GaussSpec GaussThms IgaSpec Iga IgaFacts IgaThms IgaBasis IgaBasisThms IgaSystem IgaSystemSpec Scatter IgaSystemFacts IgaAssembly IgaStiffness IgaSystemThms
  IgaSystemCons IntegralFacts GalerkinSpec GalerkinFacts GalerkinThms.
Import ListNotations.
Open Scope R_scope.

Section Dz.
Variable dz : R -> R.
Local Notation F := (Rops dz).
Implicit Types s : spline F.

Definition span_of (kv : list R) (u : R) : Z := match knot_span (F := F) kv u with Ok k => k | _ => 0%Z end.
Definition slope_of (kv : list R) (p i : Z) (u : R) : R := DB (tk kv) (span_of kv u) 1 (Z.to_nat p) i u.

Lemma span_of_in kv p k u : good_direction kv p -> in_span kv k u -> span_of kv u = k.
Proof.
  intros (_ & _ & Hn & Hs & Hne) Hin. pose proof Hin as (A1 & A2 & A3 & A4 & A5).
  destruct (knot_span_in_span dz kv u Hn Hs Hne) as (k' & E & H).
  - split; [pose proof (tk_ge_first kv k Hn); lra|]. pose proof (tk_le_final kv (k + 1) Hn). destruct A5 as [A5|[A5 _]]; lra.
  - unfold span_of. rewrite E. eapply in_span_unique; eauto.
Qed.

Lemma slopes_ok kv p : good_direction kv p -> slopes kv p (slope_of kv p).
Proof.
  intros Hg i u Hi Hu Hnot. fold (zlen kv) in Hi. pose proof Hg as (Hp & _ & Hn & _).
  destruct (eval_direction dz kv p u Hg ltac:(lra)) as (k & _ & Hs & H1 & H2).
  unfold slope_of. rewrite (span_of_in kv p k u) by auto. pose proof Hs as (A1 & A2 & A3 & A4 & A5).
  assert (In1 : In (tk kv k) kv) by (rewrite tk_knot' by lia; unfold knot; apply nth_In; unfold zlen in *; lia).
  assert (In2 : In (tk kv (k + 1)) kv) by (rewrite tk_knot' by lia; unfold knot; apply nth_In; unfold zlen in *; lia).
  assert (L1 : tk kv k < u) by (destruct A4 as [A4|A4]; auto; exfalso; apply Hnot; now rewrite <- A4).
  assert (L2 : u < tk kv (k + 1)) by (destruct A5 as [A5|[A5 _]]; auto; exfalso; apply Hnot; now rewrite A5).
  apply (derivable_local (B (tk kv) k (Z.to_nat p) i) _ u _ (Rmin (u - tk kv k) (tk kv (k + 1) - u))).
  - apply Rmin_pos; lra.
  - intros v Hv. pose proof (Rmin_l (u - tk kv k) (tk kv (k + 1) - u)). pose proof (Rmin_r (u - tk kv k) (tk kv (k + 1) - u)).
    apply Rabs_def2 in Hv. symmetry. apply cox_piece; auto; try lia. unfold in_span. split; [lia|]. split; [lia|]. split; [lra|]. split; [lra|]. left. lra.
  - apply B_derivable; auto. now apply tk_monotone.
Qed.

Definition slopes_of (knots : list (list R)) (degs : list Z) : list (Z -> R -> R) := map2 slope_of knots degs.

Lemma all_slopes_ok knots degs : Forall2 good_direction knots degs -> all_slopes knots degs (slopes_of knots degs).
Proof. induction 1 as [|kv p knots degs Hg H IH]; cbn [slopes_of map2 all_slopes]; auto using slopes_ok. Qed.

(* one factor replaced by its slope *)
Fixpoint dprod (knots : list (list R)) (degs : list Z) (gs : list (Z -> R -> R)) (d : Z) (idx : list Z) (us : list R) : R :=
  match knots, degs, gs, idx, us with
  | kv :: knots', p :: degs', g :: gs', i :: idx', u :: us' =>
      (if (d =? 0)%Z then g i u else cox_de_boor kv (Z.to_nat p) (Z.to_nat i) u) * dprod knots' degs' gs' (d - 1) idx' us'
  | _, _, _, _, _ => 1
  end.

Lemma dprod_neg knots degs gs d idx us : all_slopes knots degs gs -> (d < 0)%Z ->
  dprod knots degs gs d idx us = basis_product knots degs us idx.
Proof.
  revert degs gs d idx us. induction knots as [|kv knots IH]; intros [|p degs] [|g gs] d idx us Hs Hd; cbn [all_slopes] in Hs; try contradiction; [reflexivity|].
  destruct Hs as (_ & Hs). destruct idx as [|i idx], us as [|u us]; try reflexivity. cbn [dprod basis_product].
  destruct (Z.eqb_spec d 0); [lia|]. rewrite IH by (auto; lia). reflexivity.
Qed.

Lemma dprod_deriv knots degs gs : all_slopes knots degs gs -> forall d idx us,
  in_box (map2 (fun kv p => zlen kv - p - 1)%Z knots degs) idx ->
  Forall2 (fun kv u => first_knot kv < u < final_knot kv) knots us -> Forall2 (fun kv u => ~ In u kv) knots us -> (d < length us)%nat ->
  derivable_pt_lim (fun v => basis_product knots degs (upd us d v) idx) (nth d us 0) (dprod knots degs gs (Z.of_nat d) idx us).
Proof.
  revert degs gs. induction knots as [|kv knots IH]; intros [|p degs] [|g gs] Hs d idx us Hi Hu Hn Hd; cbn [all_slopes] in Hs; try contradiction.
  - inversion Hu; subst. cbn in Hd. lia.
  - destruct Hs as (Hg & Hs). cbn [map2] in Hi. inversion Hi as [|? i ? idx' I1 I2]; subst. inversion Hu as [|? u ? us' U1 U2]; subst; inversion Hn as [|? ? ? ? N1 N2]; subst.
    destruct d as [|d]; cbn [upd nth dprod basis_product].
    + rewrite dprod_neg by (auto; lia). change (Z.of_nat 0 =? 0)%Z with true. cbv iota.
      set (c := basis_product knots degs us' idx'). clearbody c.
      assert (L : derivable_pt_lim (fun v => c * cox_de_boor kv (Z.to_nat p) (Z.to_nat i) v) u (c * g i u)).
      { apply derivable_pt_lim_scal. apply Hg; [exact I1 | exact U1 | exact N1]. }
      rewrite Rmult_comm in L. eapply (derivable_local _ _ _ _ 1); [lra | | exact L]. intros v _. apply Rmult_comm.
    + cbn [length] in Hd. destruct (Z.eqb_spec (Z.of_nat (S d)) 0); [lia|]. replace (Z.of_nat (S d) - 1)%Z with (Z.of_nat d) by lia.
      apply (derivable_pt_lim_scal (fun v => basis_product knots degs (upd us' d v) idx')). apply IH; auto. lia.
Qed.

Lemma dprod_pair knots degs gs : all_slopes knots degs gs -> forall d e a b us, length a = length knots -> length b = length knots -> length us = length knots ->
  prod_at (slope_products knots degs gs d e a b) us = dprod knots degs gs d a us * dprod knots degs gs e b us.
Proof.
  revert degs gs. induction knots as [|kv knots IH]; intros [|p degs] [|g gs] Hs d e [|i a] [|j b] [|u us] Ha Hb Hu; cbn [all_slopes length] in *; try contradiction; try lia.
  - cbn. ring.
  - cbn [slope_products prod_at dprod]. rewrite IH by (try tauto; lia). ring.
Qed.

Lemma exact_slopes n kv p i j (x y : bool) : good_direction kv p -> (p < n)%Z ->
  (0 <= i < zlen kv - p - 1)%Z -> (0 <= j < zlen kv - p - 1)%Z ->
  exact_in n (pairs (inner kv p)) (fun u => (if x then slope_of kv p i u else cox_de_boor kv (Z.to_nat p) (Z.to_nat i) u) *
                                            (if y then slope_of kv p j u else cox_de_boor kv (Z.to_nat p) (Z.to_nat j) u)).
Proof.
  intros Hg Hn Hi Hj e He. destruct (elements_tile (dz := dz) kv p Hg) as (l & El & _ & _ & Hk). rewrite elements_ok in El by auto. injection El as <-.
  destruct (Hk e He) as (k & K). pose proof Hg as (Hp & _ & Hnd & _).
  exists (Z.to_nat p + Z.to_nat p)%nat, (fun u => (if x then DB (tk kv) k 1 (Z.to_nat p) i u else B (tk kv) k (Z.to_nat p) i u) *
                                                  (if y then DB (tk kv) k 1 (Z.to_nat p) j u else B (tk kv) k (Z.to_nat p) j u)).
  split; [lia|]. split.
  - apply is_poly_mult; [destruct x | destruct y]; auto using is_poly_B, is_poly_DB1.
  - intros u Hu. destruct (piece_in kv p k e u Hg K Hu) as (Hs & Hk2). unfold slope_of. rewrite (span_of_in kv p k u) by auto.
    rewrite !(cox_piece kv k) by (auto; lia). reflexivity.
Qed.

Lemma slope_products_exact n knots degs : Forall2 good_direction knots degs -> Forall (fun p => p < n)%Z degs -> forall d e a b,
  in_box (map2 (fun kv p => zlen kv - p - 1)%Z knots degs) a -> in_box (map2 (fun kv p => zlen kv - p - 1)%Z knots degs) b ->
  Forall2 (exact_in n) (dlists knots degs) (slope_products knots degs (slopes_of knots degs) d e a b).
Proof.
  induction 1 as [|kv p knots degs Hg H IH]; intros Hn d e a b Ha Hb; cbn [map2] in Ha, Hb; inversion Ha; inversion Hb; inversion Hn; subst.
  - constructor.
  - unfold dlists, slopes_of. cbn [map2 slope_products]. constructor; [now apply exact_slopes|]. apply IH; auto.
Qed.

Lemma basis_deriv s es us idx d : well_formed s -> unit_weights s -> in_box (map zlen (dlists (knots_of s) (degs_of s))) es ->
  strictly_inside (dlists (knots_of s) (degs_of s)) es us -> in_box (npts_of s) idx -> (d < length us)%nat ->
  derivable_pt_lim (fun v => nurbs_basis s (upd us d v) idx) (nth d us 0)
    (dprod (knots_of s) (degs_of s) (slopes_of (knots_of s) (degs_of s)) (Z.of_nat d) idx us).
Proof.
  intros Hwf Hw He Hs Hi Hd. destruct (strict_upd _ _ _ _ Hs Hd) as (r & Hr & Hnear).
  destruct (located_at s es us Hwf He Hs) as (ks & Hl). pose proof Hwf as [G _ N _ _ _].
  apply (derivable_local (fun v => basis_product (knots_of s) (degs_of s) (upd us d v) idx) _ _ _ r Hr).
  - intros v Hv. destruct (located_at s es _ Hwf He (Hnear v Hv)) as (ks' & Hl'). symmetry. apply unit_basis; auto. apply (loc_domain _ _ _ _ Hl').
  - apply dprod_deriv; auto.
    + now apply all_slopes_ok.
    + now rewrite <- N.
    + exact (spans_domain _ _ G _ _ _ _ (loc_spans _ _ _ _ Hl) Hs).
    + exact (strict_not_knot _ _ G _ _ _ _ (loc_spans _ _ _ _ Hl) Hs).
Qed.

Lemma delta_sum (f : nat -> R) n j : (j < n)%nat -> lsum (fun i => f i * (if Nat.eqb i j then 1 else 0)) (seq 0 n) = f j.
Proof.
  intros Hj. rewrite (lsum_single _ _ j).
  - rewrite Nat.eqb_refl. ring.
  - apply seq_NoDup.
  - apply in_seq. lia.
  - intros i _ Hne. destruct (Nat.eqb_spec i j); [contradiction | ring].
Qed.

Lemma stiffness_exact : forall (mdet : list (list R) -> R) (minv : list (list R) -> Res (list (list R))) s n rl kappa A b (W : nat -> nat -> R),
  well_formed s -> unit_weights s -> degs_of s <> [] -> (Z.of_nat (length (degs_of s)) <= total (local_sizes (degs_of s)))%Z ->
  gauss_rule (F := F) n = Some rl -> Forall (fun p => p < n)%Z (degs_of s) -> affine_map s A b -> scales mdet (length (degs_of s)) ->
  (Z.of_nat (length (degs_of s)) <= ph_dim (sp_ph s))%Z ->
  inverts minv (length (degs_of s)) (table (length (degs_of s)) (fun i d => A (Z.of_nat i) d)) ->
  (forall i j, (i < length (degs_of s))%nat -> (j < length (degs_of s))%nat ->
     lsum (fun d => A (Z.of_nat i) d * W d j) (seq 0 (length (degs_of s))) = if Nat.eqb i j then 1 else 0) ->
  exists gs, all_slopes (knots_of s) (degs_of s) gs /\
  forall m, square (total (npts_of s)) m -> exists m',
  left_side (F := F) mdet minv s rl kappa m = Ok m' /\ square (total (npts_of s)) m' /\
  forall i j, in_box (npts_of s) i -> in_box (npts_of s) j -> exists x : nat -> nat -> R,
    (forall d e, (d < length (degs_of s))%nat -> (e < length (degs_of s))%nat ->
       box_integral (knots_of s) (slope_products (knots_of s) (degs_of s) gs (Z.of_nat d) (Z.of_nat e) i j) (x d e)) /\
    entry m' (position (npts_of s) i) (position (npts_of s) j) =
    entry m (position (npts_of s) i) (position (npts_of s) j) +
    kappa * (volume_factor mdet (length (degs_of s)) (ph_dim (sp_ph s)) A *
      lsum (fun d => lsum (fun e => lsum (fun k => W d k * W e k) (seq 0 (length (degs_of s))) * x d e) (seq 0 (length (degs_of s)))) (seq 0 (length (degs_of s)))).
Proof.
  intros mdet minv s n rl kappa A b W Hwf Hw Hne Hsize Hr Hn Ha Hsc Hdim Hinv HW.
  pose proof (unit_regular s Hwf Hw) as Hreg. pose proof (gauss_inner dz n rl Hr) as Hin. pose proof Hwf as [G _ N _ _ _].
  destruct (stiffness_ok mdet minv s rl kappa Hwf Hw Hin Hne Hsize) as (lists & El & Hst).
  rewrite element_lists_ok in El by auto. injection El as <-.
  assert (Hlen : forall es us, in_box (map zlen (dlists (knots_of s) (degs_of s))) es -> strictly_inside (dlists (knots_of s) (degs_of s)) es us ->
    length us = length (degs_of s) /\ partials s us A).
  { intros es us He Hs. destruct (located_at s es us Hwf He Hs) as (ks & Hl). split.
    - rewrite degs_length by auto. apply domain_length, (loc_domain _ _ _ _ Hl).
    - apply (affine_partials dz s us A b Hwf Ha). exact (spans_domain _ _ G _ _ _ _ (loc_spans _ _ _ _ Hl) Hs). }
  destruct Hst as (jac & Gr & Hjac & Hgr & Hm).
  { intros es us He Hs. destruct (Hlen es us He Hs) as (Ln & HA). split; [now rewrite Ln|]. intros D HD. rewrite Ln.
    rewrite (table_ext _ (fun i d => D (Z.of_nat i) d) (fun i d => A (Z.of_nat i) d)); [exact Hinv|].
    intros i d Hi Hd. apply (partials_unique s us D A); auto; lia. }
  exists (slopes_of (knots_of s) (degs_of s)). split; [now apply all_slopes_ok|].
  intros m Hsq. destruct (Hm m Hsq) as (m' & Em' & Hsq' & Hent). exists m'. split; [exact Em'|]. split; [exact Hsq'|].
  intros i j Hi Hj.
  set (dim := length (degs_of s)) in *. set (gs := slopes_of (knots_of s) (degs_of s)) in *.
  assert (Hx : forall d e, exists x, box_integral (knots_of s) (slope_products (knots_of s) (degs_of s) gs (Z.of_nat d) (Z.of_nat e) i j) x /\
    IgaSystemSpec.quadrature (dlists (knots_of s) (degs_of s)) rl (fun u => jac u * prod_at (slope_products (knots_of s) (degs_of s) gs (Z.of_nat d) (Z.of_nat e) i j) u) =
    volume_factor mdet dim (ph_dim (sp_ph s)) A * x).
  { intros d e. apply (affine_quadrature dz mdet s n rl A b jac); auto. apply slope_products_exact; auto; now rewrite <- N. }
  set (x := fun d e => rprod (map2 (fun l f => lsum (fun e => moved rl e f) l) (dlists (knots_of s) (degs_of s)) (slope_products (knots_of s) (degs_of s) gs (Z.of_nat d) (Z.of_nat e) i j))).
  assert (Hbx : forall d e, box_integral (knots_of s) (slope_products (knots_of s) (degs_of s) gs (Z.of_nat d) (Z.of_nat e) i j) (x d e)).
  { intros d e. apply (box_exact dz n rl _ (degs_of s)); auto. apply slope_products_exact; auto; now rewrite <- N. }
  assert (Uniq : forall knots fs y z, box_integral knots fs y -> box_integral knots fs z -> y = z).
  { clear. induction knots as [|kv knots IH]; intros [|f fs] y z Hy Hz; cbn [box_integral] in *; try congruence.
    destruct Hy as (y1 & y2 & (pr1 & ->) & Hy & ->). destruct Hz as (z1 & z2 & (pr2 & ->) & Hz & ->).
    rewrite (IH fs y2 z2 Hy Hz). f_equal. apply RiemannInt_P5. }
  exists x. split; [intros d e _ _; apply Hbx|].
  rewrite Hent by auto. f_equal.
  assert (Hq : forall es us, in_box (map zlen (dlists (knots_of s) (degs_of s))) es -> strictly_inside (dlists (knots_of s) (degs_of s)) es us ->
    jac us * (kappa * lsum (fun k => Gr us k i * Gr us k j) (seq 0 dim)) =
    kappa * lsum (fun d => lsum (fun e => lsum (fun k => W d k * W e k) (seq 0 dim) *
       (jac us * prod_at (slope_products (knots_of s) (degs_of s) gs (Z.of_nat d) (Z.of_nat e) i j) us)) (seq 0 dim)) (seq 0 dim)).
  { intros es us He Hs. destruct (Hlen es us He Hs) as (Ln & HA). destruct (located_at s es us Hwf He Hs) as (ks & Hl).
    assert (Lk : length us = length (knots_of s)) by (apply domain_length, (loc_domain _ _ _ _ Hl)).
    set (nd := fun idx d => dprod (knots_of s) (degs_of s) gs (Z.of_nat d) idx us).
    assert (Hg : forall idx k, in_box (npts_of s) idx -> (k < dim)%nat -> Gr us k idx = lsum (fun d => nd idx d * W d k) (seq 0 dim)).
    { intros idx k Hidx Hk.
      transitivity (lsum (fun i' => Gr us i' idx * (if Nat.eqb i' k then 1 else 0)) (seq 0 dim)); [symmetry; now apply delta_sum|].
      rewrite (lsum_ext _ (fun i' => lsum (fun d => Gr us i' idx * (A (Z.of_nat i') d * W d k)) (seq 0 dim))).
      2:{ intros i' Hi'. apply in_seq in Hi'. rewrite lsum_scal, HW by lia. reflexivity. }
      rewrite lsum_swap. apply lsum_ext. intros d Hd. apply in_seq in Hd.
      rewrite (lsum_ext _ (fun i' => Gr us i' idx * A (Z.of_nat i') d * W d k)) by (intros; ring). rewrite lsum_scal_r. f_equal.
      pose proof (Hgr es us idx He Hs Hidx A d HA ltac:(lia)) as L1. rewrite Ln in L1.
      pose proof (basis_deriv s es us idx d Hwf Hw He Hs Hidx ltac:(lia)) as L2.
      exact (uniqueness_limite _ _ _ _ L1 L2). }
    rewrite (lsum_ext (fun k => Gr us k i * Gr us k j) (fun k => lsum (fun d => lsum (fun e => (nd i d * W d k) * (nd j e * W e k)) (seq 0 dim)) (seq 0 dim))).
    2:{ intros k Hk. apply in_seq in Hk. rewrite (Hg i k), (Hg j k) by (auto; lia). rewrite <- lsum_scal_r. apply lsum_ext. intros d _. now rewrite <- lsum_scal. }
    rewrite lsum_swap. rewrite <- Rmult_assoc, (Rmult_comm (jac us) kappa), Rmult_assoc. f_equal. rewrite <- lsum_scal. apply lsum_ext. intros d _.
    rewrite lsum_swap, <- lsum_scal. apply lsum_ext. intros e _. rewrite <- lsum_scal, <- lsum_scal_r. apply lsum_ext. intros k _.
    rewrite dprod_pair by first [exact Lk | now apply all_slopes_ok | now apply box_len]. unfold nd. ring. }
  rewrite (qext s rl _ (fun us => kappa * lsum (fun d => lsum (fun e => lsum (fun k => W d k * W e k) (seq 0 dim) *
       (jac us * prod_at (slope_products (knots_of s) (degs_of s) gs (Z.of_nat d) (Z.of_nat e) i j) us)) (seq 0 dim)) (seq 0 dim)) Hwf Hin) by exact Hq.
  rewrite qscal. f_equal.
  rewrite <- qsum, <- lsum_scal. apply lsum_ext. intros d _. rewrite <- qsum, <- lsum_scal. apply lsum_ext. intros e _.
  rewrite qscal. destruct (Hx d e) as (y & Hy & ->). rewrite (Uniq _ _ _ _ Hy (Hbx d e)). ring.
Qed.
End Dz.
