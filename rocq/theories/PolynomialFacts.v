(* The B-spline basis reproduces the polynomials of its degree. *)
From Coq Require Import ZArith List Lia Reals Lra.
From Verif Require Import Base BaseFacts RSum MultiIndex MultiIndexSpec MultiIndexFacts
  KnotVec KnotVecSpec KnotVecFacts Basis BasisSpec BSplineTheory BasisFacts
  Spaces SpacesSpec SpacesFacts SplineEval SplineSpec SplineNew EvalFacts EvalThms VtkSpec VtkFacts GeneratorsFacts VariationFacts VariationThms PolynomialSpec.
Import ListNotations.
Open Scope R_scope.

Lemma symmetric_0 l : symmetric 0 l = 1.
Proof. destruct l; reflexivity. Qed.

Lemma symmetric_end m l x : symmetric (S m) (l ++ [x]) = symmetric (S m) l + x * symmetric m l.
Proof.
  revert m; induction l as [|y l IH]; intros m; cbn [app symmetric].
  - destruct m; cbn [symmetric]; ring.
  - rewrite IH. destruct m as [|m]; [rewrite !symmetric_0; ring|]. rewrite IH. cbn [symmetric]. ring.
Qed.

Lemma symmetric_big m l : (length l < m)%nat -> symmetric m l = 0.
Proof.
  revert m; induction l as [|y l IH]; intros [|m] H; cbn [length] in H; try lia; cbn [symmetric]; auto.
  rewrite !IH by lia. ring.
Qed.

Lemma C_0 n : C n 0 = 1.
Proof. unfold C. rewrite Nat.sub_0_r. change (INR (fact 0)) with 1. field. apply INR_fact_neq_0. Qed.
Lemma C_n n : C n n = 1.
Proof. unfold C. rewrite Nat.sub_diag. change (INR (fact 0)) with 1. field. apply INR_fact_neq_0. Qed.

Section Pieces.
Variable t : Z -> R.
Hypothesis Ht : monotone t.
Variable k : Z.
Hypothesis Hk : t k < t (k + 1)%Z.

(* t_{i+1}, ..., t_{i+p} *)
Definition inner (p : nat) (i : Z) : list R := map (fun j => t (i + Z.of_nat j)%Z) (seq 1 p).

Lemma inner_S p i : inner (S p) i = inner p i ++ [t (i + Z.of_nat (S p))%Z].
Proof. unfold inner. rewrite seq_S, map_app. reflexivity. Qed.

Lemma inner_cons p i : inner (S p) i = t (i + 1)%Z :: inner p (i + 1).
Proof.
  unfold inner. cbn [seq map]. f_equal. rewrite <- seq_shift, map_map. apply map_ext. intros j. f_equal. lia.
Qed.

Lemma symmetric_sum p m u lo n : (lo <= k - Z.of_nat p)%Z -> (k < lo + Z.of_nat n)%Z ->
  lsum (fun i => symmetric m (inner p i) * B t k p i u) (zseq lo n) = if le_dec m p then C p m * u ^ m else 0.
Proof.
  revert m lo n; induction p as [|p IH]; intros m lo n H1 H2.
  - destruct m as [|m].
    + rewrite (lsum_ext _ (fun i => B t k 0 i u)) by (intros; rewrite symmetric_0; ring). rewrite B_sum by auto.
      destruct (le_dec 0 0); [|lia]. rewrite C_0. cbn [pow]. ring.
    + destruct (le_dec (S m) 0); [lia|]. apply lsum_zero. intros i _. cbn. ring.
  - assert (Hsum : forall c : Z -> R, lsum (fun i => c i * B t k (S p) i u) (zseq lo n) =
      lsum (fun i => (c i * w t i (S p) u + c (i - 1)%Z * (1 - w t i (S p) u)) * B t k p i u) (zseq (k - Z.of_nat p) (S p))).
    { intros c. rewrite (lsum_ext _ (fun i => c i * w t i (S p) u * B t k p i u + c i * (1 - w t (i + 1) (S p) u) * B t k p (i + 1)%Z u))
        by (intros; rewrite B_S by auto; ring).
      rewrite lsum_plus.
      rewrite (lsum_ext (fun i => c i * (1 - w t (i + 1) (S p) u) * B t k p (i + 1)%Z u)
        (fun i => (fun j => c (j - 1)%Z * (1 - w t j (S p) u) * B t k p j u) (i + 1)%Z)) by (intros i _; cbv beta; repeat f_equal; lia).
      rewrite <- (lsum_zseq_shift (fun j => c (j - 1)%Z * (1 - w t j (S p) u) * B t k p j u) lo n 1).
      rewrite (lsum_zseq_extend _ (k - Z.of_nat p) (S p) lo n); try lia.
      2:{ intros i Hi Hn. rewrite B_outside by lia. lra. }
      rewrite (lsum_zseq_extend (fun j => c (j - 1)%Z * (1 - w t j (S p) u) * B t k p j u) (k - Z.of_nat p) (S p)); try lia.
      2:{ intros i Hi Hn. rewrite B_outside by lia. lra. }
      rewrite <- lsum_plus. apply lsum_ext. intros; ring. }
    destruct m as [|m].
    + rewrite (lsum_ext _ (fun i => B t k (S p) i u)) by (intros; rewrite symmetric_0; ring). rewrite B_sum by auto.
      destruct (le_dec 0 (S p)); [|lia]. rewrite C_0. cbn [pow]. ring.
    + rewrite (Hsum (fun i => symmetric (S m) (inner (S p) i))).
      rewrite (lsum_ext _ (fun i => symmetric (S m) (inner p i) * B t k p i u + u * (symmetric m (inner p i) * B t k p i u))).
      2:{ intros i Hi. apply zseq_In in Hi. rewrite inner_S, symmetric_end, inner_cons. replace (i - 1 + 1)%Z with i by lia. cbn [symmetric].
          assert (E : t (i + Z.of_nat (S p))%Z * w t i (S p) u + t i * (1 - w t i (S p) u) = u).
          { unfold w. pose proof (active_den t Ht k Hk i (Z.of_nat (S p)) ltac:(lia) ltac:(lia)). field. lra. }
          set (W := w t i (S p) u) in *. set (b := B t k p i u). clearbody W b. rewrite <- E. ring. }
      rewrite lsum_plus, lsum_scal, !IH by lia.
      destruct (le_dec (S m) p) as [A|A]; destruct (le_dec m p) as [A'|A']; destruct (le_dec (S m) (S p)) as [A''|A'']; try lia.
      * rewrite <- (pascal p m) by lia. cbn [pow]. ring.
      * assert (m = p) as -> by lia. rewrite !C_n. cbn [pow]. ring.
      * ring.
Qed.
End Pieces.

(* in one direction *)
Lemma direction_sum (dz : R -> R) kv p m u : good_direction kv p -> first_knot kv <= u <= final_knot kv -> (m <= Z.to_nat p)%nat ->
  lsum (fun i => cox_de_boor kv (Z.to_nat p) (Z.to_nat i) u * (symmetric m (inner_knots kv (Z.to_nat p) (Z.to_nat i)) / C (Z.to_nat p) m))
       (zseq 0 (Z.to_nat (zlen kv - p - 1))) = u ^ m.
Proof.
  intros Hg Hu Hm. destruct (eval_direction dz kv p u Hg Hu) as (k & _ & Hs & H1 & H2).
  pose proof Hg as (Hp & _ & Hn & _). pose proof Hs as (A1 & A2 & A3 & _).
  rewrite (lsum_ext _ (fun i => / C (Z.to_nat p) m * (symmetric m (inner (tk kv) (Z.to_nat p) i) * B (tk kv) k (Z.to_nat p) i u))).
  2:{ intros i Hi. apply zseq_In in Hi. rewrite (cox_piece kv k) by (auto; lia). unfold inner_knots, inner.
      rewrite (map_ext_in _ (fun j => tk kv (i + Z.of_nat j))).
      2:{ intros j Hj. apply in_seq in Hj. rewrite tk_knot' by lia. f_equal. lia. }
      unfold Rdiv. ring. }
  rewrite lsum_scal, symmetric_sum by (auto using tk_monotone; lia).
  destruct (le_dec m (Z.to_nat p)); [|lia]. field. unfold C. apply Rmult_integral_contrapositive_currified; [apply INR_fact_neq_0|].
  apply Rinv_neq_0_compat. apply Rmult_integral_contrapositive_currified; apply INR_fact_neq_0.
Qed.

Lemma monomial_sum (dz : R -> R) knots degs us ms : Forall2 good_direction knots degs ->
  Forall2 (fun kv u => first_knot kv <= u <= final_knot kv) knots us -> Forall2 (fun m p => (m <= Z.to_nat p)%nat) ms degs ->
  lsum (fun idx => basis_product knots degs us idx * dual_monomial knots degs idx ms)
       (all_indices (map2 (fun kv p => zlen kv - p - 1)%Z knots degs)) = monomial us ms.
Proof.
  intros Hg. revert us ms. induction Hg as [|kv p knots degs H1 Hg IH]; intros us ms Hu Hm.
  - inversion Hu; inversion Hm; subst. cbn. ring.
  - inversion Hu as [|? u ? us' U1 U2]; inversion Hm as [|m ? ms' ? M1 M2]; subst. cbn [map2 all_indices].
    rewrite lsum_flat_map.
    rewrite (lsum_ext _ (fun i => cox_de_boor kv (Z.to_nat p) (Z.to_nat i) u * (symmetric m (inner_knots kv (Z.to_nat p) (Z.to_nat i)) / C (Z.to_nat p) m) * monomial us' ms')).
    + rewrite lsum_scal_r, (direction_sum dz) by auto. reflexivity.
    + intros i _. rewrite lsum_map, <- (IH us' ms' U2 M2), <- lsum_scal. apply lsum_ext. intros idx _.
      cbn [basis_product dual_monomial]. ring.
Qed.

Lemma poly_sum (dz : R -> R) knots degs us terms : Forall2 good_direction knots degs ->
  Forall2 (fun kv u => first_knot kv <= u <= final_knot kv) knots us -> of_degrees degs terms ->
  lsum (fun idx => basis_product knots degs us idx * dual_poly knots degs terms idx)
       (all_indices (map2 (fun kv p => zlen kv - p - 1)%Z knots degs)) = poly terms us.
Proof.
  intros Hg Hu Ht. unfold poly, dual_poly.
  rewrite (lsum_ext _ (fun idx => lsum (fun t => fst t * (basis_product knots degs us idx * dual_monomial knots degs idx (snd t))) terms)).
  2:{ intros idx _. rewrite <- lsum_scal. apply lsum_ext. intros; ring. }
  rewrite lsum_swap. apply lsum_ext. intros t Hin. rewrite lsum_scal. f_equal.
  apply (monomial_sum dz); auto. unfold of_degrees in Ht. rewrite Forall_forall in Ht. now apply Ht.
Qed.

Section Dz.
Variable dz : R -> R.
Local Notation F := (Rops dz).
Implicit Types s : spline F.

Lemma polynomial_spline : forall s (terms : Z -> list (R * list nat)), well_formed s -> is_bspline s ->
  (forall c, (0 <= c < ph_dim (sp_ph s))%Z -> of_degrees (degs_of s) (terms c) /\
     forall idx, in_box (npts_of s) idx -> coordinate s idx c = dual_poly (knots_of s) (degs_of s) (terms c) idx) ->
  forall us dims, in_domain s us -> valid_dims s dims ->
  evaluate s us dims = Ok (map (fun c => poly (terms c) us) dims).
Proof.
  intros s terms Hwf Hb Hc us dims Hu Hd. rewrite bspline_full_sum by auto. f_equal. apply map_ext_in. intros c Hin.
  unfold valid_dims in Hd. rewrite Forall_forall in Hd. destruct (Hc c (Hd c Hin)) as [H1 H2]. pose proof Hwf as [G _ N _ _ _].
  rewrite <- (poly_sum dz (knots_of s) (degs_of s) us (terms c)) by auto. rewrite <- N.
  apply lsum_ext. intros idx Hi. rewrite H2; auto. now apply all_indices_box.
Qed.

Lemma rational_spline : forall s (wterms : list (R * list nat)) (terms : Z -> list (R * list nat)), well_formed s ->
  of_degrees (degs_of s) wterms ->
  (forall idx, in_box (npts_of s) idx -> weight s idx = dual_poly (knots_of s) (degs_of s) wterms idx) ->
  (forall c, (0 <= c < ph_dim (sp_ph s))%Z -> of_degrees (degs_of s) (terms c) /\
     forall idx, in_box (npts_of s) idx -> weight s idx * coordinate s idx c = dual_poly (knots_of s) (degs_of s) (terms c) idx) ->
  forall us dims, in_domain s us -> valid_dims s dims -> poly wterms us <> 0 ->
  evaluate s us dims = Ok (map (fun c => poly (terms c) us / poly wterms us) dims).
Proof.
  intros s wterms terms Hwf Hw1 Hw2 Hc us dims Hu Hd Hne. pose proof Hwf as [G _ N _ _ _].
  assert (EW : weight_function s us = poly wterms us).
  { rewrite <- (poly_sum dz (knots_of s) (degs_of s) us wterms) by auto. rewrite <- N. unfold weight_function.
    apply lsum_ext. intros idx Hi. rewrite Hw2; auto. now apply all_indices_box. }
  rewrite eval_quotient by (auto; now rewrite EW). f_equal. apply map_ext_in. intros c Hin. rewrite EW. f_equal.
  unfold valid_dims in Hd. rewrite Forall_forall in Hd. destruct (Hc c (Hd c Hin)) as [H1 H2].
  rewrite <- (poly_sum dz (knots_of s) (degs_of s) us (terms c)) by auto. rewrite <- N. unfold weighted_sum.
  apply lsum_ext. intros idx Hi. rewrite H2; auto. now apply all_indices_box.
Qed.

Lemma polynomial_exists : forall knots degs dim (terms : Z -> list (R * list nat)),
  Forall2 good_direction knots degs -> (total (map2 (fun kv p => zlen kv - p - 1)%Z knots degs) < 2 ^ 64)%Z -> (1 <= dim)%Z ->
  (forall c, (0 <= c < dim)%Z -> of_degrees degs (terms c)) -> exists cps s,
  spline_new (F := F) knots degs cps None = Ok s /\ well_formed s /\ knots_of s = knots /\ degs_of s = degs /\ ph_dim (sp_ph s) = dim /\
  forall us dims, in_domain s us -> valid_dims s dims -> evaluate s us dims = Ok (map (fun c => poly (terms c) us) dims).
Proof.
  intros knots degs dim terms Hg Hn Hd Ht.
  set (npts := map2 (fun kv p => zlen kv - p - 1)%Z knots degs) in *.
  set (f := fun idx => map (fun c => dual_poly knots degs (terms c) idx) (zseq 0 (Z.to_nat dim))).
  assert (Hf : forall idx, zlen (f idx) = dim) by (intros; unfold f, zlen; rewrite map_length, zseq_length; lia).
  assert (Hnn : Forall (fun l => 0 <= l)%Z npts).
  { pose proof (good_npts_pos knots degs Hg) as Hp. fold npts in Hp. eapply Forall_impl; [|exact Hp]. cbv beta. intros; lia. }
  assert (Hl : zlen (map f (grid npts)) = total npts).
  { unfold zlen. rewrite map_length, grid_length by auto. change (size npts) with (total npts). pose proof (total_pos _ (good_npts_pos knots degs Hg)). fold npts in H. lia. }
  destruct (spline_new_ok dz knots degs (map f (grid npts)) None dim Hg) as [H1 H2]; auto.
  - apply Forall_forall. intros x Hx. apply in_map_iff in Hx. destruct Hx as (i & <- & _). apply Hf.
  - now rewrite Hl.
  - discriminate.
  - eexists. eexists. split; [exact H1|]. split; [exact H2|]. do 3 (split; [reflexivity|]).
    apply polynomial_spline; auto; [reflexivity|]. intros c Hc. split; [apply Ht; exact Hc|]. intros idx Hi.
    change (0 <= c < dim)%Z in Hc.
    transitivity (nth (Z.to_nat c) (f idx) 0); [|unfold f; rewrite nth_map_zseq by lia; reflexivity].
    apply (grid_points f npts dim idx c); auto.
Qed.
End Dz.
