(* A spline varies no more than its control points. *)
From Coq Require Import ZArith List Bool Lia Reals Lra Sorted.
From Verif Require Import Base BaseFacts RSum MultiIndex MultiIndexSpec MultiIndexFacts TensorSum KnotVec KnotVecSpec KnotVecFacts BSplineTheory Basis BasisSpec BasisFacts
  Spaces SpacesSpec SpacesFacts SplineEval SplineSpec EvalFacts EvalThms InsertFacts MonotoneSpec Monotone1 Monotone Steep VariesSpec.
Import ListNotations.
Open Scope Z_scope.

(* ---- lists of values ---- *)
Definition way (P : Z -> R) (i : Z) : R := lsum (fun j => Rabs (P (j + 1)%Z - P j)) (zseq 0 (Z.to_nat i)).

Lemma way_step P i : 1 <= i -> way P i = (way P (i - 1) + Rabs (P i - P (i - 1)%Z))%R.
Proof.
  intros H. unfold way. replace (Z.to_nat i) with (S (Z.to_nat (i - 1))) by lia. rewrite lsum_zseq_S.
  replace (0 + Z.of_nat (Z.to_nat (i - 1))) with (i - 1) by lia. now replace (i - 1 + 1) with i by lia.
Qed.
Lemma way_le P i j : 0 <= i <= j -> (0 <= way P i <= way P j)%R.
Proof.
  intros H. unfold way. split; [apply lsum_nonneg; intros; apply Rabs_pos|].
  replace (Z.to_nat j) with (Z.to_nat i + (Z.to_nat j - Z.to_nat i))%nat by lia. rewrite zseq_app, lsum_app.
  pose proof (lsum_nonneg (fun j => Rabs (P (j + 1)%Z - P j)) (zseq (0 + Z.of_nat (Z.to_nat i)) (Z.to_nat j - Z.to_nat i)) ltac:(intros; apply Rabs_pos)). lra.
Qed.
Lemma variation_way P n k : variation (map (fun i => P (Z.of_nat i)) (seq k (S n))) = lsum (fun j => Rabs (P (j + 1)%Z - P j)) (zseq (Z.of_nat k) n).
Proof.
  revert k; induction n as [|n IH]; intros k; [reflexivity|].
  change (seq k (S (S n))) with (k :: seq (S k) (S n)). specialize (IH (S k)).
  replace (zseq (Z.of_nat k) (S n)) with (Z.of_nat k :: zseq (Z.of_nat (S k)) n) by (cbn [zseq]; f_equal; f_equal; lia).
  cbn [lsum]. rewrite <- IH. cbn [seq map variation]. replace (Z.of_nat (S k)) with (Z.of_nat k + 1) by lia. reflexivity.
Qed.

Lemma telescoped (S W : R -> R) (D : R -> Prop) K :
  (forall u v, D u -> D v -> (u <= v)%R -> (Rabs (S v - S u) <= W v - W u)%R) -> (forall u, D u -> (W u <= K)%R) ->
  forall vs v, Sorted Rle (v :: vs) -> Forall D (v :: vs) -> (variation (map S (v :: vs)) <= K - W v)%R.
Proof.
  intros H1 H2. induction vs as [|v' vs IH]; intros v Hs Hd.
  - cbn. inversion Hd; subst. pose proof (H2 v ltac:(assumption)). lra.
  - inversion Hs as [|? ? Hs' Hh]; subst. inversion Hh as [|? ? Hle]; subst. inversion Hd as [|? ? Dv Hd']; subst.
    pose proof (IH v' Hs' Hd') as X. inversion Hd' as [|? ? Dv' _]; subst. pose proof (H1 v v' Dv Dv' Hle).
    change (variation (map S (v :: v' :: vs))) with (Rabs (S v' - S v) + variation (map S (v' :: vs)))%R. lra.
Qed.

Section One.
Variable dz : R -> R.
Variables (kv : list R) (p : Z).
Hypothesis Hg : good_direction kv p.
Let n := Z.to_nat (zlen kv - p - 1).
Let line (P : Z -> R) (u : R) : R := lsum (fun i => cox_de_boor kv (Z.to_nat p) (Z.to_nat i) u * P i)%R (zseq 0 n).

Lemma line_varies P u v : (first_knot kv <= u)%R -> (u <= v)%R -> (v <= final_knot kv)%R -> (Rabs (line P v - line P u) <= line (way P) v - line (way P) u)%R.
Proof.
  intros H1 H2 H3.
  assert (X : forall b, (b = 1 \/ b = -1)%R -> (line (way P) u + b * line P u <= line (way P) v + b * line P v)%R).
  { intros b Hb.
    assert (E : forall t, (line (way P) t + b * line P t)%R = line (fun i => way P i + b * P i)%R t).
    { intros t. unfold line. rewrite <- lsum_scal, <- lsum_plus. apply lsum_ext. intros. ring. }
    rewrite !E. apply (line_monotone dz kv p Hg (fun i => way P i + b * P i)%R); try lra.
    intros i Hi. rewrite (way_step P i) by lia. pose proof (Rle_abs (P i - P (i - 1)%Z)). pose proof (Rle_abs (- (P i - P (i - 1)%Z))) as Y. rewrite Rabs_Ropp in Y.
    destruct Hb as [->| ->]; lra. }
  pose proof (X 1%R (or_introl eq_refl)). pose proof (X (-1)%R (or_intror eq_refl)). apply Rabs_le. lra.
Qed.
Lemma line_way P u : (first_knot kv <= u <= final_knot kv)%R -> (0 <= line (way P) u <= way P (zlen kv - p - 2))%R.
Proof.
  intros Hu. unfold line. split.
  - apply lsum_nonneg. intros i Hi. pose proof (cox_nonneg dz kv p Hg u i Hu Hi). apply zseq_In in Hi. pose proof (way_le P i i ltac:(lia)). apply Rmult_le_pos; lra.
  - replace (way P (zlen kv - p - 2)) with (lsum (fun i => cox_de_boor kv (Z.to_nat p) (Z.to_nat i) u * way P (zlen kv - p - 2))%R (zseq 0 n))
      by (rewrite lsum_scal_r; unfold n; rewrite (cox_sum dz kv p Hg u Hu); ring).
    apply lsum_le. intros i Hi. pose proof (cox_nonneg dz kv p Hg u i Hu Hi). unfold n in Hi. apply zseq_In in Hi.
    apply Rmult_le_compat_l; [assumption|]. apply way_le. lia.
Qed.
End One.

Section All.
Variable dz : R -> R.
Implicit Types s : spline (Rops dz).

Theorem evaluation_varies s us d vs c K : well_formed s -> is_bspline s -> in_domain s us -> (d < length us)%nat -> Forall (fun v => in_domain s (upd us d v)) vs -> Sorted Rle vs ->
  0 <= c < ph_dim (sp_ph s) -> rows_within s d c K ->
  exists ys, Forall2 (fun v y => evaluate s (upd us d v) [c] = Ok [y]) vs ys /\ (variation ys <= K)%R.
Proof.
  intros W Hb Hu Hd Hv Hs Hc HK. pose proof (f2_len (wf_directions s W)) as L1. pose proof (f2_len Hu) as L2.
  assert (Hvd : valid_dims s [c]) by (repeat constructor; lia).
  destruct (nth_error (knots_of s) d) as [kv|] eqn:Ek; [|apply nth_error_None in Ek; lia].
  destruct (nth_error (degs_of s) d) as [p|] eqn:Ep; [|apply nth_error_None in Ep; lia].
  destruct (wf_direction dz s d kv p W Ek Ep) as (Hg & Hdn & Hn).
  destruct (facs_good dz (knots_of s) (degs_of s) us (wf_directions s W) Hu) as [F1 F2]. rewrite <- (wf_npts s W) in F1, F2.
  apply (Forall2_remove_at _ d) in F1. apply (Forall2_remove_at _ d) in F2.
  set (fs := remove_at d (facs (knots_of s) (degs_of s) us)) in *. set (ls := remove_at d (rng (npts_of s))) in *.
  set (line := fun (P : Z -> R) (v : R) => lsum (fun i => cox_de_boor kv (Z.to_nat p) (Z.to_nat i) v * P i)%R (zseq 0 (Z.to_nat (zlen kv - p - 1)))).
  set (P := fun r i => coordinate s (insat d i r) c).
  set (S := fun v => tsum fs ls (fun r => line (P r) v)). set (V := fun v => tsum fs ls (fun r => line (way (P r)) v)).
  set (D := fun v => (first_knot kv <= v <= final_knot kv)%R).
  assert (HD : forall v, in_domain s (upd us d v) -> D v) by (intros v Hv'; destruct (moved_domain dz s us d v kv Hu Hv' Ek) as (u & _ & _ & _ & Rv); exact Rv).
  assert (HS : forall v, in_domain s (upd us d v) -> evaluate s (upd us d v) [c] = Ok [S v]).
  { intros v Hv'. destruct (moved_domain dz s us d v kv Hu Hv' Ek) as (u & Eu & Ev & _ & _). rewrite (bspline_full_sum dz) by auto. cbn [map].
    rewrite (collected dz s (upd us d v) d c kv p v) by auto. rewrite (facs_upd _ _ us d kv p v), remove_at_upd by auto. reflexivity. }
  assert (H1 : forall u v, D u -> D v -> (u <= v)%R -> (Rabs (S v - S u) <= V v - V u)%R).
  { intros u v Hu' Hv' Hle. unfold D in *. unfold S, V. rewrite <- !tsum_minus.
    assert (X : forall r, (Rabs (line (P r) v - line (P r) u) <= line (way (P r)) v - line (way (P r)) u)%R) by (intros r; apply (line_varies dz kv p Hg (P r) u v); lra).
    apply Rabs_le. split.
    - replace (- tsum fs ls (fun r => line (way (P r)) v - line (way (P r)) u))%R with (tsum fs ls (fun r => -1 * (line (way (P r)) v - line (way (P r)) u)))%R by (rewrite tsum_scal; ring).
      apply tsum_le; [exact F1|]. intros r _. specialize (X r). apply Rabs_le_inv in X. lra.
    - apply tsum_le; [exact F1|]. intros r _. specialize (X r). apply Rabs_le_inv in X. lra. }
  assert (Hpos : 0 < zlen kv - p - 1) by (destruct Hg as (Hp & (Hl & _) & _); unfold zlen in *; lia).
  assert (H2 : forall u, D u -> (0 <= V u <= K)%R).
  { intros u Hu'. unfold D in Hu'. unfold V. split.
    - rewrite <- (tsum_const fs ls 0%R F2). apply tsum_le; [exact F1|]. intros r _. apply (line_way dz kv p Hg (P r) u Hu').
    - rewrite <- (tsum_const fs ls K F2). apply tsum_le; [exact F1|]. intros r Hr. destruct (rows dz s d kv p r W Ek Ep Hr) as (Hl & Hbx).
      eapply Rle_trans; [apply (line_way dz kv p Hg (P r) u Hu')|]. pose proof (HK (insat d 0 r) (Hbx 0 ltac:(lia))) as Y.
      unfold row_of in Y. rewrite Hn in Y. replace (Z.to_nat (zlen kv - p - 1)) with (Datatypes.S (Z.to_nat (zlen kv - p - 2))) in Y by lia.
      rewrite (map_ext _ (fun i => P r (Z.of_nat i))) in Y by (intros i; unfold P; now rewrite insat_upd).
      rewrite variation_way in Y. exact Y. }
  exists (map S vs). split.
  - clear Hs. induction Hv; cbn; constructor; auto.
  - destruct vs as [|v vs].
    + cbn. destruct (nth_error us d) as [u|] eqn:Eu; [|apply nth_error_None in Eu; lia].
      assert (Du : D u) by (apply HD; rewrite (upd_id us d u) by auto; exact Hu). pose proof (H2 u Du). lra.
    + assert (HF : Forall D (v :: vs)) by (eapply Forall_impl; [|exact Hv]; exact HD).
      pose proof (telescoped S V D K H1 (fun u Hu' => proj2 (H2 u Hu')) vs v Hs HF). pose proof (H2 v ltac:(now inversion HF)). lra.
Qed.
End All.
