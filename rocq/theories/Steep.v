(* A spline is nowhere steeper than its control polygon. *)
From Coq Require Import ZArith List Bool Lia Reals Lra.
From Verif Require Import Base BaseFacts RSum MultiIndex MultiIndexSpec MultiIndexFacts TensorSum KnotVec KnotVecSpec KnotVecFacts BSplineTheory Basis BasisSpec BasisFacts
  Spaces SpacesSpec SpacesFacts SplineEval SplineSpec EvalFacts EvalThms InsertFacts GrevilleSpec GrevilleFacts OneSidedSpec OneSidedThms MonotoneSpec Monotone1 Monotone SteepSpec.
Import ListNotations.
Open Scope Z_scope.

Lemma Rabs_le_inv a b : (Rabs a <= b)%R -> (- b <= a <= b)%R.
Proof. intros H. pose proof (Rle_abs a). pose proof (Rle_abs (- a)) as Y. rewrite Rabs_Ropp in Y. lra. Qed.

Section One.
Variable dz : R -> R.
Variables (kv : list R) (p : Z).
Hypothesis Hg : good_direction kv p.
Hypothesis Hp : 1 <= p.
Notation n := (Z.to_nat (zlen kv - p - 1)).
Notation N u i := (cox_de_boor kv (Z.to_nat p) (Z.to_nat i) u).

Lemma cox_linear u : (first_knot kv <= u <= final_knot kv)%R -> lsum (fun i => N u i * greville kv p i)%R (zseq 0 n) = u.
Proof.
  intros Hu. destruct (eval_direction dz kv p u Hg Hu) as (k & _ & Hsp & K1 & K2). pose proof Hg as (_ & _ & Hn & _).
  pose proof Hsp as (A1 & A2 & A3 & A4 & A5). assert (Hi0 : INR (Z.to_nat p) <> 0%R) by (apply not_0_INR; lia).
  rewrite (lsum_ext _ (fun i => / INR (Z.to_nat p) * (ksum (tk kv) (Z.to_nat p) i * B (tk kv) k (Z.to_nat p) i u))%R).
  - rewrite lsum_scal, B_linear; auto; [field; auto | now apply tk_monotone | lia | lia].
  - intros i Hi. apply zseq_In in Hi. rewrite (cox_piece kv k) by (auto; lia). rewrite greville_ksum by lia. field. auto.
Qed.

Lemma line_combination a b (P : Z -> R) u : (first_knot kv <= u <= final_knot kv)%R ->
  lsum (fun i => N u i * (a * greville kv p i + b * P i))%R (zseq 0 n) = (a * u + b * lsum (fun i => N u i * P i) (zseq 0 n))%R.
Proof.
  intros Hu. transitivity (a * lsum (fun i => N u i * greville kv p i) (zseq 0 n) + b * lsum (fun i => N u i * P i) (zseq 0 n))%R; [|now rewrite cox_linear].
  rewrite <- !lsum_scal, <- lsum_plus. apply lsum_ext. intros i _. ring.
Qed.

Lemma line_steep_le K (P : Z -> R) u v : (first_knot kv <= u)%R -> (u <= v)%R -> (v <= final_knot kv)%R ->
  (forall i, 1 <= i < zlen kv - p - 1 -> (Rabs (P i - P (i - 1)%Z) <= K * (greville kv p i - greville kv p (i - 1)%Z))%R) ->
  (Rabs (lsum (fun i => N v i * P i) (zseq 0 n) - lsum (fun i => N u i * P i) (zseq 0 n)) <= K * (v - u))%R.
Proof.
  intros H1 H2 H3 HP.
  assert (X : forall b, (b = 1 \/ b = -1)%R -> (K * u + b * lsum (fun i => N u i * P i) (zseq 0 n) <= K * v + b * lsum (fun i => N v i * P i) (zseq 0 n))%R).
  { intros b Hb. rewrite <- !line_combination by lra. apply (line_monotone dz kv p Hg (fun i => K * greville kv p i + b * P i)%R); try lra.
    intros i Hi. specialize (HP i Hi). pose proof (Rle_abs (P i - P (i - 1)%Z)). pose proof (Rle_abs (- (P i - P (i - 1)%Z))) as Y. rewrite Rabs_Ropp in Y.
    destruct Hb as [->| ->]; lra. }
  pose proof (X 1%R (or_introl eq_refl)). pose proof (X (-1)%R (or_intror eq_refl)). apply Rabs_le. lra.
Qed.

Lemma line_steep K (P : Z -> R) u v : (first_knot kv <= u <= final_knot kv)%R -> (first_knot kv <= v <= final_knot kv)%R ->
  (forall i, 1 <= i < zlen kv - p - 1 -> (Rabs (P i - P (i - 1)%Z) <= K * (greville kv p i - greville kv p (i - 1)%Z))%R) ->
  (Rabs (lsum (fun i => N v i * P i) (zseq 0 n) - lsum (fun i => N u i * P i) (zseq 0 n)) <= K * Rabs (v - u))%R.
Proof.
  intros Hu Hv HP. destruct (Rle_dec u v) as [L|L].
  - rewrite (Rabs_pos_eq (v - u)) by lra. apply line_steep_le; auto; lra.
  - rewrite Rabs_minus_sym, (Rabs_minus_sym v u), (Rabs_pos_eq (u - v)) by lra. apply line_steep_le; auto; lra.
Qed.
End One.

Section All.
Variable dz : R -> R.
Implicit Types s : spline (Rops dz).

Lemma one_direction s us d v c p K : well_formed s -> is_bspline s -> in_domain s us -> in_domain s (upd us d v) ->
  nth_error (degs_of s) d = Some p -> 1 <= p -> 0 <= c < ph_dim (sp_ph s) -> polygon_within s d c K ->
  exists x y, evaluate s us [c] = Ok [x] /\ evaluate s (upd us d v) [c] = Ok [y] /\ (Rabs (y - x) <= K * Rabs (v - nth d us 0))%R.
Proof.
  intros W Hb Hu Hv Ep Hp Hc HP. pose proof (f2_len (wf_directions s W)) as L1. pose proof (f2_len Hu) as L2.
  assert (Hd : (d < length (degs_of s))%nat) by (apply nth_error_Some; congruence).
  assert (Hvd : valid_dims s [c]) by (repeat constructor; lia).
  rewrite !(bspline_full_sum dz) by auto. cbn [map]. eexists; eexists. split; [reflexivity|]. split; [reflexivity|].
  destruct (nth_error (knots_of s) d) as [kv|] eqn:Ek; [|apply nth_error_None in Ek; lia].
  destruct (moved_domain dz s us d v kv Hu Hv Ek) as (u & Eu & Ev & Ru & Rv). rewrite (nth_error_nth _ _ _ Eu).
  rewrite (collected dz s us d c kv p u), (collected dz s (upd us d v) d c kv p v) by auto.
  rewrite (facs_upd _ _ us d kv p v), remove_at_upd by (auto; lia).
  assert (Hg : good_direction kv p).
  { pose proof (wf_directions s W) as HW. clear - HW Ek Ep. revert d Ek Ep. induction HW as [|? ? ? ? H1 H2 IH]; intros [|d] A1 A2; cbn in *; try discriminate; [congruence | eauto]. }
  destruct (facs_good dz (knots_of s) (degs_of s) us (wf_directions s W) Hu) as [F1 F2]. rewrite <- (wf_npts s W) in F1, F2.
  apply (Forall2_remove_at _ d) in F1. apply (Forall2_remove_at _ d) in F2.
  rewrite <- tsum_minus.
  assert (X : forall r, In r (boxl (remove_at d (rng (npts_of s)))) ->
    (Rabs (lsum (fun i => cox_de_boor kv (Z.to_nat p) (Z.to_nat i) v * coordinate s (insat d i r) c) (zseq 0 (Z.to_nat (zlen kv - p - 1))) -
           lsum (fun i => cox_de_boor kv (Z.to_nat p) (Z.to_nat i) u * coordinate s (insat d i r) c) (zseq 0 (Z.to_nat (zlen kv - p - 1)))) <= K * Rabs (v - u))%R).
  { intros r Hr. destruct (rows dz s d kv p r W Ek Ep Hr) as (Hl & Hbx).
    apply (line_steep dz kv p Hg Hp K (fun i => coordinate s (insat d i r) c)); auto.
    intros i Hi. pose proof (HP kv p (insat d (i - 1) r) Ek Ep (Hbx (i - 1) ltac:(lia))) as Y. rewrite insat_next, insat_nth in Y by auto.
    replace (i - 1 + 1) with i in Y by lia. apply Y. apply Hbx. lia. }
  apply Rabs_le. split.
  - rewrite <- (tsum_const (remove_at d (facs (knots_of s) (degs_of s) us)) (remove_at d (rng (npts_of s))) (- (K * Rabs (v - u)))%R F2).
    apply tsum_le; [exact F1|]. intros r Hr. specialize (X r Hr). apply Rabs_le_inv in X. lra.
  - rewrite <- (tsum_const (remove_at d (facs (knots_of s) (degs_of s) us)) (remove_at d (rng (npts_of s))) (K * Rabs (v - u))%R F2).
    apply tsum_le; [exact F1|]. intros r Hr. specialize (X r Hr). apply Rabs_le_inv in X. lra.
Qed.

(* one parameter after the other *)
Lemma path_step (us vs : list R) k v : nth_error vs k = Some v -> length us = length vs -> upd (firstn k vs ++ skipn k us) k v = firstn (S k) vs ++ skipn (S k) us.
Proof.
  revert us vs; induction k as [|k IH]; intros [|u us] [|v' vs] E L; cbn in *; try discriminate.
  - now injection E as <-.
  - f_equal. apply IH; auto.
Qed.
Lemma path_nth (us vs : list R) k : (k < length us)%nat -> length us = length vs -> nth k (firstn k vs ++ skipn k us) 0%R = nth k us 0%R.
Proof. revert us vs; induction k as [|k IH]; intros [|u us] [|v' vs] E L; cbn in *; try lia; auto. apply IH; lia. Qed.
Lemma path_domain {A} (Q : A -> R -> Prop) l us vs k : Forall2 Q l us -> Forall2 Q l vs -> Forall2 Q l (firstn k vs ++ skipn k us).
Proof.
  intros H. revert vs k. induction H as [|a u l us Ha H IH]; intros vs k H2; inversion H2 as [|? v ? vs' Hv H3]; subst.
  - destruct k; constructor.
  - destruct k as [|k]; cbn; [constructor; auto|]. constructor; auto.
Qed.

Theorem all_directions s us vs c Ks : well_formed s -> is_bspline s -> in_domain s us -> in_domain s vs ->
  Forall (fun p => 1 <= p) (degs_of s) -> 0 <= c < ph_dim (sp_ph s) -> (forall d, (d < length us)%nat -> polygon_within s d c (nth d Ks 0%R)) ->
  exists x y, evaluate s us [c] = Ok [x] /\ evaluate s vs [c] = Ok [y] /\
    (Rabs (y - x) <= lsum (fun d => nth d Ks 0 * Rabs (nth d vs 0 - nth d us 0)) (seq 0 (length us)))%R.
Proof.
  intros W Hb Hu Hv HD Hc HP. pose proof (f2_len (wf_directions s W)) as L1. pose proof (f2_len Hu) as L2. pose proof (f2_len Hv) as L3.
  assert (G : forall k, (k <= length us)%nat -> exists x y, evaluate s us [c] = Ok [x] /\ evaluate s (firstn k vs ++ skipn k us) [c] = Ok [y] /\
    (Rabs (y - x) <= lsum (fun d => nth d Ks 0 * Rabs (nth d vs 0 - nth d us 0)) (seq 0 k))%R).
  { induction k as [|k IH]; intros Hk.
    - assert (Hvd : valid_dims s [c]) by (repeat constructor; lia). cbn [firstn skipn app seq lsum].
      rewrite !(bspline_full_sum dz) by auto. cbn [map]. eexists; eexists. split; [reflexivity|]. split; [reflexivity|]. unfold Rminus. rewrite Rplus_opp_r, Rabs_R0. lra.
    - destruct (IH ltac:(lia)) as (x & y & E1 & E2 & H). clear IH.
      destruct (nth_error vs k) as [v|] eqn:Ev; [|apply nth_error_None in Ev; lia].
      destruct (nth_error (degs_of s) k) as [p|] eqn:Ep; [|apply nth_error_None in Ep; lia].
      assert (Hp : 1 <= p) by (rewrite Forall_forall in HD; apply HD; eapply nth_error_In; eauto).
      destruct (one_direction s (firstn k vs ++ skipn k us) k v c p (nth k Ks 0%R) W Hb) as (y' & z & E3 & E4 & H'); auto.
      + now apply path_domain.
      + rewrite path_step by (auto; congruence). now apply path_domain.
      + rewrite path_step in E4 by (auto; congruence). rewrite path_nth in H' by (auto; congruence). assert (y' = y) by congruence. subst y'.
        exists x, z. split; [exact E1|]. split; [exact E4|]. rewrite seq_S, lsum_app. cbn [lsum Nat.add]. rewrite (nth_error_nth _ _ _ Ev).
        replace (z - x)%R with ((z - y) + (y - x))%R by ring. eapply Rle_trans; [apply Rabs_triang|]. lra. }
  destruct (G (length us) (le_n _)) as (x & y & E1 & E2 & H). exists x, y. split; [exact E1|]. split; [|exact H].
  rewrite skipn_all, app_nil_r, firstn_all2 in E2 by lia. exact E2.
Qed.

Theorem derivative_bound s us d c p K : well_formed s -> is_bspline s -> in_domain s us ->
  nth_error (degs_of s) d = Some p -> 1 <= p -> 0 <= c < ph_dim (sp_ph s) -> polygon_within s d c K ->
  exists l, evaluate_derivative s us [c] (upd (map (fun _ => 0) (degs_of s)) d 1) = Ok [l] /\ (Rabs l <= K)%R.
Proof.
  intros W Hb Hu Ep Hp Hc HP. pose proof (f2_len (wf_directions s W)) as L1. pose proof (f2_len Hu) as L2.
  assert (Hd : (d < length (degs_of s))%nat) by (apply nth_error_Some; congruence).
  destruct (nth_error (knots_of s) d) as [kv|] eqn:Ek; [|apply nth_error_None in Ek; lia].
  destruct (nth_error us d) as [u|] eqn:Eu; [|apply nth_error_None in Eu; lia].
  assert (Hg : good_direction kv p).
  { pose proof (wf_directions s W) as HW. clear - HW Ek Ep. revert d Ek Ep. induction HW as [|? ? ? ? H1 H2 IH]; intros [|d] A1 A2; cbn in *; try discriminate; [congruence | eauto]. }
  assert (Hne : (first_knot kv < final_knot kv)%R) by apply Hg.
  assert (Ru : (first_knot kv <= u <= final_knot kv)%R).
  { clear - Hu Ek Eu. unfold in_domain in Hu. revert d Ek Eu. induction Hu as [|? ? ? ? H1 H2 IH]; intros [|d] A1 A2; cbn in *; try discriminate; [congruence | eauto]. }
  destruct (derivative_one_sided dz s us (map (fun _ => 0) (degs_of s)) d kv u c W Hu) as (l & El & HR & HL); auto.
  { now rewrite map_length. }
  { apply Forall_forall. intros m Hm. apply in_map_iff in Hm as (? & <- & _). lia. }
  replace (nth d (map (fun _ => 0) (degs_of s)) 0) with 0 in El by (symmetry; clear; revert d; induction (degs_of s) as [|a l0 IH]; intros [|d]; cbn; auto).
  exists l. split; [exact El|].
  assert (Hvd : valid_dims s [c]) by (repeat constructor; lia).
  assert (Dom : forall v, (first_knot kv <= v <= final_knot kv)%R -> in_domain s (upd us d v)).
  { intros v Rv. clear - Hu Ek Rv. unfold in_domain in *. revert d Ek. induction Hu as [|? ? ? ? H1 H2 IH]; intros [|d] A1; cbn in *; try discriminate; constructor; auto; congruence. }
  assert (St : forall v, (first_knot kv <= v <= final_knot kv)%R ->
    (Rabs (only_value (evaluate_derivative s (upd us d v) [c] (map (fun _ => 0%Z) (degs_of s))) - only_value (evaluate_derivative s (upd us d u) [c] (map (fun _ => 0%Z) (degs_of s)))) <= K * Rabs (v - u))%R).
  { intros v Rv. pose proof (Dom v Rv) as Dv. pose proof (Dom u Ru) as Du.
    assert (Eus : upd us d u = us) by (apply upd_id; auto).
    rewrite Eus in *. destruct (one_direction s us d v c p K W Hb Hu Dv Ep Hp Hc HP) as (x & y & E1 & E2 & H).
    rewrite !(derivative_order_zero dz) by auto. rewrite E1, E2. cbn [only_value]. now rewrite (nth_error_nth _ _ _ Eu) in H. }
  destruct (Rle_dec (Rabs l) K) as [|Hn]; [assumption|]. exfalso.
  destruct (Rlt_dec u (final_knot kv)) as [Lt|Ge].
  - destruct (HR Lt (Rabs l - K)%R ltac:(lra)) as (delta & Hdl & Q). set (h := Rmin (delta / 2) (final_knot kv - u)).
    assert (Hh : (0 < h < delta)%R) by (unfold h; split; [apply Rmin_glb_lt; lra | pose proof (Rmin_l (delta / 2) (final_knot kv - u)); lra]).
    assert (Hf : (u + h <= final_knot kv)%R) by (unfold h; pose proof (Rmin_r (delta / 2) (final_knot kv - u)); lra).
    specialize (Q h Hh). specialize (St (u + h)%R ltac:(lra)). replace (u + h - u)%R with h in St by ring. rewrite (Rabs_pos_eq h) in St by lra.
    match type of Q with (Rabs (?num / h - l) < _)%R => set (D := num) in * end.
    assert (Rabs (D / h) <= K)%R. { unfold Rdiv. rewrite Rabs_mult, (Rabs_pos_eq (/ h)) by (left; apply Rinv_0_lt_compat; lra). apply Rmult_le_reg_r with h; [lra|]. rewrite Rmult_assoc, Rinv_l, Rmult_1_r by lra. exact St. }
    pose proof (Rabs_triang_inv l (D / h)). rewrite Rabs_minus_sym in Q. lra.
  - assert (Eq : u = final_knot kv) by lra. destruct (HL Eq (Rabs l - K)%R ltac:(lra)) as (delta & Hdl & Q). set (h := Rmin (delta / 2) (u - first_knot kv)).
    assert (Hh : (0 < h < delta)%R) by (unfold h; split; [apply Rmin_glb_lt; lra | pose proof (Rmin_l (delta / 2) (u - first_knot kv)); lra]).
    assert (Hf : (first_knot kv <= u - h)%R) by (unfold h; pose proof (Rmin_r (delta / 2) (u - first_knot kv)); lra).
    specialize (Q h Hh). specialize (St (u - h)%R ltac:(lra)). replace (u - h - u)%R with (- h)%R in St by ring. rewrite Rabs_Ropp, (Rabs_pos_eq h) in St by lra.
    rewrite Rabs_minus_sym in St. match type of Q with (Rabs (?num / h - l) < _)%R => set (D := num) in * end.
    assert (Rabs (D / h) <= K)%R. { unfold Rdiv. rewrite Rabs_mult, (Rabs_pos_eq (/ h)) by (left; apply Rinv_0_lt_compat; lra). apply Rmult_le_reg_r with h; [lra|]. rewrite Rmult_assoc, Rinv_l, Rmult_1_r by lra. exact St. }
    pose proof (Rabs_triang_inv l (D / h)). rewrite Rabs_minus_sym in Q. lra.
Qed.
End All.
