(* Examples for the removal theorems. *)
From Coq Require Import ZArith List Bool Lia Reals Lra.
From Verif Require Import Base BaseFacts RSum MultiIndex MultiIndexSpec KnotVecSpec Spaces SpacesSpec SpacesFacts SplineEval SplineEdit
  SplineSpec DegreeSpec EvalFacts EvalThms PhysFacts InsertFacts EditSpec InsertThms RemoveCheck RemoveSpec RemoveBound.
Import ListNotations.
Open Scope Z_scope.

Notation dz0 := (fun x : R => x).
Definition rk : list R := [0; 0; 0; 1; 2; 2; 2]%R.
Definition rs (w : option (list R)) : spline (Rops dz0) :=
  mkSpline (F := Rops dz0) (mkps dz0 [rk] [2]) (mkPhys (F := Rops dz0) 1 [4] [0; 0; 0; 1]%R w).
Definition rw : list R := [1; 2; 2; 1]%R.

Lemma rs_wf w : (forall l, w = Some l -> zlen l = 4) -> well_formed (rs w).
Proof.
  intros Hw. apply wf_build; [|split; [|split; [|split]]|].
  - pose proof ex_good as H. inversion H; subst. constructor; auto.
  - repeat constructor. lia.
  - cbn. lia.
  - reflexivity.
  - exact Hw.
  - reflexivity.
Qed.

Lemma rk_occ : occurrences rk 1 = 1%nat.
Proof. unfold occurrences, rk. cbn [count_occ]. repeat match goal with |- context [Req_EM_T ?a ?b] => destruct (Req_EM_T a b); try lra end. reflexivity. Qed.

Lemma rk_range : removal_range rk 2 1 1 2.
Proof.
  exists 3%nat. rewrite rk_occ. split; [cbn; lia|]. split; [reflexivity|]. split; [unfold rk, knot; cbn; lra|]. split; reflexivity.
Qed.

Lemma r1 : ratio rk 2 1 1 = (1 / 2)%R.
Proof. unfold ratio. change (knot rk (Z.to_nat 1)) with 0%R. change (knot rk (Z.to_nat (1 + 2 + 1))) with 2%R. field. Qed.
Lemma r2 : ratio rk 2 1 2 = (1 / 2)%R.
Proof. unfold ratio. change (knot rk (Z.to_nat 2)) with 0%R. change (knot rk (Z.to_nat (2 + 2 + 1))) with 2%R. field. Qed.

(* homogeneous coordinates *)
Lemma rs_plain : map (fun i => (hpart (rs None) [i] 0, hpart (rs None) [i] 1)) [0; 1; 2; 3] = [(0, 1); (0, 1); (0, 1); (1, 1)]%R.
Proof. cbn [map]. unfold hpart, weight, coordinate. cbn. rewrite !Rmult_1_l. reflexivity. Qed.
Lemma rs_rational : map (fun i => (hpart (rs (Some rw)) [i] 0, hpart (rs (Some rw)) [i] 1)) [0; 1; 2; 3] = [(0, 1); (0, 2); (0, 2); (1, 1)]%R.
Proof. cbn [map]. unfold hpart, weight, coordinate. cbn. rewrite !Rmult_0_r, !Rmult_1_l. reflexivity. Qed.

Section Gaps.
Variables (w : option (list R)) (w0 w1 : R).
Hypothesis E : map (fun i => (hpart (rs w) [i] 0, hpart (rs w) [i] 1)) [0; 1; 2; 3] = [(0, w0); (0, w1); (0, w1); (1, w0)]%R.
Notation a := (ratio rk 2 1).
Lemma halfs x : (x / (1 / 2) = 2 * x)%R.
Proof. field. Qed.
Lemma ends : left_part (rs w) 0 a 1 [0] 0 1 = 0%R /\ left_part (rs w) 0 a 1 [0] 1 1 = (2 * w1 - w0)%R /\
              right_part (rs w) 0 a 2 [0] 0 2 = (-1)%R /\ right_part (rs w) 0 a 2 [0] 1 2 = (2 * w1 - w0)%R.
Proof.
  cbn [map] in E. injection E as A1 B1 A2 B2 A3 B3 A4 B4.
  unfold left_part, right_part. change (Z.to_nat (1 - (1 - 1))) with 1%nat. change (Z.to_nat (2 + 1 - 2)) with 1%nat.
  cbn [from_left from_right]. cbv zeta. change (1 - 1 + Z.of_nat 1) with 1. change (2 + 1 - Z.of_nat 1) with 2. change (1 - 1) with 0. change (2 + 1) with 3.
  cbn [upd]. rewrite r1, r2, A1, A2, A3, A4, B1, B2, B3, B4. replace (1 - 1 / 2)%R with (1 / 2)%R by lra. rewrite !halfs. repeat split; lra.
Qed.
Lemma bases : left_part (rs w) 0 a 1 [0] 1 0 = w0 /\ right_part (rs w) 0 a 2 [0] 1 3 = w0.
Proof.
  cbn [map] in E. injection E as A1 B1 A2 B2 A3 B3 A4 B4.
  unfold left_part, right_part. change (Z.to_nat (0 - (1 - 1))) with 0%nat. change (Z.to_nat (2 + 1 - 3)) with 0%nat.
  cbn [from_left from_right]. change (1 - 1) with 0. change (2 + 1) with 3. cbn [upd]. auto.
Qed.
Lemma gaps : gap_ends (rs w) 0 a 1 2 [0] = 1%R /\ gap_middle (rs w) 0 a 1 2 [0] = (1 / 2)%R.
Proof.
  assert (Hends : gap_ends (rs w) 0 a 1 2 [0] = 1%R).
  { destruct ends as (L0 & L1 & R0 & R1). unfold gap_ends. change (parts (rs w)) with [0; 1]. cbn [map].
    change (middle 1 2 - 1) with 1. change (opposite 1 2 + 1) with 2. rewrite L0, L1, R0, R1.
    unfold euclid. cbn [combine lsum fst snd]. replace (_ + _)%R with 1%R by ring. apply R_sqrt.sqrt_1. }
  split; [exact Hends|].
  assert (Ha : forall x, 1 <= x <= 2 -> (0 < a x < 1)%R /\ a x = a x).
  { intros x Hx. assert (Hx' : x = 1 \/ x = 2) by lia. destruct Hx' as [-> | ->]; rewrite ?r1, ?r2; lra. }
  rewrite (gap_even (rs w) 0 a a 1 2 ltac:(lia) Ha [0] ltac:(exists 0; reflexivity) ltac:(cbn; lia)), Hends.
  change (middle 1 2) with 2. rewrite r2. lra.
Qed.
Lemma rs_lines cur : In cur (lines_of (rs w) 0) -> cur = [0].
Proof. unfold lines_of. change (upd (npts_of (rs w)) 0 1) with [1]. cbn. intros [<-|[]]. reflexivity. Qed.
Lemma rs_accepts t : accepted (rs w) 0 a 1 2 t <-> (1 / 2 <= t)%R.
Proof.
  destruct gaps as [G1 G2]. split.
  - intros H. assert (HI : In [0] (lines_of (rs w) 0)) by (change (lines_of (rs w) 0) with [[0]]; now left). destruct (H [0] HI) as [C|C]; lra.
  - intros H cur Hc. rewrite (rs_lines cur Hc). right. lra.
Qed.
Lemma rs_nonzero : w0 <> 0%R -> (2 * w1 - w0 <> 0)%R -> weights_nonzero (rs w) 0 a 1 2.
Proof.
  intros H0 H1 cur Hc. rewrite (rs_lines cur Hc). destruct ends as (L0 & L1 & R0 & R1). destruct bases as [B1 B2].
  change (middle 1 2) with 2. change (opposite 1 2) with 1. change (ph_dim (sp_ph (rs w))) with 1. split; intros i Hi.
  - assert (Hx : i = 0 \/ i = 1) by lia. destruct Hx as [-> | ->]; congruence.
  - assert (Hx : i = 2 \/ i = 3) by lia. destruct Hx as [-> | ->]; congruence.
Qed.
End Gaps.

Lemma rw_origin i x : In (i, x) [(0, 0%R); (1, 0%R); (2, 0%R); (3, 1%R)] -> from_origin (rs (Some rw)) [i] = x.
Proof.
  intros H. cbn [In] in H. unfold from_origin, euclid, coordinate.
  change (repeat 0%R (Z.to_nat (ph_dim (sp_ph (rs (Some rw)))))) with [0%R].
  change (zseq 0 (Z.to_nat (ph_dim (sp_ph (rs (Some rw)))))) with [0]. cbn [map combine lsum fst snd].
  repeat (destruct H as [H|H]); try (injection H as <- <-); try contradiction; cbn.
  all: unfold Pos.to_nat; cbn.
  all: match goal with |- R_sqrt.sqrt ?e = _ => first [replace e with 0%R by ring; apply R_sqrt.sqrt_0 | replace e with 1%R by ring; apply R_sqrt.sqrt_1] end.
Qed.

Lemma ex_removal_decision : exists b n : spline (Rops dz0),
  well_formed b /\ is_bspline b /\ direction b 0 rk 2 /\ well_formed n /\ positive_weights n /\ direction n 0 rk 2 /\
  removal_range rk 2 1 1 2 /\ (first_knot rk < 1)%R /\ occurrences rk 1 = 1%nat /\
  accepted b 0 (ratio rk 2 1) 1 2 1 /\ ~ accepted b 0 (ratio rk 2 1) 1 2 (1 / 4) /\
  weights_nonzero n 0 (ratio rk 2 1) 1 2 /\ is_largest_distance n 1 /\ tolerance_in_use n 1 (1 / 2) /\
  accepted n 0 (ratio rk 2 1) 1 2 (1 / 2) /\ ~ accepted n 0 (ratio rk 2 1) 1 2 (1 / 4).
Proof.
  exists (rs None), (rs (Some rw)).
  assert (HP := rs_accepts _ _ _ rs_plain). assert (HR := rs_accepts _ _ _ rs_rational).
  assert (Hall : forall idx, In idx (all_indices (npts_of (rs (Some rw)))) -> idx = [0] \/ idx = [1] \/ idx = [2] \/ idx = [3]).
  { change (all_indices (npts_of (rs (Some rw)))) with [[0]; [1]; [2]; [3]]. cbn [In]. intuition. }
  assert (Hd : is_largest_distance (rs (Some rw)) 1).
  { split.
    - exists [3]. split; [change (all_indices (npts_of (rs (Some rw)))) with [[0]; [1]; [2]; [3]]; cbn; auto|].
      symmetry. apply rw_origin. cbn. auto.
    - intros idx Hi. destruct (Hall idx Hi) as [-> | [-> | [-> | ->]]];
        [rewrite (rw_origin 0 0) | rewrite (rw_origin 1 0) | rewrite (rw_origin 2 0) | rewrite (rw_origin 3 1)]; try lra; cbn; auto. }
  assert (Hw : is_smallest_weight (rs (Some rw)) 1).
  { split.
    - exists [0]. split; [change (all_indices (npts_of (rs (Some rw)))) with [[0]; [1]; [2]; [3]]; cbn; auto | reflexivity].
    - intros idx Hi. destruct (Hall idx Hi) as [-> | [-> | [-> | ->]]]; unfold weight; cbn; unfold Pos.to_nat; cbn; lra. }
  split; [apply rs_wf; discriminate|]. split; [reflexivity|]. split; [split; reflexivity|].
  split; [apply rs_wf; intros l El; injection El as <-; reflexivity|].
  split; [exists rw; split; [reflexivity | repeat constructor; lra]|]. split; [split; reflexivity|].
  split; [apply rk_range|]. split; [unfold rk, first_knot; cbn; lra|]. split; [apply rk_occ|].
  split; [apply HP; lra|]. split; [rewrite HP; lra|].
  split; [apply (rs_nonzero _ _ _ rs_rational); lra|]. split; [auto|].
  split; [|split; [apply HR; lra | rewrite HR; lra]].
  split; [discriminate|]. intros _ w m Hsw Hm.
  assert (w = 1%R).
  { destruct Hw as [(i & I1 & I2) I3]. destruct Hsw as [(j & J1 & J2) J3]. specialize (I3 j J1). specialize (J3 i I1). lra. }
  assert (m = 1%R).
  { destruct Hd as [(i & I1 & I2) I3]. destruct Hm as [(j & J1 & J2) J3]. specialize (I3 j J1). specialize (J3 i I1). lra. }
  subst. lra.
Qed.
