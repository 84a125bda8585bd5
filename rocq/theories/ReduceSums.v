(* The sums of a spline in Bezier form and of its degree elevation (C83). *)
From Coq Require Import ZArith List Bool Lia Reals Lra.
From Verif Require Import Base BaseFacts RSum MultiIndex MultiIndexSpec MultiIndexFacts TensorSum
  KnotVec KnotVecSpec KnotVecFacts Basis BasisSpec BSplineTheory BasisFacts BernsteinFacts
  Spaces SpacesSpec SpacesFacts SplineEval SplineEdit SplineSpec EditSpec RemoveSpec EvalFacts EvalThms InsertFacts RemoveFacts UniqueSpec UniqueFacts
  DegreeSpec DegreeFacts AdjustFacts RationalDeriv KnotRuns ReduceKnots ReduceSegments ReduceSpan.
Import ListNotations.
Open Scope Z_scope.

Section Sums.
Variable dz : R -> R.
Local Notation F := (Rops dz).
Implicit Types s : spline F.

(* two splines that differ in one direction, also in the degree *)
Lemma dirs_differ2 s s' L L' d kv kv' p p' : wfL dz s L -> wfL dz s' L' -> order0 L -> order0 L' -> map du L' = map du L ->
  nth_error (knots_of s) d = Some kv -> nth_error (degs_of s) d = Some p ->
  knots_of s' = upd (knots_of s) d kv' -> degs_of s' = upd (degs_of s) d p' ->
  exists x x', nth_error L d = Some x /\ L' = upd L d x' /\ good_dir dz x /\ good_dir dz x' /\
    dk x = kv /\ dk x' = kv' /\ dp x = p /\ dp x' = p' /\ du x' = du x /\ dm x = 0 /\ dm x' = 0.
Proof.
  intros HL HL' H0 H0' Eu Ek Ed Ek' Ed'.
  destruct (wfL_of dz s L HL) as (K1 & K2 & _). destruct (wfL_of dz s' L' HL') as (K1' & K2' & _).
  pose proof HL as (HG & _). pose proof HL' as (HG' & _).
  rewrite Forall_forall in HG, HG'. unfold order0 in *. rewrite Forall_forall in H0, H0'.
  rewrite K1 in Ek, Ek'. rewrite K2 in Ed, Ed'. rewrite K1' in Ek'. rewrite K2' in Ed'.
  rewrite nth_error_map in Ek, Ed. destruct (nth_error L d) as [x|] eqn:Ex; [|discriminate].
  cbn in Ek, Ed. injection Ek as Ek. injection Ed as Ed.
  assert (Hlen : length L' = length L) by (rewrite <- (map_length du L'), Eu, map_length; auto).
  assert (Hx' : exists x', nth_error L' d = Some x').
  { destruct (nth_error L' d) eqn:E; eauto. apply nth_error_None in E. assert (nth_error L d <> None) as C by congruence. apply nth_error_Some in C; lia. }
  destruct Hx' as (x' & Ex').
  assert (Gk : forall j y, nth_error L' j = Some y -> nth_error (upd (map dk L) d kv') j = Some (dk y)).
  { intros j y E. rewrite <- Ek', nth_error_map, E. reflexivity. }
  assert (Gp : forall j y, nth_error L' j = Some y -> nth_error (upd (map dp L) d p') j = Some (dp y)).
  { intros j y E. rewrite <- Ed', nth_error_map, E. reflexivity. }
  assert (Gu : forall j y, nth_error L' j = Some y -> nth_error (map du L) j = Some (du y)).
  { intros j y E. rewrite <- Eu, nth_error_map, E. reflexivity. }
  exists x, x'. split; [auto|]. split; [|].
  - apply nth_error_ext. intros j. destruct (Nat.eq_dec j d) as [->|Hj].
    + rewrite Ex'. symmetry. now apply (nth_error_upd_same L d x' x).
    + rewrite nth_error_upd_other by auto. destruct (nth_error L' j) as [y|] eqn:Ey.
      * specialize (Gk j y Ey). specialize (Gp j y Ey). specialize (Gu j y Ey).
        rewrite nth_error_upd_other in Gk by auto. rewrite nth_error_upd_other in Gp by auto. rewrite nth_error_map in Gk, Gp, Gu.
        destruct (nth_error L j) as [z|] eqn:Ez; [|discriminate]. cbn in Gk, Gp, Gu. f_equal.
        apply (dir_unique dz); try congruence.
        -- apply HG'. eapply nth_error_In; eauto.
        -- apply HG. eapply nth_error_In; eauto.
        -- rewrite (H0 z), (H0' y); auto; eapply nth_error_In; eauto.
      * apply nth_error_None in Ey. symmetry. apply nth_error_None. lia.
  - pose proof (nth_error_In _ _ Ex). pose proof (nth_error_In _ _ Ex').
    specialize (Gk d x' Ex'). specialize (Gp d x' Ex'). specialize (Gu d x' Ex').
    rewrite (nth_error_upd_same (map dk L) d kv' (dk x)) in Gk by (now rewrite nth_error_map, Ex).
    rewrite (nth_error_upd_same (map dp L) d p' (dp x)) in Gp by (now rewrite nth_error_map, Ex).
    rewrite nth_error_map, Ex in Gu. cbn in Gu.
    repeat split; try congruence; try (now apply HG); try (now apply HG'); auto.
Qed.

(* the place of local point j of segment k *)
Definition at_seg (d : nat) (idx : list Z) (q k j : Z) : list Z := upd idx d (k * q + j).

(* a sum over the basis, line by line *)
Lemma bezier_lines s s' d p p' a rs b (c c' : list Z -> R) us :
  well_formed s -> well_formed s' -> 1 <= p -> 1 <= p' -> chain a rs b ->
  direction s d (of_runs p a (fill p rs) b) p ->
  knots_of s' = upd (knots_of s) d (of_runs p' a (fill p' rs) b) -> degs_of s' = upd (degs_of s) d p' ->
  (forall k u r, 0 <= k <= Z.of_nat (length rs) -> in_box (remove_at d (npts_of s)) r -> (0 <= u <= 1)%R ->
     bezier p (fun j => c (insat d (k * p + j) r)) u = bezier p' (fun j => c' (insat d (k * p' + j) r)) u) ->
  in_domain s us ->
  lsum (fun idx => basis_product (knots_of s) (degs_of s) us idx * c idx)%R (all_indices (npts_of s)) =
  lsum (fun idx => basis_product (knots_of s') (degs_of s') us idx * c' idx)%R (all_indices (npts_of s')).
Proof.
  intros Hwf Hwf' Hp Hp' Hch [Ek Ed] Ek' Ed' Hc Hdom.
  assert (Hdom' : in_domain s' us).
  { unfold in_domain in *. rewrite Ek'. clear - Hdom Ek. revert d Ek.
    induction Hdom as [|k v ks vs Hv Hd IH]; intros [|d] Ek; cbn in *; try discriminate; constructor; auto.
    injection Ek as ->. rewrite runs_first, runs_final in *. auto. }
  destruct (wf_dirs dz s us Hwf Hdom) as (L & HL & Eu & H0).
  destruct (wf_dirs dz s' us Hwf' Hdom') as (L' & HL' & Eu' & H0').
  assert (Euu : map du L' = map du L) by congruence.
  rewrite Eu. rewrite (full_sum dz s L c) by auto. rewrite <- Euu. rewrite (full_sum dz s' L' c') by auto.
  destruct (dirs_differ2 s s' L L' d _ _ p p' HL HL' H0 H0' Euu Ek Ed Ek' Ed')
    as (x & x' & Ex & EL & Gx & Gx' & Kx & Kx' & Px & Px' & Ux & Mx & Mx').
  rewrite EL, !map_upd.
  assert (Hd : (d < length L)%nat) by (apply nth_error_Some; congruence).
  assert (Enx : nth d (map dfactor L) (fun _ => 0%R) = dfactor x).
  { rewrite (nth_map_in dfactor L d x) by auto. f_equal. now apply nth_error_nth. }
  assert (Enr : nth d (map drange L) [] = drange x).
  { rewrite (nth_map_in drange L d x) by auto. f_equal. now apply nth_error_nth. }
  apply tsum_dir; [now rewrite map_length | now rewrite !map_length|].
  intros r Hr. rewrite Enx, Enr.
  assert (Hb : in_box (remove_at d (npts_of s)) r).
  { destruct (wfL_of dz s L HL) as (_ & _ & En). rewrite En. apply all_indices_box. rewrite all_indices_boxl. unfold lensL.
    assert (Em : map (fun n => zseq 0 (Z.to_nat n)) (remove_at d (map dlen L)) = remove_at d (map drange L)).
    { clear. revert d. induction L as [|y L IH]; intros [|d]; cbn; auto.
      - rewrite map_map. reflexivity.
      - now rewrite IH. }
    rewrite Em. exact Hr. }
  pose proof Gx as (_ & Sx & Rx & _). pose proof Gx' as (_ & Sx' & Rx' & _). rewrite Kx, Px in *. rewrite Kx', Px', Ux in *.
  destruct (fill_span p a rs b _ _ Hp Hch Rx Sx) as (k & Hk & Em & Hlt & Hlo & Hhi).
  assert (Em' : dsp x' = (k + 1) * p').
  { apply (in_span_unique (of_runs p' a (fill p' rs) b) _ _ (du x)); [|exact Sx'|].
    - destruct Gx' as ((_ & _ & Hn & _) & _). rewrite Kx' in Hn. exact Hn.
    - apply fill_span_intro; auto. }
  rewrite (lsum_ext _ (fun i => B (tk (of_runs p a (fill p rs) b)) ((k + 1) * p) (Z.to_nat p) i (du x) * c (insat d i r))%R).
  2:{ intros i _. rewrite dfactor_0 by auto. now rewrite Kx, Px, Em. }
  rewrite (lsum_ext (fun j => (dfactor x' j * _)%R) (fun i => B (tk (of_runs p' a (fill p' rs) b)) ((k + 1) * p') (Z.to_nat p') i (du x) * c' (insat d i r))%R).
  2:{ intros i _. rewrite dfactor_0 by auto. now rewrite Kx', Px', Em', Ux. }
  unfold drange, dlen. rewrite Kx, Px, Kx', Px', !fill_length by auto.
  replace ((Z.of_nat (length rs) + 2) * p + 2 - p - 1) with ((Z.of_nat (length rs) + 1) * p + 1) by lia.
  replace ((Z.of_nat (length rs) + 2) * p' + 2 - p' - 1) with ((Z.of_nat (length rs) + 1) * p' + 1) by lia.
  rewrite (fill_bezier p a rs b k (du x) (fun i => c (insat d i r))) by auto.
  rewrite (fill_bezier p' a rs b k (du x) (fun i => c' (insat d i r))) by auto.
  apply Hc; auto. assert (U : (du x <= brk a rs b (k + 1))%R) by lra.
  split; [apply Rmult_le_pos; [lra | apply Rlt_le, Rinv_0_lt_compat; lra]|].
  apply Rmult_le_reg_r with (brk a rs b (k + 1) - brk a rs b k)%R; [lra|]. unfold Rdiv. rewrite Rmult_assoc, Rinv_l by lra. lra.
Qed.
End Sums.
