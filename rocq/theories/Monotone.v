(* Splines with monotone control points are monotone: all directions. *)
From Coq Require Import ZArith List Bool Lia Reals Lra.
From Verif Require Import Base BaseFacts RSum MultiIndex MultiIndexSpec MultiIndexFacts TensorSum KnotVec KnotVecSpec KnotVecFacts BSplineTheory Basis BasisSpec BasisFacts
  Spaces SpacesSpec SpacesFacts SplineEval SplineSpec EvalFacts EvalThms InsertFacts MonotoneSpec Monotone1.
Import ListNotations.
Open Scope Z_scope.

Lemma f2_len {A C} {Q : A -> C -> Prop} {l1 l2} : Forall2 Q l1 l2 -> length l1 = length l2.
Proof. induction 1; cbn; auto. Qed.

Fixpoint facs (knots : list (list R)) (degs : list Z) (us : list R) : list (Z -> R) :=
  match knots, degs, us with
  | kv :: knots', p :: degs', u :: us' => (fun i => cox_de_boor kv (Z.to_nat p) (Z.to_nat i) u) :: facs knots' degs' us'
  | _, _, _ => []
  end.

Lemma facs_length knots degs us : length degs = length knots -> length us = length knots -> length (facs knots degs us) = length knots.
Proof. revert degs us; induction knots as [|kv knots IH]; intros [|p degs] [|u us] H1 H2; cbn in *; try discriminate; auto. Qed.
Lemma facs_prod knots degs us idx : length degs = length knots -> length us = length knots -> length idx = length knots ->
  basis_product knots degs us idx = prodf (facs knots degs us) idx.
Proof.
  revert degs us idx; induction knots as [|kv knots IH]; intros [|p degs] [|u us] [|i idx] H1 H2 H3; cbn in *; try discriminate; auto.
  now rewrite IH by lia.
Qed.
Lemma facs_upd knots degs us d kv p v : nth_error knots d = Some kv -> nth_error degs d = Some p -> (d < length us)%nat ->
  facs knots degs (upd us d v) = upd (facs knots degs us) d (fun i => cox_de_boor kv (Z.to_nat p) (Z.to_nat i) v).
Proof.
  revert degs us d; induction knots as [|kv' knots IH]; intros [|p' degs] [|u us] [|d] H1 H2 H3; cbn in *; try discriminate; try lia.
  - injection H1 as <-. now injection H2 as <-.
  - f_equal. apply IH; auto. lia.
Qed.
Lemma facs_nth knots degs us d kv p u : nth_error knots d = Some kv -> nth_error degs d = Some p -> nth_error us d = Some u ->
  nth d (facs knots degs us) (fun _ => 0%R) = (fun i => cox_de_boor kv (Z.to_nat p) (Z.to_nat i) u).
Proof.
  revert degs us d; induction knots as [|kv' knots IH]; intros [|p' degs] [|u' us] [|d] H1 H2 H3; cbn in *; try discriminate.
  - injection H1 as <-. injection H2 as <-. now injection H3 as <-.
  - now apply IH.
Qed.

Definition rng (npts : list Z) : list (list Z) := map (fun n => zseq 0 (Z.to_nat n)) npts.

Section One.
Variable dz : R -> R.
Variables (kv : list R) (p : Z).
Hypothesis Hg : good_direction kv p.

Lemma cox_nonneg u i : (first_knot kv <= u <= final_knot kv)%R -> In i (zseq 0 (Z.to_nat (zlen kv - p - 1))) -> (0 <= cox_de_boor kv (Z.to_nat p) (Z.to_nat i) u)%R.
Proof.
  intros Hu Hi. apply zseq_In in Hi. destruct (eval_direction dz kv p u Hg Hu) as (k & _ & Hsp & K1 & K2). destruct Hg as (Hp & _ & Hn & _).
  rewrite (cox_piece kv k) by (auto; lia). destruct Hsp as (A1 & A2 & A3 & A4 & A5). apply B_nonneg; auto; [now apply tk_monotone | destruct A5 as [A5|[A5 _]]; lra].
Qed.
Lemma cox_sum u : (first_knot kv <= u <= final_knot kv)%R -> lsum (fun i => cox_de_boor kv (Z.to_nat p) (Z.to_nat i) u) (zseq 0 (Z.to_nat (zlen kv - p - 1))) = 1%R.
Proof.
  intros Hu. destruct (eval_direction dz kv p u Hg Hu) as (k & _ & Hsp & K1 & K2). destruct Hg as (Hp & _ & Hn & _).
  pose proof Hsp as (A1 & A2 & A3 & A4 & A5).
  rewrite <- (B_sum (tk kv) (tk_monotone kv Hn) k A3 (Z.to_nat p) u 0 (Z.to_nat (zlen kv - p - 1))) by lia.
  apply lsum_ext. intros i Hi. apply zseq_In in Hi. apply cox_piece; auto; lia.
Qed.
Lemma cox_pieces (P : Z -> R) u : (first_knot kv <= u <= final_knot kv)%R -> exists k,
  lsum (fun i => cox_de_boor kv (Z.to_nat p) (Z.to_nat i) u * P i)%R (zseq 0 (Z.to_nat (zlen kv - p - 1))) =
    piece_sum (tk kv) (Z.to_nat p) (Z.to_nat (zlen kv - p - 1)) P k u /\
  span_ok (tk kv) (Z.to_nat p) (Z.to_nat (zlen kv - p - 1)) k /\ (tk kv k <= u <= tk kv (k + 1)%Z)%R /\ in_span kv k u.
Proof.
  intros Hu. destruct (eval_direction dz kv p u Hg Hu) as (k & _ & Hsp & K1 & K2). destruct Hg as (Hp & _ & Hn & _).
  exists k. pose proof Hsp as (A1 & A2 & A3 & A4 & A5). split; [|split; [|split]]; auto.
  - apply lsum_ext. intros i Hi. apply zseq_In in Hi. rewrite (cox_piece kv k) by (auto; lia). ring.
  - split; [lia | exact A3].
  - split; [exact A4 | destruct A5 as [A5|[A5 _]]; lra].
Qed.
Lemma spans_ordered k k' u v : (u <= v)%R -> in_span kv k u -> in_span kv k' v -> k <= k'.
Proof.
  intros Huv (A1 & A2 & A3 & A4 & A5) (B1 & B2 & B3 & B4 & B5). destruct Hg as (Hp & _ & Hn & _).
  destruct (Z_le_gt_dec k k') as [L|L]; [exact L|]. exfalso.
  pose proof (tk_monotone kv Hn (k' + 1) k ltac:(lia)). pose proof (tk_le_final kv (k + 1) Hn). destruct B5 as [B5|[B5 B6]]; lra.
Qed.

Lemma line_monotone (P : Z -> R) u v : (first_knot kv <= u)%R -> (u <= v)%R -> (v <= final_knot kv)%R ->
  (forall i, 1 <= i < zlen kv - p - 1 -> (P (i - 1)%Z <= P i)%R) ->
  (lsum (fun i => cox_de_boor kv (Z.to_nat p) (Z.to_nat i) u * P i) (zseq 0 (Z.to_nat (zlen kv - p - 1))) <=
   lsum (fun i => cox_de_boor kv (Z.to_nat p) (Z.to_nat i) v * P i) (zseq 0 (Z.to_nat (zlen kv - p - 1))))%R.
Proof.
  intros Hu Huv Hv HP. destruct (cox_pieces P u) as (k & -> & Sk & Rk & Ik); [lra|]. destruct (cox_pieces P v) as (k' & -> & Sk' & Rk' & Ik'); [lra|].
  apply pieces_monotone; auto; [apply tk_monotone, Hg | intros i Hi; apply HP; lia | exact (spans_ordered k k' u v Huv Ik Ik')].
Qed.
Lemma line_strict (P : Z -> R) u v : 1 <= p -> (first_knot kv <= u)%R -> (u < v)%R -> (v <= final_knot kv)%R ->
  (forall i, 1 <= i < zlen kv - p - 1 -> (P (i - 1)%Z < P i)%R) ->
  (lsum (fun i => cox_de_boor kv (Z.to_nat p) (Z.to_nat i) u * P i) (zseq 0 (Z.to_nat (zlen kv - p - 1))) <
   lsum (fun i => cox_de_boor kv (Z.to_nat p) (Z.to_nat i) v * P i) (zseq 0 (Z.to_nat (zlen kv - p - 1))))%R.
Proof.
  intros Hp Hu Huv Hv HP. destruct (cox_pieces P u) as (k & -> & Sk & Rk & Ik); [lra|]. destruct (cox_pieces P v) as (k' & -> & Sk' & Rk' & Ik'); [lra|].
  apply pieces_strict; auto; [apply tk_monotone, Hg | lia | intros i Hi; apply HP; lia | exact (spans_ordered k k' u v ltac:(lra) Ik Ik')].
Qed.
End One.

Section All.
Variable dz : R -> R.
Implicit Types s : spline (Rops dz).

Lemma facs_good : forall knots degs us, Forall2 good_direction knots degs -> Forall2 (fun kv u => (first_knot kv <= u <= final_knot kv)%R) knots us ->
  Forall2 (fun f l => forall i : Z, In i l -> (0 <= f i)%R) (facs knots degs us) (rng (map2 (fun kv p => zlen kv - p - 1) knots degs)) /\
  Forall2 (fun f l => lsum f l = 1%R) (facs knots degs us) (rng (map2 (fun kv p => zlen kv - p - 1) knots degs)).
Proof.
  intros knots degs us H. revert us. induction H as [|kv p knots degs Hg H IH]; intros us Hu; inversion Hu as [|? u ? us' Hu1 Hu2]; subst; cbn; [split; constructor|].
  destruct (IH us' Hu2) as [I1 I2]. split; constructor; auto; [intros i Hi; now apply (cox_nonneg dz kv p Hg) | now apply (cox_sum dz kv p Hg)].
Qed.

Lemma sum_facs s us c : well_formed s -> in_domain s us ->
  lsum (fun idx => basis_product (knots_of s) (degs_of s) us idx * coordinate s idx c)%R (all_indices (npts_of s)) =
  tsum (facs (knots_of s) (degs_of s) us) (rng (npts_of s)) (fun idx => coordinate s idx c).
Proof.
  intros W Hu. pose proof (f2_len (wf_directions s W)) as L1. pose proof (f2_len Hu) as L2.
  assert (L3 : length (npts_of s) = length (knots_of s)) by (rewrite (wf_npts s W), map2_length; auto).
  rewrite <- tsum_boxl by (unfold rng; rewrite map_length, facs_length; congruence).
  rewrite all_indices_boxl. apply lsum_ext. intros idx Hi. apply boxl_length in Hi. unfold rng in Hi. rewrite map_length in Hi. rewrite facs_prod; congruence.
Qed.

Lemma insat_next d i r : (d <= length r)%nat -> next_in d (insat d (i - 1) r) = insat d i r.
Proof. intros H. unfold next_in. rewrite insat_nth, insat_upd by auto. f_equal. lia. Qed.

Lemma collected s us d c kv p u : well_formed s -> in_domain s us -> nth_error (knots_of s) d = Some kv -> nth_error (degs_of s) d = Some p -> nth_error us d = Some u ->
  lsum (fun idx => basis_product (knots_of s) (degs_of s) us idx * coordinate s idx c)%R (all_indices (npts_of s)) =
  tsum (remove_at d (facs (knots_of s) (degs_of s) us)) (remove_at d (rng (npts_of s)))
    (fun r => lsum (fun i => cox_de_boor kv (Z.to_nat p) (Z.to_nat i) u * coordinate s (insat d i r) c)%R (zseq 0 (Z.to_nat (zlen kv - p - 1)))).
Proof.
  intros W Hu Ek Ep Eu. rewrite sum_facs by auto. pose proof (f2_len (wf_directions s W)) as L1. pose proof (f2_len Hu) as L2.
  assert (L3 : length (npts_of s) = length (knots_of s)) by (rewrite (wf_npts s W), map2_length; auto).
  assert (Hd : (d < length (knots_of s))%nat) by (apply nth_error_Some; congruence).
  rewrite (tsum_collect _ _ _ d) by (unfold rng; rewrite ?map_length, ?facs_length; congruence).
  rewrite (facs_nth _ _ _ d kv p u) by auto.
  replace (nth d (rng (npts_of s)) []) with (zseq 0 (Z.to_nat (zlen kv - p - 1))); [reflexivity|].
  symmetry. apply nth_error_nth. unfold rng. rewrite nth_error_map, (wf_npts s W).
  assert (G : forall (l1 : list (list R)) (l2 : list Z) n a b, nth_error l1 n = Some a -> nth_error l2 n = Some b ->
     nth_error (map2 (fun kv p => zlen kv - p - 1) l1 l2) n = Some (zlen a - b - 1)).
  { induction l1 as [|x l1 IH]; intros [|y l2] [|n] a b E1 E2; cbn in *; try discriminate; [congruence | now apply IH]. }
  now rewrite (G _ _ _ _ _ Ek Ep).
Qed.

Lemma remove_rng d npts : remove_at d (rng npts) = rng (remove_at d npts).
Proof. unfold rng. revert d; induction npts as [|n npts IH]; intros [|d]; cbn; auto. now rewrite IH. Qed.

Lemma Forall2_remove_at {A C} (Q : A -> C -> Prop) d l1 l2 : Forall2 Q l1 l2 -> Forall2 Q (remove_at d l1) (remove_at d l2).
Proof. intros H. revert d. induction H as [|a b l1 l2 Hab H IH]; intros [|d]; cbn; auto; constructor; auto. Qed.

Lemma rows s d kv p r : well_formed s -> nth_error (knots_of s) d = Some kv -> nth_error (degs_of s) d = Some p ->
  In r (boxl (remove_at d (rng (npts_of s)))) -> (d <= length r)%nat /\ forall i, 0 <= i < zlen kv - p - 1 -> in_box (npts_of s) (insat d i r).
Proof.
  intros W Ek Ep Hr. pose proof (f2_len (wf_directions s W)) as L1.
  assert (L3 : length (npts_of s) = length (knots_of s)) by (rewrite (wf_npts s W), map2_length; auto).
  assert (Hd : (d < length (knots_of s))%nat) by (apply nth_error_Some; congruence).
  assert (En : nth d (npts_of s) 0 = zlen kv - p - 1).
  { apply nth_error_nth. rewrite (wf_npts s W). clear - Ek Ep. revert d Ek Ep. generalize (knots_of s), (degs_of s).
    induction l as [|x l IH]; intros [|y l2] [|n] E1 E2; cbn in *; try discriminate; [congruence | now apply IH]. }
  split.
  - apply boxl_length in Hr. rewrite Hr, remove_rng. unfold rng. rewrite map_length, remove_at_length by lia. lia.
  - intros i Hi. apply in_box_insat_range; [lia | lia |]. apply all_indices_box. rewrite all_indices_boxl. rewrite remove_rng in Hr. exact Hr.
Qed.

Lemma moved_domain s us d v kv : in_domain s us -> in_domain s (upd us d v) -> nth_error (knots_of s) d = Some kv ->
  exists u, nth_error us d = Some u /\ nth_error (upd us d v) d = Some v /\ (first_knot kv <= u <= final_knot kv)%R /\ (first_knot kv <= v <= final_knot kv)%R.
Proof.
  unfold in_domain. intros H. revert d. induction H as [|kv' u knots us Hu H IH]; intros [|d] H2 Ek; cbn in *; try discriminate.
  - injection Ek as ->. inversion H2 as [|? ? ? ? Hv H3]; subst. exists u. repeat split; auto; try apply Hu; apply Hv.
  - inversion H2 as [|? ? ? ? Hv H3]; subst. now apply IH.
Qed.

Theorem evaluation_monotone s us d v c : well_formed s -> is_bspline s -> in_domain s us -> in_domain s (upd us d v) -> (d < length us)%nat ->
  0 <= c < ph_dim (sp_ph s) -> (nth d us 0 <= v)%R -> never_falls s d c ->
  exists x y, evaluate s us [c] = Ok [x] /\ evaluate s (upd us d v) [c] = Ok [y] /\ (x <= y)%R.
Proof.
  intros W Hb Hu Hv Hd Hc Huv HP. pose proof (f2_len (wf_directions s W)) as L1. pose proof (f2_len Hu) as L2.
  assert (Hvd : valid_dims s [c]) by (repeat constructor; lia).
  rewrite !(bspline_full_sum dz) by auto. cbn [map]. eexists; eexists. split; [reflexivity|]. split; [reflexivity|].
  destruct (nth_error (knots_of s) d) as [kv|] eqn:Ek; [|apply nth_error_None in Ek; lia].
  destruct (nth_error (degs_of s) d) as [p|] eqn:Ep; [|apply nth_error_None in Ep; lia].
  destruct (moved_domain s us d v kv Hu Hv Ek) as (u & Eu & Ev & Ru & Rv). rewrite (nth_error_nth _ _ _ Eu) in Huv.
  rewrite (collected s us d c kv p u), (collected s (upd us d v) d c kv p v) by auto.
  rewrite (facs_upd _ _ us d kv p v), remove_at_upd by auto.
  assert (Hg : good_direction kv p).
  { pose proof (wf_directions s W) as HW. clear - HW Ek Ep. revert d Ek Ep. induction HW as [|? ? ? ? H1 H2 IH]; intros [|d] A1 A2; cbn in *; try discriminate; [congruence | eauto]. }
  apply tsum_le.
  - apply Forall2_remove_at. rewrite (wf_npts s W). now apply facs_good; [apply W|].
  - intros r Hr. destruct (rows s d kv p r W Ek Ep Hr) as (Hl & Hbx). apply (line_monotone dz kv p Hg (fun i => coordinate s (insat d i r) c)); try lra.
    intros i Hi. rewrite <- (insat_next d i r Hl). apply HP; [apply Hbx; lia|]. rewrite insat_next by auto. apply Hbx. lia.
Qed.

Theorem evaluation_strict s us d v c p : well_formed s -> is_bspline s -> in_domain s us -> in_domain s (upd us d v) ->
  nth_error (degs_of s) d = Some p -> 1 <= p ->
  0 <= c < ph_dim (sp_ph s) -> (nth d us 0 < v)%R -> always_grows s d c ->
  exists x y, evaluate s us [c] = Ok [x] /\ evaluate s (upd us d v) [c] = Ok [y] /\ (x < y)%R.
Proof.
  intros W Hb Hu Hv Ep Hp Hc Huv HP. pose proof (f2_len (wf_directions s W)) as L1. pose proof (f2_len Hu) as L2.
  assert (Hd : (d < length (degs_of s))%nat) by (apply nth_error_Some; congruence).
  assert (Hvd : valid_dims s [c]) by (repeat constructor; lia).
  rewrite !(bspline_full_sum dz) by auto. cbn [map]. eexists; eexists. split; [reflexivity|]. split; [reflexivity|].
  destruct (nth_error (knots_of s) d) as [kv|] eqn:Ek; [|apply nth_error_None in Ek; lia].
  destruct (moved_domain s us d v kv Hu Hv Ek) as (u & Eu & Ev & Ru & Rv). rewrite (nth_error_nth _ _ _ Eu) in Huv.
  rewrite (collected s us d c kv p u), (collected s (upd us d v) d c kv p v) by auto.
  rewrite (facs_upd _ _ us d kv p v), remove_at_upd by (auto; lia).
  assert (Hg : good_direction kv p).
  { pose proof (wf_directions s W) as HW. clear - HW Ek Ep. revert d Ek Ep. induction HW as [|? ? ? ? H1 H2 IH]; intros [|d] A1 A2; cbn in *; try discriminate; [congruence | eauto]. }
  apply Rminus_gt_0_lt. rewrite <- tsum_minus.
  destruct (facs_good (knots_of s) (degs_of s) us (wf_directions s W) Hu) as [F1 F2]. rewrite <- (wf_npts s W) in F1, F2.
  apply tsum_pos.
  - apply f2_len in F1. assert (H := F1). unfold rng in *. rewrite !remove_at_length; rewrite ?F1, ?map_length; try (rewrite (wf_npts s W), map2_length by auto; lia).
  - now apply Forall2_remove_at.
  - now apply Forall2_remove_at.
  - intros r Hr. destruct (rows s d kv p r W Ek Ep Hr) as (Hl & Hbx). apply Rlt_Rminus. apply (line_strict dz kv p Hg (fun i => coordinate s (insat d i r) c)); try lra; try lia.
    intros i Hi. rewrite <- (insat_next d i r Hl). apply HP; [apply Hbx; lia|]. rewrite insat_next by auto. apply Hbx. lia.
Qed.
End All.

(* a curve with one growing coordinate passes no point twice *)
Theorem curve_injective dz (s : spline (Rops dz)) u v c p : well_formed s -> is_bspline s -> degs_of s = [p] -> 1 <= p -> in_domain s [u] -> in_domain s [v] ->
  0 <= c < ph_dim (sp_ph s) -> always_grows s 0 c -> evaluate s [u] [c] = evaluate s [v] [c] -> u = v.
Proof.
  intros W Hb Ed Hp Hu Hv Hc HG E.
  destruct (Rtotal_order u v) as [L|[L|L]]; [exfalso | exact L | exfalso].
  - destruct (evaluation_strict dz s [u] 0 v c p W Hb Hu Hv) as (x & y & E1 & E2 & L'); auto; [now rewrite Ed|]. cbn [upd] in E2. rewrite E1, E2 in E. injection E as ->. lra.
  - destruct (evaluation_strict dz s [v] 0 u c p W Hb Hv Hu) as (x & y & E1 & E2 & L'); auto; [now rewrite Ed|]. cbn [upd] in E2. rewrite E1, E2 in E. injection E as ->. lra.
Qed.
