(* Closing lemmas for the degree reduction of splines (C83). *)
From Coq Require Import ZArith List Bool Lia Reals Lra.
From Verif Require Import Base BaseFacts RSum MultiIndex MultiIndexSpec MultiIndexFacts TensorSum
  KnotVec KnotVecSpec KnotVecFacts Basis BasisSpec BSplineTheory BasisFacts
  Spaces SpacesSpec SpacesFacts SplineEval SplineEdit SplineSpec EditSpec RemoveSpec EvalFacts EvalThms PhysFacts InsertFacts InsertThms RemoveFacts RemoveThms RemoveBound UniqueSpec UniqueFacts
  SplineDegree DegreeSpec DegreeFacts DegreeReduce DegreeThms KnotRuns ReduceKnots ReduceSegments ReduceSpan ReduceSums ReduceFacts ReduceStage ReduceMain ReduceSpec.
Import ListNotations.
Open Scope Z_scope.

(* ---- knot vectors ---- *)
Lemma nd_app (l1 l2 : list R) : nondecreasing l1 -> nondecreasing l2 -> (forall x y, In x l1 -> In y l2 -> (x <= y)%R) -> nondecreasing (l1 ++ l2).
Proof.
  intros H1 H2 H i j Hij Hj. rewrite app_length in Hj. unfold knot. destruct (Nat.lt_ge_cases j (length l1)) as [C|C].
  - rewrite !app_nth1 by lia. apply H1; lia.
  - destruct (Nat.lt_ge_cases i (length l1)) as [C'|C'].
    + rewrite app_nth1, app_nth2 by lia. apply H; apply nth_In; lia.
    + rewrite !app_nth2 by lia. apply H2; lia.
Qed.
Lemma nd_repeat x m : nondecreasing (repeat x m).
Proof. intros i j Hij Hj. rewrite repeat_length in Hj. unfold knot. rewrite !nth_in_repeat by lia. lra. Qed.
Lemma nd_runs p a rs b : chain a rs b -> nondecreasing (of_runs p a rs b).
Proof.
  intros Hc. pose proof (chain_lt _ _ _ Hc). pose proof (chain_between _ _ _ Hc) as F. rewrite Forall_forall in F.
  assert (N : forall a, chain a rs b -> nondecreasing (expand rs)).
  { clear. induction rs as [|[x m] rs IH]; intros a Hc; [intros i j _ Hj; cbn in Hj; lia|]. destruct Hc as (C1 & C2 & C3). cbn [fst snd] in *.
    rewrite expand_cons. apply nd_app; [apply nd_repeat | now apply (IH x)|]. intros y z Hy Hz. apply repeat_spec in Hy. subst y.
    pose proof (chain_between _ _ _ C3) as F. rewrite Forall_forall in F. specialize (F z Hz). lra. }
  apply nd_app; [apply nd_repeat | apply nd_app; [now apply (N a) | apply nd_repeat |] |].
  - intros x y Hx Hy. apply repeat_spec in Hy. subst y. specialize (F x Hx). lra.
  - intros x y Hx Hy. apply repeat_spec in Hx. subst x. apply in_app_or in Hy as [Hy|Hy]; [specialize (F y Hy); lra | apply repeat_spec in Hy; lra].
Qed.

Definition bump (rs : list (R * nat)) : list (R * nat) := map (fun r => (fst r, S (snd r))) rs.
Lemma bump_chain a rs b : chain a rs b -> chain a (bump rs) b.
Proof. revert a. induction rs as [|[x m] rs IH]; intros a H; cbn [bump map chain fst snd] in *; auto. destruct H as (H1 & H2 & H3). split; [auto|]. split; [lia|]. now apply IH. Qed.
Lemma bump_fill p rs : fill p (bump rs) = fill p rs.
Proof. unfold fill, bump. rewrite map_map. reflexivity. Qed.
Lemma bump_gaps p rs : gaps p (bump rs) = gaps (p - 1) rs.
Proof. unfold gaps, bump. rewrite map_map. apply map_ext. intros r. cbn [snd]. lia. Qed.
Lemma bump_length rs : length (bump rs) = length rs.
Proof. unfold bump. now rewrite map_length. Qed.

Lemma runs_in p a rs b x : chain a rs b -> In x (of_runs p a rs b) <-> In x (a :: map fst rs ++ [b]).
Proof.
  intros Hc. unfold of_runs. cbn [In]. rewrite !in_app_iff. cbn [In].
  assert (E : In x (expand rs) <-> In x (map fst rs)).
  { pose proof (chain_counts (fun x => x) _ _ _ Hc) as F. clear Hc. induction F as [|[y m] rs Hm F IH]; [tauto|]. cbn [snd map fst In] in *. rewrite expand_cons, in_app_iff, IH.
    split; intros [H|H]; auto; [left; symmetry; now apply repeat_spec in H | left; subst; destruct m; [lia | now left]]. }
  rewrite E. split.
  - intros [H|[H|H]]; [apply repeat_spec in H; auto | auto | apply repeat_spec in H; auto].
  - rewrite Nat.add_comm. cbn [Nat.add repeat In]. intuition.
Qed.

Lemma bump_occ p a rs b x : 1 <= p -> chain a rs b ->
  occurrences (of_runs p a (bump rs) b) x = (occurrences (of_runs (p - 1) a rs b) x + if in_dec Req_EM_T x (of_runs (p - 1) a rs b) then 1 else 0)%nat.
Proof.
  intros Hp Hc.
  assert (G : forall a, chain a rs b -> occurrences (expand (bump rs)) x = (occurrences (expand rs) x + if in_dec Req_EM_T x (expand rs) then 1 else 0)%nat).
  { clear a Hc. induction rs as [|[y m] rs IH]; intros a Hc; [reflexivity|]. destruct Hc as (C1 & C2 & C3). cbn [fst snd] in *.
    unfold bump in *. cbn [map fst snd]. rewrite !expand_cons, !occ_app, !occ_repeat. specialize (IH y C3).
    destruct (Req_EM_T y x) as [->|N].
    - rewrite IH. destruct (in_dec Req_EM_T x (expand rs)) as [I|I].
      { exfalso. pose proof (chain_between _ _ _ C3) as F. rewrite Forall_forall in F. specialize (F x I). lra. }
      destruct (in_dec _ x (repeat x m ++ _)) as [J|J]; [lia|]. exfalso. apply J. apply in_or_app. left. destruct m; [lia|]. now left.
    - rewrite IH. destruct (in_dec Req_EM_T x (expand rs)) as [I|I]; destruct (in_dec _ x (repeat y m ++ _)) as [J|J]; try lia.
      + exfalso. apply J. apply in_or_app. now right.
      + exfalso. apply in_app_or in J as [J|J]; [apply repeat_spec in J; congruence | contradiction]. }
  specialize (G a Hc). unfold of_runs. rewrite !occ_app, !occ_repeat, G. pose proof (chain_lt _ _ _ Hc) as Hab.
  pose proof (chain_between _ _ _ Hc) as F. rewrite Forall_forall in F.
  set (A := repeat a (Z.to_nat (p - 1) + 1)). set (E := expand rs) in *. set (Bn := repeat b (Z.to_nat (p - 1) + 1)).
  assert (HA : In x A <-> a = x) by (unfold A; split; [intros H; apply repeat_spec in H; auto | intros ->; rewrite Nat.add_comm; now left]).
  assert (HB : In x Bn <-> b = x) by (unfold Bn; split; [intros H; apply repeat_spec in H; auto | intros ->; rewrite Nat.add_comm; now left]).
  destruct (in_dec Req_EM_T x E) as [I|I].
  - specialize (F x I). destruct (Req_EM_T a x); [lra|]. destruct (Req_EM_T b x); [lra|].
    destruct (in_dec _ x (A ++ E ++ Bn)) as [J|J]; [lia|]. exfalso. apply J. apply in_or_app. right. apply in_or_app. now left.
  - destruct (in_dec _ x (A ++ E ++ Bn)) as [J|J].
    + assert (EI : occurrences E x = 0%nat) by (apply (count_occ_not_In Req_EM_T); exact I).
      apply in_app_or in J as [J|J]; [|apply in_app_or in J as [J|J]; [contradiction|]].
      * apply HA in J. subst x. destruct (Req_EM_T a a); [|congruence]. destruct (Req_EM_T b a); [lra|]. lia.
      * apply HB in J. subst x. destruct (Req_EM_T b b); [|congruence]. destruct (Req_EM_T a b); [lra|]. lia.
    + destruct (Req_EM_T a x); [exfalso; apply J; apply in_or_app; left; now apply HA|].
      destruct (Req_EM_T b x); [exfalso; apply J; apply in_or_app; right; apply in_or_app; right; now apply HB|]. lia.
Qed.

(* the knots of a direction as runs *)
Lemma as_runs kv p : good_direction kv p -> full_support kv p -> exists a rs b, kv = of_runs p a rs b /\ chain a rs b /\ first_knot kv = a /\ final_knot kv = b /\
  Z.of_nat (distinct_values kv) = 2 + Z.of_nat (length rs) /\
  forall x m, In (x, m) rs -> (a < x < b)%R /\ occurrences kv x = m /\ In x kv.
Proof.
  intros Hg Hf. destruct (runs_exist kv p Hg Hf) as (rs & E & Hc). exists (first_knot kv), rs, (final_knot kv). split; [exact E|]. split; [exact Hc|].
  split; [auto|]. split; [auto|]. destruct Hg as (Hp0 & (Hl & _) & Hn & _). split.
  - rewrite <- (num_different_distinct (fun x => x)); auto.
    + rewrite E at 1. now rewrite runs_different.
    + intros ->. cbn [length] in Hl. lia.
  - intros x m Hi. apply in_split in Hi as (r1 & r2 & ->). destruct (chain_split _ _ _ _ _ _ Hc) as (C1 & C2 & C3).
    pose proof (chain_lt _ _ _ C1). pose proof (chain_lt _ _ _ C3). split; [lra|].
    assert (Eo : occurrences kv x = m) by (rewrite E at 1; now apply runs_occ). split; [exact Eo|].
    apply (count_occ_In Req_EM_T). fold (occurrences kv x). lia.
Qed.

Lemma counts_le kv p a rs b m : kv = of_runs p a rs b -> chain a rs b -> first_knot kv = a -> final_knot kv = b ->
  (forall x m, In (x, m) rs -> (a < x < b)%R /\ occurrences kv x = m /\ In x kv) -> interior_at_most kv m -> Forall (fun r => Z.of_nat (snd r) <= m) rs.
Proof.
  intros E Hc E1 E2 Ho Hi. apply Forall_forall. intros [x k] Hk. destruct (Ho x k Hk) as (H1 & H2 & _). cbn [snd]. rewrite <- H2. apply Hi. rewrite E1, E2. exact H1.
Qed.

Lemma fill_support p a rs b : 1 <= p -> chain a rs b -> full_support (of_runs p a (fill p rs) b) p.
Proof.
  intros Hp Hc. assert (Hct : chain a (fill p rs) b) by (apply (chain_fill (fun x => x) p a [] rs b Hp); exact Hc).
  apply support_occ; [lia | now apply nd_runs|]. apply runs_occ_le; auto; [lia|]. apply Forall_forall. intros r Hr. apply in_map_iff in Hr as (q & <- & _). cbn. lia.
Qed.

Lemma max_of (f : Z -> R) (n : nat) : exists e, (0 <= e)%R /\ (forall k, 0 <= k < Z.of_nat n -> (f k <= e)%R) /\ (e = 0%R \/ exists k, 0 <= k < Z.of_nat n /\ e = f k).
Proof.
  induction n as [|n (e & H0 & H1 & H2)].
  - exists 0%R. split; [lra|]. split; [intros; lia | auto].
  - destruct (Rle_dec (f (Z.of_nat n)) e) as [C|C].
    + exists e. split; [auto|]. split.
      * intros k Hk. destruct (Z.eq_dec k (Z.of_nat n)) as [->|]; [auto | apply H1; lia].
      * destruct H2 as [H2|(k & Hk & H2)]; [auto | right; exists k; split; [lia | auto]].
    + exists (f (Z.of_nat n)). split; [lra|]. split.
      * intros k Hk. destruct (Z.eq_dec k (Z.of_nat n)) as [->|]; [lra|]. specialize (H1 k ltac:(lia)). lra.
      * right. exists (Z.of_nat n). split; [lia | auto].
Qed.

Lemma upd2_all {A B} (P : A -> B -> Prop) l1 l2 d a b : Forall2 P l1 l2 -> P a b -> Forall2 P (upd l1 d a) (upd l2 d b).
Proof. intros H Hg. revert d. induction H; intros [|d]; cbn [upd]; constructor; auto. Qed.
Lemma remove_pos d lens : pos_lens lens -> pos_lens (remove_at d lens).
Proof. intros H. revert d. induction H; intros [|d]; cbn [remove_at]; try constructor; auto. now apply IHForall. Qed.

Lemma in_box_put lens idx d i : in_box lens idx -> 0 <= i < nth d lens 0 -> in_box lens (upd idx d i).
Proof. intros H Hi. apply (in_box_upd lens idx d i (nth d lens 0)); auto. now rewrite upd_nth_self. Qed.
Lemma elevated_ext p f f' j : 1 <= p -> 0 <= j <= p -> (forall j, 0 <= j <= p - 1 -> f j = f' j) -> elevated p f j = elevated p f' j.
Proof.
  intros Hp Hj H. unfold elevated. destruct (Z.eq_dec j 0) as [->|N0]; [|destruct (Z.eq_dec j p) as [->|N1]].
  - rewrite (H 0) by lia. unfold Rdiv. ring.
  - rewrite (H (p - 1)) by lia. unfold Rdiv. rewrite Rinv_r by (apply not_0_IZR; lia). ring.
  - rewrite (H j), (H (j - 1)) by lia. reflexivity.
Qed.

Section Thms.
Variable dz : R -> R.
Local Notation F := (Rops dz).
Implicit Types s t q : spline F.

Lemma same_sums_map q s d kq kp : same_sums q s -> nth_error (knots_of q) d = Some kq -> knots_of s = upd (knots_of q) d kp ->
  first_knot kp = first_knot kq -> final_knot kp = final_knot kq -> same_map dz q s.
Proof.
  intros (H1 & H2 & H3) Ek Ek' E1 E2. split; [auto|]. split.
  - unfold is_weighted, is_bspline in *. destruct (ph_wts (sp_ph s)), (ph_wts (sp_ph q)); auto; [destruct H2 as [_ H2]; specialize (H2 eq_refl) | destruct H2 as [H2 _]; specialize (H2 eq_refl)]; discriminate.
  - intros us. split; [now apply (in_domain_upd_iff dz q s d kq kp) | apply H3].
Qed.

Definition hsums s us c : R := lsum (fun idx => basis_product (knots_of s) (degs_of s) us idx * hpart s idx c)%R (all_indices (npts_of s)).
Lemma hsums_eq s us c : hsums s us c = if c <? ph_dim (sp_ph s) then weighted_sum s us c else weight_function s us.
Proof. unfold hsums, hpart, weighted_sum, weight_function. destruct (c <? ph_dim (sp_ph s)); reflexivity. Qed.


Lemma is_weighted_iff s t : is_weighted dz (sp_ph t) = is_weighted dz (sp_ph s) -> (is_bspline t <-> is_bspline s).
Proof. unfold is_weighted, is_bspline. destruct (ph_wts (sp_ph t)), (ph_wts (sp_ph s)); intros E; try discriminate; split; intros H; auto; discriminate. Qed.

(* ---- the threshold ---- *)
Theorem reduce_threshold s d kv p : well_formed s -> regular s -> direction s d kv p -> 2 <= p ->
  Forall2 full_support (knots_of s) (degs_of s) -> interior_at_most kv p -> bezier_size kv p ->
  exists e, (0 <= e)%R /\ (forall tol, (tol <= e)%R -> reduce_degree s d tol = Ok (false, s)) /\
    forall tol r, (e < tol)%R -> reduce_degree s d tol = Ok r -> fst r = true.
Proof.
  intros Hwf Hreg Hdir Hp Hf Hi Hz. pose proof Hdir as [Ek Ed]. pose proof Hwf as [Hgd _ _ _ _ _].
  destruct (as_runs kv p (Forall2_nth_error _ _ _ _ _ _ Hgd Ek Ed) (Forall2_nth_error _ _ _ _ _ _ Hf Ek Ed)) as (a & rs & b & E & Hc & E1 & E2 & E3 & Ho).
  pose proof (counts_le kv p a rs b p E Hc E1 E2 Ho Hi) as Hm. assert (Hfit : fits p rs) by (unfold fits, bezier_size in *; nia).
  rewrite E in Hdir. destruct (reduce_cases dz s d p a rs b Hwf Hreg Hdir Hc Hp Hm Hfit) as (s1 & cps & new & err & t & Ep & W1 & R1 & K1 & G1 & M1 & SF & RD & HT).
  destruct (max_of err (length rs + 1)) as (e & H0 & Hmax & He). exists e. split; [auto|].
  assert (En : Z.of_nat (length rs + 1) = Z.of_nat (length rs) + 1) by lia. rewrite En in *. split.
  - intros tol Ht. destruct (HT tol) as [[_ HA]|[HB _]].
    + rewrite HA. rewrite (remove_ok dz s d p a rs b s1) by (auto; lia). reflexivity.
    + exfalso. destruct He as [->|(k & Hk & ->)].
      * specialize (HB 0 ltac:(lia)). destruct (SF 0 ltac:(lia)) as (_ & P & _). lra.
      * specialize (HB k Hk). lra.
  - intros tol r Ht Hr. destruct (HT tol) as [[(k & Hk & HA) _]|[_ HB]].
    + specialize (Hmax k Hk). lra.
    + rewrite HB in Hr. apply bind_Ok in Hr as (s5 & _ & Hr). inversion Hr. reflexivity.
Qed.

(* ---- exactness ---- *)
Lemma reduce_to s d p a rs b q1 : well_formed s -> regular s -> direction s d (of_runs p a rs b) p -> chain a rs b -> 2 <= p ->
  Forall (fun r => Z.of_nat (snd r) <= p) rs -> fits p rs -> Forall2 full_support (knots_of s) (degs_of s) ->
  well_formed q1 -> regular q1 -> knots_of q1 = upd (knots_of s) d (of_runs (p - 1) a (fill (p - 1) rs) b) -> degs_of q1 = upd (degs_of s) d (p - 1) ->
  same_map dz s q1 -> forall tol, (0 < tol)%R -> reduce_degree s d tol = bind (remove_bezier q1 d (gaps p rs)) (fun s5 => Ok (true, s5)).
Proof.
  intros Ws Rs Ds Hc Hp Hm Hfit Fs Wq1 Rq1 Kq1 Gq1 Mq1 tol Ht. pose proof Ds as [Eks Eds].
  destruct (reduce_cases dz s d p a rs b Ws Rs Ds Hc Hp Hm Hfit) as (s1 & cps & new & err & t & Ep & W1 & R1 & K1 & G1 & M1 & SF & RD & HT).
  unfold reduction in RD.
  set (n := Z.of_nat (length rs) + 1) in *. cbv zeta in RD. destruct RD as (Wt & Kt & Gt & Dt & Nt & Wwt & RD). set (D := ph_dim (sp_ph s1)) in *.
  assert (Msq : same_map dz s1 q1) by (eapply same_map_trans; [apply same_map_sym; exact M1 | exact Mq1]).
  assert (Ek1 : nth_error (knots_of s1) d = Some (of_runs p a (fill p rs) b)) by (rewrite K1; now apply (nth_error_upd_same _ _ _ (of_runs p a rs b))).
  assert (Ed1 : nth_error (degs_of s1) d = Some p) by (now rewrite G1).
  assert (Kq1s : knots_of q1 = upd (knots_of s1) d (of_runs (p - 1) a (fill (p - 1) rs) b)) by (rewrite Kq1, K1, !upd_upd; reflexivity).
  assert (Gq1s : degs_of q1 = upd (degs_of s1) d (p - 1)) by (now rewrite Gq1, G1).
  destruct (wf_direction dz s1 d _ p W1 Ek1 Ed1) as (_ & Hdl & Hnd).
  assert (Hnd' : nth d (npts_of s1) 0 = n * p + 1) by (rewrite Hnd; rewrite fill_length by lia; unfold n; lia).
  assert (F1 : Forall2 full_support (knots_of s1) (degs_of s1)).
  { rewrite K1, G1. apply Forall2_upd; auto. intros p' Ep'. replace p' with p by congruence. apply fill_support; auto; lia. }
  (* the coefficients of s1 are those of q1, elevated *)
  assert (HL : forall idx c, in_box (npts_of s1) idx -> 0 <= c <= D -> hpart s1 idx c = lifted d p n (fun i => hpart q1 i c) idx).
  { intros idx c Hb Hc'. pose proof W1 as [Hg1 _ Hnp1 _ _ _]. assert (Hb2 := Hb). rewrite Hnp1 in Hb2.
    destruct (supported_spans _ _ idx Hg1 F1 Hb2) as (ks & Hne & Hu).
    assert (Z0 : (hpart s1 idx c - lifted d p n (fun i => hpart q1 i c) idx)%R = 0%R); [|lra].
    apply (tensor_independent dz (knots_of s1) (degs_of s1) ks (fun idx => hpart s1 idx c - lifted d p n (fun i => hpart q1 i c) idx)%R Hg1 Hne); [|exact Hu].
    intros us Hus. pose proof (inside_in_domain _ _ _ _ Hg1 Hus) as Hdom. rewrite <- Hnp1.
    rewrite (lsum_ext _ (fun j => (basis_product (knots_of s1) (degs_of s1) us j * hpart s1 j c - basis_product (knots_of s1) (degs_of s1) us j * lifted d p n (fun i => hpart q1 i c) j))%R) by (intros; ring).
    rewrite lsum_minus. unfold n. rewrite (lifted_sums dz s1 q1 d p a rs b) by (auto; split; auto).
    fold (hsums s1 us c) (hsums q1 us c). rewrite !hsums_eq. destruct Msq as (MD & _ & Mm). destruct (Mm us) as [_ Mm2]. destruct (Mm2 Hdom) as [X1 X2].
    rewrite MD. fold D. destruct (Z.ltb_spec c D); [rewrite X2 by (fold D; lia) | rewrite X1]; ring. }
  assert (HV : forall r k j c, in_box (remove_at d (npts_of s1)) r -> 0 <= k < n -> 0 <= j <= p -> 0 <= c <= D ->
    value (cps k) p (get1d (remove_at d (npts_of s1)) r) j c = elevated p (fun j => hpart q1 (insat d (k * (p - 1) + j) r) c) j).
  { intros r k j c Hr Hk Hj Hc'. destruct (SF k Hk) as (_ & _ & V1 & _).
    assert (Hlr : (d <= length r)%nat) by (apply in_box_length in Hr; rewrite Hr, remove_at_length by auto; lia).
    assert (Hb : in_box (npts_of s1) (insat d (k * p + j) r)).
    { apply in_box_insat_range; auto. rewrite Hnd'. split; [nia|]. assert (k * p + p <= n * p) by nia. lia. }
    specialize (V1 (insat d (k * p + j) r) c Hb). rewrite insat_nth in V1 by auto. specialize (V1 ltac:(nia) Hc').
    unfold line in V1. rewrite insat_remove in V1 by auto. replace (k * p + j - k * p) with j in V1 by lia. fold D in V1. rewrite V1.
    rewrite HL by auto. rewrite (lifted_at d p n _ _ k j) by (auto; now rewrite insat_nth). unfold elevated. now rewrite !insat_upd. }
  assert (Herr : forall k, 0 <= k < n -> err k = 0%R).
  { intros k Hk. destruct (SF k Hk) as (_ & _ & _ & _ & _ & _ & V). apply V. intros i c Hi' Hc'.
    destruct (get1d_surj (remove_at d (npts_of s1)) i) as (r & Hr & Er); [|exact Hi'|].
    - apply remove_pos. exact (proj1 (wf_phys dz s1 W1)).
    - exists (fun j => hpart q1 (insat d (k * (p - 1) + j) r) c). intros j Hj. rewrite <- Er. now apply HV. }
  assert (Hh : forall idx, in_box (npts_of t) idx -> let k := seg_of (p - 1) n (nth d idx 0) in
    forall c, 0 <= c <= D -> value (new k) (p - 1) (line (npts_of s1) d idx) (nth d idx 0 - k * (p - 1)) c = hpart q1 idx c).
  { intros idx Hb k c Hc'.
    assert (Hli : (d < length idx)%nat) by (apply in_box_length in Hb; rewrite Hb, Nt, upd_length; lia).
    assert (Hnt : 0 <= nth d idx 0 <= n * (p - 1)).
    { pose proof (in_box_nth _ _ d Hb) as B. rewrite Nt in B. rewrite nth_upd_same in B by lia. rewrite upd_length in B. specialize (B ltac:(lia)). lia. }
    assert (Hk : 0 <= k < n).
    { unfold k, seg_of. split; [apply Z.min_glb; [apply Z.div_pos; lia | unfold n; lia] | lia]. }
    assert (Hj : 0 <= nth d idx 0 - k * (p - 1) <= p - 1).
    { unfold k, seg_of in *. pose proof (Z.div_mod (nth d idx 0) (p - 1) ltac:(lia)). pose proof (Z.mod_pos_bound (nth d idx 0) (p - 1) ltac:(lia)).
      destruct (Z.min_spec (nth d idx 0 / (p - 1)) (n - 1)) as [[M ->]|[M ->]]; nia. }
    set (r := remove_at d idx). assert (Hr : in_box (remove_at d (npts_of s1)) r).
    { unfold r. replace (remove_at d (npts_of s1)) with (remove_at d (npts_of t)) by (rewrite Nt; apply remove_at_upd). now apply in_box_remove_at. }
    destruct (SF k Hk) as (_ & _ & _ & _ & _ & V & _).
    unfold line. fold r. rewrite (V (get1d (remove_at d (npts_of s1)) r) c (fun j => hpart q1 (insat d (k * (p - 1) + j) r) c)); auto.
    - replace (k * (p - 1) + (nth d idx 0 - k * (p - 1))) with (nth d idx 0) by lia. unfold r. now rewrite remove_insat.
    - unfold lines_in. apply get1d_range. exact Hr. }
  assert (Et : t = q1).
  { assert (Eps : sp_ps t = sp_ps q1) by (rewrite (wf_mkps dz t Wt), (wf_mkps dz q1 Wq1); congruence).
    assert (En : npts_of t = npts_of q1) by (symmetry; now apply (same_shape dz)).
    assert (Edim : ph_dim (sp_ph t) = ph_dim (sp_ph q1)) by (rewrite Dt; symmetry; apply Msq).
    assert (Ewt : is_weighted dz (sp_ph t) = is_weighted dz (sp_ph q1)) by (rewrite Wwt; symmetry; apply Msq).
    assert (Eph : sp_ph t = sp_ph q1).
    { apply (phys_ext dz); auto; try (now apply (wf_phys dz)).
      - intros idx c Hb Hc'. rewrite Dt in Hc'. destruct (RD idx Hb) as [_ RC]. fold (coordinate t idx c) in RC. specialize (RC c Hc'). cbv zeta in RC.
        rewrite !(Hh idx Hb) in RC by lia. rewrite <- !coordinate_p.
        rewrite RC. unfold hpart. rewrite <- Edim, Dt. fold D. destruct (Z.ltb_spec c D); [|lia]. destruct (Z.ltb_spec D D); [lia|].
        pose proof (weight_nonzero dz q1 idx Wq1 Rq1 ltac:(now rewrite <- En)) as Hw. rnorm. rewrite (ndiv_R dz) by auto. field. auto.
      - intros Hw idx Hb. destruct (RD idx Hb) as [RW _]. rewrite Wwt in Hw. specialize (RW Hw). cbv zeta in RW. rewrite (Hh idx Hb) in RW by (unfold D; pose proof (wf_phys dz s1 W1) as (_ & P & _); lia).
        rewrite <- !weight_p. rewrite RW. unfold hpart. rewrite <- Edim, Dt. fold D.
        destruct (Z.ltb_spec D D); [lia | reflexivity]. }
    destruct t, q1. cbn in *. congruence. }
  destruct (HT tol) as [[(k & Hk & HA) _]|[_ HB]].
  - rewrite (Herr k Hk) in HA. lra.
  - now rewrite HB, Et.
Qed.

Theorem reduce_exact q s d kq kp p : well_formed q -> regular q -> direction q d kq (p - 1) -> 2 <= p ->
  Forall2 full_support (knots_of q) (degs_of q) -> interior_at_most kq (p - 1) -> bezier_size kq p ->
  well_formed s -> regular s -> knots_of s = upd (knots_of q) d kp -> degs_of s = upd (degs_of q) d p -> one_copy_more kq kp -> same_sums q s ->
  forall tol, (0 < tol)%R -> reduce_degree s d tol = Ok (true, q).
Proof.
  intros Wq Rq Dq Hp Fq Hi Hz Ws Rs Ks Gs Hoc Hsame tol Ht. pose proof Dq as [Ekq Edq]. pose proof Wq as [Hgd _ _ _ _ _].
  destruct (as_runs kq (p - 1) (Forall2_nth_error _ _ _ _ _ _ Hgd Ekq Edq) (Forall2_nth_error _ _ _ _ _ _ Fq Ekq Edq)) as (a & rs & b & E & Hc & E1 & E2 & E3 & Ho).
  pose proof (counts_le kq (p - 1) a rs b (p - 1) E Hc E1 E2 Ho Hi) as Hm.
  assert (Hfit : fits p rs) by (unfold fits, bezier_size in *; nia). assert (Hfit' : fits (p - 1) rs) by (unfold fits in *; nia).
  assert (Eks : nth_error (knots_of s) d = Some kp) by (rewrite Ks; now apply (nth_error_upd_same _ _ _ kq)).
  assert (Eds : nth_error (degs_of s) d = Some p) by (rewrite Gs; now apply (nth_error_upd_same _ _ _ (p - 1))).
  pose proof Ws as [Hgs _ _ _ _ _]. pose proof (Forall2_nth_error _ _ _ _ _ _ Hgs Eks Eds) as Gp.
  pose proof (bump_chain a rs b Hc) as Hcb.
  assert (Ekp : kp = of_runs p a (bump rs) b).
  { apply sorted_occ_eq; [apply Gp | now apply nd_runs|]. intros x. rewrite Hoc, bump_occ by (auto; lia). now rewrite E. }
  assert (Ms : same_map dz q s).
  { apply (same_sums_map q s d kq kp); auto.
    - rewrite Ekp, E. now rewrite !runs_first by lia.
    - rewrite Ekp, E. now rewrite !runs_final by lia. }
  assert (Dq' : direction q d (of_runs (p - 1) a rs b) (p - 1)) by (now rewrite <- E).
  destruct (produce_ok dz q d (p - 1) a rs b Wq Rq Dq' Hc ltac:(lia) Hm Hfit') as (q1 & _ & Wq1 & Rq1 & Kq1 & Gq1 & Mq1).
  assert (Ds : direction s d (of_runs p a (bump rs) b) p) by (split; [now rewrite <- Ekp | auto]).
  assert (Hmb : Forall (fun r : R * nat => Z.of_nat (snd r) <= p) (bump rs)).
  { apply Forall_forall. intros r Hr. apply in_map_iff in Hr as (r' & <- & Hr). rewrite Forall_forall in Hm. specialize (Hm r' Hr). cbn [snd]. lia. }
  assert (Hfb : fits p (bump rs)) by (unfold fits in *; now rewrite bump_length).
  rewrite (reduce_to s d p a (bump rs) b q1); auto.
  - rewrite bump_gaps. rewrite (remove_ok dz q d (p - 1) a rs b q1) by (auto; lia). reflexivity.
  - rewrite Ks, Gs. apply upd2_all; auto. rewrite Ekp. apply support_occ; [lia | now apply nd_runs|]. apply runs_occ_le; auto; [lia|].
    eapply Forall_impl; [|exact Hmb]. intros r Hr. cbn in Hr. lia.
  - now rewrite bump_fill, Kq1, Ks, upd_upd.
  - rewrite Gq1, Gs, upd_upd. symmetry. now apply upd_id.
  - eapply same_map_trans; [apply same_map_sym; exact Ms | exact Mq1].
Qed.

(* ---- the error on splines in Bezier form ---- *)
Lemma seg_of_bounds m n i : 1 <= m -> 1 <= n -> 0 <= i <= n * m -> 0 <= seg_of m n i < n /\ 0 <= i - seg_of m n i * m <= m.
Proof.
  intros Hm Hn Hi. unfold seg_of. pose proof (Z.div_mod i m ltac:(lia)). pose proof (Z.mod_pos_bound i m ltac:(lia)). pose proof (Z.div_pos i m ltac:(lia) ltac:(lia)).
  destruct (Z.min_spec (i / m) (n - 1)) as [[M ->]|[M ->]]; nia.
Qed.

Lemma lsum_bound (f g w : list Z -> R) l e : (forall i, In i l -> (0 <= w i)%R) -> lsum w l = 1%R -> (forall i, In i l -> (Rabs (f i - g i) <= e)%R) ->
  (Rabs (lsum (fun i => w i * f i) l - lsum (fun i => w i * g i) l) <= e)%R.
Proof.
  intros H0 H1 H. assert (G : (Rabs (lsum (fun i => w i * f i) l - lsum (fun i => w i * g i) l) <= lsum w l * e)%R); [|rewrite H1 in G; lra].
  clear H1. induction l as [|x l IH]; cbn [lsum]; [rewrite Rminus_0_r, Rabs_R0; lra|].
  assert (A := IH (fun i Hi => H0 i (or_intror Hi)) (fun i Hi => H i (or_intror Hi))).
  pose proof (H0 x (or_introl eq_refl)) as Hw. pose proof (H x (or_introl eq_refl)) as Hx.
  replace (w x * f x + lsum (fun i => w i * f i) l - (w x * g x + lsum (fun i => w i * g i) l))%R
    with (w x * (f x - g x) + (lsum (fun i => w i * f i) l - lsum (fun i => w i * g i) l))%R by ring.
  eapply Rle_trans; [apply Rabs_triang|]. rewrite Rabs_mult, (Rabs_right (w x)) by lra. pose proof (Rmult_le_compat_l (w x) _ _ Hw Hx). lra.
Qed.

Theorem reduce_bezier s d kv p : well_formed s -> regular s -> direction s d kv p -> 2 <= p ->
  Forall2 full_support (knots_of s) (degs_of s) -> interior_exactly kv p -> bezier_size kv p ->
  exists e s', (0 <= e)%R /\ (forall tol, (tol <= e)%R -> reduce_degree s d tol = Ok (false, s)) /\
    (forall tol, (e < tol)%R -> reduce_degree s d tol = Ok (true, s')) /\
    well_formed s' /\ degs_of s' = upd (degs_of s) d (p - 1) /\
    (exists kv', knots_of s' = upd (knots_of s) d kv' /\ one_copy_more kv' kv) /\
    ph_dim (sp_ph s') = ph_dim (sp_ph s) /\ (is_bspline s' <-> is_bspline s) /\ (regular s' -> close_sums s s' e).
Proof.
  intros Hwf Hreg Hdir Hp Hf Hi Hz. pose proof Hdir as [Ek Ed]. pose proof Hwf as [Hgd _ _ _ _ _].
  destruct (as_runs kv p (Forall2_nth_error _ _ _ _ _ _ Hgd Ek Ed) (Forall2_nth_error _ _ _ _ _ _ Hf Ek Ed)) as (a & rs & b & E & Hc & E1 & E2 & E3 & Ho).
  assert (Hrs : forall r, In r rs -> snd r = Z.to_nat p).
  { intros [x m] Hr. destruct (Ho x m Hr) as (P1 & P2 & P3). cbn [snd]. specialize (Hi x P3 ltac:(now rewrite E1, E2)). lia. }
  assert (Hm : Forall (fun r : R * nat => Z.of_nat (snd r) <= p) rs) by (apply Forall_forall; intros r Hr; rewrite (Hrs r Hr); lia).
  assert (Efill : fill p rs = rs).
  { unfold fill. rewrite <- (map_id rs) at 2. apply map_ext_in. intros [x m] Hr. cbn [fst]. now rewrite <- (Hrs _ Hr). }
  assert (Egap : gaps p rs = map (fun _ => 0) rs) by (unfold gaps; apply map_ext_in; intros r Hr; rewrite (Hrs r Hr); lia).
  assert (Hfit : fits p rs) by (unfold fits, bezier_size in *; nia).
  rewrite E in Hdir. destruct (reduce_cases dz s d p a rs b Hwf Hreg Hdir Hc Hp Hm Hfit) as (s1 & cps & new & err & t & Ep & W1 & R1 & K1 & G1 & M1 & SF & RD & HT).
  assert (Es : s1 = s).
  { apply (same_map_unique dz); auto. rewrite K1, Efill. apply upd_id. now rewrite <- E. }
  subst s1. clear Ep W1 R1 K1 G1 M1. rewrite Egap in HT. set (n := Z.of_nat (length rs) + 1) in *.
  destruct (max_of err (length rs + 1)) as (e & H0 & Hmax & He). assert (En : Z.of_nat (length rs + 1) = n) by (unfold n; lia). rewrite En in *.
  unfold reduction in RD. fold n in RD. cbv zeta in RD. destruct RD as (Wt & Kt & Gt & Dt & Nt & Wwt & RD). set (D := ph_dim (sp_ph s)) in *.
  assert (HD : 1 <= D) by (unfold D; now destruct Hwf).
  assert (Hc1 : chain a (fill (p - 1) rs) b) by (apply (chain_fill dz (p - 1) a [] rs b ltac:(lia)); exact Hc).
  destruct (wf_direction dz s d _ p Hwf (proj1 Hdir) (proj2 Hdir)) as (_ & Hdl & Hnd).
  assert (Hnd' : nth d (npts_of s) 0 = n * p + 1) by (rewrite Hnd; replace (of_runs p a rs b) with (of_runs p a (fill p rs) b) by (now rewrite Efill); rewrite fill_length by lia; unfold n; lia).
  assert (Dirt : direction t d (of_runs (p - 1) a (fill (p - 1) rs) b) (p - 1)).
  { split; [rewrite Kt; now apply (nth_error_upd_same _ _ _ kv) | rewrite Gt; now apply (nth_error_upd_same _ _ _ p)]. }
  assert (Hrem : remove_bezier t d (map (fun _ => 0) rs) = Ok t).
  { replace (map (fun _ : R * nat => 0) rs) with (map (fun _ : R * nat => 0) (fill (p - 1) rs)) by (unfold fill; rewrite map_map; reflexivity).
    apply (remove_none dz t d (p - 1) a (fill (p - 1) rs) b); auto. lia. }
  exists e, t. split; [auto|]. split; [|split; [|split; [auto|split; [auto|split; [|split; [auto|split; [now apply is_weighted_iff|]]]]]]].
  - intros tol Ht. destruct (HT tol) as [[_ HA]|[HB _]].
    + rewrite HA, <- Egap. rewrite (remove_ok dz s d p a rs b s) by (auto; try lia; try (rewrite Efill; symmetry; apply upd_id; now rewrite <- E); now apply same_map_refl). reflexivity.
    + exfalso. destruct He as [->|(k & Hk & ->)].
      * specialize (HB 0 ltac:(lia)). destruct (SF 0 ltac:(lia)) as (_ & P & _). lra.
      * specialize (HB k Hk). lra.
  - intros tol Ht. destruct (HT tol) as [[(k & Hk & HA) _]|[_ HB]].
    + specialize (Hmax k Hk). lra.
    + rewrite HB, Hrem. reflexivity.
  - exists (of_runs (p - 1) a (fill (p - 1) rs) b). split; [auto|]. intros x. rewrite E. replace (of_runs p a rs b) with (of_runs p a (bump (fill (p - 1) rs)) b).
    + apply bump_occ; auto. lia.
    + f_equal. rewrite <- Efill at 2. unfold bump, fill. rewrite map_map. apply map_ext. intros r. cbn [fst snd]. f_equal. lia.
  - intros Rt.
    set (g := fun c idx => value (new (seg_of (p - 1) n (nth d idx 0))) (p - 1) (line (npts_of s) d idx) (nth d idx 0 - seg_of (p - 1) n (nth d idx 0) * (p - 1)) c).
    (* on a line, g does not depend on the piece chosen at a joint *)
    assert (HJ : forall idx k j c, in_box (npts_of s) idx -> 0 <= k < n -> 0 <= j <= p - 1 -> 0 <= c <= D ->
      g c (upd idx d (k * (p - 1) + j)) = value (new k) (p - 1) (line (npts_of s) d idx) j c).
    { intros idx k j c Hb Hk Hj Hc'. pose proof (in_box_length _ _ Hb) as Hlen. unfold g. rewrite line_upd, nth_upd_same by lia.
      pose proof (line_range _ d _ Hb) as Hlr.
      unfold seg_of. destruct (Z.eq_dec j (p - 1)) as [->|N].
      - replace ((k * (p - 1) + (p - 1)) / (p - 1)) with (k + 1) by (apply Z.div_unique with 0; lia). destruct (Z.eq_dec k (n - 1)) as [->|Nk].
        + rewrite Z.min_r by lia. f_equal. lia.
        + rewrite Z.min_l by lia. replace (k * (p - 1) + (p - 1) - (k + 1) * (p - 1)) with 0 by lia.
          destruct (SF k Hk) as (_ & _ & V1 & _ & V2 & _). destruct (SF (k + 1) ltac:(lia)) as (_ & _ & V1' & _ & V2' & _).
          destruct (V2 (line (npts_of s) d idx) c) as [_ ->]; auto. destruct (V2' (line (npts_of s) d idx) c) as [-> _]; auto.
          set (idx' := upd idx d ((k + 1) * p)). assert (Hb' : in_box (npts_of s) idx').
          { apply in_box_put; auto. rewrite Hnd'. nia. }
          assert (Hn' : nth d idx' 0 = (k + 1) * p) by (unfold idx'; rewrite nth_upd_same by lia; auto).
          specialize (V1 idx' c Hb' ltac:(rewrite Hn'; lia) Hc'). specialize (V1' idx' c Hb' ltac:(rewrite Hn'; lia) Hc').
          rewrite Hn' in V1, V1'. unfold idx' in V1 at 1, V1' at 1. rewrite line_upd in V1, V1'.
          replace ((k + 1) * p - k * p) with p in V1 by lia. replace ((k + 1) * p - (k + 1) * p) with 0 in V1' by lia. congruence.
      - replace ((k * (p - 1) + j) / (p - 1)) with k by (apply Z.div_unique with j; lia). rewrite Z.min_l by lia. f_equal. lia. }
    assert (HB : forall c idx, 0 <= c <= D -> in_box (npts_of s) idx -> (Rabs (lifted d p n (g c) idx - hpart s idx c) <= e)%R).
    { intros c idx Hc' Hb. pose proof (in_box_nth _ _ d Hb Hdl) as Hr. rewrite Hnd' in Hr.
      destruct (seg_of_bounds p n (nth d idx 0) ltac:(lia) ltac:(unfold n; lia) ltac:(lia)) as [Hk Hj]. set (k := seg_of p n (nth d idx 0)) in *.
      destruct (SF k Hk) as (_ & _ & V1 & V2 & _). pose proof (line_range _ d _ Hb) as Hlr.
      rewrite (lifted_at d p n (g c) idx k (nth d idx 0 - k * p)) by (auto; lia).
      rewrite <- V1 by (auto; nia). specialize (V2 (line (npts_of s) d idx) (nth d idx 0 - k * p) c Hlr Hj Hc').
      rewrite Rabs_minus_sym. eapply Rle_trans; [|apply (Hmax k Hk)]. replace (elevated p (fun j => g c (upd idx d (k * (p - 1) + j))) (nth d idx 0 - k * p))
        with (elevated p (fun j => value (new k) (p - 1) (line (npts_of s) d idx) j c) (nth d idx 0 - k * p)); [exact V2|].
      apply elevated_ext; auto; [lia|]. intros j Hj'. symmetry. apply HJ; auto. }
    assert (HG : forall idx, in_box (npts_of t) idx -> weight t idx = g D idx /\ forall c, 0 <= c < D -> (weight t idx * coordinate t idx c)%R = g c idx).
    { intros idx Hb. destruct (RD idx Hb) as [RW RC]. pose proof (in_box_length _ _ Hb) as Hlen. rewrite Nt, upd_length in Hlen.
      assert (Ew : weight t idx = g D idx).
      { pose proof (is_weighted_iff s t Wwt) as Bi. destruct (is_weighted dz (sp_ph s)) eqn:Ew; [now apply RW|].
        assert (Bt : is_bspline t) by (unfold is_bspline; assert (X := Wwt); unfold is_weighted in X; destruct (ph_wts (sp_ph t)); [discriminate | reflexivity]).
        unfold weight. rewrite Bt.
        pose proof (in_box_nth _ _ d Hb ltac:(rewrite Nt, upd_length; auto)) as Hr. rewrite Nt, nth_upd_same in Hr by auto.
        destruct (seg_of_bounds (p - 1) n (nth d idx 0) ltac:(lia) ltac:(unfold n; lia) ltac:(lia)) as [Hk Hj]. unfold g. set (k := seg_of (p - 1) n (nth d idx 0)) in *.
        destruct (SF k Hk) as (_ & _ & V1 & _ & _ & V3 & _). symmetry. 
        assert (Hb0 : in_box (npts_of s) (upd idx d 0)).
        { replace (npts_of s) with (upd (npts_of t) d (nth d (npts_of s) 0)) by (rewrite Nt, upd_upd; apply upd_nth_self). apply in_box_upd_both; auto. lia. }
        rewrite <- (line_upd (npts_of s) d idx 0). pose proof (line_range _ d _ Hb0) as Hlr.
        rewrite (V3 (line (npts_of s) d (upd idx d 0)) D (fun _ => 1%R)); auto; [lia|]. intros j Hj'.
        assert (Hbj : in_box (npts_of s) (upd (upd idx d 0) d (k * p + j))) by (apply in_box_put; auto; rewrite Hnd'; nia).
        specialize (V1 _ D Hbj). rewrite nth_upd_same in V1 by (rewrite upd_length; lia). specialize (V1 ltac:(lia) ltac:(lia)). rewrite line_upd in V1.
        replace (k * p + j - k * p) with j in V1 by lia. rewrite V1. unfold hpart. fold D. destruct (Z.ltb_spec D D); [lia|].
        assert (Bs : is_bspline s) by now apply Bi. unfold weight. rewrite Bs.
        unfold elevated. lra. }
      split; [auto|]. intros c Hc'. rewrite (RC c Hc'). fold (g c idx) (g D idx). pose proof (weight_nonzero dz t idx Wt Rt Hb) as Hw. rewrite Ew in *.
      rewrite (ndiv_R dz) by auto. field. auto. }
    assert (HS : forall us c, in_domain s us -> 0 <= c <= D -> (Rabs (hsums t us c - hsums s us c) <= e)%R).
    { intros us c Hu Hc'. destruct (basis_unit s us Hwf Hu) as [B0 B1].
      assert (Et : hsums t us c = lsum (fun idx => basis_product (knots_of s) (degs_of s) us idx * lifted d p n (g c) idx)%R (all_indices (npts_of s))).
      { unfold n. rewrite (lifted_sums dz s t d p a rs b) by (auto; now rewrite Efill). unfold hsums. apply lsum_ext. intros idx Hin. apply all_indices_box in Hin.
        f_equal. destruct (HG idx Hin) as [GW GC]. unfold hpart. rewrite Dt. destruct (Z.ltb_spec c D); [rewrite <- GC by lia; ring|]. replace c with D by lia. auto. }
      rewrite Et. unfold hsums. apply lsum_bound; auto. intros idx Hin. apply all_indices_box in Hin. now apply HB. }
    intros us Hu. split.
    + specialize (HS us D Hu ltac:(lia)). rewrite !hsums_eq, Dt in HS. fold D in HS. destruct (Z.ltb_spec D D); [lia | exact HS].
    + intros c Hc'. fold D in Hc'. specialize (HS us c Hu ltac:(lia)). rewrite !hsums_eq, Dt in HS. fold D in HS. destruct (Z.ltb_spec c D); [exact HS | lia].
Qed.
End Thms.
