(* Refinement does not make the control polygon wilder. *)
From Coq Require Import ZArith List Bool Lia Reals Lra Permutation.
From Verif Require Import Base BaseFacts RSum MultiIndex MultiIndexSpec MultiIndexFacts TensorSum
  KnotVec KnotVecSpec KnotVecFacts BSplineTheory Boehm BasisSpec Basis BasisFacts VecUtils Spaces SpacesSpec SpacesFacts
  SplineEval SplineEdit SplineSpec EvalFacts EvalThms PhysFacts AdjustFacts InsertKnots InsertFacts InsertThms InsertRepeat EditSpec GrevilleSpec GrevilleFacts MonotoneSpec Monotone SteepSpec Steep SmoothSpec.
Import ListNotations.
Open Scope Z_scope.

(* ---- the means of the knots move like control points ---- *)
Lemma ksum_ins (t : Z -> R) k u p i : monotone t -> (t k <= u)%R -> (u < t (k + 1)%Z)%R -> (1 <= p)%nat ->
  ksum (ins t k u) p i = (alpha t k u p i * ksum t p i + (1 - alpha t k u p i) * ksum t p (i - 1))%R.
Proof.
  intros Hm H1 H2 Hp. unfold alpha.
  assert (A : forall m, i + Z.of_nat m <= k -> ksum (ins t k u) m i = ksum t m i).
  { intros m Hk. unfold ksum. apply lsum_ext. intros j Hj. apply zseq_In in Hj. unfold ins. destruct (Z_le_dec (i + j) k); [reflexivity | lia]. }
  assert (Sh : ksum t p (i - 1) = (ksum t p i + t i - t (i + Z.of_nat p)%Z)%R).
  { destruct p as [|q]; [lia|]. rewrite ksum_first, ksum_last. replace (i + Z.of_nat q + 1) with (i + Z.of_nat (S q)) by lia. ring. }
  destruct (Z_le_dec (i + Z.of_nat p) k) as [L|L]; [rewrite A by lia; ring|].
  destruct (Z_le_dec i k) as [L'|L'].
  - assert (B : forall m, k < i + Z.of_nat m -> ksum (ins t k u) m i = (ksum t m i - t (i + Z.of_nat m)%Z + u)%R).
    { induction m as [|m IH]; intros Hk; [lia|]. rewrite !ksum_last. destruct (Z_le_dec (i + Z.of_nat m) k) as [Q|Q].
      - rewrite A by lia. unfold ins. destruct (Z_le_dec (i + Z.of_nat m + 1) k); [lia|]. destruct (Z.eq_dec (i + Z.of_nat m + 1) (k + 1)); [|lia].
        replace (i + Z.of_nat m + 1) with (i + Z.of_nat (S m)) by lia. ring.
      - rewrite IH by lia. unfold ins. destruct (Z_le_dec (i + Z.of_nat m + 1) k); [lia|]. destruct (Z.eq_dec (i + Z.of_nat m + 1) (k + 1)); [lia|].
        replace (i + Z.of_nat m + 1 - 1) with (i + Z.of_nat m) by lia. replace (i + Z.of_nat m + 1) with (i + Z.of_nat (S m)) by lia. ring. }
    rewrite B by lia. rewrite Sh. pose proof (Hm i k ltac:(lia)). pose proof (Hm (k + 1) (i + Z.of_nat p) ltac:(lia)). field. lra.
  - assert (E : ksum (ins t k u) p i = ksum t p (i - 1)).
    { unfold ksum. apply lsum_ext. intros j Hj. apply zseq_In in Hj. unfold ins. destruct (Z_le_dec (i + j) k); [lia|]. destruct (Z.eq_dec (i + j) (k + 1)); [lia|]. f_equal. lia. }
    rewrite E. ring.
Qed.

Section Smooth.
Variable dz : R -> R.
Implicit Types s : spline (Rops dz).

(* one insertion: every control point is a mean of two neighbours *)
Definition mixed s s' (d : nat) (kv kv' : list R) (p : Z) (a : Z -> R) : Prop :=
  (forall i, (0 <= a i <= 1)%R) /\ npts_of s' = upd (npts_of s) d (nth d (npts_of s) 0 + 1) /\ (d < length (npts_of s))%nat /\
  a 0 = 1%R /\ a (nth d (npts_of s) 0) = 0%R /\
  (forall idx, in_box (npts_of s') idx -> weight s' idx = (a (nth d idx 0%Z) * weight s idx + (1 - a (nth d idx 0%Z)) * weight s (below d idx))%R /\
    forall c, 0 <= c < ph_dim (sp_ph s) -> (weight s' idx * coordinate s' idx c = a (nth d idx 0%Z) * (weight s idx * coordinate s idx c) +
      (1 - a (nth d idx 0%Z)) * (weight s (below d idx) * coordinate s (below d idx) c))%R) /\
  (1 <= p -> forall i, 0 <= i <= nth d (npts_of s) 0 -> (0 <= a i <= 1)%R /\
    exists g1 g2, (a i <> 0 -> g1 = greville kv p i)%R /\ (a i <> 1 -> g2 = greville kv p (i - 1)%Z)%R /\ greville kv' p i = (a i * g1 + (1 - a i) * g2)%R).

Lemma insertion_mixes s d kv p u : well_formed s -> regular s -> direction s d kv p -> insertable kv p u 1 -> zlen kv < 2 ^ 31 ->
  exists s' kv' a, insert_knot s u d 1 = Ok s' /\ well_formed s' /\ regular s' /\ direction s' d kv' p /\ knots_of s' = upd (knots_of s) d kv' /\
    degs_of s' = degs_of s /\ ph_dim (sp_ph s') = ph_dim (sp_ph s) /\ (is_bspline s -> is_bspline s') /\ mixed s s' d kv kv' p a.
Proof.
  intros W Hreg Hdir Hins Hz. destruct (insertable_inner dz s d kv p u 1 W Hdir Hins) as (n & Hin).
  pose proof Hdir as [Ek Ed]. pose proof Hins as (_ & _ & Ho).
  destruct (wf_direction dz s d kv p W Ek Ed) as (Hg & Hd & Hnd). pose proof (regular_positive dz s W Hreg) as Hpos.
  pose proof (inner_ends kv p u n Hin) as [E1 E2]. pose proof Hin as ((Hp & _ & Hnn & _) & _ & (Hn & Hlo & Hhi) & Hu).
  assert (Ek0 : nth_error (knots_of s) d = Some (insm kv n u 0)) by (rewrite insm_0; exact Ek).
  destruct (pass_step dz s d kv p u n 0 W Ek0 Ed Hin ltac:(lia) Hz) as (ph' & P1 & P2 & P3 & P4 & P5 & P6).
  set (s' := mkSpline (F := Rops dz) (mkps dz (upd (knots_of s) d (insm kv n u 1)) (degs_of s)) ph') in *.
  destruct (P6 Hpos) as [Hpos' _].
  destruct (insert_pass_ok dz kv p u n 0 d (sp_ph s) Hin ltac:(lia) Hz (wf_phys dz s W) Hd ltac:(unfold npts_of in Hnd; rewrite Hnd; lia)) as (ph2 & Q1 & Q2 & Q3 & Q4 & Q5 & Q6).
  rewrite P1 in Q1. injection Q1 as <-. rewrite insm_0 in Q6. replace (Z.of_nat (n + 0) - 1) with (Z.of_nat n - 1) in Q6 by lia.
  assert (E : insm kv n u 1 = ins1 kv n u) by (rewrite insm_S, insm_0 by lia; f_equal; lia).
  set (k := Z.of_nat n - 1) in *.
  set (a := alpha (tk kv) k u (Z.to_nat p)).
  assert (Hm : monotone (tk kv)) by now apply tk_monotone.
  assert (T1 : (tk kv k <= u)%R) by (unfold k; rewrite tk_knot' by (unfold zlen; lia); apply Hlo; lia).
  assert (T2 : (u < tk kv (k + 1)%Z)%R) by (unfold k; rewrite tk_knot' by (unfold zlen; lia); apply Hhi; lia).
  assert (Ha : forall i, (0 <= a i <= 1)%R) by (intros i; now apply alpha_range).
  exists s', (ins1 kv n u), a.
  split; [change 1 with (Z.of_nat 1); apply (insert_knot_passes dz s d kv p u n); auto; cbn [zseq foldM]; fold k; [change (Z.of_nat 0 + 1) with 1 in P1; rewrite P1 | rewrite P5]; reflexivity|].
  split; [exact P2|]. split; [now apply (regular_back dz s)|].
  split; [split; [unfold s'; cbn; rewrite E; now apply (nth_error_upd_same _ _ _ kv) | exact Ed]|].
  split; [unfold s'; cbn; now rewrite E|]. split; [reflexivity|]. split; [exact P3|].
  split; [intros Hb; apply (weighted_bspline dz); cbn; rewrite P4; now apply (weighted_bspline dz)|].
  split; [exact Ha|]. split; [exact Q3|]. split; [exact Hd|].
  split; [unfold a, alpha; destruct (Z_le_dec (0 + Z.of_nat (Z.to_nat p)) k); [reflexivity | unfold k in *; lia]|].
  split.
  { unfold a, alpha. rewrite Hnd. destruct (Z_le_dec (zlen kv - p - 1 + Z.of_nat (Z.to_nat p)) k); [unfold k, zlen in *; lia|].
    destruct (Z_le_dec (zlen kv - p - 1) k); [unfold k in *; lia | reflexivity]. }
  split.
  { intros idx Hb. destruct (Q6 idx Hb) as [Q7 Q8]. fold (a (nth d idx 0)) in Q7, Q8.
    rewrite !weight_p. split; [exact Q7|]. intros c Hc. rewrite !coordinate_p. apply (Q8 c Hc). apply Rgt_not_eq. apply Hpos'. exact Hb. }
  intros Hp1 i Hi. split; [apply Ha|]. rewrite Hnd in Hi.
  set (q := Z.to_nat p). assert (Hq : INR q <> 0%R) by (apply not_0_INR; unfold q; lia).
  exists (ksum (tk kv) q i / INR q)%R, (ksum (tk kv) q (i - 1) / INR q)%R.
  split.
  { intros _. symmetry. apply greville_ksum; lia. }
  split.
  { intros Hn1. symmetry. apply greville_ksum; try lia. unfold a, alpha in Hn1. destruct (Z_le_dec (i + Z.of_nat (Z.to_nat p)) k); [congruence | unfold k in *; lia]. }
  rewrite greville_ksum by (try lia; unfold zlen in *; rewrite ins1_length by lia; lia). fold q.
  assert (X : ksum (tk (ins1 kv n u)) q i = ksum (ins (tk kv) k u) q i) by (unfold ksum; apply lsum_ext; intros j _; apply tk_ins1; lia).
  rewrite X, ksum_ins by (auto; unfold q; lia). change (alpha (tk kv) k u q i) with (a i). field. exact Hq.
Qed.

(* where the two neighbours are *)
Lemma upper_in s s' d kv kv' p a idx : mixed s s' d kv kv' p a -> in_box (npts_of s') idx -> a (nth d idx 0) <> 0%R -> in_box (npts_of s) idx.
Proof.
  intros (_ & En & Hd & _ & An & _) Hb H. rewrite En in Hb. apply (in_box_self _ _ d _ Hb).
  pose proof (in_box_nth _ _ d Hb ltac:(now rewrite upd_length)) as Hj. rewrite nth_upd_same in Hj by auto.
  destruct (Z.eq_dec (nth d idx 0) (nth d (npts_of s) 0)) as [X|X]; [rewrite X in H; congruence | lia].
Qed.
Lemma lower_in s s' d kv kv' p a idx : mixed s s' d kv kv' p a -> in_box (npts_of s') idx -> a (nth d idx 0) <> 1%R -> in_box (npts_of s) (below d idx).
Proof.
  intros (_ & En & Hd & A0 & _) Hb H. rewrite En in Hb. apply (below_box _ d (nth d (npts_of s) 0)); auto.
  pose proof (in_box_nth _ _ d Hb ltac:(now rewrite upd_length)) as Hj. rewrite nth_upd_same in Hj by auto.
  destruct (Z.eq_dec (nth d idx 0) 0) as [X|X]; [rewrite X in H; congruence | lia].
Qed.

(* without weights *)
Lemma mixed_plain s s' d kv kv' p a idx c : is_bspline s -> is_bspline s' -> mixed s s' d kv kv' p a -> in_box (npts_of s') idx -> 0 <= c < ph_dim (sp_ph s) ->
  coordinate s' idx c = (a (nth d idx 0%Z) * coordinate s idx c + (1 - a (nth d idx 0%Z)) * coordinate s (below d idx) c)%R.
Proof.
  intros H1 H2 (_ & _ & _ & _ & _ & M & _) Hb Hc. destruct (M idx Hb) as [_ X]. specialize (X c Hc). unfold weight in X. rewrite H1, H2 in X. lra.
Qed.

(* a mean of two numbers one of which may be missing *)
Lemma mean_le a x y B : (0 <= a <= 1)%R -> (a <> 0 -> x <= B)%R -> (a <> 1 -> y <= B)%R -> (a * x + (1 - a) * y <= B)%R.
Proof.
  intros Ha Hx Hy. destruct (Req_EM_T a 0) as [->|N0]; [specialize (Hy ltac:(lra)); lra|]. destruct (Req_EM_T a 1) as [->|N1]; [specialize (Hx ltac:(lra)); lra|].
  specialize (Hx N0). specialize (Hy N1). pose proof (Rmult_le_compat_l a x B ltac:(lra) Hx). pose proof (Rmult_le_compat_l (1 - a) y B ltac:(lra) Hy). lra.
Qed.
Lemma mean_ge a x y B : (0 <= a <= 1)%R -> (a <> 0 -> B <= x)%R -> (a <> 1 -> B <= y)%R -> (B <= a * x + (1 - a) * y)%R.
Proof.
  intros Ha Hx Hy. destruct (Req_EM_T a 0) as [->|N0]; [specialize (Hy ltac:(lra)); lra|]. destruct (Req_EM_T a 1) as [->|N1]; [specialize (Hx ltac:(lra)); lra|].
  specialize (Hx N0). specialize (Hy N1). pose proof (Rmult_le_compat_l a B x ltac:(lra) Hx). pose proof (Rmult_le_compat_l (1 - a) B y ltac:(lra) Hy). lra.
Qed.

(* the range *)
Lemma step_between s s' d kv kv' p a c lo hi : well_formed s -> regular s -> well_formed s' -> regular s' -> mixed s s' d kv kv' p a -> 0 <= c < ph_dim (sp_ph s) ->
  points_between s c lo hi -> points_between s' c lo hi.
Proof.
  intros W R W' R' M Hc H idx Hb. pose proof (regular_positive dz s W R) as Hp. pose proof (regular_positive dz s' W' R' idx Hb) as Hp'. rewrite <- weight_p in Hp'.
  pose proof M as (Ha & _ & _ & _ & _ & Mx & _). destruct (Mx idx Hb) as [Ew Ex]. specialize (Ex c Hc). set (b := a (nth d idx 0)) in *. specialize (Ha (nth d idx 0)). fold b in Ha.
  assert (U : (b <> 0 -> 0 < weight s idx /\ lo <= coordinate s idx c <= hi)%R).
  { intros N. pose proof (upper_in _ _ _ _ _ _ _ _ M Hb N) as Q. split; [rewrite weight_p; now apply Hp | now apply H]. }
  assert (L : (b <> 1 -> 0 < weight s (below d idx) /\ lo <= coordinate s (below d idx) c <= hi)%R).
  { intros N. pose proof (lower_in _ _ _ _ _ _ _ _ M Hb N) as Q. split; [rewrite weight_p; now apply Hp | now apply H]. }
  set (w1 := weight s idx) in *. set (w2 := weight s (below d idx)) in *. set (x1 := coordinate s idx c) in *. set (x2 := coordinate s (below d idx) c) in *.
  set (w := weight s' idx) in *. set (x := coordinate s' idx c) in *.
  assert (X1 : (0 <= b * (w1 * (x1 - lo)) + (1 - b) * (w2 * (x2 - lo)))%R).
  { apply mean_ge; [exact Ha | intros N; destruct (U N) | intros N; destruct (L N)]; apply Rmult_le_pos; lra. }
  assert (X2 : (0 <= b * (w1 * (hi - x1)) + (1 - b) * (w2 * (hi - x2)))%R).
  { apply mean_ge; [exact Ha | intros N; destruct (U N) | intros N; destruct (L N)]; apply Rmult_le_pos; lra. }
  split; (apply Rmult_le_reg_l with w; [exact Hp'|]); rewrite Ex, Ew; lra.
Qed.

Lemma below_next d idx : (d < length idx)%nat -> below d (next_in d idx) = idx.
Proof. intros H. unfold below, next_in. rewrite nth_upd_same by auto. rewrite upd_upd. replace (nth d idx 0 + 1 - 1) with (nth d idx 0) by lia. now rewrite upd_nth_self. Qed.

(* coefficients f of a function on control points that do not fall keep doing so *)
Lemma step_line s s' d kv kv' p a (f f' : list Z -> R) : mixed s s' d kv kv' p a ->
  (forall idx, in_box (npts_of s') idx -> exists x y, (a (nth d idx 0%Z) <> 0 -> x = f idx)%R /\ (a (nth d idx 0%Z) <> 1 -> y = f (below d idx))%R /\
     f' idx = (a (nth d idx 0%Z) * x + (1 - a (nth d idx 0%Z)) * y)%R) ->
  (forall idx, in_box (npts_of s) idx -> in_box (npts_of s) (next_in d idx) -> (f idx <= f (next_in d idx))%R) ->
  forall idx, in_box (npts_of s') idx -> in_box (npts_of s') (next_in d idx) -> (f' idx <= f' (next_in d idx))%R.
Proof.
  intros M Mf H idx H1 H2. pose proof M as (Ha & En & Hd & _).
  assert (Hl : (d < length idx)%nat) by (pose proof (f2_len H1) as X; rewrite En, upd_length in X; lia).
  assert (Hin : in_box (npts_of s) idx).
  { rewrite En in H1. apply (in_box_self _ _ d _ H1). rewrite En in H2. pose proof (in_box_nth _ _ d H2 ltac:(now rewrite upd_length)) as Hj.
    rewrite nth_upd_same in Hj by auto. unfold next_in in Hj. rewrite nth_upd_same in Hj by auto. lia. }
  destruct (Mf idx H1) as (x & y & X & Y & ->). destruct (Mf (next_in d idx) H2) as (x' & y' & X' & Y' & ->). rewrite (below_next d idx Hl) in Y'.
  apply Rle_trans with (f idx).
  - apply mean_le; [apply Ha | intros N; rewrite (X N); lra | intros N; rewrite (Y N)].
    pose proof (lower_in _ _ _ _ _ _ _ _ M H1 N) as Q. pose proof (H (below d idx) Q) as Z.
    assert (Eb : next_in d (below d idx) = idx).
    { unfold below, next_in. rewrite nth_upd_same by auto. rewrite upd_upd. replace (nth d idx 0 - 1 + 1) with (nth d idx 0) by lia. now rewrite upd_nth_self. }
    rewrite Eb in Z. now apply Z.
  - apply mean_ge; [apply Ha | intros N; rewrite (X' N) | intros N; rewrite (Y' N); lra].
    apply H; auto. exact (upper_in _ _ _ _ _ _ _ _ M H2 N).
Qed.

Lemma nth_upd_ne {A} (l : list A) d e a x : d <> e -> nth d (upd l e a) x = nth d l x.
Proof. revert d e; induction l as [|y l IH]; intros [|d] [|e] H; cbn; auto; try congruence. Qed.
Lemma upd_comm {A} (l : list A) d e a b : d <> e -> upd (upd l d a) e b = upd (upd l e b) d a.
Proof. revert d e; induction l as [|y l IH]; intros [|d] [|e] H; cbn; auto; try congruence. f_equal. apply IH. congruence. Qed.

(* along another direction e *)
Lemma step_across s s' d e kv kv' p a (f f' : list Z -> R) : mixed s s' d kv kv' p a -> d <> e ->
  (forall idx, in_box (npts_of s') idx -> f' idx = (a (nth d idx 0%Z) * f idx + (1 - a (nth d idx 0%Z)) * f (below d idx))%R) ->
  (forall idx, in_box (npts_of s) idx -> in_box (npts_of s) (next_in e idx) -> (f idx <= f (next_in e idx))%R) ->
  forall idx, in_box (npts_of s') idx -> in_box (npts_of s') (next_in e idx) -> (f' idx <= f' (next_in e idx))%R.
Proof.
  intros M Hne Mf H idx H1 H2. pose proof M as (Ha & _). rewrite (Mf idx H1), (Mf _ H2).
  assert (E : nth d (next_in e idx) 0 = nth d idx 0) by (unfold next_in; now apply nth_upd_ne). rewrite E.
  assert (B : below d (next_in e idx) = next_in e (below d idx)).
  { unfold below. rewrite E. unfold next_in. rewrite nth_upd_ne by congruence. apply upd_comm. congruence. }
  rewrite B. set (b := a (nth d idx 0)).
  assert (X : (0 <= b * (f (next_in e idx) - f idx) + (1 - b) * (f (next_in e (below d idx)) - f (below d idx)))%R).
  { apply mean_ge; [apply Ha | |]; intros N.
    - pose proof (H idx (upper_in _ _ _ _ _ _ _ _ M H1 N)) as Y. unfold b in N; rewrite <- E in N. specialize (Y (upper_in _ _ _ _ _ _ _ _ M H2 N)). lra.
    - pose proof (H (below d idx) (lower_in _ _ _ _ _ _ _ _ M H1 N)) as Y. rewrite <- B in Y. unfold b in N; rewrite <- E in N. specialize (Y (lower_in _ _ _ _ _ _ _ _ M H2 N)). rewrite B in Y. lra. }
  lra.
Qed.

Lemma step_falls s s' d e kv kv' p a c : is_bspline s -> is_bspline s' -> mixed s s' d kv kv' p a -> 0 <= c < ph_dim (sp_ph s) -> never_falls s e c -> never_falls s' e c.
Proof.
  intros Hb Hb' M Hc H. destruct (Nat.eq_dec d e) as [<-|Hne].
  - intros i I1 I2. apply (step_line s s' d kv kv' p a (fun idx => coordinate s idx c) (fun idx => coordinate s' idx c)); auto. intros idx Hi. exists (coordinate s idx c), (coordinate s (below d idx) c).
    split; [auto|]. split; [auto|]. now apply (mixed_plain s s' d kv kv' p).
  - intros i I1 I2. apply (step_across s s' d e kv kv' p a (fun idx => coordinate s idx c) (fun idx => coordinate s' idx c)); auto. intros idx Hi. now apply (mixed_plain s s' d kv kv' p).
Qed.

Lemma step_polygon s s' d e kv kv' p a c K : well_formed s -> is_bspline s -> is_bspline s' -> direction s d kv p -> direction s' d kv' p ->
  knots_of s' = upd (knots_of s) d kv' -> degs_of s' = degs_of s -> Forall (fun p => 1 <= p) (degs_of s) ->
  mixed s s' d kv kv' p a -> 0 <= c < ph_dim (sp_ph s) -> polygon_within s e c K -> polygon_within s' e c K.
Proof.
  intros W Hb Hb' Hdir Hdir' Ek' Ed' HD M Hc H kv2 q idx E1 E2 H1 H2.
  destruct (Nat.eq_dec d e) as [<-|Hne].
  - destruct Hdir as [A1 A2]. destruct Hdir' as [B1 B2]. assert (kv2 = kv') by congruence. assert (q = p) by congruence. subst kv2 q.
    assert (Hp : 1 <= p) by (rewrite Forall_forall in HD; apply HD; apply nth_error_In with d; congruence).
    assert (X : forall b, (b = 1 \/ b = -1)%R -> (K * greville kv' p (nth d idx 0%Z) + b * coordinate s' idx c <= K * greville kv' p (nth d (next_in d idx) 0%Z) + b * coordinate s' (next_in d idx) c)%R).
    { intros b Hbb. pose proof M as (_ & En & Hd & _ & _ & _ & Mg).
      apply (step_line s s' d kv kv' p a (fun idx => K * greville kv p (nth d idx 0%Z) + b * coordinate s idx c)%R (fun idx => K * greville kv' p (nth d idx 0%Z) + b * coordinate s' idx c)%R); auto.
      - intros i Hi. pose proof Hi as Hi'. rewrite En in Hi'. pose proof (in_box_nth _ _ d Hi' ltac:(now rewrite upd_length)) as Hj. rewrite nth_upd_same in Hj by auto.
        assert (Hl : (d < length i)%nat) by (pose proof (f2_len Hi') as X; rewrite upd_length in X; lia).
        destruct (Mg Hp (nth d i 0) ltac:(lia)) as (_ & g1 & g2 & G1 & G2 & ->).
        exists (K * g1 + b * coordinate s i c)%R, (K * g2 + b * coordinate s (below d i) c)%R.
        split; [intros N; now rewrite (G1 N)|]. split; [intros N; rewrite (G2 N); unfold below; now rewrite nth_upd_same by auto|].
        rewrite (mixed_plain s s' d kv kv' p a) by auto. ring.
      - intros i I1 I2. pose proof (H kv p i A1 A2 I1 I2) as Y. apply Rabs_le_inv in Y. unfold next_in at 1. rewrite nth_upd_same by (pose proof (f2_len I1) as X; lia).
        destruct Hbb as [->| ->]; lra. }
    assert (Hl : (d < length idx)%nat) by (pose proof M as (_ & En & Hd & _); pose proof (f2_len H1) as Y; rewrite En, upd_length in Y; lia).
    pose proof (X 1%R (or_introl eq_refl)) as X1. pose proof (X (-1)%R (or_intror eq_refl)) as X2. unfold next_in at 1 in X1. unfold next_in at 1 in X2. rewrite nth_upd_same in X1, X2 by auto.
    apply Rabs_le. lra.
  - assert (A1 : nth_error (knots_of s) e = Some kv2) by (rewrite Ek', nth_error_upd_other in E1; auto).
    assert (A2 : nth_error (degs_of s) e = Some q) by congruence.
    assert (Hl : (e < length (npts_of s))%nat).
    { apply (wf_direction dz s e kv2 q W A1 A2). }
    assert (X : forall b, (b = 1 \/ b = -1)%R -> (K * greville kv2 q (nth e idx 0%Z) + b * coordinate s' idx c <= K * greville kv2 q (nth e (next_in e idx) 0%Z) + b * coordinate s' (next_in e idx) c)%R).
    { intros b Hbb. pose proof M as (_ & En & Hd & _ & _ & _ & _).
      apply (step_across s s' d e kv kv' p a (fun idx => K * greville kv2 q (nth e idx 0%Z) + b * coordinate s idx c)%R (fun idx => K * greville kv2 q (nth e idx 0%Z) + b * coordinate s' idx c)%R); auto.
      - intros i Hi. rewrite (mixed_plain s s' d kv kv' p a) by auto. unfold below at 2. rewrite nth_upd_ne by congruence. ring.
      - intros i I1 I2. pose proof (H kv2 q i A1 A2 I1 I2) as Y. apply Rabs_le_inv in Y. unfold next_in at 1. rewrite nth_upd_same by (pose proof (f2_len I1) as X; lia).
        destruct Hbb as [->| ->]; lra. }
    assert (Hl' : (e < length idx)%nat) by (pose proof M as (_ & En & Hd & _); pose proof (f2_len H1) as Y; rewrite En, upd_length in Y; lia).
    pose proof (X 1%R (or_introl eq_refl)) as X1. pose proof (X (-1)%R (or_intror eq_refl)) as X2. unfold next_in at 1 in X1. unfold next_in at 1 in X2. rewrite nth_upd_same in X1, X2 by auto.
    apply Rabs_le. lra.
Qed.

(* a statement kept by every insertion is kept by refinement *)
Lemma refine_keeps (Q : spline (Rops dz) -> Prop) d p :
  (forall s s' kv kv' a, well_formed s -> regular s -> well_formed s' -> regular s' -> direction s d kv p -> direction s' d kv' p -> knots_of s' = upd (knots_of s) d kv' -> degs_of s' = degs_of s ->
     ph_dim (sp_ph s') = ph_dim (sp_ph s) -> (is_bspline s -> is_bspline s') -> mixed s s' d kv kv' p a -> Q s -> Q s') ->
  forall new s kv, well_formed s -> regular s -> direction s d kv p -> all_insertable kv p new -> zlen kv + zlen new <= 2 ^ 31 -> Q s ->
  exists s', refine_knots s new d = Ok s' /\ Q s'.
Proof.
  intros Step. induction new as [|u new IH]; intros s kv Hwf Hreg Hdir (Hall & Hsep & Hocc) Hz Hq; [exists s; split; auto; reflexivity|].
  assert (Hins : insertable kv p u 1).
  { split; [now inversion Hall|]. split.
    - apply (InsertKnots.separated_incl _ ((u :: new) ++ kv)); auto. intros x [<-|Hx]; [now left | right; apply in_app_iff; auto].
    - specialize (Hocc u (or_introl eq_refl)). unfold occurrences in *. cbn [app count_occ] in Hocc.
      destruct (Req_EM_T u u); [|congruence]. rewrite count_occ_app in Hocc. lia. }
  assert (Hz1 : zlen kv < 2 ^ 31) by (unfold zlen in *; cbn [length] in Hz; lia).
  destruct (insertion_mixes s d kv p u Hwf Hreg Hdir Hins Hz1) as (s1 & kv1 & a & E & W1 & R1 & D1 & K1 & G1 & M1 & B1 & Mx).
  destruct (insert_full dz s d kv p u 1 Hwf Hdir Hins ltac:(lia) Hz1) as (s2 & kv2 & E' & _ & K2 & _ & Hpm & F1 & F2 & _).
  rewrite E in E'. injection E' as <-.
  assert (kv2 = kv1).
  { destruct D1 as [D1 _]. destruct Hdir as [Ek _]. rewrite K2, (nth_error_upd_same _ _ _ kv Ek) in D1. congruence. }
  subst kv2. change (repeat u (Z.to_nat 1) ++ kv) with (u :: kv) in Hpm.
  assert (Hpm2 : Permutation (new ++ kv1) ((u :: new) ++ kv)) by (rewrite Hpm; cbn [app]; symmetry; apply Permutation_middle).
  destruct (IH s1 kv1 W1 R1 D1) as (s' & E2 & Q2).
  - split; [|split].
    + inversion Hall; subst. rewrite F1, F2. auto.
    + apply (InsertKnots.separated_incl _ ((u :: new) ++ kv)); auto. intros x. apply Permutation_in; auto.
    + intros v Hv. rewrite (occ_perm _ _ v Hpm2). apply Hocc. now right.
  - apply Permutation_length in Hpm. unfold zlen in *. cbn [length] in *. lia.
  - now apply (Step s s1 kv kv1 a).
  - exists s'. split; [unfold refine_knots; cbn [foldM]; rewrite E; exact E2 | exact Q2].
Qed.

Theorem refine_between s new d kv p c lo hi : well_formed s -> regular s -> direction s d kv p -> all_insertable kv p new -> zlen kv + zlen new <= 2 ^ 31 ->
  0 <= c < ph_dim (sp_ph s) -> points_between s c lo hi -> exists s', refine_knots s new d = Ok s' /\ points_between s' c lo hi.
Proof.
  intros W R D A Hz Hc H.
  destruct (refine_keeps (fun s => 0 <= c < ph_dim (sp_ph s) /\ points_between s c lo hi) d p) with (new := new) (s := s) (kv := kv) as (s' & E & _ & X); auto.
  - intros s1 s2 kv1 kv2 a W1 R1 W2 R2 _ _ _ _ Dm _ M (H1 & H2). split; [now rewrite Dm|]. now apply (step_between s1 s2 d kv1 kv2 p a).
  - exists s'. auto.
Qed.

Theorem refine_falls s new d kv p c e : well_formed s -> is_bspline s -> direction s d kv p -> all_insertable kv p new -> zlen kv + zlen new <= 2 ^ 31 ->
  0 <= c < ph_dim (sp_ph s) -> never_falls s e c -> exists s', refine_knots s new d = Ok s' /\ never_falls s' e c.
Proof.
  intros W B D A Hz Hc H.
  destruct (refine_keeps (fun s => is_bspline s /\ 0 <= c < ph_dim (sp_ph s) /\ never_falls s e c) d p) with (new := new) (s := s) (kv := kv) as (s' & E & _ & _ & X); auto; [|now left|].
  - intros s1 s2 kv1 kv2 a W1 R1 W2 R2 _ _ _ _ Dm Bs M (H0 & H1 & H2). split; [auto|]. split; [now rewrite Dm|]. now apply (step_falls s1 s2 d e kv1 kv2 p a); auto.
  - exists s'. auto.
Qed.

Theorem refine_polygon s new d kv p c e K : well_formed s -> is_bspline s -> Forall (fun p => 1 <= p) (degs_of s) -> direction s d kv p -> all_insertable kv p new -> zlen kv + zlen new <= 2 ^ 31 ->
  0 <= c < ph_dim (sp_ph s) -> polygon_within s e c K -> exists s', refine_knots s new d = Ok s' /\ polygon_within s' e c K.
Proof.
  intros W B Hd D A Hz Hc H.
  destruct (refine_keeps (fun s => is_bspline s /\ Forall (fun p => 1 <= p) (degs_of s) /\ 0 <= c < ph_dim (sp_ph s) /\ polygon_within s e c K) d p) with (new := new) (s := s) (kv := kv)
    as (s' & E & _ & _ & _ & X); auto; [|now left|].
  - intros s1 s2 kv1 kv2 a W1 R1 W2 R2 Da Db Ka Kb Dm Bs M (H0 & H1 & H2 & H3). split; [auto|]. split; [now rewrite Kb|]. split; [now rewrite Dm|].
    now apply (step_polygon s1 s2 d e kv1 kv2 p a); auto.
  - exists s'. auto.
Qed.
(* several copies at once *)
Lemma copies_nat s d kv p u : well_formed s -> regular s -> direction s d kv p ->
  forall r : nat, insertable kv p u (Z.of_nat r) -> zlen kv + Z.of_nat r <= 2 ^ 31 -> insert_knot s u d (Z.of_nat r) = refine_knots s (repeat u r) d.
Proof.
  intros W R D. induction r as [|r IH]; intros Hi Hz.
  - destruct D as [Ek Ed]. destruct (insertable_inner dz s d kv p u (Z.of_nat 0) W (conj Ek Ed) Hi) as (n & Hin).
    apply (insert_knot_passes dz s d kv p u n 0 s); auto.
  - pose proof Hi as (H1 & H2 & H3).
    assert (Hi' : insertable kv p u (1 + Z.of_nat r)) by (split; [exact H1|]; split; [exact H2 | lia]).
    assert (Hi2 : insertable kv p u (Z.of_nat r)) by (split; [exact H1|]; split; [exact H2 | lia]).
    destruct (insert_repeats dz s d kv p u (Z.of_nat r) W R D Hi' ltac:(lia) ltac:(lia)) as (s1 & E1 & E2).
    replace (Z.of_nat (S r)) with (1 + Z.of_nat r) by lia. rewrite E2. rewrite IH in E1 by (auto; lia).
    replace (S r) with (r + 1)%nat by lia. rewrite repeat_app. unfold refine_knots in *. rewrite foldM_app, E1. cbn [bind repeat foldM].
    destruct (insert_knot s1 u d 1); reflexivity.
Qed.

Theorem copies_refine s d kv p u r : well_formed s -> regular s -> direction s d kv p -> insertable kv p u r -> 0 <= r -> zlen kv + r <= 2 ^ 31 ->
  all_insertable kv p (repeat u (Z.to_nat r)) /\ insert_knot s u d r = refine_knots s (repeat u (Z.to_nat r)) d.
Proof.
  intros W R D Hi Hr Hz. split.
  - destruct Hi as (H1 & H2 & H3). split; [|split].
    + apply Forall_forall. intros x Hx. apply repeat_spec in Hx. now subst.
    + apply (InsertKnots.separated_incl _ (u :: kv)); auto. intros x Hx. apply in_app_iff in Hx as [Hx|Hx]; [apply repeat_spec in Hx; now left | now right].
    + intros v Hv. apply repeat_spec in Hv. subst v. unfold occurrences in *. rewrite count_occ_app, count_occ_repeat_eq by reflexivity. lia.
  - rewrite <- (Z2Nat.id r) at 1 by lia. apply (copies_nat s d kv p u W R D); rewrite Z2Nat.id by lia; auto.
Qed.
End Smooth.
