(* ReduceDegreeForDimension of a spline in Bezier form: the new points (C83). *)
From Coq Require Import ZArith List Bool Lia Reals Lra.
From Verif Require Import Base BaseFacts RSum MultiIndex MultiIndexSpec MultiIndexFacts TensorSum
  KnotVec KnotVecSpec KnotVecFacts Basis BasisSpec BSplineTheory BasisFacts
  Spaces SpacesSpec SpacesFacts SplineEval SplineEdit SplineSpec EditSpec RemoveSpec EvalFacts EvalThms PhysFacts InsertFacts RemoveFacts UniqueSpec UniqueFacts
  SplineDegree DegreeSpec DegreeFacts DegreeReduce DegreeThms KnotRuns ReduceKnots ReduceSegments ReduceSpan ReduceSums ReduceFacts.
Import ListNotations.
Open Scope Z_scope.

Lemma finite_choice {A} (a0 : A) (P : Z -> A -> Prop) (n : nat) : (forall k, 0 <= k < Z.of_nat n -> exists x, P k x) ->
  exists f, forall k, 0 <= k < Z.of_nat n -> P k (f k).
Proof.
  induction n as [|n IH]; intros H.
  - exists (fun _ => a0). intros; lia.
  - destruct IH as (f & Hf); [intros; apply H; lia|]. destruct (H (Z.of_nat n) ltac:(lia)) as (x & Hx).
    exists (fun k => if Z.eq_dec k (Z.of_nat n) then x else f k). intros k Hk. destruct (Z.eq_dec k (Z.of_nat n)) as [->|N]; auto. apply Hf. lia.
Qed.

(* ---- elevation of coefficients ---- *)
Definition lifted (d : nat) (p n : Z) (g : list Z -> R) (idx : list Z) : R :=
  let k := seg_of p n (nth d idx 0) in elevated p (fun j => g (upd idx d (k * (p - 1) + j))) (nth d idx 0 - k * p).

Lemma lifted_at d p n g idx k j : 2 <= p -> 0 <= k < n -> 0 <= j <= p -> nth d idx 0 = k * p + j ->
  lifted d p n g idx = elevated p (fun j => g (upd idx d (k * (p - 1) + j))) j.
Proof.
  intros Hp Hk Hj E. unfold lifted, seg_of. rewrite E. assert (P0 : IZR p <> 0%R) by (apply not_0_IZR; lia).
  destruct (Z.eq_dec j p) as [->|N].
  - replace ((k * p + p) / p) with (k + 1) by (apply Z.div_unique with 0; lia). destruct (Z.eq_dec k (n - 1)) as [->|Nk].
    + rewrite Z.min_r by lia. f_equal. lia.
    + rewrite Z.min_l by lia. replace (k * p + p - (k + 1) * p) with 0 by lia. unfold elevated.
      replace ((k + 1) * (p - 1) + 0) with (k * (p - 1) + (p - 1)) by lia. unfold Rdiv. rewrite Rinv_r by auto. lra.
  - replace ((k * p + j) / p) with k by (apply Z.div_unique with j; lia). rewrite Z.min_l by lia. f_equal. lia.
Qed.

Section Stage.
Variable dz : R -> R.
Local Notation F := (Rops dz).
Implicit Types s t : spline F.

Lemma lifted_sums s t d p a rs b (g : list Z -> R) us :
  well_formed s -> well_formed t -> 2 <= p -> chain a rs b -> direction s d (of_runs p a (fill p rs) b) p ->
  knots_of t = upd (knots_of s) d (of_runs (p - 1) a (fill (p - 1) rs) b) -> degs_of t = upd (degs_of s) d (p - 1) ->
  in_domain s us ->
  lsum (fun idx => basis_product (knots_of s) (degs_of s) us idx * lifted d p (Z.of_nat (length rs) + 1) g idx)%R (all_indices (npts_of s)) =
  lsum (fun idx => basis_product (knots_of t) (degs_of t) us idx * g idx)%R (all_indices (npts_of t)).
Proof.
  intros Ws Wt Hp Hc Hdir Ek Ed Hu. apply (bezier_lines dz s t d p (p - 1) a rs b); auto; try lia.
  intros k u r Hk Hr _. destruct (wf_direction dz s d _ p Ws (proj1 Hdir) (proj2 Hdir)) as (_ & Hd & _).
  assert (Hlr : (d <= length r)%nat).
  { apply in_box_length in Hr. rewrite Hr, remove_at_length by auto. lia. }
  rewrite <- (bezier_elevated p) by lia. apply bezier_ext. intros j Hj.
  rewrite (lifted_at d p _ g _ k j) by (auto; try lia; now rewrite insat_nth).
  unfold elevated. now rewrite !insat_upd.
Qed.

(* ---- the segments ---- *)
Theorem stage_segments s d p a rs b : well_formed s -> direction s d (of_runs p a (fill p rs) b) p -> 2 <= p ->
  let n := Z.of_nat (length rs) + 1 in let L := lines_in dz s d in let D := ph_dim (sp_ph s) in
  exists (cps new : Z -> list (list R)) (err : Z -> R), forall k, 0 <= k < n ->
    bezier_segment s d k = Ok (cps k) /\
    (forall tol, reduce_segment (F := F) p D L (cps k) tol = Ok (new k, if Rlt_dec (err k) tol then true else false)) /\
    segment_shape (p - 1) L (D + 1) (new k) /\ (0 <= err k)%R /\
    (forall idx c, in_box (npts_of s) idx -> k * p <= nth d idx 0 <= (k + 1) * p -> 0 <= c <= D ->
      value (cps k) p (line (npts_of s) d idx) (nth d idx 0 - k * p) c = hpart s idx c) /\
    (forall i j c, 0 <= i < L -> 0 <= j <= p -> 0 <= c <= D ->
       (Rabs (value (cps k) p i j c - elevated p (fun j => value (new k) (p - 1) i j c) j) <= err k)%R) /\
    (forall i c, 0 <= i < L -> 0 <= c <= D -> value (new k) (p - 1) i 0 c = value (cps k) p i 0 c /\ value (new k) (p - 1) i (p - 1) c = value (cps k) p i p c) /\
    (forall i c f, 0 <= i < L -> 0 <= c <= D -> (forall j, 0 <= j <= p -> value (cps k) p i j c = elevated p f j) ->
       forall j, 0 <= j <= p - 1 -> value (new k) (p - 1) i j c = f j) /\
    ((forall i c, 0 <= i < L -> 0 <= c <= D -> exists f, forall j, 0 <= j <= p -> value (cps k) p i j c = elevated p f j) -> err k = 0%R).
Proof.
  intros Hwf Hdir Hp n L D. pose proof Hdir as [Ek Ed]. destruct (wf_direction dz s d _ p Hwf Ek Ed) as (Hg & Hd & Hn).
  rewrite fill_length in Hn by lia. destruct (lines_ok dz s d Hwf Hd) as [_ Hl]. fold L in Hl. pose proof (wf_phys dz s Hwf) as (_ & H1 & _). fold D in H1.
  match goal with |- exists cps new err, forall k, _ -> @?P cps new err k =>
    enough (exists f : Z -> (list (list R) * list (list R) * R), forall k, 0 <= k < Z.of_nat (Z.to_nat n) ->
      P (fun z => fst (fst (f z))) (fun z => snd (fst (f z))) (fun z => snd (f z)) k) as (f & Hf)
  end.
  { exists (fun z => fst (fst (f z))), (fun z => snd (fst (f z))), (fun z => snd (f z)). intros k Hk. apply Hf. lia. }
  match goal with |- exists f, forall k, _ -> @?Q f k => idtac end.
  apply (finite_choice (([], []), 0%R) (fun k x => 
    bezier_segment s d k = Ok (fst (fst x)) /\
    (forall tol, reduce_segment (F := F) p D L (fst (fst x)) tol = Ok (snd (fst x), if Rlt_dec (snd x) tol then true else false)) /\
    segment_shape (p - 1) L (D + 1) (snd (fst x)) /\ (0 <= snd x)%R /\
    (forall idx c, in_box (npts_of s) idx -> k * p <= nth d idx 0 <= (k + 1) * p -> 0 <= c <= D ->
      value (fst (fst x)) p (line (npts_of s) d idx) (nth d idx 0 - k * p) c = hpart s idx c) /\
    (forall i j c, 0 <= i < L -> 0 <= j <= p -> 0 <= c <= D ->
       (Rabs (value (fst (fst x)) p i j c - elevated p (fun j => value (snd (fst x)) (p - 1) i j c) j) <= snd x)%R) /\
    (forall i c, 0 <= i < L -> 0 <= c <= D -> value (snd (fst x)) (p - 1) i 0 c = value (fst (fst x)) p i 0 c /\ value (snd (fst x)) (p - 1) i (p - 1) c = value (fst (fst x)) p i p c) /\
    (forall i c f, 0 <= i < L -> 0 <= c <= D -> (forall j, 0 <= j <= p -> value (fst (fst x)) p i j c = elevated p f j) ->
       forall j, 0 <= j <= p - 1 -> value (snd (fst x)) (p - 1) i j c = f j) /\
    ((forall i c, 0 <= i < L -> 0 <= c <= D -> exists f, forall j, 0 <= j <= p -> value (fst (fst x)) p i j c = elevated p f j) -> snd x = 0%R))).
  intros k Hk. destruct (bezier_segment_ok dz s d p k Hwf Hd Ed ltac:(lia) ltac:(lia)) as (cps & E & Sh & V); [rewrite Hn; unfold n in Hk; nia|].
  destruct (reduce_seg_facts dz p D L cps Hp ltac:(lia) ltac:(lia) Sh) as (new & err & A).
  exists ((cps, new), err). cbn [fst snd]. split; [exact E|]. destruct A as (A1 & A2 & A3 & A4 & A5 & A6 & A7). repeat (split; [assumption|]). assumption.
Qed.

(* the loop over the segments *)
Lemma loop_all s d p tol L D (cps new : Z -> list (list R)) (err : Z -> R) ids : sp_pdim s = D ->
  (forall k, In k ids -> bezier_segment s d k = Ok (cps k) /\
    reduce_segment (F := F) p D L (cps k) tol = Ok (new k, if Rlt_dec (err k) tol then true else false)) ->
  ((forall k, In k ids -> (err k < tol)%R) /\ reduce_segments s d p L tol ids = Ok (Some (map new ids))) \/
  ((exists k, In k ids /\ (tol <= err k)%R) /\ reduce_segments s d p L tol ids = Ok None).
Proof.
  intros HD. induction ids as [|k ids IH]; intros H; cbn [reduce_segments].
  - left. split; [intros k []|reflexivity].
  - destruct (H k (or_introl eq_refl)) as (E1 & E2). rewrite E1. cbn [bind]. rewrite HD. rnorm. rewrite E2. cbn [bind fst snd].
    destruct (Rlt_dec (err k) tol) as [C|C].
    + destruct IH as [(I1 & I2)|((k' & I1 & I1') & I2)]; [intros; apply H; now right | |]; rnorm; rewrite I2; cbn [bind option_map].
      * left. split; [|reflexivity]. intros k' [<-|Hi]; auto.
      * right. split; [|reflexivity]. exists k'. split; [now right | auto].
    + right. split; [|reflexivity]. exists k. split; [now left | lra].
Qed.

(* the new spline *)
Theorem stage_spline s d p q a rs b (new : Z -> list (list R)) ps3 ph3 :
  well_formed s -> direction s d (of_runs p a (fill p rs) b) p -> 1 <= p -> 1 <= q -> chain a rs b -> fits p rs ->
  let n := Z.of_nat (length rs) + 1 in let D := ph_dim (sp_ph s) in
  (forall k, 0 <= k < n -> segment_shape q (lines_in dz s d) (D + 1) (new k)) ->
  ps3 = mkps dz (upd (knots_of s) d (of_runs q a (fill q rs) b)) (upd (degs_of s) d q) ->
  Forall2 good_direction (upd (knots_of s) d (of_runs q a (fill q rs) b)) (upd (degs_of s) d q) ->
  phys_ok dz ph3 -> ph_dim ph3 = D -> ph_npts ph3 = upd (npts_of s) d (n * q + 1) -> is_weighted dz ph3 = is_weighted dz (sp_ph s) ->
  exists t, set_segments (F := F) (mkSpline ps3 ph3) d (map new (zseq 0 (Z.to_nat n))) = Ok t /\ well_formed t /\
    knots_of t = upd (knots_of s) d (of_runs q a (fill q rs) b) /\ degs_of t = upd (degs_of s) d q /\
    ph_dim (sp_ph t) = D /\ npts_of t = upd (npts_of s) d (n * q + 1) /\ is_weighted dz (sp_ph t) = is_weighted dz (sp_ph s) /\
    forall idx, in_box (npts_of t) idx ->
      let k := seg_of q n (nth d idx 0) in
      let h := fun c => value (new k) q (line (npts_of s) d idx) (nth d idx 0 - k * q) c in
      (is_weighted dz (sp_ph s) = true -> weight t idx = h D) /\
      forall c, 0 <= c < D -> coordinate t idx c = ndiv (n := F) (h c) (h D).
Proof.
  intros Hwf Hdir Hp Hq Hch Hft n D Hsh -> Hgd Hph Hdim Hnp Hwt. pose proof Hdir as [Ek Ed]. destruct (wf_direction dz s d _ p Hwf Ek Ed) as (Hg & Hd & Hn).
  set (kv1 := of_runs q a (fill q rs) b) in *. set (knots := upd (knots_of s) d kv1) in *. set (degs := upd (degs_of s) d q) in *.
  set (s0 := mkSpline (F := F) (mkps dz knots degs) ph3).
  assert (Hz : zlen (map new (zseq 0 (Z.to_nat n))) = n) by (unfold zlen; rewrite map_length, zseq_length; unfold n; lia).
  assert (El : lines_in dz s0 d = lines_in dz s d).
  { unfold lines_in, npts_of at 1, s0. cbn [sp_ph]. rewrite Hnp, remove_at_upd. reflexivity. }
  destruct (set_segments_ok dz s0 d q n (map new (zseq 0 (Z.to_nat n)))) as (t & E & T1 & T2 & T3 & T4 & T5 & T6).
  - exact Hph.
  - unfold npts_of, s0. cbn [sp_ph]. rewrite Hnp, upd_length. exact Hd.
  - unfold degs_of, s0. cbn. apply (nth_error_upd_same _ _ _ p). exact Ed.
  - lia.
  - unfold fits in Hft. unfold n. nia.
  - unfold npts_of, s0. cbn [sp_ph]. rewrite Hnp, nth_upd_same by auto. reflexivity.
  - exact Hz.
  - rewrite El. apply Forall_forall. intros x Hx. apply in_map_iff in Hx as (k & <- & Hk). apply zseq_In in Hk. unfold s0. cbn [sp_ph]. rewrite Hdim. apply Hsh. lia.
  - exists t. split; [exact E|]. unfold s0 in T1, T2, T3, T4. cbn [sp_ps sp_ph] in T1, T2, T4. unfold npts_of at 2 in T3. cbn [sp_ph] in T3. rewrite Hnp in T3.
    assert (Kt : knots_of t = knots) by (unfold knots_of; rewrite T1; reflexivity). assert (Gt : degs_of t = degs) by (unfold degs_of; rewrite T1; reflexivity).
    pose proof Hwf as [Hd0 _ Hn0 _ _ _].
    assert (Hnn : upd (npts_of s) d (n * q + 1) = map2 (fun kv p => zlen kv - p - 1) knots degs).
    { unfold knots, degs. rewrite Hn0. clear - Hd0 Hq Ek. assert (EZ : n * q + 1 = zlen kv1 - q - 1) by (unfold kv1; rewrite fill_length by lia; unfold n; lia).
      rewrite EZ. clear EZ. revert d Ek. induction Hd0 as [|k q0 ks qs _ H IH]; intros [|d] Ek; cbn [nth_error] in *; try discriminate; cbn [map2 upd]; [reflexivity|]. f_equal. now apply IH. }
    assert (Wt : well_formed t).
    { replace t with (mkSpline (F := F) (sp_ps t) (sp_ph t)) by (destruct t; reflexivity). rewrite T1. apply wf_build; [exact Hgd | exact T5 |].
      change (ph_npts (sp_ph t)) with (npts_of t). now rewrite T3. }
    split; [exact Wt|]. split; [exact Kt|]. split; [exact Gt|]. split; [congruence|]. split; [exact T3|]. split; [congruence|].
    intros idx Hb. cbv zeta in *. assert (N0 : npts_of s0 = upd (npts_of s) d (n * q + 1)) by exact Hnp.
    rewrite T3 in Hb. specialize (T6 idx). rewrite N0 in T6. specialize (T6 Hb).
    assert (Hk : 0 <= seg_of q n (nth d idx 0) < n).
    { pose proof (in_box_nth _ _ d Hb) as Hi. rewrite upd_length, nth_upd_same in Hi by auto. specialize (Hi Hd). unfold seg_of.
      assert (0 <= nth d idx 0 / q) by (apply Z.div_pos; lia). unfold n in *. lia. }
    set (k := seg_of q n (nth d idx 0)) in *.
    assert (En : nth (Z.to_nat k) (map new (zseq 0 (Z.to_nat n))) [] = new k).
    { rewrite (nth_map_in _ _ _ 0) by (rewrite zseq_length; lia). f_equal. rewrite zseq_nth by lia. lia. }
    rewrite En in T6. assert (Eli : line (upd (npts_of s) d (n * q + 1)) d idx = line (npts_of s) d idx) by (unfold line; now rewrite remove_at_upd).
    rewrite Eli in T6. unfold s0 in T6. cbn [sp_ph] in T6. rewrite Hdim in T6. destruct T6 as [A1 A2]. split; [intros Hw; apply A1; congruence | exact A2].
Qed.
End Stage.
