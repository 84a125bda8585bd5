(* Lemmas about swept surfaces (C60): averaged knots, frames, the loop over the sections. *)
From Coq Require Import ZArith List Lia Bool Reals Lra.
From Verif Require Import Base BaseFacts RSum MultiIndex MultiIndexSpec MultiIndexFacts KnotVec KnotVecSpec KnotVecFacts
  Basis BasisSpec BasisFacts Spaces SpacesSpec SpacesFacts SplineEval SplineSpec SplineNew EvalFacts EvalDeriv EvalThms
  DegreeFacts GeneratorsFacts TensorSum IgaSystemSpec IgaFaceFacts Swept SweptSpec.
Import ListNotations.
Open Scope Z_scope.

(* ---- averaged knots ---- *)
Section Means.
Context {dz : R -> R}.
Notation F := (Rops dz).

Lemma mean_ok (coords : list R) p i : 1 <= p -> 0 <= i -> i + p <= zlen coords ->
  mean_of (F := F) coords p i = Ok (lsum (fun j => nth (Z.to_nat j) coords 0%R) (zseq i (Z.to_nat p)) / IZR p)%R.
Proof.
  intros Hp Hi Hl. unfold mean_of. rewrite for_up_foldM. replace (i + p - i) with p by lia.
  pose proof (foldM_sum (fun j => vget coords j) (fun j => nth (Z.to_nat j) coords 0%R) (zseq i (Z.to_nat p)) 0%R) as S.
  etransitivity; [refine (f_equal (fun r => bind r _) (S _))|].
  - intros j Hj. apply zseq_In in Hj. apply (vget_nth (A := R)). lia.
  - cbn [bind]. rewrite (ndiv_R dz) by (apply (not_0_IZR p); lia). rewrite Rplus_0_l. reflexivity.
Qed.

Lemma averaged_ok (coords : list R) p n : 1 <= p -> p + 1 <= n -> n <= zlen coords ->
  averaged_knots (F := F) coords p n =
  Ok (repeat 0%R (Z.to_nat (p + 1)) ++
      map (fun i => lsum (fun j => nth (Z.to_nat j) coords 0%R) (zseq i (Z.to_nat p)) / IZR p)%R (zseq 1 (Z.to_nat (n - 1 - p))) ++
      repeat (last coords 0%R) (Z.to_nat (p + 1))).
Proof.
  intros Hp Hn Hl. unfold averaged_knots.
  pose proof (mapM_ok (mean_of (F := F) coords p) (fun i => lsum (fun j => nth (Z.to_nat j) coords 0%R) (zseq i (Z.to_nat p)) / IZR p)%R (zseq 1 (Z.to_nat (n - 1 - p)))) as M.
  etransitivity; [refine (f_equal (fun r => bind r _) (M _))|].
  - intros i Hi. apply zseq_In in Hi. apply mean_ok; lia.
  - cbn [bind]. pose proof (vget_nth (A := R) coords (zlen coords - 1) 0%R ltac:(zl)) as E. rnorm. rewrite E. cbn [bind]. f_equal. f_equal. f_equal. f_equal.
    clear. destruct coords as [|a l] using rev_ind; [reflexivity|]. rewrite last_last, app_nth2 by (unfold zlen; rewrite app_length; cbn; lia).
    unfold zlen. rewrite app_length. cbn [length]. replace (Z.to_nat (Z.of_nat (length l + 1) - 1) - length l)%nat with 0%nat by lia. reflexivity.
Qed.
End Means.

Lemma sum_ramp h n i p : 0 <= i -> i + Z.of_nat p <= n ->
  lsum (fun j => nth (Z.to_nat j) (map (fun k => IZR k * h)%R (zseq 0 (Z.to_nat n))) 0%R) (zseq i p) = (h * (IZR (Z.of_nat p) * (IZR i + (IZR (Z.of_nat p) - 1) / 2)))%R.
Proof.
  revert i. induction p as [|p IH]; intros i Hi Hp; cbn [zseq lsum]; [cbn; ring|]. rewrite IH by lia. rewrite (nth_map_in _ _ _ 0) by (rewrite zseq_length; lia).
  rewrite zseq_nth by lia. rewrite Z2Nat.id, Nat2Z.inj_succ by lia. unfold Z.succ. rewrite !plus_IZR. field.
Qed.

Definition mean_count (p n i : Z) : Z := if i <=? p then 0 else if i <? n then 2 * (i - p) + p - 1 else 2 * (n - 1).
Lemma mean_knot_count p n h i : mean_knot p n h i = (h / 2 * IZR (mean_count p n i))%R.
Proof.
  unfold mean_knot, mean_count. destruct (i <=? p); [cbn; ring|]. destruct (i <? n); rewrite ?plus_IZR, ?minus_IZR, ?plus_IZR, ?mult_IZR, ?minus_IZR; field.
Qed.

Lemma mean_good p n h kv : 1 <= p -> p + 1 <= n -> (tolerance <= h)%R -> zlen kv = n + p + 1 ->
  (forall i, 0 <= i < n + p + 1 -> knot kv (Z.to_nat i) = mean_knot p n h i) ->
  good_direction kv p /\ exact_ends kv p /\ first_knot kv = 0%R /\ final_knot kv = (h * IZR (n - 1))%R.
Proof.
  intros Hp Hn Hh L Hk. pose proof tolerance_pos as Ht. set (c := fun j : nat => mean_count p n (Z.of_nat j)).
  assert (Ln : Z.of_nat (length kv) = n + p + 1) by exact L.
  assert (Hk' : forall j, (j < length kv)%nat -> knot kv j = (h / 2 * IZR (c j))%R).
  { intros j Hj. rewrite <- (Nat2Z.id j) at 1. rewrite Hk by lia. apply mean_knot_count. }
  assert (Hc0 : forall j, Z.of_nat j <= p -> c j = 0) by (intros j Hj; unfold c, mean_count; destruct (Z.leb_spec (Z.of_nat j) p); lia).
  assert (Hc1 : forall j, n <= Z.of_nat j -> c j = 2 * (n - 1)).
  { intros j Hj. unfold c, mean_count. destruct (Z.leb_spec (Z.of_nat j) p); [lia|]. destruct (Z.ltb_spec (Z.of_nat j) n); lia. }
  assert (Hcm : forall i j, (i <= j)%nat -> c i <= c j /\ (c i < c j -> c i + 2 <= c j)).
  { intros i j Hij. unfold c, mean_count. destruct (Z.leb_spec (Z.of_nat i) p); destruct (Z.leb_spec (Z.of_nat j) p);
      destruct (Z.ltb_spec (Z.of_nat i) n); destruct (Z.ltb_spec (Z.of_nat j) n); lia. }
  assert (E0 : first_knot kv = 0%R). { change (knot kv 0 = 0%R). rewrite Hk', Hc0 by lia. ring. }
  assert (E1 : final_knot kv = (h * IZR (n - 1))%R). { change (knot kv (length kv - 1) = (h * IZR (n - 1))%R). rewrite Hk', Hc1, mult_IZR by lia. field. }
  assert (Hn1 : (1 <= IZR (n - 1))%R) by (apply (IZR_le 1); lia).
  split; [|split; [|split; assumption]].
  - split; [lia|]. split; [split; [lia|]|split; [|split]].
    + intros j Hj. rewrite E0, E1, !Hk' by lia. rewrite (Hc0 j), (Hc1 (length kv - 1 - j)%nat), mult_IZR by lia. split; field.
    + intros i j Hij Hj. rewrite !Hk' by lia. apply Rmult_le_compat_l; [lra|]. apply IZR_le, Hcm, Hij.
    + intros i j Hi Hj. rewrite !Hk' by lia. intros Hlt. assert (Hc : (IZR (c i) < IZR (c j))%R) by nra. apply lt_IZR in Hc.
      assert (Hij : (i <= j)%nat). { destruct (Nat.le_gt_cases i j) as [H|H]; [exact H|]. destruct (Hcm j i ltac:(lia)). lia. }
      destruct (Hcm i j Hij) as (_ & Hs). specialize (Hs Hc). assert (Hc' : (IZR (c i) + 2 <= IZR (c j))%R) by (rewrite <- plus_IZR; apply IZR_le; lia). nra.
    + rewrite E0, E1. nra.
  - split.
    + rewrite E0, Hk' by lia. assert (1 <= c (S (Z.to_nat p))) as H%IZR_le; [|nra].
      unfold c, mean_count. destruct (Z.leb_spec (Z.of_nat (S (Z.to_nat p))) p); [lia|]. destruct (Z.ltb_spec (Z.of_nat (S (Z.to_nat p))) n); lia.
    + rewrite E1, Hk' by lia. assert (c (length kv - Z.to_nat p - 2)%nat <= 2 * (n - 1) - 1) as H%IZR_le.
      * unfold c, mean_count. destruct (Z.leb_spec (Z.of_nat (length kv - Z.to_nat p - 2)) p); [lia|]. destruct (Z.ltb_spec (Z.of_nat (length kv - Z.to_nat p - 2)) n); lia.
      * rewrite minus_IZR, mult_IZR in H. nra.
Qed.

Lemma mean_knots dz p n h : 1 <= p -> p + 1 <= n -> exists kv,
  averaged_knots (F := Rops dz) (map (fun k => IZR k * h)%R (zseq 0 (Z.to_nat n))) p n = Ok kv /\ zlen kv = n + p + 1 /\
  forall i, 0 <= i < n + p + 1 -> knot kv (Z.to_nat i) = mean_knot p n h i.
Proof.
  intros Hp Hn. set (coords := map _ _). assert (Hl : zlen coords = n) by (unfold coords, zlen; rewrite map_length, zseq_length; lia).
  eexists. split; [apply averaged_ok; lia|]. set (mid := map _ (zseq 1 _)).
  assert (Lm : length mid = Z.to_nat (n - 1 - p)) by (unfold mid; now rewrite map_length, zseq_length).
  split; [unfold zlen; rewrite !app_length, !repeat_length, Lm; lia|].
  intros i Hi. unfold knot, mean_knot. destruct (Z.leb_spec i p).
  - rewrite app_nth1 by (rewrite repeat_length; lia). apply nth_repeat.
  - rewrite app_nth2, repeat_length by (rewrite repeat_length; lia). destruct (Z.ltb_spec i n).
    + rewrite app_nth1 by lia. unfold mid. rewrite (nth_map_in _ _ _ 0) by (rewrite zseq_length; lia). rewrite zseq_nth by lia.
      unfold coords. rewrite sum_ramp by lia. rewrite Z2Nat.id by lia. replace (1 + Z.of_nat (Z.to_nat i - Z.to_nat (p + 1))) with (i - p) by lia.
      rewrite (minus_IZR p 1). field. apply not_0_IZR. lia.
    + rewrite app_nth2 by lia. assert (E : last coords 0%R = (h * IZR (n - 1))%R).
      { unfold coords. replace (Z.to_nat n) with (Z.to_nat (n - 1) + 1)%nat by lia. clear - Hp Hn.
        assert (Z : forall k lo, zseq lo (k + 1) = zseq lo k ++ [lo + Z.of_nat k]).
        { induction k as [|k IH]; intros lo; cbn [Nat.add zseq app]; [f_equal; lia|]. rewrite IH. f_equal. f_equal. f_equal. lia. }
        rewrite Z, map_app. cbn [map]. rewrite last_last. replace (0 + Z.of_nat (Z.to_nat (n - 1))) with (n - 1) by lia. ring. }
      rewrite E. rewrite (nth_indep _ 0%R (h * IZR (n - 1))%R) by (rewrite repeat_length; lia). apply nth_repeat.
Qed.

(* ---- vectors ---- *)
Lemma inner_pos a : a <> origin -> (0 < inner a a)%R.
Proof.
  destruct a as [[a0 a1] a2]. cbn [inner]. intros H. pose proof (Rle_0_sqr a0) as H0. pose proof (Rle_0_sqr a1) as H1. pose proof (Rle_0_sqr a2) as H2. unfold Rsqr in *.
  destruct (Req_dec a0 0) as [E0|E0]; [|assert (0 < a0 * a0)%R by nra; lra]. destruct (Req_dec a1 0) as [E1|E1]; [|assert (0 < a1 * a1)%R by nra; lra].
  destruct (Req_dec a2 0) as [E2|E2]; [|assert (0 < a2 * a2)%R by nra; lra]. subst. now elim H.
Qed.
Lemma magnitude_pos a : a <> origin -> (0 < magnitude a)%R.
Proof. intros H. apply sqrt_lt_R0. now apply inner_pos. Qed.
Lemma magnitude_origin : magnitude origin = 0%R.
Proof. unfold magnitude, origin, inner. replace (0 * 0 + 0 * 0 + 0 * 0)%R with 0%R by ring. apply sqrt_0. Qed.
Lemma magnitude_unit a : inner a a = 1%R -> magnitude a = 1%R.
Proof. unfold magnitude. intros ->. apply sqrt_1. Qed.
Lemma inner_comm a b : inner a b = inner b a.
Proof. destruct a as [[a0 a1] a2], b as [[b0 b1] b2]. cbn [inner]. ring. Qed.
Lemma inner_scale_l x a b : inner (scale x a) b = (x * inner a b)%R.
Proof. destruct a as [[a0 a1] a2], b as [[b0 b1] b2]. cbn [inner scale]. ring. Qed.
Lemma inner_scale_r x a b : inner a (scale x b) = (x * inner a b)%R.
Proof. destruct a as [[a0 a1] a2], b as [[b0 b1] b2]. cbn [inner scale]. ring. Qed.
Lemma unit_inner a : a <> origin -> inner (unit_of a) (unit_of a) = 1%R.
Proof.
  intros H. unfold unit_of. rewrite inner_scale_l, inner_scale_r. pose proof (magnitude_pos a H).
  assert (E : inner a a = (magnitude a * magnitude a)%R) by (unfold magnitude; rewrite sqrt_sqrt; [reflexivity|left; now apply inner_pos]).
  rewrite E. field. lra.
Qed.
Lemma outer_inner_l a b : inner (outer a b) a = 0%R.
Proof. destruct a as [[a0 a1] a2], b as [[b0 b1] b2]. cbn [inner outer]. ring. Qed.

(* x and z of length one and orthogonal give a frame *)
Lemma frame_orthonormal x z : inner x x = 1%R -> inner z z = 1%R -> inner z x = 0%R -> orthonormal x (outer z x) z.
Proof.
  destruct x as [[x0 x1] x2], z as [[z0 z1] z2]. cbn [inner]. intros Hx Hz Hzx. unfold orthonormal. cbn [inner outer].
  assert (forall k, (k * (z0 * x0 + z1 * x1 + z2 * x2) = 0)%R) as K by (intros k; rewrite Hzx; ring).
  split; [exact Hx|]. split.
  - transitivity ((x0 * x0 + x1 * x1 + x2 * x2) * (z0 * z0 + z1 * z1 + z2 * z2) - (z0 * x0 + z1 * x1 + z2 * x2) * (z0 * x0 + z1 * x1 + z2 * x2))%R; [ring|].
    rewrite Hx, Hz, Hzx. ring.
  - split; [exact Hz|]. split; [ring|]. split; [rewrite <- Hzx; ring|]. split; [ring|].
    apply f_equal2; [apply f_equal2|].
    + transitivity (z0 * (x0 * x0 + x1 * x1 + x2 * x2) - x0 * (z0 * x0 + z1 * x1 + z2 * x2))%R; [ring|rewrite Hx, Hzx; ring].
    + transitivity (z1 * (x0 * x0 + x1 * x1 + x2 * x2) - x1 * (z0 * x0 + z1 * x1 + z2 * x2))%R; [ring|rewrite Hx, Hzx; ring].
    + transitivity (z2 * (x0 * x0 + x1 * x1 + x2 * x2) - x2 * (z0 * x0 + z1 * x1 + z2 * x2))%R; [ring|rewrite Hx, Hzx; ring].
Qed.

Section Frames.
Context {dz : R -> R}.
Notation F := (Rops dz).

Lemma cross_R a b : cross (F := F) a b = outer a b.
Proof. destruct a as [[a0 a1] a2], b as [[b0 b1] b2]. reflexivity. Qed.
Lemma dot_R a b : dot (F := F) a b = inner a b.
Proof. destruct a as [[a0 a1] a2], b as [[b0 b1] b2]. unfold dot, inner. rnorm. ring. Qed.
Lemma norm_R a : norm (F := F) a = magnitude a.
Proof.
  destruct a as [[a0 a1] a2]. unfold norm, magnitude, inner. cbn [nsqrt nadd nmul n0 Rops].
  replace (0 + a0 * a0 + a1 * a1 + a2 * a2)%R with (a0 * a0 + a1 * a1 + a2 * a2)%R by ring.
  destruct (Rlt_dec _ 0); [|reflexivity]. nra.
Qed.
Lemma divide_R a x : x <> 0%R -> divide (F := F) a x = scale (/ x) a.
Proof. destruct a as [[a0 a1] a2]. intros H. unfold divide, scale. rewrite !(ndiv_R dz) by auto. unfold Rdiv. rewrite !(Rmult_comm (/ x)). reflexivity. Qed.

Lemma normal_bend t d1 d2 prev i : outer d1 d2 <> origin -> (1 <= i -> inner (unit_of (outer d1 d2)) prev <> 0%R) -> 0 <= i ->
  compute_normal (F := F) t d1 d2 prev i = Ok (unit_of (outer d1 d2)).
Proof.
  intros H Hi H0. pose proof (magnitude_pos _ H) as Hp. unfold compute_normal. rewrite cross_R, norm_R. cbn [nltb n0 Rops]. unfold Rltb.
  destruct (Rlt_dec 0 _) as [_|N]; [|lra]. rewrite divide_R, dot_R by lra. fold (unit_of (outer d1 d2)). cbn [neqb Rops]. unfold Reqb.
  destruct (Req_EM_T _ 0) as [E|_]; [|reflexivity]. destruct (Z.eqb_spec i 0); [reflexivity|]. elim Hi; [lia|exact E].
Qed.
Lemma normal_jump t d1 d2 prev i : outer d1 d2 <> origin -> inner (unit_of (outer d1 d2)) prev = 0%R -> i <> 0 ->
  compute_normal (F := F) t d1 d2 prev i = Throw RuntimeError.
Proof.
  intros H Hi H0. pose proof (magnitude_pos _ H) as Hp. unfold compute_normal. rewrite cross_R, norm_R. cbn [nltb n0 Rops]. unfold Rltb.
  destruct (Rlt_dec 0 _) as [_|N]; [|lra]. rewrite divide_R, dot_R by lra. fold (unit_of (outer d1 d2)). cbn [neqb Rops]. unfold Reqb.
  destruct (Req_EM_T _ 0) as [E|N]; [|now elim N]. destruct (Z.eqb_spec i 0); [lia|]. reflexivity.
Qed.
Lemma normal_straight t d1 d2 prev i : outer d1 d2 = origin -> inner prev t = 0%R -> inner prev prev = 1%R ->
  compute_normal (F := F) t d1 d2 prev i = Ok prev.
Proof.
  intros H Hi H1. unfold compute_normal. rewrite cross_R, norm_R, H, magnitude_origin. cbn [nltb n0 Rops]. unfold Rltb.
  destruct (Rlt_dec 0 0) as [N|_]; [lra|]. rewrite dot_R, Hi. destruct prev as [[p0 p1] p2], t as [[t0 t1] t2].
  cbn [nsub nmul Rops]. replace (p0 - 0 * t0)%R with p0 by ring. replace (p1 - 0 * t1)%R with p1 by ring. replace (p2 - 0 * t2)%R with p2 by ring.
  assert (En : norm (F := F) (p0, p1, p2) = 1%R) by (rewrite norm_R; now apply magnitude_unit).
  refine (f_equal Ok _). etransitivity; [exact (f_equal (divide (F := F) (p0, p1, p2)) En)|]. rewrite divide_R by lra. unfold scale. rewrite Rinv_1, !Rmult_1_l. reflexivity.
Qed.
Lemma transformation_ok t d1 d2 prev i z : compute_normal (F := F) t d1 d2 prev i = Ok z -> d1 <> origin ->
  get_transformation (F := F) t d1 d2 prev i = Ok (mkFrame (F := F) (unit_of d1) (outer z (unit_of d1)) z t).
Proof.
  intros E H. pose proof (magnitude_pos _ H). unfold get_transformation. rewrite E. cbn [bind]. rewrite norm_R, divide_R, cross_R by lra. reflexivity.
Qed.
Lemma transform_ok x y z t s (q : list R) : 3 <= zlen q ->
  transform (F := F) (mkFrame (F := F) x y z t) s q = Ok (listed (placed t x y z s (nth 0 q 0%R, nth 1 q 0%R, nth 2 q 0%R))).
Proof.
  intros Hq. destruct x as [[x0 x1] x2], y as [[y0 y1] y2], z as [[z0 z1] z2], t as [[t0 t1] t2], s as [[s0 s1] s2].
  unfold transform. cbn [fr_x fr_y fr_z fr_t].
  pose proof (vget_nth (A := R) q 0 0%R ltac:(lia)) as E0. pose proof (vget_nth (A := R) q 1 0%R ltac:(lia)) as E1. pose proof (vget_nth (A := R) q 2 0%R ltac:(lia)) as E2.
  change (Z.to_nat 0) with 0%nat in E0. change (Z.to_nat 1) with 1%nat in E1. change (Z.to_nat 2) with 2%nat in E2.
  change (num F) with R in *. rewrite E0, E1, E2. cbn [bind nadd nmul Rops]. unfold listed, placed, vsum, scale. f_equal. f_equal; [ring|]. f_equal; [ring|]. f_equal. ring.
Qed.
Lemma outer_zero_l b : outer origin b = origin.
Proof. destruct b as [[b0 b1] b2]. unfold outer, origin. f_equal; [f_equal|]; ring. Qed.
End Frames.

(* ---- evaluation of a curve in space ---- *)
Section Curves.
Context {dz : R -> R}.
Notation F := (Rops dz).
Implicit Types t c s : spline F.

(* the number behind the last coordinate is the weight *)
Lemma evaluate_weight s us w : well_formed s -> in_domain s us -> ph_wts (sp_ph s) = Some w ->
  evaluate s us [ph_dim (sp_ph s)] = Ok [weight_function s us].
Proof.
  intros Wf Hu Hb. destruct (wf_dirs dz s us Wf Hu) as (L & HwfL & -> & H0). rewrite (weight_function_dirs dz s L HwfL H0).
  pose proof HwfL as (HL & Eps & En & Hd & Hcps & Hw).
  unfold evaluate. rewrite Eps, throw_ok by auto. cbn [bind].
  rewrite first_non_zero_ok by auto. cbn [bind].
  rewrite mih_loop_visited. cbn [mcur]. unfold num_to_evaluate. rewrite Eps. cbn [psL mkps ps_degs].
  rnorm. rewrite (point_loop (fun idx (c : Z) => evaluated_control_point s (map du L) (map2 Z.add idx (map (fun d => dsp d - dp d)%Z L)) c)
                      (fun cur (c : Z) => let idx := map2 Z.add cur (map (fun d => dsp d - dp d)%Z L) in (prodf (map dfactor L) idx * weight s idx)%R)).
  - f_equal. rewrite map2_repeat_0. cbn [map]. f_equal. apply (visited_sum dz L (weight s) HL).
  - reflexivity.
  - intros cur c Hc [<-|[]]. pose proof (visited_active dz L cur HL Hc) as Ha.
    unfold evaluated_control_point. rewrite Eps, basis_ok by auto. cbn [bind]. rewrite Hb.
    pose proof (homogeneous_ok dz s (map2 Z.add cur (map (fun d => dsp d - dp d)%Z L)) w (ph_dim (sp_ph s)) Hd) as Hh.
    rewrite En in Hh at 1. specialize (Hh (active_box dz L _ HL Ha) Hcps Hb (Hw w Hb) ltac:(lia)).
    destruct (get_homogeneous (sp_ph s) _) as [hcp| |]; cbn [bind] in *; try discriminate.
    rewrite Hh. cbn [bind]. unfold sp_pdim. rewrite !Z.eqb_refl. reflexivity.
Qed.

Lemma evaluate_point s us : well_formed s -> in_domain s us -> 3 <= ph_dim (sp_ph s) -> weight_function s us <> 0%R ->
  evaluate s us [0; 1; 2] = Ok [only_value (evaluate s us [0]); only_value (evaluate s us [1]); only_value (evaluate s us [2])].
Proof.
  intros Wf Hu Hd Hw. rewrite !(eval_quotient dz) by (auto; repeat constructor; lia). reflexivity.
Qed.
Lemma evaluate_slopes s us k : well_formed s -> in_domain s us -> 3 <= ph_dim (sp_ph s) -> length k = length (degs_of s) -> Forall (fun k => 0 <= k) k ->
  evaluate_derivative s us [0; 1; 2] k =
  Ok [only_value (evaluate_derivative s us [0] k); only_value (evaluate_derivative s us [1] k); only_value (evaluate_derivative s us [2] k)].
Proof.
  intros Wf Hu Hd Hl Hk. destruct (wf_dirs dz s us Wf Hu) as (L & HwfL & -> & H0). destruct (wfL_of dz s L HwfL) as (E1 & E2 & E3). rewrite E2, map_length in Hl.
  rewrite !(evaluate_derivative_ok dz s L) by (auto; repeat constructor; lia). reflexivity.
Qed.

(* a curve in space at one parameter, as the model sees it *)
Lemma section_values t u w : well_formed t -> length (knots_of t) = 1%nat -> in_domain t [u] -> ph_wts (sp_ph t) = Some w -> ph_dim (sp_ph t) = 3 -> weight_function t [u] <> 0%R ->
  evaluate t [u] [0; 1; 2] = Ok (listed (at_point t u)) /\ evaluate t [u] [3] = Ok [weight_function t [u]] /\
  forall k, 0 <= k -> evaluate_derivative t [u] [0; 1; 2] [k] = Ok (listed (derivative_at t k u)).
Proof.
  intros Wf Hl Hu Hb Hd Hw. split; [apply evaluate_point; auto; lia|]. split; [rewrite <- Hd; now apply (evaluate_weight t [u] w)|].
  intros k Hk. apply evaluate_slopes; auto; try lia. destruct (one_direction t Wf Hl) as (kv & p & _ & -> & _). reflexivity.
Qed.

Lemma triple_listed (a : space_point) : triple (F := F) (listed a) = Ok a.
Proof. destruct a as [[a0 a1] a2]. reflexivity. Qed.

(* ---- the loop over the sections ---- *)
Section Loop.
Variables (t c : spline F) (kt : list R) (n m : Z) (wt wc : list R) (z : Z -> space_point) (scaling : list space_point).
Hypotheses (Wt : well_formed t) (Wc : well_formed c) (Kt : knots_of t = [kt]) (Lc : length (knots_of c) = 1%nat)
  (Hwt : ph_wts (sp_ph t) = Some wt) (Hwc : ph_wts (sp_ph c) = Some wc) (Dt : ph_dim (sp_ph t) = 3) (Dc : 3 <= ph_dim (sp_ph c))
  (H0 : first_knot kt = 0%R) (Hn : 2 <= n) (Nc : npts_of c = [m]) (Hs : n <= zlen scaling)
  (Pt : forall u, in_domain t [u] -> weight_function t [u] <> 0%R).
Let last := final_knot kt.
Let h := (last / IZR (n - 1))%R.
Let f i := nth (Z.to_nat i) scaling origin.
Let spot i j := section_at t last n z (f i) i (control_point c [j]).
Let load i j := (weight c [j] * weight_function t [sample last n i])%R.

Lemma good_kt : (0 < last)%R.
Proof. destruct (one_direction t Wt) as (kv & p & E & _ & (_ & _ & _ & _ & H) & _); [now rewrite Kt|]. rewrite Kt in E. injection E as <-. unfold last. lra. Qed.
Lemma sample_domain i : 0 <= i < n -> in_domain t [sample last n i].
Proof.
  intros Hi. unfold in_domain. rewrite Kt. constructor; [split|constructor]; rewrite ?H0; unfold sample; pose proof good_kt as Hl; fold last.
  - apply Rmult_le_pos; [apply (IZR_le 0); lia|]. apply Rlt_le, Rdiv_lt_0_compat; auto. apply (IZR_lt 0); lia.
  - assert (Hc : (0 < IZR (n - 1))%R) by (apply (IZR_lt 0); lia). assert (IZR i <= IZR (n - 1))%R by (apply IZR_le; lia).
    apply Rmult_le_reg_r with (IZR (n - 1)); auto. replace (IZR i * (last / IZR (n - 1)) * IZR (n - 1))%R with (last * IZR i)%R by (field; lra).
    apply Rmult_le_compat_l; lra.
Qed.

Lemma section_frame_ok prev i : 0 <= i < n -> let u := sample last n i in
  section_frame (F := F) t h prev i =
  (m <- get_transformation (F := F) (at_point t u) (derivative_at t 1 u) (derivative_at t 2 u) prev i ;; Ok (u, weight_function t [u], m)).
Proof.
  intros Hi u. pose proof (sample_domain i Hi) as Hu. fold u in Hu.
  destruct (section_values t u wt Wt ltac:(now rewrite Kt) Hu Hwt Dt (Pt u Hu)) as (E1 & E2 & E3).
  unfold section_frame. cbv zeta. change (num F) with R in *. change (nmul (n := F) (nofZ i) h) with u. rewrite E1. cbn [bind]. rewrite E2. cbn [bind].
  pose proof (E3 1 ltac:(lia)) as E4. pose proof (E3 2 ltac:(lia)) as E5. change (vget [weight_function t [u]] 0) with (Ok (weight_function t [u])).
  cbn [bind]. rewrite E4. cbn [bind]. rewrite E5. cbn [bind]. rewrite !triple_listed. reflexivity.
Qed.

Lemma place_ok i fr (cps : list (list R)) (ws : list R) : 0 <= i < n -> zlen cps = n * m -> zlen ws = n * m ->
  (forall j, 0 <= j < m -> transform (F := F) fr (f i) (map (coordinate c [j]) (zseq 0 (Z.to_nat (ph_dim (sp_ph c))))) = Ok (listed (spot i j))) ->
  exists cps' ws', place_section (F := F) c n m scaling i (weight_function t [sample last n i]) fr (cps, ws) = Ok (cps', ws') /\
  zlen cps' = n * m /\ zlen ws' = n * m /\
  forall i' j', 0 <= i' < n -> 0 <= j' < m ->
    nth (Z.to_nat (i' + n * j')) cps' [] = (if i' =? i then listed (spot i j') else nth (Z.to_nat (i' + n * j')) cps []) /\
    nth (Z.to_nat (i' + n * j')) ws' 0%R = (if i' =? i then load i j' else nth (Z.to_nat (i' + n * j')) ws 0%R).
Proof.
  intros Hi L1 L2 Ht. unfold place_section.
  pose (J := fun (j : Z) (st : list (list R) * list R) => zlen (fst st) = n * m /\ zlen (snd st) = n * m /\
    forall i' j', 0 <= i' < n -> 0 <= j' < m ->
      nth (Z.to_nat (i' + n * j')) (fst st) [] = (if (i' =? i) && (j' <? j) then listed (spot i j') else nth (Z.to_nat (i' + n * j')) cps []) /\
      nth (Z.to_nat (i' + n * j')) (snd st) 0%R = (if (i' =? i) && (j' <? j) then load i j' else nth (Z.to_nat (i' + n * j')) ws 0%R)).
  assert (Hm : 0 <= m).
  { destruct (one_direction c Wc Lc) as (kv & p & _ & _ & (? & (? & _) & _) & E). rewrite Nc in E. injection E as ->. zl. }
  match goal with |- context [for_up 0 m ?b ?s0] => destruct (for_up_inv J 0 m b s0 Hm) as ((cps' & ws') & E & J1 & J2 & J3) end.
  - intros j (c0, w0) Hj (I1 & I2 & I3). cbn [fst snd] in *.
    rewrite (get_cp_nth c [j] Wc) by (rewrite Nc; now apply curve_box). cbn [bind].
    assert (Hf : vget scaling i = Ok (f i)) by (apply vget_nth; lia).
    change (num F) with R in *. rewrite Hf. cbn [bind]. rewrite Ht by auto. cbn [bind]. rewrite vset_ok by nia. cbn [bind].
    rewrite (weight_ok dz c [j]) by (try (rewrite Nc; now apply curve_box); apply (wf_wts _ Wc)). cbn [bind]. rewrite vset_ok by nia. cbn [bind].
    eexists. split; [reflexivity|]. unfold J. cbn [fst snd]. unfold zlen in *. rewrite !upd_length. split; [exact I1|]. split; [exact I2|].
    intros i' j' Hi' Hj'. destruct (I3 i' j' Hi' Hj') as (A & B).
    assert (Hpos : 0 <= j * n + i < n * m) by nia. assert (Hpos' : 0 <= i' + n * j' < n * m) by nia.
    assert (Heq : (Z.to_nat (j * n + i) = Z.to_nat (i' + n * j'))%nat <-> i' = i /\ j' = j).
    { split; [|intros (-> & ->); f_equal; lia]. intros Ez. apply Z2Nat.inj in Ez; [|lia|lia].
      assert (j = j') by nia. subst. split; [nia|reflexivity]. }
    destruct (Z.eqb_spec i' i) as [->|Hne].
    + destruct (Z.ltb_spec j' (j + 1)); cbn [andb].
      * destruct (Z.eq_dec j' j) as [->|Hj''].
        -- rewrite <- (proj2 Heq) by auto. rewrite !nth_upd_same by lia. split; reflexivity.
        -- rewrite !nth_upd_other by (intros Ez; apply Heq in Ez; lia). rewrite A, B. cbn [andb]. destruct (Z.ltb_spec j' j); [|lia]. now split.
      * rewrite !nth_upd_other by (intros Ez; apply Heq in Ez; lia). rewrite A, B. cbn [andb]. destruct (Z.ltb_spec j' j); [lia|]. now split.
    + cbn [andb]. rewrite !nth_upd_other by (intros Ez; apply Heq in Ez; lia). rewrite A, B. cbn [andb]. now split.
  - unfold J. cbn [fst snd]. split; auto. split; auto. intros i' j' _ Hj'. destruct (Z.ltb_spec j' 0); [lia|]. rewrite andb_false_r. now split.
  - exists cps', ws'. split; [exact E|]. cbn [fst snd] in *. split; auto. split; auto. intros i' j' Hi' Hj'. destruct (J3 i' j' Hi' Hj') as (A & B).
    destruct (Z.ltb_spec j' m); [|lia]. rewrite andb_true_r in A, B. split; [exact A|exact B].
Qed.

Variable e : Z.
Hypotheses (He : 0 <= e <= n) (Hz : normals t last n e z).
Lemma normal_unit i : -1 <= i < e -> inner (z i) (z i) = 1%R.
Proof.
  destruct Hz as (Z0 & Hz'). intros Hi. replace i with (-1 + Z.of_nat (Z.to_nat (i + 1))) by lia. assert (Hk : -1 + Z.of_nat (Z.to_nat (i + 1)) < e) by lia.
  revert Hk. induction (Z.to_nat (i + 1)) as [|k IH]; intros Hk.
  - change (-1 + Z.of_nat 0) with (-1). rewrite Z0. cbn [inner]. ring.
  - destruct (Hz' (-1 + Z.of_nat (S k)) ltac:(lia)) as [(A & B & _)|(_ & B & _)]; rewrite B; [now apply unit_inner|].
    replace (-1 + Z.of_nat (S k) - 1) with (-1 + Z.of_nat k) by lia. apply IH. lia.
Qed.
Lemma slope_nonzero i : 0 <= i < e -> derivative_at t 1 (sample last n i) <> origin.
Proof.
  intros Hi. destruct Hz as (_ & Hz'). destruct (Hz' i Hi) as [(A & _)|(_ & _ & A & _)]; auto. intros E. apply A. rewrite E. apply outer_zero_l.
Qed.
Lemma normal_slope i : 0 <= i < e -> inner (z i) (derivative_at t 1 (sample last n i)) = 0%R.
Proof.
  intros Hi. destruct Hz as (_ & Hz'). destruct (Hz' i Hi) as [(A & -> & _)|(_ & -> & _ & _ & A)]; auto.
  unfold unit_of. rewrite inner_scale_l, outer_inner_l. ring.
Qed.
Lemma section_orthonormal i : 0 <= i < e -> let x := unit_of (derivative_at t 1 (sample last n i)) in orthonormal x (outer (z i) x) (z i).
Proof.
  intros Hi x. apply frame_orthonormal.
  - apply unit_inner, slope_nonzero, Hi.
  - apply normal_unit. lia.
  - unfold x, unit_of. rewrite inner_scale_r, normal_slope by auto. ring.
Qed.
Lemma frame_ok i : 0 <= i < e -> let u := sample last n i in let x := unit_of (derivative_at t 1 u) in
  get_transformation (F := F) (at_point t u) (derivative_at t 1 u) (derivative_at t 2 u) (z (i - 1)) i = Ok (mkFrame (F := F) x (outer (z i) x) (z i) (at_point t u)).
Proof.
  intros Hi u x. apply transformation_ok; [|now apply slope_nonzero]. destruct Hz as (_ & Hz'). destruct (Hz' i Hi) as [(A & E & B)|(A & B & C & D & G)].
  - fold u in A, E. rewrite E in *. apply normal_bend; [exact A|exact B|lia].
  - rewrite B. apply normal_straight; auto. apply normal_unit. lia.
Qed.

Lemma sweep_ok (cps0 : list (list R)) (ws0 : list R) : zlen cps0 = n * m -> zlen ws0 = n * m -> exists cps ws,
  for_up 0 e (fun i (st : sweep_state (F := F)) =>
          match st with (vs, prev_z, cps, ws) =>
            f <- section_frame (F := F) t h prev_z i ;;
            r <- place_section (F := F) c n m scaling i (snd (fst f)) (snd f) (cps, ws) ;;
            Ok (vs ++ [fst (fst f)], fr_z (snd f), fst r, snd r)
          end) ([], (0, 0, 1)%R, cps0, ws0) = Ok (map (sample last n) (zseq 0 (Z.to_nat e)), z (e - 1), cps, ws) /\
  zlen cps = n * m /\ zlen ws = n * m /\
  forall i j, 0 <= i < e -> 0 <= j < m -> nth (Z.to_nat (i + n * j)) cps [] = listed (spot i j) /\ nth (Z.to_nat (i + n * j)) ws 0%R = load i j.
Proof.
  intros L1 L2.
  pose (Inv := fun (i : Z) (st : sweep_state (F := F)) => match st with (vs, prev, cps, ws) =>
    vs = map (sample last n) (zseq 0 (Z.to_nat i)) /\ prev = z (i - 1) /\ zlen cps = n * m /\ zlen ws = n * m /\
    forall i' j, 0 <= i' < i -> 0 <= j < m -> nth (Z.to_nat (i' + n * j)) cps [] = listed (spot i' j) /\ nth (Z.to_nat (i' + n * j)) ws 0%R = load i' j end).
  match goal with |- context [for_up 0 e ?b ?s0] => destruct (for_up_inv Inv 0 e b s0 ltac:(lia)) as ([[[vs zl] cps] ws] & E & I) end.
  - intros i [[[vs prev] cps] ws] Hi (I1 & I2 & I3 & I4 & I5). cbn beta iota. subst prev.
    rewrite (section_frame_ok (z (i - 1)) i ltac:(lia)), (frame_ok i Hi). cbn [bind fst snd].
    destruct (place_ok i (mkFrame (F := F) (unit_of (derivative_at t 1 (sample last n i))) (outer (z i) (unit_of (derivative_at t 1 (sample last n i)))) (z i) (at_point t (sample last n i))) cps ws ltac:(lia) I3 I4)
      as (cps' & ws' & E & P1 & P2 & P3).
    { intros j Hj. rewrite transform_ok by (unfold zlen; rewrite map_length, zseq_length; lia). f_equal. f_equal. unfold spot, section_at. f_equal.
      rewrite !(nth_map_in _ _ _ 0) by (rewrite zseq_length; lia). rewrite !zseq_nth by lia. reflexivity. }
    eexists. split; [exact (f_equal (fun r => bind r _) E)|]. unfold Inv. cbn [fst snd]. split.
    { replace (Z.to_nat (i + 1)) with (Z.to_nat i + 1)%nat by lia. rewrite zseq_app, map_app, I1. cbn [zseq map]. repeat f_equal. lia. }
    split; [replace (i + 1 - 1) with i by lia; reflexivity|]. split; [exact P1|]. split; [exact P2|]. intros i' j Hi' Hj. destruct (P3 i' j ltac:(lia) Hj) as (A & B).
    destruct (Z.eqb_spec i' i) as [->|Hne]; [now split|]. destruct (I5 i' j ltac:(lia) Hj) as (A' & B'). split; [exact (eq_trans A A')|exact (eq_trans B B')].
  - unfold Inv. split; [reflexivity|]. split; [symmetry; exact (proj1 Hz)|]. split; auto. split; auto. intros; lia.
  - destruct I as (I1 & I2 & I3 & I4 & I5). exists cps, ws. split; [|auto]. rewrite <- I1, <- I2. exact E.
Qed.
End Loop.
End Curves.
