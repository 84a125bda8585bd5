(* ElevateDegreeForDimension: the spline before RemoveBezierKnots (C84). *)
From Coq Require Import ZArith List Bool Lia Reals Lra.
From Verif Require Import Base BaseFacts RSum MultiIndex MultiIndexSpec MultiIndexFacts TensorSum
  KnotVec KnotVecSpec KnotVecFacts Basis BasisSpec BSplineTheory BasisFacts
  Spaces SpacesSpec SpacesFacts SplineEval SplineEdit SplineSpec EditSpec RemoveSpec EvalFacts EvalThms PhysFacts InsertFacts InsertThms RemoveFacts RemoveThms UniqueSpec UniqueFacts
  SplineDegree DegreeSpec DegreeFacts DegreeReduce DegreeThms KnotRuns ReduceKnots ReduceSegments ReduceSpan ReduceSums ReduceFacts ReduceStage ReduceMain ReduceSpec ReduceThms.
Import ListNotations.
Open Scope Z_scope.

Section Elevate.
Variable dz : R -> R.
Local Notation F := (Rops dz).
Implicit Types s t : spline F.

Lemma elevate_space s d p a rs b : well_formed s -> direction s d (of_runs p a (fill p rs) b) p -> 1 <= p -> chain a rs b ->
  Forall2 good_direction (upd (knots_of s) d (of_runs (p + 1) a (fill (p + 1) rs) b)) (upd (degs_of s) d (p + 1)) /\
  exists ps2, ps_change_degree (sp_ps s) d 1 = Ok ps2 /\
    ps_increment_all ps2 d = Ok (mkps dz (upd (knots_of s) d (of_runs (p + 1) a (fill (p + 1) rs) b)) (upd (degs_of s) d (p + 1))).
Proof.
  intros Hwf [Ek Ed] Hp Hc. destruct (wf_direction dz s d _ p Hwf Ek Ed) as (Hg & _). pose proof Hwf as [Hd _ _ _ _ _].
  set (kv := of_runs p a (fill p rs) b) in *. set (kv1 := of_runs (p + 1) a (fill (p + 1) rs) b).
  assert (Hg1 : good_direction kv1 (p + 1)) by (apply (fill_good p); auto; lia).
  split; [now apply good_upd2|].
  assert (Hl : p + 2 <= zlen kv) by (unfold kv; rewrite (fill_length p a rs b ltac:(lia)); nia).
  assert (HL : lens_ok (knots_of s) (upd (degs_of s) d (p + 1))).
  { unfold lens_ok. clear - Hd Ed Ek Hp Hl. revert d Ed Ek. induction Hd as [|k q ks qs (A & (B & _) & _) H IH]; intros [|d] Ed Ek; cbn [nth_error upd] in *; try discriminate; constructor; auto.
    - injection Ek as ->. split; [lia|]. rnorm. lia.
    - clear - H. induction H as [|k q ks qs (A & (B & _) & _) H IH]; constructor; auto. unfold zlen. split; lia.
    - unfold zlen. split; lia. }
  exists (mkps dz (knots_of s) (upd (degs_of s) d (p + 1))). split.
  - unfold ps_change_degree, dget. fold (degs_of s). rewrite Ed. cbn [bind].
    change (ps_knots (sp_ps s)) with (knots_of s). change (ps_degs (sp_ps s)) with (degs_of s).
    pose proof (create_bases_ok dz _ _ HL) as E. rnorm. rewrite E. reflexivity.
  - pose proof Hg as (_ & _ & Hn & _ & _).
    destruct (increment_all dz (knots_of s) (upd (degs_of s) d (p + 1)) d kv (p + 1) Ek) as (kv' & E & Hn' & Ho); auto.
    + now apply (nth_error_upd_same _ _ _ p).
    + rewrite E. assert (kv' = kv1) as ->; [|reflexivity]. apply sorted_occ_eq; auto; [apply Hg1|].
      intros x. rewrite Ho. pose proof (fill_occ (p + 1) a rs b x ltac:(lia) Hc) as G. replace (p + 1 - 1) with p in G by lia. fold kv kv1 in G. rewrite G.
      assert (Hcf : forall q, 1 <= q -> chain a (fill q rs) b) by (intros q Hq; apply (chain_fill dz q a [] rs b Hq); exact Hc).
      assert (I : In x kv1 <-> In x kv).
      { unfold kv1, kv. rewrite !runs_in by (apply Hcf; lia). unfold fill. rewrite !map_map. reflexivity. }
      destruct (in_dec Req_EM_T x kv), (in_dec Req_EM_T x kv1); tauto || lia.
Qed.

Lemma elevate_phys s d p a rs b : well_formed s -> direction s d (of_runs p a (fill p rs) b) p -> 1 <= p ->
  let lens := upd (npts_of s) d ((Z.of_nat (length rs) + 1) * (p + 1) + 1) in
  nth d (npts_of s) 0 = (Z.of_nat (length rs) + 1) * p + 1 /\
  npts_at (sp_ph s) d (fun n => n + (Z.of_nat (length rs) + 1)) = Ok lens /\
  exists n, num_control_points (set_npts (sp_ph s) lens) = Ok n /\
    let ph3 := add_control_points (set_npts (sp_ph s) lens) (total lens - n) in phys_ok dz ph3 /\
    ph_dim ph3 = ph_dim (sp_ph s) /\ ph_npts ph3 = lens /\ is_weighted dz ph3 = is_weighted dz (sp_ph s).
Proof.
  intros Hwf [Ek Ed] Hp lens. destruct (wf_direction dz s d _ p Hwf Ek Ed) as (Hg & Hd & Hn).
  pose proof (fill_length p a rs b ltac:(lia)) as Hl. rewrite Hl in Hn. set (m := Z.of_nat (length rs)) in *.
  assert (Hm : 0 <= m) by (unfold m; lia).
  split; [lia|]. split.
  { unfold npts_at. fold (npts_of s). rewrite (dget_nth _ d 0) by auto. cbn [bind]. unfold lens. do 2 f_equal. lia. }
  pose proof (wf_phys dz s Hwf) as (Hpl & H1 & H2 & H3). fold (npts_of s) in *.
  assert (Ht : total lens = ((m + 1) * (p + 1) + 1) * total (remove_at d (npts_of s))) by (unfold lens; rewrite total_upd by auto; f_equal; lia).
  assert (Ht0 : total (npts_of s) = ((m + 1) * p + 1) * total (remove_at d (npts_of s))) by (rewrite <- (total_remove_at (npts_of s) d Hd); f_equal; lia).
  destruct (lines_ok dz s d Hwf Hd) as [_ Hlines]. unfold lines_in in Hlines. set (T := total (remove_at d (npts_of s))) in *.
  exists (total (npts_of s)). unfold num_control_points, set_npts. cbn [ph_cps ph_dim ph_npts ph_wts]. rnorm. rewrite H2.
  unfold idiv. destruct (Z.eqb_spec (ph_dim (sp_ph s)) 0); [lia|]. rewrite Z.mul_comm, Z.quot_mul by lia. split; [reflexivity|].
  unfold add_control_points. cbn [ph_cps ph_dim ph_npts ph_wts]. set (D := ph_dim (sp_ph s)) in *.
  assert (HT : 0 <= total (npts_of s) <= total lens) by nia.
  assert (HL : pos_lens lens).
  { unfold lens, pos_lens in *. clear - Hpl Hp Hm. assert (1 <= (m + 1) * (p + 1) + 1) by nia. revert d. induction Hpl; intros [|d]; cbn [upd]; constructor; auto. }
  split; [|split; [reflexivity|split; [reflexivity|unfold is_weighted; destruct (ph_wts (sp_ph s)); reflexivity]]].
  split; [exact HL|]. split; [auto|]. split.
  - cbn [ph_cps ph_dim ph_npts]. unfold zlen in *. rewrite app_length, repeat_length. rnorm. nia.
  - cbn [ph_wts ph_npts]. intros w' E. destruct (ph_wts (sp_ph s)) as [w|]; [|discriminate]. specialize (H3 w eq_refl). cbn [option_map] in E. injection E as <-.
    unfold zlen in *. rewrite app_length, repeat_length. rnorm. lia.
Qed.

(* the elevated net before the copies of the knots are removed; the point p of every segment is zero *)
Definition elevated_net s d p n (idx : list Z) (c : Z) : R :=
  if nth d idx 0 - seg_of (p + 1) n (nth d idx 0) * (p + 1) =? p then 0%R else lifted d (p + 1) n (fun i => hpart s i c) idx.

Theorem elevate_cases s d p a rs b : well_formed s -> regular s -> direction s d (of_runs p a rs b) p -> chain a rs b -> 1 <= p ->
  Forall (fun r => Z.of_nat (snd r) <= p) rs -> fits p rs ->
  let n := Z.of_nat (length rs) + 1 in let D := ph_dim (sp_ph s) in
  exists s1 t, produce_bezier s d = Ok (gaps p rs, s1) /\ well_formed s1 /\ regular s1 /\
    knots_of s1 = upd (knots_of s) d (of_runs p a (fill p rs) b) /\ degs_of s1 = degs_of s /\ same_map dz s s1 /\
    elevate_degree s d = remove_bezier t d (gaps p rs) /\ well_formed t /\
    knots_of t = upd (knots_of s) d (of_runs (p + 1) a (fill (p + 1) rs) b) /\ degs_of t = upd (degs_of s) d (p + 1) /\
    ph_dim (sp_ph t) = D /\ npts_of t = upd (npts_of s1) d (n * (p + 1) + 1) /\ is_weighted dz (sp_ph t) = is_weighted dz (sp_ph s1) /\
    forall idx, in_box (npts_of t) idx ->
      (is_weighted dz (sp_ph s1) = true -> weight t idx = elevated_net s1 d p n idx D) /\
      forall c, 0 <= c < D -> coordinate t idx c = ndiv (n := F) (elevated_net s1 d p n idx c) (elevated_net s1 d p n idx D).
Proof.
  intros Hwf Hreg Hdir Hc Hp Hm Hz n D. pose proof Hdir as [Ek Ed].
  destruct (produce_ok dz s d p a rs b Hwf Hreg Hdir Hc ltac:(lia) Hm Hz) as (s1 & E1 & W1 & R1 & K1 & G1 & M1).
  assert (Ek1 : nth_error (knots_of s1) d = Some (of_runs p a (fill p rs) b)) by (rewrite K1; now apply (nth_error_upd_same _ _ _ (of_runs p a rs b))).
  assert (Ed1 : nth_error (degs_of s1) d = Some p) by congruence.
  destruct (wf_direction dz s1 d _ p W1 Ek1 Ed1) as (_ & Hd & Hnd0). destruct (lines_ok dz s1 d W1 Hd) as [El Hl].
  assert (ED : ph_dim (sp_ph s1) = D) by (unfold D; now destruct M1 as (-> & _)).
  destruct (elevate_space s1 d p a rs b W1 (conj Ek1 Ed1) Hp Hc) as (Hgd & ps2 & P1 & P2).
  destruct (elevate_phys s1 d p a rs b W1 (conj Ek1 Ed1) Hp) as (Hnd & N1 & nc & N2 & N4 & N5 & N6 & N7). fold n in Hnd, N1, N2, N4, N5, N6, N7.
  pose proof (wf_phys dz s1 W1) as (_ & HD1 & _).
  assert (SF : exists f : Z -> list (list R) * list (list R), forall k, 0 <= k < Z.of_nat (Z.to_nat n) ->
    bezier_segment s1 d k = Ok (fst (f k)) /\
    elevate_segment (F := F) p D (lines_in dz s1 d) (fst (f k)) (elevation_coefficients (F := F) p) = Ok (snd (f k)) /\
    segment_shape (p + 1) (lines_in dz s1 d) (D + 1) (snd (f k)) /\
    (forall idx c, in_box (npts_of s1) idx -> k * p <= nth d idx 0 <= (k + 1) * p -> 0 <= c <= D ->
      value (fst (f k)) p (line (npts_of s1) d idx) (nth d idx 0 - k * p) c = hpart s1 idx c) /\
    (forall i j c, 0 <= i < lines_in dz s1 d -> 0 <= j <= p + 1 ->
      value (snd (f k)) (p + 1) i j c = if j =? p then 0%R else elevated (p + 1) (fun j => value (fst (f k)) p i j c) j)).
  { apply (finite_choice ([], []) (fun k x => bezier_segment s1 d k = Ok (fst x) /\
    elevate_segment (F := F) p D (lines_in dz s1 d) (fst x) (elevation_coefficients (F := F) p) = Ok (snd x) /\
    segment_shape (p + 1) (lines_in dz s1 d) (D + 1) (snd x) /\
    (forall idx c, in_box (npts_of s1) idx -> k * p <= nth d idx 0 <= (k + 1) * p -> 0 <= c <= D ->
      value (fst x) p (line (npts_of s1) d idx) (nth d idx 0 - k * p) c = hpart s1 idx c) /\
    (forall i j c, 0 <= i < lines_in dz s1 d -> 0 <= j <= p + 1 ->
      value (snd x) (p + 1) i j c = if j =? p then 0%R else elevated (p + 1) (fun j => value (fst x) p i j c) j))).
    intros k Hk. destruct (bezier_segment_ok dz s1 d p k W1 Hd Ed1 Hp ltac:(lia)) as (cps & E & Sh & V); [rewrite Hnd; nia|]. rewrite ED in Sh, V.
    destruct (elevate_segment_ok dz p D (lines_in dz s1 d) cps ltac:(lia) ltac:(lia) ltac:(lia) (proj1 (shape_seg _ _ _ _) Sh)) as (new & E' & S' & V').
    exists (cps, new). cbn [fst snd]. split; [exact E|]. split; [exact E'|]. split; [apply shape_seg; replace (p + 1 + 1) with (p + 2) by lia; exact S'|]. split; [exact V|].
    intros i j c Hi Hj. specialize (V' i j c Hi Hj). destruct (Z.leb_spec 1 p); [|lia]. cbn [andb] in V'.
    rewrite <- co_value. replace (p + 1 + 1) with (p + 2) by lia. exact V'. }
  destruct SF as (f & SF). rewrite Z2Nat.id in SF by (unfold n; lia). set (new := fun k => snd (f k)).
  set (lens := upd (npts_of s1) d (n * (p + 1) + 1)) in *. set (ph3 := add_control_points (set_npts (sp_ph s1) lens) (total lens - nc)) in *.
  destruct (stage_spline dz s1 d p (p + 1) a rs b new (mkps dz (upd (knots_of s1) d (of_runs (p + 1) a (fill (p + 1) rs) b)) (upd (degs_of s1) d (p + 1))) ph3 W1 (conj Ek1 Ed1) Hp ltac:(lia) Hc Hz) as (t & E4 & Wt & Kt & Gt & Dt & Nt & Wwt & RD); auto.
  { intros k Hk. rewrite ED. apply SF. exact Hk. }
  fold n in E4, Nt, RD. exists s1, t. split; [exact E1|]. split; [auto|]. split; [auto|]. split; [auto|]. split; [auto|]. split; [auto|]. split.
  { assert (Hct : chain a (fill p rs) b) by (apply (chain_fill dz p a [] rs b ltac:(lia)); exact Hc).
    assert (En0 : num_different (F := F) (of_runs p a rs b) - 1 = n) by (rewrite (runs_different dz p a _ b Hc); unfold n; lia).
    assert (En : num_different (F := F) (of_runs p a (fill p rs) b) - 1 = n) by (rewrite (runs_different dz p a _ b Hct); unfold fill; rewrite map_length; unfold n; lia).
    unfold elevate_degree.
    assert (Edd : sp_deg s d = Ok p) by (unfold sp_deg, dget; fold (degs_of s); now rewrite Ed).
    assert (Ek0 : sp_knots s d = Ok (of_runs p a rs b)) by (unfold sp_knots, dget; fold (knots_of s); rnorm; now rewrite Ek).
    assert (Ekk : sp_knots s1 d = Ok (of_runs p a (fill p rs) b)) by (unfold sp_knots, dget; fold (knots_of s1); rnorm; now rewrite Ek1).
    step Ek0. step Edd. rnorm. rewrite En0. step E1. step El.
    assert (Em : mapM (fun i => c <- bezier_segment s1 d i ;; elevate_segment (F := F) p (sp_pdim s1) (lines_in dz s1 d) c (elevation_coefficients (F := F) p)) (zseq 0 (Z.to_nat n)) = Ok (map new (zseq 0 (Z.to_nat n)))).
    { apply mapM_ok. intros k Hk. apply zseq_In in Hk. destruct (SF k ltac:(lia)) as (S1 & S2 & _). step S1. unfold sp_pdim. rewrite ED. exact S2. }
    step Em. step Ekk. rnorm. rewrite En. fold (npts_of s1) in N1. step N1. step N2. step P1. step P2. step E4. reflexivity. }
  split; [exact Wt|]. split; [now rewrite Kt, K1, upd_upd|]. split; [now rewrite Gt, G1|]. split; [congruence|]. split; [exact Nt|]. split; [exact Wwt|].
  intros idx Hb. specialize (RD idx Hb). cbv zeta in RD. rewrite ED in RD.
  pose proof (in_box_length _ _ Hb) as Hlen. rewrite Nt, upd_length in Hlen. rewrite Nt in Hb.
  pose proof (in_box_nth _ _ d Hb ltac:(rewrite upd_length; auto)) as Hr. rewrite nth_upd_same in Hr by auto.
  destruct (seg_of_bounds (p + 1) n (nth d idx 0) ltac:(lia) ltac:(unfold n; lia) ltac:(lia)) as [Hk Hj].
  assert (HV : forall c, 0 <= c <= D -> value (new (seg_of (p + 1) n (nth d idx 0))) (p + 1) (line (npts_of s1) d idx) (nth d idx 0 - seg_of (p + 1) n (nth d idx 0) * (p + 1)) c = elevated_net s1 d p n idx c).
  { intros c Hc'. unfold elevated_net, lifted. set (k := seg_of (p + 1) n (nth d idx 0)) in *. destruct (SF k Hk) as (_ & _ & _ & V1 & V2).
    assert (Hln : 0 <= line (npts_of s1) d idx < lines_in dz s1 d).
    { unfold lines_in. rewrite <- (line_upd (npts_of s1) d idx 0). apply line_range. apply (in_box_upd (npts_of s1) idx d 0 (n * (p + 1) + 1)); auto. rewrite Hnd. unfold n. nia. }
    unfold new. rewrite V2 by auto. destruct (nth d idx 0 - k * (p + 1) =? p); [reflexivity|].
    apply elevated_ext; [lia | auto|]. intros j Hj'. replace (p + 1 - 1) with p by lia.
    assert (Hb' : in_box (npts_of s1) (upd idx d (k * p + j))) by (apply (in_box_upd (npts_of s1) idx d _ (n * (p + 1) + 1)); auto; rewrite Hnd; nia).
    specialize (V1 _ c Hb'). rewrite line_upd, nth_upd_same in V1 by lia. replace (k * p + j - k * p) with j in V1 by lia. apply V1; lia. }
  destruct RD as [A1 A2]. pose proof (HV D ltac:(lia)) as HD'. rewrite HD' in A1. split; [exact A1|]. intros c Hc'. rewrite A2 by auto. rewrite HD', HV by lia. reflexivity.
Qed.
End Elevate.
