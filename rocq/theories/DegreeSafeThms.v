(* Degree changes end within the arrays (C84). *)
From Coq Require Import ZArith List Bool Lia Reals Lra Permutation.
From Verif Require Import Base BaseFacts RSum MultiIndex MultiIndexSpec MultiIndexFacts TensorSum
  KnotVec KnotVecSpec KnotVecFacts Basis BasisSpec BSplineTheory BasisFacts
  Spaces SpacesSpec SpacesFacts SplineEval SplineEdit SplineSpec EditSpec RemoveSpec EvalFacts EvalThms PhysFacts InsertFacts InsertThms RemoveFacts RemoveThms UniqueSpec UniqueFacts
  SplineDegree DegreeSpec DegreeFacts DegreeReduce DegreeThms KnotRuns ReduceKnots ReduceSegments ReduceSpan ReduceSums ReduceFacts ReduceStage ReduceMain ReduceSpec ReduceThms
  DegreeSafeSpec DegreeSafe ElevateFacts.
Import ListNotations.
Open Scope Z_scope.

(* ---- runs after the removal ---- *)
Lemma less_fst rs : forall cs : list Z, length cs = length rs -> map fst (map2 less rs cs) = map fst rs.
Proof. induction rs as [|r rs IH]; intros [|c cs] H; cbn in *; try lia; auto. f_equal. apply IH. lia. Qed.

Lemma less_fill q (g : R * nat -> Z) rs : forall cs, 1 <= q -> Forall (fun r => g r < q) rs -> Forall2 (fun c gp => 0 <= c <= gp) cs (map g rs) ->
  (forall a b, chain a rs b -> chain a (map2 less (fill q rs) cs) b) /\
  map fst (map2 less (fill q rs) cs) = map fst rs /\
  forall x m, In (x, m) rs -> exists m', In (x, m') (map2 less (fill q rs) cs) /\ q - g (x, m) <= Z.of_nat m' <= q.
Proof.
  intros cs Hq Hg H. revert cs H. induction Hg as [|[x m] rs Hx _ IH]; intros cs H; inversion H as [|c g0 cs' gs' Hc H']; subst; cbn [fill map map2 fst snd].
  - split; [auto|]. split; [auto|]. intros x m [].
  - destruct (IH cs' H') as (I1 & I2 & I3). fold (fill q rs). split; [|split].
    + intros a b (C1 & C2 & C3). unfold less at 1. cbn [chain fst snd] in *. split; [auto|]. split; [lia|]. now apply I1.
    + unfold less at 1. cbn [fst]. f_equal. exact I2.
    + intros y k [E|E].
      * injection E as -> ->. exists (Z.to_nat q - Z.to_nat c)%nat. split; [left; reflexivity | lia].
      * destruct (I3 y k E) as (m' & A & B). exists m'. split; [now right | auto].
Qed.

Lemma runs_occ_in p a rs b x m : chain a rs b -> In (x, m) rs -> occurrences (of_runs p a rs b) x = m.
Proof. intros Hc H. apply in_split in H as (r1 & r2 & ->). now apply runs_occ. Qed.

Section Thms.
Variable dz : R -> R.
Local Notation F := (Rops dz).
Implicit Types s t : spline F.

(* what is left after the removal: every break, with no fewer copies than q - g *)
Lemma removal_left t d q p a rs b (g : R * nat -> Z) : 1 <= q -> well_formed t -> direction t d (of_runs q a (fill q rs) b) q -> chain a rs b ->
  fits q rs -> Forall (fun r => 0 <= g r < q) rs ->
  exists t' kv', remove_bezier t d (map g rs) = Ok t' /\ well_formed t' /\ knots_of t' = upd (knots_of t) d kv' /\ degs_of t' = degs_of t /\
    ph_dim (sp_ph t') = ph_dim (sp_ph t) /\ (is_bspline t' <-> is_bspline t) /\
    first_knot kv' = a /\ final_knot kv' = b /\ (forall x, In x kv' <-> In x (of_runs p a rs b)) /\
    forall x m, In (x, m) rs -> q - g (x, m) <= Z.of_nat (occurrences kv' x) <= q.
Proof.
  intros Hq Hwf Hdir Hc Hf Hg.
  assert (Hct : chain a (fill q rs) b) by (apply (chain_fill dz q a [] rs b Hq); exact Hc).
  destruct (remove_keeps dz t d q a (fill q rs) b (map g rs) ltac:(lia) Hwf Hdir Hct) as (t' & cs & E & W & K & G & D & B & L).
  - apply Forall_forall. intros r Hr. apply in_map_iff in Hr as (r0 & <- & _). cbn. lia.
  - rewrite fill_length by lia. unfold fits in Hf. nia.
  - clear - Hg Hq. induction Hg as [|[x m] rs H _ IH]; cbn [fill map]; constructor; [cbn [snd]; lia | exact IH].
  - destruct (less_fill q g rs cs Hq) as (L1 & L2 & L3); [eapply Forall_impl; [|exact Hg]; cbv beta; intros; lia | exact L |].
    specialize (L1 a b Hc). exists t', (of_runs q a (map2 less (fill q rs) cs) b).
    split; [exact E|]. split; [exact W|]. split; [exact K|]. split; [exact G|]. split; [exact D|]. split; [exact B|].
    split; [apply runs_first|]. split; [apply runs_final|]. split.
    + intros x. rewrite !runs_in by auto. now rewrite L2.
    + intros x m Hx. destruct (L3 x m Hx) as (m' & A & Hb). rewrite (runs_occ_in q a _ b x m' L1 A). exact Hb.
Qed.

Theorem reduce_safe s d kv p : well_formed s -> regular s -> direction s d kv p -> 2 <= p ->
  Forall2 full_support (knots_of s) (degs_of s) -> interior_between kv 2 p -> bezier_size kv p ->
  forall tol, exists ok s', reduce_degree s d tol = Ok (ok, s') /\ well_formed s' /\
    ph_dim (sp_ph s') = ph_dim (sp_ph s) /\ (is_bspline s' <-> is_bspline s) /\ (ok = false -> s' = s) /\
    (ok = true -> degs_of s' = upd (degs_of s) d (p - 1) /\
       exists kv', knots_of s' = upd (knots_of s) d kv' /\ same_breaks kv kv' /\
         forall x, In x kv -> (first_knot kv < x < final_knot kv)%R ->
           Z.of_nat (occurrences kv x) - 1 <= Z.of_nat (occurrences kv' x) <= p - 1).
Proof.
  intros Hwf Hreg Hdir Hp Hf Hi Hz tol. pose proof Hdir as [Ek Ed]. pose proof Hwf as [Hgd _ _ _ _ _].
  destruct (as_runs kv p (Forall2_nth_error _ _ _ _ _ _ Hgd Ek Ed) (Forall2_nth_error _ _ _ _ _ _ Hf Ek Ed)) as (a & rs & b & E & Hc & E1 & E2 & E3 & Ho).
  assert (Hm2 : Forall (fun r => 2 <= Z.of_nat (snd r) <= p) rs).
  { apply Forall_forall. intros [x m] Hr. destruct (Ho x m Hr) as (P1 & P2 & P3). cbn [snd]. rewrite <- P2. apply Hi; [auto | now rewrite E1, E2]. }
  assert (Hm : Forall (fun r => Z.of_nat (snd r) <= p) rs) by (eapply Forall_impl; [|exact Hm2]; cbv beta; intros; lia).
  assert (Hfit : fits p rs) by (unfold fits, bezier_size in *; nia).
  rewrite E in Hdir. destruct (reduce_cases dz s d p a rs b Hwf Hreg Hdir Hc Hp Hm Hfit) as (s1 & cps & new & err & t & Ep & W1 & R1 & K1 & G1 & M1 & SF & RD & HT).
  destruct RD as (Wt & Kt & Gt & Dt & Nt & Wwt & _).
  destruct (HT tol) as [[_ HA]|[_ HB]].
  - exists false, s. rewrite HA, (remove_ok dz s d p a rs b s1) by (auto; lia). cbn [bind].
    split; [reflexivity|]. split; [auto|]. split; [auto|]. split; [tauto|]. split; [auto|]. discriminate.
  - assert (Dirt : direction t d (of_runs (p - 1) a (fill (p - 1) rs) b) (p - 1)).
    { split; [rewrite Kt, K1, upd_upd; now apply (nth_error_upd_same _ _ _ kv) | rewrite Gt, G1; now apply (nth_error_upd_same _ _ _ p)]. }
    destruct (removal_left t d (p - 1) p a rs b (fun r => p - Z.of_nat (snd r)) ltac:(lia) Wt Dirt Hc) as (t' & kv' & R & W & K & G & D & B & F1 & F2 & I & O).
    { unfold fits in *. nia. }
    { eapply Forall_impl; [|exact Hm2]. cbv beta. intros; lia. }
    exists true, t'. rewrite HB. fold (gaps p rs) in R. rewrite R. cbn [bind]. split; [reflexivity|]. split; [auto|].
    split; [rewrite D, Dt; now destruct M1 as (-> & _)|]. split.
    { rewrite B. rewrite (is_weighted_iff dz s1 t Wwt). destruct M1 as (_ & M2 & _). symmetry. now apply is_weighted_iff. }
    split; [discriminate|]. intros _. split; [now rewrite G, Gt, G1|].
    exists kv'. split; [now rewrite K, Kt, K1, !upd_upd|]. split; [intros x; rewrite I, E; tauto|].
    intros x Hx Hlt. assert (exists m, In (x, m) rs) as (m & Hm').
    { rewrite E in Hx. apply runs_in in Hx; auto. rewrite E1, E2 in Hlt. destruct Hx as [<-|Hx]; [lra|]. apply in_app_iff in Hx as [Hx|[<-|[]]]; [|lra].
      apply in_map_iff in Hx as ([y m] & <- & Hx). now exists m. }
    destruct (Ho x m Hm') as (_ & -> & _). specialize (O x m Hm'). cbn [snd] in O. lia.
Qed.

Theorem elevate_safe s d kv p : well_formed s -> regular s -> direction s d kv p -> 1 <= p ->
  Forall2 full_support (knots_of s) (degs_of s) -> interior_at_most kv p -> bezier_size kv (p + 1) ->
  exists s' kv', elevate_degree s d = Ok s' /\ well_formed s' /\ degs_of s' = upd (degs_of s) d (p + 1) /\
    ph_dim (sp_ph s') = ph_dim (sp_ph s) /\ (is_bspline s' <-> is_bspline s) /\
    knots_of s' = upd (knots_of s) d kv' /\ same_breaks kv kv' /\
    forall x, In x kv -> (first_knot kv < x < final_knot kv)%R ->
      Z.of_nat (occurrences kv x) + 1 <= Z.of_nat (occurrences kv' x) <= p + 1.
Proof.
  intros Hwf Hreg Hdir Hp Hf Hi Hz. pose proof Hdir as [Ek Ed]. pose proof Hwf as [Hgd _ _ _ _ _].
  destruct (as_runs kv p (Forall2_nth_error _ _ _ _ _ _ Hgd Ek Ed) (Forall2_nth_error _ _ _ _ _ _ Hf Ek Ed)) as (a & rs & b & E & Hc & E1 & E2 & E3 & Ho).
  pose proof (counts_le kv p a rs b p E Hc E1 E2 Ho Hi) as Hm.
  assert (Hfit : fits (p + 1) rs) by (unfold fits, bezier_size in *; nia). assert (Hfit' : fits p rs) by (unfold fits in *; nia).
  rewrite E in Hdir. destruct (elevate_cases dz s d p a rs b Hwf Hreg Hdir Hc Hp Hm Hfit') as (s1 & t & Ep & W1 & R1 & K1 & G1 & M1 & EL & Wt & Kt & Gt & Dt & Nt & Wwt & _).
  assert (Dirt : direction t d (of_runs (p + 1) a (fill (p + 1) rs) b) (p + 1)).
  { split; [rewrite Kt; now apply (nth_error_upd_same _ _ _ kv) | rewrite Gt; now apply (nth_error_upd_same _ _ _ p)]. }
  destruct (removal_left t d (p + 1) p a rs b (fun r => p - Z.of_nat (snd r)) ltac:(lia) Wt Dirt Hc Hfit) as (t' & kv' & R & W & K & G & D & B & F1 & F2 & I & O).
  { eapply Forall_impl; [|exact Hm]. cbv beta. intros; lia. }
  exists t', kv'. rewrite EL. fold (gaps p rs) in R. rewrite R. split; [reflexivity|]. split; [auto|]. split; [congruence|]. split; [congruence|]. split.
  { rewrite B. rewrite (is_weighted_iff dz s1 t Wwt). destruct M1 as (_ & M2 & _). symmetry. now apply is_weighted_iff. }
  split; [now rewrite K, Kt, upd_upd|]. split; [intros x; rewrite I, E; tauto|].
  intros x Hx Hlt. assert (exists m, In (x, m) rs) as (m & Hm').
  { rewrite E in Hx. apply runs_in in Hx; auto. rewrite E1, E2 in Hlt. destruct Hx as [<-|Hx]; [lra|]. apply in_app_iff in Hx as [Hx|[<-|[]]]; [|lra].
    apply in_map_iff in Hx as ([y m] & <- & Hx). now exists m. }
  destruct (Ho x m Hm') as (_ & -> & _). specialize (O x m Hm'). cbn [snd] in O. lia.
Qed.

Lemma elevated_one p j : 1 <= p -> elevated p (fun _ => 1%R) j = 1%R.
Proof. intros Hp. unfold elevated. ring. Qed.
Lemma elevated_pos p f j : 1 <= p -> 0 <= j <= p -> (forall j, 0 <= j <= p - 1 -> (0 < f j)%R) -> (0 < elevated p f j)%R.
Proof.
  intros Hp Hj H. assert (P0 : (0 < IZR p)%R) by (apply IZR_lt; lia). assert (Q0 : (0 <= IZR j / IZR p <= 1)%R).
  { split; [apply Rmult_le_pos; [apply IZR_le; lia | left; now apply Rinv_0_lt_compat]|]. apply Rmult_le_reg_r with (IZR p); [auto|]. unfold Rdiv. rewrite Rmult_assoc, Rinv_l by lra. rewrite Rmult_1_r, Rmult_1_l. apply IZR_le. lia. }
  unfold elevated. destruct (Z.eq_dec j 0) as [->|N0]; [|destruct (Z.eq_dec j p) as [->|N1]].
  - specialize (H 0 ltac:(lia)). unfold Rdiv. rewrite Rmult_0_l. lra.
  - specialize (H (p - 1) ltac:(lia)). unfold Rdiv. rewrite Rinv_r by lra. lra.
  - pose proof (H j ltac:(lia)). pose proof (H (j - 1) ltac:(lia)). set (w := (IZR j / IZR p)%R) in *. destruct (Rle_lt_dec w 0); nra.
Qed.

(* splines in Bezier form: the whole net after the elevation *)
Theorem elevate_bezier s d kv p : well_formed s -> regular s -> direction s d kv p -> 1 <= p ->
  Forall2 full_support (knots_of s) (degs_of s) -> interior_exactly kv p -> bezier_size kv (p + 1) ->
  exists s' kv', elevate_degree s d = Ok s' /\ well_formed s' /\ degs_of s' = upd (degs_of s) d (p + 1) /\
    ph_dim (sp_ph s') = ph_dim (sp_ph s) /\ (is_bspline s' <-> is_bspline s) /\
    knots_of s' = upd (knots_of s) d kv' /\ one_copy_more kv kv' /\
    forall idx k j, in_box (npts_of s') idx -> nth d idx 0 = k * (p + 1) + j -> 0 <= k -> 0 <= j <= p + 1 -> (k + 1) * (p + 1) < nth d (npts_of s') 0 ->
      (j = p -> (~ is_bspline s -> weight s' idx = 0%R) /\ forall c, 0 <= c < ph_dim (sp_ph s) -> coordinate s' idx c = dz 0%R) /\
      (j <> p -> forall c, 0 <= c <= ph_dim (sp_ph s) -> hpart s' idx c = elevated (p + 1) (fun j' => hpart s (upd idx d (k * p + j')) c) j).
Proof.
  intros Hwf Hreg Hdir Hp Hf Hi Hz. pose proof Hdir as [Ek Ed]. pose proof Hwf as [Hgd _ _ _ _ _].
  destruct (as_runs kv p (Forall2_nth_error _ _ _ _ _ _ Hgd Ek Ed) (Forall2_nth_error _ _ _ _ _ _ Hf Ek Ed)) as (a & rs & b & E & Hc & E1 & E2 & E3 & Ho).
  assert (Hrs : forall r, In r rs -> snd r = Z.to_nat p).
  { intros [x m] Hr. destruct (Ho x m Hr) as (P1 & P2 & P3). cbn [snd]. specialize (Hi x P3 ltac:(now rewrite E1, E2)). lia. }
  assert (Hm : Forall (fun r : R * nat => Z.of_nat (snd r) <= p) rs) by (apply Forall_forall; intros r Hr; rewrite (Hrs r Hr); lia).
  assert (Efill : fill p rs = rs).
  { unfold fill. rewrite <- (map_id rs) at 2. apply map_ext_in. intros [x m] Hr. cbn [fst]. now rewrite <- (Hrs _ Hr). }
  assert (Egap : gaps p rs = map (fun _ => 0) rs) by (unfold gaps; apply map_ext_in; intros r Hr; rewrite (Hrs r Hr); lia).
  assert (Hfit : fits p rs) by (unfold fits, bezier_size in *; nia).
  rewrite E in Hdir. destruct (elevate_cases dz s d p a rs b Hwf Hreg Hdir Hc Hp Hm Hfit) as (s1 & t & Ep & W1 & R1 & K1 & G1 & M1 & EL & Wt & Kt & Gt & Dt & Nt & Wwt & RD).
  assert (Es : s1 = s).
  { apply (same_map_unique dz); auto. rewrite K1, Efill. apply upd_id. now rewrite <- E. }
  subst s1. clear Ep W1 R1 K1 G1 M1. rewrite Egap in EL. set (n := Z.of_nat (length rs) + 1) in *. set (D := ph_dim (sp_ph s)) in *.
  assert (Hct : chain a (fill (p + 1) rs) b) by (apply (chain_fill dz (p + 1) a [] rs b ltac:(lia)); exact Hc).
  assert (Dirt : direction t d (of_runs (p + 1) a (fill (p + 1) rs) b) (p + 1)).
  { split; [rewrite Kt; now apply (nth_error_upd_same _ _ _ kv) | rewrite Gt; now apply (nth_error_upd_same _ _ _ p)]. }
  assert (Hrem : remove_bezier t d (map (fun _ => 0) rs) = Ok t).
  { replace (map (fun _ : R * nat => 0) rs) with (map (fun _ : R * nat => 0) (fill (p + 1) rs)) by (unfold fill; rewrite map_map; reflexivity).
    apply (remove_none dz t d (p + 1) a (fill (p + 1) rs) b); auto. lia. }
  pose proof (is_weighted_iff dz s t Wwt) as Bi.
  exists t, (of_runs (p + 1) a (fill (p + 1) rs) b). rewrite EL, Hrem. split; [reflexivity|]. split; [auto|]. split; [auto|]. split; [auto|]. split; [auto|].
  split; [auto|]. split.
  { intros x. replace (fill (p + 1) rs) with (bump (fill p rs)).
    - rewrite E. replace (of_runs p a rs b) with (of_runs (p + 1 - 1) a (fill p rs) b) by (rewrite Efill; f_equal; lia). apply bump_occ; [lia|]. now rewrite Efill.
    - unfold bump, fill. rewrite map_map. apply map_ext. intros r. cbn [fst snd]. f_equal. lia. }
  destruct (wf_direction dz s d _ p Hwf (proj1 Hdir) (proj2 Hdir)) as (_ & Hdl & Hnd).
  assert (Hnd' : nth d (npts_of s) 0 = n * p + 1) by (rewrite Hnd; replace (of_runs p a rs b) with (of_runs p a (fill p rs) b) by (now rewrite Efill); rewrite fill_length by lia; unfold n; lia).
  intros idx k j Hb Hn Hk Hj Hlast. rewrite Nt, nth_upd_same in Hlast by auto. assert (Hkn : k < n) by nia.
  destruct (RD idx Hb) as [RW RC].
  assert (Hseg : (nth d idx 0 - seg_of (p + 1) n (nth d idx 0) * (p + 1) =? p) = (j =? p)).
  { unfold seg_of. rewrite Hn. destruct (Z.eq_dec j (p + 1)) as [->|Nj].
    - replace ((k * (p + 1) + (p + 1)) / (p + 1)) with (k + 1) by (apply Z.div_unique with 0; lia).
      destruct (Z.min_spec (k + 1) (n - 1)) as [[M ->]|[M ->]]; destruct (Z.eqb_spec (p + 1) p); try lia.
      destruct (Z.eq_dec k (n - 1)) as [->|Nk]; [|replace (n - 1) with (k + 1) by lia]; apply Z.eqb_neq; lia.
    - replace ((k * (p + 1) + j) / (p + 1)) with k by (apply Z.div_unique with j; lia). rewrite Z.min_l by lia. f_equal. lia. }
  assert (Hnet : forall c, elevated_net dz s d p n idx c = if j =? p then 0%R else elevated (p + 1) (fun j' => hpart s (upd idx d (k * p + j')) c) j).
  { intros c. unfold elevated_net. rewrite Hseg. destruct (j =? p); [reflexivity|].
    rewrite (lifted_at d (p + 1) n _ idx k j) by (auto; lia). now replace (p + 1 - 1) with p by lia. }
  assert (HD : 1 <= D) by (unfold D; now destruct Hwf).
  split.
  - intros ->. rewrite Z.eqb_refl in Hnet. split.
    + intros Hb'. rewrite RW; [apply Hnet|]. unfold is_weighted. unfold is_bspline in Hb'. destruct (ph_wts (sp_ph s)); [reflexivity | now exfalso].
    + intros c Hc'. rewrite RC by auto. rewrite !Hnet. cbn [ndiv Rops]. destruct (Req_EM_T 0 0); [reflexivity | congruence].
  - intros Nj. destruct (Z.eqb_spec j p) as [|_]; [contradiction|].
    assert (Hpos : (0 < elevated (p + 1)%Z (fun j' => hpart s (upd idx d (k * p + j')%Z) D) j)%R).
    { apply elevated_pos; [lia | auto|]. intros j' Hj'. unfold hpart. fold D. rewrite Z.ltb_irrefl. rewrite weight_p. apply (regular_positive dz s Hwf Hreg).
      apply (in_box_upd (npts_of s) idx d _ (n * (p + 1) + 1)); [now rewrite <- Nt | rewrite Hnd'; nia]. }
    assert (Ew : weight t idx = elevated (p + 1) (fun j' => hpart s (upd idx d (k * p + j')) D) j).
    { destruct (is_weighted dz (sp_ph s)) eqn:Ew; [rewrite RW by auto; apply Hnet|].
      assert (Bs : is_bspline s) by (unfold is_bspline; unfold is_weighted in Ew; destruct (ph_wts (sp_ph s)); [discriminate | reflexivity]).
      pose proof (proj2 Bi Bs) as Bt. unfold weight at 1. rewrite Bt. symmetry. rewrite (elevated_ext (p + 1) _ (fun _ => 1%R)); [apply elevated_one; lia | lia | auto|].
      intros j' _. unfold hpart. fold D. rewrite Z.ltb_irrefl. unfold weight. now rewrite Bs. }
    intros c Hc'. unfold hpart at 1. rewrite Dt. destruct (Z.ltb_spec c D) as [Hlt|Hge].
    + rewrite RC by lia. rewrite Ew, !Hnet. cbn [ndiv Rops]. destruct (Req_EM_T _ 0) as [Z0|_]; [rewrite Z0 in Hpos; lra|]. field. lra.
    + assert (c = D) as -> by lia. exact Ew.
Qed.
End Thms.
