(* Examples for the memory safety of degree changes (C84). *)
From Coq Require Import ZArith List Bool Lia Reals Lra Floats.
From Verif Require Import Base BaseFacts RSum MultiIndex MultiIndexSpec KnotVecSpec Spaces SpacesSpec SpacesFacts SplineEval SplineEdit SplineDegree
  SplineSpec EditSpec UniqueSpec DegreeSpec KnotVecThms BasisThms EvalFacts EvalThms PhysFacts InsertFacts InsertThms RemoveFacts RemoveThms RemoveBound RemoveExamples
  KnotRuns ReduceKnots ReduceSegments ReduceStage ReduceSpec ReduceThms ReduceExamples DegreeSafeSpec DegreeSafe.
Import ListNotations.
Open Scope Z_scope.

(* the quadratic Bezier pieces of C83 have a double knot *)
Lemma ex_reduce_safe pts : zlen pts = 5 -> well_formed (bs pts) /\ regular (bs pts) /\ direction (bs pts) 0 bk 2 /\
  Forall2 full_support (knots_of (bs pts)) (degs_of (bs pts)) /\ interior_between bk 2 2 /\ bezier_size bk 2.
Proof.
  intros Hp. destruct (ex_bezier pts Hp) as (B1 & B2 & B3 & B4 & B5 & B6). split; [auto|]. split; [now left|]. split; [auto|]. split; [auto|]. split; [|auto].
  intros x Hi Hx. rewrite (B5 x Hi Hx). lia.
Qed.

(* elevation: a simple and a double interior knot *)
Lemma ex_elevate_safe w : (w = None \/ w = Some rw) ->
  well_formed (rs w) /\ regular (rs w) /\ direction (rs w) 0 rk 2 /\ Forall2 full_support (knots_of (rs w)) (degs_of (rs w)) /\
  interior_at_most rk 2 /\ bezier_size rk (2 + 1).
Proof.
  intros Hw. destruct (ex_threshold w Hw) as (A1 & A2 & A3 & A4 & A5 & _). repeat (split; [assumption|]). unfold rk. fewvalues.
Qed.
Lemma ex_elevate_bezier pts : zlen pts = 5 -> well_formed (bs pts) /\ regular (bs pts) /\ direction (bs pts) 0 bk 2 /\
  Forall2 full_support (knots_of (bs pts)) (degs_of (bs pts)) /\ interior_exactly bk 2 /\ bezier_size bk (2 + 1).
Proof.
  intros Hp. destruct (ex_bezier pts Hp) as (B1 & B2 & B3 & B4 & B5 & B6). split; [auto|]. split; [now left|]. split; [auto|]. split; [auto|]. split; [auto|].
  unfold bk. fewvalues.
Qed.

(* the line from 0 to 2, and the same line with degree two and the simple knot 1 *)
Definition lk : list R := [0; 0; 2; 2]%R.
Definition ls : spline (Rops dz0) := mkSpline (F := Rops dz0) (mkps dz0 [lk] [1]) (mkPhys (F := Rops dz0) 1 [2] [0; 2]%R None).
Definition ek : list R := [0; 0; 0; 2; 2; 2]%R.
Definition es : spline (Rops dz0) := mkSpline (F := Rops dz0) (mkps dz0 [ek] [2]) (mkPhys (F := Rops dz0) 1 [3] [0; 1; 2]%R None).
Lemma lk_good : good_direction lk 1.
Proof.
  unfold lk. split; [lia|]. split; [split; [cbn; lia|]; intros [|[|j]] Hj; try lia; cbn; auto|].
  split; [nondec|]. split; [sepsolve | cbn; lra].
Qed.
Lemma ek_good : good_direction ek 2.
Proof.
  unfold ek. split; [lia|]. split; [split; [cbn; lia|]; intros [|[|[|j]]] Hj; try lia; cbn; auto|].
  split; [nondec|]. split; [sepsolve | cbn; lra].
Qed.
Lemma ls_wf : well_formed ls.
Proof.
  apply wf_build; [constructor; [apply lk_good | constructor] | split; [|split; [|split]] | reflexivity]; [repeat constructor; lia | cbn; lia | reflexivity | discriminate].
Qed.
Lemma es_wf : well_formed es.
Proof.
  apply wf_build; [constructor; [apply ek_good | constructor] | split; [|split; [|split]] | reflexivity]; [repeat constructor; lia | cbn; lia | reflexivity | discriminate].
Qed.
Lemma ls_es : same_sums ls es.
Proof.
  split; [reflexivity|]. split; [split; reflexivity|]. intros us Hu.
  assert (Hc : chain 0 [] 2) by (cbn; lra).
  assert (Hd : in_domain es us) by (apply (in_domain_upd_iff dz0 ls es 0 lk ek); auto; reflexivity).
  assert (L := fun g => lifted_sums dz0 es ls 0 2 0 [] 2 g us es_wf ls_wf ltac:(lia) Hc (conj eq_refl eq_refl) eq_refl eq_refl Hd).
  split.
  - unfold weight_function. rewrite <- L. apply lsum_ext. intros idx Hi. f_equal. unfold lifted, elevated. cbv zeta. unfold weight. change (ph_wts (sp_ph ls)) with (@None (list R)). change (ph_wts (sp_ph es)) with (@None (list R)). cbv iota. ring.
  - intros c Hc'. change (ph_dim (sp_ph ls)) with 1 in Hc'. assert (c = 0) by lia. subst c. unfold weighted_sum.
    rewrite (lsum_ext (fun idx => basis_product (knots_of ls) (degs_of ls) us idx * (weight ls idx * coordinate ls idx 0))%R
               (fun idx => basis_product (knots_of ls) (degs_of ls) us idx * coordinate ls idx 0)%R) by (intros; cbn [weight ph_wts sp_ph ls]; unfold weight; cbn; ring).
    rewrite <- L. apply lsum_ext. intros idx Hi. f_equal.
    change (all_indices (npts_of es)) with [[0]; [1]; [2]] in Hi. cbn [In] in Hi.
    destruct Hi as [<-|[<-|[<-|[]]]]; unfold lifted, seg_of, elevated, weight, coordinate; cbn; change (Pos.to_nat 1) with 1%nat; change (Pos.to_nat 2) with 2%nat; cbv iota; lra.
Qed.

Lemma ex_reads_past : well_formed ls /\ regular ls /\ direction ls 0 lk 1 /\ Forall2 full_support (knots_of ls) (degs_of ls) /\ interior_at_most lk 1 /\
  bezier_size rk 2 /\ in_last_span lk 1 /\
  exists s, well_formed s /\ regular s /\ knots_of s = upd (knots_of ls) 0 rk /\ degs_of s = upd (degs_of ls) 0 2 /\ one_copy_more_and 1 lk rk /\ same_sums ls s.
Proof.
  split; [apply ls_wf|]. split; [now left|]. split; [split; reflexivity|]. split; [|split; [|split; [|split]]].
  - constructor; [|constructor]. intros i Hi. unfold zlen in Hi. cbn in Hi. unfold knot. change (Z.to_nat 1) with 1%nat. destruct i as [|[|i]]; try lia; cbn; lra.
  - intros x Hx. change (first_knot lk) with 0%R in Hx. change (final_knot lk) with 2%R in Hx. unfold lk. occs.
  - unfold rk. fewvalues.
  - split; [cbn; lra|]. intros y Hy. cbn in Hy |- *. intros; lra.
  - destruct (new_step dz0 es 0 2 0 [] 1 2 1 es_wf) as (s & W & Rg & K & G & M & _).
    + now left.
    + split; reflexivity.
    + cbn. lra.
    + lra.
    + change (separated [1; 0; 0; 0; 2; 2; 2]%R). sepsolve.
    + lia.
    + unfold zlen. rewrite runs_length. cbn [expand flat_map length]. lia.
    + exists s. split; [auto|]. split; [auto|]. split; [exact K|]. split; [exact G|]. split.
      * intros y. destruct (in_dec Req_EM_T y lk) as [Hi|Hi].
        { unfold lk in Hi |- *. unfold rk. cbn [In] in Hi. destruct Hi as [<-|[<-|[<-|[<-|[]]]]]; occs. }
        { unfold lk in *. unfold rk. cbn [In] in Hi. occs; try (exfalso; apply Hi; subst; tauto); subst; try congruence. }
      * destruct M as (M1 & M2 & M3). destruct ls_es as (L1 & L2 & L3). split; [congruence|]. split; [rewrite (is_weighted_iff dz0 es s M2); exact L2|].
        intros us Hu. destruct (L3 us Hu) as [A B]. destruct (M3 us) as [_ Q].
        assert (Hd : in_domain es us) by (apply (in_domain_upd_iff dz0 ls es 0 lk ek); auto; reflexivity).
        destruct (Q Hd) as [A' B']. split; [congruence|]. intros c Hc. rewrite B' by (rewrite L1; exact Hc). now apply B.
Qed.

(* the same on doubles *)
Definition past_double : Res (spline Fops) := spline_new (F := Fops) [[0; 0; 0; 1; 2; 2; 2]%float] [2] [[0]; [0.5]; [1.5]; [2]]%float None.
Definition past_check : bool := match past_double with Ok s => match reduce_degree s 0 0x1p-20%float with UB => true | _ => false end | _ => false end.
Lemma past_true : past_check = true.
Proof. vm_compute. reflexivity. Qed.
Lemma reads_past_double : exists s : spline Fops,
  spline_new (F := Fops) [[0; 0; 0; 1; 2; 2; 2]%float] [2] [[0]; [0.5]; [1.5]; [2]]%float None = Ok s /\
  reduce_degree s 0 0x1p-20%float = UB.
Proof.
  change (exists s : spline Fops, past_double = Ok s /\ reduce_degree s 0 0x1p-20%float = UB).
  pose proof past_true as E. unfold past_check in E. destruct past_double as [s| |]; try discriminate.
  exists s. split; [reflexivity|]. destruct (reduce_degree s 0 0x1p-20%float); try discriminate. reflexivity.
Qed.
