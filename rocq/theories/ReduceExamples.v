(* Examples for the degree reduction of splines. *)
From Coq Require Import ZArith List Bool Lia Reals Lra.
From Verif Require Import Base BaseFacts RSum MultiIndex MultiIndexSpec KnotVecSpec Spaces SpacesSpec SpacesFacts SplineEval SplineEdit
  SplineSpec EditSpec UniqueSpec DegreeSpec KnotVecThms BasisThms EvalFacts EvalThms PhysFacts InsertFacts InsertThms RemoveFacts RemoveThms RemoveBound RemoveExamples
  KnotRuns ReduceKnots ReduceSegments ReduceStage ReduceSpec ReduceThms.
Import ListNotations.
Open Scope Z_scope.

Ltac occs := unfold occurrences; cbn [count_occ]; repeat match goal with |- context [Req_EM_T ?a ?b] => destruct (Req_EM_T a b); try (exfalso; cbn in *; lra) end; try reflexivity; try lia.
Ltac fewvalues := unfold bezier_size, distinct_values; cbn [nodup]; repeat match goal with |- context [in_dec Req_EM_T ?a ?b] => destruct (in_dec Req_EM_T a b) end; cbn [length]; lia.

(* a quadratic curve with the simple knot 1, for the threshold *)
Lemma ex_threshold w : (w = None \/ w = Some rw) ->
  well_formed (rs w) /\ regular (rs w) /\ direction (rs w) 0 rk 2 /\ Forall2 full_support (knots_of (rs w)) (degs_of (rs w)) /\
  interior_at_most rk 2 /\ bezier_size rk 2.
Proof.
  intros Hw. split; [apply rs_wf; intros l E; destruct Hw as [-> | ->]; [discriminate | inversion E; reflexivity]|].
  split; [destruct Hw as [-> | ->]; [now left | right]|].
  { exists rw. split; [reflexivity|]. unfold rw. repeat constructor; lra. }
  split; [split; reflexivity|]. split; [|split].
  - constructor; [|constructor]. intros i Hi. unfold zlen in Hi. cbn in Hi. unfold knot. change (Z.to_nat 2) with 2%nat. destruct i as [|[|[|[|i]]]]; try lia; cbn; lra.
  - intros x Hx. change (first_knot rk) with 0%R in Hx. change (final_knot rk) with 2%R in Hx. unfold rk. occs.
  - unfold rk. fewvalues.
Qed.

(* a quadratic curve in Bezier form with any control points *)
Definition bk : list R := [0; 0; 0; 1; 1; 2; 2; 2]%R.
Definition bs (pts : list R) : spline (Rops dz0) := mkSpline (F := Rops dz0) (mkps dz0 [bk] [2]) (mkPhys (F := Rops dz0) 1 [5] pts None).
Lemma bk_good : good_direction bk 2.
Proof.
  unfold bk.   split; [lia|]. split; [split; [cbn; lia|]; intros [|[|[|j]]] Hj; try lia; cbn; auto|].
  split; [nondec|]. split; [sepsolve | cbn; lra].
Qed.
Lemma bk_support : full_support bk 2.
Proof. intros i Hi. unfold zlen in Hi. cbn in Hi. unfold knot. change (Z.to_nat 2) with 2%nat. destruct i as [|[|[|[|[|i]]]]]; try lia; cbn; lra. Qed.

Lemma ex_bezier pts : zlen pts = 5 -> well_formed (bs pts) /\ is_bspline (bs pts) /\ direction (bs pts) 0 bk 2 /\
  Forall2 full_support (knots_of (bs pts)) (degs_of (bs pts)) /\ interior_exactly bk 2 /\ bezier_size bk 2.
Proof.
  intros Hp. split; [|split; [reflexivity|split; [split; reflexivity|split; [|split]]]].
  - apply wf_build; [|split; [|split; [|split]]|].
    + constructor; [apply bk_good | constructor].
    + repeat constructor. lia.
    + cbn. lia.
    + cbn [sp_ph ph_cps ph_dim ph_npts total]. exact Hp.
    + intros l E. discriminate.
    + reflexivity.
  - constructor; [apply bk_support | constructor].
  - intros x Hi Hx. change (first_knot bk) with 0%R in Hx. change (final_knot bk) with 2%R in Hx. unfold bk in *. cbn [In] in Hi. 
    destruct Hi as [<-|[<-|[<-|[<-|[<-|[<-|[<-|[<-|[]]]]]]]]]; try (exfalso; lra); occs.
  - unfold bk. fewvalues.
Qed.

(* the polygon through 0, 1 and 3, and the same curve with degree two *)
Definition qk : list R := [0; 0; 1; 2; 2]%R.
Definition qs : spline (Rops dz0) := mkSpline (F := Rops dz0) (mkps dz0 [qk] [1]) (mkPhys (F := Rops dz0) 1 [3] [0; 1; 3]%R None).
Lemma qk_good : good_direction qk 1.
Proof.
  unfold qk.   split; [lia|]. split; [split; [cbn; lia|]; intros [|[|j]] Hj; try lia; cbn; auto|].
  split; [nondec|]. split; [sepsolve | cbn; lra].
Qed.
Lemma qs_wf : well_formed qs.
Proof.
  apply wf_build; [|split; [|split; [|split]]|].
  - constructor; [apply qk_good | constructor].
  - repeat constructor. lia.
  - cbn. lia.
  - reflexivity.
  - intros l E. discriminate.
  - reflexivity.
Qed.

Lemma ex_exact : well_formed qs /\ regular qs /\ direction qs 0 qk 1 /\ Forall2 full_support (knots_of qs) (degs_of qs) /\ interior_at_most qk 1 /\ bezier_size qk 2 /\
  (let s := bs [0; 1/2; 1; 2; 3]%R in well_formed s /\ regular s /\ knots_of s = upd (knots_of qs) 0 bk /\ degs_of s = upd (degs_of qs) 0 2 /\
   one_copy_more qk bk /\ same_sums qs s).
Proof.
  split; [apply qs_wf|]. split; [now left|]. split; [split; reflexivity|]. split; [|split; [|split; [|cbv zeta]]].
  - constructor; [|constructor]. intros i Hi. unfold zlen in Hi. cbn in Hi. unfold knot. change (Z.to_nat 1) with 1%nat. destruct i as [|[|[|i]]]; try lia; cbn; lra.
  - intros x Hx. change (first_knot qk) with 0%R in Hx. change (final_knot qk) with 2%R in Hx. unfold qk. occs.
  - unfold qk. fewvalues.
  - destruct (ex_bezier [0; 1/2; 1; 2; 3]%R eq_refl) as (B1 & B2 & B3 & _).
    split; [exact B1|]. split; [now left|]. split; [reflexivity|]. split; [reflexivity|]. split.
    + intros x. destruct (in_dec Req_EM_T x qk) as [Hi|Hi].
      * unfold qk in Hi |- *. unfold bk. cbn [In] in Hi. destruct Hi as [<-|[<-|[<-|[<-|[<-|[]]]]]]; occs.
      * unfold qk in *. unfold bk. cbn [In] in Hi. occs; exfalso; apply Hi; subst; tauto.
    + split; [reflexivity|]. split; [split; reflexivity|]. intros us Hu.
      set (s := bs [0; 1/2; 1; 2; 3]%R) in *.
      assert (Hc : chain 0 [(1%R, 1%nat)] 2) by (cbn; repeat split; try lia; lra).
      assert (Hd : in_domain s us).
      { apply (in_domain_upd_iff dz0 qs s 0 qk bk); auto; reflexivity. }
      assert (L := fun g => lifted_sums dz0 s qs 0 2 0 [(1%R, 1%nat)] 2 g us B1 qs_wf ltac:(lia) Hc B3 eq_refl eq_refl Hd).
      assert (E2 : IZR 2 <> 0%R) by lra. split.
      * unfold weight_function. rewrite <- L. apply lsum_ext. intros idx Hi. f_equal. unfold lifted, elevated. cbv zeta. unfold weight. change (ph_wts (sp_ph qs)) with (@None (list R)). change (ph_wts (sp_ph s)) with (@None (list R)). cbv iota. ring.
      * intros c Hc'. change (ph_dim (sp_ph qs)) with 1 in Hc'. assert (c = 0) by lia. subst c. unfold weighted_sum.
        rewrite (lsum_ext (fun idx => basis_product (knots_of qs) (degs_of qs) us idx * (weight qs idx * coordinate qs idx 0))%R
                   (fun idx => basis_product (knots_of qs) (degs_of qs) us idx * coordinate qs idx 0)%R) by (intros; cbn [weight ph_wts sp_ph qs]; unfold weight; cbn; ring).
        rewrite <- L. apply lsum_ext. intros idx Hi. f_equal.
        change (all_indices (npts_of s)) with [[0]; [1]; [2]; [3]; [4]] in Hi. cbn [In] in Hi.
        destruct Hi as [<-|[<-|[<-|[<-|[<-|[]]]]]]; unfold lifted, seg_of, elevated, weight, coordinate; cbn; change (Pos.to_nat 1) with 1%nat; change (Pos.to_nat 2) with 2%nat; change (Pos.to_nat 3) with 3%nat; change (Pos.to_nat 4) with 4%nat; cbv iota; lra.
Qed.
