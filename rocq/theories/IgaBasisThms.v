(* Closing lemmas for the basis functions used in assembly (C37). *)
From Coq Require Import ZArith List Bool Reals Lra Lia.
From Verif Require Import Base BaseFacts RSum MultiIndex MultiIndexSpec MultiIndexFacts TensorSum
  KnotVec KnotVecSpec KnotVecFacts Basis BasisSpec BSplineTheory BasisFacts
  Spaces SpacesSpec SpacesFacts SplineEval SplineSpec EvalFacts RationalDeriv EvalDeriv EvalThms
  IgaSpec Iga IgaFacts IgaThms IgaBasis SubdividePieces.
Import ListNotations.
Open Scope Z_scope.

Section Thms.
Context {dz : R -> R}.
Local Notation F := (Rops dz).
Implicit Types s : spline F.

Lemma spans_of_dirs L : Forall (good_dir dz) L ->
  mapM (fun x => knot_span (F := F) (fst x) (snd x)) (combine (map dk L) (map du L)) = Ok (map dsp L).
Proof.
  induction 1 as [|d L Hd HL IH]; cbn [map combine mapM fst snd]; auto.
  destruct Hd as (_ & _ & _ & Ek & _). rnorm. rewrite Ek. cbn [bind]. rewrite IH. reflexivity.
Qed.

Lemma Aval_product s L idx : wfL dz s L -> order0 L -> in_box (npts_of s) idx ->
  Aval dz s L idx (zeros (length L)) = (basis_product (knots_of s) (degs_of s) (map du L) idx * weight s idx)%R.
Proof.
  intros H H0 Hb. destruct (wfL_of dz s L H) as (E1 & E2 & E3). unfold Aval. rewrite order0_facs by auto.
  rewrite E1, E2, (basis_product_dirs dz) by (rewrite <- ?E3; auto; apply H). reflexivity.
Qed.
Lemma Wval_function s L : wfL dz s L -> order0 L -> Wval dz s L (zeros (length L)) = weight_function s (map du L).
Proof. intros H H0. rewrite (weight_function_dirs dz) by auto. unfold Wval. now rewrite order0_facs. Qed.

Lemma setv_order0 L d v : order0 L -> order0 (setv L d v).
Proof.
  unfold order0. intros H. rewrite <- (Forall_map dm (fun m => m = 0)) in *. now rewrite (setv_map dm) by reflexivity.
Qed.

Lemma setv_in_range L d x v : nth_error L d = Some x -> setv L d v = upd L d (setu x v).
Proof. intros H. unfold setv. now rewrite H. Qed.

Lemma nurbs_values : forall s us, well_formed s -> in_domain s us -> weight_function s us <> 0%R -> exists vals ks,
  nonzero_nurbs s us = Ok vals /\
  mapM (fun x => knot_span (F := F) (fst x) (snd x)) (combine (knots_of s) us) = Ok ks /\
  zlen vals = total (local_sizes (degs_of s)) /\
  forall ls, in_box (local_sizes (degs_of s)) ls -> in_box (npts_of s) (local_point (degs_of s) ks ls) /\
    nth (Z.to_nat (position (local_sizes (degs_of s)) ls)) vals 0%R = nurbs_basis s us (local_point (degs_of s) ks ls).
Proof.
  intros s us Hwf Hu HW. destruct (wf_dirs dz s us Hwf Hu) as (L & HwfL & -> & H0).
  destruct (wfL_of dz s L HwfL) as (E1 & E2 & E3). pose proof (proj1 HwfL) as HL.
  eexists. exists (map dsp L). split; [apply nonzero_nurbs_dirs; auto|].
  split; [rewrite E1; now apply spans_of_dirs|]. unfold local_sizes. rewrite E2. 
  assert (HN : total (map (fun p => p + 1) (map dp L)) >= 0).
  { pose proof (total_pos _ (pos_lens_degs dz L HL)). lia. }
  split; [unfold zlen, Evis; rewrite map_length, visited_length; lia|].
  intros ls Hls. assert (Hl : length ls = length L) by (rewrite (in_box_length _ _ Hls), !map_length; reflexivity).
  assert (Ep : local_point (map dp L) (map dsp L) ls = Eidx L ls) by (now apply Eidx_alt).
  assert (Ha : active L (Eidx L ls)).
  { unfold Eidx. apply (visited_active dz); auto. apply visited_In; auto. now apply (pos_lens_degs dz). }
  assert (Hb : in_box (npts_of s) (Eidx L ls)) by (rewrite E3; apply (active_box dz); auto).
  rewrite Ep. split; auto. rewrite position_get1d.
  unfold Evis. rnorm. rewrite visited_nth by auto.
  rewrite Aval_product, Wval_function by auto. unfold nurbs_basis. apply ndiv_R. exact HW.
Qed.

Lemma visited_tab {A} (f : list Z -> A) lens : map f (visited lens) = map (fun a => f (nth_index lens (Z.to_nat a))) (zseq 0 (Z.to_nat (total lens))).
Proof.
  unfold visited. rewrite map_map. generalize (Z.to_nat (total lens)) as n.
  assert (G : forall n a, map (fun x => f (nth_index lens x)) (seq a n) = map (fun a => f (nth_index lens (Z.to_nat a))) (zseq (Z.of_nat a) n)).
  { induction n as [|n IH]; intros a; cbn [seq zseq map]; auto. rewrite Nat2Z.id, IH. do 3 f_equal. lia. }
  intros n. apply (G n 0%nat).
Qed.

Lemma derivs_dirs s L : well_formed s -> in_domain s (map du L) -> wfL dz s L ->
  Z.of_nat (length L) <= total (map (fun q => q + 1) (map dp L)) ->
  exists dvals, nonzero_nurbs_derivs s (map du L) = Ok dvals /\ length dvals = length L /\
  forall d ls, (d < length L)%nat -> in_box (map (fun q => q + 1) (map dp L)) ls ->
    zlen (nth d dvals []) = total (map (fun q => q + 1) (map dp L)) /\
    nth (Z.to_nat (get1d (map (fun q => q + 1) (map dp L)) ls)) (nth d dvals []) 0%R =
    let z := zeros (length L) in let e := unit_order (length L) d in
    if get1d (map (fun q => q + 1) (map dp L)) ls <? Z.of_nat (length L)
    then ndiv (n := F) (Aval dz s L (Eidx L ls) e * Wval dz s L z - ndiv (n := F) (Aval dz s L (Eidx L ls) z) (Wval dz s L z) * Wval dz s L e)%R
                       (Wval dz s L z * Wval dz s L z)%R
    else Aval dz s L (Eidx L ls) e.
Proof.
  intros Hwf Hu HwfL HN. pose proof (proj1 HwfL) as HL. pose proof HwfL as (_ & Eps & _).
  unfold nonzero_nurbs_derivs. rewrite map_length, Eps.
  pose proof (bs_ok dz L HL) as Q1. pose proof (ds_ok dz L HL) as Q2. pose proof (deriv_loop_dirs dz s L Hwf Hu HwfL) as Q3.
  set (lens := map (fun q => q + 1) (map dp L)) in *.
  pose proof (total_pos _ (pos_lens_degs dz L HL)) as Ht. fold lens in Ht.
  unfold Evis in Q3. fold lens in Q3. rewrite visited_tab in Q3.
  assert (Q4 : map (fun j => map (fun cur => Aval dz s L (Eidx L cur) (unit_order (length L) j)) (visited lens)) (seq 0 (length L)) =
     map (fun j => map (fun a => Aval dz s L (Eidx L (nth_index lens (Z.to_nat a))) (unit_order (length L) j)) (zseq 0 (Z.to_nat (total lens)))) (seq 0 (length L))).
  { apply map_ext. intros j. apply (visited_tab (fun cur => Aval dz s L (Eidx L cur) (unit_order (length L) j))). }
  rewrite Q4 in Q3. clear Q4.
  eexists. split; [|split].
  - refine (eq_trans (f_equal (fun r => bind r _) Q1) _). cbn [bind].
    refine (eq_trans (f_equal (fun r => bind r _) Q2) _). cbn [bind].
    refine (eq_trans (f_equal (fun r => bind r _) Q3) _). cbn [bind].
    refine (quotients_ok dz (fun a => Aval dz s L (Eidx L (nth_index lens (Z.to_nat a))) (zeros (length L))) _
       (fun j a => Aval dz s L (Eidx L (nth_index lens (Z.to_nat a))) (unit_order (length L) j)) _ (Z.to_nat (total lens)) (seq 0 (length L)) _).
    rewrite seq_length. lia.
  - rewrite map_length, seq_length. reflexivity.
  - intros d ls Hd Hls. rewrite (nth_map_in _ _ _ 0%nat) by (rewrite seq_length; lia). rewrite seq_nth by lia. rewrite Nat.add_0_l, seq_length.
    pose proof (get1d_range _ _ Hls) as Hr. split.
    + unfold zlen. rewrite map_length, zseq_length. lia.
    + rewrite (nth_map_in _ _ _ 0) by (rewrite zseq_length; lia). rewrite zseq_nth by lia. rewrite Z.add_0_l, Z2Nat.id by lia.
      rewrite nth_index_of_get1d by auto. reflexivity.
Qed.

Lemma nurbs_derivs_described : forall s us, well_formed s -> in_domain s us -> weight_function s us <> 0%R ->
  Z.of_nat (length (degs_of s)) <= total (local_sizes (degs_of s)) -> exists dvals ks,
  nonzero_nurbs_derivs s us = Ok dvals /\
  mapM (fun x => knot_span (F := F) (fst x) (snd x)) (combine (knots_of s) us) = Ok ks /\
  length dvals = length (degs_of s) /\
  forall d kv u ls, nth_error (knots_of s) d = Some kv -> nth_error us d = Some u -> ~ In u kv ->
    in_box (local_sizes (degs_of s)) ls ->
    zlen (nth d dvals []) = total (local_sizes (degs_of s)) /\
    let idx := local_point (degs_of s) ks ls in let l := position (local_sizes (degs_of s)) ls in
    let A := (basis_product (knots_of s) (degs_of s) us idx * weight s idx)%R in let W := weight_function s us in
    exists A' W' : R,
    derivable_pt_lim (fun v => basis_product (knots_of s) (degs_of s) (upd us d v) idx * weight s idx)%R u A' /\
    derivable_pt_lim (fun v => weight_function s (upd us d v)) u W' /\
    nth (Z.to_nat l) (nth d dvals []) 0%R =
      if l <? Z.of_nat (length (degs_of s)) then ((A' * W - A / W * W') / (W * W))%R else A'.
Proof.
  intros s us Hwf Hu HW HN. destruct (wf_dirs dz s us Hwf Hu) as (L & HwfL & -> & H0).
  destruct (wfL_of dz s L HwfL) as (E1 & E2 & E3). pose proof (proj1 HwfL) as HL.
  unfold local_sizes in *. rewrite E2, map_length in HN.
  destruct (derivs_dirs s L Hwf Hu HwfL HN) as (dvals & D1 & D2 & D3).
  exists dvals, (map dsp L). split; auto. split; [rewrite E1; now apply spans_of_dirs|].
  split; [rewrite E2, map_length; auto|].
  intros d kv u ls Hkv Hud Hni Hls. rewrite E1 in Hkv. rewrite nth_error_map in Hkv, Hud.
  destruct (nth_error L d) as [x|] eqn:Hx; [|discriminate]. cbn in Hkv, Hud. inversion Hkv; inversion Hud; subst kv u. clear Hkv Hud.
  assert (Hd : (d < length L)%nat) by (apply nth_error_Some; congruence).
  assert (Hgx : good_dir dz x) by (rewrite Forall_forall in HL; apply HL; eapply nth_error_In; eauto).
  rewrite E2 in *. destruct (D3 d ls Hd Hls) as (F1 & F2). split; auto.
  assert (Hl : length ls = length L) by (rewrite (in_box_length _ _ Hls), !map_length; reflexivity).
  assert (Ep : local_point (map dp L) (map dsp L) ls = Eidx L ls) by (now apply Eidx_alt).
  assert (Ha : active L (Eidx L ls)).
  { unfold Eidx. apply (visited_active dz); auto. apply visited_In; auto. now apply (pos_lens_degs dz). }
  assert (Hb : in_box (npts_of s) (Eidx L ls)) by (rewrite E3; apply (active_box dz); auto).
  rewrite Ep. cbv zeta in F2 |- *.
  exists (Aval dz s L (Eidx L ls) (unit_order (length L) d)), (Wval dz s L (unit_order (length L) d)).
  assert (Hle : length (Eidx L ls) = length L) by (unfold Eidx; rewrite map2_length; rewrite ?map_length; lia).
  split; [|split].
  - eapply (derivable_local _ _ _ _ (room x)); [now apply (room_pos dz) | |
      apply (Aval_derivable dz s L d x (Eidx L ls) (zeros (length L))); auto; [apply zeros_nonneg | apply zeros_length]].
    intros v Hv. cbv beta. assert (Hw' : wfL dz s (setv L d v)) by (eapply setv_wfL; eauto; now apply room_good).
    replace (zeros (length L)) with (zeros (length (setv L d v))) by (now rewrite setv_length).
    rewrite Aval_product by (auto; now apply setv_order0). now rewrite setv_du, E2.
  - eapply (derivable_local _ _ _ _ (room x)); [now apply (room_pos dz) | |
      apply (Wval_derivable dz s L d x (zeros (length L))); auto; [apply zeros_nonneg | apply zeros_length]].
    intros v Hv. cbv beta. assert (Hw' : wfL dz s (setv L d v)) by (eapply setv_wfL; eauto; now apply room_good).
    replace (zeros (length L)) with (zeros (length (setv L d v))) by (now rewrite setv_length).
    rewrite Wval_function by (auto; now apply setv_order0). now rewrite setv_du.
  - rewrite position_get1d. rewrite ?E2, map_length, F2. destruct (_ <? _); auto.
    rewrite Aval_product, Wval_function by auto. rewrite E2. rewrite !ndiv_R by auto. reflexivity.
Qed.

Lemma wfL_domain s L : wfL dz s L -> in_domain s (map du L).
Proof.
  intros H. destruct (wfL_of dz s L H) as (E1 & _). unfold in_domain. rewrite E1. pose proof (proj1 H) as HL. clear - HL.
  induction HL as [|x L (Hg & (A1 & A2 & A3 & A4 & A5) & _) HL IH]; cbn [map]; constructor; auto.
  destruct Hg as (_ & _ & Hn & _). pose proof (tk_ge_first (dk x) (dsp x) Hn). pose proof (tk_le_final (dk x) (dsp x + 1) Hn).
  destruct A5 as [A5|[A5 _]]; lra.
Qed.

(* with unit weights the returned numbers are the derivatives *)
Lemma unit_weight_function s us : well_formed s -> in_domain s us ->
  (forall idx, in_box (npts_of s) idx -> weight s idx = 1%R) -> weight_function s us = 1%R.
Proof.
  intros Hwf Hu H1. 
  set (b := mkSpline (F := F) (sp_ps s) (mkPhys (F := F) (ph_dim (sp_ph s)) (ph_npts (sp_ph s)) (ph_cps (sp_ph s)) None)).
  assert (Hb : well_formed b).
  { destruct Hwf as [A1 A2 A3 A4 A5 A6]. split; auto. intros w Hw. discriminate Hw. }
  rewrite <- (weight_function_bspline dz b us Hb eq_refl Hu). unfold weight_function.
  apply lsum_ext. intros idx Hidx. apply all_indices_box in Hidx.
  change (knots_of b) with (knots_of s). change (degs_of b) with (degs_of s). f_equal. rewrite H1 by exact Hidx. reflexivity.
Qed.

Lemma nurbs_derivs_unit : forall s us, well_formed s -> in_domain s us ->
  (forall idx, in_box (npts_of s) idx -> weight s idx = 1%R) ->
  Z.of_nat (length (degs_of s)) <= total (local_sizes (degs_of s)) -> exists dvals ks,
  nonzero_nurbs_derivs s us = Ok dvals /\
  mapM (fun x => knot_span (F := F) (fst x) (snd x)) (combine (knots_of s) us) = Ok ks /\
  forall d kv u ls, nth_error (knots_of s) d = Some kv -> nth_error us d = Some u -> ~ In u kv ->
    in_box (local_sizes (degs_of s)) ls ->
    derivable_pt_lim (fun v => nurbs_basis s (upd us d v) (local_point (degs_of s) ks ls)) u
      (nth (Z.to_nat (position (local_sizes (degs_of s)) ls)) (nth d dvals []) 0%R).
Proof.
  intros s us Hwf Hu H1 HN. pose proof (unit_weight_function s us Hwf Hu H1) as HW.
  destruct (nurbs_derivs_described s us Hwf Hu ltac:(lra) HN) as (dvals & ks & D1 & D2 & D3 & D4).
  exists dvals, ks. split; auto. split; auto. intros d kv u ls Hkv Hud Hni Hls.
  destruct (D4 d kv u ls Hkv Hud Hni Hls) as (_ & A' & W' & X1 & X2 & X3). cbv zeta in *. rewrite HW in X3.
  destruct (wf_dirs dz s us Hwf Hu) as (L & HwfL & E & H0).
  assert (Hnear : exists r, (0 < r)%R /\ forall v, (Rabs (v - u) < r)%R -> weight_function s (upd us d v) = 1%R).
  { destruct (wfL_of dz s L HwfL) as (E1 & E2 & E3). rewrite E1 in Hkv. subst us. rewrite nth_error_map in Hkv, Hud.
    destruct (nth_error L d) as [x|] eqn:Hx; [|discriminate]. cbn in Hkv, Hud. inversion Hkv; inversion Hud; subst kv u.
    assert (Hgx : good_dir dz x) by (pose proof (proj1 HwfL) as HL; rewrite Forall_forall in HL; apply HL; eapply nth_error_In; eauto).
    exists (room x). split; [now apply (room_pos dz)|]. intros v Hv. apply unit_weight_function; auto.
    assert (Hw' : wfL dz s (setv L d v)) by (eapply setv_wfL; eauto; now apply room_good).
    rewrite <- setv_du. eapply wfL_domain; eauto. }
  destruct Hnear as (r & Hr & Hnear).
  assert (HW' : W' = 0%R).
  { apply (uniqueness_limite (fun v => weight_function s (upd us d v)) u); auto.
    apply (derivable_local (fun _ => 1%R) _ _ _ r Hr); [|apply derivable_pt_lim_const]. intros v Hv. symmetry. now apply Hnear. }
  match goal with |- derivable_pt_lim _ _ ?e => replace e with A' end.
  - apply (derivable_local (fun v => basis_product (knots_of s) (degs_of s) (upd us d v) (local_point (degs_of s) ks ls) *
      weight s (local_point (degs_of s) ks ls))%R _ _ _ r Hr); auto.
    intros v Hv. unfold nurbs_basis. rewrite Hnear by auto. field.
  - rewrite X3, HW'. destruct (_ <? _); field.
Qed.
End Thms.

(* ---- concrete cases ---- *)
From Coq Require Import Floats.
From Verif Require Import SplineNew KnotVecThms BasisThms EqualThms.

(* a straight line with weights 1 and 2: the weight function is 1 + u *)
Definition ex_rational {dz} : spline (Rops dz) :=
  mkSpline (F := Rops dz) (mkps dz [[0; 0; 1; 1]%R] [1]) (mkPhys (F := Rops dz) 1 [2] [0; 1]%R (Some [1; 2]%R)).

Lemma ex_rational_ok dz : spline_new (F := Rops dz) [[0; 0; 1; 1]%R] [1] [[0]; [1]]%R (Some [1; 2]%R) = Ok ex_rational /\
  well_formed (dz := dz) ex_rational.
Proof.
  apply (spline_new_ok dz [[0; 0; 1; 1]%R] [1] [[0]; [1]]%R (Some [1; 2]%R) 1 ex_line_good); try reflexivity; try lia.
  - repeat constructor.
  - intros w E. inversion E. reflexivity.
Qed.

Lemma ex_rational_basis u : (0 < u < 1)%R ->
  basis_product [[0; 0; 1; 1]%R] [1] [u] [0] = (1 - u)%R /\ basis_product [[0; 0; 1; 1]%R] [1] [u] [1] = u.
Proof.
  intros H. cbn [basis_product]. change (Z.to_nat 1) with 1%nat. change (Z.to_nat 0) with 0%nat. cbn [cox_de_boor].
  assert (P0 : ~ in_piece [0; 0; 1; 1]%R 0 u) by (unfold in_piece, knot, final_knot; cbn; lra).
  assert (P1 : in_piece [0; 0; 1; 1]%R 1 u) by (unfold in_piece, knot, final_knot; cbn; lra).
  assert (P2 : ~ in_piece [0; 0; 1; 1]%R 2 u) by (unfold in_piece, knot, final_knot; cbn; lra).
  cbn [Nat.add]. destruct (in_piece_dec _ 0 u) as [|_]; [contradiction|]. destruct (in_piece_dec _ 1 u) as [_|]; [|contradiction].
  destruct (in_piece_dec _ 2 u) as [|_]; [contradiction|].
  unfold quotient, knot. cbn [nth]. repeat (destruct (Req_EM_T _ _); try lra). all: split; field.
Qed.

Local Notation b0 u := (basis_product [[0; 0; 1; 1]%R] [1] [u%R] [0]).
Local Notation b1 u := (basis_product [[0; 0; 1; 1]%R] [1] [u%R] [1]).

Lemma ex_rational_weight dz u : (0 < u < 1)%R -> weight_function (dz := dz) ex_rational [u] = (1 + u)%R.
Proof.
  intros H. destruct (ex_rational_basis u H) as (E0 & E1).
  transitivity (b0 (u) * 1 + (b1 (u) * 2 + 0))%R; [reflexivity|].
  rewrite E0, E1. ring.
Qed.

Lemma derivs_wrong : forall dz, exists (s : spline (Rops dz)) dvals v0 v1 d0 d1, well_formed s /\ positive_weights s /\ in_domain s [1/2]%R /\
  knots_of s = [[0; 0; 1; 1]%R] /\ degs_of s = [1] /\
  nonzero_nurbs_derivs s [1/2]%R = Ok dvals /\ dvals = [[v0; v1]] /\
  derivable_pt_lim (fun v => nurbs_basis s [v] [0]) (1/2) d0 /\ derivable_pt_lim (fun v => nurbs_basis s [v] [1]) (1/2) d1 /\
  v0 <> d0 /\ v1 <> d1.
Proof.
  intros dz. destruct (ex_rational_ok dz) as (_ & Hwf).
  assert (Hu : in_domain (dz := dz) ex_rational [1/2]%R) by (repeat constructor; cbn; lra).
  pose proof (ex_rational_weight dz (1/2) ltac:(lra)) as HW.
  destruct (nurbs_derivs_described ex_rational [1/2]%R Hwf Hu) as (dvals & ks & D1 & D2 & D3 & D4).
  { rewrite HW. lra. }
  { cbn. lia. }
  assert (Ks : ks = [1]).
  { destruct (wf_dirs dz _ _ Hwf Hu) as (L & HL & EL & _). destruct (wfL_of dz _ _ HL) as (E1 & _ & _).
    rewrite EL, E1 in D2. apply spans_dirs in D2; [|apply HL]. pose proof (proj1 HL) as G.
    change (knots_of (dz := dz) ex_rational) with [[0; 0; 1; 1]%R] in E1.
    destruct L as [|x [|y L]]; try discriminate. cbn in E1, EL, D2. inversion E1 as [Ek]. inversion EL as [Eu]. rewrite D2. f_equal.
    inversion G as [|? ? (_ & (A1 & A2 & A3 & A4 & A5) & _) _]; subst. rewrite <- Ek in *. change (zlen [0; 0; 1; 1]%R) with 4 in *.
    assert (C : dsp x = 0 \/ dsp x = 1 \/ dsp x = 2) by lia.
    clear - A3 A4 A5 C Eu. change (tk [0; 0; 1; 1]%R) with (fun j => nth (Z.to_nat (Z.min j 3)) [0; 0; 1; 1]%R 0%R) in *. cbv beta in *.
    destruct C as [C|[C|C]]; auto; rewrite C in *; exfalso; cbv [Z.add Pos.add Z.min Z.compare Pos.compare Pos.compare_cont Z.to_nat Pos.to_nat Pos.iter_op Nat.add nth Pos.succ] in A3, A4, A5; lra. }
  subst ks.
  destruct (D4 0%nat [0; 0; 1; 1]%R (1/2)%R [0]) as (L0 & A0 & W0 & X0 & Y0 & Z0); try reflexivity.
  { cbn. lra. } { repeat constructor; lia. }
  destruct (D4 0%nat [0; 0; 1; 1]%R (1/2)%R [1]) as (L1 & A1 & W1 & X1 & Y1 & Z1); try reflexivity.
  { cbn. lra. } { repeat constructor; lia. }
  cbv zeta in *.
  assert (Hnear : forall v, (Rabs (v - 1/2) < 1/2)%R -> (0 < v < 1)%R) by (intros v Hv; apply Rabs_def2 in Hv; lra).
  assert (U : forall f g l l', (forall v, (0 < v < 1)%R -> f v = g v) -> derivable_pt_lim f (1/2) l -> derivable_pt_lim g (1/2) l' -> l = l').
  { intros f g l l' Hfg Hf Hg. apply (uniqueness_limite g (1/2)); auto. apply (derivable_local f g (1/2) l (1/2)); auto. lra. }
  assert (EA0 : A0 = (-1)%R).
  { apply (U (fun v => b0 (v) * 1)%R (fun v => 1 - v)%R); auto.
    - intros v Hv. rewrite (proj1 (ex_rational_basis v Hv)). ring.
    - replace (-1)%R with (0 - 1)%R by ring. apply (derivable_pt_lim_minus (fun _ => 1%R) id); [apply derivable_pt_lim_const | apply derivable_pt_lim_id]. }
  assert (EA1 : A1 = 2%R).
  { apply (U (fun v => b1 (v) * 2)%R (fun v => 2 * v)%R); auto.
    - intros v Hv. rewrite (proj2 (ex_rational_basis v Hv)). ring.
    - replace 2%R with (2 * 1)%R at 2 by ring. apply (derivable_pt_lim_scal id 2). apply derivable_pt_lim_id. }
  assert (EW0 : W0 = 1%R).
  { apply (U (fun v => weight_function (dz := dz) ex_rational [v]) (fun v => 1 + v)%R); auto.
    - intros v Hv. now apply ex_rational_weight.
    - replace 1%R with (0 + 1)%R at 2 by ring. apply (derivable_pt_lim_plus (fun _ => 1%R) id); [apply derivable_pt_lim_const | apply derivable_pt_lim_id]. }
  assert (Q : forall a b a' b', (forall v, b v = 1 + v)%R -> derivable_pt_lim a (1/2) a' -> b' = 1%R ->
    derivable_pt_lim (fun v => a v / b v)%R (1/2) ((a' * b (1/2) - 1 * a (1/2)) / Rsqr (b (1/2)))%R).
  { intros a b a' b' Hb Ha Hb'. apply (derivable_pt_lim_div a b (1/2) a' 1); auto.
    - apply (derivable_local (fun v => 1 + v)%R b (1/2) 1 1); [lra | intros v _; symmetry; apply Hb |].
      replace 1%R with (0 + 1)%R at 2 by ring. apply (derivable_pt_lim_plus (fun _ => 1%R) id); [apply derivable_pt_lim_const | apply derivable_pt_lim_id].
    - rewrite Hb. lra. }
  exists ex_rational, dvals, (nth 0 (nth 0 dvals []) 0%R), (nth 1 (nth 0 dvals []) 0%R), (-8/9)%R, (8/9)%R.
  split; auto. split.
  { exists [1; 2]%R. split; auto. repeat constructor; lra. }
  split; auto. split; auto. split; auto. split; auto.
  split.
  { clear - D3 L0. destruct dvals as [|l [|? ?]]; try discriminate. cbn [nth] in *. f_equal.
    change (total (local_sizes (degs_of (dz := dz) ex_rational))) with 2 in L0.
    destruct l as [|a [|b [|? ?]]]; unfold zlen in L0; cbn [length] in L0; try lia. reflexivity. }
  change (nth 0 (nth 0 dvals []) 0%R = if 0 <? 1 then ((A0 * weight_function (dz := dz) ex_rational [1/2]%R -
     b0 (1/2) * 1 / weight_function (dz := dz) ex_rational [1/2]%R * W0) /
     (weight_function (dz := dz) ex_rational [1/2]%R * weight_function (dz := dz) ex_rational [1/2]%R))%R else A0) in Z0.
  change (nth 1 (nth 0 dvals []) 0%R = A1) in Z1. cbv [Z.ltb Z.compare] in Z0.
  rewrite HW, (proj1 (ex_rational_basis (1/2) ltac:(lra))), EA0, EW0 in Z0.
  split; [|split; [|split]].
  - replace (-8/9)%R with (((-1) * (1 + 1/2) - 1 * (1 - 1/2)) / Rsqr (1 + 1/2))%R by (unfold Rsqr; field).
    apply (derivable_local (fun v => (1 - v) / (1 + v))%R _ _ _ (1/2)); [lra | |].
    + intros v Hv. specialize (Hnear v Hv).
      change ((1 - v) / (1 + v) = b0 (v) * 1 / weight_function (dz := dz) ex_rational [v])%R.
      rewrite ex_rational_weight, (proj1 (ex_rational_basis v Hnear)) by auto. field. lra.
    + apply (Q (fun v => 1 - v)%R (fun v => 1 + v)%R (-1)%R 1%R); auto.
      replace (-1)%R with (0 - 1)%R by ring. apply (derivable_pt_lim_minus (fun _ => 1%R) id); [apply derivable_pt_lim_const | apply derivable_pt_lim_id].
  - replace (8/9)%R with ((2 * (1 + 1/2) - 1 * (2 * (1/2))) / Rsqr (1 + 1/2))%R by (unfold Rsqr; field).
    apply (derivable_local (fun v => (2 * v) / (1 + v))%R _ _ _ (1/2)); [lra | |].
    + intros v Hv. specialize (Hnear v Hv).
      change ((2 * v) / (1 + v) = b1 (v) * 2 / weight_function (dz := dz) ex_rational [v])%R.
      rewrite ex_rational_weight, (proj2 (ex_rational_basis v Hnear)) by auto. field. lra.
    + apply (Q (fun v => 2 * v)%R (fun v => 1 + v)%R 2%R 1%R); auto.
      replace 2%R with (2 * 1)%R at 2 by ring. apply (derivable_pt_lim_scal id 2). apply derivable_pt_lim_id.
  - rewrite Z0. lra.
  - rewrite Z1, EA1. lra.
Qed.

(* degree zero in two directions: one local function, but the loop runs over two entries *)
Lemma derivs_degree_zero_run : match spline_new (F := Fops) [[0; 1]; [0; 1]]%float [0; 0] [[5]]%float (Some [1]%float) with
  | Ok s => match nonzero_nurbs s [0.5; 0.5]%float, nonzero_nurbs_derivs s [0.5; 0.5]%float with
            | Ok _, UB => true | _, _ => false end
  | _ => false end = true.
Proof. vm_compute. reflexivity. Qed.

Lemma derivs_degree_zero : exists (s : spline Fops) v,
  spline_new (F := Fops) [[0; 1]; [0; 1]]%float [0; 0] [[5]]%float (Some [1]%float) = Ok s /\
  nonzero_nurbs s [0.5; 0.5]%float = Ok v /\ nonzero_nurbs_derivs s [0.5; 0.5]%float = UB.
Proof.
  pose proof derivs_degree_zero_run as H.
  destruct (spline_new (F := Fops) [[0; 1]; [0; 1]]%float [0; 0] [[5]]%float (Some [1]%float)) as [s| |] eqn:E1; try discriminate H.
  destruct (nonzero_nurbs s [0.5; 0.5]%float) as [v| |] eqn:E2; try discriminate H.
  destruct (nonzero_nurbs_derivs s [0.5; 0.5]%float) eqn:E3; try discriminate H. exists s, v. auto.
Qed.

Lemma ex_local : forall dz, exists s : spline (Rops dz),
  well_formed s /\ in_domain s [1/2]%R /\ weight_function s [1/2]%R <> 0%R /\
  Z.of_nat (length (degs_of s)) <= total (local_sizes (degs_of s)) /\ ~ In (1/2)%R [0; 0; 1; 1]%R /\
  in_box (local_sizes (degs_of s)) [1].
Proof.
  intros dz. exists ex_rational. destruct (ex_rational_ok dz) as (_ & Hwf). split; auto.
  split; [repeat constructor; cbn; lra|]. split; [rewrite ex_rational_weight; lra|]. split; [cbn; lia|].
  split; [cbn; lra|]. repeat constructor; cbn; lia.
Qed.
