(* Closing lemmas for the properties of evaluation (C13-C20). *)
From Coq Require Import ZArith List Bool Lia Reals Lra Permutation.
From Verif Require Import Base BaseFacts RSum MultiIndex MultiIndexSpec MultiIndexFacts TensorSum
  KnotVec KnotVecSpec KnotVecFacts Basis BasisSpec BSplineTheory BasisFacts
  Spaces SpacesSpec SpacesFacts SplineEval SplineSpec EvalFacts RationalDeriv EvalDeriv.
Import ListNotations.
Open Scope Z_scope.

Section Thms.
Variable dz : R -> R.
Local Notation F := (Rops dz).
Implicit Types s : spline F.

Lemma wf_mkps s : well_formed s -> sp_ps s = mkps dz (knots_of s) (degs_of s).
Proof.
  intros [H1 H2 H3 H4 H5 H6]. unfold mkps. destruct s as [[kn dg bs] ph]. cbn in *. unfold knots_of, degs_of in *. cbn in *. f_equal.
  assert (Hlens : lens_ok kn dg).
  { unfold lens_ok. clear - H1. induction H1 as [|kv p l1 l2 (A & (B & _) & _) _ IH]; constructor; auto. zl. }
  pose proof (create_bases_ok dz kn dg Hlens) as E. assert (E5 : Ok bs = Ok (map2 (mkbfs dz) kn dg)) by (rewrite <- E; symmetry; exact H2). now inversion E5.
Qed.

Definition order0 (L : list dir) : Prop := Forall (fun d => dm d = 0) L.

Lemma wf_dirs s us : well_formed s -> in_domain s us -> exists L, wfL dz s L /\ us = map du L /\ order0 L.
Proof.
  intros Hwf Hu.
  destruct (wf_wfL dz s us (zeros (length (degs_of s))) Hwf Hu (zeros_length _) (zeros_nonneg _)) as (L & H1 & H2 & H3).
  exists L. split; auto. split; auto. unfold order0. apply Forall_forall. intros x Hx.
  assert (In (dm x) (zeros (length (degs_of s)))) as Hin by (rewrite H3; now apply in_map).
  now apply repeat_spec in Hin.
Qed.

Lemma order0_dm L : order0 L -> map dm L = zeros (length L).
Proof. unfold order0, zeros. induction 1 as [|x L Hx H IH]; cbn [map length repeat]; congruence. Qed.

Lemma order0_facs L : order0 L -> facs L (zeros (length L)) = map dfactor L.
Proof. intros H. unfold facs. rewrite <- order0_dm by auto. now rewrite withm_self. Qed.

Lemma wfL_of s L : wfL dz s L -> knots_of s = map dk L /\ degs_of s = map dp L /\ npts_of s = lensL L.
Proof. intros (H1 & H2 & H3 & _). unfold knots_of, degs_of. rewrite H2. auto. Qed.

Lemma basis_product_dirs L idx : Forall (good_dir dz) L -> order0 L -> in_box (lensL L) idx ->
  basis_product (map dk L) (map dp L) (map du L) idx = prodf (map dfactor L) idx.
Proof.
  unfold order0, in_box, lensL. intros HL. revert idx. induction HL as [|x L Hx HL IH]; intros idx H0 Hb; cbn [map] in *.
  - reflexivity.
  - inversion Hb as [|? i ? idx' Hi Hb']; subst. cbn [basis_product prodf].
    rewrite IH by (auto; now inversion H0). f_equal. destruct Hx as ((Hp & Hc & Hn & _) & Hsp & _).
    rewrite (cox_piece (dk x) (dsp x)); auto; try lia.
    + unfold dfactor. rewrite (Forall_inv H0). reflexivity.
    + unfold dlen in Hi. lia.
Qed.

Lemma lensL_ranges L : map (fun n => zseq 0 (Z.to_nat n)) (lensL L) = map drange L.
Proof. unfold lensL. rewrite map_map. reflexivity. Qed.

Lemma full_sum s L (c : list Z -> R) : wfL dz s L -> order0 L ->
  lsum (fun idx => basis_product (knots_of s) (degs_of s) (map du L) idx * c idx)%R (all_indices (npts_of s)) =
  tsum (map dfactor L) (map drange L) c.
Proof.
  intros HwfL H0. pose proof HwfL as (HL & _). destruct (wfL_of s L HwfL) as (E1 & E2 & E3).
  rewrite <- tsum_boxl by (now rewrite !map_length). rewrite E3, all_indices_boxl, lensL_ranges.
  apply lsum_ext. intros idx Hi. rewrite E1, E2, basis_product_dirs; auto.
  apply all_indices_box. now rewrite all_indices_boxl, lensL_ranges.
Qed.

Lemma weight_function_dirs s L : wfL dz s L -> order0 L -> weight_function s (map du L) = Wsum dz s L.
Proof. intros. apply full_sum; auto. Qed.
Lemma weighted_sum_dirs s L c : wfL dz s L -> order0 L -> weighted_sum s (map du L) c = Asum dz s L c.
Proof. intros. unfold weighted_sum. apply (full_sum s L (fun idx => weight s idx * coordinate s idx c)%R); auto. Qed.

(* factors are non-negative and sum to one *)
Lemma dfactor_0 x i : dm x = 0 -> dfactor x i = B (tk (dk x)) (dsp x) (Z.to_nat (dp x)) i (du x).
Proof. intros H. unfold dfactor. rewrite H. reflexivity. Qed.

Lemma dfactor_nonneg x i : good_dir dz x -> dm x = 0 -> (0 <= dfactor x i)%R.
Proof.
  intros ((Hp & Hc & Hn & _) & (A1 & A2 & A3 & A4 & A5) & _) H0. rewrite dfactor_0 by auto.
  assert (Hlt : (tk (dk x) (dsp x) < tk (dk x) (dsp x + 1))%R) by (destruct A5 as [A5|[A5 _]]; lra).
  apply B_nonneg; auto; [now apply tk_monotone |]. destruct A5 as [A5|[A5 _]]; lra.
Qed.

Lemma dfactor_sum x : good_dir dz x -> dm x = 0 -> lsum (dfactor x) (drange x) = 1%R.
Proof.
  intros ((Hp & Hc & Hn & _) & (A1 & A2 & A3 & A4 & A5) & Hk & _) H0.
  rewrite (lsum_ext _ (fun i => B (tk (dk x)) (dsp x) (Z.to_nat (dp x)) i (du x))) by (intros; now apply dfactor_0).
  assert (Hlt : (tk (dk x) (dsp x) < tk (dk x) (dsp x + 1))%R) by (destruct A5 as [A5|[A5 _]]; lra).
  unfold drange, dlen. apply B_sum; auto; [now apply tk_monotone | lia | lia].
Qed.

Lemma dirs_nonneg L : Forall (good_dir dz) L -> order0 L ->
  Forall2 (fun f l => forall i : Z, In i l -> (0 <= f i)%R) (map dfactor L) (map drange L).
Proof.
  unfold order0. induction 1 as [|x L Hx HL IH]; intros H0; cbn [map]; constructor.
  - intros i _. inversion H0; subst. now apply dfactor_nonneg.
  - apply IH. now inversion H0.
Qed.
Lemma dirs_one L : Forall (good_dir dz) L -> order0 L -> Forall2 (fun f l => lsum f l = 1%R) (map dfactor L) (map drange L).
Proof.
  unfold order0. induction 1 as [|x L Hx HL IH]; intros H0; cbn [map]; constructor.
  - inversion H0; subst. now apply dfactor_sum.
  - apply IH. now inversion H0.
Qed.

Lemma Wsum_bspline s L : wfL dz s L -> order0 L -> is_bspline s -> Wsum dz s L = 1%R.
Proof.
  intros (HL & _) H0 Hb. unfold Wsum. rewrite (tsum_ext_c _ _ _ (fun _ => 1%R)).
  - apply tsum_const. now apply dirs_one.
  - now rewrite !map_length.
  - intros idx _. unfold weight. now rewrite Hb.
Qed.

Lemma weight_function_bspline s us : well_formed s -> is_bspline s -> in_domain s us -> weight_function s us = 1%R.
Proof.
  intros Hwf Hb Hu. destruct (wf_dirs s us Hwf Hu) as (L & HwfL & -> & H0).
  rewrite weight_function_dirs by auto. now apply Wsum_bspline.
Qed.

Lemma boxl_drange_box s L idx : wfL dz s L -> In idx (boxl (map drange L)) -> in_box (npts_of s) idx.
Proof.
  intros HwfL H. destruct (wfL_of s L HwfL) as (_ & _ & E3).
  apply all_indices_box. now rewrite E3, all_indices_boxl, lensL_ranges.
Qed.

Lemma weight_positive s idx : well_formed s -> positive_weights s -> in_box (npts_of s) idx -> (0 < weight s idx)%R.
Proof.
  intros [_ _ _ _ _ Hw] (w & Ew & Hp) Hb. unfold weight. rewrite Ew. rewrite Forall_forall in Hp. apply Hp. apply nth_In.
  pose proof (position_range _ _ Hb). specialize (Hw w Ew). zl.
Qed.

(* some tensor-product basis function is positive: they sum to one *)
Lemma tsum_pos fs ls c : length fs = length ls -> Forall2 (fun f l => forall i : Z, In i l -> (0 <= f i)%R) fs ls ->
  Forall2 (fun f l => lsum f l = 1%R) fs ls -> (forall idx, In idx (boxl ls) -> (0 < c idx)%R) -> (0 < tsum fs ls c)%R.
Proof.
  intros Hl Hn. revert c Hl. induction Hn as [|f l fs ls Hf Hn IH]; intros c Hl H1 Hc.
  - cbn. apply Hc. now left.
  - inversion H1 as [|? ? ? ? E1 H1']; subst. cbn [tsum].
    assert (Hpos : forall i, In i l -> (0 < tsum fs ls (fun r => c (i :: r)))%R).
    { intros i Hi. apply IH; auto. intros idx Hidx. apply Hc. apply boxl_In. constructor; auto. now apply boxl_In. }
    apply lsum_pos.
    + intros i Hi. apply Rmult_le_pos; auto. now apply Rlt_le, Hpos.
    + destruct (Exists_dec (fun i => 0 < f i)%R l) as [He|He].
      * intros i. destruct (Rlt_dec 0 (f i)); auto.
      * apply Exists_exists in He as (i & Hi & Hfi). exists i. split; auto. apply Rmult_lt_0_compat; auto.
      * exfalso. assert (lsum f l = 0%R); [|lra]. apply lsum_zero. intros i Hi.
        specialize (Hf i Hi). destruct (Req_EM_T (f i) 0); auto. exfalso. apply He. apply Exists_exists. exists i. split; auto. lra.
Qed.

Lemma weight_function_positive s us : well_formed s -> positive_weights s -> in_domain s us -> (0 < weight_function s us)%R.
Proof.
  intros Hwf Hp Hu. destruct (wf_dirs s us Hwf Hu) as (L & HwfL & -> & H0). pose proof HwfL as (HL & _).
  rewrite weight_function_dirs by auto. unfold Wsum. apply tsum_pos.
  - now rewrite !map_length.
  - now apply dirs_nonneg.
  - now apply dirs_one.
  - intros idx Hi. apply weight_positive; auto. eapply boxl_drange_box; eauto.
Qed.

(* ---- evaluation ---- *)
Lemma eval_quotient s us dims : well_formed s -> in_domain s us -> valid_dims s dims -> weight_function s us <> 0%R ->
  evaluate s us dims = Ok (map (fun c => weighted_sum s us c / weight_function s us)%R dims).
Proof.
  intros Hwf Hu Hv HW. destruct (wf_dirs s us Hwf Hu) as (L & HwfL & -> & H0).
  assert (EW := weight_function_dirs s L HwfL H0). rewrite EW in *.
  destruct (ph_wts (sp_ph s)) as [w|] eqn:Ew.
  - rewrite (evaluate_nurbs_ok dz s L dims w) by auto. f_equal. apply map_ext. intros c.
    now rewrite weighted_sum_dirs.
  - rewrite (evaluate_bspline_ok dz s L dims) by auto. f_equal. apply map_ext. intros c.
    rewrite weighted_sum_dirs by auto. rewrite Wsum_bspline by auto. field.
Qed.

Lemma bspline_full_sum : forall s us dims, well_formed s -> is_bspline s -> in_domain s us -> valid_dims s dims ->
  evaluate s us dims =
  Ok (map (fun c => lsum (fun idx => basis_product (knots_of s) (degs_of s) us idx * coordinate s idx c)%R
                         (all_indices (npts_of s))) dims).
Proof.
  intros s us dims Hwf Hb Hu Hv. assert (E := weight_function_bspline s us Hwf Hb Hu).
  rewrite eval_quotient by (auto; rewrite E; lra). f_equal. apply map_ext. intros c. rewrite E.
  unfold weighted_sum. unfold Rdiv. rewrite Rinv_1, Rmult_1_r. apply lsum_ext. intros idx _. unfold weight. rewrite Hb. ring.
Qed.

Lemma nurbs_quotient : forall s us dims, well_formed s -> in_domain s us -> valid_dims s dims ->
  weight_function s us <> 0%R ->
  evaluate s us dims = Ok (map (fun c => weighted_sum s us c / weight_function s us)%R dims).
Proof. exact eval_quotient. Qed.

(* value of Evaluate whatever the weights *)
Lemma evaluate_total s L dims : wfL dz s L -> order0 L -> valid_dims s dims ->
  exists vs, evaluate s (map du L) dims = Ok vs /\ length vs = length dims.
Proof.
  intros HwfL H0 Hv. pose proof HwfL as (HL & Eps & En & Hd & Hcps & Hw).
  destruct (ph_wts (sp_ph s)) as [w|] eqn:Hb.
  2:{ rewrite (evaluate_bspline_ok dz s L dims) by auto. eexists. split; [reflexivity|]. apply map_length. }
  unfold evaluate. rewrite Eps, throw_ok by auto. cbn [bind].
  rewrite first_non_zero_ok by auto. cbn [bind].
  rewrite mih_loop_visited. cbn [mcur]. unfold num_to_evaluate. rewrite Eps. cbn [psL mkps ps_degs].
  rnorm. rewrite (point_loop (fun idx c => evaluated_control_point s (map du L) (map2 Z.add idx (map (fun d => dsp d - dp d)%Z L)) c)
                      (fun cur c => let idx := map2 Z.add cur (map (fun d => dsp d - dp d)%Z L) in
                         (ndiv (n := F) (prodf (map dfactor L) idx * (coordinate s idx c * weight s idx)) (Wsum dz s L))%R)).
  - eexists. split; [reflexivity|]. rewrite map2_length; rewrite ?repeat_length; auto.
  - now rewrite repeat_length.
  - intros cur c Hc Hin. pose proof (visited_active dz L cur HL Hc) as Ha.
    unfold evaluated_control_point. rewrite Eps, basis_ok by auto. cbn [bind]. rewrite Hb.
    assert (Hc' : 0 <= c < ph_dim (sp_ph s)) by (unfold valid_dims in Hv; rewrite Forall_forall in Hv; auto).
    pose proof (homogeneous_ok dz s (map2 Z.add cur (map (fun d => dsp d - dp d)%Z L)) w c Hd) as Hh.
    rewrite En in Hh at 1. specialize (Hh (active_box dz L _ HL Ha) Hcps Hb (Hw w eq_refl) ltac:(lia)).
    destruct (get_homogeneous (sp_ph s) _) as [hcp| |]; cbn [bind] in *; try discriminate.
    rewrite Hh. cbn [bind]. unfold sp_pdim. rewrite Z.eqb_sym.
    destruct (Z.eqb_spec c (ph_dim (sp_ph s))) as [E|E]; [lia|].
    rewrite weight_sum_ok by auto. cbn [bind]. fold (Wsum dz s L). cbv zeta. f_equal.
Qed.

Lemma eval_safe : forall s us dims ders, well_formed s -> length us = length (knots_of s) -> valid_dims s dims ->
  length ders = length (degs_of s) -> Forall (fun m => 0 <= m) ders ->
  (in_domain s us -> (exists vs, evaluate s us dims = Ok vs /\ length vs = length dims) /\
                     (exists vs, evaluate_derivative s us dims ders = Ok vs /\ length vs = length dims)) /\
  (~ in_domain s us -> evaluate s us dims = Throw RangeError /\ evaluate_derivative s us dims ders = Throw RangeError).
Proof.
  intros s us dims ders Hwf Hl Hv Hd Hm. split; intros Hu.
  - split.
    + destruct (wf_dirs s us Hwf Hu) as (L & HwfL & -> & H0). now apply evaluate_total.
    + destruct (wf_wfL dz s us ders Hwf Hu Hd Hm) as (L & HwfL & -> & ->).
      rewrite (evaluate_derivative_ok dz s L dims (map dm L)); auto; try (now rewrite map_length).
      eexists. split; [reflexivity|]. apply map_length.
  - assert (E : throw_if_outside (sp_ps s) us = Throw RangeError).
    { rewrite (wf_mkps s Hwf). apply (throw_out dz); auto.
      pose proof (wf_directions s Hwf) as H. clear - H. induction H as [|kv p l1 l2 (Hp & (Hc & _) & _) H IH]; constructor; auto.
      intros ->. cbn [length] in Hc. lia. }
    unfold evaluate, evaluate_derivative. rewrite E. auto.
Qed.

(* ---- affine maps ---- *)
Lemma affine_invariance : forall s s' us (A : Z -> Z -> R) (b : Z -> R),
  well_formed s -> well_formed s' -> sp_ps s' = sp_ps s ->
  ph_wts (sp_ph s') = ph_wts (sp_ph s) -> in_domain s us -> weight_function s us <> 0%R ->
  (forall idx c', In idx (all_indices (npts_of s)) -> 0 <= c' < ph_dim (sp_ph s') ->
     coordinate s' idx c' = (b c' + lsum (fun c => A c' c * coordinate s idx c) (zseq 0 (Z.to_nat (ph_dim (sp_ph s)))))%R) ->
  exists v v', evaluate s us (zseq 0 (Z.to_nat (ph_dim (sp_ph s)))) = Ok v /\
    evaluate s' us (zseq 0 (Z.to_nat (ph_dim (sp_ph s')))) = Ok v' /\
    forall c', 0 <= c' < ph_dim (sp_ph s') ->
      nth (Z.to_nat c') v' 0%R =
      (b c' + lsum (fun c => A c' c * nth (Z.to_nat c) v 0%R) (zseq 0 (Z.to_nat (ph_dim (sp_ph s)))))%R.
Proof.
  intros s s' us A b Hwf Hwf' Eps Ew Hu HW Hc.
  assert (Hvd : forall s0 : spline F, valid_dims s0 (zseq 0 (Z.to_nat (ph_dim (sp_ph s0))))).
  { intros s0. apply Forall_forall. intros c H. apply zseq_In in H. lia. }
  assert (En : npts_of s' = npts_of s).
  { rewrite (wf_npts s Hwf), (wf_npts s' Hwf'). unfold knots_of, degs_of. now rewrite Eps. }
  assert (Hwt : forall idx, weight s' idx = weight s idx) by (intros; unfold weight; now rewrite Ew, En).
  assert (EW : weight_function s' us = weight_function s us).
  { unfold weight_function, knots_of, degs_of. rewrite Eps, En. apply lsum_ext. intros idx _. now rewrite Hwt. }
  assert (Hu' : in_domain s' us) by (unfold in_domain, knots_of in *; now rewrite Eps).
  exists (map (fun c => weighted_sum s us c / weight_function s us)%R (zseq 0 (Z.to_nat (ph_dim (sp_ph s))))),
         (map (fun c => weighted_sum s' us c / weight_function s' us)%R (zseq 0 (Z.to_nat (ph_dim (sp_ph s'))))).
  split; [now apply eval_quotient|]. split; [apply eval_quotient; auto; now rewrite EW|].
  assert (Hnth : forall (f : Z -> R) n c, 0 <= c < Z.of_nat n -> nth (Z.to_nat c) (map f (zseq 0 n)) 0%R = f c).
  { intros f n c H. rewrite (nth_indep _ 0%R (f 0)) by (rewrite map_length, zseq_length; lia).
    rewrite (map_nth f), zseq_nth by lia. f_equal. lia. }
  intros c' Hc'. rewrite Hnth by lia.
  rewrite (lsum_ext (fun c => A c' c * nth (Z.to_nat c) (map (fun c0 => weighted_sum s us c0 / weight_function s us) (zseq 0 (Z.to_nat (ph_dim (sp_ph s))))) 0)%R
                    (fun c => / weight_function s us * (A c' c * weighted_sum s us c))%R).
  2:{ intros c Hin. apply zseq_In in Hin. rewrite Hnth by lia. unfold Rdiv. ring. }
  rewrite lsum_scal, EW. unfold Rdiv.
  assert (E : weighted_sum s' us c' = (b c' * weight_function s us + lsum (fun c => A c' c * weighted_sum s us c) (zseq 0 (Z.to_nat (ph_dim (sp_ph s)))))%R).
  { unfold weighted_sum, weight_function. rewrite <- lsum_scal.
    rewrite (lsum_ext (fun c => A c' c * lsum _ _)%R
       (fun c => lsum (fun idx => A c' c * (basis_product (knots_of s) (degs_of s) us idx * (weight s idx * coordinate s idx c)))%R (all_indices (npts_of s))))
      by (intros; now rewrite lsum_scal).
    rewrite lsum_swap, <- lsum_plus, En. apply lsum_ext. intros idx Hidx.
    rewrite Hc by auto. unfold knots_of, degs_of. rewrite Eps, Hwt.
    set (bp := basis_product (ps_knots (sp_ps s)) (ps_degs (sp_ps s)) us idx).
    assert (E : lsum (fun c => A c' c * (bp * (weight s idx * coordinate s idx c)))%R (zseq 0 (Z.to_nat (ph_dim (sp_ph s)))) =
                (bp * weight s idx * lsum (fun c => A c' c * coordinate s idx c) (zseq 0 (Z.to_nat (ph_dim (sp_ph s)))))%R).
    { rewrite <- lsum_scal. apply lsum_ext. intros. ring. }
    rewrite E. ring. }
  rewrite E. match goal with |- @eq _ ?a ?b => change (@eq R a b) end. field. auto.
Qed.

(* ---- convex hull ---- *)
Lemma convex_combination : forall s us dims, well_formed s -> is_bspline s \/ positive_weights s ->
  in_domain s us -> valid_dims s dims ->
  exists lam : list Z -> R,
    (forall idx, In idx (all_indices (npts_of s)) -> (0 <= lam idx)%R) /\
    lsum lam (all_indices (npts_of s)) = 1%R /\
    evaluate s us dims = Ok (map (fun c => lsum (fun idx => lam idx * coordinate s idx c)%R (all_indices (npts_of s))) dims).
Proof.
  intros s us dims Hwf Hw Hu Hv.
  assert (HW : (0 < weight_function s us)%R).
  { destruct Hw as [Hw|Hw]; [rewrite weight_function_bspline by auto; lra | now apply weight_function_positive]. }
  exists (fun idx => basis_product (knots_of s) (degs_of s) us idx * weight s idx / weight_function s us)%R.
  split; [|split].
  - intros idx Hi. apply Rmult_le_pos; [|left; now apply Rinv_0_lt_compat].
    apply all_indices_box in Hi. apply Rmult_le_pos.
    + destruct (wf_dirs s us Hwf Hu) as (L & HwfL & -> & H0). pose proof HwfL as (HL & _).
      destruct (wfL_of s L HwfL) as (E1 & E2 & E3). rewrite E1, E2, basis_product_dirs by (auto; now rewrite <- E3).
      rewrite E3 in Hi. clear - HL H0 Hi. unfold in_box, lensL, order0 in *. revert idx Hi.
      induction HL as [|x L Hx HL IH]; intros idx Hi; cbn [map prodf] in *; [lra|].
      inversion Hi as [|? i ? idx' Hi1 Hi2]; subst. inversion H0; subst. apply Rmult_le_pos; [|auto].
      now apply dfactor_nonneg.
    + destruct Hw as [Hw|Hw]; [unfold weight; rewrite Hw; lra | left; now apply weight_positive].
  - unfold Rdiv. rewrite lsum_scal_r. apply Rinv_r. lra.
  - rewrite eval_quotient by (auto; lra). f_equal. apply map_ext. intros c. unfold weighted_sum, Rdiv.
    rewrite <- lsum_scal_r. apply lsum_ext. intros. ring.
Qed.

Lemma convex_bounds : forall s us c lo hi, well_formed s -> is_bspline s \/ positive_weights s ->
  in_domain s us -> 0 <= c < ph_dim (sp_ph s) ->
  (forall idx, In idx (all_indices (npts_of s)) -> (lo <= coordinate s idx c <= hi)%R) ->
  exists v, evaluate s us [c] = Ok [v] /\ (lo <= v <= hi)%R.
Proof.
  intros s us c lo hi Hwf Hw Hu Hc Hb.
  destruct (convex_combination s us [c] Hwf Hw Hu) as (lam & H1 & H2 & H3); [now constructor|].
  cbn [map] in H3. eexists. split; [exact H3|]. split.
  - rewrite <- (Rmult_1_r lo), <- H2, <- lsum_scal. apply lsum_le. intros idx Hi. rewrite Rmult_comm.
    apply Rmult_le_compat_l; [now apply H1 | now apply Hb].
  - rewrite <- (Rmult_1_r hi), <- H2, <- lsum_scal. apply lsum_le. intros idx Hi. rewrite (Rmult_comm hi).
    apply Rmult_le_compat_l; [now apply H1 | now apply Hb].
Qed.

(* ---- weights ---- *)
Lemma equal_weights : forall s b us dims w0, well_formed s -> well_formed b -> is_bspline b ->
  sp_ps b = sp_ps s -> ph_dim (sp_ph b) = ph_dim (sp_ph s) -> ph_cps (sp_ph b) = ph_cps (sp_ph s) ->
  w0 <> 0%R -> (exists w, ph_wts (sp_ph s) = Some w /\ Forall (fun x => x = w0) w) ->
  in_domain s us -> valid_dims s dims -> evaluate s us dims = evaluate b us dims.
Proof.
  intros s b us dims w0 Hwf Hwfb Hb Eps Ed Ec Hw0 (w & Ew & Hw) Hu Hv.
  assert (En : npts_of b = npts_of s).
  { rewrite (wf_npts s Hwf), (wf_npts b Hwfb). unfold knots_of, degs_of. now rewrite Eps. }
  assert (Hu' : in_domain b us) by (unfold in_domain, knots_of in *; now rewrite Eps).
  assert (Hv' : valid_dims b dims) by (unfold valid_dims in *; now rewrite Ed).
  assert (Hwt : forall idx, In idx (all_indices (npts_of s)) -> weight s idx = w0).
  { intros idx Hi. apply all_indices_box in Hi. unfold weight. rewrite Ew. rewrite Forall_forall in Hw. apply Hw. apply nth_In.
    pose proof (position_range _ _ Hi). pose proof (wf_wts s Hwf w Ew). zl. }
  assert (EB := weight_function_bspline b us Hwfb Hb Hu').
  assert (EW : weight_function s us = w0).
  { rewrite <- (Rmult_1_r w0), <- EB. unfold weight_function, knots_of, degs_of. rewrite Eps, En, <- lsum_scal. apply lsum_ext.
    intros idx Hi. rewrite Hwt by auto. unfold weight. rewrite Hb. ring. }
  rewrite (eval_quotient s) by (auto; now rewrite EW). rewrite (eval_quotient b) by (auto; rewrite EB; lra).
  f_equal. apply map_ext. intros c. rewrite EW, EB.
  assert (E : weighted_sum s us c = (w0 * weighted_sum b us c)%R).
  { unfold weighted_sum, knots_of, degs_of. rewrite Eps, En, <- lsum_scal. apply lsum_ext. intros idx Hi. rewrite Hwt by auto.
    unfold weight, coordinate. rewrite Hb, Ed, Ec, En. ring. }
  rewrite E. field. auto.
Qed.

Lemma scaled_weights : forall s s' us dims a, well_formed s -> well_formed s' ->
  sp_ps s' = sp_ps s -> ph_dim (sp_ph s') = ph_dim (sp_ph s) -> ph_cps (sp_ph s') = ph_cps (sp_ph s) -> a <> 0%R ->
  (exists w, ph_wts (sp_ph s) = Some w /\ ph_wts (sp_ph s') = Some (map (fun x => a * x)%R w)) ->
  in_domain s us -> valid_dims s dims -> weight_function s us <> 0%R -> evaluate s' us dims = evaluate s us dims.
Proof.
  intros s s' us dims a Hwf Hwf' Eps Ed Ec Ha (w & Ew & Ew') Hu Hv HW.
  assert (En : npts_of s' = npts_of s).
  { rewrite (wf_npts s Hwf), (wf_npts s' Hwf'). unfold knots_of, degs_of. now rewrite Eps. }
  assert (Hu' : in_domain s' us) by (unfold in_domain, knots_of in *; now rewrite Eps).
  assert (Hv' : valid_dims s' dims) by (unfold valid_dims in *; now rewrite Ed).
  assert (Hwt : forall idx, weight s' idx = (a * weight s idx)%R).
  { intros idx. unfold weight. rewrite Ew, Ew', En. 
    etransitivity; [|apply (map_nth (fun x => a * x)%R)]. rewrite Rmult_0_r. reflexivity. }
  assert (EW : weight_function s' us = (a * weight_function s us)%R).
  { unfold weight_function, knots_of, degs_of. rewrite Eps, En, <- lsum_scal. apply lsum_ext.
    intros idx Hi. rewrite Hwt. ring. }
  assert (HW' : weight_function s' us <> 0%R) by (rewrite EW; now apply Rmult_integral_contrapositive_currified).
  rewrite (eval_quotient s), (eval_quotient s') by auto.
  f_equal. apply map_ext. intros c. rewrite EW.
  assert (E : weighted_sum s' us c = (a * weighted_sum s us c)%R).
  { unfold weighted_sum, knots_of, degs_of. rewrite Eps, En, <- lsum_scal. apply lsum_ext. intros idx Hi. rewrite Hwt.
    unfold coordinate. rewrite Ed, Ec, En. ring. }
  rewrite E. field. auto.
Qed.

(* ---- corners ---- *)
Lemma B_at_left (t : Z -> R) k p u : monotone t -> (t k < t (k + 1)%Z)%R -> u = t k -> (forall j, k - Z.of_nat p < j <= k -> t j = u) ->
  forall q i, (q <= p)%nat -> k - Z.of_nat q < i -> B t k q i u = 0%R.
Proof.
  intros Hm Hk Hu Ht. induction q as [|q IH]; intros i Hq Hi.
  - cbn [B]. destruct (Z.eq_dec i k); auto. lia.
  - cbn [B]. rewrite (IH (i + 1)) by lia. rewrite Rmult_0_r, Rplus_0_r.
    destruct (Z.le_gt_cases i k) as [E|E].
    + rewrite (Ht i) by lia. replace (u - u)%R with 0%R by ring. rewrite quot0_0. ring.
    + rewrite (IH i) by lia. ring.
Qed.
Lemma B_at_right (t : Z -> R) k p u : monotone t -> (t k < t (k + 1)%Z)%R -> (forall j, k < j <= k + Z.of_nat p -> t j = u) -> 
  forall q i, (q <= p)%nat -> i < k -> B t k q i u = 0%R.
Proof.
  intros Hm Hk Ht. induction q as [|q IH]; intros i Hq Hi.
  - cbn [B]. destruct (Z.eq_dec i k); auto. lia.
  - cbn [B]. rewrite (IH i) by lia. rewrite Rmult_0_r, Rplus_0_l.
    destruct (Z.le_gt_cases (k - Z.of_nat q) (i + 1)) as [E|E].
    + rewrite (Ht (i + Z.of_nat (S q) + 1)) by lia. replace (u - u)%R with 0%R by ring. rewrite quot0_0. ring.
    + rewrite (B_outside t k q (i + 1) u) by lia. ring.
Qed.

Lemma dfactor_end x e : good_dir dz x -> dm x = 0 -> du x = end_value (dk x) e ->
  exact_ends (dk x) (dp x) ->
  forall i, i <> end_index (dlen x) e -> dfactor x i = 0%R.
Proof.
  intros ((Hp & Hc & Hn & Hs & Hlt) & Hsp & Hk & _) H0 Hu (He1 & He2) i Hi.
  pose proof Hsp as (A1 & A2 & A3 & A4 & A5). destruct Hc as (Hlen & Hc).
  rewrite dfactor_0 by auto.
  assert (Hkk : (tk (dk x) (dsp x) < tk (dk x) (dsp x + 1))%R) by (destruct A5 as [A5|[A5 _]]; lra).
  pose proof (tk_monotone _ Hn) as Hm. unfold dlen in *.
  assert (Hz : zlen (dk x) = Z.of_nat (length (dk x))) by reflexivity.
  destruct e; cbn [end_value end_index] in *.
  - assert (Ek : dsp x = zlen (dk x) - dp x - 2).
    { destruct (Z.eq_dec (dsp x) (zlen (dk x) - dp x - 2)); auto. exfalso.
      assert ((tk (dk x) (dsp x + 1) <= tk (dk x) (zlen (dk x) - dp x - 2))%R) by (apply Hm; lia).
      rewrite (tk_knot' (dk x) (zlen (dk x) - dp x - 2)) in H by lia.
      replace (Z.to_nat (zlen (dk x) - dp x - 2)) with (length (dk x) - Z.to_nat (dp x) - 2)%nat in H by lia. lra. }
    destruct (Z.lt_ge_cases i (dsp x)).
    + apply (B_at_right (tk (dk x)) (dsp x) (Z.to_nat (dp x))); auto. intros j Hj. rewrite tk_knot' by lia.
      destruct (Hc (length (dk x) - 1 - Z.to_nat j)%nat) as [_ E]; [lia|].
      rewrite Hu, <- E. f_equal. lia.
    + apply B_outside. lia.
  - assert (Ek : dsp x = dp x).
    { destruct (Z.eq_dec (dsp x) (dp x)); auto. exfalso.
      assert ((tk (dk x) (dp x + 1) <= tk (dk x) (dsp x))%R) by (apply Hm; lia).
      rewrite (tk_knot' (dk x) (dp x + 1)) in H by lia. replace (Z.to_nat (dp x + 1)) with (S (Z.to_nat (dp x))) in H by lia. lra. }
    destruct (Z.lt_ge_cases 0 i).
    + assert (Hfirst : forall j, 0 <= j <= dp x -> tk (dk x) j = first_knot (dk x)).
      { intros j Hj. rewrite tk_knot' by lia. destruct (Hc (Z.to_nat j)) as [E _]; [lia|]. exact E. }
      apply (B_at_left (tk (dk x)) (dsp x) (Z.to_nat (dp x))); auto; try lia.
      * rewrite Hu, Hfirst; auto. lia.
      * intros j Hj. rewrite Hu, Hfirst; auto. lia.
    + apply B_outside. lia.
Qed.

Lemma corner_interpolation : forall s ends dims, well_formed s ->
  Forall2 exact_ends (knots_of s) (degs_of s) -> length ends = length (knots_of s) -> valid_dims s dims ->
  weight s (map2 end_index (npts_of s) ends) <> 0%R ->
  evaluate s (map2 end_value (knots_of s) ends) dims =
  Ok (map (coordinate s (map2 end_index (npts_of s) ends)) dims).
Proof.
  intros s ends dims Hwf He Hl Hv Hw.
  assert (Hu : in_domain s (map2 end_value (knots_of s) ends)).
  { unfold in_domain. pose proof (wf_directions s Hwf) as Hd. clear - Hd Hl. revert ends Hl.
    induction Hd as [|kv p l1 l2 (_ & _ & Hn & _ & Hlt) Hd IH]; intros [|e ends] Hl; cbn [map2 length] in *; try discriminate; constructor; auto.
    destruct e; cbn [end_value]; lra. }
  destruct (wf_dirs s _ Hwf Hu) as (L & HwfL & Eu & H0). pose proof HwfL as (HL & _).
  destruct (wfL_of s L HwfL) as (E1 & E2 & E3).
  assert (G : forall c, tsum (map dfactor L) (map drange L) c = c (map2 end_index (npts_of s) ends)).
  { intros c. rewrite E3. apply tsum_corner; [|now rewrite !map_length].
    rewrite E1, E2 in He. rewrite E1 in Eu. rewrite E1, map_length in Hl. clear - HL Hl H0 He Eu. unfold lensL, order0 in *. revert ends Hl Eu.
    induction HL as [|x L Hx HL IH]; intros [|e ends] Hl Eu; cbn [map map2 length combine] in *; try discriminate; constructor.
    - cbn [fst snd]. pose proof (Forall_inv H0) as H0x. assert (Hex : exact_ends (dk x) (dp x)) by (now inversion He).
      assert (Eux : du x = end_value (dk x) e) by congruence.
      assert (Hin : In (end_index (dlen x) e) (drange x)).
      { destruct Hx as ((Hp & (Hc & _) & _) & _). apply zseq_In. unfold dlen, end_index. destruct e; zl. }
      assert (Hz : forall i, i <> end_index (dlen x) e -> dfactor x i = 0%R).
      { intros i Hi. apply (dfactor_end x e); auto. }
      assert (Hnd : NoDup (drange x)) by apply zseq_NoDup.
      split; auto. split; auto. split; auto.
      rewrite <- (dfactor_sum x Hx H0x). symmetry. apply lsum_single; auto.
    - inversion He; subst. inversion Eu. apply IH; auto; exact (Forall_inv_tail H0). }
  assert (EW : weight_function s (map du L) = weight s (map2 end_index (npts_of s) ends)).
  { rewrite weight_function_dirs by auto. apply G. }
  rewrite Eu. rewrite eval_quotient; auto.
  - f_equal. apply map_ext. intros c. rewrite weighted_sum_dirs, EW by auto. unfold Asum. rewrite G. field. auto.
  - now rewrite <- Eu.
  - now rewrite EW.
Qed.

(* ---- derivatives ---- *)
Lemma derivative_order_zero : forall s us dims, well_formed s -> in_domain s us -> valid_dims s dims ->
  is_bspline s \/ weight_function s us <> 0%R ->
  evaluate_derivative s us dims (map (fun _ => 0) (degs_of s)) = evaluate s us dims.
Proof.
  intros s us dims Hwf Hu Hv Hw.
  assert (HW : weight_function s us <> 0%R).
  { destruct Hw as [Hw|Hw]; auto. rewrite weight_function_bspline by auto. lra. }
  rewrite eval_quotient by auto. clear Hw.
  destruct (wf_dirs s us Hwf Hu) as (L & HwfL & -> & H0). destruct (wfL_of s L HwfL) as (E1 & E2 & E3).
  assert (Ez : map (fun _ => 0) (degs_of s) = zeros (length L)).
  { rewrite E2, map_map. unfold zeros. clear. induction L; cbn; auto. now rewrite IHL. }
  rewrite Ez, (evaluate_derivative_ok dz s L dims (zeros (length L)) HwfL (zeros_nonneg _) (zeros_length _) Hv).
  f_equal. apply map_ext. intros c. rewrite weighted_sum_dirs, weight_function_dirs in * by auto.
  unfold dvalue. destruct (ph_wts (sp_ph s)) as [w|] eqn:Ew.
  - rewrite (lsum_ext _ (fun cur => prodf (map dfactor L) (Eidx L cur) * (/ Wsum dz s L * (weight s (Eidx L cur) * coordinate s (Eidx L cur) c)))%R).
    + pose proof (visited_sum dz L (fun idx => / Wsum dz s L * (weight s idx * coordinate s idx c))%R (proj1 HwfL)) as E.
      cbv zeta in E. unfold Evis, Eidx. rewrite E, tsum_scal. unfold Asum, Rdiv. ring.
    + intros cur _. unfold rval. cbn [rr]. rewrite orders_zeros. cbn [tl lsum].
      assert (EWv : Wval dz s L (zeros (length L)) = Wsum dz s L) by (unfold Wval; now rewrite order0_facs).
      rewrite EWv, ndiv_R by auto. unfold Aval. rewrite order0_facs by auto. field. auto.
  - rewrite order0_facs by auto. rewrite Wsum_bspline by auto. unfold Asum, Rdiv. rewrite Rinv_1, Rmult_1_r.
    apply tsum_ext_c; [now rewrite !map_length|]. intros idx _. unfold weight. rewrite Ew. ring.
Qed.

Lemma derivative_step : forall s us ders d kv u c, well_formed s -> in_domain s us ->
  length ders = length (degs_of s) -> Forall (fun m => 0 <= m) ders ->
  nth_error (knots_of s) d = Some kv -> nth_error us d = Some u -> ~ In u kv ->
  0 <= c < ph_dim (sp_ph s) -> is_bspline s \/ weight_function s us <> 0%R ->
  exists l, evaluate_derivative s us [c] (upd ders d (nth d ders 0 + 1)) = Ok [l] /\
    derivable_pt_lim (fun v => only_value (evaluate_derivative s (upd us d v) [c] ders)) u l.
Proof.
  intros s us ders d kv u c Hwf Hu Hld Hders Hkv Hud Hni Hc Hw.
  assert (HW : weight_function s us <> 0%R).
  { destruct Hw as [Hw|Hw]; auto. rewrite weight_function_bspline by auto. lra. }
  clear Hw. destruct (wf_dirs s us Hwf Hu) as (L & HwfL & -> & H0). destruct (wfL_of s L HwfL) as (E1 & E2 & E3).
  assert (Hl : length ders = length L) by (rewrite Hld, E2; apply map_length).
  rewrite E1 in Hkv. rewrite nth_error_map in Hkv, Hud. destruct (nth_error L d) as [x|] eqn:Hx; [|discriminate].
  cbn in Hkv, Hud. inversion Hkv; inversion Hud; subst kv u. clear Hkv Hud.
  assert (Hgx : good_dir dz x) by (pose proof (proj1 HwfL) as HL; rewrite Forall_forall in HL; apply HL; eapply nth_error_In; eauto).
  assert (Hvd : valid_dims s [c]) by (now constructor).
  assert (Hd : (d < length L)%nat) by (apply nth_error_Some; congruence).
  assert (Hv1 : valid (length L) (addone d ders)) by (apply valid_addone; [exact Hd | split; auto]).
  exists (dvalue dz s L (addone d ders) c). split.
  - change (upd ders d (nth d ders 0 + 1)) with (addone d ders).
    rewrite (evaluate_derivative_ok dz s L [c] (addone d ders)); auto; apply Hv1.
  - apply (derivable_local (fun v => dvalue dz s (setv L d v) ders c) _ _ _ (room x)).
    + now apply (room_pos dz).
    + intros v Hv. rewrite <- setv_du.
      rewrite (evaluate_derivative_ok dz s (setv L d v) [c] ders); auto.
      * eapply setv_wfL; eauto. now apply room_good.
      * now rewrite setv_length.
    + apply dvalue_derivable; auto. intros _. unfold Wval. rewrite order0_facs by auto.
      rewrite weight_function_dirs in HW by auto. exact HW.
Qed.

Lemma bspline_derivative_step : forall s us ders d kv u c, well_formed s -> is_bspline s -> in_domain s us ->
  length ders = length (degs_of s) -> Forall (fun m => 0 <= m) ders ->
  nth_error (knots_of s) d = Some kv -> nth_error us d = Some u -> ~ In u kv -> 0 <= c < ph_dim (sp_ph s) ->
  exists l, evaluate_derivative s us [c] (upd ders d (nth d ders 0 + 1)) = Ok [l] /\
    derivable_pt_lim (fun v => only_value (evaluate_derivative s (upd us d v) [c] ders)) u l.
Proof. intros. eapply derivative_step; eauto. Qed.

Lemma nurbs_derivative_step : forall s us ders d kv u c, well_formed s -> in_domain s us -> weight_function s us <> 0%R ->
  length ders = length (degs_of s) -> Forall (fun m => 0 <= m) ders ->
  nth_error (knots_of s) d = Some kv -> nth_error us d = Some u -> ~ In u kv -> 0 <= c < ph_dim (sp_ph s) ->
  exists l, evaluate_derivative s us [c] (upd ders d (nth d ders 0 + 1)) = Ok [l] /\
    derivable_pt_lim (fun v => only_value (evaluate_derivative s (upd us d v) [c] ders)) u l.
Proof. intros. eapply derivative_step; eauto. Qed.

Lemma weight_function_facts : forall s us, well_formed s -> in_domain s us ->
  (is_bspline s -> weight_function s us = 1%R) /\ (positive_weights s -> (0 < weight_function s us)%R).
Proof.
  intros s us Hwf Hu. split; intros H; [now apply weight_function_bspline | now apply weight_function_positive].
Qed.
End Thms.

(* ---- concrete cases ---- *)
From Verif Require Import SplineNew KnotVecThms BasisThms SpacesThms.
Definition ex_points : list (list R) :=
  [[0; 0]; [1; 2]; [3; 1]; [4; 0]; [0; 3]; [1; 5]; [3; 4]; [4; 3]]%R.
Definition ex_weights : list R := [1; 2; 1; 3; 1; 1; 2; 1]%R.

Lemma ex_good : Forall2 good_direction ex_knots ex_degs.
Proof.
  constructor; [|constructor; [|constructor]].
  - split; [lia|]. split; [split; [cbn; lia|]; intros [|[|[|j]]] Hj; try lia; cbn; auto|].
    split; [nondec|]. split; [sepsolve | cbn; lra].
  - split; [lia|]. split; [split; [cbn; lia|]; intros [|[|j]] Hj; try lia; cbn; auto|].
    split; [nondec|]. split; [sepsolve | cbn; lra].
Qed.

Lemma ex_spline (wts : option (list R)) : wts = None \/ wts = Some ex_weights \/ wts = Some (repeat 2%R 8) \/
    wts = Some (map (fun x => 3 * x)%R ex_weights) ->
  exists s, spline_new (F := Rops (fun x => x)) ex_knots ex_degs ex_points wts = Ok s /\ well_formed s /\
    ph_wts (sp_ph s) = wts /\ in_domain s [(1/2)%R; (1/4)%R] /\ valid_dims s [0; 1] /\
    knots_of s = ex_knots /\ degs_of s = ex_degs /\ ph_dim (sp_ph s) = 2 /\ ph_cps (sp_ph s) = concat ex_points /\
    npts_of s = [4; 2] /\ sp_ps s = mkps (fun x => x) ex_knots ex_degs.
Proof.
  intros Hw. destruct (spline_new_ok (fun x => x) ex_knots ex_degs ex_points wts 2 ex_good) as [H1 H2].
  - lia.
  - repeat constructor.
  - reflexivity.
  - reflexivity.
  - intros w E. destruct Hw as [Hw|[Hw|[Hw|Hw]]]; rewrite Hw in E; inversion E; subst; reflexivity.
  - eexists. split; [exact H1|]. split; [exact H2|]. split; [reflexivity|]. split; [|split; [|repeat split]].
    + constructor; [|constructor; [|constructor]]; cbn; lra.
    + constructor; [|constructor; [|constructor]]; cbn; lia.
Qed.

Lemma ex_eval : exists b n,
  spline_new (F := Rops (fun x => x)) ex_knots ex_degs ex_points None = Ok b /\
  spline_new (F := Rops (fun x => x)) ex_knots ex_degs ex_points (Some ex_weights) = Ok n /\
  well_formed b /\ is_bspline b /\ in_domain b [1/2; 1/4]%R /\ valid_dims b [0; 1] /\
  well_formed n /\ positive_weights n /\ in_domain n [1/2; 1/4]%R /\ valid_dims n [0; 1] /\
  ~ in_domain b [3; 1/4]%R.
Proof.
  destruct (ex_spline None) as (b & B1 & B2 & B3 & B4 & B5 & B6 & _); auto.
  destruct (ex_spline (Some ex_weights)) as (n & N1 & N2 & N3 & N4 & N5 & _); auto.
  exists b, n. repeat (split; [assumption|]). split.
  - exists ex_weights. split; auto. repeat constructor; lra.
  - repeat (split; [assumption|]). unfold in_domain. rewrite B6. intros C. inversion C as [|? ? ? ? C1 _]; subst. cbn in C1. lra.
Qed.

Lemma ex_affine : exists s s' : spline (Rops (fun x => x)),
  well_formed s /\ well_formed s' /\ sp_ps s' = sp_ps s /\ ph_wts (sp_ph s') = ph_wts (sp_ph s) /\
  in_domain s [1/2; 1/4]%R /\ weight_function s [1/2; 1/4]%R <> 0%R /\
  (forall idx c', In idx (all_indices (npts_of s)) -> 0 <= c' < ph_dim (sp_ph s') ->
     coordinate s' idx c' = (1 + lsum (fun c => IZR (c' + 2) * coordinate s idx c) (zseq 0 (Z.to_nat (ph_dim (sp_ph s)))))%R).
Proof.
  destruct (ex_spline (Some ex_weights)) as (n & N1 & N2 & N3 & N4 & N5 & N6 & N7 & N8 & N9 & N10 & N11); auto.
  destruct (spline_new_ok (fun x => x) ex_knots ex_degs
     (map (fun cp => [1 + 2 * (nth 0 cp 0 + nth 1 cp 0); 1 + 3 * (nth 0 cp 0 + nth 1 cp 0)]%R) ex_points) (Some ex_weights) 2 ex_good) as [H1 H2].
  - lia.
  - repeat constructor.
  - reflexivity.
  - reflexivity.
  - intros w E. inversion E; subst; reflexivity.
  - exists n. eexists. split; [exact N2|]. split; [exact H2|]. split; [now rewrite N11|]. split; [now rewrite N3|].
    split; [exact N4|]. split.
    + apply Rgt_not_eq. apply weight_function_positive; auto. exists ex_weights. split; auto. repeat constructor; lra.
    + intros idx c' Hi Hc. cbn [sp_ph ph_dim] in Hc. rewrite N8. cbn [Z.to_nat Pos.to_nat Pos.iter_op Nat.add zseq lsum].
      unfold coordinate. rewrite N8, N9, N10. cbn [sp_ph ph_dim ph_cps]. unfold npts_of. cbn [sp_ph ph_npts].
      rewrite N10 in Hi. apply all_indices_box in Hi. inversion Hi as [|? i ? idx' Hi1 Hi2]; subst. inversion Hi2 as [|? j ? idx'' Hj1 Hj2]; subst. inversion Hj2; subst.
      assert (Ei : i = 0 \/ i = 1 \/ i = 2 \/ i = 3) by lia. assert (Ej : j = 0 \/ j = 1) by lia.
      assert (Ec : c' = 0 \/ c' = 1) by lia.
      destruct Ei as [->|[->|[->| ->]]]; destruct Ej as [->| ->]; destruct Ec as [->| ->];
        cbv - [Rmult Rplus IZR]; try lra.
Qed.

Lemma ex_scaled : exists s s' b : spline (Rops (fun x => x)),
  well_formed s /\ well_formed s' /\ well_formed b /\ is_bspline b /\
  sp_ps s' = sp_ps s /\ sp_ps b = sp_ps s /\ ph_dim (sp_ph s') = ph_dim (sp_ph s) /\ ph_cps (sp_ph s') = ph_cps (sp_ph s) /\
  (exists w, ph_wts (sp_ph s) = Some w /\ ph_wts (sp_ph s') = Some (map (fun x => 3 * x)%R w)) /\
  in_domain s [1/2; 1/4]%R /\ valid_dims s [0; 1] /\ weight_function s [1/2; 1/4]%R <> 0%R.
Proof.
  destruct (ex_spline (Some ex_weights)) as (n & N1 & N2 & N3 & N4 & N5 & N6 & N7 & N8 & N9 & N10 & N11); auto.
  destruct (ex_spline (Some (map (fun x => 3 * x)%R ex_weights))) as (m & M1 & M2 & M3 & M4 & M5 & M6 & M7 & M8 & M9 & M10 & M11); auto.
  destruct (ex_spline None) as (b & B1 & B2 & B3 & B4 & B5 & B6 & B7 & B8 & B9 & B10 & B11); auto.
  exists n, m, b. do 4 (split; [assumption|]). split; [congruence|]. split; [congruence|]. split; [congruence|]. split; [congruence|].
  split; [exists ex_weights; auto|]. split; [assumption|]. split; [assumption|].
  apply Rgt_not_eq. apply weight_function_positive; auto. exists ex_weights. split; auto. repeat constructor; lra.
Qed.

Lemma ex_equal_weights : exists s b : spline (Rops (fun x => x)),
  well_formed s /\ well_formed b /\ is_bspline b /\ sp_ps b = sp_ps s /\
  ph_dim (sp_ph b) = ph_dim (sp_ph s) /\ ph_cps (sp_ph b) = ph_cps (sp_ph s) /\
  (exists w, ph_wts (sp_ph s) = Some w /\ Forall (fun x => x = 2%R) w) /\ in_domain s [1/2; 1/4]%R /\ valid_dims s [0; 1].
Proof.
  destruct (ex_spline (Some (repeat 2%R 8))) as (n & N1 & N2 & N3 & N4 & N5 & N6 & N7 & N8 & N9 & N10 & N11); auto.
  destruct (ex_spline None) as (b & B1 & B2 & B3 & B4 & B5 & B6 & B7 & B8 & B9 & B10 & B11); auto.
  exists n, b. do 3 (split; [assumption|]). do 3 (split; [congruence|]).
  split; [exists (repeat 2%R 8); split; auto; repeat constructor|]. auto.
Qed.

Lemma ex_corner : exists s : spline (Rops (fun x => x)), well_formed s /\
  Forall2 exact_ends (knots_of s) (degs_of s) /\ length [false; true] = length (knots_of s) /\ valid_dims s [0; 1] /\
  weight s (map2 end_index (npts_of s) [false; true]) <> 0%R /\
  map2 end_value (knots_of s) [false; true] = [0; 1]%R /\ map2 end_index (npts_of s) [false; true] = [0; 1].
Proof.
  destruct (ex_spline (Some ex_weights)) as (n & N1 & N2 & N3 & N4 & N5 & N6 & N7 & N8 & N9 & N10 & N11); auto.
  exists n. split; [assumption|]. unfold weight. rewrite N3, N6, N7, N10. split.
  { constructor; [|constructor; [|constructor]]; split; unfold first_knot, final_knot, knot; cbn [ex_knots ex_degs length]; change (Z.to_nat 2) with 2%nat; change (Z.to_nat 1) with 1%nat; cbn; lra. }
  split; [reflexivity|]. split; [assumption|]. split; [cbv - [IZR not]; lra|]. split; reflexivity.
Qed.

Lemma ex_deriv : exists s : spline (Rops (fun x => x)), well_formed s /\ in_domain s [1/2; 1/4]%R /\
  length [1; 2] = length (degs_of s) /\ nth_error (knots_of s) 0 = Some [0; 0; 0; 1; 2; 2; 2]%R /\
  ~ In (1/2)%R [0; 0; 0; 1; 2; 2; 2]%R /\ 0 <= 1 < ph_dim (sp_ph s) /\ weight_function s [1/2; 1/4]%R <> 0%R.
Proof.
  destruct (ex_spline (Some ex_weights)) as (n & N1 & N2 & N3 & N4 & N5 & N6 & N7 & N8 & N9 & N10 & N11); auto.
  exists n. split; [assumption|]. split; [assumption|]. rewrite N6, N7, N8. do 2 (split; [reflexivity|]).
  split; [cbn; lra|]. split; [lia|].
  apply Rgt_not_eq. apply weight_function_positive; auto. exists ex_weights. split; auto. repeat constructor; lra.
Qed.

(* more than p+1 equal knots at an end: the corner control point is not interpolated *)
From Coq Require Import Floats.
Lemma long_end_run :
  match spline_new (F := Fops) [[0; 0; 0; 1; 1]%float] [1] [[7]; [5]; [3]]%float None with
  | Ok s => match evaluate s [0%float] [0] with Ok [v] => PrimFloat.eqb v 5 | _ => false end
  | _ => false
  end = true.
Proof. vm_compute. reflexivity. Qed.

Lemma long_end : exists (s : spline Fops) (v : float),
  spline_new (F := Fops) [[0; 0; 0; 1; 1]%float] [1] [[7]; [5]; [3]]%float None = Ok s /\
  evaluate s [0%float] [0] = Ok [v] /\ PrimFloat.eqb v 5 = true.
Proof.
  pose proof long_end_run as H.
  destruct (spline_new (F := Fops) [[0; 0; 0; 1; 1]%float] [1] [[7]; [5]; [3]]%float None) as [s| |] eqn:E1; try discriminate H.
  match type of H with context [evaluate ?a ?b ?c] => destruct (evaluate a b c) as [[|v [|]]| |] eqn:E2 end; try discriminate H.
  exists s, v. auto.
Qed.
