(* EvaluateDerivative of a well-formed spline in real arithmetic. *)
From Coq Require Import ZArith List Bool Lia Reals Lra Permutation.
From Verif Require Import Base BaseFacts RSum MultiIndex MultiIndexSpec MultiIndexFacts TensorSum
  KnotVec KnotVecSpec KnotVecFacts Basis BasisSpec BSplineTheory BasisFacts
  Spaces SpacesSpec SpacesFacts SplineEval SplineSpec EvalFacts RationalDeriv.
Import ListNotations.
Open Scope Z_scope.

Definition setm (d : dir) (k : Z) : dir := mkDir (dk d) (dp d) (du d) (dsp d) k.
Definition setu (d : dir) (v : R) : dir := mkDir (dk d) (dp d) v (dsp d) (dm d).
Definition withm (L : list dir) (m : list Z) : list dir := map2 setm L m.

Lemma withm_length L m : length m = length L -> length (withm L m) = length L.
Proof. intros H. apply map2_length. auto. Qed.

Lemma withm_map {A} (f : dir -> A) L m : length m = length L -> (forall d k, f (setm d k) = f d) -> map f (withm L m) = map f L.
Proof.
  intros H Hf. unfold withm. revert m H; induction L as [|d L IH]; intros [|k m] H; try discriminate; cbn [map2 map]; auto.
  rewrite Hf, IH; auto.
Qed.
Lemma withm_dm L m : length m = length L -> map dm (withm L m) = m.
Proof.
  intros H. unfold withm. revert m H; induction L as [|d L IH]; intros [|k m] H; try discriminate; cbn [map2 map]; auto.
  rewrite IH; auto.
Qed.
Lemma withm_self L : withm L (map dm L) = L.
Proof. unfold withm. induction L as [|[a b c d e] L IH]; cbn [map map2]; auto. now rewrite IH. Qed.
Lemma withm_withm L m m' : length m = length L -> length m' = length L -> withm (withm L m) m' = withm L m'.
Proof.
  unfold withm. revert m m'; induction L as [|d L IH]; intros [|k m] [|k' m'] H H'; try discriminate; cbn [map2]; auto.
  rewrite IH; auto.
Qed.

Section Deriv.
Variable dz : R -> R.
Local Notation F := (Rops dz).
Local Notation dv := (ndiv (n := F)).

Lemma withm_good L m : Forall (good_dir dz) L -> nonneg_orders m -> length m = length L -> Forall (good_dir dz) (withm L m).
Proof.
  unfold withm, nonneg_orders. intros H. revert m; induction H as [|d L (H1 & H2 & H3 & H4 & H5) H IH]; intros [|k m] Hm Hl; try discriminate; cbn [map2]; constructor.
  - exact (conj H1 (conj H2 (conj H3 (conj H4 (Forall_inv Hm))))).
  - apply IH; [exact (Forall_inv_tail Hm) | now inversion Hl].
Qed.

Lemma withm_wfL s L m : wfL dz s L -> nonneg_orders m -> length m = length L -> wfL dz s (withm L m).
Proof.
  intros (H1 & H2 & H3 & H4) Hm Hl. split; [now apply withm_good|]. split.
  - rewrite H2. unfold psL. rewrite !withm_map; auto.
  - split; auto. rewrite H3. unfold lensL. rewrite withm_map; auto.
Qed.

Lemma withm_active L m idx : length m = length L -> active L idx -> active (withm L m) idx.
Proof.
  unfold active, withm. intros Hl H. revert m Hl; induction H as [|d i L idx Hi H IH]; intros [|k m] Hl; try discriminate; cbn [map2]; constructor; auto.
Qed.

(* basis value of the requested orders *)
Definition facs (L : list dir) (m : list Z) : list (Z -> R) := map dfactor (withm L m).
Definition Aval (s : spline F) (L : list dir) (idx m : list Z) : R := (prodf (facs L m) idx * weight s idx)%R.
Definition Wval (s : spline F) (L : list dir) (m : list Z) : R := tsum (facs L m) (map drange L) (weight s).

Lemma evaluated_deriv_weight_ok s L idx m : wfL dz s L -> active L idx -> nonneg_orders m -> length m = length L ->
  evaluated_deriv_weight s (map du L) m idx = Ok (Aval s L idx m).
Proof.
  intros HwfL Ha Hm Hl. pose proof (withm_wfL s L m HwfL Hm Hl) as (HL & Eps & En & Hd & Hcps & Hw).
  unfold evaluated_deriv_weight. rewrite Eps.
  replace (map du L) with (map du (withm L m)) by (now apply withm_map).
  rewrite <- (withm_dm L m Hl) at 3. rewrite basis_derivs_ok by (auto; now apply withm_active). cbn [bind].
  rewrite weight_ok; auto. rewrite En. apply (active_box dz); auto. now apply withm_active.
Qed.

Lemma deriv_weight_sum_val s L m : wfL dz s L -> nonneg_orders m -> length m = length L ->
  deriv_weight_sum s (map du L) m = Ok (Wval s L m).
Proof.
  intros HwfL Hm Hl. pose proof (deriv_weight_sum_ok dz s (withm L m) (withm_wfL s L m HwfL Hm Hl)) as E.
  rewrite (withm_map du), withm_dm in E by auto. rewrite E. unfold Wval, facs. now rewrite (withm_map drange) by auto.
Qed.

Lemma zeros_nonneg n : nonneg_orders (zeros n).
Proof. unfold nonneg_orders, zeros. apply Forall_forall. intros x Hx. apply repeat_spec in Hx. lia. Qed.
Lemma zeros_length n : length (zeros n) = n.
Proof. apply repeat_length. Qed.

Lemma withm_zeros L : Forall (fun d => dm d = 0) (withm L (zeros (length L))).
Proof. unfold withm, zeros. induction L as [|d L IH]; cbn [length repeat map2]; constructor; auto. Qed.

Lemma weight_sum_val s L : wfL dz s L -> weight_sum s (map du L) = Ok (Wval s L (zeros (length L))).
Proof.
  intros HwfL. pose proof (weight_sum_ok dz s (withm L (zeros (length L)))) as E.
  rewrite (withm_map du) in E by (auto; now rewrite zeros_length). rewrite E.
  - unfold Wval, facs. rewrite (withm_map drange) by (auto; now rewrite zeros_length). reflexivity.
  - apply withm_wfL; auto; [apply zeros_nonneg | apply zeros_length].
  - apply withm_zeros.
Qed.

(* the recursion of GetRationalBasisFunctionDerivative on reals *)
Fixpoint rr (fuel : nat) (n : nat) (a W : list Z -> R) (m : list Z) : R :=
  match fuel with
  | O => 0%R
  | S f => dv (a m - lsum (fun j => IZR (binoms m j) * rr f n a W (map2 Z.sub m j) * W j) (tl (orders m)))%R (W (zeros n))
  end.

Lemma rr_fuel n a W f f' m : nonneg_orders m -> osum m < Z.of_nat f -> osum m < Z.of_nat f' -> rr f n a W m = rr f' n a W m.
Proof.
  revert f' m; induction f as [|f IH]; intros [|f'] m Hm H1 H2.
  - reflexivity.
  - exfalso. assert (0 <= osum m); [|lia]. clear - Hm. unfold osum. induction Hm; cbn; lia.
  - exfalso. assert (0 <= osum m); [|lia]. clear - Hm. unfold osum. induction Hm; cbn; lia.
  - cbn [rr]. destruct (orders_tail m Hm) as (t & _ & Et & Ht). rewrite Et.
    rewrite (lsum_ext (fun j => (IZR (binoms m j) * rr f n a W (map2 Z.sub m j) * W j)%R)
                      (fun j => (IZR (binoms m j) * rr f' n a W (map2 Z.sub m j) * W j)%R)); auto.
    intros j Hj. destruct (Ht j Hj) as [Hb Hp]. destruct (osum_sub m j Hb) as (E1 & E2 & _).
    rewrite (IH f') by (auto; lia). reflexivity.
Qed.

Lemma zero_orders m : forallb (fun k => k =? 0) m = true -> m = zeros (length m).
Proof.
  induction m as [|k m IH]; cbn [forallb length]; intros H; auto.
  apply andb_true_iff in H as [H1 H2]. apply Z.eqb_eq in H1. subst. cbn. f_equal. auto.
Qed.

Lemma orders_zeros n : orders (zeros n) = [zeros n].
Proof.
  unfold orders, visited. assert (E : map (fun k => k + 1) (zeros n) = repeat 1 n).
  { unfold zeros. induction n; cbn; auto. now rewrite IHn. }
  rewrite E. assert (Et : total (repeat 1 n) = 1).
  { induction n; auto. cbn [repeat]. rewrite total_cons, IHn; auto. unfold zeros in *. cbn in E. congruence. }
  rewrite Et. change (Z.to_nat 1) with 1%nat. cbn [seq map]. f_equal. unfold nth_index. cbn.
  clear. unfold zeros. induction n; cbn; auto. now rewrite IHn.
Qed.

Lemma rational_value s L idx : wfL dz s L -> active L idx -> forall f m, nonneg_orders m -> length m = length L ->
  osum m < Z.of_nat f ->
  rational_deriv f s (map du L) m idx = Ok (rr f (length L) (Aval s L idx) (Wval s L) m).
Proof.
  intros HwfL Ha. induction f as [|f IH]; intros m Hm Hl Hs.
  { exfalso. assert (0 <= osum m); [|lia]. clear - Hm. unfold osum. induction Hm; cbn; lia. }
  cbn [rational_deriv rr]. destruct (forallb (fun k => k =? 0) m) eqn:Ez.
  - apply zero_orders in Ez. rewrite Hl in Ez. subst m. rewrite orders_zeros. cbn [tl lsum].
    pose proof (evaluated_deriv_weight_ok s L idx (zeros (length L)) HwfL Ha Hm Hl) as E1.
    pose proof HwfL as (HL & Eps & En & Hd & Hcps & Hw).
    assert (Eb : get_basis_functions (sp_ps s) idx (map du L) = get_basis_function_derivs (sp_ps s) idx (map du L) (zeros (length L))).
    { pose proof (withm_wfL s L _ HwfL Hm Hl) as (HL' & Eps' & _). rewrite Eps'.
      replace (map du L) with (map du (withm L (zeros (length L)))) by (now apply withm_map).
      rewrite <- (withm_dm L (zeros (length L)) Hl) at 5.
      rewrite basis_derivs_ok, basis_ok; auto; try (now apply withm_active). apply withm_zeros. }
    rewrite Eb. unfold evaluated_deriv_weight in E1.
    destruct (get_basis_function_derivs (sp_ps s) idx (map du L) (zeros (length L))) as [b| |]; try discriminate.
    cbn [bind] in *. destruct (get_weight (sp_ph s) idx) as [w| |]; try discriminate. cbn [bind] in *.
    rewrite weight_sum_val by auto. cbn [bind]. inversion E1 as [E2]. f_equal. apply (f_equal (fun x : R => ndiv (n := F) x (Wval s L (zeros (length L))))). rnorm. rewrite E2. now rewrite Rminus_0_r.
  - rewrite evaluated_deriv_weight_ok by auto. cbn [bind]. rewrite mih_loop_tail. fold (orders m). cbn [mcur].
    destruct (orders_tail m Hm) as (t & _ & Et & Ht). rewrite Et.
    pose proof (foldM_sum (I := list Z) (fun j => r <- rational_deriv f s (map du L) (difference_indices (mkMih (map (fun k => k + 1) m) j)) idx ;;
                              dw <- deriv_weight_sum s (map du L) j ;;
                              Ok (IZR (binoms m j) * r * dw)%R)
                (fun j => IZR (binoms m j) * rr f (length L) (Aval s L idx) (Wval s L) (map2 Z.sub m j) * Wval s L j)%R t 0%R) as E.
    assert (Hj : forall a, In a t -> (r <- rational_deriv f s (map du L) (difference_indices (mkMih (map (fun k => k + 1) m) a)) idx ;;
                              dw <- deriv_weight_sum s (map du L) a ;;
                              Ok (IZR (binoms m a) * r * dw)%R) =
              Ok (IZR (binoms m a) * rr f (length L) (Aval s L idx) (Wval s L) (map2 Z.sub m a) * Wval s L a)%R).
    { intros j Hj. destruct (Ht j Hj) as [Hb Hp]. destruct (osum_sub m j Hb) as (E1 & E2 & E3).
      assert (Ed : difference_indices (mkMih (map (fun k => k + 1) m) j) = map2 Z.sub m j).
      { unfold difference_indices. cbn [mlen mcur]. clear. revert j; induction m as [|k m IH]; intros [|i j]; cbn [map combine map2]; auto.
        rewrite IH. f_equal. cbn [fst snd]. lia. }
      rewrite Ed, IH by (auto; lia). cbn [bind]. rewrite deriv_weight_sum_val; auto.
      - clear - Hb. unfold nonneg_orders. induction Hb; constructor; auto. lia.
      - rewrite <- Hl. symmetry. eapply Forall2_len; eauto. }
    specialize (E Hj). clear Hj.
    match goal with |- bind ?X _ = _ => assert (EX : X = Ok (0 + lsum (fun j => IZR (binoms m j) * rr f (length L) (Aval s L idx) (Wval s L) (map2 Z.sub m j) * Wval s L j) t)%R) end.
    { rewrite <- E. clear E Et Ht. rnorm. generalize 0%R. induction t as [|j t IHt]; intros v; cbn [foldM]; auto.
      cbn [bind]. destruct (rational_deriv f s (map du L) _ idx); cbn [bind]; auto.
      destruct (deriv_weight_sum s (map du L) j); cbn [bind]; auto. }
    rewrite EX. cbn [bind]. rewrite weight_sum_val by auto. cbn [bind]. f_equal. cbn [nsub Rops]. rewrite Rplus_0_l. reflexivity.
Qed.

Definition rval (s : spline F) (L : list dir) (idx m : list Z) : R :=
  rr (S (Z.to_nat (osum m))) (length L) (Aval s L idx) (Wval s L) m.

Lemma osum_nonneg m : nonneg_orders m -> 0 <= osum m.
Proof. unfold osum. induction 1; cbn; lia. Qed.

(* the identity the recursion solves *)
Lemma rval_identity s L idx m : Wval s L (zeros (length L)) <> 0%R -> nonneg_orders m -> length m = length L ->
  Aval s L idx m = lsum (fun j => IZR (binoms m j) * (rval s L idx (map2 Z.sub m j) * Wval s L j))%R (orders m).
Proof.
  intros HW Hm Hl. destruct (orders_tail m Hm) as (t & Et & Et' & Ht). rewrite Et. cbn [lsum].
  rewrite binoms_origin, sub_origin. rewrite (origin_zeros (length L) m Hl).
  unfold rval at 1. cbn [rr]. rewrite ndiv_R by auto. rewrite Et'.
  assert (E : lsum (fun j => IZR (binoms m j) * rr (Z.to_nat (osum m)) (length L) (Aval s L idx) (Wval s L) (map2 Z.sub m j) * Wval s L j)%R t =
              lsum (fun j => IZR (binoms m j) * (rval s L idx (map2 Z.sub m j) * Wval s L j))%R t).
  { apply lsum_ext. intros j Hj. destruct (Ht j Hj) as [Hb Hp]. destruct (osum_sub m j Hb) as (E1 & E2 & _).
    pose proof (osum_nonneg _ E2). pose proof (osum_nonneg m Hm).
    unfold rval. rewrite (rr_fuel _ _ _ (Z.to_nat (osum m)) (S (Z.to_nat (osum (map2 Z.sub m j))))) by (auto; lia). ring. }
  rewrite E. field. auto.
Qed.

(* ---- EvaluateDerivative ---- *)
Definition Eidx (L : list dir) (cur : list Z) : list Z := map2 Z.add cur (map (fun d => dsp d - dp d) L).
Definition Evis (L : list dir) : list (list Z) := visited (map (fun q => q + 1) (map dp L)).

Definition dvalue (s : spline F) (L : list dir) (m : list Z) (c : Z) : R :=
  match ph_wts (sp_ph s) with
  | None => tsum (facs L m) (map drange L) (fun idx => coordinate s idx c)
  | Some _ => lsum (fun cur => rval s L (Eidx L cur) m * coordinate s (Eidx L cur) c)%R (Evis L)
  end.

Lemma evaluate_derivative_ok s L dims m : wfL dz s L -> nonneg_orders m -> length m = length L -> valid_dims s dims ->
  evaluate_derivative s (map du L) dims m = Ok (map (dvalue s L m) dims).
Proof.
  intros HwfL Hm Hl Hv. pose proof HwfL as (HL & Eps & En & Hd & Hcps & Hw).
  unfold evaluate_derivative. rewrite Eps, throw_ok by auto. cbn [bind].
  rewrite first_non_zero_ok by auto. cbn [bind].
  rewrite mih_loop_visited. cbn [mcur]. unfold num_to_evaluate. rewrite Eps. cbn [psL mkps ps_degs].
  rnorm. rewrite (point_loop (fun cur c => evaluated_deriv_control_point s (map du L) m (Eidx L cur) c)
                      (fun cur c => match ph_wts (sp_ph s) with
                         | None => (prodf (facs L m) (Eidx L cur) * coordinate s (Eidx L cur) c)%R
                         | Some _ => (rval s L (Eidx L cur) m * coordinate s (Eidx L cur) c)%R end)).
  - f_equal. rewrite map2_repeat_0. apply map_ext. intros c. unfold dvalue.
    destruct (ph_wts (sp_ph s)); [reflexivity|].
    pose proof (visited_sum dz (withm L m) (fun idx => coordinate s idx c) (withm_good L m HL Hm Hl)) as E.
    rewrite (withm_map drange), (withm_map dp), (withm_map (fun d => dsp d - dp d)) in E by auto. exact E.
  - now rewrite repeat_length.
  - intros cur c Hc Hin. pose proof (visited_active dz L cur HL Hc) as Ha. fold (Eidx L cur) in Ha.
    assert (Hb : in_box (npts_of s) (Eidx L cur)) by (rewrite En; apply (active_box dz); auto).
    assert (Hc' : 0 <= c < ph_dim (sp_ph s)) by (unfold valid_dims in Hv; rewrite Forall_forall in Hv; auto).
    unfold evaluated_deriv_control_point. destruct (ph_wts (sp_ph s)) eqn:Ewt.
    + fold (osum m). rewrite (rational_value s L (Eidx L cur) HwfL Ha) by (auto; pose proof (osum_nonneg m Hm); lia).
      cbn [bind]. rewrite cp_value_ok by auto. reflexivity.
    + pose proof (withm_wfL s L m HwfL Hm Hl) as (HL' & Eps' & _). rewrite Eps'.
      replace (map du L) with (map du (withm L m)) by (now apply withm_map).
      rewrite <- (withm_dm L m Hl) at 3. rewrite basis_derivs_ok by (auto; now apply withm_active). cbn [bind].
      rewrite cp_value_ok by auto. reflexivity.
Qed.

(* ---- differentiation in one direction ---- *)
Definition setv (L : list dir) (d : nat) (v : R) : list dir :=
  match nth_error L d with Some x => upd L d (setu x v) | None => L end.

Lemma upd_map2_l {A B C} (f : A -> B -> C) l1 l2 d a b0 : length l1 = length l2 -> (d < length l1)%nat ->
  map2 f (upd l1 d a) l2 = upd (map2 f l1 l2) d (f a (nth d l2 b0)).
Proof.
  revert l2 d; induction l1 as [|x l1 IH]; intros [|y l2] [|d] H Hd; cbn in *; try lia; auto.
  f_equal. apply IH; lia.
Qed.
Lemma upd_map2_r {A B C} (f : A -> B -> C) l1 l2 d b a0 : length l1 = length l2 -> (d < length l1)%nat ->
  map2 f l1 (upd l2 d b) = upd (map2 f l1 l2) d (f (nth d l1 a0) b).
Proof.
  revert l2 d; induction l1 as [|x l1 IH]; intros [|y l2] [|d] H Hd; cbn in *; try lia; auto.
  f_equal. apply IH; lia.
Qed.

Lemma upd_self {A} (l : list A) d a : nth_error l d = Some a -> upd l d a = l.
Proof. revert d; induction l as [|x l IH]; intros [|d] H; cbn in *; try discriminate; [congruence|]. now rewrite IH. Qed.

Definition dfun (x : dir) (k : Z) (v : R) (i : Z) : R := DB (tk (dk x)) (dsp x) (Z.to_nat k) (Z.to_nat (dp x)) i v.

Lemma facs_setv L d x v m : nth_error L d = Some x -> length m = length L ->
  facs (setv L d v) m = upd (facs L m) d (dfun x (nth d m 0) v).
Proof.
  intros Hx Hl. unfold facs, setv, withm. rewrite Hx.
  assert (d < length L)%nat by (apply nth_error_Some; congruence).
  rewrite (upd_map2_l setm L m d (setu x v) 0) by auto. rewrite map_upd. reflexivity.
Qed.

Lemma facs_addone L d x m : nth_error L d = Some x -> length m = length L ->
  facs L (addone d m) = upd (facs L m) d (dfun x (nth d m 0 + 1) (du x)).
Proof.
  intros Hx Hl. unfold facs, withm, addone.
  assert (d < length L)%nat by (apply nth_error_Some; congruence).
  rewrite (upd_map2_r setm L m d _ x) by auto. rewrite map_upd. rewrite (nth_error_nth _ _ x Hx). reflexivity.
Qed.

Lemma prodf_isolate fs idx d : length fs = length idx -> (d < length fs)%nat ->
  prodf fs idx = (nth d fs (fun _ => 0%R) (nth d idx 0%Z) * prodf (remove_at d fs) (remove_at d idx))%R.
Proof.
  revert idx d; induction fs as [|f fs IH]; intros [|i idx] [|d] H Hd; cbn [length] in *; try lia; cbn [prodf nth remove_at]; auto.
  rewrite (IH idx d) by lia. ring.
Qed.

Lemma prodf_derivable fs idx d (g : R -> Z -> R) g' u : length fs = length idx -> (d < length fs)%nat ->
  (forall i, derivable_pt_lim (fun v => g v i) u (g' i)) ->
  derivable_pt_lim (fun v => prodf (upd fs d (g v)) idx) u (prodf (upd fs d g') idx).
Proof.
  intros Hl Hd Hg. rewrite (prodf_isolate (upd fs d g') idx d) by (rewrite ?upd_length; auto).
  apply (derivable_local (fun v => prodf (remove_at d fs) (remove_at d idx) * g v (nth d idx 0%Z))%R _ _ _ 1 Rlt_0_1).
  - intros v _. rewrite (prodf_isolate (upd fs d (g v)) idx d) by (rewrite ?upd_length; auto).
    rewrite nth_upd_same by auto. rewrite remove_at_upd. ring.
  - rewrite nth_upd_same by auto. rewrite remove_at_upd. rewrite Rmult_comm. apply derivable_scal_l. apply Hg.
Qed.

Lemma tsum_derivable fs ls c d (g : R -> Z -> R) g' u : length fs = length ls -> (d < length fs)%nat ->
  (forall i, derivable_pt_lim (fun v => g v i) u (g' i)) ->
  derivable_pt_lim (fun v => tsum (upd fs d (g v)) ls c) u (tsum (upd fs d g') ls c).
Proof.
  intros Hl Hd Hg. rewrite (tsum_isolate (upd fs d g') ls c d) by (rewrite ?upd_length; auto).
  eapply (derivable_local _ _ _ _ 1 Rlt_0_1).
  - intros v _. symmetry. apply (tsum_isolate (upd fs d (g v)) ls c d); rewrite ?upd_length; auto.
  - rewrite remove_at_upd, nth_upd_same by auto.
    apply (lsum_derivable (fun i v => nth d (upd fs d (g v)) (fun _ => 0%R) i * tsum (remove_at d (upd fs d (g v))) (remove_at d ls) (fun r => c (firstn d r ++ i :: skipn d r)))%R).
    intros i _. rewrite Rmult_comm.
    apply (derivable_local (fun v => tsum (remove_at d fs) (remove_at d ls) (fun r => c (firstn d r ++ i :: skipn d r)) * g v i)%R _ _ _ 1 Rlt_0_1).
    + intros v _. rewrite remove_at_upd, nth_upd_same by auto. ring.
    + apply derivable_scal_l. apply Hg.
Qed.

Lemma setv_map {A} (f : dir -> A) L d v : (forall x, f (setu x v) = f x) -> map f (setv L d v) = map f L.
Proof.
  intros Hf. unfold setv. destruct (nth_error L d) as [x|] eqn:E; auto. rewrite map_upd, Hf.
  apply upd_self. now rewrite nth_error_map, E.
Qed.
Lemma setv_du L d v : map du (setv L d v) = upd (map du L) d v.
Proof.
  unfold setv. destruct (nth_error L d) as [x|] eqn:E; [now rewrite map_upd|].
  apply nth_error_None in E. symmetry. clear - E. revert L E; induction d as [|d IH]; intros [|x L] E; cbn in *; auto; try lia.
  f_equal. apply IH. lia.
Qed.
Lemma setv_length L d v : length (setv L d v) = length L.
Proof. unfold setv. destruct (nth_error L d); auto. apply upd_length. Qed.

Lemma setv_self L d x : nth_error L d = Some x -> setv L d (du x) = L.
Proof. intros H. unfold setv. rewrite H. apply upd_self. rewrite H. destruct x; reflexivity. Qed.

Lemma setv_wfL s L d x v : wfL dz s L -> nth_error L d = Some x -> good_dir dz (setu x v) -> wfL dz s (setv L d v).
Proof.
  intros (H1 & H2 & H3 & H4) Hx Hg. split.
  - unfold setv. rewrite Hx. clear - H1 Hg. revert d; induction H1 as [|a l Ha H IH]; intros [|d]; cbn; constructor; auto.
  - unfold psL, lensL. rewrite !setv_map by auto. auto.
Qed.

(* the span does not change near a parameter that is not a knot *)
Definition room (x : dir) : R := Rmin (du x - tk (dk x) (dsp x)) (tk (dk x) (dsp x + 1) - du x).

Lemma room_pos x : good_dir dz x -> ~ In (du x) (dk x) -> (0 < room x)%R.
Proof.
  intros (Hg & (A1 & A2 & A3 & A4 & A5) & _) Hni. unfold room.
  assert (Hin : forall j, 0 <= j < zlen (dk x) -> In (tk (dk x) j) (dk x)).
  { intros j Hj. rewrite tk_knot' by auto. unfold knot. apply nth_In. zl. }
  apply Rmin_pos.
  - destruct (Req_EM_T (du x) (tk (dk x) (dsp x))) as [E|E]; [|lra]. exfalso. apply Hni. rewrite E. apply Hin. lia.
  - destruct A5 as [A5|[A5 _]]; [lra|]. exfalso. apply Hni. rewrite A5. apply Hin. lia.
Qed.

Lemma room_good x v : good_dir dz x -> (Rabs (v - du x) < room x)%R -> good_dir dz (setu x v).
Proof.
  intros (Hg & (A1 & A2 & A3 & A4 & A5) & Hk & E & Hm) Hv. unfold room in Hv.
  assert (Hv1 : (tk (dk x) (dsp x) < v)%R).
  { pose proof (Rmin_l (du x - tk (dk x) (dsp x)) (tk (dk x) (dsp x + 1) - du x)). 
    apply Rabs_def2 in Hv. lra. }
  assert (Hv2 : (v < tk (dk x) (dsp x + 1))%R).
  { pose proof (Rmin_r (du x - tk (dk x) (dsp x)) (tk (dk x) (dsp x + 1) - du x)). 
    apply Rabs_def2 in Hv. lra. }
  assert (Hsp : in_span (dk x) (dsp x) v) by (repeat split; auto; lra).
  pose proof Hg as (Hp & Hc & Hn & Hs & Hlt).
  pose proof (tk_ge_first (dk x) (dsp x) Hn). pose proof (tk_le_final (dk x) (dsp x + 1) Hn).
  destruct (eval_direction dz (dk x) (dp x) v Hg ltac:(lra)) as (k & Ek & Hspk & _).
  pose proof (in_span_unique _ _ _ _ Hn Hsp Hspk). subst k.
  exact (conj Hg (conj Hsp (conj Hk (conj Ek Hm)))).
Qed.

Lemma dfun_derivable x k u : good_dir dz x -> 0 <= k -> forall i,
  derivable_pt_lim (fun v => dfun x k v i) u (dfun x (k + 1) u i).
Proof.
  intros (Hg & (A1 & A2 & A3 & A4 & A5) & _) Hk i. unfold dfun.
  replace (Z.to_nat (k + 1)) with (S (Z.to_nat k)) by lia.
  apply DB_derivable; auto. apply tk_monotone. apply Hg.
Qed.

Lemma facs_length L m : length m = length L -> length (facs L m) = length L.
Proof. intros H. unfold facs. rewrite map_length. now apply withm_length. Qed.

Lemma setv_active L d v idx : active L idx -> active (setv L d v) idx.
Proof.
  unfold setv. destruct (nth_error L d) as [x|] eqn:E; auto. unfold active. intros H. revert d E.
  induction H as [|a i L idx Hi H IH]; intros [|d] E; cbn in *; try discriminate; constructor; auto.
  inversion E; subst. exact Hi.
Qed.

Lemma nth_orders m d : nonneg_orders m -> 0 <= nth d m 0.
Proof.
  intros H. destruct (Nat.lt_ge_cases d (length m)); [|rewrite nth_overflow by auto; lia].
  unfold nonneg_orders in H. rewrite Forall_forall in H. apply H. now apply nth_In.
Qed.

Lemma facs_setv_addone L d x v m : nth_error L d = Some x -> length m = length L ->
  facs (setv L d v) (addone d m) = upd (facs L m) d (dfun x (nth d m 0 + 1) v).
Proof.
  intros Hx Hl. rewrite (facs_addone (setv L d v) d (setu x v) m).
  - rewrite (facs_setv L d x v m) by auto. cbn [du setu].
    change (dfun (setu x v)) with (dfun x). generalize (facs L m) (dfun x (nth d m 0) v) (dfun x (nth d m 0 + 1) v). clear. intros fs f1 f2. revert fs. induction d as [|d IH]; intros [|f l]; cbn; auto. now rewrite IH.
  - unfold setv. rewrite Hx. clear - Hx. revert d Hx; induction L as [|y L IH]; intros [|d] Hx; cbn in *; try discriminate; auto.
  - now rewrite setv_length.
Qed.

Lemma Wval_derivable_at s L d x v0 m : Forall (good_dir dz) L -> nth_error L d = Some x -> nonneg_orders m -> length m = length L ->
  derivable_pt_lim (fun v => Wval s (setv L d v) m) v0 (Wval s (setv L d v0) (addone d m)).
Proof.
  intros HL Hx Hm Hl. assert (Hd : (d < length L)%nat) by (apply nth_error_Some; congruence).
  assert (Hgx : good_dir dz x) by (rewrite Forall_forall in HL; apply HL; eapply nth_error_In; eauto).
  unfold Wval. rewrite (facs_setv_addone L d x v0 m) by auto. rewrite (setv_map drange) by reflexivity.
  eapply (derivable_local _ _ _ _ 1 Rlt_0_1).
  - intros v _. rewrite (facs_setv L d x v m) by auto. rewrite (setv_map drange) by reflexivity. reflexivity.
  - apply (tsum_derivable (facs L m) (map drange L) (weight s) d (dfun x (nth d m 0)) (dfun x (nth d m 0 + 1) v0)).
    + rewrite facs_length, map_length; auto.
    + rewrite facs_length; auto.
    + apply dfun_derivable; auto. now apply nth_orders.
Qed.

Lemma Aval_derivable_at s L d x v0 idx m : Forall (good_dir dz) L -> nth_error L d = Some x -> nonneg_orders m -> length m = length L ->
  length idx = length L ->
  derivable_pt_lim (fun v => Aval s (setv L d v) idx m) v0 (Aval s (setv L d v0) idx (addone d m)).
Proof.
  intros HL Hx Hm Hl Hi. assert (Hd : (d < length L)%nat) by (apply nth_error_Some; congruence).
  assert (Hgx : good_dir dz x) by (rewrite Forall_forall in HL; apply HL; eapply nth_error_In; eauto).
  unfold Aval. rewrite (facs_setv_addone L d x v0 m) by auto.
  apply (derivable_local (fun v => weight s idx * prodf (upd (facs L m) d (dfun x (nth d m 0%Z) v)) idx)%R _ _ _ 1 Rlt_0_1).
  - intros v _. rewrite (facs_setv L d x v m) by auto. ring.
  - rewrite Rmult_comm. apply derivable_scal_l. apply prodf_derivable.
    + rewrite facs_length; auto.
    + rewrite facs_length; auto.
    + apply dfun_derivable; auto. now apply nth_orders.
Qed.

Lemma Wval_derivable s L d x m : Forall (good_dir dz) L -> nth_error L d = Some x -> nonneg_orders m -> length m = length L ->
  derivable_pt_lim (fun v => Wval s (setv L d v) m) (du x) (Wval s L (addone d m)).
Proof.
  intros HL Hx Hm Hl. pose proof (Wval_derivable_at s L d x (du x) m HL Hx Hm Hl) as H.
  rewrite (setv_self L d x Hx) in H. auto.
Qed.

Lemma Aval_derivable s L d x idx m : Forall (good_dir dz) L -> nth_error L d = Some x -> nonneg_orders m -> length m = length L ->
  length idx = length L ->
  derivable_pt_lim (fun v => Aval s (setv L d v) idx m) (du x) (Aval s L idx (addone d m)).
Proof.
  intros HL Hx Hm Hl Hi. pose proof (Aval_derivable_at s L d x (du x) idx m HL Hx Hm Hl Hi) as H.
  rewrite (setv_self L d x Hx) in H. auto.
Qed.

(* a function with a derivative stays away from zero near a point where it is not zero *)
Lemma nonzero_near (f : R -> R) u l : derivable_pt_lim f u l -> f u <> 0%R ->
  exists e, (0 < e)%R /\ forall v, (Rabs (v - u) < e)%R -> f v <> 0%R.
Proof.
  intros Hd Hn. assert (Hc : continuity_pt f u).
  { apply derivable_continuous_pt. exists l. exact Hd. }
  destruct (Hc (Rabs (f u)) (Rabs_pos_lt _ Hn)) as (e & He & H). exists e. split; auto.
  intros v Hv C. destruct (Req_EM_T v u) as [->|Hne]; [contradiction|].
  specialize (H v). unfold Rlimit.dist in H. cbn in H. unfold R_dist in H.
  assert (X : (Rabs (f v - f u) < Rabs (f u))%R).
  { apply H. split; auto. split; [exact I | intros C'; apply Hne; congruence]. }
  rewrite C, Rminus_0_l, Rabs_Ropp in X. lra.
Qed.

(* the polynomial of the span of L has its derivative at every real number *)
Theorem dvalue_derivable_at s L d x v0 m c : wfL dz s L -> nth_error L d = Some x ->
  nonneg_orders m -> length m = length L ->
  (ph_wts (sp_ph s) <> None -> Wval s (setv L d v0) (zeros (length L)) <> 0%R) ->
  derivable_pt_lim (fun v => dvalue s (setv L d v) m c) v0 (dvalue s (setv L d v0) (addone d m) c).
Proof.
  intros HwfL Hx Hm Hl HW. assert (Hd : (d < length L)%nat) by (apply nth_error_Some; congruence).
  pose proof HwfL as (HL & _).
  assert (Hgx : good_dir dz x) by (rewrite Forall_forall in HL; apply HL; eapply nth_error_In; eauto).
  unfold dvalue. destruct (ph_wts (sp_ph s)) as [w|].
  - specialize (HW ltac:(discriminate)).
    pose proof (Wval_derivable_at s L d x v0 (zeros (length L)) HL Hx (zeros_nonneg _) (zeros_length _)) as HdW.
    destruct (nonzero_near _ _ _ HdW) as (e & He & Hne); [exact HW|].
    pose proof (lsum_derivable (fun cur v => rval s (setv L d v) (Eidx L cur) m * coordinate s (Eidx L cur) c)%R
                  (fun cur => rval s (setv L d v0) (Eidx L cur) (addone d m) * coordinate s (Eidx L cur) c)%R (Evis L) v0) as G.
    assert (Hcur : forall cur, In cur (Evis L) ->
       derivable_pt_lim (fun v => rval s (setv L d v) (Eidx L cur) m * coordinate s (Eidx L cur) c)%R v0
                        (rval s (setv L d v0) (Eidx L cur) (addone d m) * coordinate s (Eidx L cur) c)%R).
    { intros cur Hcur. pose proof (visited_active dz L cur HL Hcur) as Ha. fold (Eidx L cur) in Ha.
      set (idx := Eidx L cur) in *.
      assert (Hidx : length idx = length L) by (symmetry; eapply Forall2_len; exact Ha).
      rewrite Rmult_comm.
      apply (derivable_local (fun v => coordinate s idx c * rval s (setv L d v) idx m)%R _ _ _ 1 Rlt_0_1); [intros; ring|].
      apply derivable_scal_l.
      pose proof (quotient_derivable (length L) d v0 e Hd He
        (fun m v => Aval s (setv L d v) idx m) (fun m v => Wval s (setv L d v) m) (fun m v => rval s (setv L d v) idx m)) as Q.
      cbv beta in Q. apply Q.
      - intros m' [H1 H2]. apply (Aval_derivable_at s L d x); auto.
      - intros m' [H1 H2]. apply (Wval_derivable_at s L d x); auto.
      - exact Hne.
      - intros v m' Hv [H1 H2]. apply rval_identity; rewrite ?setv_length; auto.
      - split; auto. }
    specialize (G Hcur).
    unfold Evis, Eidx in G |- *. rewrite (setv_map dp), (setv_map (fun d => dsp d - dp d)) by reflexivity.
    eapply (derivable_local _ _ _ _ 1 Rlt_0_1); [|exact G].
    intros v _. rewrite (setv_map dp), (setv_map (fun d => dsp d - dp d)) by reflexivity. reflexivity.
  - rewrite (facs_setv_addone L d x v0 m) by auto. rewrite (setv_map drange) by reflexivity.
    eapply (derivable_local _ _ _ _ 1 Rlt_0_1).
    + intros v _. rewrite (facs_setv L d x v m) by auto. rewrite (setv_map drange) by reflexivity. reflexivity.
    + apply (tsum_derivable (facs L m) (map drange L) (fun idx => coordinate s idx c) d (dfun x (nth d m 0)) (dfun x (nth d m 0 + 1) v0)).
      * rewrite facs_length, map_length; auto.
      * rewrite facs_length; auto.
      * apply dfun_derivable; auto. now apply nth_orders.
Qed.

Theorem dvalue_derivable s L d x m c : wfL dz s L -> nth_error L d = Some x ->
  nonneg_orders m -> length m = length L ->
  (ph_wts (sp_ph s) <> None -> Wval s L (zeros (length L)) <> 0%R) ->
  derivable_pt_lim (fun v => dvalue s (setv L d v) m c) (du x) (dvalue s L (addone d m) c).
Proof.
  intros HwfL Hx Hm Hl HW. pose proof (dvalue_derivable_at s L d x (du x) m c HwfL Hx Hm Hl) as H.
  rewrite (setv_self L d x Hx) in H. auto.
Qed.
End Deriv.
