(* Lemmas about random splines (C59). *)
From Coq Require Import ZArith Ascii String List Bool Reals Lra Lia.
From Verif Require Import Base BaseFacts RSum MultiIndex MultiIndexSpec MultiIndexFacts KnotVecSpec KnotVecFacts BasisSpec
  Spaces SpacesSpec SpacesFacts SplineEval SplineSpec SplineNew StrOps Format Random RandomSpec.
Import ListNotations.
Open Scope Z_scope.

Section Draws.
Context {A B : Type} (f : A -> Z -> Res (B * Z)) (P : A -> B -> Prop).
Lemma draws_ok l i : (forall a k, In a l -> exists b k', f a k = Ok (b, k') /\ P a b) -> exists bs k, draws f l i = Ok (bs, k) /\ Forall2 P l bs.
Proof.
  revert i. induction l as [|a l IH]; intros i H; cbn [draws]; [exists [], i; split; [reflexivity|constructor]|].
  destruct (H a i (or_introl eq_refl)) as (b & k & E & Hb). destruct (IH k) as (bs & k' & E' & Hbs); [intros; apply H; now right|].
  rewrite E. cbn [bind fst snd]. rewrite E'. exists (b :: bs), k'. split; [reflexivity|now constructor].
Qed.
End Draws.
Lemma Forall2_const {A B} (P : B -> Prop) (l : list A) (bs : list B) : Forall2 (fun _ b => P b) l bs -> Forall P bs /\ length bs = length l.
Proof. induction 1 as [|a b l bs H _ (I1 & I2)]; [split; [constructor|reflexivity]|]. split; [now constructor|cbn; lia]. Qed.

Section Random.
Context {dz : R -> R} (trunc : R -> Z) (pick : Z -> Z -> Z) (Ht : truncates trunc) (Hpick : within_limits pick).
Local Notation F := (Rops dz).

Lemma trunc_exact z : trunc (IZR z) = z.
Proof.
  destruct (Ht (IZR z)) as (H1 & H2). destruct (Z.le_ge_cases 0 z) as [H|H].
  - specialize (H1 (IZR_le _ _ H)). rewrite <- plus_IZR in H1. destruct H1 as (H1 & H3). apply le_IZR in H1. apply lt_IZR in H3. lia.
  - specialize (H2 (IZR_le _ _ H)). rewrite <- minus_IZR in H2. destruct H2 as (H2 & H3). apply le_IZR in H3. apply lt_IZR in H2. lia.
Qed.
Lemma to_int_exact z : - 2 ^ 31 <= z < 2 ^ 31 -> to_int (F := F) trunc (IZR z) = Ok z.
Proof. intros H. unfold to_int. rewrite trunc_exact. destruct (Z.leb_spec (- 2 ^ 31) z); destruct (Z.ltb_spec z (2 ^ 31)); cbn [andb]; auto; lia. Qed.

Lemma binomial_ok (low high step : R) n i : (0 < step)%R -> (IZR n * step = high - low)%R -> 0 <= n < 2 ^ 31 ->
  exists k, binomial (F := F) trunc pick low high step i = Ok ((IZR k * step + low)%R, i + 1) /\ 0 <= k <= n.
Proof.
  intros Hs Hn Hb. unfold binomial.
  assert (E : ndiv (n := F) (nsub (n := F) high low) step = IZR n).
  { rewrite (ndiv_R dz) by lra. rnorm. rewrite <- Hn. field. lra. }
  rewrite E, to_int_exact by lia. cbn [bind]. destruct (Z.ltb_spec n 0) as [C|_]; [lia|].
  exists (pick i n). split; [reflexivity|]. apply Hpick. lia.
Qed.

Lemma binomial_int_ok a b i : a <= b -> - 2 ^ 30 <= a -> b < 2 ^ 30 ->
  exists z, binomial_int (F := F) trunc pick (IZR a) (IZR b) (IZR 1) i = Ok (z, i + 1) /\ a <= z <= b.
Proof.
  intros Hab Ha Hb. unfold binomial_int. change (2 ^ 30) with 1073741824 in *.
  destruct (binomial_ok (IZR a) (IZR b) (IZR 1) (b - a) i) as (k & E & Hk); [lra|rewrite minus_IZR; lra|lia|].
  rewrite E. cbn [bind fst snd]. replace (IZR k * IZR 1 + IZR a)%R with (IZR (k + a)) by (rewrite plus_IZR; lra).
  rewrite to_int_exact by lia. exists (k + a). split; [reflexivity|lia].
Qed.

Lemma degrees_ok dim m i : 1 <= m < 2 ^ 28 -> exists degs k, random_degrees (F := F) trunc pick dim m i = Ok (degs, k) /\
  length degs = dim /\ Forall (fun p => 1 <= p <= m) degs.
Proof.
  intros Hm. unfold random_degrees. change (2 ^ 28) with 268435456 in Hm.
  destruct (draws_ok (fun _ => binomial_int (F := F) trunc pick (IZR 1) (IZR m) (IZR 1)) (fun (_ : nat) p => 1 <= p <= m) (seq 0 dim) i) as (degs & k & E & H).
  { intros _ k _. destruct (binomial_int_ok 1 m k) as (z & E & Hz); try lia. eauto. }
  apply Forall2_const in H. destruct H as (H1 & H2). rewrite seq_length in H2. exists degs, k. split; [exact E|]. split; auto.
Qed.

Lemma numbers_ok degs i : Forall (fun p => 1 <= p < 2 ^ 28) degs -> exists ns k, random_numbers (F := F) trunc pick degs i = Ok (ns, k) /\
  Forall2 (fun p n => 2 * p + 2 <= n <= 4 * p) degs ns.
Proof.
  intros Hm. unfold random_numbers. apply draws_ok. intros p k Hp. rewrite Forall_forall in Hm. specialize (Hm p Hp). change (2 ^ 28) with 268435456 in Hm.
  destruct (binomial_int_ok (2 * p + 2) (4 * p) k) as (z & E & Hz); try lia. eauto.
Qed.

(* ---- the knots ---- *)
Lemma limit_length low high p n : 0 <= p -> 2 * p + 2 <= n -> zlen (A := R) (limit_knots (F := F) low high p n) = n.
Proof. intros Hp Hn. unfold limit_knots, zlen. rewrite !app_length, !repeat_length, map_length, zseq_length. lia. Qed.

Lemma limit_uniform low high p n : 0 <= p -> 2 * p + 2 <= n <= Z.max (2 * p + 2) (4 * p) -> uniform_between low high p (limit_knots (F := F) low high p n).
Proof.
  intros Hp Hn. pose proof (limit_length low high p n Hp ltac:(lia)) as L. split; [rewrite L; lia|]. rewrite L. intros j Hj.
  assert (Hj' : Z.of_nat j < n) by (unfold zlen in L; lia).
  assert (Hm : IZR (n - 2 * p - 1) <> 0%R) by (apply not_0_IZR; lia).
  assert (HR : forall (x : R) m k, (k < m)%nat -> nth k (repeat x m) 0%R = x).
  { intros x m k Hk. rewrite (nth_indep _ 0%R x) by (rewrite repeat_length; lia). apply nth_repeat. }
  unfold knot, limit_knots. rnorm. destruct (Z.ltb_spec (Z.of_nat j) (p + 1)) as [H1|H1].
  - rewrite app_nth1 by (rewrite repeat_length; lia). rewrite HR by lia. rewrite Z.max_l by lia. field. auto.
  - rewrite app_nth2 by (rewrite repeat_length; lia). rewrite repeat_length. destruct (Z.ltb_spec (Z.of_nat j) (n - p - 1)) as [H2|H2].
    + rewrite app_nth1 by (rewrite map_length, zseq_length; lia).
      match goal with |- context [map ?g _] => set (f := g) end.
      rewrite (nth_indep _ 0%R (f 0)) by (rewrite map_length, zseq_length; lia). rewrite map_nth.
      rewrite zseq_map. rewrite (nth_indep _ 0 (1 + Z.of_nat 0)%Z) by (rewrite map_length, seq_length; lia).
      rewrite (map_nth (fun k => 1 + Z.of_nat k)%Z), seq_nth by lia. unfold f. rewrite Z.max_r, Z.min_r by lia.
      replace (n - 2 * p - 2 + 1) with (n - 2 * p - 1) by lia. rewrite (ndiv_R dz) by auto.
      replace (1 + Z.of_nat (0 + (j - Z.to_nat (p + 1)))) with (Z.of_nat j - p) by lia. rnorm. field. auto.
    + rewrite app_nth2 by (rewrite map_length, zseq_length; lia). rewrite map_length, zseq_length. rewrite HR by lia.
      rewrite Z.max_r, Z.min_l by lia. field. auto.
Qed.

Lemma uniform_good low high p kv : 0 <= p -> (low < high)%R -> uniform_between low high p kv -> (IZR (Z.max 1 (2 * p)) * tolerance <= high - low)%R ->
  good_direction kv p /\ exact_ends kv p /\ first_knot kv = low /\ final_knot kv = high.
Proof.
  intros Hp Hlh (Hn & Hk) Ht'. set (n := zlen kv) in *. set (m := n - 2 * p - 1) in *.
  assert (Ln : Z.of_nat (length kv) = n) by reflexivity.
  assert (Hm : 1 <= m <= Z.max 1 (2 * p)) by (unfold m; lia). assert (Hm0 : (0 < IZR m)%R) by (apply IZR_lt; lia).
  set (c := fun j : nat => Z.max 0 (Z.min m (Z.of_nat j - p))).
  assert (Hk' : forall j, (j < length kv)%nat -> knot kv j = (low + (high - low) / IZR m * IZR (c j))%R).
  { intros j Hj. rewrite (Hk j Hj). fold m (c j). field. lra. }
  assert (Hh : (0 < (high - low) / IZR m)%R) by (apply Rdiv_lt_0_compat; lra).
  assert (Htol : (tolerance <= (high - low) / IZR m)%R).
  { apply Rmult_le_reg_l with (IZR m); auto. replace (IZR m * ((high - low) / IZR m))%R with (high - low)%R by (field; lra).
    eapply Rle_trans; [|exact Ht']. apply Rmult_le_compat_r; [left; apply tolerance_pos|apply IZR_le; lia]. }
  set (h := ((high - low) / IZR m)%R) in *.
  assert (E0 : first_knot kv = low). { change (knot kv 0 = low). rewrite Hk' by lia. replace (c 0%nat) with 0 by (unfold c; lia). ring. }
  assert (E1 : final_knot kv = high).
  { change (knot kv (length kv - 1) = high). rewrite Hk' by lia. replace (c (length kv - 1)%nat) with m by (unfold c, m; lia). unfold h. field. lra. }
  split; [|split; [|split; assumption]].
  - split; [lia|]. split; [split; [lia|]|split; [|split]].
    + intros j Hj. rewrite E0, E1, !Hk' by lia. replace (c j) with 0 by (unfold c; lia). replace (c (length kv - 1 - j)%nat) with m by (unfold c, m; lia).
      split; [ring|unfold h; field; lra].
    + intros i j Hij Hj. rewrite !Hk' by lia. apply Rplus_le_compat_l, Rmult_le_compat_l; [lra|]. apply IZR_le. unfold c. lia.
    + intros i j Hi Hj. rewrite !Hk' by lia. intros Hlt. assert (Hc : (IZR (c i) < IZR (c j))%R) by nra. apply lt_IZR in Hc.
      assert (Hc' : (IZR (c i) + 1 <= IZR (c j))%R) by (rewrite <- plus_IZR; apply IZR_le; lia). nra.
    + lra.
  - split.
    + rewrite E0, Hk' by lia. replace (c (S (Z.to_nat p))) with 1 by (unfold c; lia). lra.
    + rewrite E1, Hk' by lia. replace (c (length kv - Z.to_nat p - 2)%nat) with (m - 1) by (unfold c, m; lia).
      replace high with (low + h * IZR m)%R by (unfold h; field; lra). rewrite minus_IZR. nra.
Qed.

Lemma knots_ok (low high : R) degs i : Forall (fun p => 1 <= p < 2 ^ 28) degs -> exists knots k, random_knots (F := F) trunc pick low high degs i = Ok (knots, k) /\
  Forall2 (uniform_between low high) degs knots.
Proof.
  intros Hd. destruct (numbers_ok degs i Hd) as (ns & k & E & H). unfold random_knots. rewrite E. cbn [bind fst snd]. eexists _, k. split; [reflexivity|].
  clear E. revert Hd. induction H as [|p n degs ns Hn H IH]; intros Hd; cbn [map2]; constructor; inversion Hd; subst; auto.
  apply limit_uniform; lia.
Qed.

Lemma points_ok dimension npts i : exists cps k, random_points (F := F) trunc pick dimension npts i = Ok (cps, k) /\
  length cps = Z.to_nat (total npts) /\ Forall (fun cp => length cp = Z.to_nat dimension /\ Forall (fun x => -5 <= x <= 5)%R cp) cps.
Proof.
  unfold random_points.
  match goal with |- context [draws ?f ?l i] => destruct (draws_ok f (fun _ cp => length cp = Z.to_nat dimension /\ Forall (fun x => -5 <= x <= 5)%R cp) l i) as (cps & k & E & H) end.
  { intros _ k _.
    match goal with |- context [draws ?f ?l k] => destruct (draws_ok f (fun _ x => -5 <= x <= 5)%R l k) as (cp & k' & E & H) end.
    { intros _ k' _. rewrite (ndiv_R dz) by (rnorm; lra). rnorm. destruct (binomial_ok (-5) 5 (1 / 100) 1000 k') as (n & E & Hn); [lra|lra|lia|].
      eexists _, _. split; [exact E|]. assert (0 <= IZR n <= 1000)%R by (split; [apply (IZR_le 0)|apply (IZR_le _ 1000)]; lia). lra. }
    apply Forall2_const in H. destruct H as (H1 & H2). rewrite seq_length in H2. eexists _, _. split; [exact E|]. now split. }
  apply Forall2_const in H. destruct H as (H1 & H2). rewrite seq_length in H2. eexists _, _. split; [exact E|]. now split.
Qed.

Lemma weights_ok npts i : exists w k, random_weights (F := F) trunc pick npts i = Ok (w, k) /\
  length w = Z.to_nat (total npts) /\ Forall (fun x => 1 / 10 <= x <= 2)%R w.
Proof.
  unfold random_weights.
  match goal with |- context [draws ?f ?l i] => destruct (draws_ok f (fun _ x => 1 / 10 <= x <= 2)%R l i) as (w & k & E & H) end.
  { intros _ k _. rewrite !(ndiv_R dz) by (rnorm; lra). rnorm. destruct (binomial_ok (1 / 10) 2 (1 / 10) 19 k) as (n & E & Hn); [lra|lra|lia|].
    eexists _, _. split; [exact E|]. assert (0 <= IZR n <= 19)%R by (split; [apply (IZR_le 0)|apply (IZR_le _ 19)]; lia). lra. }
  apply Forall2_const in H. destruct H as (H1 & H2). rewrite seq_length in H2. eexists _, _. split; [exact E|]. now split.
Qed.

Lemma numbers_eq degs (knots : list (list R)) : numbers_of_points (F := F) degs knots = map2 (fun kv p => zlen kv - p - 1) knots degs.
Proof. unfold numbers_of_points. revert knots. induction degs as [|p degs IH]; intros [|kv knots]; cbn [map2]; auto. now rewrite IH. Qed.

Lemma uniform_total low high degs knots m : Forall2 (uniform_between low high) degs knots -> Forall (fun p => 1 <= p <= m) degs ->
  1 <= total (map2 (fun kv p => zlen kv - p - 1) knots degs) <= (3 * m) ^ Z.of_nat (length degs).
Proof.
  induction 1 as [|p kv degs knots (Hn & _) _ IH]; intros Hd; [cbn; lia|]. inversion Hd; subst. cbn [map2 length]. rewrite total_cons, Nat2Z.inj_succ, Z.pow_succ_r by lia.
  specialize (IH ltac:(assumption)). assert (1 <= zlen kv - p - 1 <= 3 * m) by lia. nia.
Qed.

Section Build.
Variables (dim : nat) (low high : R) (max_degree dimension i : Z).
Hypotheses (Hlim : (low < high)%R) (Htol : (IZR (2 * max_degree) * tolerance <= high - low)%R) (Hmax : 1 <= max_degree < 2 ^ 28) (Hdim : 1 <= dimension)
  (Hsize : (3 * max_degree) ^ Z.of_nat dim < 2 ^ 64).

Lemma uniform_directions degs knots : Forall2 (uniform_between low high) degs knots -> Forall (fun p => 1 <= p <= max_degree) degs ->
  Forall2 good_direction knots degs /\ Forall2 exact_ends knots degs /\ Forall (fun kv => first_knot kv = low /\ final_knot kv = high) knots.
Proof.
  intros H Hd. assert (forall p, 1 <= p <= max_degree -> (IZR (Z.max 1 (2 * p)) * tolerance <= high - low)%R) as X.
  { intros p Hp. eapply Rle_trans; [|exact Htol]. apply Rmult_le_compat_r; [left; apply tolerance_pos|apply IZR_le; lia]. }
  induction H as [|p kv degs knots Hu H IH]; [split; [|split]; constructor|]. inversion Hd as [|? ? Hp Hd']; subst. destruct (IH Hd') as (I1 & I2 & I3).
  destruct (uniform_good low high p kv ltac:(lia) Hlim Hu (X p Hp)) as (G & Ex & Fl). split; [|split]; constructor; auto.
Qed.

Lemma concat_box (P : R -> Prop) n (cps : list (list R)) : Forall (fun cp => length cp = n /\ Forall P cp) cps -> Forall P (concat cps).
Proof. induction 1 as [|cp cps (_ & H) _ IH]; cbn [concat]; [constructor|]. apply Forall_app. now split. Qed.

Lemma random_bspline_ok : exists s k, random_bspline (F := F) trunc pick dim low high max_degree dimension i = Ok (s, k) /\
  well_formed s /\ is_bspline s /\ Forall2 exact_ends (knots_of s) (degs_of s) /\
  Forall (fun kv => first_knot kv = low /\ final_knot kv = high) (knots_of s) /\ random_result s dim low high max_degree dimension.
Proof.
  unfold random_bspline. destruct (degrees_ok dim max_degree i Hmax) as (degs & k1 & E1 & Ld & Hd). rewrite E1. cbn [bind fst snd].
  destruct (knots_ok low high degs k1) as (knots & k2 & E2 & Hk); [eapply Forall_impl; [|exact Hd]; cbv beta; lia|]. rewrite E2. cbn [bind fst snd].
  destruct (uniform_directions degs knots Hk Hd) as (Hg & He & Hfl). pose proof (uniform_total low high degs knots max_degree Hk Hd) as Ht'. rewrite Ld in Ht'.
  rewrite numbers_eq. set (npts := map2 (fun (kv : list R) (p : Z) => zlen kv - p - 1) knots degs) in *.
  destruct (points_ok dimension npts k2) as (cps & k3 & E3 & Lc & Hc). rewrite E3. cbn [bind fst snd].
  destruct (spline_new_ok dz knots degs cps None dimension Hg Hdim) as (En & Hwf).
  { eapply Forall_impl; [|exact Hc]. cbv beta. intros cp (H & _). zl. }
  { fold npts. zl. } { zl. } { intros w E. discriminate E. }
  fold npts in Hwf.
  rewrite (phys_new_ok dz cps npts dimension); [|eapply Forall_impl; [|exact Hc]; cbv beta; intros cp (H & _); zl|destruct cps; [cbn in Lc; lia|discriminate]|zl|lia].
  cbn [bind]. rewrite (ps_new_ok dz) by now apply good_checked. cbn [bind]. eexists _, k3. split; [reflexivity|]. split; [exact Hwf|]. split; [reflexivity|].
  split; [exact He|]. split; [exact Hfl|]. split; [exact Ld|]. split; [exact Hd|]. split; [exact Hk|]. split; [reflexivity|]. exact (concat_box _ _ _ Hc).
Qed.

Lemma random_nurbs_ok : exists s k w, random_nurbs (F := F) trunc pick dim low high max_degree dimension i = Ok (s, k) /\
  well_formed s /\ ph_wts (sp_ph s) = Some w /\ Forall (fun x => 1 / 10 <= x <= 2)%R w /\ Forall2 exact_ends (knots_of s) (degs_of s) /\
  Forall (fun kv => first_knot kv = low /\ final_knot kv = high) (knots_of s) /\ random_result s dim low high max_degree dimension.
Proof.
  unfold random_nurbs. destruct (degrees_ok dim max_degree i Hmax) as (degs & k1 & E1 & Ld & Hd). rewrite E1. cbn [bind fst snd].
  destruct (knots_ok low high degs k1) as (knots & k2 & E2 & Hk); [eapply Forall_impl; [|exact Hd]; cbv beta; lia|]. rewrite E2. cbn [bind fst snd].
  destruct (uniform_directions degs knots Hk Hd) as (Hg & He & Hfl). pose proof (uniform_total low high degs knots max_degree Hk Hd) as Ht'. rewrite Ld in Ht'.
  rewrite numbers_eq. set (npts := map2 (fun (kv : list R) (p : Z) => zlen kv - p - 1) knots degs) in *.
  destruct (points_ok dimension npts k2) as (cps & k3 & E3 & Lc & Hc). rewrite E3. cbn [bind fst snd].
  destruct (weights_ok npts k3) as (w & k4 & E4 & Lw & Hw). rewrite E4. cbn [bind fst snd].
  destruct (spline_new_ok dz knots degs cps (Some w) dimension Hg Hdim) as (En & Hwf).
  { eapply Forall_impl; [|exact Hc]. cbv beta. intros cp (H & _). zl. }
  { fold npts. zl. } { zl. } { intros w' E. injection E as <-. zl. }
  fold npts in Hwf. unfold wphys_new.
  rewrite (phys_new_ok dz cps npts dimension); [|eapply Forall_impl; [|exact Hc]; cbv beta; intros cp (H & _); zl|destruct cps; [cbn in Lc; lia|discriminate]|zl|lia].
  cbn [bind ph_dim ph_npts ph_cps]. change (num F) with R in *. replace (zlen cps) with (zlen w) by (zl). rewrite Z.eqb_refl. cbn [bind].
  rewrite (ps_new_ok dz) by now apply good_checked. cbn [bind]. eexists _, k4, w. split; [reflexivity|]. split; [exact Hwf|]. split; [reflexivity|]. split; [exact Hw|].
  split; [exact He|]. split; [exact Hfl|]. split; [exact Ld|]. split; [exact Hd|]. split; [exact Hk|]. split; [reflexivity|]. exact (concat_box _ _ _ Hc).
Qed.
End Build.

Lemma random_ub dim (low high : R) max_degree dimension i : (1 <= dim)%nat -> - 2 ^ 30 < max_degree <= 0 ->
  random_bspline (F := F) trunc pick dim low high max_degree dimension i = UB /\
  random_nurbs (F := F) trunc pick dim low high max_degree dimension i = UB.
Proof.
  intros Hd Hm. assert (E : random_degrees (F := F) trunc pick dim max_degree i = UB).
  { destruct dim as [|dim]; [lia|]. unfold random_degrees. cbn [seq draws]. unfold binomial_int, binomial.
    replace (ndiv (n := F) (nsub (n := F) (nofZ max_degree) (nofZ 1)) (nofZ 1)) with (IZR (max_degree - 1)).
    - change (2 ^ 30) with 1073741824 in Hm. rewrite to_int_exact by lia. cbn [bind]. destruct (Z.ltb_spec (max_degree - 1) 0); [reflexivity|lia].
    - rewrite (ndiv_R dz) by (rnorm; lra). rnorm. rewrite minus_IZR. field. }
  unfold random_bspline, random_nurbs. rewrite E. split; reflexivity.
Qed.
End Random.

Lemma random_bsplines : forall (dz : R -> R) trunc pick dim (low high : R) max_degree dimension i, truncates trunc -> within_limits pick ->
  (low < high)%R -> (IZR (2 * max_degree) * tolerance <= high - low)%R -> 1 <= max_degree < 2 ^ 28 -> 1 <= dimension -> (3 * max_degree) ^ Z.of_nat dim < 2 ^ 64 ->
  exists s k, random_bspline (F := Rops dz) trunc pick dim low high max_degree dimension i = Ok (s, k) /\
  well_formed s /\ is_bspline s /\ Forall2 exact_ends (knots_of s) (degs_of s) /\
  Forall (fun kv => first_knot kv = low /\ final_knot kv = high) (knots_of s) /\ random_result s dim low high max_degree dimension.
Proof. intros. now apply random_bspline_ok. Qed.
Lemma random_nurbss : forall (dz : R -> R) trunc pick dim (low high : R) max_degree dimension i, truncates trunc -> within_limits pick ->
  (low < high)%R -> (IZR (2 * max_degree) * tolerance <= high - low)%R -> 1 <= max_degree < 2 ^ 28 -> 1 <= dimension -> (3 * max_degree) ^ Z.of_nat dim < 2 ^ 64 ->
  exists s k w, random_nurbs (F := Rops dz) trunc pick dim low high max_degree dimension i = Ok (s, k) /\
  well_formed s /\ ph_wts (sp_ph s) = Some w /\ Forall (fun x => 1 / 10 <= x <= 2)%R w /\ Forall2 exact_ends (knots_of s) (degs_of s) /\
  Forall (fun kv => first_knot kv = low /\ final_knot kv = high) (knots_of s) /\ random_result s dim low high max_degree dimension.
Proof. intros. now apply random_nurbs_ok. Qed.
Lemma random_without_degree : forall (dz : R -> R) trunc pick dim (low high : R) max_degree dimension i, truncates trunc ->
  (1 <= dim)%nat -> - 2 ^ 30 < max_degree <= 0 ->
  random_bspline (F := Rops dz) trunc pick dim low high max_degree dimension i = UB /\
  random_nurbs (F := Rops dz) trunc pick dim low high max_degree dimension i = UB.
Proof. intros. now apply random_ub. Qed.

Definition drop_fraction (x : R) : Z := if Rle_dec 0 x then Int_part x else (- Int_part (- x)).
Lemma ex_random : truncates drop_fraction /\ within_limits (fun _ t => t / 2) /\ (0 < 1)%R /\ (IZR (2 * 3) * tolerance <= 1 - 0)%R /\ 1 <= 3 < 2 ^ 28 /\
  1 <= 2 /\ (3 * 3) ^ Z.of_nat 2 < 2 ^ 64.
Proof.
  split; [|split; [|split; [lra|split; [change (2 * 3) with 6; unfold tolerance; lra|split; [lia|split; [lia|vm_compute; reflexivity]]]]]].
  - intros x. unfold drop_fraction. pose proof (base_Int_part x) as (A1 & A2). pose proof (base_Int_part (- x)) as (B1 & B2). destruct (Rle_dec 0 x) as [H|H].
    + split; [lra|]. intros H'. assert (x = 0)%R by lra. subst. assert (Int_part 0 = 0) as ->; [|lra].
      assert (-1 < IZR (Int_part 0))%R by lra. apply (lt_IZR (-1)) in H0. apply le_IZR in A1. lia.
    + rewrite opp_IZR. split; lra.
  - intros i t Ht. split; [apply Z.div_pos; lia|]. apply Z.div_le_upper_bound; lia.
Qed.
