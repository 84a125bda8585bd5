(* Proofs about the square generator. *)
From Coq Require Import ZArith List Lia Bool Reals Lra.
From Verif Require Import Base BaseFacts RSum MultiIndex MultiIndexSpec MultiIndexFacts KnotVec KnotVecSpec KnotVecFacts
  Basis BasisSpec BasisFacts Spaces SpacesSpec SpacesFacts SplineEval SplineSpec SplineNew EvalFacts EvalThms DegreeFacts
  ConvertFacts VtkSpec VtkFacts Generators GeneratorsSpec GeneratorsFacts.
Import ListNotations.
Open Scope Z_scope.

(* the basis functions of one direction sum to one *)
Lemma basis_sum_one (dz : R -> R) kv p u : good_direction kv p -> (first_knot kv <= u <= final_knot kv)%R -> zlen kv - p - 1 < 2 ^ 64 ->
  lsum (fun i => cox_de_boor kv (Z.to_nat p) (Z.to_nat i) u) (zseq 0 (Z.to_nat (zlen kv - p - 1))) = 1%R.
Proof.
  intros Hg Hu Hb. set (m := zlen kv - p - 1) in *.
  assert (Hm : 1 <= m). { destruct Hg as (? & (? & _) & _). unfold m. zl. }
  destruct (spline_new_ok dz [kv] [p] (repeat [0%R] (Z.to_nat m)) None 1) as (_ & W); auto; try lia.
  - apply Forall_forall. intros x Hx. apply repeat_spec in Hx. now subst x.
  - unfold zlen at 1. rewrite repeat_length. cbn [map2]. fold m. unfold total. cbn. lia.
  - unfold zlen at 1. rewrite repeat_length. lia.
  - discriminate.
  - pose proof (weight_function_bspline dz _ [u] W eq_refl) as E.
    unfold weight_function, npts_of, knots_of, degs_of in E. cbn [sp_ph ph_npts sp_ps ps_knots ps_degs mkps map2] in E.
    fold m in E. rewrite lsum_indices_1 in E. rewrite <- E.
    + apply lsum_ext. intros i _. cbn [basis_product]. unfold weight. cbn [sp_ph ph_wts]. ring.
    + constructor; [exact Hu | constructor].
Qed.

Section Square.
Context {dz : R -> R}.
Notation F := (Rops dz).

Lemma square_denominator p n : (nofZ (n := F) n - nofZ 2 * nofZ p - n1)%num = IZR (n - 2 * p - 1).
Proof. rnorm. rewrite !minus_IZR, mult_IZR. reflexivity. Qed.

Lemma square_knots_ok p n : 0 <= p -> 2 * p + 2 <= n ->
  exists kv, square_knots (F := F) p n = Ok kv /\ zlen kv = n /\ (forall i, 0 <= i < n -> knot kv (Z.to_nat i) = uniform_knot p n i).
Proof.
  intros Hp Hn. unfold square_knots. destruct (Z.ltb_spec n (2 * p + 2)); [lia|].
  unfold vmake. destruct (Z.ltb_spec n 0); [lia|]. cbn [bind].
  assert (Hh : (IZR (n - 2 * p - 1) > 0)%R) by (apply (IZR_lt 0); lia).
  pose (Inv := fun (k : Z) (kv : list R) => zlen kv = n /\
     forall i, 0 <= i < n -> knot kv (Z.to_nat i) = if i <=? p then 0%R else if i <? k then (IZR (i - p) / IZR (n - 2 * p - 1))%R else 0%R).
  pose (Inv2 := fun (k : Z) (kv : list R) => zlen kv = n /\
     forall i, 0 <= i < n -> knot kv (Z.to_nat i) = if i <=? p then 0%R else if i <? n - p - 1 then (IZR (i - p) / IZR (n - 2 * p - 1))%R else if i <? k then 1%R else 0%R).
  match goal with |- context [for_up (p + 1) (n - p - 1) ?b ?s0] => destruct (for_up_inv Inv (p + 1) (n - p - 1) b s0) as (kv1 & E1 & L1 & V1) end.
  - lia.
  - intros k kv Hk (L & V).
    pose proof (vget_nth (A := R) kv (k - 1) 0%R ltac:(lia)) as G. rnorm. rewrite G. cbn [bind].
    pose proof (vset_ok (A := R) kv k) as S. rnorm. rewrite S by lia. eexists. split; [reflexivity|]. split.
    + unfold zlen in *. now rewrite upd_length.
    + intros i Hi. unfold knot. destruct (Z.eq_dec i k) as [->|Ne].
      * rewrite nth_upd_same by (unfold zlen in *; lia). destruct (Z.leb_spec k p); [lia|]. destruct (Z.ltb_spec k (k + 1)); [|lia].
        pose proof (V (k - 1) ltac:(lia)) as Vk. unfold knot in Vk. rewrite Vk.
        change (nsub (n := F)) with Rminus in *. pose proof (square_denominator p n) as D. rnorm. rewrite D.
        rewrite (ndiv_R dz 1%R (IZR (n - 2 * p - 1))) by lra.
        destruct (Z.leb_spec (k - 1) p).
        -- replace (k - p) with 1 by lia. lra.
        -- destruct (Z.ltb_spec (k - 1) k); [|lia]. replace (k - p) with ((k - 1 - p) + 1) by lia. rewrite plus_IZR. field. lra.
      * rewrite nth_upd_other by lia. pose proof (V i Hi) as Vi. unfold knot in Vi. rewrite Vi.
        destruct (Z.leb_spec i p); auto. destruct (Z.ltb_spec i k), (Z.ltb_spec i (k + 1)); auto; lia.
  - split; [unfold zlen; rewrite repeat_length; lia|]. intros i Hi. unfold knot. rnorm.
    destruct (Z.leb_spec i p); [apply nth_repeat|]. destruct (Z.ltb_spec i (p + 1)); [lia | apply nth_repeat].
  - rnorm. rewrite E1. cbn [bind].
    match goal with |- context [for_up (n - p - 1) n ?b ?s0] => destruct (for_up_inv Inv2 (n - p - 1) n b s0) as (kv2 & E2 & L2 & V2) end.
    + lia.
    + intros k kv Hk (L & V). pose proof (vset_ok (A := R) kv k) as S. rnorm. rewrite S by lia. eexists. split; [reflexivity|]. split.
      * unfold zlen in *. now rewrite upd_length.
      * intros i Hi. unfold knot. destruct (Z.eq_dec i k) as [->|Ne].
        -- rewrite nth_upd_same by (unfold zlen in *; lia). destruct (Z.leb_spec k p); [lia|]. destruct (Z.ltb_spec k (n - p - 1)); [lia|].
           destruct (Z.ltb_spec k (k + 1)); [reflexivity|lia].
        -- rewrite nth_upd_other by lia. pose proof (V i Hi) as Vi. unfold knot in Vi. rewrite Vi.
           destruct (Z.leb_spec i p); auto. destruct (Z.ltb_spec i (n - p - 1)); auto. destruct (Z.ltb_spec i k), (Z.ltb_spec i (k + 1)); auto; lia.
    + split; auto. intros i Hi. rewrite V1 by auto. destruct (Z.leb_spec i p); auto. destruct (Z.ltb_spec i (n - p - 1)); auto.
      
    + rnorm. exists kv2. split; [exact E2|]. split; [exact L2|]. intros i Hi. rewrite V2 by auto. unfold uniform_knot.
      destruct (Z.leb_spec i p); auto. destruct (Z.ltb_spec i (n - p - 1)); auto. destruct (Z.ltb_spec i n); auto; lia.
Qed.

Lemma uniform_mono p n i j : 0 <= p -> 2 * p + 2 <= n -> 0 <= i <= j -> j < n -> (uniform_knot p n i <= uniform_knot p n j)%R.
Proof.
  intros Hp Hn Hi Hj. unfold uniform_knot. assert (Hh : (IZR (n - 2 * p - 1) > 0)%R) by (apply (IZR_lt 0); lia).
  assert (Hq : forall k, p < k < n - p - 1 -> (0 <= IZR (k - p) / IZR (n - 2 * p - 1) <= 1)%R).
  { intros k Hk. assert (0 <= IZR (k - p))%R by (apply (IZR_le 0); lia). assert (IZR (k - p) <= IZR (n - 2 * p - 1))%R by (apply IZR_le; lia).
    split; [apply Rmult_le_pos; [lra | left; now apply Rinv_0_lt_compat]|].
    apply (Rmult_le_reg_r (IZR (n - 2 * p - 1))); [lra|]. unfold Rdiv. rewrite Rmult_assoc, Rinv_l by lra. lra. }
  destruct (Z.leb_spec i p), (Z.leb_spec j p), (Z.ltb_spec i (n - p - 1)), (Z.ltb_spec j (n - p - 1)); try lia; try lra;
    try (apply Hq; lia).
  apply Rmult_le_compat_r; [left; now apply Rinv_0_lt_compat | apply IZR_le; lia].
Qed.

Lemma uniform_step p n i j : 0 <= p -> 2 * p + 2 <= n < 2 ^ 31 -> 0 <= i < n -> 0 <= j < n ->
  (uniform_knot p n i < uniform_knot p n j -> uniform_knot p n i + tolerance <= uniform_knot p n j)%R.
Proof.
  intros Hp Hn Hi Hj Hlt. assert (Hij : i < j).
  { destruct (Z.lt_ge_cases i j); auto. pose proof (uniform_mono p n j i Hp ltac:(lia) ltac:(lia) ltac:(lia)). lra. }
  assert (Hh : (IZR (n - 2 * p - 1) > 0)%R) by (apply (IZR_lt 0); lia).
  assert (Ht : (tolerance <= 1 / IZR (n - 2 * p - 1))%R).
  { assert (IZR (n - 2 * p - 1) <= 2147483648)%R by (apply IZR_le; lia). unfold tolerance.
    apply (Rmult_le_reg_r (IZR (n - 2 * p - 1))); [lra|].
    replace (1 / IZR (n - 2 * p - 1) * IZR (n - 2 * p - 1))%R with 1%R by (field; lra).
    replace (2 ^ 52)%R with 4503599627370496%R by (cbn; lra). lra. }
  assert (E : exists a b, uniform_knot p n i = (IZR a / IZR (n - 2 * p - 1))%R /\ uniform_knot p n j = (IZR b / IZR (n - 2 * p - 1))%R).
  { assert (G : forall k, exists a, uniform_knot p n k = (IZR a / IZR (n - 2 * p - 1))%R).
    { intros k. unfold uniform_knot. destruct (k <=? p); [exists 0; unfold Rdiv; lra|]. destruct (k <? n - p - 1); [now exists (k - p)|].
      exists (n - 2 * p - 1). field. lra. }
    destruct (G i) as (a & Ea), (G j) as (b & Eb). now exists a, b. }
  destruct E as (a & b & Ea & Eb). rewrite Ea, Eb in *.
  assert (a < b). { apply lt_IZR. apply (Rmult_lt_reg_r (/ IZR (n - 2 * p - 1))); [now apply Rinv_0_lt_compat | exact Hlt]. }
  assert (IZR a + 1 <= IZR b)%R by (rewrite <- (plus_IZR a 1); apply IZR_le; lia).
  apply Rle_trans with ((IZR a + 1) / IZR (n - 2 * p - 1))%R; [unfold Rdiv in *; rewrite Rmult_plus_distr_r; lra|].
  apply Rmult_le_compat_r; [left; now apply Rinv_0_lt_compat | lra].
Qed.

Lemma uniform_good p n kv : 0 <= p -> 2 * p + 2 <= n < 2 ^ 31 -> zlen kv = n ->
  (forall i, 0 <= i < n -> knot kv (Z.to_nat i) = uniform_knot p n i) ->
  good_direction kv p /\ first_knot kv = 0%R /\ final_knot kv = 1%R /\ exact_ends kv p.
Proof.
  intros Hp Hn Hl Hv. assert (Hh : (IZR (n - 2 * p - 1) > 0)%R) by (apply (IZR_lt 0); lia).
  assert (Hv' : forall i, (i < length kv)%nat -> knot kv i = uniform_knot p n (Z.of_nat i)).
  { intros i Hi. rewrite <- Hv by zl. now rewrite Nat2Z.id. }
  assert (Ef : first_knot kv = 0%R).
  { change (first_knot kv) with (knot kv 0). rewrite Hv' by zl. unfold uniform_knot. destruct (Z.leb_spec (Z.of_nat 0) p); auto; lia. }
  assert (El : final_knot kv = 1%R).
  { change (final_knot kv) with (knot kv (length kv - 1)). rewrite Hv' by zl. unfold uniform_knot.
    destruct (Z.leb_spec (Z.of_nat (length kv - 1)) p); [zl|]. destruct (Z.ltb_spec (Z.of_nat (length kv - 1)) (n - p - 1)); [zl|]. auto. }
  assert (Hx : exact_ends kv p).
  { unfold exact_ends. rewrite Ef, El. rewrite !Hv' by zl. unfold uniform_knot.
    replace (Z.of_nat (S (Z.to_nat p))) with (p + 1) by lia. replace (Z.of_nat (length kv - Z.to_nat p - 2)) with (n - p - 2) by zl. split.
    - destruct (Z.leb_spec (p + 1) p); [lia|]. destruct (Z.ltb_spec (p + 1) (n - p - 1)); [|lra].
      replace (p + 1 - p) with 1 by lia. apply Rmult_lt_0_compat; [lra | now apply Rinv_0_lt_compat].
    - destruct (Z.leb_spec (n - p - 2) p); [lra|]. destruct (Z.ltb_spec (n - p - 2) (n - p - 1)); [|lia].
      apply (Rmult_lt_reg_r (IZR (n - 2 * p - 1))); [lra|]. unfold Rdiv. rewrite Rmult_assoc, Rinv_l by lra. rewrite Rmult_1_r, Rmult_1_l. apply IZR_lt. lia. }
  split; [|now split; [|split]]. split; [auto|]. split; [|split; [|split]].
  - split; [zl|]. intros j Hj. rewrite Ef, El. rewrite !Hv' by zl. unfold uniform_knot. split.
    + destruct (Z.leb_spec (Z.of_nat j) p); auto; lia.
    + destruct (Z.leb_spec (Z.of_nat (length kv - 1 - j)) p); [zl|]. destruct (Z.ltb_spec (Z.of_nat (length kv - 1 - j)) (n - p - 1)); [zl|]. auto.
  - intros i j Hij Hj. rewrite !Hv' by lia. apply uniform_mono; zl.
  - intros i j Hi Hj. rewrite !Hv' by lia. apply uniform_step; zl.
  - rewrite Ef, El. lra.
Qed.

(* ---- control points ---- *)
Lemma ramp_length m (v d : R) : length (ramp (F := F) m v d) = m.
Proof. revert v. induction m as [|m IH]; intros v; cbn [ramp length]; [reflexivity|]. now rewrite IH. Qed.
Lemma ramp_nth m (v d : R) i : (i < m)%nat -> nth i (ramp (F := F) m v d) 0%R = (v + INR i * d)%R.
Proof.
  revert v i. induction m as [|m IH]; intros v i Hi; [lia|]. cbn [ramp]. destruct i as [|i]; cbn [nth].
  - cbn [INR]. match goal with |- @eq _ ?a ?b => change (@eq R a b) end. ring.
  - rewrite (IH _ i) by lia. rnorm. rewrite S_INR. match goal with |- @eq _ ?a ?b => change (@eq R a b) end. ring.
Qed.

Lemma fill {A B} (f : A -> Res B) (g : A -> B) l (acc : Z * list B) : 0 <= fst acc -> fst acc + zlen l <= zlen (snd acc) ->
  (forall a, In a l -> f a = Ok (g a)) ->
  foldM (fun acc a => x <- f a ;; cps <- vset (snd acc) (fst acc) x ;; Ok (fst acc + 1, cps)) l acc =
  Ok (fst acc + zlen l, firstn (Z.to_nat (fst acc)) (snd acc) ++ map g l ++ skipn (Z.to_nat (fst acc + zlen l)) (snd acc)).
Proof.
  revert acc. induction l as [|a l IH]; intros [k r] Hk Hl Hf; cbn [fst snd] in *.
  - cbn [foldM map app]. change (zlen (@nil A)) with 0. rewrite Z.add_0_r. now rewrite firstn_skipn.
  - cbn [foldM]. rewrite Hf by now left. cbn [bind]. assert (El : zlen (a :: l) = zlen l + 1) by (unfold zlen; cbn [length]; lia).
    rewrite El in Hl |- *. assert (0 <= zlen l) by (unfold zlen; lia). rewrite vset_ok by (cbn [fst snd]; lia). cbn [bind fst snd]. rewrite IH; cbn [fst snd]; try lia.
    + f_equal. f_equal; [lia|]. replace (Z.to_nat (k + 1)) with (S (Z.to_nat k)) by lia.
      assert (G : forall n (r : list B) x t, (n < length r)%nat -> firstn (S n) (upd r n x) ++ t = firstn n r ++ x :: t).
      { clear. induction n as [|n IH]; intros [|y r] x t H; cbn [length] in H; try lia; cbn [upd firstn app]; [reflexivity|]. f_equal. apply IH. lia. }
      rewrite G by (unfold zlen in *; lia). cbn [map app]. f_equal. f_equal. f_equal.
      replace (k + 1 + zlen l) with (k + (zlen l + 1)) by lia.
      assert (G2 : forall n m (r : list B) x, (n < m)%nat -> skipn m (upd r n x) = skipn m r).
      { clear. induction n as [|n IH]; intros [|m] [|y r] x H; try lia; cbn [upd skipn]; auto. apply IH. lia. }
      apply G2. lia.
    + unfold zlen in *. rewrite upd_length. lia.
    + intros x Hx. apply Hf. now right.
Qed.

Definition square_point (m : Z) (idx : list Z) : list R :=
  match idx with [x; y] => [spread m x; spread m y] | _ => [] end.

Lemma square_points_ok m : 2 <= m -> square_points (F := F) m = Ok (map (square_point m) (grid [m; m])).
Proof.
  intros Hm. unfold square_points, vmake. destruct (Z.ltb_spec (m * m) 0); [nia|]. cbn [bind].
  assert (Hd : (IZR m - 1 <> 0)%R). { assert (2 <= IZR m)%R by (apply (IZR_le 2); lia). lra. }
  assert (Hg : forall i, 0 <= i < m -> vget (ramp (F := F) (Z.to_nat m) (nofZ (-1)) (nofZ 2 / (nofZ m - n1))%num) i = Ok (spread m i)).
  { intros i Hi. pose proof (vget_nth (A := R) (ramp (F := F) (Z.to_nat m) (nofZ (-1)) (nofZ 2 / (nofZ m - n1))%num) i 0%R) as G.
    etransitivity; [apply G; unfold zlen; rewrite ramp_length; lia|]. f_equal. rewrite ramp_nth by lia.
    rnorm. rewrite (ndiv_R dz 2%R (IZR m - 1)%R) by auto. unfold spread. rewrite INR_IZR_INZ, Z2Nat.id by lia.
    rewrite minus_IZR. field. auto. }
  pose (f := fun idx => match idx with [x; y] => cx <- vget (ramp (F := F) (Z.to_nat m) (nofZ (-1)) (nofZ 2 / (nofZ m - n1))%num) x ;;
      cy <- vget (ramp (F := F) (Z.to_nat m) (nofZ (-1)) (nofZ 2 / (nofZ m - n1))%num) y ;; Ok [cx; cy] | _ => UB end).
  pose (body := fun idx (acc : Z * list (list F)) => x <- f idx ;; cps <- vset (snd acc) (fst acc) x ;; Ok (fst acc + 1, cps)).
  assert (E : for_up 0 m (fun y acc => for_up 0 m (fun x acc => body [x; y] acc) acc) (0, repeat [n0; n0] (Z.to_nat (m * m)))
     = Ok (0 + m * m, map (square_point m) (grid [m; m]))).
  { rewrite for_grid. unfold body.
    assert (Hl : zlen (grid [m; m]) = m * m). { unfold zlen. rewrite grid_length by (repeat constructor; lia). unfold size; cbn [fold_right]. nia. }
    rewrite (fill f (square_point m)); cbn [fst snd].
    - rewrite Hl. f_equal. f_equal. change (Z.to_nat 0) with O. cbn [firstn app].
      rewrite skipn_all2; [now rewrite app_nil_r|]. rewrite repeat_length. lia.
    - lia.
    - rewrite Hl. unfold zlen. rewrite repeat_length. lia.
    - intros idx Hi. apply grid_In in Hi. inversion Hi as [|? x ? ? Hx Hr]; subst. inversion Hr as [|? y ? ? Hy Hn]; subst. inversion Hn; subst.
      cbn [f]. rewrite (Hg x), (Hg y) by lia. reflexivity. }
  match goal with |- bind ?a _ = _ => assert (E' : a = Ok (0 + m * m, map (square_point m) (grid [m; m]))) end.
  { etransitivity; [|exact E]. rewrite !for_up_foldM. apply foldM_ext. intros acc y Hy. rewrite !for_up_foldM. apply foldM_ext. intros acc2 x Hx.
    unfold body, f. destruct (vget _ x) as [cx|e|]; cbn [bind]; auto. destruct (vget _ y) as [cy|e|]; cbn [bind]; auto. }
  rewrite E'. reflexivity.
Qed.

Lemma spread_bounds m i : 2 <= m -> 0 <= i < m -> (-1 <= spread m i <= 1)%R.
Proof.
  intros Hm Hi. unfold spread. assert (H1 : (0 < IZR (m - 1))%R) by (apply (IZR_lt 0); lia).
  assert (0 <= IZR i)%R by (apply (IZR_le 0); lia). assert (IZR i <= IZR (m - 1))%R by (apply IZR_le; lia).
  assert (0 <= IZR i / IZR (m - 1) <= 1)%R.
  { split; [apply Rmult_le_pos; [lra | left; now apply Rinv_0_lt_compat]|].
    apply (Rmult_le_reg_r (IZR (m - 1))); [lra|]. unfold Rdiv. rewrite Rmult_assoc, Rinv_l by lra. lra. }
  replace (2 * IZR i / IZR (m - 1))%R with (2 * (IZR i / IZR (m - 1)))%R by (unfold Rdiv; ring). lra.
Qed.

Lemma square_ok p n : 1 <= p -> 2 * p + 2 <= n < 2 ^ 31 ->
  exists s, create_square (F := F) p n = Ok s /\ well_formed s /\ is_bspline s /\ ph_dim (sp_ph s) = 2 /\
    degs_of s = [p; p] /\ npts_of s = [n - p - 1; n - p - 1] /\
    (exists kv, knots_of s = [kv; kv] /\ zlen kv = n /\ forall i, 0 <= i < n -> knot kv (Z.to_nat i) = uniform_knot p n i) /\
    forall x y, 0 <= x < n - p - 1 -> 0 <= y < n - p - 1 ->
      coordinate s [x; y] 0 = spread (n - p - 1) x /\ coordinate s [x; y] 1 = spread (n - p - 1) y.
Proof.
  intros Hp Hn. destruct (square_knots_ok p n ltac:(lia) ltac:(lia)) as (kv & Ek & Lk & Vk). rnorm.
  destruct (uniform_good p n kv ltac:(lia) Hn Lk Vk) as (Hg & _).
  set (m := n - p - 1) in *. assert (Hm : 2 <= m < 2 ^ 31) by (unfold m; lia).
  assert (Hpts : Forall (fun cp => zlen cp = 2) (map (square_point m) (grid [m; m]))).
  { apply Forall_forall. intros q Hq. apply in_map_iff in Hq. destruct Hq as (idx & <- & Hi). apply grid_In in Hi.
    inversion Hi as [|? x ? ? Hx Hr]; subst. inversion Hr as [|? y ? ? Hy Hz]; subst. inversion Hz; subst. reflexivity. }
  assert (Hlen : zlen (map (square_point m) (grid [m; m])) = m * m).
  { unfold zlen. rewrite map_length, grid_length by (repeat constructor; lia). unfold size; cbn [fold_right]. nia. }
  assert (Ht : total [m; m] = m * m) by (unfold total; cbn [fold_left fold_right]; lia).
  destruct (spline_new_ok dz [kv; kv] [p; p] (map (square_point m) (grid [m; m])) None 2) as (_ & W); auto; try lia.
  - rewrite Hlen. cbn [map2]. rewrite Lk. fold m. now rewrite Ht.
  - rewrite Hlen. nia.
  - discriminate.
  - cbn [map2] in W. rewrite Lk in W. fold m in W. eexists. split; [|split; [exact W|]].
    + unfold create_square, square_pspace, square_phys. rewrite Ek. cbn [bind].
      rewrite ps_new_ok by (apply good_checked; auto). cbn [bind]. fold m. rewrite square_points_ok by lia. cbn [bind].
      rewrite (phys_new_ok dz _ [m; m] 2); auto.
      * intros E. rewrite E in Hlen. unfold zlen in Hlen; cbn in Hlen. nia.
      * now rewrite Hlen, Ht.
      * rewrite Ht. nia.
    + split; [reflexivity|]. split; [reflexivity|]. split; [reflexivity|]. split; [reflexivity|]. split; [exists kv; auto|].
      intros x y Hx Hy. unfold coordinate, npts_of. cbn [sp_ph ph_dim ph_npts ph_cps].
      assert (Hb : in_box [m; m] [x; y]) by (constructor; [lia | constructor; [lia | constructor]]).
      rewrite !grid_points; auto; try lia; intros idx Hi; rewrite Forall_forall in Hpts; apply Hpts; now apply in_map.
Qed.
End Square.
