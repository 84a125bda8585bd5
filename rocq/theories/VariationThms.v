(* Variation diminution of curves, and a concrete case. *)
From Coq Require Import ZArith List Bool Lia Reals Lra.
From Verif Require Import Base BaseFacts RSum MultiIndex MultiIndexSpec
  KnotVec KnotVecSpec KnotVecFacts KnotVecThms Basis BasisSpec BSplineTheory BasisFacts BasisThms
  Spaces SpacesSpec SpacesFacts SpacesThms SplineEval SplineSpec SplineNew EvalFacts RationalDeriv EvalThms InsertThms VariationSpec VariationFacts.
Import ListNotations.
Open Scope Z_scope.

Section Dz.
Variable dz : R -> R.
Local Notation F := (Rops dz).
Implicit Types s : spline F.

Lemma all_indices_1 n : all_indices [n] = map (fun i => [i]) (zseq 0 (Z.to_nat n)).
Proof. cbn [all_indices]. induction (zseq 0 (Z.to_nat n)) as [|i l IH]; cbn; auto. Qed.

Lemma lsum_map_l {A C} (f : C -> R) (g : A -> C) l : lsum f (map g l) = lsum (fun x => f (g x)) l.
Proof. induction l as [|x l IH]; cbn; auto. now rewrite IH. Qed.

(* sums over a curve's control points *)
Lemma curve_sum s kv p u k (c : list Z -> R) : well_formed s -> knots_of s = [kv] -> degs_of s = [p] -> in_span kv k u ->
  p <= k < zlen kv - p - 1 ->
  lsum (fun idx => basis_product (knots_of s) (degs_of s) [u] idx * c idx)%R (all_indices (npts_of s)) =
  V (tk kv) k (Z.to_nat p) (fun i => c [i]) u.
Proof.
  intros Hwf Ek Ed Hs Hk. pose proof Hwf as [Hd _ Hnp _ _ _]. rewrite Ek, Ed in *. cbn [map2] in Hnp. rewrite Hnp, all_indices_1, lsum_map_l.
  inversion Hd as [|? ? ? ? (Hp & _ & Hn & _) _]; subst.
  rewrite (V_range _ k _ _ u 0 (Z.to_nat (zlen kv - p - 1))) by lia.
  apply lsum_ext. intros i Hi. apply zseq_In in Hi. cbn [basis_product]. rewrite (cox_piece kv k) by (auto; lia). ring.
Qed.

Lemma V_scale t k p c u x : V t k p (fun i => x * c i)%R u = (x * V t k p c u)%R.
Proof. unfold V. rewrite <- lsum_scal. apply lsum_ext. intros. ring. Qed.

Lemma V_plus t k p c d u : V t k p (fun i => c i + d i)%R u = (V t k p c u + V t k p d u)%R.
Proof. unfold V. rewrite <- lsum_plus. apply lsum_ext. intros. ring. Qed.

Lemma V_lsum {A} t k p (c : A -> Z -> R) l u : V t k p (fun i => lsum (fun a => c a i) l) u = lsum (fun a => V t k p (c a) u) l.
Proof.
  induction l as [|a l IH]; cbn [lsum].
  - unfold V. rewrite (lsum_ext _ (fun _ => 0%R)) by (intros; ring). induction (zseq (k - Z.of_nat p) (S p)); cbn [lsum]; auto. rewrite IHl. ring.
  - rewrite V_plus. now rewrite IH.
Qed.

Lemma V_ext t k p c d u : (forall i, c i = d i) -> V t k p c u = V t k p d u.
Proof. intros H. unfold V. apply lsum_ext. intros i _. now rewrite H. Qed.

Lemma nth_map_zseq (f : Z -> R) n c : 0 <= c < Z.of_nat n -> nth (Z.to_nat c) (map f (zseq 0 n)) 0%R = f c.
Proof.
  intros H. rewrite (nth_indep _ 0%R (f 0)) by (rewrite map_length, zseq_length; lia). rewrite map_nth. f_equal.
  rewrite zseq_nth by lia. lia.
Qed.

Lemma side_map a b (f : Z -> R) n : side a b (map f (zseq 0 n)) = (b + lsum (fun c => a c * f c) (zseq 0 n))%R.
Proof.
  unfold side. rewrite map_length, zseq_length. f_equal. apply lsum_ext. intros c Hc. apply zseq_In in Hc. rewrite nth_map_zseq by lia. reflexivity.
Qed.

(* the side of a point of the curve, times the weight function, is a sum over the sides of the control points *)
Lemma curve_side s kv p u k a b v : well_formed s -> is_bspline s \/ positive_weights s -> knots_of s = [kv] -> degs_of s = [p] ->
  (first_knot kv <= u <= final_knot kv)%R -> in_span kv k u -> p <= k < zlen kv - p - 1 ->
  evaluate s [u] (zseq 0 (Z.to_nat (ph_dim (sp_ph s)))) = Ok v ->
  (0 < weight_function s [u])%R /\
  V (tk kv) k (Z.to_nat p) (fun i => weight s [i] * side a b (curve_point s i))%R u = (weight_function s [u] * side a b v)%R.
Proof.
  intros Hwf Hw Ek Ed Hu Hs Hk Ev.
  assert (Hin : in_domain s [u]) by (unfold in_domain; rewrite Ek; constructor; auto).
  assert (HW : (0 < weight_function s [u])%R).
  { destruct (weight_function_facts dz s [u] Hwf Hin) as [W1 W2]. destruct Hw as [Hb|Hb]; [rewrite W1 by auto; lra | auto]. }
  split; [exact HW|].
  assert (Hv : valid_dims s (zseq 0 (Z.to_nat (ph_dim (sp_ph s))))).
  { apply Forall_forall. intros c Hc. apply zseq_In in Hc. lia. }
  rewrite (eval_quotient dz s [u] _) in Ev by (auto; lra). injection Ev as <-.
  rewrite side_map. unfold curve_point.
  rewrite (V_ext _ _ _ _ (fun i => (b * weight s [i] + lsum (fun c => a c * (weight s [i] * coordinate s [i] c)) (zseq 0 (Z.to_nat (ph_dim (sp_ph s)))))%R)).
  2:{ intros i. rewrite side_map, Rmult_plus_distr_l, <- lsum_scal. f_equal; [ring|]. apply lsum_ext. intros; ring. }
  rewrite V_plus, V_scale, V_lsum.
  rewrite <- (curve_sum s kv p u k (weight s)) by auto. fold (weight_function s [u]).
  rewrite Rmult_plus_distr_l, <- lsum_scal. f_equal; [ring|]. apply lsum_ext. intros c _.
  rewrite V_scale, <- (curve_sum s kv p u k (fun idx => weight s idx * coordinate s idx c)%R) by auto. fold (weighted_sum s [u] c). field. lra.
Qed.

Definition good_point kv p k u : Prop := in_span kv k u /\ p <= k < zlen kv - p - 1.

Lemma pos_sign W x w y : (0 < W)%R -> (0 < w)%R -> (0 < (W * x) * (w * y))%R -> (0 < x * y)%R.
Proof.
  intros H1 H2 H3. replace ((W * x) * (w * y))%R with ((W * w) * (x * y))%R in H3 by ring.
  assert (H4 : (0 < W * w)%R) by now apply Rmult_lt_0_compat. destruct (Rlt_dec 0 (x * y)); auto. exfalso. nra.
Qed.

Lemma variation_diminishing : forall s kv p a b us vs, well_formed s -> is_bspline s \/ positive_weights s ->
  knots_of s = [kv] -> degs_of s = [p] -> linked Rlt us ->
  Forall2 (fun u v => evaluate s [u] (zseq 0 (Z.to_nat (ph_dim (sp_ph s)))) = Ok v) us vs ->
  Forall (fun v => side a b v <> 0%R) vs -> alternating (map (side a b) vs) ->
  exists is, linked Z.lt is /\ length is = length us /\
    forall n u v i, nth_error us n = Some u -> nth_error vs n = Some v -> nth_error is n = Some i ->
      0 <= i < zlen kv - p - 1 /\ (knot kv (Z.to_nat i) <= u <= knot kv (Z.to_nat (i + p + 1)))%R /\
      (0 < side a b v * side a b (curve_point s i))%R.
Proof.
  intros s kv p a b us vs Hwf Hw Ek Ed Hinc Hev Hnz Halt.
  pose proof Hwf as [Hd _ Hnp _ _ _]. rewrite Ek, Ed in Hd. inversion Hd as [|? ? ? ? Hg _]; subst. pose proof Hg as (Hp & _ & Hn & _).
  set (c := fun i => (weight s [i] * side a b (curve_point s i))%R).
  (* spans of the parameters *)
  assert (Pars : exists xs, Forall2 (fun u x => pu x = u /\ pok (tk kv) x /\ in_span kv (pk x) u /\ p <= pk x < zlen kv - p - 1 /\
                                             (first_knot kv <= u <= final_knot kv)%R) us xs).
  { clear - Hwf Ek Hev Hg Ed. induction Hev as [|u v us vs Ev _ IH]; [exists []; constructor|]. destruct IH as (xs & IH).
    assert (Hu : (first_knot kv <= u <= final_knot kv)%R).
    { destruct (in_domain_dec dz s [u]) as [D|D]; [unfold in_domain in D; rewrite Ek in D; now inversion D|]. exfalso.
      assert (Hv : valid_dims s (zseq 0 (Z.to_nat (ph_dim (sp_ph s))))).
      { apply Forall_forall. intros c Hc. apply zseq_In in Hc. lia. }
      destruct (eval_safe dz s [u] _ [0] Hwf ltac:(rewrite Ek; reflexivity) Hv ltac:(rewrite Ed; reflexivity) ltac:(repeat constructor; lia)) as (_ & H2).
      destruct (H2 D) as [E _]. rewrite E in Ev. discriminate. }
    destruct (eval_direction dz kv p u Hg Hu) as (k & _ & Hs & Hk1 & Hk2).
    pose proof Hs as (A1 & A2 & A3 & A4 & A5).
    exists ({| pk := k; pu := u; pe := if Rlt_dec u (tk kv (k + 1)) then false else true; pm := 0 |} :: xs).
    constructor; auto. cbn [pu pk]. split; [auto|]. split; [|split; [auto | split; [lia | auto]]].
    unfold pok. cbn [pk pu pe pm]. split; [auto|]. split; [destruct (Rlt_dec u (tk kv (k + 1))); lra | intros j Hj; lia]. }
  destruct Pars as (xs & Hxs).
  assert (Val : Forall2 (fun x v => exists W, (0 < W)%R /\ V (tk kv) (pk x) (Z.to_nat p) c (pu x) = (W * side a b v)%R) xs vs).
  { clear - Hwf Hw Ek Ed Hev Hxs. revert vs Hev. induction Hxs as [|u x us xs (E & Hok & Hs & Hk & Hu) _ IH]; intros vs Hev; inversion Hev as [|? v ? vs' Ev Hev']; subst; constructor; auto.
    destruct (curve_side s kv p (pu x) (pk x) a b v Hwf Hw Ek Ed Hu Hs Hk Ev) as [W1 W2]. eauto. }
  destruct (diminishing (Z.to_nat p) _ (tk kv) c xs (le_n _)) as (is & Hwit & Hlt).
  - now apply tk_monotone.
  - clear - Hxs. induction Hxs as [|u x us xs (_ & H & _) _ IH]; constructor; auto.
  - refine (linked2 Rlt _ (fun u x => pu x = u) us xs _ Hinc _).
    + clear - Hxs. induction Hxs as [|u x us xs (E & _) _ IH]; constructor; auto.
    + intros u u' x x' <- <- H. exact H.
  - apply (linked2 (fun v v' => side a b v * side a b v' < 0)%R _ (fun v x => exists W, (0 < W)%R /\ V (tk kv) (pk x) (Z.to_nat p) c (pu x) = (W * side a b v)%R) vs xs).
    + clear - Val. induction Val; constructor; auto.
    + unfold alternating in Halt. now apply linked_map in Halt.
    + intros v v' x x' (W & HW & E) (W' & HW' & E') H. unfold opposite. rewrite E, E'.
      replace (W * side a b v * (W' * side a b v'))%R with ((W * W') * (side a b v * side a b v'))%R by ring.
      assert (0 < W * W')%R by now apply Rmult_lt_0_compat. nra.
  - clear - Val Hnz. induction Val as [|x v xs vs (W & HW & E) _ IH]; constructor.
    + rewrite E. apply Rmult_integral_contrapositive. split; [lra | now inversion Hnz].
    + apply IH. now inversion Hnz.
  - exists is. split; [exact Hlt|]. split; [rewrite <- (Forall2_len _ _ _ Hwit); symmetry; exact (Forall2_len _ _ _ Hxs)|].
    intros n u v i Eu Ev Ei. clear - Hwf Hw Ek Ed Hn Hp Hnp Hxs Val Hwit Eu Ev Ei.
    revert us vs is Hxs Val Hwit Eu Ev Ei. revert n. induction xs as [|x xs IH]; intros n us vs is Hxs Val Hwit Eu Ev Ei;
      inversion Hxs as [|u0 ? us0 ? X1 X2]; subst; inversion Val as [|? v0 ? vs0 V1 V2]; subst; inversion Hwit as [|? i0 ? is0 I1 I2]; subst;
      [destruct n; discriminate|].
    destruct n as [|n]; [|cbn in *; eapply IH; eauto]. cbn in Eu, Ev, Ei. injection Eu as ->. injection Ev as ->. injection Ei as ->.
    destruct X1 as (Xu & _ & Xs & Xk & _). destruct V1 as (W & HW & E). destruct I1 as (I1 & I3).
    assert (R1 : 0 <= i < zlen kv - p - 1) by lia. split; [exact R1|]. split.
    + rewrite <- !tk_knot' by lia. destruct Xs as (_ & _ & A3 & A4 & A5).
      pose proof (tk_monotone kv Hn i (pk x) ltac:(lia)). pose proof (tk_monotone kv Hn (pk x + 1) (i + p + 1) ltac:(lia)). destruct A5 as [A5|[A5 _]]; lra.
    + rewrite E in I3. unfold c in I3. apply (pos_sign W _ (weight s [i])); auto.
      destruct Hw as [Hb|Hb]; [unfold weight; rewrite Hb; lra|]. apply weight_positive; auto.
      rewrite Hnp, Ek, Ed. cbn [map2]. constructor; [lia | constructor].
Qed.

Lemma monotone_curve : forall s kv p c u v, well_formed s -> is_bspline s \/ positive_weights s ->
  knots_of s = [kv] -> degs_of s = [p] -> 0 <= c < ph_dim (sp_ph s) ->
  (forall i j, 0 <= i <= j -> j < zlen kv - p - 1 -> (coordinate s [i] c <= coordinate s [j] c)%R) ->
  (first_knot kv <= u)%R -> (u <= v)%R -> (v <= final_knot kv)%R ->
  exists x y, evaluate s [u] [c] = Ok [x] /\ evaluate s [v] [c] = Ok [y] /\ (x <= y)%R.
Proof.
  intros s kv p c u v Hwf Hw Ek Ed Hc Hmon Hu Huv Hv.
  assert (Hin : forall z, (first_knot kv <= z <= final_knot kv)%R -> in_domain s [z]) by (intros z Hz; unfold in_domain; rewrite Ek; constructor; auto).
  assert (HW : forall z, (first_knot kv <= z <= final_knot kv)%R -> weight_function s [z] <> 0%R).
  { intros z Hz. destruct (weight_function_facts dz s [z] Hwf (Hin z Hz)) as [W1 W2]. destruct Hw as [Hb|Hb]; [rewrite W1 by auto; lra | specialize (W2 Hb); lra]. }
  assert (Hvd : valid_dims s [c]) by (repeat constructor; lia).
  assert (Hva : valid_dims s (zseq 0 (Z.to_nat (ph_dim (sp_ph s))))) by (apply Forall_forall; intros d Hd; apply zseq_In in Hd; lia).
  set (f := fun z => (weighted_sum s [z] c / weight_function s [z])%R).
  exists (f u), (f v). rewrite !(eval_quotient dz s) by (auto; first [apply Hin; lra | apply HW; lra]).
  split; [reflexivity|]. split; [reflexivity|].
  destruct (Rle_dec (f u) (f v)) as [|N]; auto. exfalso.
  assert (u < v)%R by (destruct (Req_EM_T u v) as [E|E]; [rewrite E in N; lra | lra]).
  set (m := ((f u + f v) / 2)%R).
  set (a := fun d => if Z.eq_dec d c then 1%R else 0%R).
  assert (Sd : forall g : Z -> R, side a (- m) (map g (zseq 0 (Z.to_nat (ph_dim (sp_ph s))))) = (g c - m)%R).
  { intros g. rewrite side_map. rewrite (lsum_single _ _ c).
    - unfold a. destruct (Z.eq_dec c c); [ring | contradiction].
    - apply zseq_NoDup.
    - apply zseq_In. lia.
    - intros d _ Hd. unfold a. destruct (Z.eq_dec d c); [contradiction | ring]. }
  assert (Ef : forall z, (first_knot kv <= z <= final_knot kv)%R -> evaluate s [z] (zseq 0 (Z.to_nat (ph_dim (sp_ph s)))) =
     Ok (map (fun d => weighted_sum s [z] d / weight_function s [z])%R (zseq 0 (Z.to_nat (ph_dim (sp_ph s)))))).
  { intros z Hz. apply eval_quotient; auto. }
  set (pt := fun z => map (fun d => weighted_sum s [z] d / weight_function s [z])%R (zseq 0 (Z.to_nat (ph_dim (sp_ph s))))).
  assert (FA : Forall2 (fun z w => evaluate s [z] (zseq 0 (Z.to_nat (ph_dim (sp_ph s)))) = Ok w) [u; v] [pt u; pt v]).
  { constructor; [apply Ef; lra|]. constructor; [apply Ef; lra | constructor]. }
  destruct (variation_diminishing s kv p a (- m) [u; v] [pt u; pt v] Hwf Hw Ek Ed ltac:(cbn; auto) FA) as (is & L & Hl & Hi).
  - unfold pt. constructor; [|constructor; [|constructor]]; rewrite Sd; cbv beta; [fold (f u) | fold (f v)]; unfold m; intros E; lra.
  - unfold alternating, pt. cbn [map linked]. rewrite !Sd. cbv beta. fold (f u) (f v). split; [unfold m; nra | exact I].
  - destruct is as [|i [|j [|]]]; try discriminate. cbn in L. destruct L as (L & _).
    destruct (Hi 0%nat _ _ i eq_refl eq_refl eq_refl) as (R1 & _ & S1). destruct (Hi 1%nat _ _ j eq_refl eq_refl eq_refl) as (R2 & _ & S2).
    unfold curve_point, pt in S1, S2. rewrite !Sd in S1, S2. cbv beta in S1, S2. fold (f u) in S1. fold (f v) in S2.
    pose proof (Hmon i j ltac:(lia) ltac:(lia)).
    assert (0 < f u - m)%R by (unfold m; lra). assert (f v - m < 0)%R by (unfold m; lra).
    destruct (Rlt_dec m (coordinate s [i] c)) as [G1|G1]; [|nra]. destruct (Rlt_dec (coordinate s [j] c) m) as [G2|G2]; [lra | nra].
Qed.
End Dz.

Local Notation dz0 := (fun x : R => x).

(* a curve of degree 2 with weights that crosses the line y = 1 twice; its x coordinates increase *)
Lemma ex_variation : exists s : spline (Rops dz0), well_formed s /\ positive_weights s /\
  knots_of s = [[0; 0; 0; 1; 1; 2; 2; 2]%R] /\ degs_of s = [2] /\ ph_dim (sp_ph s) = 2 /\
  linked Rlt [0; 1; 2]%R /\
  Forall2 (fun u v => evaluate s [u] (zseq 0 (Z.to_nat (ph_dim (sp_ph s)))) = Ok v) [0; 1; 2]%R [[0; 0]; [2; 3]; [4; 0]]%R /\
  map (side (fun c => if Z.eq_dec c 1 then 1%R else 0%R) (-1)) [[0; 0]; [2; 3]; [4; 0]]%R = [-1; 2; -1]%R /\
  alternating [-1; 2; -1]%R /\
  (forall i j, 0 <= i <= j -> j < 5 -> (coordinate s [i] 0 <= coordinate s [j] 0)%R).
Proof.
  set (kv := [0; 0; 0; 1; 1; 2; 2; 2]%R).
  assert (Hg : good_direction kv 2).
  { split; [lia|]. split; [split; [cbn; lia|]; intros [|[|[|j]]] Hj; try lia; cbn; auto|].
    split; [unfold kv; nondec|]. split; [unfold kv; sepsolve | cbn; lra]. }
  assert (G : Forall2 good_direction [kv] [2]) by (constructor; [exact Hg | constructor]).
  set (pts := [[0; 0]; [1; 4]; [2; 3]; [3; 2]; [4; 0]]%R).
  destruct (spline_new_ok dz0 [kv] [2] pts (Some [1; 1; 2; 1; 1]%R) 2 G) as [H1 H2]; try lia; try reflexivity.
  { repeat constructor. } { intros w E; inversion E; reflexivity. }
  eexists. split; [exact H2|]. split; [eexists; split; [reflexivity | repeat constructor; lra]|].
  split; [reflexivity|]. split; [reflexivity|]. split; [reflexivity|]. split; [cbn; lra|].
  split; [|split; [|split; [cbn; lra|]]].
  - set (s := mkSpline _ _) in *.
    assert (Hpt : forall u k e i, pok (tk kv) {| pk := k; pu := u; pe := e; pm := 2 |} -> in_span kv k u -> 2 <= k < zlen kv - 2 - 1 ->
              i = (if e then k else k - 2) -> (weight s [i] <> 0)%R ->
              evaluate s [u] [0; 1] = Ok [coordinate s [i] 0; coordinate s [i] 1]).
    { intros u k e i Hp Hs Hk -> Hw.
      assert (Sum : forall c : list Z -> R, lsum (fun idx => basis_product (knots_of s) (degs_of s) [u] idx * c idx)%R (all_indices (npts_of s)) = c [if e then k else k - 2]).
      { intros c. rewrite (curve_sum dz0 s kv 2 u k c H2 eq_refl eq_refl Hs Hk).
        pose proof (V_full (tk kv) _ 2 (fun i => c [i]) (tk_monotone kv (proj1 (proj2 (proj2 Hg)))) Hp (le_n _)) as E. cbn [pk pu pe] in E.
        change (Z.to_nat 2) with 2%nat. rewrite E. reflexivity. }
      assert (W : weight_function s [u] = weight s [if e then k else k - 2]) by (apply Sum).
      rewrite (eval_quotient dz0 s [u]).
      - cbn [map]. unfold weighted_sum. rewrite W, !(Sum (fun idx => weight s idx * coordinate s idx _)%R).
        repeat f_equal; field; exact Hw.
      - exact H2.
      - pose proof Hs as (A1 & A2 & A3 & A4 & A5). constructor; [|constructor].
        pose proof (tk_ge_first kv k (proj1 (proj2 (proj2 Hg)))). pose proof (tk_le_final kv (k + 1) (proj1 (proj2 (proj2 Hg)))).
        fold kv. destruct A5 as [A5|[A5 _]]; lra.
      - repeat constructor; cbn; lia.
      - rewrite W. exact Hw. }
    assert (T1 : tk kv 1 = 0%R) by reflexivity. assert (T2 : tk kv 2 = 0%R) by reflexivity. assert (T3 : tk kv 3 = 1%R) by reflexivity.
    assert (T4 : tk kv 4 = 1%R) by reflexivity. assert (T5 : tk kv 5 = 2%R) by reflexivity. assert (T6 : tk kv 6 = 2%R) by reflexivity.
    constructor; [|constructor; [|constructor; [|constructor]]].
    + refine (Hpt 0%R 2 false 0 _ _ ltac:(change (zlen kv) with 8; lia) eq_refl _); [| |change (weight s [0]) with 1%R; lra].
      * unfold pok. cbn [pk pu pe pm]. change (2 + 1) with 3. rewrite T2, T3. split; [lra|]. split; [lra|].
        intros j Hj. assert (Ej : j = 1 \/ j = 2) by lia. destruct Ej as [->| ->]; [exact T2 | exact T1].
      * unfold in_span. change (zlen kv) with 8. change (2 + 1) with 3. rewrite T2, T3. split; [lia|]. split; [lia|]. lra.
    + refine (Hpt 1%R 4 false 2 _ _ ltac:(change (zlen kv) with 8; lia) eq_refl _); [| |change (weight s [2]) with 2%R; lra].
      * unfold pok. cbn [pk pu pe pm]. change (4 + 1) with 5. rewrite T4, T5. split; [lra|]. split; [lra|].
        intros j Hj. assert (Ej : j = 1 \/ j = 2) by lia. destruct Ej as [->| ->]; [exact T4 | exact T3].
      * unfold in_span. change (zlen kv) with 8. change (4 + 1) with 5. rewrite T4, T5. split; [lia|]. split; [lia|]. lra.
    + refine (Hpt 2%R 4 true 4 _ _ ltac:(change (zlen kv) with 8; lia) eq_refl _); [| |change (weight s [4]) with 1%R; lra].
      * unfold pok. cbn [pk pu pe pm]. change (4 + 1) with 5. rewrite T4, T5. split; [lra|]. split; [lra|].
        intros j Hj. assert (Ej : j = 1 \/ j = 2) by lia. destruct Ej as [->| ->]; [exact T5 | exact T6].
      * unfold in_span. change (zlen kv) with 8. change (4 + 1) with 5. change (final_knot kv) with 2%R. rewrite T4, T5. split; [lia|]. split; [lia|]. lra.
  - unfold side. cbn [map length zseq lsum nth]. 
    repeat match goal with |- context [Z.eq_dec ?a ?b] => destruct (Z.eq_dec a b); [try (exfalso; lia)|try (exfalso; lia)] end.
    change (Z.to_nat 0) with 0%nat. change (Z.to_nat (0 + 1)) with 1%nat. cbn [nth]. f_equal; [lra | f_equal; [lra | f_equal; lra]].
  - set (s := mkSpline _ _).
    assert (C : forall i, 0 <= i < 5 -> coordinate s [i] 0 = IZR i).
    { intros i Hi. assert (Ei : i = 0 \/ i = 1 \/ i = 2 \/ i = 3 \/ i = 4) by lia. destruct Ei as [->|[->|[->|[->| ->]]]]; reflexivity. }
    intros i j Hi Hj. rewrite !C by lia. apply IZR_le. lia.
Qed.
