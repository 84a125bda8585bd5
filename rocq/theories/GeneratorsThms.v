(* Closing lemmas and examples for the generated surfaces and linear precision. *)
From Coq Require Import ZArith List Lia Bool Reals Lra Floats.
From Verif Require Import Base BaseFacts RSum MultiIndex MultiIndexSpec MultiIndexFacts KnotVec KnotVecSpec KnotVecFacts KnotVecThms
  Basis BasisSpec BasisFacts BasisThms Spaces SpacesSpec SpacesFacts SplineEval SplineSpec SplineNew EvalFacts EvalThms EqualThms IgaBasisThms
  VtkSpec VtkFacts Generators GeneratorsSpec GeneratorsFacts SquareFacts GrevilleSpec GrevilleFacts.
Import ListNotations.
Open Scope Z_scope.

Section Square.
Context {dz : R -> R}.
Notation F := (Rops dz).
Implicit Types s : spline F.

Lemma each_coordinate s us dims (f : Z -> R) : well_formed s -> is_bspline s -> in_domain s us -> valid_dims s dims ->
  (forall c, In c dims -> evaluate s us [c] = Ok [f c]) -> evaluate s us dims = Ok (map f dims).
Proof.
  intros Hwf Hb Hu Hv H. assert (EW := weight_function_bspline dz s us Hwf Hb Hu).
  rewrite (eval_quotient dz) by (auto; rewrite EW; lra). f_equal. apply map_ext_in. intros c Hc.
  specialize (H c Hc). unfold valid_dims in Hv. rewrite Forall_forall in Hv. specialize (Hv c Hc).
  rewrite (eval_quotient dz) in H by (auto; try (repeat constructor; lia); rewrite EW; lra). cbn [map] in H. congruence.
Qed.

Lemma square_domain s kv u v : knots_of s = [kv; kv] -> first_knot kv = 0%R -> final_knot kv = 1%R ->
  (0 <= u <= 1)%R -> (0 <= v <= 1)%R -> in_domain s [u; v].
Proof. intros E E0 E1 Hu Hv. unfold in_domain. rewrite E. constructor; [lra|]. constructor; [lra | constructor]. Qed.

Lemma square_shape : forall p n, 1 <= p -> 2 * p + 2 <= n < 2 ^ 31 ->
  exists s, create_square (F := F) p n = Ok s /\ well_formed s /\ is_bspline s /\ ph_dim (sp_ph s) = 2 /\
    degs_of s = [p; p] /\ npts_of s = [n - p - 1; n - p - 1] /\
    (exists kv, knots_of s = [kv; kv] /\ zlen kv = n /\ forall i, 0 <= i < n -> knot kv (Z.to_nat i) = uniform_knot p n i) /\
    forall x y, 0 <= x < n - p - 1 -> 0 <= y < n - p - 1 ->
      coordinate s [x; y] 0 = spread (n - p - 1) x /\ coordinate s [x; y] 1 = spread (n - p - 1) y.
Proof. exact square_ok. Qed.

Lemma created p n s : 1 <= p -> 2 * p + 2 <= n < 2 ^ 31 -> create_square (F := F) p n = Ok s ->
  exists kv, well_formed s /\ is_bspline s /\ ph_dim (sp_ph s) = 2 /\
    degs_of s = [p; p] /\ npts_of s = [n - p - 1; n - p - 1] /\ knots_of s = [kv; kv] /\ zlen kv = n /\
    (forall i, 0 <= i < n -> knot kv (Z.to_nat i) = uniform_knot p n i) /\
    (good_direction kv p /\ first_knot kv = 0%R /\ final_knot kv = 1%R /\ exact_ends kv p) /\
    forall x y, 0 <= x < n - p - 1 -> 0 <= y < n - p - 1 ->
      coordinate s [x; y] 0 = spread (n - p - 1) x /\ coordinate s [x; y] 1 = spread (n - p - 1) y.
Proof.
  intros Hp Hn E. destruct (square_ok (dz := dz) p n Hp Hn) as (s' & E' & W & B & D & G & N & (kv & K & L & V) & C).
  assert (s' = s) by congruence. subst s'. exists kv. pose proof (uniform_good p n kv ltac:(lia) Hn L V). auto 12.
Qed.

Lemma spread_ends m : 2 <= m -> spread m 0 = (-1)%R /\ spread m (m - 1) = 1%R.
Proof.
  intros Hm. unfold spread. assert (H1 : (0 < IZR (m - 1))%R) by (apply (IZR_lt 0); lia). split; field; lra.
Qed.

Lemma square_corners : forall p n s, 1 <= p -> 2 * p + 2 <= n < 2 ^ 31 -> create_square (F := F) p n = Ok s ->
  evaluate s [0; 0]%R [0; 1] = Ok [-1; -1]%R /\ evaluate s [1; 0]%R [0; 1] = Ok [1; -1]%R /\
  evaluate s [0; 1]%R [0; 1] = Ok [-1; 1]%R /\ evaluate s [1; 1]%R [0; 1] = Ok [1; 1]%R.
Proof.
  intros p n s Hp Hn E. destruct (created p n s Hp Hn E) as (kv & W & B & D & G & N & K & L & V & (Hg & E0 & E1 & Hx) & C).
  set (m := n - p - 1) in *. destruct (spread_ends m ltac:(unfold m; lia)) as (S0 & S1).
  assert (Q : forall a b, evaluate s [end_value kv a; end_value kv b] [0; 1] =
             Ok [spread m (end_index m a); spread m (end_index m b)]).
  { intros a b. pose proof (corner_interpolation dz s [a; b] [0; 1] W) as I. rewrite K, G, N in I. cbn [map2 length] in I.
    rewrite I; auto.
    - cbn [map]. assert (Hb : forall e, 0 <= end_index m e < m) by (intros []; unfold end_index, m; lia).
      destruct (C _ _ (Hb a) (Hb b)) as (-> & ->). reflexivity.
    - unfold valid_dims. rewrite D. repeat constructor; lia.
    - unfold weight. rewrite B. lra. }
  pose proof (Q false false) as Q0. pose proof (Q true false) as Q1. pose proof (Q false true) as Q2. pose proof (Q true true) as Q3.
  cbn [end_value end_index] in *. rewrite E0, E1, S0, S1 in *. auto.
Qed.

Lemma square_product : forall p n s u v, 1 <= p -> 2 * p + 2 <= n < 2 ^ 31 -> create_square (F := F) p n = Ok s ->
  (0 <= u <= 1)%R -> (0 <= v <= 1)%R ->
  exists kv, knots_of s = [kv; kv] /\
    evaluate s [u; v] [0; 1] = Ok [spread_curve kv p (n - p - 1) u; spread_curve kv p (n - p - 1) v] /\
    (-1 <= spread_curve kv p (n - p - 1) u <= 1)%R /\ (-1 <= spread_curve kv p (n - p - 1) v <= 1)%R.
Proof.
  intros p n s u v Hp Hn E Hu Hv. destruct (created p n s Hp Hn E) as (kv & W & B & D & G & N & K & L & V & (Hg & E0 & E1 & Hx) & C).
  exists kv. split; auto. set (m := n - p - 1) in *. pose proof (square_domain s kv u v K E0 E1 Hu Hv) as Hd.
  assert (EW := weight_function_bspline dz s _ W B Hd).
  assert (Hm : zlen kv - p - 1 = m) by (unfold m; lia).
  pose proof (basis_sum_one dz kv p u Hg ltac:(lra) ltac:(lia)) as Pu. pose proof (basis_sum_one dz kv p v Hg ltac:(lra) ltac:(lia)) as Pv.
  rewrite Hm in Pu, Pv.
  assert (Hdims : valid_dims s [0; 1]) by (unfold valid_dims; rewrite D; repeat constructor; lia).
  assert (X0 : weighted_sum s [u; v] 0 = spread_curve kv p m u).
  { unfold weighted_sum, spread_curve. rewrite N, K, G, lsum_indices_2. apply lsum_ext. intros x Hx'. apply zseq_In in Hx'.
    transitivity (lsum (fun y => (cox_de_boor kv (Z.to_nat p) (Z.to_nat x) u * spread m x) * cox_de_boor kv (Z.to_nat p) (Z.to_nat y) v)%R (zseq 0 (Z.to_nat m))).
    - apply lsum_ext. intros y Hy. apply zseq_In in Hy. destruct (C x y ltac:(lia) ltac:(lia)) as (-> & _).
      unfold weight. rewrite B. cbn [basis_product]. ring.
    - rewrite lsum_scal, Pv. ring. }
  assert (X1 : weighted_sum s [u; v] 1 = spread_curve kv p m v).
  { unfold weighted_sum, spread_curve. rewrite N, K, G, lsum_indices_2, lsum_swap. apply lsum_ext. intros y Hy. apply zseq_In in Hy.
    transitivity (lsum (fun x => (cox_de_boor kv (Z.to_nat p) (Z.to_nat y) v * spread m y) * cox_de_boor kv (Z.to_nat p) (Z.to_nat x) u)%R (zseq 0 (Z.to_nat m))).
    - apply lsum_ext. intros x Hx'. apply zseq_In in Hx'. destruct (C x y ltac:(lia) ltac:(lia)) as (_ & ->).
      unfold weight. rewrite B. cbn [basis_product]. ring.
    - rewrite lsum_scal, Pu. ring. }
  assert (Ev : evaluate s [u; v] [0; 1] = Ok [spread_curve kv p m u; spread_curve kv p m v]).
  { rewrite (eval_quotient dz) by (auto; rewrite EW; lra). cbn [map]. rewrite EW, X0, X1. unfold Rdiv. rewrite Rinv_1, !Rmult_1_r. reflexivity. }
  split; [exact Ev|].
  assert (Bd : forall c, c = 0 \/ c = 1 -> exists q, evaluate s [u; v] [c] = Ok [q] /\ (-1 <= q <= 1)%R).
  { intros c Hc. apply (convex_bounds dz); auto; [rewrite D; lia|]. intros idx Hi. apply all_indices_box in Hi. rewrite N in Hi.
    inversion Hi as [|? x ? ? Hx' Hr]; subst. inversion Hr as [|? y ? ? Hy Hz]; subst. inversion Hz; subst.
    destruct (C x y ltac:(lia) ltac:(lia)) as (C0 & C1). destruct Hc as [-> | ->]; rewrite ?C0, ?C1; apply spread_bounds; unfold m; lia. }
  assert (V0 : valid_dims s [0]) by (unfold valid_dims; rewrite D; repeat constructor; lia).
  assert (V1 : valid_dims s [1]) by (unfold valid_dims; rewrite D; repeat constructor; lia).
  destruct (Bd 0 (or_introl eq_refl)) as (q0 & Q0 & B0). destruct (Bd 1 (or_intror eq_refl)) as (q1 & Q1 & B1).
  rewrite (eval_quotient dz) in Q0 by (auto; rewrite EW; lra). rewrite (eval_quotient dz) in Q1 by (auto; rewrite EW; lra).
  cbn [map] in Q0, Q1. rewrite EW, X0 in Q0. rewrite EW, X1 in Q1. unfold Rdiv in Q0, Q1. rewrite Rinv_1, Rmult_1_r in Q0, Q1.
  injection Q0 as <-. injection Q1 as <-. auto.
Qed.

(* equally spaced coefficients are the Greville points when p = 1 or there are no interior knots *)
Lemma uniform_greville p n kv i : 1 <= p -> 2 * p + 2 <= n -> zlen kv = n ->
  (forall j, 0 <= j < n -> knot kv (Z.to_nat j) = uniform_knot p n j) -> p = 1 \/ n = 2 * p + 2 -> 0 <= i < n - p - 1 ->
  greville kv p i = (IZR i / IZR (n - p - 2))%R.
Proof.
  intros Hp Hn L V Hc Hi. unfold greville.
  assert (S : lsum (fun j => knot kv (Z.to_nat (i + j)%Z)) (zseq 1 (Z.to_nat p)) = lsum (fun j => uniform_knot p n (i + j)%Z) (zseq 1 (Z.to_nat p))).
  { apply lsum_ext. intros j Hj. apply zseq_In in Hj. apply V. lia. }
  rewrite S. clear S. destruct Hc as [-> | ->].
  - change (Z.to_nat 1) with 1%nat. cbn [zseq lsum]. unfold uniform_knot.
    assert (H1 : (0 < IZR (n - 1 - 2))%R) by (apply (IZR_lt 0); lia).
    destruct (Z.leb_spec (i + 1) 1).
    + replace i with 0 by lia. field. lra.
    + destruct (Z.ltb_spec (i + 1) (n - 1 - 1)).
      * replace (i + 1 - 1) with i by lia. replace (n - 2 * 1 - 1) with (n - 1 - 2) by lia. field. lra.
      * replace i with (n - 1 - 2) by lia. field. lra.
  - replace (2 * p + 2 - p - 2) with p by lia. f_equal.
    assert (G : forall k, 0 <= k <= p -> lsum (fun j => uniform_knot p (2 * p + 2) (i + j)%Z) (zseq 1 (Z.to_nat k)) = IZR (Z.max 0 (i + k - p))).
    { intros k Hk. replace k with (Z.of_nat (Z.to_nat k)) in * by lia. remember (Z.to_nat k) as q. clear k Heqq.
      rewrite Nat2Z.id. induction q as [|q IH].
      - cbn [zseq lsum]. f_equal. lia.
      - rewrite lsum_zseq_S, IH by lia. unfold uniform_knot.
        destruct (Z.leb_spec (i + (1 + Z.of_nat q)) p).
        + rewrite Rplus_0_r. f_equal. lia.
        + destruct (Z.ltb_spec (i + (1 + Z.of_nat q)) (2 * p + 2 - p - 1)); [lia|]. rewrite <- plus_IZR. f_equal. lia. }
    rewrite G by lia. f_equal. lia.
Qed.

Lemma square_affine : forall p n s u v, 1 <= p -> 2 * p + 2 <= n < 2 ^ 31 -> create_square (F := F) p n = Ok s ->
  p = 1 \/ n = 2 * p + 2 -> (0 <= u <= 1)%R -> (0 <= v <= 1)%R -> evaluate s [u; v] [0; 1] = Ok [2 * u - 1; 2 * v - 1]%R.
Proof.
  intros p n s u v Hp Hn E Hc Hu Hv. destruct (created p n s Hp Hn E) as (kv & W & B & D & G & N & K & L & V & (Hg & E0 & E1 & Hx) & C).
  pose proof (square_domain s kv u v K E0 E1 Hu Hv) as Hd.
  assert (Hm : (0 < IZR (n - p - 2))%R) by (apply (IZR_lt 0); lia).
  assert (A : forall (c : Z) (bu bv : R), (c = 0 /\ bu = 2%R /\ bv = 0%R) \/ (c = 1 /\ bu = 0%R /\ bv = 2%R) -> evaluate s [u; v] [c] = Ok [-1 + (bu * u + (bv * v + 0))]%R).
  { intros c bu bv Hcb. apply (linear_precision s [u; v] c (-1)%R [bu; bv]); auto.
    - rewrite D. lia.
    - rewrite G. repeat constructor; lia.
    - now rewrite K.
    - intros idx Hi. apply all_indices_box in Hi. rewrite N in Hi.
      inversion Hi as [|? x ? ? Hx' Hr]; subst. inversion Hr as [|? y ? ? Hy Hz]; subst. inversion Hz; subst.
      rewrite K, G. cbn [greville_combination]. destruct (C x y ltac:(lia) ltac:(lia)) as (C0 & C1).
      rewrite !(uniform_greville p (zlen kv) kv) by (auto; lia).
      destruct Hcb as [(-> & -> & ->) | (-> & -> & ->)]; rewrite ?C0, ?C1; unfold spread; replace (zlen kv - p - 1 - 1) with (zlen kv - p - 2) by lia; field; lra. }
  rewrite (each_coordinate s [u; v] [0; 1] (fun c => if c =? 0 then 2 * u - 1 else 2 * v - 1)%R); auto.
  - unfold valid_dims. rewrite D. repeat constructor; lia.
  - intros c [<- |[<- |[]]].
    + rewrite (A 0 2%R 0%R) by auto. do 2 f_equal. change (0 =? 0) with true. cbv iota. ring.
    + rewrite (A 1 0%R 2%R) by auto. do 2 f_equal. change (1 =? 0) with false. cbv iota. ring.
Qed.

Lemma square_too_few : forall p n, n < 2 * p + 2 -> create_square (F := F) p n = UB.
Proof. intros p n H. unfold create_square, square_pspace, square_knots. destruct (Z.ltb_spec n (2 * p + 2)); [reflexivity|lia]. Qed.
End Square.

(* degree 1, 6 knots in double arithmetic: the accumulated coordinate of the last column is below 1 *)
Definition float_corner : bool :=
  match create_square (F := Fops) 1 6 with
  | Ok s => match evaluate s [1; 1]%float [0; 1] with
            | Ok [x; y] => (x <? 1)%float && (y <? 1)%float
            | _ => false
            end
  | _ => false
  end.
Lemma square_rounding : exists s x y, create_square (F := Fops) 1 6 = Ok s /\
  evaluate s [1; 1]%float [0; 1] = Ok [x; y] /\ (x <? 1)%float = true /\ (y <? 1)%float = true.
Proof.
  assert (E : float_corner = true) by (vm_compute; reflexivity). unfold float_corner in E.
  destruct (create_square 1 6) as [s|e|]; try discriminate. 
  destruct (evaluate s [1; 1]%float [0; 1]) as [[|x [|y [|]]]|e|] eqn:Ev; try discriminate.
  apply andb_true_iff in E. destruct E as (E1 & E2). exists s, x, y. auto.
Qed.

(* ---- examples ---- *)
Definition ex_trajectory : spline (Rops (fun x => x)) :=
  mkSpline (F := Rops (fun x => x)) (mkps _ [[0; 0; 1; 1]%R] [1]) (mkPhys (F := Rops (fun x => x)) 2 [2] [0; 0; 3; 1]%R (Some [1; 2]%R)).
Definition ex_section : spline (Rops (fun x => x)) :=
  mkSpline (F := Rops (fun x => x)) (mkps _ [[0; 0; 1; 1]%R] [1]) (mkPhys (F := Rops (fun x => x)) 2 [2] [0; 1; 1; 5]%R (Some [3; 1]%R)).
Lemma ex_curves : well_formed ex_trajectory /\ well_formed ex_section /\ positive_weights ex_trajectory /\ positive_weights ex_section /\
  length (knots_of ex_trajectory) = 1%nat /\ length (knots_of ex_section) = 1%nat /\
  ph_dim (sp_ph ex_trajectory) <= ph_dim (sp_ph ex_section) /\ total (npts_of ex_trajectory) * total (npts_of ex_section) < 2 ^ 64 /\
  in_domain ex_trajectory [1/2]%R /\ in_domain ex_section [1/3]%R /\ valid_dims ex_trajectory [0; 1].
Proof.
  split.
  { apply (spline_new_ok _ [[0; 0; 1; 1]%R] [1] [[0; 0]; [3; 1]]%R (Some [1; 2]%R) 2 ex_line_good); try reflexivity; try lia.
    - repeat constructor.
    - intros w E. inversion E. reflexivity. }
  split.
  { apply (spline_new_ok _ [[0; 0; 1; 1]%R] [1] [[0; 1]; [1; 5]]%R (Some [3; 1]%R) 2 ex_line_good); try reflexivity; try lia.
    - repeat constructor.
    - intros w E. inversion E. reflexivity. }
  split; [eexists; split; [reflexivity|]; repeat constructor; lra|].
  split; [eexists; split; [reflexivity|]; repeat constructor; lra|].
  split; [reflexivity|]. split; [reflexivity|]. split; [cbn; lia|]. split; [cbn; lia|].
  split; [constructor; [cbn; lra | constructor]|]. split; [constructor; [cbn; lra | constructor]|].
  unfold valid_dims. cbn. repeat constructor; lia.
Qed.

Definition ex_flat : spline (Rops (fun x => x)) :=
  mkSpline (F := Rops (fun x => x)) (mkps _ [[0; 0; 0; 1; 2; 2; 2]%R] [2]) (mkPhys (F := Rops (fun x => x)) 1 [4] [0; 1/2; 3/2; 2]%R None).
Lemma ex_flat_ok : well_formed ex_flat /\ is_bspline ex_flat /\ in_domain ex_flat [7/4]%R /\ 
  Forall (fun p => 1 <= p) (degs_of ex_flat) /\
  (forall idx, In idx (all_indices (npts_of ex_flat)) -> coordinate ex_flat idx 0 = 0 + greville_combination (knots_of ex_flat) (degs_of ex_flat) [1]%R idx)%R.
Proof.
  split.
  { apply (spline_new_ok _ [[0; 0; 0; 1; 2; 2; 2]%R] [2] [[0]; [1/2]; [3/2]; [2]]%R None 1); try reflexivity; try lia.
    - constructor; [|constructor]. split; [lia|]. split; [split; [cbn; lia|]; intros [|[|[|j]]] Hj; try lia; cbn; auto|].
      split; [nondec|]. split; [sepsolve | cbn; lra].
    - repeat constructor.
    - discriminate. }
  split; [reflexivity|]. split; [constructor; [cbn; lra | constructor]|]. split; [repeat constructor; cbn; lia|].
  intros idx Hi. cbn in Hi. 
  assert (H0 : zseq 1 (Z.to_nat 2) = [1; 2]) by reflexivity.
  repeat (destruct Hi as [<- |Hi]; [unfold coordinate; change (degs_of ex_flat) with [2]; change (knots_of ex_flat) with [[0; 0; 0; 1; 2; 2; 2]%R];
    cbn [greville_combination]; unfold greville; rewrite H0; cbn [lsum]; unfold knot; cbn; cbv [Pos.to_nat Pos.iter_op Nat.add nth];
    match goal with |- @eq _ ?a ?b => change (@eq R a b) end; field|]). contradiction.
Qed.
