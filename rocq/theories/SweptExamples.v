(* Examples for swept surfaces (C60). *)
From Coq Require Import ZArith List Lia Bool Reals Lra Floats.
From Verif Require Import Base BaseFacts RSum MultiIndex MultiIndexSpec MultiIndexFacts KnotVec KnotVecSpec KnotVecFacts
  Basis BasisSpec BSplineTheory BasisFacts Spaces SpacesSpec SpacesFacts SplineEval SplineSpec SplineNew RationalDeriv EvalFacts EvalDeriv EvalThms
  DegreeFacts VtkThms GeneratorsFacts TensorSum IgaSystemSpec IgaFaceFacts KnotVecThms BasisThms EqualThms Swept SweptSpec SweptFacts SweptThms.
Import ListNotations.
Open Scope Z_scope.

Section Plain.
Context {dz : R -> R}.
Notation F := (Rops dz).
Implicit Types t c s : spline F.

(* derivatives of a spline whose weights are all one *)
Lemma rr_plain f n a W m : W (zeros n) = 1%R -> (forall j, In j (tl (orders m)) -> W j = 0%R) -> rr dz (S f) n a W m = a m.
Proof.
  intros H0 H. cbn [rr]. rewrite (lsum_zero _ (tl (orders m))).
  - rewrite ndiv_R by lra. rewrite H0. field.
  - intros j Hj. rewrite H by auto. ring.
Qed.

Lemma plain_derivative t (kv : list R) (p sp k : Z) (u : R) (w : list R) : well_formed t -> knots_of t = [kv] -> degs_of t = [p] -> in_domain t [u] -> in_span kv sp u ->
  ph_wts (sp_ph t) = Some w -> (forall i, 0 <= i < zlen kv - p - 1 -> weight t [i] = 1%R) -> 0 <= k ->
  (forall j, 1 <= j <= k -> lsum (fun i => DB (tk kv) sp (Z.to_nat j) (Z.to_nat p) i u) (zseq 0 (Z.to_nat (zlen kv - p - 1))) = 0%R) ->
  forall c : Z, 0 <= c < ph_dim (sp_ph t) ->
  only_value (evaluate_derivative t [u] [c] [k]) = lsum (fun i => DB (tk kv) sp (Z.to_nat k) (Z.to_nat p) i u * coordinate t [i] c)%R (zseq 0 (Z.to_nat (zlen kv - p - 1))).
Proof.
  intros Wt Kt Gt Hu Hsp Hw Hone Hk Hz c Hc.
  destruct (wf_dirs dz t [u] Wt Hu) as (L & HwfL & Eu & H0). pose proof HwfL as (HL & _).
  destruct (wfL_of dz t L HwfL) as (E1 & E2 & E3).
  destruct L as [|x [|y L]]; try discriminate. cbn [map] in *. injection Eu as Eu. rewrite Kt in E1. injection E1 as E1. rewrite Gt in E2. injection E2 as E2.
  inversion HL as [|? ? (G1 & G2 & G3 & G4) _]; subst. 
  assert (dsp x = sp) as <- by (destruct G1 as (_ & _ & ? & _); eapply in_span_unique; eauto).
  change [du x] with (map du [x]). rewrite (evaluate_derivative_ok dz t [x] [c] [k]); auto; try (repeat constructor; lia).
  cbn [map only_value]. unfold dvalue. rewrite Hw.
  assert (Hwi : forall idx, In idx (all_indices (npts_of t)) -> weight t idx = 1%R).
  { intros idx Hi. rewrite E3 in Hi. apply all_indices_box in Hi. inversion Hi as [|? i ? ? Hi' Hr]; subst. inversion Hr; subst. now apply Hone. }
  assert (HW : forall j, 0 <= j -> Wval dz t [x] [j] = lsum (fun i => DB (tk (dk x)) (dsp x) (Z.to_nat j) (Z.to_nat (dp x)) i (du x)) (zseq 0 (Z.to_nat (zlen (dk x) - dp x - 1)))).
  { intros j Hj. unfold Wval. cbn [facs withm map2 map tsum]. unfold drange, dlen. apply lsum_ext. intros i Hi. apply zseq_In in Hi. rewrite Hone by lia. unfold dfactor, setm. cbn. ring. }
  assert (W0 : Wval dz t [x] (zeros 1) = 1%R).
  { change (zeros 1) with [0]. rewrite HW by lia. rewrite <- (dfactor_sum dz x); [|now inversion HL|now inversion H0]. unfold drange, dlen. apply lsum_ext.
    intros i _. unfold dfactor. inversion H0 as [|? ? Hx _]; subst. now rewrite Hx. }
  assert (Hr : forall idx, rval dz t [x] idx [k] = Aval dz t [x] idx [k]).
  { intros idx. unfold rval. apply rr_plain; [exact W0|]. intros j Hj. destruct (orders_tail [k]) as (tl' & _ & Et & Ht); [repeat constructor; lia|].
    rewrite Et in Hj. destruct (Ht j Hj) as (Hb & Hp). inversion Hb as [|j0 ? js ? Hj0 Hjs]; subst. inversion Hjs; subst.
    unfold osum in Hp. cbn in Hp. rewrite HW by lia. apply Hz. lia. }
  pose proof (visited_sum dz (withm [x] [k]) (fun idx => coordinate t idx c)) as V.
  assert (G : Forall (good_dir dz) (withm [x] [k])) by (apply withm_good; auto; repeat constructor; lia). specialize (V G).
  cbn [withm map2 map] in V. unfold Evis, Eidx. cbn [map].
  transitivity (tsum [dfactor (setm x k)] [drange (setm x k)] (fun idx => coordinate t idx c)).
  - rewrite <- V. apply lsum_ext. intros cur Hcur. rewrite Hr. unfold Aval. pose proof (visited_active dz [x] cur HL Hcur) as Ha. cbn [map] in Ha.
    cbv zeta. rewrite Hwi; [rewrite Rmult_1_r; reflexivity|]. rewrite all_indices_box, E3. apply (active_box dz); auto.
  - cbn [tsum]. unfold drange, dlen, dfactor, setm. cbn [dk dp du dsp dm]. reflexivity.
Qed.

Fixpoint against (b x : list R) : R := match b, x with b0 :: b', x0 :: x' => (b0 * x0 + against b' x')%R | _, _ => 0%R end.
Lemma against_lsum (f g : Z -> R) l : against (map f l) (map g l) = lsum (fun i => f i * g i)%R l.
Proof. induction l as [|i l IH]; cbn [map against lsum]; [reflexivity|]. now rewrite IH. Qed.
Lemma sum_lsum (f : Z -> R) l : fold_right Rplus 0%R (map f l) = lsum f l.
Proof. induction l as [|i l IH]; cbn [map fold_right lsum]; [reflexivity|]. now rewrite IH. Qed.

Lemma plain_slopes t (kv : list R) (p sp : Z) (u : R) (w b1 b2 : list R) : well_formed t -> knots_of t = [kv] -> degs_of t = [p] -> in_domain t [u] -> in_span kv sp u ->
  ph_wts (sp_ph t) = Some w -> (forall i, 0 <= i < zlen kv - p - 1 -> weight t [i] = 1%R) -> ph_dim (sp_ph t) = 3 ->
  let l := zseq 0 (Z.to_nat (zlen kv - p - 1)) in let x (c : Z) := map (fun i => coordinate t [i] c) l in
  map (fun i => DB (tk kv) sp 1 (Z.to_nat p) i u) l = b1 -> map (fun i => DB (tk kv) sp 2 (Z.to_nat p) i u) l = b2 ->
  fold_right Rplus 0%R b1 = 0%R -> fold_right Rplus 0%R b2 = 0%R ->
  derivative_at t 1 u = (against b1 (x 0), against b1 (x 1), against b1 (x 2)) /\ derivative_at t 2 u = (against b2 (x 0), against b2 (x 1), against b2 (x 2)).
Proof.
  intros Wt Kt Gt Hu Hs Hw H1 D l x E1 E2 S1 S2.
  assert (Z1 : forall j, 1 <= j <= 2 -> lsum (fun i => DB (tk kv) sp (Z.to_nat j) (Z.to_nat p) i u) l = 0%R).
  { intros j Hj. rewrite <- sum_lsum. assert (j = 1 \/ j = 2) as [-> | ->] by lia; [change (Z.to_nat 1) with 1%nat; rewrite E1|change (Z.to_nat 2) with 2%nat; rewrite E2]; auto. }
  assert (P : forall k, 1 <= k <= 2 -> forall c : Z, 0 <= c < 3 -> only_value (evaluate_derivative t [u] [c] [k]) = against (map (fun i => DB (tk kv) sp (Z.to_nat k) (Z.to_nat p) i u) l) (x c)).
  { intros k Hk c Hc. unfold x. rewrite against_lsum. apply (plain_derivative t kv p sp k u w); auto; try lia. intros j Hj. apply Z1. lia. }
  unfold derivative_at. rewrite !P by lia. change (Z.to_nat 1) with 1%nat. change (Z.to_nat 2) with 2%nat. rewrite E1, E2. split; reflexivity.
Qed.
End Plain.

(* values of the basis functions on closed knot vectors *)
Ltac steps := repeat match goal with |- context [Z.eq_dec ?a ?b] => destruct (Z.eq_dec a b); [try (exfalso; lia)|try (exfalso; lia)] end.
Ltac knot_values kv := repeat match goal with |- context [tk kv ?j] =>
  let n := eval vm_compute in (Z.to_nat (Z.min j (Z.of_nat 1000))) in
  let v := eval cbv [kv nth] in (nth n kv 0%R) in
  replace (tk kv j) with v by reflexivity end.
Ltac quots := repeat match goal with |- context [quot0 ?a ?b] =>
   first [ replace (quot0 a b) with 0%R by (symmetry; unfold quot0; destruct (Req_EM_T b 0); [reflexivity|exfalso; lra])
         | rewrite (quot0_den a b) by lra ] end.
Ltac basis kv := cbn [map DB B]; steps; knot_values kv; quots; cbn [INR].

Definition arc_knots : list R := [0; 0; 0; 1; 1; 1]%R.
Lemma arc_basis1 : forall u, map (fun i => DB (tk arc_knots) 2 1 2 i u) [0; 1; 2] = [2 * u - 2; 2 - 4 * u; 2 * u]%R.
Proof. intros u. basis arc_knots. repeat (apply f_equal2; [field|]). reflexivity. Qed.
Lemma arc_basis2 : forall u, map (fun i => DB (tk arc_knots) 2 2 2 i u) [0; 1; 2] = [2; - (4); 2]%R.
Proof. intros u. basis arc_knots. repeat (apply f_equal2; [field|]). reflexivity. Qed.

Section Arc.
Context {dz : R -> R}.
Notation F := (Rops dz).
Definition arc : spline F :=
  mkSpline (F := F) (mkps dz [arc_knots] [2]) (mkPhys (F := F) 3 [3] [0; 0; 0; 1; 0; 0; 1; 1; 0]%R (Some [1; 1; 1]%R)).
Definition stick : spline F :=
  mkSpline (F := F) (mkps dz [[0; 0; 1; 1]%R] [1]) (mkPhys (F := F) 3 [2] [0; -(1); 0; 0; 1; 1]%R (Some [1; 2]%R)).

Lemma arc_ok : spline_new (F := F) [arc_knots] [2] [[0; 0; 0]; [1; 0; 0]; [1; 1; 0]]%R (Some [1; 1; 1]%R) = Ok arc /\ well_formed arc.
Proof.
  apply (spline_new_ok dz [arc_knots] [2] [[0; 0; 0]; [1; 0; 0]; [1; 1; 0]]%R (Some [1; 1; 1]%R) 3); try reflexivity; try lia.
  - constructor; [|constructor]. unfold arc_knots.
    split; [lia|]. split; [split; [cbn; lia|]; intros [|[|[|j]]] Hj; try lia; cbn; auto|].
    split; [nondec|]. split; [sepsolve | cbn; lra].
  - repeat constructor.
  - intros w Hw. injection Hw as <-. reflexivity.
Qed.
Lemma stick_ok : spline_new (F := F) [[0; 0; 1; 1]%R] [1] [[0; -(1); 0]; [0; 1; 1]]%R (Some [1; 2]%R) = Ok stick /\ well_formed stick.
Proof.
  apply (spline_new_ok dz [[0; 0; 1; 1]%R] [1] [[0; -(1); 0]; [0; 1; 1]]%R (Some [1; 2]%R) 3 ex_line_good); try reflexivity; try lia.
  - repeat constructor.
  - intros w Hw. injection Hw as <-. reflexivity.
Qed.

Lemma arc_slopes : forall u, (0 <= u <= 1)%R -> derivative_at arc 1 u = (2 * (1 - u), 2 * u, 0)%R /\ derivative_at arc 2 u = (- (2), 2, 0)%R.
Proof.
  intros u Hu. destruct arc_ok as (_ & W).
  assert (Hd : in_domain arc [u]) by (constructor; [cbn; lra|constructor]).
  assert (Hs : in_span arc_knots 2 u).
  { split; [lia|]. split; [unfold zlen; cbn; lia|]. change (tk arc_knots 2) with 0%R. change (tk arc_knots (2 + 1)) with 1%R. split; [lra|]. split; [lra|]. destruct (Rlt_dec u 1); [now left|right]. unfold final_knot, arc_knots. cbn. lra. }
  destruct (plain_slopes arc arc_knots 2 2 u [1; 1; 1]%R [2 * u - 2; 2 - 4 * u; 2 * u]%R [2; - (4); 2]%R W eq_refl eq_refl Hd Hs eq_refl) as (D1 & D2).
  - intros i Hi. assert (i = 0 \/ i = 1 \/ i = 2) as [-> | [-> | ->]] by (unfold zlen in Hi; cbn in Hi; lia); reflexivity.
  - reflexivity.
  - exact (arc_basis1 u).
  - exact (arc_basis2 u).
  - cbn [fold_right]. ring.
  - cbn [fold_right]. ring.
  - set (l := zseq 0 (Z.to_nat (zlen arc_knots - 2 - 1))) in *.
    assert (X0 : map (fun i => coordinate arc [i] 0) l = [0; 1; 1]%R) by reflexivity.
    assert (X1 : map (fun i => coordinate arc [i] 1) l = [0; 0; 1]%R) by reflexivity.
    assert (X2 : map (fun i => coordinate arc [i] 2) l = [0; 0; 0]%R) by reflexivity.
    change (num F) with R in *. rewrite X0, X1, X2 in D1, D2. rewrite D1, D2. cbn [against]. split; (apply f_equal2; [apply f_equal2|]); ring.
Qed.

Lemma ex_swept : exists (t c : spline F) (z : Z -> space_point),
  spline_new (F := F) [[0; 0; 0; 1; 1; 1]%R] [2] [[0; 0; 0]; [1; 0; 0]; [1; 1; 0]]%R (Some [1; 1; 1]%R) = Ok t /\
  spline_new (F := F) [[0; 0; 1; 1]%R] [1] [[0; -(1); 0]; [0; 1; 1]]%R (Some [1; 2]%R) = Ok c /\
  well_formed t /\ well_formed c /\ knots_of t = [[0; 0; 0; 1; 1; 1]%R] /\ degs_of t = [2] /\ length (knots_of c) = 1%nat /\
  positive_weights t /\ positive_weights c /\ ph_dim (sp_ph t) = 3 /\ 3 <= ph_dim (sp_ph c) /\ first_knot [0; 0; 0; 1; 1; 1]%R = 0%R /\
  4 * total (npts_of c) < 2 ^ 64 /\ (tolerance * IZR (4 - 1) <= final_knot [0; 0; 0; 1; 1; 1]%R)%R /\
  normals t (final_knot [0; 0; 0; 1; 1; 1]%R) 4 4 z /\ z 3 = (0, 0, 1)%R.
Proof.
  destruct arc_ok as (E1 & W1). destruct stick_ok as (E2 & W2). exists arc, stick, (fun _ => (0, 0, 1)%R).
  split; [exact E1|]. split; [exact E2|]. split; [exact W1|]. split; [exact W2|]. split; [reflexivity|]. split; [reflexivity|]. split; [reflexivity|].
  split; [eexists; split; [reflexivity|]; repeat (constructor; try lra)|]. split; [eexists; split; [reflexivity|]; repeat (constructor; try lra)|].
  split; [reflexivity|]. split; [cbn; lia|]. split; [reflexivity|]. split; [reflexivity|]. split; [unfold tolerance; cbn; lra|]. split; [|reflexivity].
  split; [reflexivity|]. intros i Hi u. assert (Hu : (0 <= u <= 1)%R).
  { unfold u, sample, final_knot. cbn [length Nat.sub nth]. unfold knot. cbn [nth]. assert (0 <= IZR i <= 3)%R by (split; [apply (IZR_le 0)|apply (IZR_le i 3)]; lia). change (4 - 1) with 3. lra. }
  destruct (arc_slopes u Hu) as (D1 & D2). rewrite D1, D2. left. cbn [outer].
  replace (2 * u * 0 - 0 * 2)%R with 0%R by ring. replace (0 * - (2) - 2 * (1 - u) * 0)%R with 0%R by ring. replace (2 * (1 - u) * 2 - 2 * u * - (2))%R with 4%R by ring.
  split; [intros H; injection H; lra|]. split; [|intros _; cbn [inner]; lra].
  unfold unit_of, magnitude. cbn [inner scale]. replace (0 * 0 + 0 * 0 + 4 * 4)%R with (4 * 4)%R by ring. rewrite sqrt_square by lra. apply f_equal2; [apply f_equal2|]; field.
Qed.
End Arc.

(* a curve with a kink: first in the plane of x and y, then in that of y and z *)
Definition kink_knots : list R := [0; 0; 0; 1; 1; 2; 2; 2]%R.
Lemma kink_basis : map (fun i => DB (tk kink_knots) 2 1 2 i 0) [0; 1; 2; 3; 4] = [- (2); 2; 0; 0; 0]%R /\
  map (fun i => DB (tk kink_knots) 2 2 2 i 0) [0; 1; 2; 3; 4] = [2; - (4); 2; 0; 0]%R /\
  map (fun i => DB (tk kink_knots) 4 1 2 i 1) [0; 1; 2; 3; 4] = [0; 0; - (2); 2; 0]%R /\
  map (fun i => DB (tk kink_knots) 4 2 2 i 1) [0; 1; 2; 3; 4] = [0; 0; 2; - (4); 2]%R.
Proof.
  split; [|split; [|split]]; basis kink_knots; repeat (apply f_equal2; [field|]); reflexivity.
Qed.

Section Kink.
Context {dz : R -> R}.
Notation F := (Rops dz).
Definition kink : spline F :=
  mkSpline (F := F) (mkps dz [kink_knots] [2]) (mkPhys (F := F) 3 [5] [0; 0; 0; 1; 0; 0; 1; 1; 0; 1; 2; 0; 1; 2; 1]%R (Some [1; 1; 1; 1; 1]%R)).
Lemma kink_ok : spline_new (F := F) [kink_knots] [2] [[0; 0; 0]; [1; 0; 0]; [1; 1; 0]; [1; 2; 0]; [1; 2; 1]]%R (Some [1; 1; 1; 1; 1]%R) = Ok kink /\ well_formed kink.
Proof.
  apply (spline_new_ok dz [kink_knots] [2] [[0; 0; 0]; [1; 0; 0]; [1; 1; 0]; [1; 2; 0]; [1; 2; 1]]%R (Some [1; 1; 1; 1; 1]%R) 3); try reflexivity; try lia.
  - constructor; [|constructor]. unfold kink_knots.
    split; [lia|]. split; [split; [cbn; lia|]; intros [|[|[|j]]] Hj; try lia; cbn; auto|].
    split; [nondec|]. split; [sepsolve | cbn; lra].
  - repeat constructor.
  - intros w Hw. injection Hw as <-. reflexivity.
Qed.

Lemma kink_slopes : derivative_at kink 1 0%R = (2, 0, 0)%R /\ derivative_at kink 2 0%R = (- (2), 2, 0)%R /\
  derivative_at kink 1 1%R = (0, 2, 0)%R /\ derivative_at kink 2 1%R = (0, - (2), 2)%R.
Proof.
  destruct kink_ok as (_ & W). destruct kink_basis as (B1 & B2 & B3 & B4).
  assert (One : forall i, 0 <= i < zlen kink_knots - 2 - 1 -> weight kink [i] = 1%R).
  { intros i Hi. assert (i = 0 \/ i = 1 \/ i = 2 \/ i = 3 \/ i = 4) as [-> | [-> | [-> | [-> | ->]]]] by (unfold zlen in Hi; cbn in Hi; lia); reflexivity. }
  assert (S0 : in_span kink_knots 2 0%R).
  { split; [lia|]. split; [unfold zlen; cbn; lia|]. change (tk kink_knots 2) with 0%R. change (tk kink_knots (2 + 1)) with 1%R. lra. }
  assert (S1 : in_span kink_knots 4 1%R).
  { split; [lia|]. split; [unfold zlen; cbn; lia|]. change (tk kink_knots 4) with 1%R. change (tk kink_knots (4 + 1)) with 2%R. lra. }
  assert (U0 : in_domain kink [0%R]) by (constructor; [cbn; lra|constructor]).
  assert (U1 : in_domain kink [1%R]) by (constructor; [cbn; lra|constructor]).
  destruct (plain_slopes kink kink_knots 2 2 0%R [1; 1; 1; 1; 1]%R [- (2); 2; 0; 0; 0]%R [2; - (4); 2; 0; 0]%R W eq_refl eq_refl U0 S0 eq_refl One eq_refl B1 B2) as (D1 & D2); try (cbn [fold_right]; ring).
  destruct (plain_slopes kink kink_knots 2 4 1%R [1; 1; 1; 1; 1]%R [0; 0; - (2); 2; 0]%R [0; 0; 2; - (4); 2]%R W eq_refl eq_refl U1 S1 eq_refl One eq_refl B3 B4) as (D3 & D4); try (cbn [fold_right]; ring).
  set (l := zseq 0 (Z.to_nat (zlen kink_knots - 2 - 1))) in *.
  assert (X0 : map (fun i => coordinate kink [i] 0) l = [0; 1; 1; 1; 1]%R) by reflexivity.
  assert (X1 : map (fun i => coordinate kink [i] 1) l = [0; 0; 1; 2; 2]%R) by reflexivity.
  assert (X2 : map (fun i => coordinate kink [i] 2) l = [0; 0; 0; 0; 1]%R) by reflexivity.
  change (num F) with R in *. rewrite X0, X1, X2 in D1, D2, D3, D4. rewrite D1, D2, D3, D4. cbn [against].
  split; [|split; [|split]]; (apply f_equal2; [apply f_equal2|]); ring.
Qed.

Lemma ex_jump : exists (t c : spline F) (z : Z -> space_point),
  spline_new (F := F) [[0; 0; 0; 1; 1; 2; 2; 2]%R] [2] [[0; 0; 0]; [1; 0; 0]; [1; 1; 0]; [1; 2; 0]; [1; 2; 1]]%R (Some [1; 1; 1; 1; 1]%R) = Ok t /\
  spline_new (F := F) [[0; 0; 1; 1]%R] [1] [[0; -(1); 0]; [0; 1; 1]]%R (Some [1; 2]%R) = Ok c /\
  well_formed t /\ well_formed c /\ knots_of t = [[0; 0; 0; 1; 1; 2; 2; 2]%R] /\ length (knots_of c) = 1%nat /\
  positive_weights t /\ positive_weights c /\ ph_dim (sp_ph t) = 3 /\ 3 <= ph_dim (sp_ph c) /\ first_knot [0; 0; 0; 1; 1; 2; 2; 2]%R = 0%R /\
  normals t (final_knot [0; 0; 0; 1; 1; 2; 2; 2]%R) 3 1 z /\
  let u := sample (final_knot [0; 0; 0; 1; 1; 2; 2; 2]%R) 3 1 in let b := outer (derivative_at t 1 u) (derivative_at t 2 u) in
  b <> origin /\ inner (unit_of b) (z (1 - 1)) = 0%R.
Proof.
  destruct kink_ok as (E1 & W1). destruct (stick_ok (dz := dz)) as (E2 & W2). destruct kink_slopes as (D1 & D2 & D3 & D4). exists kink, stick, (fun _ => (0, 0, 1)%R).
  split; [exact E1|]. split; [exact E2|]. split; [exact W1|]. split; [exact W2|]. split; [reflexivity|]. split; [reflexivity|].
  split; [eexists; split; [reflexivity|]; repeat (constructor; try lra)|]. split; [eexists; split; [reflexivity|]; repeat (constructor; try lra)|].
  split; [reflexivity|]. split; [cbn; lia|]. split; [reflexivity|].
  assert (L2 : final_knot [0; 0; 0; 1; 1; 2; 2; 2]%R = 2%R) by reflexivity. rewrite L2. split.
  - split; [reflexivity|]. intros i Hi u. assert (i = 0) as -> by lia. assert (Hu : u = 0%R) by (unfold u, sample; lra). rewrite Hu, D1, D2. left. cbn [outer].
    replace (0 * 0 - 0 * 2)%R with 0%R by ring. replace (0 * - (2) - 2 * 0)%R with 0%R by ring. replace (2 * 2 - 0 * - (2))%R with 4%R by ring.
    split; [intros H; injection H; lra|]. split; [|lia].
    unfold unit_of, magnitude. cbn [inner scale]. replace (0 * 0 + 0 * 0 + 4 * 4)%R with (4 * 4)%R by ring. rewrite sqrt_square by lra. apply f_equal2; [apply f_equal2|]; field.
  - intros u b. assert (Hu : u = 1%R) by (unfold u, sample; change (3 - 1) with 2; field). unfold b. rewrite Hu, D3, D4. cbn [outer].
    split; [intros H; injection H; lra|]. unfold unit_of. rewrite inner_scale_l. cbn [inner]. ring.
Qed.
End Kink.

Section Late.
Context {dz : R -> R}.
Notation F := (Rops dz).
Lemma ex_late : exists t c : spline F,
  spline_new (F := F) [[1; 1; 2; 2]%R] [1] [[0; 0; 0]; [1; 0; 0]]%R (Some [1; 1]%R) = Ok t /\
  spline_new (F := F) [[0; 0; 1; 1]%R] [1] [[0; -(1); 0]; [0; 1; 1]]%R (Some [1; 2]%R) = Ok c /\
  well_formed t /\ well_formed c /\ knots_of t = [[1; 1; 2; 2]%R] /\ length (knots_of c) = 1%nat /\ 3 <= ph_dim (sp_ph t) /\
  (0 < first_knot [1; 1; 2; 2]%R)%R.
Proof.
  destruct (stick_ok (dz := dz)) as (E2 & W2).
  destruct (spline_new_ok dz [[1; 1; 2; 2]%R] [1] [[0; 0; 0]; [1; 0; 0]]%R (Some [1; 1]%R) 3) as (E1 & W1); try reflexivity; try lia.
  - constructor; [|constructor]. split; [lia|]. split; [split; [cbn; lia|]; intros [|[|j]] Hj; try lia; cbn; auto|].
    split; [nondec|]. split; [sepsolve | cbn; lra].
  - repeat constructor.
  - intros w Hw. injection Hw as <-. reflexivity.
  - eexists. exists stick. split; [exact E1|]. split; [exact E2|]. split; [exact W1|]. split; [exact W2|]. split; [reflexivity|]. split; [reflexivity|].
    split; [cbn; lia|]. cbn. lra.
Qed.
End Late.

(* the constructor from averages on parameters that are not equidistant *)
Lemma ex_averages : averaged_knots (F := Rops (fun x => x)) [0; 1; 2; 5; 9]%R 2 5 = Ok [0; 0; 0; 3 / 2; 7 / 2; 9; 9; 9]%R.
Proof.
  rewrite averaged_ok by (unfold zlen; cbn; lia). f_equal. change (Z.to_nat (2 + 1)) with 3%nat. change (Z.to_nat (5 - 1 - 2)) with 2%nat. change (Z.to_nat 2) with 2%nat.
  cbn [repeat app zseq map lsum last]. change (0 + 1) with 1. change (1 + 1) with 2. change (2 + 1) with 3.
  change (nth (Z.to_nat 1) [0; 1; 2; 5; 9] 0)%R with 1%R. change (nth (Z.to_nat 2) [0; 1; 2; 5; 9] 0)%R with 2%R. change (nth (Z.to_nat 3) [0; 1; 2; 5; 9] 0)%R with 5%R.
  repeat (apply f_equal2; [try field; try reflexivity|]). reflexivity.
Qed.

(* ---- doubles ---- *)
Definition fcurve (kv : list float) (p : Z) (cps : list (list float)) : Res (spline Fops) :=
  spline_new (F := Fops) [kv] [p] cps (Some (map (fun _ => 1%float) cps)).
Definition ones (n : Z) : list (float * float * float) := repeat (1, 1, 1)%float (Z.to_nat n).
Definition fsweep (t c : Res (spline Fops)) (n : Z) (k : spline Fops -> bool) : bool :=
  match t, c with
  | Ok t, Ok c => match swept_surface (F := Fops) t c n (ones n) with Ok s => k s | _ => false end
  | _, _ => false
  end.
Lemma fsweep_ok t c n k : fsweep t c n k = true -> exists t' c' s, t = Ok t' /\ c = Ok c' /\ swept_surface (F := Fops) t' c' n (ones n) = Ok s /\ k s = true.
Proof.
  unfold fsweep. intros H. destruct t as [t'| |]; try discriminate. destruct c as [c'| |]; try discriminate.
  destruct (swept_surface (F := Fops) t' c' n (ones n)) as [s| |] eqn:E; try discriminate. eauto 8.
Qed.

(* a straight trajectory one above the plane of x and y: no coordinate of the surface is a number *)
Definition straight_nan : bool :=
  fsweep (fcurve [0; 0; 1; 1]%float 1 [[0; 0; 1]; [1; 0; 1]]%float) (fcurve [0; 0; 1; 1]%float 1 [[0; 0; 0]; [0; 1; 0]]%float) 2
    (fun s => forallb (fun x : float => negb (x =? x)%float) (ph_cps (sp_ph s)) && (zlen (ph_cps (sp_ph s)) =? 12)).
Lemma swept_straight : exists (t c s : spline Fops),
  spline_new (F := Fops) [[0; 0; 1; 1]%float] [1] [[0; 0; 1]; [1; 0; 1]]%float (Some [1; 1]%float) = Ok t /\
  spline_new (F := Fops) [[0; 0; 1; 1]%float] [1] [[0; 0; 0]; [0; 1; 0]]%float (Some [1; 1]%float) = Ok c /\
  swept_surface (F := Fops) t c 2 [(1, 1, 1); (1, 1, 1)]%float = Ok s /\
  zlen (ph_cps (sp_ph s)) = 12 /\ forall x : float, In x (ph_cps (sp_ph s)) -> (x =? x)%float = false.
Proof.
  assert (H : straight_nan = true) by (vm_compute; reflexivity). destruct (fsweep_ok _ _ _ _ H) as (t & c & s & E1 & E2 & E3 & E4).
  exists t, c, s. split; [exact E1|]. split; [exact E2|]. split; [exact E3|]. apply andb_true_iff in E4. destruct E4 as (E4 & E5). split; [now apply Z.eqb_eq|].
  rewrite forallb_forall in E4. intros x Hx. now apply negb_true_iff, E4.
Qed.

(* an S-shaped trajectory in a plane: the section's third axis points down in the first half and up in the second *)
Definition fcoordinate (s : spline Fops) (k : Z) : float := nth (Z.to_nat k) (ph_cps (sp_ph s)) 0%float.
Definition flip_down : bool :=
  fsweep (fcurve [0; 0; 0; 0; 1; 1; 1; 1]%float 3 [[0; 0; 0]; [1; 1; 0]; [2; -1; 0]; [3; 0; 0]]%float) (fcurve [0; 0; 1; 1]%float 1 [[0; 0; 0]; [0; 0; 1]]%float) 4
    (fun s => (fcoordinate s 17 =? -1)%float && (fcoordinate s 20 =? 1)%float).
Lemma swept_flip : exists (t c s : spline Fops),
  spline_new (F := Fops) [[0; 0; 0; 0; 1; 1; 1; 1]%float] [3] [[0; 0; 0]; [1; 1; 0]; [2; -1; 0]; [3; 0; 0]]%float (Some [1; 1; 1; 1]%float) = Ok t /\
  spline_new (F := Fops) [[0; 0; 1; 1]%float] [1] [[0; 0; 0]; [0; 0; 1]]%float (Some [1; 1]%float) = Ok c /\
  swept_surface (F := Fops) t c 4 [(1, 1, 1); (1, 1, 1); (1, 1, 1); (1, 1, 1)]%float = Ok s /\
  (fcoordinate s (3 * (1 + 4 * 1) + 2) =? -1)%float = true /\ (fcoordinate s (3 * (2 + 4 * 1) + 2) =? 1)%float = true.
Proof.
  assert (H : flip_down = true) by (vm_compute; reflexivity). destruct (fsweep_ok _ _ _ _ H) as (t & c & s & E1 & E2 & E3 & E4).
  exists t, c, s. split; [exact E1|]. split; [exact E2|]. split; [exact E3|]. apply andb_true_iff in E4. exact E4.
Qed.

(* rounding: the last of 26 parameters lies beyond the knot 7 *)
Definition beyond_end : bool :=
  match fcurve [0; 0; 0; 7; 7; 7]%float 2 [[0; 0; 0]; [1; 0; 0]; [1; 1; 0]]%float, fcurve [0; 0; 1; 1]%float 1 [[0; 0; 0]; [0; 1; 0]]%float with
  | Ok t, Ok c => match swept_surface (F := Fops) t c 26 (ones 26) with Throw RangeError => true | _ => false end
  | _, _ => false
  end.
Lemma swept_rounding : exists (t c : spline Fops),
  spline_new (F := Fops) [[0; 0; 0; 7; 7; 7]%float] [2] [[0; 0; 0]; [1; 0; 0]; [1; 1; 0]]%float (Some [1; 1; 1]%float) = Ok t /\
  spline_new (F := Fops) [[0; 0; 1; 1]%float] [1] [[0; 0; 0]; [0; 1; 0]]%float (Some [1; 1]%float) = Ok c /\
  swept_surface (F := Fops) t c 26 (repeat (1, 1, 1)%float (Z.to_nat 26)) = Throw RangeError.
Proof.
  assert (H : beyond_end = true) by (vm_compute; reflexivity). unfold beyond_end in H.
  destruct (fcurve [0; 0; 0; 7; 7; 7]%float 2 _) as [t| |] eqn:E1; try discriminate. destruct (fcurve [0; 0; 1; 1]%float 1 _) as [c| |] eqn:E2; try discriminate.
  destruct (swept_surface (F := Fops) t c 26 (ones 26)) as [s|e|] eqn:E3; try discriminate. destruct e; try discriminate.
  exists t, c. split; [exact E1|]. split; [exact E2|exact E3].
Qed.
