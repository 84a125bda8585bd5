(* Integrals of piecewise polynomials by Gauss rules. *)
From Coq Require Import ZArith List Lia Reals Lra.
From Verif Require Import Base BaseFacts RSum Gauss GaussSpec GaussThms IgaSpec BSplineTheory.
Import ListNotations.
Open Scope R_scope.

(* ---- polynomials as functions ---- *)
Definition is_poly (d : nat) (f : R -> R) : Prop := exists a, forall x, f x = polynomial a d x.

Lemma polynomial_S a d x : polynomial a (S d) x = polynomial a d x + a (S d) * x ^ S d.
Proof. reflexivity. Qed.
Lemma polynomial_ext a b d x : (forall k, (k <= d)%nat -> a k = b k) -> polynomial a d x = polynomial b d x.
Proof.
  induction d as [|d IH]; intros H; [unfold polynomial; cbn [sum_f_R0]; now rewrite H by lia|].
  rewrite !polynomial_S, IH, H; auto.
Qed.

Lemma is_poly_ext d f g : (forall x, f x = g x) -> is_poly d f -> is_poly d g.
Proof. intros H (a & Ha). exists a. intros x. now rewrite <- H. Qed.

Lemma is_poly_S d f : is_poly d f -> is_poly (S d) f.
Proof.
  intros (a & H). exists (fun k => if Nat.eqb k (S d) then 0 else a k). intros x. rewrite H, polynomial_S, Nat.eqb_refl.
  rewrite (polynomial_ext (fun k => if Nat.eqb k (S d) then 0 else a k) a); [ring|].
  intros k Hk. destruct (Nat.eqb_spec k (S d)); [lia | reflexivity].
Qed.
Lemma is_poly_le d e f : (d <= e)%nat -> is_poly d f -> is_poly e f.
Proof. induction 1; auto using is_poly_S. Qed.

Lemma is_poly_const d c : is_poly d (fun _ => c).
Proof.
  apply (is_poly_le 0); [lia|]. exists (fun _ => c). intros x. unfold polynomial. cbn. ring.
Qed.
Lemma is_poly_plus d f g : is_poly d f -> is_poly d g -> is_poly d (fun x => f x + g x).
Proof.
  intros (a & Ha) (b & Hb). exists (fun k => a k + b k). intros x. rewrite Ha, Hb. unfold polynomial.
  rewrite <- sum_plus. apply sum_eq. intros; ring.
Qed.
Lemma is_poly_scal d c f : is_poly d f -> is_poly d (fun x => c * f x).
Proof.
  intros (a & Ha). exists (fun k => c * a k). intros x. rewrite Ha. unfold polynomial.
  rewrite scal_sum. apply sum_eq. intros; ring.
Qed.
Lemma is_poly_x d f : is_poly d f -> is_poly (S d) (fun x => x * f x).
Proof.
  intros (a & Ha). exists (fun k => match k with O => 0 | S j => a j end). intros x. rewrite Ha. clear Ha.
  induction d as [|d IH]; [unfold polynomial; cbn; ring|].
  rewrite polynomial_S, polynomial_S, <- IH. cbn [pow]. ring.
Qed.
Lemma is_poly_linear d c0 c1 f : is_poly d f -> is_poly (S d) (fun x => (c0 + c1 * x) * f x).
Proof.
  intros H. eapply is_poly_ext; [|apply is_poly_plus; [apply is_poly_scal with (c := c0), is_poly_S, H | apply is_poly_scal with (c := c1), is_poly_x, H]].
  intros x. cbv beta. ring.
Qed.
Lemma is_poly_power k d f : is_poly d f -> is_poly (k + d) (fun x => x ^ k * f x).
Proof.
  intros H. induction k as [|k IH]; cbn [Nat.add].
  - eapply is_poly_ext; [|exact H]. intros x. cbn. ring.
  - eapply is_poly_ext; [|apply is_poly_x, IH]. intros x. cbn [pow]. ring.
Qed.
Lemma is_poly_mult d e f g : is_poly d f -> is_poly e g -> is_poly (d + e) (fun x => f x * g x).
Proof.
  intros (a & Ha) Hg. apply (is_poly_ext _ (fun x => polynomial a d x * g x)); [intros x; now rewrite Ha|]. clear Ha.
  induction d as [|d IH].
  - eapply is_poly_ext; [|apply is_poly_scal with (c := a 0%nat); exact Hg]. intros x. unfold polynomial. cbn. ring.
  - eapply is_poly_ext; [|apply is_poly_plus; [apply is_poly_S, IH | apply is_poly_scal with (c := a (S d)), (is_poly_power (S d)), Hg]].
    intros x. cbv beta. rewrite polynomial_S. ring.
Qed.
Lemma is_poly_linear_power c0 c1 k : is_poly k (fun x => (c0 + c1 * x) ^ k).
Proof.
  induction k as [|k IH]; [exact (is_poly_const 0 1)|]. eapply is_poly_ext; [|apply is_poly_linear, IH]. intros x. reflexivity.
Qed.
Lemma is_poly_affine d c0 c1 f : is_poly d f -> is_poly d (fun x => f (c0 + c1 * x)).
Proof.
  intros (a & Ha). apply (is_poly_ext _ (fun x => polynomial a d (c0 + c1 * x))); [intros x; now rewrite Ha|]. clear Ha.
  induction d as [|d IH].
  - apply (is_poly_ext _ (fun _ => a 0%nat)); [intros x; unfold polynomial; cbn; ring | apply is_poly_const].
  - eapply is_poly_ext; [|apply is_poly_plus; [apply is_poly_S, IH | apply is_poly_scal with (c := a (S d)), is_poly_linear_power with (c0 := c0) (c1 := c1)]].
    intros x. cbv beta. now rewrite polynomial_S.
Qed.

(* the pieces of the basis functions and of their slopes *)
Lemma is_poly_quot0 c0 c1 y d f : is_poly d f -> is_poly (S d) (fun u => quot0 (c0 + c1 * u) y * f u).
Proof.
  intros H. unfold quot0. destruct (Req_EM_T y 0) as [E|E].
  - apply (is_poly_ext _ (fun _ => 0)); [intros; ring | apply is_poly_const].
  - eapply is_poly_ext; [|apply is_poly_linear with (c0 := c0 / y) (c1 := c1 / y), H]. intros u. cbv beta. field. exact E.
Qed.
Lemma is_poly_B t k p i : is_poly p (B t k p i).
Proof.
  revert i. induction p as [|p IH]; intros i; [exact (is_poly_const 0 (if Z.eq_dec i k then 1 else 0))|].
  eapply is_poly_ext; [|apply is_poly_plus; [apply (is_poly_quot0 (- t i) 1 (t (i + Z.of_nat (S p))%Z - t i)), (IH i) |
    apply (is_poly_quot0 (t (i + Z.of_nat (S p) + 1)%Z) (-1) (t (i + Z.of_nat (S p) + 1)%Z - t (i + 1)%Z)), (IH (i + 1)%Z)]].
  intros u. cbv beta. cbn [B]. repeat (f_equal; try ring).
Qed.
Lemma is_poly_DB1 t k p i : is_poly p (DB t k 1 p i).
Proof.
  destruct p as [|p]; [exact (is_poly_const 0 0)|].
  apply (is_poly_ext _ (fun u => INR (S p) * ((if Req_EM_T (t (i + Z.of_nat (S p))%Z - t i) 0 then 0 else / (t (i + Z.of_nat (S p))%Z - t i)) * B t k p i u) +
     - INR (S p) * ((if Req_EM_T (t (i + Z.of_nat (S p) + 1)%Z - t (i + 1)%Z) 0 then 0 else / (t (i + Z.of_nat (S p) + 1)%Z - t (i + 1)%Z)) * B t k p (i + 1) u))).
  - intros u. cbn [DB]. unfold quot0. destruct (Req_EM_T _ 0); destruct (Req_EM_T _ 0); unfold Rdiv; ring.
  - apply is_poly_plus; do 2 apply is_poly_scal; apply is_poly_S, is_poly_B.
Qed.

(* ---- integrals ---- *)
Lemma integrable_open f g a b : a <= b -> (forall x, a < x < b -> f x = g x) -> Riemann_integrable g a b -> Riemann_integrable f a b.
Proof.
  intros Hab H Hg.
  assert (S : IsStepFun (fun x => f x - g x) a b).
  { exists [a; b]. exists [0]. unfold adapted_couple. split; [|split; [|split; [|split]]].
    - intros i Hi. cbn in Hi. assert (i = 0)%nat as -> by lia. cbn. exact Hab.
    - cbn. unfold Rmin. destruct (Rle_dec a b); auto. lra.
    - cbn. unfold Rmax. destruct (Rle_dec a b); auto. lra.
    - reflexivity.
    - intros i Hi. cbn in Hi. assert (i = 0)%nat as -> by lia. intros x Hx. cbn in Hx |- *. rewrite H by exact Hx. ring. }
  assert (Hd : Riemann_integrable (fun x => f x - g x) a b).
  { intros eps. exists (mkStepFun S). exists (mkStepFun (StepFun_P4 a b 0)). split.
    - intros t _. cbn. unfold fct_cte. rewrite Rminus_diag_eq, Rabs_R0 by reflexivity. lra.
    - rewrite StepFun_P18, Rmult_0_l, Rabs_R0. apply cond_pos. }
  pose proof (RiemannInt_P10 1 Hg Hd) as Hs.
  eapply Riemann_integrable_ext; [|exact Hs]. intros x _. cbv beta. ring.
Qed.

Lemma same_slope (f g : R -> R) (h : R -> R) : (forall x, derivable_pt_lim f x (h x)) -> (forall x, derivable_pt_lim g x (h x)) ->
  forall x y, f y - f x = g y - g x.
Proof.
  intros Hf Hg x y.
  assert (D : derivable (fun x => f x - g x)).
  { intros z. exists (h z - h z). apply derivable_pt_lim_minus with (f1 := f) (f2 := g); auto. }
  assert (E : constant (fun x => f x - g x)).
  { apply (null_derivative_1 _ D). intros z. apply derive_pt_eq_0. replace 0 with (h z - h z) by ring.
    apply derivable_pt_lim_minus with (f1 := f) (f2 := g); auto. }
  specialize (E x y). cbv beta in E. lra.
Qed.

Section Rule.
Variable dz : R -> R.
Variable n : Z.
Variable rl : list (R * R).
Hypothesis Hrule : gauss_rule (F := Rops dz) n = Some rl.

(* the rule moved to an interval *)
Definition moved (e : R * R) (f : R -> R) : R :=
  (snd e - fst e) / 2 * quadrature rl (fun x => f (fst e + (snd e - fst e) * ((x + 1) / 2))).

Lemma moved_ext e f g : fst e < snd e -> (forall x, fst e < x < snd e -> f x = g x) -> moved e f = moved e g.
Proof.
  intros He H. unfold moved. f_equal. unfold quadrature. apply lsum_ext. intros q Hq. f_equal. apply H.
  destruct (gauss_weights dz n rl Hrule) as (_ & Hw & _). rewrite Forall_forall in Hw. destruct (Hw q Hq) as [Hx _]. nra.
Qed.

Lemma moved_exact e f d (pr : Riemann_integrable f (fst e) (snd e)) : fst e < snd e -> is_poly d f -> (d <= Z.to_nat (2 * n - 1))%nat ->
  RiemannInt pr = moved e f.
Proof.
  intros He Hf Hd. destruct e as [lo hi]. cbn [fst snd] in *.
  destruct (is_poly_affine d (lo + (hi - lo) / 2) ((hi - lo) / 2) f Hf) as (a' & Ha').
  destruct Hf as (a & Ha).
  assert (E1 : RiemannInt pr = primitive a d hi - primitive a d lo).
  { assert (pr' : Riemann_integrable (polynomial a d) lo hi) by apply polynomial_integrable.
    rewrite (RiemannInt_P18 pr pr') by (try lra; intros; auto). apply polynomial_integral. lra. }
  assert (pr2 : Riemann_integrable (polynomial a' d) (-1) 1) by apply polynomial_integrable.
  unfold moved. cbn [fst snd].
  assert (E2 : quadrature rl (fun x => f (lo + (hi - lo) * ((x + 1) / 2))) = quadrature rl (polynomial a' d)).
  { unfold quadrature. apply lsum_ext. intros q _. f_equal. rewrite <- Ha'. f_equal. field. }
  rewrite E1, E2, (gauss_exact dz n rl a' d pr2 Hrule Hd), polynomial_integral by lra.
  assert (E3 := same_slope (fun x => primitive a d (lo + (hi - lo) / 2 + (hi - lo) / 2 * x)) (fun x => (hi - lo) / 2 * primitive a' d x) (fun x => (hi - lo) / 2 * polynomial a' d x)).
  cbv beta in E3. rewrite Rmult_minus_distr_l, <- E3.
  - f_equal; f_equal; field.
  - intros x. rewrite <- Ha', Ha, Rmult_comm.
    assert (L : derivable_pt_lim (fun x => lo + (hi - lo) / 2 + (hi - lo) / 2 * x) x ((hi - lo) / 2)).
    { set (c0 := lo + (hi - lo) / 2). set (c1 := (hi - lo) / 2). clearbody c0 c1.
      assert (L1 : derivable_pt_lim (fun x => c0 + c1 * x) x (0 + c1 * 1)).
      { apply derivable_pt_lim_plus with (f1 := fun _ => c0) (f2 := fun x => c1 * x); [apply derivable_pt_lim_const|].
        apply derivable_pt_lim_scal with (f := id). apply derivable_pt_lim_id. }
      replace (0 + c1 * 1) with c1 in L1 by ring. exact L1. }
    apply (derivable_pt_lim_comp (fun x => lo + (hi - lo) / 2 + (hi - lo) / 2 * x) (primitive a d) x); [exact L | apply primitive_deriv].
  - intros x. apply derivable_pt_lim_scal with (f := primitive a' d). apply primitive_deriv.
Qed.

Lemma tiles_exact f d l : (d <= Z.to_nat (2 * n - 1))%nat -> forall a b, tiles a b l ->
  (forall e, In e l -> exists g, is_poly d g /\ forall x, fst e < x < snd e -> f x = g x) ->
  a <= b /\ exists pr : Riemann_integrable f a b, RiemannInt pr = lsum (fun e => moved e f) l.
Proof.
  intros Hd. induction l as [|[x y] l IH]; intros a b Ht H; cbn [tiles] in Ht.
  - subst b. split; [lra|]. exists (RiemannInt_P7 f a). cbn [lsum]. apply RiemannInt_P9.
  - destruct Ht as (-> & Hxy & Ht). destruct (IH y b Ht) as (Hyb & pr2 & E2); [intros e He; apply H; now right|].
    split; [lra|].
    destruct (H (x, y) (or_introl eq_refl)) as (g & Hg & Hfg). cbn [fst snd] in Hfg.
    assert (prg : Riemann_integrable g x y).
    { assert (Hc : continuity g).
      { destruct Hg as (c & Hc). intros z. apply continuity_pt_locally_ext with (f := polynomial c d) (a := 1); [lra | intros; symmetry; apply Hc |].
        apply polynomial_continuous. }
      apply continuity_implies_RiemannInt; [lra|]. intros z _. apply Hc. }
    assert (pr1 : Riemann_integrable f x y) by (apply (integrable_open f g); auto; lra).
    exists (RiemannInt_P24 pr1 pr2). rewrite <- (RiemannInt_P26 pr1 pr2 (RiemannInt_P24 pr1 pr2)), E2. cbn [lsum]. f_equal.
    rewrite (RiemannInt_P18 pr1 prg) by (auto; lra). rewrite (moved_ext (x, y) f g) by auto.
    apply (moved_exact (x, y) g d prg); auto.
Qed.
End Rule.
