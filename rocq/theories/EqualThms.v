(* Proofs about the tolerant comparison. *)
From Coq Require Import ZArith List Reals Lra Lia Bool Floats.
From Verif Require Import Base BaseFacts RSum MultiIndex MultiIndexSpec MultiIndexFacts KnotVecSpec KnotVec KnotVecThms BasisThms Spaces SpacesSpec
  SplineEval SplineSpec SplineNew SpacesThms EvalFacts EvalThms EqualSpec.
Import ListNotations.
Open Scope Z_scope.

Lemma list_equal_Forall2 {A} (p : A -> A -> bool) (Q : A -> A -> Prop) l1 l2 : (forall x y, p x y = true <-> Q x y) ->
  list_equal p l1 l2 = true <-> Forall2 Q l1 l2.
Proof.
  intros H. revert l2. induction l1 as [|x l1 IH]; intros [|y l2]; cbn [list_equal]; split; intros E;
    try discriminate; try constructor; try (now inversion E).
  - apply H. now apply andb_prop in E.
  - apply IH. now apply andb_prop in E.
  - inversion E; subst. apply andb_true_intro. split; [now apply H | now apply IH].
Qed.

Lemma Forall2_eq {A} (l1 l2 : list A) : Forall2 eq l1 l2 <-> l1 = l2.
Proof.
  split.
  - intros H. induction H; congruence.
  - intros <-. induction l1; constructor; auto.
Qed.

Lemma Forall2_len {A B} (P : A -> B -> Prop) l1 l2 : Forall2 P l1 l2 -> length l1 = length l2.
Proof. intros H. induction H; cbn [length]; congruence. Qed.

Section Reals.
Context {dz : R -> R}.
Notation F := (Rops dz).

Lemma num_equal_R (tol x y : R) : num_are_equal (F := F) tol x y = true <-> (Rabs (x - y) < tol)%R.
Proof. exact (Rltb_true _ _). Qed.

Lemma int_equal_R a b : int_are_equal (F := F) a b = true <-> a = b.
Proof.
  unfold int_are_equal. rewrite kEpsilon_R. etransitivity; [exact (num_equal_R epsR (IZR a) (IZR b))|].
  split.
  - intros H. rewrite <- minus_IZR, <- abs_IZR in H. assert (epsR < 1)%R by (unfold epsR; lra).
    assert (H1 : (IZR (Z.abs (a - b)) < IZR 1)%R) by lra. apply lt_IZR in H1. lia.
  - intros ->. rewrite Rminus_diag_eq, Rabs_R0 by reflexivity. apply epsR_pos.
Qed.

Lemma close_equal tol l1 l2 : list_equal (num_are_equal (F := F) tol) l1 l2 = true <-> close tol l1 l2.
Proof. apply list_equal_Forall2. intros x y. apply num_equal_R. Qed.

Lemma ints_equal l1 l2 : list_equal (int_are_equal (F := F)) l1 l2 = true <-> l1 = l2.
Proof. etransitivity; [apply list_equal_Forall2; exact int_equal_R | apply Forall2_eq]. Qed.

Lemma equality_iff : forall (a b : spline F) (tol : R), spline_are_equal (F := F) tol a b = true <-> close_splines tol a b.
Proof.
  intros a b tol. unfold spline_are_equal, ps_are_equal, wphys_are_equal, phys_are_equal, close_splines.
  unfold degs_of, npts_of, knots_of.
  assert (K : list_equal (kv_are_equal (F := F) tol) (ps_knots (sp_ps a)) (ps_knots (sp_ps b)) = true <->
    Forall2 (close tol) (ps_knots (sp_ps a)) (ps_knots (sp_ps b)))
    by (apply list_equal_Forall2; intros x y; apply close_equal).
  rewrite !andb_true_iff, ints_equal, K.
  destruct (ph_wts (sp_ph a)) as [v|], (ph_wts (sp_ph b)) as [w|]; rewrite ?andb_true_iff, ?ints_equal, ?close_equal;
    intuition discriminate.
Qed.

Lemma close_refl tol l : (0 < tol)%R -> close tol l l.
Proof.
  intros H. induction l; constructor; auto. rewrite Rminus_diag_eq, Rabs_R0 by reflexivity. exact H.
Qed.

Lemma close_sym tol l1 l2 : close tol l1 l2 -> close tol l2 l1.
Proof. intros H. induction H as [|x y l1 l2 Hxy H IH]; constructor; auto. now rewrite Rabs_minus_sym. Qed.

Lemma equality_reflexive : forall (a : spline F) (tol : R), (0 < tol)%R -> spline_are_equal (F := F) tol a a = true.
Proof.
  intros a tol H. apply equality_iff. unfold close_splines. repeat split; auto using close_refl.
  - induction (knots_of a); constructor; auto using close_refl.
  - destruct (ph_wts (sp_ph a)); auto using close_refl.
Qed.

Lemma equality_symmetric : forall (a b : spline F) (tol : R),
  spline_are_equal (F := F) tol a b = spline_are_equal (F := F) tol b a.
Proof.
  intros a b tol. apply eq_iff_eq_true. rewrite !equality_iff.
  assert (G : forall x y : spline F, close_splines tol x y -> close_splines tol y x).
  { intros x y (H1 & H2 & H3 & H4 & H5). unfold close_splines. repeat split; auto using close_sym.
    - clear - H3. induction H3; constructor; auto using close_sym.
    - destruct (ph_wts (sp_ph x)), (ph_wts (sp_ph y)); auto using close_sym. }
  split; apply G.
Qed.

Lemma wf_total_pos (a : spline F) : well_formed a -> 1 <= total (npts_of a).
Proof.
  intros H. assert (P : Forall (fun n => 1 <= n) (npts_of a)).
  { rewrite (wf_npts a H). pose proof (wf_directions a H) as D. induction D as [|kv p l1 l2 G D IH]; cbn [map2]; constructor; auto.
    destruct G as (Hp & (Hc & _) & _). unfold zlen. lia. }
  apply total_pos. exact P.
Qed.

Lemma equality_same_space : forall (a b : spline F) (tol : R), well_formed a -> well_formed b ->
  spline_are_equal (F := F) tol a b = true -> ph_dim (sp_ph a) = ph_dim (sp_ph b) /\ length (knots_of a) = length (knots_of b).
Proof.
  intros a b tol Ha Hb E. apply equality_iff in E. destruct E as (_ & En & Ek & Ec & _).
  split; [|exact (Forall2_len _ _ _ Ek)].
  pose proof (Forall2_len _ _ _ Ec) as L. pose proof (wf_cps a Ha). pose proof (wf_cps b Hb).
  pose proof (wf_total_pos a Ha). rewrite En in *. unfold zlen in *.
  apply (Z.mul_reg_r _ _ (total (npts_of b))); [lia|]. rnorm. lia.
Qed.

Lemma equality_tolerance : forall (a b : spline F) (tol : R), well_formed a -> (tol <= 0)%R ->
  spline_are_equal (F := F) tol a b = false.
Proof.
  intros a b tol Ha Ht. destruct (spline_are_equal _ a b) eqn:E; [|reflexivity]. exfalso.
  apply equality_iff in E. destruct E as (_ & _ & _ & Ec & _).
  pose proof (wf_cps a Ha). pose proof (wf_total_pos a Ha). pose proof (wf_dim a Ha).
  inversion Ec as [H3 H4 | x y l1 l2 Hxy Hl H3 H4].
  - rewrite <- H3 in H. unfold zlen in H. cbn [length] in H. nia.
  - pose proof (Rabs_pos (x - y)). lra.
Qed.

Lemma close_nth tol l1 l2 k : close tol l1 l2 -> (k < length l1)%nat -> (Rabs (nth k l1 0 - nth k l2 0) < tol)%R.
Proof.
  intros E. revert k. induction E as [|x y l1 l2 H E IH]; intros k Hk; cbn [length] in Hk; [lia|].
  destruct k; cbn [nth]; auto. apply IH. lia.
Qed.

Lemma flat_bound (a : spline F) idx c : well_formed a -> in_box (npts_of a) idx -> 0 <= c < ph_dim (sp_ph a) ->
  (Z.to_nat (ph_dim (sp_ph a) * position (npts_of a) idx + c) < length (ph_cps (sp_ph a)))%nat.
Proof.
  intros Ha Hi Hc. pose proof (position_range _ _ Hi) as P. pose proof (wf_cps a Ha) as E.
  assert (ph_dim (sp_ph a) * position (npts_of a) idx + c < ph_dim (sp_ph a) * total (npts_of a)) by nia.
  assert (0 <= ph_dim (sp_ph a) * position (npts_of a) idx + c) by nia.
  unfold zlen in E. rnorm. lia.
Qed.

(* the difference of two splines over the same knots and with the same weights *)
Definition minus_spline (a b : spline F) : spline F :=
  mkSpline (F := F) (sp_ps a) (mkPhys (F := F) (ph_dim (sp_ph a)) (ph_npts (sp_ph a)) (map2 Rminus (ph_cps (sp_ph a)) (ph_cps (sp_ph b))) (ph_wts (sp_ph a))).

Lemma equality_evaluation : forall (a b : spline F) (tol : R) us c, well_formed a -> well_formed b ->
  spline_are_equal (F := F) tol a b = true -> knots_of a = knots_of b -> ph_wts (sp_ph a) = ph_wts (sp_ph b) ->
  is_bspline a \/ positive_weights a -> in_domain a us -> 0 <= c < ph_dim (sp_ph a) ->
  exists x y, evaluate a us [c] = Ok [x] /\ evaluate b us [c] = Ok [y] /\ (Rabs (x - y) <= tol)%R.
Proof.
  intros a b tol us c Ha Hb E Ek Ew Hw Hu Hc.
  pose proof (equality_same_space a b tol Ha Hb E) as (Ed & _).
  apply equality_iff in E. destruct E as (Eg & En & _ & Ec & _).
  pose proof (Forall2_len _ _ _ Ec) as L.
  set (d := minus_spline a b).
  assert (Hd : well_formed d).
  { destruct Ha as [w1 w2 w3 w4 w5 w6]. constructor; auto. cbn. unfold zlen. rewrite map2_length by exact L. exact w5. }
  assert (Hub : in_domain b us) by (unfold in_domain; rewrite <- Ek; exact Hu).
  assert (W0 : weight_function a us <> 0%R).
  { pose proof (weight_function_facts dz a us Ha Hu) as (W1 & W2). destruct Hw as [H|H]; [rewrite W1; auto; lra | specialize (W2 H); lra]. }
  assert (Wb : weight_function b us = weight_function a us).
  { unfold weight_function, weight. now rewrite Ek, Eg, Ew, En. }
  assert (Wd : weight_function d us = weight_function a us) by reflexivity.
  assert (V : Forall (fun c => 0 <= c < ph_dim (sp_ph a)) [c]) by (constructor; auto).
  pose proof (eval_quotient dz a us [c] Ha Hu V W0) as Ea.
  assert (Vb : valid_dims b [c]) by (unfold valid_dims; rewrite <- Ed; exact V).
  assert (W0b : weight_function b us <> 0%R) by (rewrite Wb; exact W0).
  pose proof (eval_quotient dz b us [c] Hb Hub Vb W0b) as Eb. rewrite Wb in Eb.
  pose proof (eval_quotient dz d us [c] Hd Hu V W0) as Edd. rewrite Wd in Edd.
  cbn [map] in Ea, Eb, Edd.
  destruct (convex_bounds dz d us c (- tol) tol Hd Hw Hu Hc) as (v & Ev & Bv).
  { intros idx Hi. apply all_indices_box in Hi. change (npts_of d) with (npts_of a) in Hi.
    pose proof (position_range _ _ Hi) as Pr.
    assert (Q : coordinate d idx c = (coordinate a idx c - coordinate b idx c)%R /\ (Rabs (coordinate a idx c - coordinate b idx c) < tol)%R).
    { unfold coordinate at 1. cbn [sp_ph ph_cps ph_dim d minus_spline]. unfold coordinate. rewrite <- Ed, <- En.
      change (npts_of d) with (npts_of a).
      set (k := Z.to_nat (ph_dim (sp_ph a) * position (npts_of a) idx + c)).
      assert (Hk : (k < length (ph_cps (sp_ph a)))%nat).
      { exact (flat_bound a idx c Ha Hi Hc). }
      split; [apply nth_map2; [exact Hk | rewrite <- L; exact Hk]|].
      exact (close_nth tol _ _ k Ec Hk). }
    destruct Q as (-> & Q). apply Rabs_def2 in Q. lra. }
  rewrite Ev in Edd. injection Edd as ->.
  exists (weighted_sum a us c / weight_function a us)%R, (weighted_sum b us c / weight_function a us)%R.
  split; [exact Ea|]. split; [exact Eb|].
  assert (S : weighted_sum d us c = (weighted_sum a us c - weighted_sum b us c)%R).
  { unfold weighted_sum. change (npts_of d) with (npts_of a). rewrite <- En, <- Ek, <- Eg.
    rewrite <- lsum_minus. apply lsum_ext. intros idx Hi. change (knots_of d) with (knots_of a). change (degs_of d) with (degs_of a).
    change (weight d idx) with (weight a idx).
    replace (weight b idx) with (weight a idx) by (unfold weight; now rewrite Ew, En).
    apply all_indices_box in Hi. pose proof (position_range _ _ Hi) as Pr.
    replace (coordinate d idx c) with (coordinate a idx c - coordinate b idx c)%R; [ring|].
    unfold coordinate at 3. cbn [sp_ph ph_cps ph_dim d minus_spline]. unfold coordinate. rewrite <- Ed, <- En.
    change (npts_of d) with (npts_of a). symmetry. apply nth_map2; [|rewrite <- L]; exact (flat_bound a idx c Ha Hi Hc). }
  rewrite S in Bv. unfold Rdiv in *. apply Rabs_le. lra.
Qed.
End Reals.

(* three lines whose end points are 3/4 tol apart *)
Definition ex_line {dz} (v : R) : Res (spline (Rops dz)) :=
  spline_new (F := Rops dz) [[0; 0; 1; 1]%R] [1] [[0]; [v]]%R None.

Lemma ex_line_good : Forall2 good_direction [[0; 0; 1; 1]%R] [1].
Proof.
  constructor; [|constructor].
  split; [lia|]. split; [split; [cbn; lia|]; intros [|[|j]] Hj; try lia; cbn; auto|].
  split; [nondec|]. split; [sepsolve | cbn; lra].
Qed.

Lemma ex_line_ok dz (v : R) : exists s : spline (Rops dz), ex_line v = Ok s /\ well_formed s /\
  degs_of s = [1] /\ npts_of s = [2] /\ knots_of s = [[0; 0; 1; 1]%R] /\ ph_cps (sp_ph s) = [0; v]%R /\ ph_wts (sp_ph s) = None /\
  ph_dim (sp_ph s) = 1.
Proof.
  destruct (spline_new_ok dz [[0; 0; 1; 1]%R] [1] [[0]; [v]]%R None 1 ex_line_good) as (E & W).
  - lia.
  - repeat constructor.
  - reflexivity.
  - reflexivity.
  - intros w Hw. discriminate.
  - eexists. split; [exact E|]. split; [exact W|]. repeat split.
Qed.

Lemma equality_not_transitive : forall dz (tol : R), (0 < tol)%R -> exists a b c : spline (Rops dz),
  well_formed a /\ well_formed b /\ well_formed c /\
  spline_are_equal (F := Rops dz) tol a b = true /\ spline_are_equal (F := Rops dz) tol b c = true /\
  spline_are_equal (F := Rops dz) tol a c = false.
Proof.
  intros dz tol Ht.
  destruct (ex_line_ok dz 0) as (a & _ & Wa & A1 & A2 & A3 & A4 & A5 & _).
  destruct (ex_line_ok dz (3 / 4 * tol)) as (b & _ & Wb & B1 & B2 & B3 & B4 & B5 & _).
  destruct (ex_line_ok dz (3 / 2 * tol)) as (c & _ & Wc & C1 & C2 & C3 & C4 & C5 & _).
  exists a, b, c. split; [exact Wa|]. split; [exact Wb|]. split; [exact Wc|].
  assert (K : Forall2 (close tol) [[0; 0; 1; 1]%R] [[0; 0; 1; 1]%R]) by (constructor; [now apply close_refl | constructor]).
  split; [|split].
  - apply equality_iff. unfold close_splines. rewrite A1, A2, A3, A4, A5, B1, B2, B3, B4, B5.
    repeat split; auto. constructor; [|constructor; [|constructor]]; apply Rabs_def1; lra.
  - apply equality_iff. unfold close_splines. rewrite C1, C2, C3, C4, C5, B1, B2, B3, B4, B5.
    repeat split; auto. constructor; [|constructor; [|constructor]]; apply Rabs_def1; lra.
  - destruct (spline_are_equal _ a c) eqn:E; [|reflexivity]. exfalso. apply equality_iff in E.
    destruct E as (_ & _ & _ & E & _). rewrite A4, C4 in E. inversion E as [|x y l1 l2 H1 H2]; subst. inversion H2 as [|x y l1 l2 H3 H4]; subst.
    apply Rabs_def2 in H3. lra.
Qed.

(* an infinite control point *)
Lemma infinite_run : match spline_new (F := Fops) [[0; 0; 1; 1]%float] [1] [[0]; [infinity]]%float None with
  | Ok s => negb (spline_are_equal (F := Fops) 1%float s s) | _ => false end = true.
Proof. vm_compute. reflexivity. Qed.

Lemma equality_infinite : exists s : spline Fops,
  spline_new (F := Fops) [[0; 0; 1; 1]%float] [1] [[0]; [infinity]]%float None = Ok s /\ spline_are_equal (F := Fops) 1%float s s = false.
Proof.
  pose proof infinite_run as H.
  destruct (spline_new (F := Fops) [[0; 0; 1; 1]%float] [1] [[0]; [infinity]]%float None) as [s|e|]; try discriminate.
  exists s. split; [reflexivity|]. now apply negb_true_iff in H.
Qed.

Lemma ex_equal : exists a b : spline (Rops (fun x => x)), well_formed a /\ well_formed b /\
  spline_are_equal (F := Rops (fun x => x)) 1%R a b = true /\ knots_of a = knots_of b /\ ph_wts (sp_ph a) = ph_wts (sp_ph b) /\
  is_bspline a /\ in_domain a [(1/2)%R] /\ 0 <= 0 < ph_dim (sp_ph a) /\ ph_cps (sp_ph a) <> ph_cps (sp_ph b).
Proof.
  destruct (ex_line_ok (fun x => x) 0) as (a & _ & Wa & A1 & A2 & A3 & A4 & A5 & A6).
  destruct (ex_line_ok (fun x => x) (3 / 4)) as (b & _ & Wb & B1 & B2 & B3 & B4 & B5 & B6).
  exists a, b. split; [exact Wa|]. split; [exact Wb|]. split.
  { apply equality_iff. unfold close_splines. rewrite A1, A2, A3, A4, A5, B1, B2, B3, B4, B5.
    repeat split; auto.
    - constructor; [apply close_refl; lra | constructor].
    - constructor; [|constructor; [|constructor]]; apply Rabs_def1; lra. }
  split; [congruence|]. split; [congruence|]. split; [exact A5|]. split.
  { unfold in_domain. rewrite A3. constructor; [|constructor]. cbn. lra. }
  split; [rewrite A6; lia|]. rewrite A4, B4. intros E. injection E as E. lra.
Qed.
