(* Knot vectors of doubles: the comparisons give what they give for the values. *)
From Coq Require Import ZArith List Bool Lia Reals Floats Lra.
From Verif Require Import Base BaseFacts KnotVec KnotVecSpec KnotVecFacts Basis BasisFacts SpacesSpec DoubleSpec DoubleFacts.
Import ListNotations.
Open Scope Z_scope.

Lemma upper_in_span dz kv u : (first_knot kv <= u)%R -> (u < final_knot kv)%R ->
  in_span kv (upper_bound (F := Rops dz) kv u - 1) u.
Proof.
  intros H1 H2.
  assert (Hl : (0 < length kv)%nat).
  { destruct kv; cbn; [|lia]. unfold first_knot, final_knot in *; cbn in *. lra. }
  pose proof (upper_bound_range dz kv u) as Hu.
  assert (Hpos : 0 < upper_bound (F := Rops dz) kv u).
  { destruct (Z.eq_dec (upper_bound (F := Rops dz) kv u) 0) as [E0|]; [|lia].
    pose proof (upper_bound_at dz kv u 0 ltac:(rewrite E0; reflexivity) Hl) as C.
    unfold first_knot, knot in *. lra. }
  assert (Hlt : upper_bound (F := Rops dz) kv u < zlen kv).
  { destruct (Z.eq_dec (upper_bound (F := Rops dz) kv u) (zlen kv)) as [E0|]; [|lia].
    assert (C : (knot kv (length kv - 1) <= u)%R).
    { apply (upper_bound_below dz). rewrite E0. unfold zlen; rnorm; lia. }
    unfold final_knot, knot in *. lra. }
  unfold zlen in *; rnorm.
  set (m := Z.to_nat (upper_bound (F := Rops dz) kv u - 1)).
  assert (Em : upper_bound (F := Rops dz) kv u - 1 = Z.of_nat m) by (unfold m; rnorm; lia).
  assert (A : (knot kv m <= u)%R) by (apply (upper_bound_below dz); rnorm; lia).
  assert (B : (u < knot kv (S m))%R) by (apply (upper_bound_at dz); rnorm; lia).
  rewrite Em. unfold in_span, zlen. replace (Z.of_nat m + 1) with (Z.of_nat (S m)) by lia. rewrite !tk_knot by lia.
  repeat split; try lia; try lra.
Qed.

Lemma lower_bound_exact dz (kv : list float) (u : float) : Forall finite kv -> finite u ->
  lower_bound (F := Fops) kv u = lower_bound (F := Rops dz) (map dval kv) (dval u).
Proof.
  induction 1 as [|x t Hx Ht IH]; intros Hu; cbn [lower_bound map]; [reflexivity|].
  cbn [nltb Fops Rops]. rewrite ltb_exact by assumption. destruct (Rltb _ _); [|reflexivity]. now rewrite IH.
Qed.
Lemma upper_bound_exact dz (kv : list float) (u : float) : Forall finite kv -> finite u ->
  upper_bound (F := Fops) kv u = upper_bound (F := Rops dz) (map dval kv) (dval u).
Proof.
  induction 1 as [|x t Hx Ht IH]; intros Hu; cbn [upper_bound map]; [reflexivity|].
  cbn [nltb Fops Rops]. rewrite ltb_exact by assumption. destruct (Rltb _ _); [reflexivity|]. now rewrite IH.
Qed.

Lemma vget_map {A B} (f : A -> B) l i : vget (map f l) i = match vget l i with Ok a => Ok (f a) | Throw e => Throw e | UB => UB end.
Proof.
  unfold vget. rewrite map_length. destruct (_ && _); [|reflexivity].
  rewrite nth_error_map. destruct (nth_error l (Z.to_nat i)); reflexivity.
Qed.
Lemma zlen_map {A B} (f : A -> B) l : zlen (map f l) = zlen l.
Proof. unfold zlen. now rewrite map_length. Qed.
Lemma vget_Forall {A} (P : A -> Prop) l i a : Forall P l -> vget l i = Ok a -> P a.
Proof.
  unfold vget. intros H. destruct (_ && _); [|discriminate]. destruct (nth_error l (Z.to_nat i)) eqn:E; [|discriminate].
  intros [= <-]. rewrite Forall_forall in H. apply H. eapply nth_error_In; eauto.
Qed.

Lemma moderate_finite x : moderate x -> finite x.
Proof. intros [H _]; exact H. Qed.
Lemma pow_500_1022 : (2 ^ 500 + 2 ^ 500 <= 2 ^ 1023)%R.
Proof.
  replace (2 ^ 500 + 2 ^ 500)%R with (2 ^ 501)%R by (rewrite <- (tech_pow_Rmult 2 500); ring).
  apply Rle_pow; [lra | lia].
Qed.
Lemma diff_moderate x y : moderate x -> moderate y -> (Rabs (dval x - dval y) <= 2 ^ 1023)%R.
Proof.
  intros [_ Hx] [_ Hy]. pose proof pow_500_1022. pose proof (Rabs_triang (dval x) (- dval y)) as T.
  rewrite Rabs_Ropp in T. unfold Rminus. lra.
Qed.
Lemma sub_moderate x y : moderate x -> moderate y ->
  finite (x - y)%float /\ dval (x - y)%float = rnd (dval x - dval y) /\
  exists d, (Rabs d <= roundoff)%R /\ dval (x - y)%float = ((dval x - dval y) * (1 + d))%R.
Proof.
  intros Hx Hy. destruct (sub_exact x y (proj1 Hx) (proj1 Hy) (diff_moderate x y Hx Hy)) as [A B].
  split; [exact A|]. split; [exact B|]. rewrite B. apply rnd_minus.
Qed.

Lemma eps_format : rnd tolerance = tolerance.
Proof. rewrite <- (proj2 eps_exact). apply rnd_id. Qed.
Lemma near_far u v : moderate u -> moderate v -> (tolerance <= Rabs (dval u - dval v))%R ->
  num_are_equal (F := Fops) kEpsilon u v = false.
Proof.
  intros Hu Hv H. unfold num_are_equal. cbn [nltb nabs nsub Fops].
  destruct (sub_moderate u v Hu Hv) as (A & B & _). destruct (abs_exact (u - v)%float) as [C D].
  rewrite ltb_exact by (auto; apply eps_exact). rewrite C, B, (proj2 eps_exact), abs_minus_rnd. unfold Rltb.
  destruct (Rlt_dec _ _) as [L|L]; [|reflexivity]. exfalso.
  pose proof (rnd_le _ _ H) as E. rewrite eps_format in E. lra.
Qed.
Lemma near_same u v : moderate u -> moderate v -> dval u = dval v -> num_are_equal (F := Fops) kEpsilon u v = true.
Proof.
  intros Hu Hv H. unfold num_are_equal. cbn [nltb nabs nsub Fops].
  destruct (sub_moderate u v Hu Hv) as (A & B & _). destruct (abs_exact (u - v)%float) as [C D].
  rewrite ltb_exact by (auto; apply eps_exact). rewrite C, B, (proj2 eps_exact), H. unfold Rltb.
  replace (dval v - dval v)%R with 0%R by ring. rewrite rnd_0, Rabs_R0.
  destruct (Rlt_dec _ _) as [L|L]; [reflexivity|]. pose proof tolerance_pos. lra.
Qed.

(* a knot vector of doubles and a degree that the library can work with *)
Lemma last_exact (kv : list float) : kv <> [] -> exists l, last_knot (F := Fops) kv = Ok l /\ dval l = final_knot (map dval kv) /\ In l kv.
Proof.
  intros H. unfold last_knot, final_knot. rewrite map_length.
  assert (L : 0 <= zlen kv - 1 < zlen kv) by (destruct kv; [congruence | unfold zlen; cbn [length]; lia]).
  exists (nth (length kv - 1) kv 0%float).
  split; [|split].
  - etransitivity; [exact (vget_nth (A := float) kv (zlen kv - 1) 0%float L)|].
    replace (Z.to_nat (zlen kv - 1)) with (length kv - 1)%nat by (unfold zlen; lia). reflexivity.
  - rewrite <- (proj2 zero_exact). symmetry. apply (map_nth dval).
  - apply nth_In. destruct kv; [congruence | cbn [length]; lia].
Qed.

Section Span.
Context (dz : R -> R).
Lemma span_exact (kv : list float) (u : float) : Forall moderate kv -> moderate u ->
  nondecreasing (map dval kv) -> separated (map dval kv) -> (first_knot (map dval kv) < final_knot (map dval kv))%R ->
  (first_knot (map dval kv) <= dval u <= final_knot (map dval kv))%R ->
  knot_span (F := Fops) kv u = knot_span (F := Rops dz) (map dval kv) (dval u).
Proof.
  intros Hk Hu Hn Hs Hne [H1 H2].
  assert (Hf : Forall finite kv) by (eapply Forall_impl; [|exact Hk]; apply moderate_finite).
  assert (Hne' : kv <> []) by (intros ->; unfold first_knot, final_knot in Hne; cbn in Hne; lra).
  destruct (last_exact kv Hne') as (l & El & Vl & Il).
  assert (Ml : moderate l) by (rewrite Forall_forall in Hk; auto).
  destruct (knot_span_in_span dz (map dval kv) (dval u) Hn Hs Hne (conj H1 H2)) as (k & Ek & Sk).
  rewrite Ek. unfold knot_span, is_last_knot. rewrite El. cbn [bind].
  rewrite (lower_bound_exact dz), (upper_bound_exact dz) by (auto using moderate_finite).
  assert (Hl : (0 < length (map dval kv))%nat) by (rewrite map_length; destruct kv; [congruence | cbn; lia]).
  destruct (knot_span_cases dz (map dval kv) (dval u) Hl) as (k' & Ek' & _ & C).
  rewrite Ek in Ek'. injection Ek' as <-.
  destruct (num_are_equal (F := Fops) kEpsilon u l) eqn:N.
  - destruct C as [[C ->]|[C _]]; [reflexivity|]. exfalso. unfold near in C. rewrite <- Vl in C.
    rewrite (near_far u l Hu Ml) in N; [discriminate | lra].
  - destruct C as [[C Ck]|[C ->]]; [|reflexivity]. f_equal. symmetry.
    apply (in_span_unique (map dval kv) k _ (dval u) Hn Sk). apply upper_in_span; [exact H1|].
    destruct (Rle_lt_or_eq_dec _ _ H2) as [L|E]; [exact L|]. exfalso. rewrite <- Vl in E.
    rewrite (near_same u l Hu Ml E) in N. discriminate.
Qed.
End Span.
