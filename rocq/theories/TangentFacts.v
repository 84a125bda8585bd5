(* First derivatives at the corners of the domain. *)
From Coq Require Import ZArith List Bool Lia Reals Lra.
From Verif Require Import Base BaseFacts RSum MultiIndex MultiIndexSpec MultiIndexFacts TensorSum
  KnotVec KnotVecSpec KnotVecFacts Basis BasisSpec BSplineTheory BasisFacts BasisThms
  Spaces SpacesSpec SpacesFacts SplineEval SplineSpec EvalFacts RationalDeriv EvalDeriv EvalThms TangentSpec.
Import ListNotations.
Open Scope Z_scope.

Lemma lsum_two (f : Z -> R) l a b : NoDup l -> In a l -> In b l -> a <> b -> (forall i, In i l -> i <> a -> i <> b -> f i = 0%R) ->
  lsum f l = (f a + f b)%R.
Proof.
  intros Hn Ha Hb Hab Hz.
  transitivity (lsum (fun i => (if Z.eq_dec i a then f i else 0) + (if Z.eq_dec i a then 0 else f i))%R l).
  { apply lsum_ext. intros i _. destruct (Z.eq_dec i a); lra. }
  rewrite lsum_plus, (lsum_single _ l a), (lsum_single (fun i => if Z.eq_dec i a then 0%R else f i) l b); auto.
  - destruct (Z.eq_dec a a); [|contradiction]. destruct (Z.eq_dec b a); [congruence | reflexivity].
  - intros i Hi Hne. destruct (Z.eq_dec i a); auto.
  - intros i Hi Hne. destruct (Z.eq_dec i a); [contradiction | reflexivity].
Qed.

Section Dz.
Variable dz : R -> R.
Local Notation F := (Rops dz).
Implicit Types s : spline F.

Lemma end_span x e : good_dir dz x -> du x = end_value (dk x) e -> exact_ends (dk x) (dp x) ->
  dsp x = if e then zlen (dk x) - dp x - 2 else dp x.
Proof.
  intros ((Hp & Hc & Hn & Hs & Hlt) & Hsp & Hk & _) Hu (He1 & He2).
  pose proof Hsp as (A1 & A2 & A3 & A4 & A5). destruct Hc as (Hlen & Hc).
  assert (Hkk : (tk (dk x) (dsp x) < tk (dk x) (dsp x + 1))%R) by (destruct A5 as [A5|[A5 _]]; lra).
  pose proof (tk_monotone _ Hn) as Hm.
  assert (Hz : zlen (dk x) = Z.of_nat (length (dk x))) by reflexivity.
  destruct e; cbn [end_value] in *.
  - destruct (Z.eq_dec (dsp x) (zlen (dk x) - dp x - 2)); auto. exfalso.
    assert ((tk (dk x) (dsp x + 1) <= tk (dk x) (zlen (dk x) - dp x - 2))%R) by (apply Hm; lia).
    rewrite (tk_knot' (dk x) (zlen (dk x) - dp x - 2)) in H by lia.
    replace (Z.to_nat (zlen (dk x) - dp x - 2)) with (length (dk x) - Z.to_nat (dp x) - 2)%nat in H by lia. lra.
  - destruct (Z.eq_dec (dsp x) (dp x)); auto. exfalso.
    assert ((tk (dk x) (dp x + 1) <= tk (dk x) (dsp x))%R) by (apply Hm; lia).
    rewrite (tk_knot' (dk x) (dp x + 1)) in H by lia. replace (Z.to_nat (dp x + 1)) with (S (Z.to_nat (dp x))) in H by lia. lra.
Qed.

(* the first derivatives of the basis functions at an end *)
Lemma dfactor_end_1 x e : good_dir dz x -> dm x = 1 -> 1 <= dp x -> du x = end_value (dk x) e -> exact_ends (dk x) (dp x) ->
  dfactor x (end_neighbour (dlen x) e) = end_slope (dk x) (dp x) e /\
  dfactor x (end_index (dlen x) e) = (- end_slope (dk x) (dp x) e)%R /\
  forall i, i <> end_neighbour (dlen x) e -> i <> end_index (dlen x) e -> dfactor x i = 0%R.
Proof.
  intros Hg H1 Hp1 Hu Hex. pose proof (end_span x e Hg Hu Hex) as Hk.
  pose proof Hg as ((Hp & Hc & Hn & Hs & Hlt) & Hsp & Hk0 & _). pose proof Hsp as (A1 & A2 & A3 & A4 & A5). destruct Hc as (Hlen & Hc).
  assert (Hkk : (tk (dk x) (dsp x) < tk (dk x) (dsp x + 1))%R) by (destruct A5 as [A5|[A5 _]]; lra).
  pose proof (tk_monotone _ Hn) as Hm.
  assert (Hz : zlen (dk x) = Z.of_nat (length (dk x))) by reflexivity.
  assert (Hfirst : forall j, 0 <= j <= dp x -> tk (dk x) j = first_knot (dk x)).
  { intros j Hj. rewrite tk_knot' by lia. destruct (Hc (Z.to_nat j)) as [E _]; [lia|]. exact E. }
  assert (Hlast : forall j, zlen (dk x) - dp x - 1 <= j < zlen (dk x) -> tk (dk x) j = final_knot (dk x)).
  { intros j Hj. rewrite tk_knot' by lia. destruct (Hc (length (dk x) - 1 - Z.to_nat j)%nat) as [_ E]; [lia|]. rewrite <- E. f_equal. lia. }
  destruct (Z.to_nat (dp x)) as [|q] eqn:Eq; [lia|].
  assert (Ep : dp x = Z.of_nat (S q)) by lia.
  (* of the functions of degree q one is 1 and the others are 0 *)
  set (j0 := if e then dsp x else 1).
  assert (Z0 : forall i, i <> j0 -> B (tk (dk x)) (dsp x) q i (du x) = 0%R).
  { intros i Hi. destruct e; cbn [end_value] in *; unfold j0 in Hi.
    - destruct (Z.lt_ge_cases i (dsp x)); [|apply B_outside; lia].
      apply (B_at_right (tk (dk x)) (dsp x) (S q)); auto; try lia. intros j Hj. rewrite Hu. apply Hlast. lia.
    - destruct (Z.lt_ge_cases 1 i); [|apply B_outside; lia].
      apply (B_at_left (tk (dk x)) (dsp x) (S q)); auto; try lia; [rewrite Hu; symmetry; apply Hfirst; lia|].
      intros j Hj. rewrite Hu. apply Hfirst. lia. }
  assert (O1 : B (tk (dk x)) (dsp x) q j0 (du x) = 1%R).
  { rewrite <- (B_sum (tk (dk x)) Hm (dsp x) Hkk q (du x) (dsp x - Z.of_nat q) (S q)) by lia. symmetry.
    apply (lsum_single (fun i => B (tk (dk x)) (dsp x) q i (du x)) _ j0).
    - apply zseq_NoDup.
    - apply zseq_In. unfold j0. destruct e; lia.
    - intros i _ Hi. now apply Z0. }
  assert (D : forall i, dfactor x i = (INR (S q) * (B (tk (dk x)) (dsp x) q i (du x) / (tk (dk x) (i + Z.of_nat (S q))%Z - tk (dk x) i)
     - B (tk (dk x)) (dsp x) q (i + 1)%Z (du x) / (tk (dk x) (i + 1 + Z.of_nat (S q))%Z - tk (dk x) (i + 1)%Z)))%R).
  { intros i. unfold dfactor. rewrite H1, Eq. change (Z.to_nat 1) with 1%nat. now apply DB_1. }
  assert (S0 : (INR (S q) * (1 / (tk (dk x) (j0 + Z.of_nat (S q))%Z - tk (dk x) j0)))%R = if e then (- end_slope (dk x) (dp x) e)%R else end_slope (dk x) (dp x) e).
  { unfold end_slope, j0. rewrite INR_IZR_INZ. destruct e; rewrite <- Ep.
    - rewrite (Hlast (dsp x + dp x)) by lia. rewrite (tk_knot' _ (dsp x)) by lia.
      replace (Z.to_nat (dsp x)) with (length (dk x) - Z.to_nat (dp x) - 2)%nat by lia. unfold Rdiv. ring.
    - rewrite (Hfirst 1) by lia. rewrite (tk_knot' _ (1 + dp x)) by lia.
      replace (Z.to_nat (1 + dp x)) with (S (Z.to_nat (dp x))) by lia. unfold Rdiv. ring. }
  assert (Dj0 : dfactor x j0 = if e then (- end_slope (dk x) (dp x) e)%R else end_slope (dk x) (dp x) e).
  { rewrite D, O1, (Z0 (j0 + 1)) by lia. rewrite <- S0. unfold Rdiv. ring. }
  assert (Dj1 : dfactor x (j0 - 1) = (- (if e then - end_slope (dk x) (dp x) e else end_slope (dk x) (dp x) e))%R).
  { rewrite D, (Z0 (j0 - 1)) by lia. replace (j0 - 1 + 1) with j0 by lia. rewrite O1, <- S0. unfold Rdiv. ring. }
  assert (Dz0 : forall i, i <> j0 -> i <> j0 - 1 -> dfactor x i = 0%R).
  { intros i H2 H3. rewrite D, (Z0 i), (Z0 (i + 1)) by lia. unfold Rdiv. ring. }
  unfold end_neighbour, end_index, dlen, j0 in *. destruct e.
  - replace (zlen (dk x) - dp x - 1 - 2) with (dsp x - 1) by lia. replace (zlen (dk x) - dp x - 1 - 1) with (dsp x) by lia.
    split; [rewrite Dj1; ring|]. split; [exact Dj0|]. intros i H2 H3. apply Dz0; lia.
  - replace (1 - 1) with 0 in * by lia. auto.
Qed.

(* ---- sums at a corner ---- *)
Lemma tsum_edge fs ls c idx0 d a b i1 : length fs = length ls -> length idx0 = length fs -> (d < length fs)%nat ->
  (forall j f l i0, j <> d -> nth_error fs j = Some f -> nth_error ls j = Some l -> nth_error idx0 j = Some i0 ->
     In i0 l /\ NoDup l /\ f i0 = 1%R /\ forall i, In i l -> i <> i0 -> f i = 0%R) ->
  (forall f l i0, nth_error fs d = Some f -> nth_error ls d = Some l -> nth_error idx0 d = Some i0 ->
     In i0 l /\ In i1 l /\ i1 <> i0 /\ NoDup l /\ f i0 = b /\ f i1 = a /\ forall i, In i l -> i <> i1 -> i <> i0 -> f i = 0%R) ->
  tsum fs ls c = (a * c (upd idx0 d i1) + b * c idx0)%R.
Proof.
  revert ls c idx0 d; induction fs as [|f fs IH]; intros [|l ls] c [|i0 idx0] d Hl Hl2 Hd Hj H1; cbn [length] in *; try lia.
  cbn [tsum]. destruct d as [|d].
  - destruct (H1 f l i0 eq_refl eq_refl eq_refl) as (K1 & K2 & K3 & K4 & K5 & K6 & K7).
    assert (C : forall i, tsum fs ls (fun r => c (i :: r)) = c (i :: idx0)).
    { intros i. apply (tsum_corner fs ls (fun r => c (i :: r)) idx0); [|lia].
      assert (Hj' : forall j f l i0, nth_error fs j = Some f -> nth_error ls j = Some l -> nth_error idx0 j = Some i0 ->
         In i0 l /\ NoDup l /\ f i0 = 1%R /\ forall i, In i l -> i <> i0 -> f i = 0%R) by (intros j g l' i' E1 E2 E3; exact (Hj (S j) g l' i' (Nat.neq_succ_0 j) E1 E2 E3)).
      clear - Hl Hl2 Hj'. revert ls idx0 Hl Hl2 Hj'. induction fs as [|f fs IH]; intros [|l ls] [|i0 idx0] Hl Hl2 Hj'; cbn [length combine] in *; try lia; constructor.
      - exact (Hj' O f l i0 eq_refl eq_refl eq_refl).
      - apply IH; try lia. intros j. apply (Hj' (S j)). }
    rewrite (lsum_two _ l i1 i0); auto.
    + rewrite !C, K5, K6. cbn [upd]. reflexivity.
    + intros i Hi N1 N2. rewrite K7 by auto. ring.
  - destruct (Hj O f l i0 ltac:(lia) eq_refl eq_refl eq_refl) as (K1 & K2 & K3 & K4).
    rewrite (lsum_single_factor f l _ i0) by auto. rewrite K3, Rmult_1_l. cbn [upd].
    apply (IH ls (fun r => c (i0 :: r)) idx0 d); try lia.
    + intros j g l' i' N E1 E2 E3. apply (Hj (S j) g l' i'); auto.
    + exact H1.
Qed.

Definition at_ends (L : list dir) (ends : list bool) : Prop :=
  Forall2 (fun x e => du x = end_value (dk x) e /\ exact_ends (dk x) (dp x)) L ends.

Lemma zero_factor x e : good_dir dz x -> dm x = 0 -> du x = end_value (dk x) e -> exact_ends (dk x) (dp x) ->
  In (end_index (dlen x) e) (drange x) /\ NoDup (drange x) /\ dfactor x (end_index (dlen x) e) = 1%R /\
  forall i, In i (drange x) -> i <> end_index (dlen x) e -> dfactor x i = 0%R.
Proof.
  intros Hx H0 Hu Hex.
  assert (Hin : In (end_index (dlen x) e) (drange x)).
  { destruct Hx as ((Hp & (Hc & _) & _) & _). apply zseq_In. unfold dlen, end_index. destruct e; zl. }
  assert (Hz : forall i, i <> end_index (dlen x) e -> dfactor x i = 0%R) by (intros i Hi; apply (dfactor_end dz x e); auto).
  assert (Hnd : NoDup (drange x)) by apply zseq_NoDup.
  split; auto. split; auto. split; auto. rewrite <- (dfactor_sum dz x Hx H0). symmetry. apply lsum_single; auto.
Qed.

Lemma corner_sum L ends c : Forall (good_dir dz) L -> order0 L -> at_ends L ends ->
  tsum (map dfactor L) (map drange L) c = c (map2 end_index (lensL L) ends).
Proof.
  intros HL H0 He. apply tsum_corner; [|now rewrite !map_length].
  unfold lensL, order0 in *. induction He as [|x e L ends [Hu Hex] He IH]; cbn [map combine map2]; constructor.
  - cbn [fst snd]. apply zero_factor; auto; [exact (Forall_inv HL) | exact (Forall_inv H0)].
  - apply IH; [exact (Forall_inv_tail HL) | exact (Forall_inv_tail H0)].
Qed.

Lemma nth_error_withm L m j y : nth_error (withm L m) j = Some y -> exists x k, nth_error L j = Some x /\ nth_error m j = Some k /\ y = setm x k.
Proof.
  revert m j; induction L as [|x L IH]; intros [|k m] [|j] H; cbn [withm map2 nth_error] in *; try discriminate.
  - inversion H. eauto.
  - apply IH in H. exact H.
Qed.

Lemma nth_error_unit n d j k : nth_error (unit_order n d) j = Some k -> (d < n)%nat -> k = if Nat.eq_dec j d then 1 else 0.
Proof.
  unfold unit_order. revert d j; induction n as [|n IH]; intros [|d] [|j] H Hd; cbn [repeat upd nth_error] in *; try lia; try discriminate.
  - inversion H. reflexivity.
  - destruct (Nat.eq_dec (S j) 0); [lia|]. apply nth_error_In, repeat_spec in H. auto.
  - inversion H. reflexivity.
  - apply IH in H; [|lia]. destruct (Nat.eq_dec j d), (Nat.eq_dec (S j) (S d)); auto; lia.
Qed.

Lemma edge_sum L ends c d x e : Forall (good_dir dz) L -> at_ends L ends -> nth_error L d = Some x -> nth_error ends d = Some e -> 1 <= dp x ->
  tsum (facs L (unit_order (length L) d)) (map drange L) c =
  (end_slope (dk x) (dp x) e * (c (upd (map2 end_index (lensL L) ends) d (end_neighbour (dlen x) e)) - c (map2 end_index (lensL L) ends)))%R.
Proof.
  intros HL He Hx Hd Hp. assert (Hlt : (d < length L)%nat) by (apply nth_error_Some; congruence).
  assert (Hlu : length (unit_order (length L) d) = length L) by (unfold unit_order; rewrite upd_length, repeat_length; reflexivity).
  pose proof (Forall2_len _ _ _ He) as Hle.
  assert (Hli : length (map2 end_index (lensL L) ends) = length L).
  { unfold lensL. clear - Hle. revert ends Hle. induction L as [|y L IH]; intros [|b ends] H; cbn [map map2 length] in *; try lia. rewrite IH; lia. }
  assert (Hidx : forall j i0, nth_error (map2 end_index (lensL L) ends) j = Some i0 -> exists y b, nth_error L j = Some y /\ nth_error ends j = Some b /\ i0 = end_index (dlen y) b).
  { unfold lensL. clear. revert ends. induction L as [|y L IH]; intros [|b ends] [|j] i0 H; cbn [map map2 nth_error] in *; try discriminate.
    - inversion H. eauto.
    - apply IH in H. exact H. }
  assert (Hat : forall j y b, nth_error L j = Some y -> nth_error ends j = Some b -> du y = end_value (dk y) b /\ exact_ends (dk y) (dp y)).
  { intros j y b. clear - He. revert j. induction He as [|x0 e0 L ends H He IH]; intros [|j] Hy Hb; cbn [nth_error] in *; try discriminate.
    - inversion Hy; inversion Hb; subst. exact H.
    - eapply IH; eauto. }
  assert (Hgd : forall j y, nth_error L j = Some y -> good_dir dz y).
  { intros j y Hy. rewrite Forall_forall in HL. apply HL. eapply nth_error_In; eauto. }
  rewrite (tsum_edge (facs L (unit_order (length L) d)) (map drange L) c (map2 end_index (lensL L) ends) d
    (end_slope (dk x) (dp x) e) (- end_slope (dk x) (dp x) e)%R (end_neighbour (dlen x) e)); try (rewrite ?facs_length, ?map_length; auto; lia).
  - ring.
  - intros j f l i0 Hj Hf Hl Hi. unfold facs in Hf. rewrite nth_error_map in Hf, Hl.
    destruct (nth_error (withm L (unit_order (length L) d)) j) as [y|] eqn:Ey; [|discriminate]. cbn in Hf. inversion Hf; subst f. clear Hf.
    destruct (nth_error_withm _ _ _ _ Ey) as (y0 & k & E1 & E2 & ->). rewrite E1 in Hl. cbn in Hl. inversion Hl; subst l. clear Hl.
    apply nth_error_unit in E2; auto. destruct (Nat.eq_dec j d); [contradiction|]. subst k.
    destruct (Hidx j i0 Hi) as (y' & b & E3 & E4 & ->). assert (y' = y0) by congruence. subst y'.
    destruct (Hat j y0 b E1 E4) as [U1 U2].
    apply (zero_factor (setm y0 0) b); auto. pose proof (Hgd j y0 E1) as G. unfold good_dir in *. cbn [setm dk dp du dsp dm] in *. intuition.
  - intros f l i0 Hf Hl Hi. unfold facs in Hf. rewrite nth_error_map in Hf, Hl.
    destruct (nth_error (withm L (unit_order (length L) d)) d) as [y|] eqn:Ey; [|discriminate]. cbn in Hf. inversion Hf; subst f. clear Hf.
    destruct (nth_error_withm _ _ _ _ Ey) as (y0 & k & E1 & E2 & ->). rewrite E1 in Hl. cbn in Hl. inversion Hl; subst l. clear Hl.
    apply nth_error_unit in E2; auto. destruct (Nat.eq_dec d d); [|contradiction]. subst k. assert (y0 = x) by congruence. subst y0.
    destruct (Hidx d i0 Hi) as (y' & b & E3 & E4 & ->). assert (y' = x) by congruence. assert (b = e) by congruence. subst y' b.
    destruct (Hat d x e Hx Hd) as [U1 U2]. pose proof (Hgd d x Hx) as G.
    assert (G1 : good_dir dz (setm x 1)) by (unfold good_dir in *; cbn [setm dk dp du dsp dm] in *; intuition).
    destruct (dfactor_end_1 (setm x 1) e G1 eq_refl Hp U1 U2) as (D1 & D2 & D3).
    change (dlen (setm x 1)) with (dlen x) in *. change (dk (setm x 1)) with (dk x) in *. change (dp (setm x 1)) with (dp x) in *.
    destruct G as ((_ & (Hc & _) & _) & Hsp & Hr & _). pose proof (end_span x e (Hgd d x Hx) U1 U2) as Hk.
    assert (Hn2 : 2 <= dlen x) by (unfold dlen; zl; destruct U2; zl).
    split; [apply zseq_In; unfold end_index; destruct e; lia|]. split; [apply zseq_In; unfold end_neighbour; destruct e; lia|].
    split; [unfold end_neighbour, end_index; destruct e; lia|]. split; [apply zseq_NoDup|].
    split; [exact D2|]. split; [exact D1|]. intros i _. apply D3.
Qed.

Lemma unit_addone n d : (d < n)%nat -> unit_order n d = addone d (zeros n).
Proof. intros H. unfold unit_order, addone, zeros. f_equal. rewrite nth_repeat. reflexivity. Qed.

Lemma unit_nonneg n d : nonneg_orders (unit_order n d).
Proof.
  unfold nonneg_orders, unit_order. revert d; induction n as [|n IH]; intros [|d]; cbn [repeat upd]; constructor; try lia; auto.
  apply Forall_forall. intros x Hx. apply repeat_spec in Hx. lia.
Qed.

Lemma rval_unit s L idx d : Wval dz s L (zeros (length L)) <> 0%R -> (d < length L)%nat ->
  (Aval dz s L idx (unit_order (length L) d) =
   rval dz s L idx (unit_order (length L) d) * Wval dz s L (zeros (length L)) + rval dz s L idx (zeros (length L)) * Wval dz s L (unit_order (length L) d))%R.
Proof.
  intros HW Hd. rewrite (rval_identity dz s L idx (unit_order (length L) d)); auto.
  - rewrite (unit_addone _ _ Hd). rewrite <- (pascal_multi (zeros (length L)) d); [|apply zeros_nonneg | rewrite zeros_length; auto].
    rewrite orders_zeros. cbn [lsum].
    assert (E0 : origin (zeros (length L)) = zeros (length L)) by (apply origin_zeros, zeros_length).
    assert (E1 : binoms (zeros (length L)) (zeros (length L)) = 1) by (rewrite <- E0 at 2; apply binoms_origin).
    assert (E2 : map2 Z.sub (zeros (length L)) (zeros (length L)) = zeros (length L)) by (rewrite <- E0 at 2; apply sub_origin).
    rewrite E1, sub_addone_l, sub_addone_lr, E2 by (rewrite ?zeros_length; auto). ring.
  - apply unit_nonneg.
  - unfold unit_order. rewrite upd_length, repeat_length. reflexivity.
Qed.

Lemma rval_zero s L idx : Wval dz s L (zeros (length L)) <> 0%R ->
  Aval dz s L idx (zeros (length L)) = (rval dz s L idx (zeros (length L)) * Wval dz s L (zeros (length L)))%R.
Proof.
  intros HW. rewrite (rval_identity dz s L idx (zeros (length L))); auto using zeros_nonneg, zeros_length.
  rewrite orders_zeros. cbn [lsum].
  assert (E0 : origin (zeros (length L)) = zeros (length L)) by (apply origin_zeros, zeros_length).
  assert (E1 : binoms (zeros (length L)) (zeros (length L)) = 1) by (rewrite <- E0 at 2; apply binoms_origin).
  assert (E2 : map2 Z.sub (zeros (length L)) (zeros (length L)) = zeros (length L)) by (rewrite <- E0 at 2; apply sub_origin).
  rewrite E1, E2. ring.
Qed.

Lemma Aval_sum s L m c : Forall (good_dir dz) L -> nonneg_orders m -> length m = length L ->
  lsum (fun cur => Aval dz s L (Eidx L cur) m * coordinate s (Eidx L cur) c)%R (Evis L) =
  tsum (facs L m) (map drange L) (fun idx => weight s idx * coordinate s idx c)%R.
Proof.
  intros HL Hm Hl. pose proof (visited_sum dz (withm L m) (fun idx => weight s idx * coordinate s idx c)%R (withm_good dz L m HL Hm Hl)) as E.
  rewrite (withm_map drange), (withm_map dp), (withm_map (fun d => dsp d - dp d)) in E by auto.
  unfold facs. rewrite <- E. apply lsum_ext. intros cur _. unfold Aval, facs, Eidx. ring.
Qed.

Lemma corner_tangent : forall s ends d kv p e dims, well_formed s ->
  Forall2 exact_ends (knots_of s) (degs_of s) -> length ends = length (knots_of s) -> valid_dims s dims ->
  nth_error (knots_of s) d = Some kv -> nth_error (degs_of s) d = Some p -> nth_error ends d = Some e -> 1 <= p ->
  let corner := map2 end_index (npts_of s) ends in
  let next := upd corner d (end_neighbour (nth d (npts_of s) 0) e) in
  weight s corner <> 0%R ->
  evaluate_derivative s (map2 end_value (knots_of s) ends) dims (unit_order (length (knots_of s)) d) =
  Ok (map (fun c => end_slope kv p e * (weight s next / weight s corner) * (coordinate s next c - coordinate s corner c))%R dims).
Proof.
  intros s ends d kv p e dims Hwf He Hl Hv Hkv Hp Hd Hp1 corner next Hw.
  assert (Hu : in_domain s (map2 end_value (knots_of s) ends)).
  { unfold in_domain. pose proof (wf_directions s Hwf) as Hdir. clear - Hdir Hl. revert ends Hl.
    induction Hdir as [|kv p l1 l2 (_ & _ & Hn & _ & Hlt) Hdir IH]; intros [|e ends] Hl; cbn [map2 length] in *; try discriminate; constructor; auto.
    destruct e; cbn [end_value]; lra. }
  destruct (wf_dirs dz s _ Hwf Hu) as (L & HwfL & Eu & H0). pose proof HwfL as (HL & _).
  destruct (wfL_of dz s L HwfL) as (E1 & E2 & E3).
  assert (Hat : at_ends L ends).
  { rewrite E1, E2 in He. rewrite E1 in Eu. rewrite E1, map_length in Hl. clear - HL Hl He Eu. unfold at_ends. revert ends Hl Eu.
    induction HL as [|x L Hx HL IH]; intros [|b ends] Hl Eu; cbn [map map2 length] in *; try discriminate; constructor.
    - split; [congruence | now inversion He].
    - inversion He; subst. inversion Eu. apply IH; auto. }
  rewrite E1, map_length. set (m := unit_order (length L) d).
  assert (Hlm : length m = length L) by (unfold m, unit_order; rewrite upd_length, repeat_length; reflexivity).
  rewrite E1 in Hkv. rewrite nth_error_map in Hkv. destruct (nth_error L d) as [x|] eqn:Ex; [|discriminate].
  cbn in Hkv. inversion Hkv as [Ek]. rewrite E2, nth_error_map, Ex in Hp. cbn in Hp. inversion Hp as [Epp]. subst kv p.
  assert (Hdl : (d < length L)%nat) by (apply nth_error_Some; congruence).
  assert (En : next = upd corner d (end_neighbour (dlen x) e)).
  { unfold next. rewrite E3. unfold lensL. rewrite (nth_error_nth (map dlen L) d 0 (x := dlen x)); auto. rewrite nth_error_map, Ex. reflexivity. }
  assert (Ec : corner = map2 end_index (lensL L) ends) by (unfold corner; now rewrite E3).
  assert (G1 : forall c, tsum (facs L m) (map drange L) c = (end_slope (dk x) (dp x) e * (c next - c corner))%R).
  { intros c. unfold m. rewrite (edge_sum L ends c d x e) by (auto; lia). rewrite En, Ec. reflexivity. }
  assert (G0 : forall c, tsum (facs L (zeros (length L))) (map drange L) c = c corner).
  { intros c. rewrite order0_facs by auto. rewrite (corner_sum L ends) by auto. now rewrite Ec. }
  rewrite E1 in Eu. rewrite Eu. rewrite (evaluate_derivative_ok dz s L dims m HwfL) by (auto; apply unit_nonneg).
  f_equal. apply map_ext. intros c. unfold dvalue. destruct (ph_wts (sp_ph s)) as [w|] eqn:Ewt.
  2:{ assert (Ew1 : forall idx, weight s idx = 1%R) by (intros idx; unfold weight; rewrite Ewt; reflexivity).
      assert (E : forall a b : R, (a * b = a * (1 / 1) * b)%R) by (intros a b; field).
      rewrite G1, !Ew1. apply E. }
  assert (W0 : Wval dz s L (zeros (length L)) = weight s corner) by (unfold Wval; apply G0).
  assert (W1 : Wval dz s L m = (end_slope (dk x) (dp x) e * (weight s next - weight s corner))%R) by (unfold Wval; apply G1).
  assert (HW : Wval dz s L (zeros (length L)) <> 0%R) by (rewrite W0; exact Hw).
  assert (S1 := Aval_sum s L m c HL (unit_nonneg _ _) Hlm). rewrite G1 in S1.
  assert (S0 := Aval_sum s L (zeros (length L)) c HL (zeros_nonneg _) (zeros_length _)). rewrite G0 in S0.
  rewrite (lsum_ext _ (fun cur => rval dz s L (Eidx L cur) (zeros (length L)) * coordinate s (Eidx L cur) c * weight s corner)%R) in S0.
  2:{ intros cur _. rewrite rval_zero by auto. rewrite W0. ring. }
  rewrite lsum_scal_r in S0.
  assert (V0 : lsum (fun cur => rval dz s L (Eidx L cur) (zeros (length L)) * coordinate s (Eidx L cur) c)%R (Evis L) = coordinate s corner c).
  { apply (Rmult_eq_reg_r (weight s corner)); [|exact Hw]. rewrite S0. ring. }
  rewrite (lsum_ext _ (fun cur => rval dz s L (Eidx L cur) m * coordinate s (Eidx L cur) c * weight s corner +
     rval dz s L (Eidx L cur) (zeros (length L)) * coordinate s (Eidx L cur) c * Wval dz s L m)%R) in S1.
  2:{ intros cur _. unfold m at 1. rewrite rval_unit by auto. rewrite W0. unfold m. ring. }
  rewrite lsum_plus, !lsum_scal_r, V0, W1 in S1.
  apply (Rmult_eq_reg_r (weight s corner)); [|exact Hw].
  replace (lsum (fun cur => (rval dz s L (Eidx L cur) m * coordinate s (Eidx L cur) c)%R) (Evis L) * weight s corner)%R
    with (end_slope (dk x) (dp x) e * (weight s next * coordinate s next c - weight s corner * coordinate s corner c)
          - coordinate s corner c * (end_slope (dk x) (dp x) e * (weight s next - weight s corner)))%R by lra.
  field. exact Hw.
Qed.
End Dz.
