(* The quadrature of the assembly is exact on affine patches. *)
From Coq Require Import ZArith List Bool Lia Reals Lra.
From Verif Require Import Base BaseFacts RSum MultiIndex MultiIndexSpec MultiIndexFacts TensorSum
  KnotVec KnotVecSpec KnotVecFacts Basis BasisSpec BSplineTheory BasisFacts
  Spaces SpacesSpec SpacesFacts SplineEval SplineSpec EvalFacts RationalDeriv EvalThms
  Gauss GaussSpec GaussThms IgaSpec Iga IgaFacts IgaThms IgaBasis IgaBasisThms IgaSystem IgaSystemSpec Scatter IgaSystemFacts IgaAssembly IgaStiffness IgaSystemThms
  IgaSystemCons IntegralFacts GalerkinSpec.
Import ListNotations.
Open Scope R_scope.

Fixpoint prod_at (fs : list (R -> R)) (us : list R) : R :=
  match fs, us with f :: fs', u :: us' => f u * prod_at fs' us' | _, _ => 1 end.
Definition rprod (l : list R) : R := fold_right Rmult 1 l.

Lemma lsum_zseq_nth {A} (f : A -> R) (l : list A) a0 : lsum (fun i => f (nth (Z.to_nat i) l a0)) (zseq 0 (length l)) = lsum f l.
Proof.
  rewrite zseq_map, lsum_map. induction l as [|a l IH]; [reflexivity|]. cbn [length seq lsum].
  f_equal. rewrite <- IH, <- seq_shift, lsum_map. apply lsum_ext. intros i _.
  replace (Z.to_nat (0 + Z.of_nat (S i))) with (S (Z.to_nat (0 + Z.of_nat i))) by lia. reflexivity.
Qed.

Lemma tensor_factors rl lists : forall fs, length fs = length lists ->
  lsum (fun es => rprod (half_widths lists es) *
    lsum (fun qs => grid_weight rl qs * prod_at fs (element_point lists es (grid_point rl qs)))
         (all_indices (repeat (Z.of_nat (length rl)) (length lists))))
       (all_indices (map (fun l => Z.of_nat (length l)) lists)) =
  rprod (map2 (fun l f => lsum (fun e => moved rl e f) l) lists fs).
Proof.
  induction lists as [|l lists IH]; intros [|f fs] H; cbn [length] in H; try lia.
  - cbn. ring.
  - injection H as H. cbn [map all_indices map2 rprod fold_right length repeat]. rewrite lsum_flat_map.
    fold (rprod (map2 (fun l f => lsum (fun e => moved rl e f) l) lists fs)). rewrite <- (IH fs H), <- lsum_scal_r. rewrite !Nat2Z.id.
    rewrite <- (lsum_zseq_nth (fun e => moved rl e f * _) l (0, 0)).
    apply lsum_ext. intros e _. rewrite lsum_map, <- lsum_scal. apply lsum_ext. intros es _.
    cbn [half_widths rprod fold_right]. fold (rprod (half_widths lists es)).
    set (h := (snd (nth (Z.to_nat e) l (0, 0)) - fst (nth (Z.to_nat e) l (0, 0))) / 2).
    rewrite lsum_flat_map.
    rewrite (lsum_ext _ (fun q => snd (nth (Z.to_nat q) rl (0, 0)) *
        f (fst (nth (Z.to_nat e) l (0, 0)) + (snd (nth (Z.to_nat e) l (0, 0)) - fst (nth (Z.to_nat e) l (0, 0))) * ((fst (nth (Z.to_nat q) rl (0, 0)) + 1) / 2)) *
        lsum (fun qs => grid_weight rl qs * prod_at fs (element_point lists es (grid_point rl qs))) (all_indices (repeat (Z.of_nat (length rl)) (length lists))))).
    2:{ intros q _. rewrite lsum_map, <- lsum_scal. apply lsum_ext. intros qs _.
        unfold grid_weight, grid_point. cbn [map fold_right element_point]. destruct (nth (Z.to_nat e) l (0, 0)) as [lo hi]. cbn [fst snd prod_at]. ring. }
    rewrite lsum_scal_r. unfold moved. fold h.
    rewrite (lsum_zseq_nth (fun q => snd q * f (fst (nth (Z.to_nat e) l (0, 0)) + (snd (nth (Z.to_nat e) l (0, 0)) - fst (nth (Z.to_nat e) l (0, 0))) * ((fst q + 1) / 2))) rl (0, 0)).
    unfold GaussSpec.quadrature. ring.
Qed.

(* every direction is integrated exactly *)
Definition exact_in (n : Z) (l : list (R * R)) (f : R -> R) : Prop :=
  forall e, In e l -> exists d g, (d <= Z.to_nat (2 * n - 1))%nat /\ is_poly d g /\ forall x, fst e < x < snd e -> f x = g x.

Lemma box_exact (dz : R -> R) n rl knots degs : gauss_rule (F := Rops dz) n = Some rl -> Forall2 good_direction knots degs -> forall fs,
  Forall2 (exact_in n) (dlists knots degs) fs ->
  box_integral knots fs (rprod (map2 (fun l f => lsum (fun e => moved rl e f) l) (dlists knots degs) fs)).
Proof.
  intros Hr. induction 1 as [|kv p knots degs Hg H IH]; intros fs Hf; unfold dlists in *; cbn [map2] in *; inversion Hf; subst.
  - reflexivity.
  - cbn [box_integral map2 rprod fold_right].
    destruct (elements_tile (dz := dz) kv p Hg) as (l & El & _ & Ht & _). rewrite elements_ok in El by auto. injection El as <-.
    destruct (tiles_exact dz n rl Hr y (Z.to_nat (2 * n - 1)) (pairs (inner kv p)) (le_n _) _ _ Ht) as (_ & pr & E).
    + intros e He. destruct (H2 e He) as (d & g & Hd & Hp & Hx). exists g. split; auto. eapply is_poly_le; eauto.
    + eexists. eexists. split; [exists pr; symmetry; exact E|]. split; [apply IH; auto | reflexivity].
Qed.

(* basis functions between knots *)
Lemma piece_in kv p k e x : good_direction kv p -> knot_interval kv p k e -> fst e < x < snd e ->
  in_span kv k x /\ (p <= k < zlen kv - p - 1)%Z.
Proof.
  intros (Hp & _ & _) (Hk & -> & _) Hx. cbn [fst snd] in Hx. unfold zlen in *. split; [|lia]. unfold in_span, zlen.
  rewrite !tk_knot' by (unfold zlen; lia). split; [lia|]. split; [lia|]. split; [lra|]. split; [lra|]. left. lra.
Qed.

Lemma exact_values (dz : R -> R) n kv p i j : good_direction kv p -> (p < n)%Z ->
  (0 <= i < zlen kv - p - 1)%Z -> (0 <= j < zlen kv - p - 1)%Z ->
  exact_in n (pairs (inner kv p)) (fun u => cox_de_boor kv (Z.to_nat p) (Z.to_nat i) u * cox_de_boor kv (Z.to_nat p) (Z.to_nat j) u).
Proof.
  intros Hg Hn Hi Hj e He. destruct (elements_tile (dz := dz) kv p Hg) as (l & El & _ & _ & Hk). rewrite elements_ok in El by auto. injection El as <-.
  destruct (Hk e He) as (k & K). pose proof Hg as (Hp & _ & Hnd & _).
  exists (Z.to_nat p + Z.to_nat p)%nat, (fun x => B (tk kv) k (Z.to_nat p) i x * B (tk kv) k (Z.to_nat p) j x).
  split; [lia|]. split; [apply is_poly_mult; apply is_poly_B|].
  intros x Hx. destruct (piece_in kv p k e x Hg K Hx) as (Hs & Hk2).
  rewrite !(cox_piece kv k) by (auto; lia). reflexivity.
Qed.

Section Dz.
Variable dz : R -> R.
Local Notation F := (Rops dz).
Implicit Types s : spline F.

Lemma affine_partials s us A b : well_formed s -> affine_map s A b ->
  Forall2 (fun kv u => first_knot kv < u < final_knot kv) (knots_of s) us -> partials s us A.
Proof.
  intros Hwf Ha Hin c d Hc Hd.
  assert (Hu : in_domain s us) by (unfold in_domain; clear - Hin; induction Hin; constructor; auto; lra).
  pose proof (domain_length s us Hu) as Hl.
  destruct (nth_error (knots_of s) d) as [kv|] eqn:Ek; [|apply nth_error_None in Ek; lia].
  destruct (nth_error us d) as [u|] eqn:Eu; [|apply nth_error_None in Eu; lia].
  assert (En : nth d us 0 = u) by (now apply nth_error_nth).
  assert (H1 : first_knot kv < u < final_knot kv).
  { clear - Hin Ek Eu. revert d Ek Eu. induction Hin as [|kv0 u0 knots us H1 H IH]; intros [|d] E1 E2; cbn in *; try discriminate;
    [inversion E1; inversion E2; subst; auto|eauto]. }
  rewrite En.
  assert (He : 0 < Rmin (u - first_knot kv) (final_knot kv - u)) by (apply Rmin_pos; lra).
  set (c0 := b c + lsum (fun d' => A c d' * nth d' us 0) (seq 0 (length us)) - A c d * u).
  apply (derivable_near (fun v => c0 + A c d * v) _ _ _ (mkposreal _ He)).
  - intros h Hh. cbn in Hh.
    pose proof (Rmin_l (u - first_knot kv) (final_knot kv - u)). pose proof (Rmin_r (u - first_knot kv) (final_knot kv - u)).
    apply Rabs_def2 in Hh.
    assert (Hd' : in_domain s (upd us d (u + h))) by (eapply domain_upd; eauto; lra).
    rewrite (Ha _ c Hd' Hc), upd_length. unfold c0.
    assert (G : forall l, NoDup l -> lsum (fun d' => A c d' * nth d' (upd us d (u + h)) 0) l =
      lsum (fun d' => A c d' * nth d' us 0) l + if in_dec Nat.eq_dec d l then A c d * h else 0).
    { clear - Hd En. induction 1 as [|x l Hx Hnd IH]; cbn [lsum]; [destruct (in_dec Nat.eq_dec d []) as [[]|_]; ring|]. rewrite IH.
      destruct (Nat.eq_dec x d) as [->|Hne].
      - rewrite nth_upd_same by auto. destruct (in_dec Nat.eq_dec d l); [contradiction|].
        destruct (in_dec Nat.eq_dec d (d :: l)) as [_|Q]; [|exfalso; apply Q; now left]. rewrite En. ring.
      - rewrite nth_upd_other by auto. destruct (in_dec Nat.eq_dec d l) as [Q|Q]; destruct (in_dec Nat.eq_dec d (x :: l)) as [Q'|Q']; try ring.
        + exfalso. apply Q'. now right.
        + exfalso. destruct Q' as [Q'|Q']; auto. }
    rewrite G by apply seq_NoDup. destruct (in_dec Nat.eq_dec d (seq 0 (length us))) as [_|Q]; [ring|].
    exfalso. apply Q. apply in_seq. lia.
  - assert (L1 : derivable_pt_lim (fun x => c0 + A c d * x) u (0 + A c d * 1)).
    { apply derivable_pt_lim_plus with (f1 := fun _ => c0) (f2 := fun x => A c d * x); [apply derivable_pt_lim_const|].
      apply derivable_pt_lim_scal with (f := id). apply derivable_pt_lim_id. }
    replace (0 + A c d * 1) with (A c d) in L1 by ring. exact L1.
Qed.

Lemma half_length knots degs : Forall2 good_direction knots degs -> forall es us, strictly_inside (dlists knots degs) es us ->
  length (half_widths (dlists knots degs) es) = length us.
Proof.
  intros _. generalize (dlists knots degs). clear. induction l as [|l lists IH]; intros [|e es] [|u us] H; cbn [strictly_inside half_widths length] in *; try contradiction; auto.
  f_equal. apply IH. tauto.
Qed.

Lemma table_ext n f g : (forall a b, (a < n)%nat -> (b < n)%nat -> f a b = g a b) -> table n f = table n g.
Proof.
  intros H. unfold table. apply map_ext_in. intros a Ha. apply in_seq in Ha. apply map_ext_in. intros b Hb. apply in_seq in Hb. apply H; lia.
Qed.

Lemma map_nth_seq (l : list R) : map (fun i => nth i l 0) (seq 0 (length l)) = l.
Proof.
  induction l as [|x l IH]; cbn [length seq map]; auto. f_equal. rewrite <- seq_shift, map_map. exact IH.
Qed.

Lemma affine_jacobian (mdet : list (list R) -> R) s A b : well_formed s -> regular s -> affine_map s A b -> scales mdet (length (degs_of s)) ->
  forall es us, in_box (map zlen (dlists (knots_of s) (degs_of s))) es -> strictly_inside (dlists (knots_of s) (degs_of s)) es us ->
  jacobian_determinant (F := F) mdet s us =
  Ok (rprod (half_widths (dlists (knots_of s) (degs_of s)) es) * volume_factor mdet (length (degs_of s)) (ph_dim (sp_ph s)) A).
Proof.
  intros Hwf Hreg Ha Hsc es us He Hs.
  destruct (jacobian_formula mdet s Hwf Hreg) as (lists & El & HJ).
  rewrite element_lists_ok in El by auto. injection El as <-.
  destruct (HJ es us He Hs) as (D & HD & EJ).
  change (num F) with R in *.
  destruct (located_at s es us Hwf He Hs) as (ks & Hl).
  pose proof (spans_domain _ _ (wf_directions s Hwf) _ _ _ _ (loc_spans _ _ _ _ Hl) Hs) as Hopen.
  pose proof (affine_partials s us A b Hwf Ha Hopen) as HA.
  assert (Ln : length us = length (degs_of s)) by (rewrite degs_length by auto; apply domain_length, (loc_domain _ _ _ _ Hl)).
  rewrite EJ. f_equal. rewrite Ln. unfold volume_factor.
  rewrite (table_ext _ _ (fun a b => nth a (half_widths (dlists (knots_of s) (degs_of s)) es) 0 * nth b (half_widths (dlists (knots_of s) (degs_of s)) es) 0 *
     lsum (fun c => A c a * A c b) (zseq 0 (Z.to_nat (ph_dim (sp_ph s)))))).
  2:{ intros x y Hx Hy. f_equal. apply lsum_ext. intros c Hc. apply zseq_In in Hc.
      rewrite (partials_unique s us D A c x), (partials_unique s us D A c y); auto; lia. }
  rewrite (Hsc (fun x => nth x (half_widths (dlists (knots_of s) (degs_of s)) es) 0) (fun a b => lsum (fun c => A c a * A c b) (zseq 0 (Z.to_nat (ph_dim (sp_ph s)))))).
  assert (EP : map (fun x => nth x (half_widths (dlists (knots_of s) (degs_of s)) es) 0) (seq 0 (length (degs_of s))) = half_widths (dlists (knots_of s) (degs_of s)) es).
  { rewrite <- Ln, <- (half_length _ _ (wf_directions s Hwf) es us Hs). apply map_nth_seq. }
  rewrite EP. fold (rprod (half_widths (dlists (knots_of s) (degs_of s)) es)).
  assert (Hp : 0 <= rprod (half_widths (dlists (knots_of s) (degs_of s)) es)).
  { pose proof (half_pos _ _ _ Hs) as Hp. clear - Hp. induction Hp; cbn [rprod fold_right]; [lra|]. apply Rmult_le_pos; [lra | exact IHHp]. }
  rewrite Rabs_mult, (Rabs_right (_ ^ 2)) by (apply Rle_ge, pow2_ge_0).
  rewrite sqrt_mult by (auto using pow2_ge_0, Rabs_pos). now rewrite sqrt_pow2.
Qed.
End Dz.
