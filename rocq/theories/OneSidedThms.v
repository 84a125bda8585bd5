(* Derivatives at knots: proofs for P_OneSided.v. *)
From Coq Require Import ZArith List Bool Lia Reals Lra.
From Verif Require Import Base BaseFacts RSum MultiIndex MultiIndexSpec MultiIndexFacts TensorSum
  KnotVec KnotVecSpec KnotVecFacts Basis BasisSpec BSplineTheory BasisFacts BasisThms
  Spaces SpacesSpec SpacesFacts SplineEval SplineSpec EvalFacts RationalDeriv EvalDeriv EvalThms OneSidedSpec.
Import ListNotations.
Open Scope Z_scope.

Lemma right_of (f g : R -> R) u l d : (0 < d)%R -> (forall v, (u <= v < u + d)%R -> f v = g v) ->
  derivable_pt_lim f u l -> right_derivative g u l.
Proof.
  intros Hd Hfg Hf eps Heps. destruct (Hf eps Heps) as [delta H].
  exists (Rmin delta d). pose proof (cond_pos delta). split; [now apply Rmin_pos|]. intros h Hh.
  pose proof (Rmin_l delta d). pose proof (Rmin_r delta d).
  rewrite <- !Hfg by lra. apply H; [lra|]. rewrite Rabs_pos_eq; lra.
Qed.

Lemma left_of (f g : R -> R) u l d : (0 < d)%R -> (forall v, (u - d < v <= u)%R -> f v = g v) ->
  derivable_pt_lim f u l -> left_derivative g u l.
Proof.
  intros Hd Hfg Hf eps Heps. destruct (Hf eps Heps) as [delta H].
  exists (Rmin delta d). pose proof (cond_pos delta). split; [now apply Rmin_pos|]. intros h Hh.
  pose proof (Rmin_l delta d). pose proof (Rmin_r delta d).
  rewrite <- !Hfg by lra. specialize (H (- h)%R ltac:(lra)).
  rewrite Rabs_Ropp, Rabs_pos_eq in H by lra. specialize (H ltac:(lra)).
  replace ((f u - f (u - h)) / h)%R with ((f (u + - h) - f u) / - h)%R; [exact H|].
  unfold Rminus. field. lra.
Qed.

Lemma basis_one_sided : forall dz kv p i, nondecreasing kv -> separated kv -> (i + p + 1 < length kv)%nat ->
  (1 <= p)%nat \/ (knot kv i < knot kv (S i))%R -> (first_knot kv < final_knot kv)%R ->
  exists b, create_dynamic (F := Rops dz) kv (Z.of_nat i) (Z.of_nat p) = Ok b /\
    forall u m, (first_knot kv <= u <= final_knot kv)%R ->
      ((u < final_knot kv)%R -> right_derivative (fun v => bf_deriv b v (Z.of_nat m)) u (bf_deriv b u (Z.of_nat (S m)))) /\
      (u = final_knot kv -> left_derivative (fun v => bf_deriv b v (Z.of_nat m)) u (bf_deriv b u (Z.of_nat (S m)))).
Proof.
  intros dz kv p i Hn Hs Hl Hp Hne. eexists; split; [now apply create_ok|]. intros u m Hu.
  destruct (knot_span_in_span dz kv u Hn Hs Hne Hu) as (k & _ & Hk).
  pose proof Hk as (A1 & A2 & A3 & A4 & A5).
  assert (Hlz : Z.of_nat i + Z.of_nat p + 1 < zlen kv) by (unfold zlen; lia).
  assert (P : forall v n, in_span kv k v -> bf_deriv (mkbf dz kv (Z.of_nat i) p) v (Z.of_nat n) = DB (tk kv) k n p (Z.of_nat i) v).
  { intros v n Hv. destruct n as [|n].
    - rewrite bf_deriv_0. apply bf_eval_piece; auto; try lia.
      replace (Z.of_nat i + 1) with (Z.of_nat (S i)) by lia. rewrite !tk_knot by lia. exact Hp.
    - destruct p as [|p].
      + rewrite bf_deriv_S by lia. reflexivity.
      + apply bf_deriv_piece; auto; lia. }
  rewrite P by auto.
  pose proof (DB_derivable (tk kv) (tk_monotone kv Hn) k A3 m p (Z.of_nat i) u) as D.
  split; intros Hc.
  - assert (A6 : (u < tk kv (k + 1))%R) by (destruct A5 as [A5|[_ A5]]; lra).
    eapply (right_of _ _ u _ (tk kv (k + 1) - u)); [lra| |exact D].
    intros v Hv. symmetry. apply P. repeat split; auto; lra.
  - assert (A6 : u = tk kv (k + 1)) by (destruct A5 as [A5|[A5 _]]; auto; pose proof (tk_le_final kv (k + 1) Hn); lra).
    eapply (left_of _ _ u _ (tk kv (k + 1) - tk kv k)); [lra| |exact D].
    intros v Hv. symmetry. apply P. repeat split; auto; try lra.
Qed.

Section Thms.
Variable dz : R -> R.
Local Notation F := (Rops dz).
Implicit Types s : spline F.

(* the span stays the same *)
Lemma span_good x v : good_dir dz x -> in_span (dk x) (dsp x) v -> good_dir dz (setu x v).
Proof.
  intros (Hg & _ & Hk & E & Hm) Hsp. pose proof Hg as (Hp & Hc & Hn & Hs & Hlt). pose proof Hsp as (A1 & A2 & A3 & A4 & A5).
  pose proof (tk_ge_first (dk x) (dsp x) Hn). pose proof (tk_le_final (dk x) (dsp x + 1) Hn).
  destruct (eval_direction dz (dk x) (dp x) v Hg) as (k & Ek & Hspk & _); [destruct A5 as [A5|[_ A5]]; lra|].
  pose proof (in_span_unique _ _ _ _ Hn Hsp Hspk). subst k.
  exact (conj Hg (conj Hsp (conj Hk (conj Ek Hm)))).
Qed.

Lemma derivative_one_sided : forall s us ders d kv u c, well_formed s -> in_domain s us ->
  length ders = length (degs_of s) -> Forall (fun m => 0 <= m) ders ->
  nth_error (knots_of s) d = Some kv -> nth_error us d = Some u ->
  0 <= c < ph_dim (sp_ph s) -> is_bspline s \/ weight_function s us <> 0%R ->
  exists l, evaluate_derivative s us [c] (upd ders d (nth d ders 0 + 1)) = Ok [l] /\
    ((u < final_knot kv)%R ->
      right_derivative (fun v => only_value (evaluate_derivative s (upd us d v) [c] ders)) u l) /\
    (u = final_knot kv ->
      left_derivative (fun v => only_value (evaluate_derivative s (upd us d v) [c] ders)) u l).
Proof.
  intros s us ders d kv u c Hwf Hu Hld Hders Hkv Hud Hc Hw.
  assert (HW : weight_function s us <> 0%R).
  { destruct Hw as [Hw|Hw]; auto. rewrite weight_function_bspline by auto. lra. }
  clear Hw. destruct (wf_dirs dz s us Hwf Hu) as (L & HwfL & -> & H0). destruct (wfL_of dz s L HwfL) as (E1 & E2 & E3).
  assert (Hl : length ders = length L) by (rewrite Hld, E2; apply map_length).
  rewrite E1 in Hkv. rewrite nth_error_map in Hkv, Hud. destruct (nth_error L d) as [x|] eqn:Hx; [|discriminate].
  cbn in Hkv, Hud. inversion Hkv; inversion Hud; subst kv u. clear Hkv Hud.
  assert (Hgx : good_dir dz x) by (pose proof (proj1 HwfL) as HL; rewrite Forall_forall in HL; apply HL; eapply nth_error_In; eauto).
  assert (Hvd : valid_dims s [c]) by (now constructor).
  assert (Hd : (d < length L)%nat) by (apply nth_error_Some; congruence).
  assert (Hv1 : valid (length L) (addone d ders)) by (apply valid_addone; [exact Hd | split; auto]).
  assert (P : forall v, in_span (dk x) (dsp x) v ->
     dvalue dz s (setv L d v) ders c = only_value (evaluate_derivative s (upd (map du L) d v) [c] ders)).
  { intros v Hv. rewrite <- setv_du. rewrite (evaluate_derivative_ok dz s (setv L d v) [c] ders); auto.
    - eapply setv_wfL; eauto. now apply span_good.
    - now rewrite setv_length. }
  assert (D : derivable_pt_lim (fun v => dvalue dz s (setv L d v) ders c) (du x) (dvalue dz s L (addone d ders) c)).
  { apply dvalue_derivable; auto. intros _. unfold Wval. rewrite order0_facs by auto.
    rewrite weight_function_dirs in HW by auto. exact HW. }
  pose proof Hgx as ((Hp & Hcl & Hn & Hs & Hlt) & (A1 & A2 & A3 & A4 & A5) & _).
  exists (dvalue dz s L (addone d ders) c). split; [|split].
  - change (upd ders d (nth d ders 0 + 1)) with (addone d ders).
    rewrite (evaluate_derivative_ok dz s L [c] (addone d ders)); auto; apply Hv1.
  - intros Hf. assert (A6 : (du x < tk (dk x) (dsp x + 1))%R) by (destruct A5 as [A5|[_ A5]]; lra).
    eapply (right_of _ _ _ _ (tk (dk x) (dsp x + 1) - du x)); [lra| |exact D].
    intros v Hv. apply P. repeat split; auto; lra.
  - intros Hf. assert (A6 : du x = tk (dk x) (dsp x + 1)).
    { destruct A5 as [A5|[A5 _]]; auto. pose proof (tk_le_final (dk x) (dsp x + 1) Hn). lra. }
    eapply (left_of _ _ _ _ (tk (dk x) (dsp x + 1) - tk (dk x) (dsp x))); [lra| |exact D].
    intros v Hv. apply P. repeat split; auto; try lra.

Qed.
End Thms.
