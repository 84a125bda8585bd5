(* Refining and cutting, in either order, give the same pieces (C89). *)
From Coq Require Import ZArith List Bool Lia Reals Lra Permutation.
From Verif Require Import Base BaseFacts RSum MultiIndex MultiIndexSpec MultiIndexFacts TensorSum
  KnotVec KnotVecSpec KnotVecFacts KnotVecThms BSplineTheory BasisSpec Basis BasisFacts BasisThms VecUtils Spaces SpacesSpec
  SpacesFacts SpacesThms SplineEval SplineEdit SplineSpec EvalThms PhysFacts AdjustFacts InsertKnots InsertFacts EditSpec InsertThms SubdivideThms
  UniqueSpec UniqueFacts KnotRuns OrderSpec OrderThms CutsThms CutsClose RefineCutSpec.
Import ListNotations.
Open Scope Z_scope.

Lemma occ_length : forall a b : list R, (forall x, (occurrences a x <= occurrences b x)%nat) -> (length a <= length b)%nat.
Proof.
  induction a as [|y a IH]; intros b H; [cbn; lia|].
  assert (Hy : In y b). { apply occ_In. specialize (H y). unfold occurrences in *. rewrite count_occ_cons_eq in H by auto. lia. }
  destruct (in_split _ _ Hy) as (b1 & b2 & ->). specialize (IH (b1 ++ b2)).
  rewrite app_length in *. cbn [length]. enough (length a <= length (b1 ++ b2))%nat by (rewrite app_length in *; lia).
  rewrite app_length. apply IH. intros x. specialize (H x). revert H. unfold occurrences. rewrite !count_occ_app. cbn [count_occ].
  destruct (Req_EM_T y x); lia.
Qed.

Lemma total_mono : forall a b : list Z, Forall2 (fun x y => 1 <= x <= y) a b -> 1 <= total a <= total b.
Proof. induction 1 as [|x y a b H1 H2 IH]; cbn [total fold_right]; [lia|]. unfold total in IH. nia. Qed.

Section Thms.
Variable dz : R -> R.
Local Notation F := (Rops dz).
Implicit Types s : spline F.

Lemma refined_part s s' ad : refined dz s s' ad -> part dz s s'.
Proof.
  intros H. assert (N : forall us, strictly dz s' us -> strictly dz s us).
  { intros us Hu. unfold strictly in *. apply f2_intro.
    - pose proof (f2_length _ _ _ Hu). rewrite <- (rf_len _ _ _ _ H). auto.
    - intros j kv u Ekv Eu. destruct (rf_knots _ _ _ _ H j kv Ekv) as (kv' & E' & _ & _ & F1 & F2).
      destruct (f2_nth _ _ _ Hu j kv' E') as (u' & Eu' & G). assert (u' = u) by congruence. subst u'. now rewrite <- F1, <- F2. }
  constructor; try apply H. - exact N. - intros us Hu. apply (rf_sums _ _ _ _ H). apply strictly_in. auto.
Qed.

(* one piece: kv1 holds the knots of kv on one side of u and p+1 times u, kv1' likewise those of the refined kv' *)
Lemma piece_refined s s' t t' d kv p kv' kv1 kv1' u (P : R -> Prop) es es1 :
  (forall x, P x \/ ~ P x) -> ~ P u -> well_formed s -> Forall2 at_most_full (knots_of s) (degs_of s) -> direction s d kv p ->
  permitted s es -> separated (u :: asked_in es d ++ kv) -> zlen kv + zlen (asked_in es d) + p + 1 <= 2 ^ 31 ->
  refined dz s s' (asked_in es) -> direction s' d kv' p -> part dz s t -> part dz s' t' ->
  knots_of t = upd (knots_of s) d kv1 -> knots_of t' = upd (knots_of s') d kv1' ->
  (forall x, P x -> occurrences kv1 x = occurrences kv x) -> Z.of_nat (occurrences kv1 u) = p + 1 -> (forall x, ~ P x -> x <> u -> occurrences kv1 x = 0%nat) ->
  zlen kv1 <= zlen kv + p + 1 -> (forall x, P x -> first_knot kv < x < final_knot kv -> first_knot kv1 < x < final_knot kv1)%R ->
  nondecreasing kv1' ->
  (forall x, P x -> occurrences kv1' x = occurrences kv' x) -> Z.of_nat (occurrences kv1' u) = p + 1 -> (forall x, ~ P x -> x <> u -> occurrences kv1' x = 0%nat) ->
  at_most_full kv1' p ->
  names s es1 ->
  (forall d' x, d' <> d \/ P x -> occurrences (asked_in es1 d') x = occurrences (asked_in es d') x) ->
  (forall x, ~ P x -> occurrences (asked_in es1 d) x = 0%nat) ->
  calls t es1 = Ok t'.
Proof.
  intros Pdec Pu W Hf Hdir Hper Hsep Hz Href Hdir' Pt Pt' Kt Kt' O1 O2 O3 Hl Hb N' O1' O2' O3' Hf' Hn Q1 Q2.
  pose proof Hdir as [Ek Ed]. destruct (wf_direction dz s d kv p W Ek Ed) as ((Hp & _) & Hd & Hnd).
  destruct Hper as [_ Hper]. destruct (Hper d kv p Hdir) as [(I1 & I2 & I3) _].
  assert (Ein : forall x, In x (asked_in es1 d) -> P x /\ In x (asked_in es d)).
  { intros x Hx. apply In_occ in Hx. destruct (Pdec x) as [C|C]; [|rewrite Q2 in Hx by auto; lia].
    split; auto. apply occ_In. rewrite <- Q1 by auto. exact Hx. }
  assert (Hper1 : permitted t es1).
  { split.
    - unfold names in Hn. rewrite Kt, upd_length. exact Hn.
    - intros d' kv0 p0 [Ek0 Ed0]. rewrite Kt in Ek0. rewrite (pt_degs _ _ _ Pt) in Ed0. destruct (Nat.eq_dec d' d) as [->|Hne].
      + rewrite (nth_error_upd_same _ _ _ kv) in Ek0 by auto. injection Ek0 as <-. assert (p0 = p) by congruence. subst p0.
        split; [split; [|split]|].
        * apply Forall_forall. intros x Hx. destruct (Ein x Hx) as [C I]. apply Hb; auto. now apply (proj1 (Forall_forall _ _) I1).
        * apply (separated_incl _ (u :: asked_in es d ++ kv)); auto. intros x Hx. apply in_app_or in Hx. destruct Hx as [Hx|Hx].
          -- right. apply in_or_app. left. now apply Ein.
          -- destruct (Req_EM_T x u) as [->|C]; [now left|]. right. apply in_or_app. right. apply occ_In. apply In_occ in Hx.
             destruct (Pdec x) as [C'|C']; [rewrite <- O1 by auto; exact Hx | rewrite O3 in Hx by auto; lia].
        * intros x Hx. destruct (Ein x Hx) as [C I]. rewrite occ_app, Q1, O1 by auto. rewrite <- occ_app. now apply I3.
        * assert (zlen (asked_in es1 d) <= zlen (asked_in es d)).
          { unfold zlen. apply inj_le, occ_length. intros x. destruct (Pdec x) as [C|C]; [rewrite Q1 by auto; lia | rewrite Q2 by auto; lia]. }
          lia.
      + rewrite nth_error_upd_other in Ek0 by auto. destruct (Hper d' kv0 p0 (conj Ek0 Ed0)) as [(J1 & J2 & J3) J4].
        assert (Pm : Permutation (asked_in es1 d') (asked_in es d')).
        { apply (Permutation_count_occ Req_EM_T). intros x. apply Q1. now left. }
        split; [split; [|split]|].
        * apply Forall_forall. intros x Hx. apply (proj1 (Forall_forall _ _) J1). now apply (Permutation_in x Pm).
        * apply (separated_incl _ (asked_in es d' ++ kv0)); auto. intros x Hx. apply in_app_or in Hx. apply in_or_app.
          destruct Hx as [Hx|Hx]; [left; now apply (Permutation_in x Pm) | now right].
        * intros x Hx. rewrite occ_app, Q1 by auto. rewrite <- occ_app. apply J3. now apply (Permutation_in x Pm).
        * rewrite (zlen_perm _ _ Pm). exact J4. }
  destruct (calls_refined dz es1 t (pt_wf _ _ _ Pt) (pt_reg _ _ _ Pt) Hper1) as (t'' & E & R). rewrite E. f_equal. symmetry.
  apply (part_unique dz s t' t'' (part_trans _ _ _ _ (refined_part _ _ _ Href) Pt') (part_trans _ _ _ _ Pt (refined_part _ _ _ R))).
  - apply nth_error_ext. intros j. rewrite Kt'. destruct (Nat.lt_ge_cases j (length (knots_of s))) as [Hj|Hj].
    2:{ rewrite (proj2 (nth_error_None _ _)), (proj2 (nth_error_None _ _)); auto; [rewrite (rf_len _ _ _ _ R), Kt, upd_length; auto | rewrite upd_length, (rf_len _ _ _ _ Href); auto]. }
    destruct (nth_error (knots_of s) j) as [kj|] eqn:Ej; [|apply nth_error_None in Ej; lia].
    destruct (Nat.eq_dec j d) as [->|Hne].
    + destruct Hdir' as [Ek' _]. rewrite (nth_error_upd_same _ _ _ kv') by auto.
      destruct (rf_knots _ _ _ _ R d kv1) as (k'' & E'' & N'' & Pm'' & _); [rewrite Kt; now apply (nth_error_upd_same _ _ _ kv)|]. rewrite E''. f_equal.
      apply same_counts; auto. intros x. rewrite (occ_perm _ _ x Pm''), occ_app.
      destruct (rf_knots _ _ _ _ Href d kv Ek) as (k' & E' & _ & Pm' & _). assert (k' = kv') by congruence. subst k'.
      destruct (Pdec x) as [C|C].
      * rewrite O1', O1, Q1, (occ_perm _ _ x Pm'), occ_app by auto. reflexivity.
      * rewrite Q2 by auto. destruct (Req_EM_T x u) as [->|C']; [lia | rewrite O3, O3' by auto; lia].
    + rewrite nth_error_upd_other by auto. destruct (rf_knots _ _ _ _ Href j kj Ej) as (k' & E' & M' & Pm' & _). rewrite E'.
      destruct (rf_knots _ _ _ _ R j kj) as (k'' & E'' & M'' & Pm'' & _); [rewrite Kt, nth_error_upd_other; auto|]. rewrite E''. f_equal.
      apply same_counts; auto. intros x. rewrite (occ_perm _ _ x Pm''), (occ_perm _ _ x Pm'), !occ_app, Q1 by auto. reflexivity.
  - apply full_supports; [apply Pt'|]. apply (upd_full dz s' t' d kv' p kv1'); auto.
    apply f2_intro.
    + rewrite (rf_len _ _ _ _ Href), (rf_degs _ _ _ _ Href). apply (f2_length _ _ _ Hf).
    + intros j k' q Ek' Eq. rewrite (rf_degs _ _ _ _ Href) in Eq. destruct (nth_error (knots_of s) j) as [kj|] eqn:Ej.
      2:{ apply nth_error_None in Ej. rewrite <- (rf_len _ _ _ _ Href) in Ej. apply nth_error_None in Ej. congruence. }
      destruct (rf_knots _ _ _ _ Href j kj Ej) as (k0 & E0 & _ & Pm & _). assert (k0 = k') by congruence. subst k0.
      intros x. rewrite (occ_perm _ _ x Pm). destruct (Hper j kj q (conj Ej Eq)) as [(_ & _ & J3) _].
      destruct (in_dec Req_EM_T x (asked_in es j)) as [I|I]; [now apply J3|].
      rewrite occ_app, (occ_none (asked_in es j)) by auto. destruct (f2_nth _ _ _ Hf j kj Ej) as (q' & Eq' & G). assert (q' = q) by congruence. subst q'. apply G.
Qed.

Lemma refined_total s s' ad d kv p kv' : well_formed s -> refined dz s s' ad -> direction s d kv p -> direction s' d kv' p ->
  total (upd (npts_of s) d (nth d (npts_of s) 0 + p + 1)) <= total (upd (npts_of s') d (nth d (npts_of s') 0 + p + 1)).
Proof.
  intros W H Hdir Hdir'. pose proof (rf_wf _ _ _ _ H) as W'. apply total_mono.
  assert (HF : Forall2 (fun x y => 1 <= x <= y) (npts_of s) (npts_of s')).
  { assert (L : forall (t : spline F), well_formed t -> length (npts_of t) = length (knots_of t)).
    { intros t Wt. rewrite (wf_npts t Wt). destruct Wt as [G _ _ _ _ _]. pose proof (f2_length _ _ _ G). rewrite map2_length; lia. }
    apply f2_intro; [rewrite !L, (rf_len _ _ _ _ H) by auto; reflexivity|].
    intros j x y Ex Ey. assert (Hj : (j < length (knots_of s))%nat) by (rewrite <- L by auto; apply nth_error_Some; congruence).
    destruct (wf_dir_exists dz s j W Hj) as (k & q & Hj').
    destruct (direction_refined dz _ _ _ _ _ _ H Hj') as (k' & Hk' & Pm & _). pose proof Hj' as [A1 A2]. pose proof Hk' as [B1 B2].
    destruct (wf_direction dz s j k q W A1 A2) as (G & _ & E1). destruct (wf_direction dz s' j k' q W' B1 B2) as (_ & _ & E2).
    rewrite (nth_error_nth _ _ 0 Ex) in E1. rewrite (nth_error_nth _ _ 0 Ey) in E2. subst x y.
    rewrite (zlen_perm _ _ Pm), zlen_app'. pose proof (zlen_nn (ad j)). pose proof (wf_phys dz s W) as (Hpl & _). fold (npts_of s) in Hpl.
    pose proof (pos_lens_nth _ j Hpl ltac:(rewrite L; auto)). rewrite (nth_error_nth _ _ 0 Ex) in H1. lia. }
  destruct Hdir as [A1 A2]. destruct Hdir' as [B1 B2].
  destruct (wf_direction dz s d kv p W A1 A2) as ((Hp & _) & Hd & _).
  clear - HF Hp Hd. revert d Hd. induction HF as [|x y a b H1 H2 IH]; intros [|d] Hd; cbn [length] in Hd; try lia; cbn [upd nth]; constructor; auto; try lia.
  apply IH. lia.
Qed.

Theorem refine_and_cut : forall s s' d kv p u es es1 es2,
  well_formed s -> regular s -> Forall2 at_most_full (knots_of s) (degs_of s) -> direction s d kv p ->
  permitted s es -> (first_knot kv < u < final_knot kv)%R -> separated (u :: asked_in es d ++ kv) ->
  zlen kv + zlen (asked_in es d) + p + 1 <= 2 ^ 31 ->
  calls s es = Ok s' -> total (upd (npts_of s') d (nth d (npts_of s') 0 + p + 1)) < 2 ^ 64 ->
  names s es1 -> names s es2 -> asks_below es d u es1 -> asks_above es d u es2 ->
  exists low high low' high' t t',
    subdivide s u d = Ok (low, high, t) /\ subdivide s' u d = Ok (low', high', t') /\
    calls low es1 = Ok low' /\ calls high es2 = Ok high'.
Proof.
  intros s s' d kv p u es es1 es2 W Rg Hf Hdir Hper Hu Hs Hz Hc Ht Hn1 Hn2 [L1 L2] [U1 U2].
  destruct (calls_refined dz es s W Rg Hper) as (s0 & E0 & Href). assert (s0 = s') by congruence. subst s0.
  pose proof (full_direction dz s d kv p Hdir Hf) as Ho. pose proof Hdir as [Ek Ed].
  destruct (wf_direction dz s d kv p W Ek Ed) as ((Hp & _) & Hd & Hnd).
  destruct (direction_refined dz _ _ _ _ _ _ Href Hdir) as (kv' & Hdir' & Pm & F1 & F2).
  assert (Ho' : at_most_full kv' p).
  { intros x. rewrite (occ_perm _ _ x Pm). destruct (proj2 Hper d kv p Hdir) as [(_ & _ & J3) _].
    destruct (in_dec Req_EM_T x (asked_in es d)) as [I|I]; [now apply J3|]. rewrite occ_app, (occ_none (asked_in es d)) by auto. apply Ho. }
  assert (Hlen : zlen kv' = zlen (asked_in es d) + zlen kv) by (rewrite (zlen_perm _ _ Pm); apply zlen_app').
  pose proof (zlen_nn (asked_in es d)) as Hnn.
  destruct (subdivide_parts dz s d kv p u W Rg Hdir) as (a & b & t & ka & kb & E1 & Pa & Pb & Ka & La & Kb & Ub).
  { split; [lra|]. split; [|specialize (Ho u); lia]. apply (separated_incl _ (u :: asked_in es d ++ kv)); auto.
    intros x [<-|Hx]; [now left | right; apply in_or_app; now right]. }
  { lia. }
  { eapply Z.le_lt_trans; [|exact Ht]. now apply (refined_total s s' (asked_in es) d kv p kv'). }
  destruct (subdivide_parts dz s' d kv' p u (rf_wf _ _ _ _ Href) (rf_reg _ _ _ _ Href) Hdir') as (a' & b' & t' & ka' & kb' & E2 & Pa' & Pb' & Ka' & La' & Kb' & Ub').
  { split; [rewrite F1, F2; lra|]. split; [|specialize (Ho' u); lia]. apply (separated_incl _ (u :: asked_in es d ++ kv)); auto.
    intros x [<-|Hx]; [now left | right; now apply (Permutation_in x Pm)]. }
  { lia. }
  { exact Ht. }
  exists a, b, a', b', t, t'. split; [exact E1|]. split; [exact E2|]. split.
  - pose proof La as (_ & A1 & A2 & A3 & A4 & A5 & A6). pose proof La' as (B0 & _ & _ & _ & B4 & B5 & B6).
    apply (piece_refined s s' a a' d kv p kv' ka ka' u (fun x => x < u)%R es es1); auto; try lra.
    + intros x. destruct (Rlt_le_dec x u); [now left | right; lra].
    + intros x C C'. apply A6. lra.
    + intros x C C'. rewrite A1, A2. lra.
    + intros x C C'. apply B6. lra.
    + now apply (lower_full kv' p u).
    + intros x C. apply L2. lra.
  - pose proof Ub as (_ & A1 & A2 & A3 & A4 & A5 & A6). pose proof Ub' as (B0 & _ & _ & _ & B4 & B5 & B6).
    apply (piece_refined s s' b b' d kv p kv' kb kb' u (fun x => u < x)%R es es2); auto; try lra.
    + intros x. destruct (Rlt_le_dec u x); [now left | right; lra].
    + intros x C C'. apply A6. lra.
    + intros x C C'. rewrite A1, A2. lra.
    + intros x C C'. apply B6. lra.
    + now apply (upper_full kv' p u).
    + intros x C. apply U2. lra.
Qed.
End Thms.
