(* Sequences of knot insertions: what they keep, and that the result depends on the knots only (C86). *)
From Coq Require Import ZArith List Bool Lia Reals Lra Permutation.
From Verif Require Import Base BaseFacts RSum MultiIndex MultiIndexSpec MultiIndexFacts TensorSum
  KnotVec KnotVecSpec KnotVecFacts KnotVecThms BSplineTheory Boehm BasisSpec Basis BasisFacts BasisThms VecUtils Spaces SpacesSpec
  SpacesFacts SpacesThms SplineEval SplineEdit SplineSpec EvalFacts RationalDeriv EvalDeriv SplineNew EvalThms PhysFacts
  AdjustFacts InsertKnots InsertFacts EditSpec InsertThms UniqueSpec UniqueFacts KnotRuns OrderSpec.
Import ListNotations.
Open Scope Z_scope.

Lemma sorted_unique : forall l l' : list R, nondecreasing l -> nondecreasing l' -> Permutation l l' -> l = l'.
Proof.
  induction l as [|x l IH]; intros l' H H' P; [now apply Permutation_nil in P|].
  destruct l' as [|y l']; [apply Permutation_sym, Permutation_nil in P; discriminate|].
  assert (E : x = y).
  { apply Rle_antisym.
    - assert (I : In y (x :: l)) by (apply (Permutation_in y (Permutation_sym P)); now left).
      destruct I as [->|I]; [lra | now apply (nondecreasing_head x l)].
    - assert (I : In x (y :: l')) by (apply (Permutation_in x P); now left).
      destruct I as [->|I]; [lra | now apply (nondecreasing_head y l')]. }
  subst y. f_equal. apply IH; [now apply (nondecreasing_tail x) | now apply (nondecreasing_tail x) | now apply Permutation_cons_inv in P].
Qed.

Lemma f2_nth {A B} (P : A -> B -> Prop) l1 l2 : Forall2 P l1 l2 -> forall d a, nth_error l1 d = Some a -> exists b, nth_error l2 d = Some b /\ P a b.
Proof.
  induction 1 as [|x y l1 l2 Hxy H IH]; intros [|d] a E; try discriminate; cbn [nth_error] in *; [injection E as <-; eauto | auto].
Qed.
Lemma f2_intro {A B} (P : A -> B -> Prop) : forall l1 l2, length l1 = length l2 ->
  (forall d a b, nth_error l1 d = Some a -> nth_error l2 d = Some b -> P a b) -> Forall2 P l1 l2.
Proof.
  induction l1 as [|x l1 IH]; intros [|y l2] Hl H; try discriminate; constructor.
  - apply (H 0%nat); reflexivity.
  - apply IH; [now injection Hl|]. intros d a b. apply (H (S d)).
Qed.

Lemma f2_length {A B} (P : A -> B -> Prop) l1 l2 : Forall2 P l1 l2 -> length l1 = length l2.
Proof. induction 1; cbn [length]; congruence. Qed.

Section Thms.
Variable dz : R -> R.
Local Notation F := (Rops dz).
Implicit Types s : spline F.

(* s' is s over more knots, ad d of them in direction d *)
Record refined s s' (ad : nat -> list R) : Prop := {
  rf_wf : well_formed s';
  rf_reg : regular s';
  rf_degs : degs_of s' = degs_of s;
  rf_dim : ph_dim (sp_ph s') = ph_dim (sp_ph s);
  rf_wtd : is_weighted dz (sp_ph s') = is_weighted dz (sp_ph s);
  rf_len : length (knots_of s') = length (knots_of s);
  rf_knots : forall d kv, nth_error (knots_of s) d = Some kv -> exists kv', nth_error (knots_of s') d = Some kv' /\
    nondecreasing kv' /\ Permutation kv' (ad d ++ kv) /\ first_knot kv' = first_knot kv /\ final_knot kv' = final_knot kv;
  rf_dom : forall us, in_domain s us <-> in_domain s' us;
  rf_sums : forall us, in_domain s us -> weight_function s' us = weight_function s us /\
    forall c, 0 <= c < ph_dim (sp_ph s) -> weighted_sum s' us c = weighted_sum s us c
}.

Lemma wf_kv_sorted s d kv : well_formed s -> nth_error (knots_of s) d = Some kv -> nondecreasing kv.
Proof.
  intros [Hd _ _ _ _ _] E. destruct (f2_nth _ _ _ Hd d kv E) as (p & Ep & G). apply G.
Qed.

Lemma refined_refl s : well_formed s -> regular s -> refined s s (fun _ => []).
Proof.
  intros W H. constructor; auto; try tauto.
  intros d kv E. exists kv. split; auto. split; [now apply (wf_kv_sorted s d)|]. now repeat split.
Qed.

Lemma refined_trans s s1 s2 a b : refined s s1 a -> refined s1 s2 b -> refined s s2 (fun d => b d ++ a d).
Proof.
  intros H1 H2. constructor.
  - apply H2.
  - apply H2.
  - rewrite (rf_degs _ _ _ H2). apply H1.
  - rewrite (rf_dim _ _ _ H2). apply H1.
  - rewrite (rf_wtd _ _ _ H2). apply H1.
  - rewrite (rf_len _ _ _ H2). apply H1.
  - intros d kv E. destruct (rf_knots _ _ _ H1 d kv E) as (k1 & E1 & N1 & P1 & F1 & L1).
    destruct (rf_knots _ _ _ H2 d k1 E1) as (k2 & E2 & N2 & P2 & F2 & L2). exists k2. split; auto. split; auto. split.
    + rewrite P2, P1. now rewrite app_assoc.
    + split; congruence.
  - intros us. rewrite (rf_dom _ _ _ H1). apply H2.
  - intros us Hu. destruct (rf_sums _ _ _ H1 us Hu) as [A1 A2].
    destruct (rf_sums _ _ _ H2 us (proj1 (rf_dom _ _ _ H1 us) Hu)) as [B1 B2]. split; [congruence|].
    intros c Hc. rewrite B2 by (rewrite (rf_dim _ _ _ H1); auto). now apply A2.
Qed.

Lemma refined_ext s s' a b : (forall d, Permutation (a d) (b d)) -> refined s s' a -> refined s s' b.
Proof.
  intros Hab H. destruct H as [A1 A2 A3 A4 A5 A6 A7 A8 A9]. constructor; auto.
  intros d kv E. destruct (A7 d kv E) as (k1 & E1 & N1 & P1 & Rest). exists k1. split; auto. split; auto. split; auto.
  rewrite P1. now apply Permutation_app_tail.
Qed.

Definition only (d : nat) (l : list R) (d' : nat) : list R := if Nat.eqb d d' then l else [].

Lemma only_same d l : only d l d = l.
Proof. unfold only. now rewrite Nat.eqb_refl. Qed.

(* one InsertKnot *)
Lemma insert_refined s d kv p u r : well_formed s -> regular s -> direction s d kv p -> insertable kv p u r -> 0 <= r -> zlen kv < 2 ^ 31 ->
  exists s', insert_knot (F := F) s u d r = Ok s' /\ refined s s' (only d (repeat u (Z.to_nat r))).
Proof.
  intros Hwf Hreg Hdir Hins Hr Hz. destruct (insertable_inner dz s d kv p u r Hwf Hdir Hins) as (n & Hin).
  destruct Hdir as [Ek Ed]. pose proof Hins as (Hu & Hs & Ho).
  destruct (insert_ok dz s d kv p u n (Z.to_nat r) Hwf Ek Ed Hin ltac:(lia) Hz) as (s' & E & W & K & G & D & Wt & P).
  rewrite Z2Nat.id in E by auto.
  pose proof (inner_insm kv p u n (Z.to_nat r) Hin) as HinM.
  destruct (first_insm kv p n u (Z.to_nat r) Hin) as [F1 F2].
  destruct (P (regular_positive dz s Hwf Hreg)) as [P1 P2].
  exists s'. split; [exact E|]. constructor; auto.
  - now apply (regular_back dz s).
  - rewrite K. apply upd_length.
  - intros d' kv' E'. rewrite K. destruct (Nat.eq_dec d' d) as [->|Hn].
    + rewrite Ek in E'. injection E' as <-. exists (insm kv n u (Z.to_nat r)). rewrite only_same.
      split; [now apply (nth_error_upd_same _ _ _ kv)|]. split; [apply HinM|]. split; [apply insm_perm|]. now split.
    + exists kv'. rewrite nth_error_upd_other by auto. split; auto. split; [now apply (wf_kv_sorted s d')|].
      unfold only. destruct (Nat.eqb_spec d d'); [congruence|]. now repeat split.
  - intros us. now apply (in_domain_upd_iff dz s s' d kv (insm kv n u (Z.to_nat r))).
Qed.

(* what is left to insert stays insertable *)
Lemma rest_insertable kv kv1 p a b : Permutation kv1 (a ++ kv) -> first_knot kv1 = first_knot kv -> final_knot kv1 = final_knot kv ->
  all_insertable kv p (a ++ b) -> all_insertable kv1 p b.
Proof.
  intros Hp F1 F2 (H1 & H2 & H3). apply Forall_app in H1. destruct H1 as [_ H1].
  assert (Hp2 : Permutation (b ++ kv1) ((a ++ b) ++ kv)).
  { rewrite Hp. rewrite !app_assoc. apply Permutation_app_tail. apply Permutation_app_comm. }
  split; [|split].
  - rewrite F1, F2. exact H1.
  - apply (separated_incl _ ((a ++ b) ++ kv)); auto. intros x. now apply Permutation_in.
  - intros u Hu. rewrite (occ_perm _ _ u Hp2). apply H3. apply in_app_iff. auto.
Qed.

Lemma repeat_insertable kv p u m b : (0 < m)%nat -> all_insertable kv p (repeat u m ++ b) -> insertable kv p u (Z.of_nat m).
Proof.
  intros Hm (H1 & H2 & H3). destruct m as [|m]; [lia|]. split; [|split].
  - cbn [repeat app] in H1. now inversion H1.
  - apply (separated_incl _ ((repeat u (S m) ++ b) ++ kv)); auto. intros x [<-|Hx]; [now left | apply in_app_iff; auto].
  - specialize (H3 u ltac:(now left)). rewrite !occ_app, occ_repeat in H3. destruct (Req_EM_T u u); [lia | contradiction].
Qed.

Lemma only_app d a b d' : only d b d' ++ only d a d' = only d (b ++ a) d'.
Proof. unfold only. now destruct (Nat.eqb d d'). Qed.

Lemma only_perm d a b : Permutation a b -> forall d', Permutation (only d a d') (only d b d').
Proof. intros H d'. unfold only. destruct (Nat.eqb d d'); auto. Qed.

Lemma direction_refined s s' a d kv p : refined s s' a -> direction s d kv p ->
  exists kv', direction s' d kv' p /\ Permutation kv' (a d ++ kv) /\ first_knot kv' = first_knot kv /\ final_knot kv' = final_knot kv.
Proof.
  intros H [Ek Ed]. destruct (rf_knots _ _ _ H d kv Ek) as (kv' & E' & _ & P & Rest).
  exists kv'. split; [|auto]. split; auto. now rewrite (rf_degs _ _ _ H).
Qed.

Lemma zlen_app' (a b : list R) : zlen (a ++ b) = zlen a + zlen b.
Proof. unfold zlen. rewrite app_length. lia. Qed.
Lemma zlen_perm (a b : list R) : Permutation a b -> zlen a = zlen b.
Proof. intros H. unfold zlen. now rewrite (Permutation_length H). Qed.
Lemma zlen_nn (a : list R) : 0 <= zlen a.
Proof. unfold zlen. lia. Qed.

(* one RefineKnots *)
Lemma refine_refined : forall new s d kv p, well_formed s -> regular s -> direction s d kv p -> all_insertable kv p new ->
  zlen kv + zlen new <= 2 ^ 31 -> exists s', refine_knots (F := F) s new d = Ok s' /\ refined s s' (only d new).
Proof.
  induction new as [|u new IH]; intros s d kv p Hwf Hreg Hdir Hall Hz.
  - exists s. split; [reflexivity|]. apply (refined_ext s s (fun _ => [])); [|now apply refined_refl].
    intros d'. unfold only. now destruct (Nat.eqb d d').
  - change (u :: new) with (repeat u 1 ++ new) in Hall. pose proof (repeat_insertable kv p u 1 new ltac:(lia) Hall) as Hi.
    assert (Hz1 : zlen (u :: new) = 1 + zlen new) by (unfold zlen; cbn [length]; lia). pose proof (zlen_nn new).
    destruct (insert_refined s d kv p u 1 Hwf Hreg Hdir Hi ltac:(lia) ltac:(lia)) as (s1 & E1 & H1).
    destruct (direction_refined _ _ _ d kv p H1 Hdir) as (kv1 & Hd1 & P1 & F1 & L1). rewrite only_same in P1.
    destruct (IH s1 d kv1 p (rf_wf _ _ _ H1) (rf_reg _ _ _ H1) Hd1) as (s2 & E2 & H2).
    { now apply (rest_insertable kv kv1 p (repeat u 1)). }
    { rewrite (zlen_perm _ _ P1), zlen_app'. change (zlen (repeat u (Z.to_nat 1))) with 1. lia. }
    exists s2. split; [unfold refine_knots; cbn [foldM]; rewrite E1; exact E2|].
    pose proof (refined_trans _ _ _ _ _ H1 H2) as H3.
    refine (refined_ext _ _ _ _ _ H3). intros d'. cbv beta. rewrite only_app. apply only_perm. symmetry. apply Permutation_cons_append.
Qed.

Lemma call_refined s e kv p : well_formed s -> regular s -> direction s (direction_of e) kv p ->
  match e with InsertIt _ _ r => 1 <= r | _ => True end -> all_insertable kv p (asked e) -> zlen kv + zlen (asked e) <= 2 ^ 31 ->
  exists s', call s e = Ok s' /\ refined s s' (only (direction_of e) (asked e)).
Proof.
  destruct e as [u d r|new d]; cbn [direction_of asked call]; intros Hwf Hreg Hdir Hr Hall Hz.
  - assert (Hi : insertable kv p u r).
    { replace r with (Z.of_nat (Z.to_nat r)) by lia. apply (repeat_insertable kv p u (Z.to_nat r) []); [lia|]. now rewrite app_nil_r. }
    apply (insert_refined s d kv p u r Hwf Hreg Hdir Hi); [lia|]. unfold zlen in *. rewrite repeat_length in Hz. lia.
  - now apply (refine_refined new s d kv p).
Qed.

Lemma wf_dir_exists s d : well_formed s -> (d < length (knots_of s))%nat -> exists kv p, direction s d kv p.
Proof.
  intros [Hd _ _ _ _ _] H. destruct (nth_error (knots_of s) d) as [kv|] eqn:E; [|apply nth_error_None in E; lia].
  destruct (f2_nth _ _ _ Hd d kv E) as (p & Ep & _). exists kv, p. now split.
Qed.

Lemma calls_refined : forall es s, well_formed s -> regular s -> permitted s es ->
  exists s', calls s es = Ok s' /\ refined s s' (asked_in es).
Proof.
  induction es as [|e es IH]; intros s Hwf Hreg [Hes Hper].
  - exists s. split; [reflexivity|]. now apply refined_refl.
  - inversion Hes as [|e' es' [He Hr] Hes']; subst. destruct (wf_dir_exists s _ Hwf He) as (kv & p & Hdir).
    destruct (Hper _ kv p Hdir) as [Hall Hz]. cbn [asked_in] in Hall, Hz. rewrite Nat.eqb_refl in Hall, Hz.
    rewrite zlen_app' in Hz. pose proof (zlen_nn (asked_in es (direction_of e))).
    assert (Hall1 : all_insertable kv p (asked e)).
    { destruct Hall as (A1 & A2 & A3). apply Forall_app in A1. split; [apply A1|]. split.
      - apply (separated_incl _ ((asked e ++ asked_in es (direction_of e)) ++ kv)); auto. intros x Hx.
        apply in_app_iff in Hx. apply in_app_iff. destruct Hx; [left; apply in_app_iff|]; auto.
      - intros u Hu. specialize (A3 u ltac:(apply in_app_iff; auto)). rewrite !occ_app in *. lia. }
    destruct (call_refined s e kv p Hwf Hreg Hdir Hr Hall1 ltac:(lia)) as (s1 & E1 & H1).
    destruct (IH s1 (rf_wf _ _ _ H1) (rf_reg _ _ _ H1)) as (s2 & E2 & H2).
    { split.
      - rewrite (rf_len _ _ _ H1). exact Hes'.
      - intros d kv1 p1 [Ek1 Ed1]. assert (Hd : (d < length (knots_of s))%nat).
        { rewrite <- (rf_len _ _ _ H1). apply nth_error_Some. congruence. }
        destruct (wf_dir_exists s d Hwf Hd) as (kv0 & p0 & Hd0). destruct (direction_refined _ _ _ d kv0 p0 H1 Hd0) as (kv2 & [Ek2 Ed2] & P2 & F2 & L2).
        rewrite Ek1 in Ek2. injection Ek2 as <-. rewrite Ed1 in Ed2. injection Ed2 as <-.
        destruct (Hper d kv0 p1 Hd0) as [B1 B2]. cbn [asked_in] in B1, B2. change (if (direction_of e =? d)%nat then asked e else []) with (only (direction_of e) (asked e) d) in B1, B2.
        split; [now apply (rest_insertable kv0 kv1 p1 (only (direction_of e) (asked e) d))|].
        rewrite (zlen_perm _ _ P2), zlen_app'. rewrite zlen_app' in B2. lia. }
    exists s2. split; [unfold calls; cbn [foldM]; rewrite E1; exact E2|].
    refine (refined_ext _ _ _ _ _ (refined_trans _ _ _ _ _ H1 H2)). intros d. cbv beta. cbn [asked_in].
    unfold only. apply Permutation_app_comm.
Qed.

(* ---- equal sums over equal knots: equal splines ---- *)
Lemma same_spline s s' : well_formed s -> well_formed s' -> regular s -> regular s' -> knots_of s' = knots_of s -> degs_of s' = degs_of s ->
  ph_dim (sp_ph s') = ph_dim (sp_ph s) -> is_weighted dz (sp_ph s') = is_weighted dz (sp_ph s) ->
  Forall2 full_support (knots_of s) (degs_of s) ->
  (forall us, in_domain s us -> weight_function s' us = weight_function s us /\
    forall c, 0 <= c < ph_dim (sp_ph s) -> weighted_sum s' us c = weighted_sum s us c) -> s' = s.
Proof.
  intros W W' Rg Rg' Ek Eg Ed Ew Hf Hs. pose proof W as [Hd Hb Hn Hdim Hl Hlw]. pose proof W' as [_ Hb' Hn' _ Hl' Hlw'].
  assert (Eps : sp_ps s' = sp_ps s).
  { rewrite Ek, Eg, Hb in Hb'. injection Hb' as Hb'. unfold knots_of, degs_of in Ek, Eg. destruct (sp_ps s') as [a b c], (sp_ps s) as [a' b' c'].
    cbn [ps_knots ps_degs ps_bfs] in *. congruence. }
  pose proof (same_shape dz s s' W W' Eps) as En.
  assert (Ewt : ph_wts (sp_ph s') = ph_wts (sp_ph s)).
  { unfold is_weighted in Ew. destruct (ph_wts (sp_ph s')) as [w'|] eqn:Ew', (ph_wts (sp_ph s)) as [w|] eqn:Ew2; try discriminate; auto.
    f_equal. specialize (Hlw w eq_refl). specialize (Hlw' w' eq_refl). rewrite En in Hlw'.
    apply (nth_ext (A := R)) with (d := 0%R) (d' := 0%R); [unfold zlen in *; rnorm; lia|].
    intros n Hlen. assert (Hq : 0 <= Z.of_nat n < total (npts_of s)) by (unfold zlen in *; rnorm; lia).
    assert (Hpos : pos_lens (npts_of s)).
    { rewrite Hn. clear - Hd. unfold pos_lens. induction Hd as [|kv p l1 l2 (A & (B & _) & _) _ IH]; constructor; auto. unfold zlen. lia. }
    destruct (get1d_surj (npts_of s) _ Hpos Hq) as (idx & Hbx & Ei).
    assert (Hb2 := Hbx). rewrite Hn in Hb2. destruct (supported_spans _ _ idx Hd Hf Hb2) as (ks & Hne & Hu).
    assert (E0 : (weight s' idx - weight s idx = 0)%R).
    { apply (tensor_independent dz (knots_of s) (degs_of s) ks (fun idx => weight s' idx - weight s idx)%R Hd Hne); [|exact Hu].
      intros us Hus. pose proof (inside_in_domain _ _ _ _ Hd Hus) as Hdom. destruct (Hs us Hdom) as [EW _].
      rewrite <- Hn. unfold weight_function in EW. rewrite Ek, Eg, En in EW.
      rewrite (lsum_ext _ (fun j => (basis_product (knots_of s) (degs_of s) us j * weight s' j -
        basis_product (knots_of s) (degs_of s) us j * weight s j))%R) by (intros j _; ring).
      rewrite lsum_minus, EW. lra. }
    unfold weight in E0. rewrite Ew', Ew2, En, position_get1d, Ei, Nat2Z.id in E0. rnorm. lra. }
  assert (Ec : ph_cps (sp_ph s') = ph_cps (sp_ph s)).
  { apply (all_points dz s s' W W' Eps Ed Ewt Rg Hf). intros us c Hu Hc.
    apply (same_evaluation dz s s' us [c]); auto.
    - unfold in_domain. rewrite Ek. tauto.
    - now rewrite Ek.
    - unfold in_domain in Hu. symmetry. apply (f2_length _ _ _ Hu).
    - constructor; [exact Hc | constructor].
    - now apply regular_positive. }
  unfold npts_of in En. destruct s' as [a' [b' c' d' e']], s as [a [b c d e]]. cbn [sp_ps sp_ph ph_dim ph_npts ph_cps ph_wts] in *. congruence.
Qed.

Lemma refined_full s s' es : well_formed s -> Forall2 at_most_full (knots_of s) (degs_of s) -> permitted s es -> refined s s' (asked_in es) ->
  Forall2 full_support (knots_of s') (degs_of s').
Proof.
  intros W Hf [_ Hper] H. apply f2_intro.
  - rewrite (rf_len _ _ _ H), (rf_degs _ _ _ H). apply (f2_length _ _ _ Hf).
  - intros d kv' p Ek' Ed'. assert (Hd : (d < length (knots_of s))%nat) by (rewrite <- (rf_len _ _ _ H); apply nth_error_Some; congruence).
    destruct (wf_dir_exists s d W Hd) as (kv & p0 & Hdir). pose proof Hdir as [Ek Ed]. rewrite (rf_degs _ _ _ H) in Ed'. rewrite Ed' in Ed. injection Ed as <-.
    destruct (rf_knots _ _ _ H d kv Ek) as (kv2 & E2 & N2 & P2 & _). rewrite Ek' in E2. injection E2 as <-.
    destruct (f2_nth _ _ _ Hf d kv Ek) as (p1 & Ep1 & Ho). rewrite Ed' in Ep1. injection Ep1 as <-.
    destruct (wf_direction dz s d kv p W Ek Ed') as ((Hp & _) & _).
    apply support_occ; auto. intros x. rewrite (occ_perm _ _ x P2).
    destruct (in_dec Req_EM_T x (asked_in es d)) as [I|I].
    + apply (Hper d kv p Hdir); auto.
    + rewrite occ_app, (occ_none _ _ I). apply Ho.
Qed.

(* C86 *)
Theorem order_of_calls : forall s es es', well_formed s -> regular s -> Forall2 at_most_full (knots_of s) (degs_of s) ->
  permitted s es -> permitted s es' -> (forall d, Permutation (asked_in es d) (asked_in es' d)) ->
  exists s', calls s es = Ok s' /\ calls s es' = Ok s' /\ well_formed s' /\ regular s' /\ degs_of s' = degs_of s /\
    (forall d kv, nth_error (knots_of s) d = Some kv -> exists kv', nth_error (knots_of s') d = Some kv' /\
      nondecreasing kv' /\ Permutation kv' (asked_in es d ++ kv)) /\
    (forall us dims, length us = length (knots_of s) -> valid_dims s dims -> evaluate s' us dims = evaluate s us dims).
Proof.
  intros s es es' W Rg Hf H1 H2 Hp. destruct (calls_refined es s W Rg H1) as (s1 & E1 & R1).
  destruct (calls_refined es' s W Rg H2) as (s2 & E2 & R2).
  enough (E : s2 = s1).
  { exists s1. split; [exact E1|]. split; [now rewrite <- E|]. split; [apply R1|]. split; [apply R1|]. split; [apply R1|]. split.
    - intros d kv Ek. destruct (rf_knots _ _ _ R1 d kv Ek) as (kv' & A1 & A2 & A3 & _). eauto.
    - intros us dims Hl Hv. apply (same_evaluation dz s s1 us dims); auto; try apply R1. now apply regular_positive. }
  apply same_spline; try apply R1; try apply R2.
  - apply nth_error_ext. intros d. destruct (nth_error (knots_of s) d) as [kv|] eqn:Ek.
    + destruct (rf_knots _ _ _ R1 d kv Ek) as (k1 & K1 & N1 & P1 & _). destruct (rf_knots _ _ _ R2 d kv Ek) as (k2 & K2 & N2 & P2 & _).
      rewrite K1, K2. f_equal. apply sorted_unique; auto. rewrite P1, P2. apply Permutation_app_tail. symmetry. apply Hp.
    + apply nth_error_None in Ek. rewrite (proj2 (nth_error_None _ _)), (proj2 (nth_error_None _ _)); auto.
      * rewrite (rf_len _ _ _ R1). auto.
      * rewrite (rf_len _ _ _ R2). auto.
  - rewrite (rf_degs _ _ _ R1). apply R2.
  - rewrite (rf_dim _ _ _ R1). apply R2.
  - rewrite (rf_wtd _ _ _ R1). apply R2.
  - now apply (refined_full s s1 es).
  - intros us Hu. apply (rf_dom _ _ _ R1) in Hu. destruct (rf_sums _ _ _ R1 us Hu) as [A1 A2]. destruct (rf_sums _ _ _ R2 us Hu) as [B1 B2].
    split; [congruence|]. intros c Hc. rewrite (rf_dim _ _ _ R1) in Hc. now rewrite A2, B2.
Qed.
End Thms.
