(* Closing lemmas for knot insertion (C21 to C24) and the examples. *)
From Coq Require Import ZArith List Bool Lia Reals Lra Permutation.
From Verif Require Import Base BaseFacts RSum MultiIndex MultiIndexSpec MultiIndexFacts TensorSum
  KnotVec KnotVecSpec KnotVecFacts KnotVecThms BSplineTheory Boehm BasisSpec Basis BasisFacts BasisThms VecUtils Spaces SpacesSpec
  SpacesFacts SpacesThms SplineEval SplineEdit SplineSpec EvalFacts RationalDeriv EvalDeriv SplineNew EvalThms PhysFacts
  AdjustFacts InsertKnots InsertFacts EditSpec.
Import ListNotations.
Open Scope Z_scope.

Section Thms.
Variable dz : R -> R.
Local Notation F := (Rops dz).
Implicit Types s : spline F.

Lemma regular_positive s : well_formed s -> regular s -> all_positive dz (sp_ph s).
Proof.
  intros Hwf [Hb|Hp] idx Hb'; rewrite <- weight_p.
  - unfold weight. rewrite Hb. lra.
  - now apply weight_positive.
Qed.

Lemma positive_weights_back s : well_formed s -> is_weighted dz (sp_ph s) = true -> all_positive dz (sp_ph s) -> positive_weights s.
Proof.
  intros Hwf Hw Hp. unfold positive_weights. unfold is_weighted in Hw. destruct (ph_wts (sp_ph s)) as [w|] eqn:Ew; [|discriminate].
  exists w. split; auto. apply Forall_forall. intros x Hx. apply (In_nth _ _ 0%R) in Hx as (k & Hk & <-).
  pose proof (wf_phys dz s Hwf) as (Hpl & _ & _ & Hwl). specialize (Hwl w Ew).
  destruct (get1d_surj (ph_npts (sp_ph s)) (Z.of_nat k) Hpl) as (idx & Hb & Eq); [zl|].
  specialize (Hp idx Hb). unfold pweight, wat in Hp. rewrite Ew, Eq, Nat2Z.id in Hp. exact Hp.
Qed.

Lemma weighted_bspline s : is_weighted dz (sp_ph s) = false <-> is_bspline s.
Proof. unfold is_weighted, is_bspline. destruct (ph_wts (sp_ph s)); split; congruence. Qed.

Lemma regular_back s s' : well_formed s' -> is_weighted dz (sp_ph s') = is_weighted dz (sp_ph s) ->
  all_positive dz (sp_ph s') -> regular s -> regular s'.
Proof.
  intros Hwf E Hp Hr. destruct (is_weighted dz (sp_ph s)) eqn:Ew.
  - right. apply positive_weights_back; auto; congruence.
  - left. apply weighted_bspline. congruence.
Qed.

Lemma in_domain_dec s us : {in_domain s us} + {~ in_domain s us}.
Proof.
  unfold in_domain. generalize (knots_of s) as ks. intros ks. revert us. induction ks as [|kv ks IH]; intros [|u us].
  - left; constructor.
  - right; intros H; inversion H.
  - right; intros H; inversion H.
  - destruct (Rle_dec (first_knot kv) u); [|right; intros H; inversion H; lra].
    destruct (Rle_dec u (final_knot kv)); [|right; intros H; inversion H; lra].
    destruct (IH us); [left; constructor; auto | right; intros H; inversion H; auto].
Qed.

(* equal sums give equal evaluations *)
Lemma same_evaluation s s' us dims : well_formed s -> well_formed s' -> ph_dim (sp_ph s') = ph_dim (sp_ph s) ->
  (in_domain s us <-> in_domain s' us) -> length (knots_of s') = length (knots_of s) -> length us = length (knots_of s) ->
  valid_dims s dims -> all_positive dz (sp_ph s) -> regular s ->
  (in_domain s us -> weight_function s' us = weight_function s us /\
     forall c, 0 <= c < ph_dim (sp_ph s) -> weighted_sum s' us c = weighted_sum s us c) ->
  evaluate s' us dims = evaluate s us dims.
Proof.
  intros Hwf Hwf' Hd Hiff Hl Hl' Hv Hpos Hreg Hsum.
  assert (Hv' : valid_dims s' dims) by (unfold valid_dims in *; now rewrite Hd).
  assert (Hdegs : forall t : spline F, well_formed t -> length (zeros (length (degs_of t))) = length (degs_of t)) by (intros; apply zeros_length).
  destruct (in_domain_dec s us) as [Hin|Hout].
  - destruct (Hsum Hin) as [EW ES].
    assert (HW : (weight_function s us <> 0)%R).
    { destruct Hreg as [Hb|Hp]; [rewrite weight_function_bspline by auto; lra | apply Rgt_not_eq; now apply weight_function_positive]. }
    rewrite (eval_quotient dz s us dims) by auto. rewrite (eval_quotient dz s' us dims); auto; [|now apply Hiff | congruence].
    f_equal. apply map_ext_in. intros c Hc. rewrite EW, ES; auto. unfold valid_dims in Hv. rewrite Forall_forall in Hv. now apply Hv.
  - destruct (eval_safe dz s us dims (zeros (length (degs_of s))) Hwf Hl' Hv (Hdegs s Hwf) (zeros_nonneg _)) as [_ T].
    destruct (eval_safe dz s' us dims (zeros (length (degs_of s'))) Hwf' ltac:(congruence) Hv' (Hdegs s' Hwf') (zeros_nonneg _)) as [_ T'].
    rewrite (proj1 (T Hout)), (proj1 (T' (fun C => Hout (proj2 Hiff C)))). reflexivity.
Qed.

Lemma insertable_inner s d kv p u r : well_formed s -> direction s d kv p -> insertable kv p u r ->
  exists n, inner kv p u n.
Proof.
  intros Hwf [Ek Ed] (Hu & Hs & _). destruct (wf_direction dz s d kv p Hwf Ek Ed) as (Hg & _).
  destruct (at_pos_exists dz kv p u Hg Hs Hu) as (n & Hn & _). exists n. exact (conj Hg (conj Hs (conj Hn Hu))).
Qed.

Lemma insm_perm kv n u m : Permutation (insm kv n u m) (repeat u m ++ kv).
Proof.
  unfold insm. rewrite <- (firstn_skipn n kv) at 3. rewrite !app_assoc. apply Permutation_app_tail. apply Permutation_app_comm.
Qed.

Lemma in_domain_upd_iff s s' d kv kv' us : nth_error (knots_of s) d = Some kv -> knots_of s' = upd (knots_of s) d kv' ->
  first_knot kv' = first_knot kv -> final_knot kv' = final_knot kv -> (in_domain s us <-> in_domain s' us).
Proof.
  intros Ek Ek' E1 E2. split; intros H.
  - unfold in_domain. rewrite Ek'. now apply (in_domain_upd dz s d kv).
  - assert (E : knots_of s = upd (knots_of s') d kv) by (rewrite Ek', upd_upd; symmetry; now apply upd_id).
    unfold in_domain. rewrite E. apply (in_domain_upd dz s' d kv'); auto. rewrite Ek'. now apply (nth_error_upd_same _ _ _ kv).
Qed.

(* everything about one insertion *)
Lemma insert_full s d kv p u r : well_formed s -> direction s d kv p -> insertable kv p u r -> 0 <= r -> zlen kv < 2 ^ 31 ->
  exists s' kv', insert_knot s u d r = Ok s' /\ well_formed s' /\
    knots_of s' = upd (knots_of s) d kv' /\ nondecreasing kv' /\ Permutation kv' (repeat u (Z.to_nat r) ++ kv) /\
    first_knot kv' = first_knot kv /\ final_knot kv' = final_knot kv /\
    degs_of s' = degs_of s /\ npts_of s' = upd (npts_of s) d (nth d (npts_of s) 0 + r) /\
    ph_dim (sp_ph s') = ph_dim (sp_ph s) /\ is_weighted dz (sp_ph s') = is_weighted dz (sp_ph s) /\
    (regular s -> regular s' /\
      forall us dims, length us = length (knots_of s) -> valid_dims s dims -> evaluate s' us dims = evaluate s us dims).
Proof.
  intros Hwf Hdir Hins Hr Hz. destruct (insertable_inner s d kv p u r Hwf Hdir Hins) as (n & Hin).
  destruct Hdir as [Ek Ed]. pose proof Hins as (Hu & Hs & Ho).
  destruct (insert_ok dz s d kv p u n (Z.to_nat r) Hwf Ek Ed Hin ltac:(lia) Hz) as (s' & E & W & K & G & D & Wt & P).
  rewrite Z2Nat.id in E by auto.
  pose proof (inner_insm kv p u n (Z.to_nat r) Hin) as HinM.
  destruct (first_insm kv p n u (Z.to_nat r) Hin) as [F1 F2].
  exists s', (insm kv n u (Z.to_nat r)).
  split; [auto|]. split; [auto|]. split; [auto|]. split; [apply HinM|]. split; [apply insm_perm|]. split; [auto|]. split; [auto|].
  split; [auto|]. split.
  { rewrite (wf_npts s' W), K, G, (map2_upd_l _ _ _ d _ p Ed). rewrite <- (wf_npts s Hwf). f_equal.
    destruct (wf_direction dz s d kv p Hwf Ek Ed) as (_ & _ & En). rewrite En.
    unfold zlen. rewrite insm_length by (destruct Hin as (_ & _ & (H & _) & _); lia). lia. }
  split; [auto|]. split; [auto|]. intros Hreg.
  pose proof (regular_positive s Hwf Hreg) as Hpos. destruct (P Hpos) as [P1 P2].
  split; [now apply (regular_back s)|]. intros us dims Hl Hv.
  apply same_evaluation; auto.
  - now apply (in_domain_upd_iff s s' d kv (insm kv n u (Z.to_nat r))).
  - rewrite K. apply upd_length.
Qed.

(* C21, C22 *)
Lemma insert_bspline : forall s d kv p u r, well_formed s -> is_bspline s -> direction s d kv p ->
  insertable kv p u r -> 0 <= r -> zlen kv < 2 ^ 31 ->
  exists s', insert_knot s u d r = Ok s' /\ is_bspline s' /\
    forall us dims, length us = length (knots_of s) -> valid_dims s dims -> evaluate s' us dims = evaluate s us dims.
Proof.
  intros s d kv p u r Hwf Hb Hdir Hins Hr Hz.
  destruct (insert_full s d kv p u r Hwf Hdir Hins Hr Hz) as (s' & kv' & E & W & _ & _ & _ & _ & _ & _ & _ & _ & Wt & P).
  exists s'. split; [auto|]. split; [apply weighted_bspline; rewrite Wt; now apply weighted_bspline|]. apply P. now left.
Qed.

Lemma insert_nurbs : forall s d kv p u r, well_formed s -> positive_weights s -> direction s d kv p ->
  insertable kv p u r -> 0 <= r -> zlen kv < 2 ^ 31 ->
  exists s', insert_knot s u d r = Ok s' /\ positive_weights s' /\
    forall us dims, length us = length (knots_of s) -> valid_dims s dims -> evaluate s' us dims = evaluate s us dims.
Proof.
  intros s d kv p u r Hwf Hb Hdir Hins Hr Hz.
  destruct (insert_full s d kv p u r Hwf Hdir Hins Hr Hz) as (s' & kv' & E & W & _ & _ & _ & _ & _ & _ & _ & _ & Wt & P).
  exists s'. split; [auto|]. destruct P as [P1 P2]; [now right|]. split; auto.
  destruct P1 as [P1|P1]; auto. exfalso. apply weighted_bspline in P1. rewrite Wt in P1. apply weighted_bspline in P1.
  destruct Hb as (w & E2 & _). unfold is_bspline in P1. congruence.
Qed.

(* C23 *)
Lemma insert_bookkeeping : forall s d kv p u r, well_formed s -> direction s d kv p ->
  insertable kv p u r -> 0 <= r -> zlen kv < 2 ^ 31 ->
  exists s' kv', insert_knot s u d r = Ok s' /\ well_formed s' /\
    knots_of s' = upd (knots_of s) d kv' /\ nondecreasing kv' /\ Permutation kv' (repeat u (Z.to_nat r) ++ kv) /\
    degs_of s' = degs_of s /\ npts_of s' = upd (npts_of s) d (nth d (npts_of s) 0 + r) /\
    ph_dim (sp_ph s') = ph_dim (sp_ph s) /\ (is_bspline s' <-> is_bspline s).
Proof.
  intros s d kv p u r Hwf Hdir Hins Hr Hz.
  destruct (insert_full s d kv p u r Hwf Hdir Hins Hr Hz) as (s' & kv' & E & W & H1 & H2 & H3 & _ & _ & H4 & H5 & H6 & Wt & P).
  exists s', kv'. repeat (split; [assumption|]). rewrite <- !weighted_bspline. now rewrite Wt.
Qed.

Lemma occ_perm l1 l2 x : Permutation l1 l2 -> occurrences l1 x = occurrences l2 x.
Proof. intros H. unfold occurrences. now apply Permutation_count_occ. Qed.

Lemma refine_ok : forall new s d kv p, well_formed s -> regular s -> direction s d kv p ->
  all_insertable kv p new -> zlen kv + zlen new <= 2 ^ 31 ->
  exists s' kv', refine_knots s new d = Ok s' /\ well_formed s' /\ regular s' /\
    knots_of s' = upd (knots_of s) d kv' /\ nondecreasing kv' /\ Permutation kv' (new ++ kv) /\
    degs_of s' = degs_of s /\ npts_of s' = upd (npts_of s) d (nth d (npts_of s) 0 + zlen new) /\
    forall us dims, length us = length (knots_of s) -> valid_dims s dims -> evaluate s' us dims = evaluate s us dims.
Proof.
  induction new as [|u new IH]; intros s d kv p Hwf Hreg Hdir (Hall & Hsep & Hocc) Hz.
  - destruct Hdir as [Ek Ed]. destruct (wf_direction dz s d kv p Hwf Ek Ed) as ((_ & _ & Hnd & _) & Hd & _).
    exists s, kv. split; [reflexivity|]. split; [auto|]. split; [auto|]. split; [symmetry; now apply upd_id|].
    split; [auto|]. split; [reflexivity|]. split; [reflexivity|]. split; [|auto].
    unfold zlen; cbn [length]. rewrite Z.add_0_r. now rewrite upd_nth_self.
  - assert (Hins : insertable kv p u 1).
    { split; [now inversion Hall|]. split.
      - apply (separated_incl _ ((u :: new) ++ kv)); auto. intros x [<-|Hx]; [now left | right; apply in_app_iff; auto].
      - specialize (Hocc u (or_introl eq_refl)). unfold occurrences in *. cbn [app count_occ] in Hocc.
        destruct (Req_EM_T u u); [|congruence]. rewrite count_occ_app in Hocc. lia. }
    assert (Hz1 : zlen kv < 2 ^ 31) by (unfold zlen in *; cbn [length] in Hz; lia).
    destruct (insert_full s d kv p u 1 Hwf Hdir Hins ltac:(lia) Hz1) as (s1 & kv1 & E & W & K & Hnd & Hpm & F1 & F2 & G & Np & Dm & Wt & P).
    destruct (P Hreg) as [Hreg1 Hev]. change (repeat u (Z.to_nat 1) ++ kv) with (u :: kv) in Hpm.
    destruct Hdir as [Ek Ed].
    assert (Hdir1 : direction s1 d kv1 p) by (split; [rewrite K; now apply (nth_error_upd_same _ _ _ kv) | now rewrite G]).
    assert (Hpm2 : Permutation (new ++ kv1) ((u :: new) ++ kv)).
    { rewrite Hpm. cbn [app]. symmetry. apply Permutation_middle. }
    destruct (IH s1 d kv1 p W Hreg1 Hdir1) as (s2 & kv2 & E2 & W2 & R2 & K2 & Hnd2 & Hpm3 & G2 & Np2 & Hev2).
    { split; [|split].
      - inversion Hall; subst. rewrite F1, F2. auto.
      - apply (separated_incl _ ((u :: new) ++ kv)); auto. intros x. apply Permutation_in; auto.
      - intros v Hv. rewrite (occ_perm _ _ v Hpm2). apply Hocc. now right. }
    { apply Permutation_length in Hpm. unfold zlen in *. cbn [length] in *. lia. }
    exists s2, kv2. split; [cbn [refine_knots foldM]; unfold refine_knots; cbn [foldM]; rewrite E; exact E2|].
    split; [auto|]. split; [auto|]. split; [rewrite K2, K; apply upd_upd|]. split; [auto|]. split.
    { transitivity (new ++ kv1); auto. }
    split; [congruence|]. split.
    { rewrite Np2, Np. rewrite upd_upd. rewrite nth_upd_same by (apply (wf_direction dz s d kv p Hwf Ek Ed)).
      unfold zlen. cbn [length]. f_equal. lia. }
    intros us dims Hl Hv. rewrite Hev2.
    + now apply Hev.
    + rewrite K, upd_length. auto.
    + unfold valid_dims in *. now rewrite Dm.
Qed.

(* C24: inserting the first knot *)
Lemma scaling_overrun kv u p i last : zlen kv <= last -> last < 2 ^ 64 -> forall fuel j, 0 <= j <= last ->
  insert_scaling (F := F) fuel kv u p i j last = UB.
Proof.
  intros H1 H2. induction fuel as [|f IH]; intros j Hj; cbn [insert_scaling]; destruct (Z.leb_spec j last); try lia; auto.
  destruct (Z_lt_dec j (zlen kv)) as [Hlt|Hge].
  - rewrite get_knot_tk by (rnorm; lia). cbn [bind]. unfold get_knot.
    destruct (vget kv (u64 (j + p - i + 1))) as [x|e|] eqn:E; cbn [bind]; auto.
    + rewrite IH; auto. unfold u64. rewrite Z.mod_small by lia. lia.
    + exfalso. now apply (vget_not_throw kv (u64 (j + p - i + 1)) e).
  - unfold get_knot. rnorm. rewrite (vget_out (A := R)) by (rnorm; lia). reflexivity.
Qed.

Lemma insert_first_knot : forall s d kv p r, well_formed s -> direction s d kv p -> 1 <= r -> zlen kv < 2 ^ 64 ->
  insert_knot s (first_knot kv) d r = UB.
Proof.
  intros s d kv p r Hwf [Ek Ed] Hr Hz. destruct (wf_direction dz s d kv p Hwf Ek Ed) as (Hg & _).
  pose proof Hg as (Hp & (Hl & Hcl) & Hn & Hs & Hne).
  assert (Hnn : ~ near (first_knot kv) (final_knot kv)).
  { unfold near. intros Ha. specialize (Hs 0%nat (length kv - 1)%nat ltac:(lia) ltac:(lia)). unfold knot in Hs.
    fold (first_knot kv) (final_knot kv) in Hs. specialize (Hs Hne). rewrite Rabs_left in Ha by lra. lra. }
  unfold insert_knot, sp_knots, sp_deg, dget. fold (knots_of s) (degs_of s). rnorm. rewrite Ek. cbn [bind].
  destruct (is_last_knot_ok dz kv (first_knot kv) ltac:(lia)) as (b & Eb & Hb).
  assert (b = false) by (destruct b; auto; exfalso; tauto). subst b.
  unfold knot_span. rewrite Eb. cbn [bind].
  rewrite Ed. cbn [bind].
  assert (El : lower_bound (F := F) kv (first_knot kv) = 0).
  { destruct kv as [|x kv]; [reflexivity|]. cbn [lower_bound first_knot nth]. rnorm. destruct (Rltb_spec x x); [lra | reflexivity]. }
  pose proof (occurrences_bounds dz kv (first_knot kv) Hn) as Eo. rewrite El in Eo.
  unfold for_up. replace (Z.to_nat (r + 1 - 1)) with (S (Z.to_nat (r - 1))) by lia. cbn [for_n].
  unfold insert_pass at 1. rewrite Eb. cbn [bind fst snd].
  rewrite multiplicity_occ.
  assert (E1 : u64 (upper_bound (F := F) kv (first_knot kv) - 1 - Z.of_nat (occurrences kv (first_knot kv))) = 2 ^ 64 - 1).
  { replace (upper_bound (F := F) kv (first_knot kv) - 1 - Z.of_nat (occurrences kv (first_knot kv))) with (-1) by (rewrite Eo; lia). reflexivity. }
  rewrite E1. rewrite scaling_overrun; auto; try (rnorm; lia).
  unfold u64. match goal with |- _ <= ?a mod _ <= _ => pose proof (Z.mod_pos_bound a (2 ^ 64) ltac:(lia)) end. lia.
Qed.

Lemma ex_insertable : insertable [0; 0; 0; 1; 2; 2; 2]%R 2 1 2.
Proof.
  split; [cbn; lra|]. split; [sepsolve|]. unfold occurrences. cbn [count_occ].
  repeat match goal with |- context [Req_EM_T ?a ?b] => destruct (Req_EM_T a b); try lra end. cbn. lia.
Qed.

Lemma ex_all_insertable : all_insertable [0; 0; 0; 1; 2; 2; 2]%R 2 [1; 1/2; 1]%R.
Proof.
  split; [repeat constructor; cbn; lra|]. split; [cbn [app]; sepsolve|].
  intros u [<-|[<-|[<-|[]]]]; unfold occurrences; cbn [app count_occ];
  repeat match goal with |- context [Req_EM_T ?a ?b] => destruct (Req_EM_T a b); try lra end; cbn; lia.
Qed.
End Thms.

Lemma ex_insert : exists b n : spline (Rops (fun x => x)),
  well_formed b /\ is_bspline b /\ well_formed n /\ positive_weights n /\
  direction b 0 [0; 0; 0; 1; 2; 2; 2]%R 2 /\ direction n 0 [0; 0; 0; 1; 2; 2; 2]%R 2 /\
  insertable [0; 0; 0; 1; 2; 2; 2]%R 2 1 2 /\ all_insertable [0; 0; 0; 1; 2; 2; 2]%R 2 [1; 1/2; 1]%R.
Proof.
  destruct (ex_spline None) as (b & B1 & B2 & B3 & B4 & B5 & B6 & B7 & _); auto.
  destruct (ex_spline (Some ex_weights)) as (n & N1 & N2 & N3 & N4 & N5 & N6 & N7 & _); auto.
  exists b, n. do 3 (split; [assumption|]). split; [exists ex_weights; split; auto; repeat constructor; lra|].
  unfold direction. rewrite B6, B7, N6, N7. split; [split; reflexivity|]. split; [split; reflexivity|].
  split; [apply ex_insertable | apply ex_all_insertable].
Qed.

(* inserting the last knot of a straight line *)
From Coq Require Import Floats.
Lemma insert_last_run :
  match spline_new (F := Fops) [[0; 0; 1; 1]%float] [1] [[0]; [1]]%float None with
  | Ok s => match evaluate s [0.5%float] [0], insert_knot s 1%float 0 1 with
            | Ok [v], Ok s' => PrimFloat.eqb v 0.5 &&
                match evaluate s' [0.5%float] [0] with Ok [v'] => PrimFloat.eqb v' 0 | _ => false end
            | _, _ => false
            end
  | _ => false
  end = true.
Proof. vm_compute. reflexivity. Qed.

Lemma insert_last_knot : exists (s s' : spline Fops) (v v' : float),
  spline_new (F := Fops) [[0; 0; 1; 1]%float] [1] [[0]; [1]]%float None = Ok s /\
  insert_knot s 1%float 0 1 = Ok s' /\
  evaluate s [0.5%float] [0] = Ok [v] /\ PrimFloat.eqb v 0.5 = true /\
  evaluate s' [0.5%float] [0] = Ok [v'] /\ PrimFloat.eqb v' 0 = true.
Proof.
  pose proof insert_last_run as H.
  destruct (spline_new (F := Fops) [[0; 0; 1; 1]%float] [1] [[0]; [1]]%float None) as [s| |] eqn:E1; try discriminate H.
  match type of H with context [evaluate s ?b ?c] => destruct (evaluate s b c) as [[|v [|]]| |] eqn:E2 end; try discriminate H.
  match type of H with context [insert_knot ?a ?b ?c ?e] => destruct (insert_knot a b c e) as [s'| |] eqn:E3 end; try discriminate H.
  apply andb_prop in H as [H1 H2].
  match type of H2 with context [evaluate s' ?b ?c] => destruct (evaluate s' b c) as [[|v' [|]]| |] eqn:E4 end; try discriminate H2.
  exists s, s', v, v'. exact (conj eq_refl (conj E3 (conj E2 (conj H1 (conj E4 H2))))).
Qed.
