(* Closing lemmas for sequences of edits (C34). *)
From Coq Require Import ZArith List Bool Lia Reals Lra Permutation.
From Verif Require Import Base BaseFacts RSum MultiIndex MultiIndexSpec MultiIndexFacts TensorSum
  KnotVec KnotVecSpec KnotVecFacts KnotVecThms BSplineTheory Boehm BasisSpec Basis BasisFacts BasisThms VecUtils Spaces SpacesSpec
  SpacesFacts SpacesThms SplineEval SplineEdit SplineSpec EvalFacts RationalDeriv EvalDeriv SplineNew EvalThms PhysFacts
  AdjustFacts InsertKnots InsertFacts EditSpec InsertThms RemoveThms SubdivideThms HistorySpec.
Import ListNotations.
Open Scope Z_scope.

(* the ends of a sorted knot vector survive adding or dropping inner values *)
Lemma ends_perm kv kv' u m : nondecreasing kv -> nondecreasing kv' -> kv' <> [] ->
  Permutation kv (repeat u m ++ kv') -> (first_knot kv < u < final_knot kv)%R ->
  first_knot kv' = first_knot kv /\ final_knot kv' = final_knot kv.
Proof.
  intros Hn Hn' Hne Hp Hu.
  assert (Hl' : (0 < length kv')%nat) by (destruct kv'; [congruence | cbn; lia]).
  assert (Hl : (0 < length kv)%nat) by (apply Permutation_length in Hp; rewrite app_length in Hp; lia).
  assert (Hin : forall x, In x kv' -> In x kv).
  { intros x Hx. apply (Permutation_in _ (Permutation_sym Hp)). apply in_app_iff. auto. }
  assert (Hin' : forall x, In x kv -> x <> u -> In x kv').
  { intros x Hx Hxu. apply (Permutation_in _ Hp) in Hx. apply in_app_iff in Hx as [Hx|Hx]; auto. apply repeat_spec in Hx. congruence. }
  assert (Hmin : forall l x, nondecreasing l -> In x l -> (first_knot l <= x <= final_knot l)%R).
  { intros l x Hl0 Hx. apply (In_nth _ _ 0%R) in Hx as (k & Hk & <-). fold (knot l k). split.
    - apply (Hl0 0%nat k); lia.
    - apply (Hl0 k (length l - 1)%nat); lia. }
  assert (F1 : In (first_knot kv) kv) by (apply nth_In; lia).
  assert (F2 : In (final_knot kv) kv) by (apply nth_In; lia).
  assert (F3 : In (first_knot kv') kv') by (apply nth_In; lia).
  assert (F4 : In (final_knot kv') kv') by (apply nth_In; lia).
  pose proof (Hmin kv _ Hn (Hin _ F3)). pose proof (Hmin kv _ Hn (Hin _ F4)).
  pose proof (Hmin kv' _ Hn' (Hin' _ F1 ltac:(lra))). pose proof (Hmin kv' _ Hn' (Hin' _ F2 ltac:(lra))).
  split; lra.
Qed.

Section Thms.
Variable dz : R -> R.
Local Notation F := (Rops dz).
Implicit Types s : spline F.

(* what a successful construction guarantees *)
Lemma foldM_flat dim (cps : list (list R)) : forall acc flat,
  foldM (fun acc cp => if zlen cp =? dim then Ok (acc ++ cp) else Throw RuntimeError) cps acc = Ok flat ->
  Forall (fun cp => zlen cp = dim) cps.
Proof.
  induction cps as [|cp cps IH]; intros acc flat H; constructor; cbn [foldM] in H.
  - destruct (Z.eqb_spec (zlen cp) dim); auto. discriminate.
  - destruct (Z.eqb_spec (zlen cp) dim); [|discriminate]. cbn [bind] in H. now apply IH in H.
Qed.

Lemma new_well_formed (knots : list (list R)) degs (cps : list (list R)) (wts : option (list R)) s : Forall2 good_direction knots degs ->
  total (map2 (fun kv p => zlen kv - p - 1) knots degs) < 2 ^ 64 -> 1 <= zlen (nth 0 cps []) ->
  spline_new (F := F) knots degs cps wts = Ok s ->
  well_formed s /\ knots_of s = knots /\ degs_of s = degs /\ ph_wts (sp_ph s) = wts.
Proof.
  intros Hg Ht Hdim Hrun. pose proof (total_pos _ (good_npts_pos knots degs Hg)) as Htp.
  assert (Hp : exists flat, phys_new (F := F) cps (map2 (fun kv p => zlen kv - p - 1) knots degs) =
                 Ok (mkPhys (F := F) (zlen (nth 0 cps [])) (map2 (fun kv p => zlen kv - p - 1) knots degs) flat None) /\
     zlen cps = total (map2 (fun kv p => zlen kv - p - 1) knots degs) /\ Forall (fun cp => zlen cp = zlen (nth 0 cps [])) cps /\
     forall w, wts = Some w -> zlen w = zlen cps).
  { revert Hrun. unfold spline_new. rewrite ps_new_ok by now apply good_checked. cbn [bind].
    rewrite (map_combine (fun kv p => zlen kv - p - 1)). rnorm.
    destruct cps as [|c0 cps']; [exfalso; unfold zlen in Hdim; cbn in Hdim; lia|].
    unfold phys_new. cbn [nth] in *. change (vget (c0 :: cps') 0) with (Ok c0). cbn [bind].
    unfold u64. rewrite Z.mod_small by lia. rnorm.
    unfold wphys_new, phys_new. change (vget (c0 :: cps') 0) with (Ok c0). cbn [bind].
    unfold u64. rewrite Z.mod_small by lia. rnorm.
    destruct (Z.eqb_spec (total (map2 (fun kv p => zlen kv - p - 1) knots degs)) (zlen (c0 :: cps'))) as [E|E]; cbn [negb].
    2:{ destruct wts; discriminate. }
    match goal with |- context [foldM ?f ?l ?a] => destruct (foldM f l a) as [flat| |] eqn:Ef end; cbn [bind]; try (destruct wts; discriminate).
    intros Hrun. exists flat. split; [reflexivity|]. split; [auto|]. split; [eapply foldM_flat; exact Ef|].
    intros w ->. rnorm. destruct (Z.eqb_spec (zlen (c0 :: cps')) (zlen w)); [auto | discriminate]. }
  destruct Hp as (flat & Hp & Hn & Hc & Hw).
  destruct (spline_new_ok dz knots degs cps wts (zlen (nth 0 cps [])) Hg Hdim Hc Hn ltac:(exact (Z.le_lt_trans _ _ _ (Z.eq_le_incl _ _ Hn) Ht)) Hw) as [E W].
  rewrite E in Hrun. injection Hrun as <-. split; [exact W | repeat split].
Qed.

Lemma map_upd_same {A C} (f : A -> C) l d a b : nth_error l d = Some a -> f b = f a -> map f (upd l d b) = map f l.
Proof. revert d. induction l as [|x l IH]; intros [|d] E H; cbn in *; try discriminate; f_equal; auto. congruence. Qed.

(* the ends of the knot vectors *)
Local Notation ends s := (map (fun kv => (first_knot kv, final_knot kv)) (knots_of s)).

Lemma Forall2_map_eq {A C D} (f : A -> D) (P : A -> C -> Prop) : (forall a b c, f a = f b -> P a c -> P b c) ->
  forall l l' c, map f l = map f l' -> Forall2 P l c -> Forall2 P l' c.
Proof.
  intros HP. induction l as [|a l IH]; intros [|b l'] c E H; cbn in E; try discriminate; inversion H; subst; constructor.
  - injection E as E1 E2. eauto.
  - injection E as E1 E2. eauto.
Qed.

Lemma ends_domain s s' us : ends s = ends s' -> in_domain s us -> in_domain s' us.
Proof. apply Forall2_map_eq. intros x y c [= E1 E2]. now rewrite E1, E2. Qed.
Lemma ends_below s s' us : ends s = ends s' -> below_ends s us -> below_ends s' us.
Proof. apply Forall2_map_eq. intros x y c [= E1 E2]. now rewrite E1, E2. Qed.

Lemma below_domain s us : below_ends s us -> in_domain s us.
Proof. unfold below_ends, in_domain. induction 1; constructor; auto. lra. Qed.

Lemma below_part s s' d kv kv' us : nth_error (knots_of s) d = Some kv -> knots_of s' = upd (knots_of s) d kv' ->
  (first_knot kv <= first_knot kv')%R -> (final_knot kv' <= final_knot kv)%R -> below_ends s' us ->
  below_ends s us /\ (nth d us 0 < final_knot kv')%R.
Proof.
  unfold below_ends. intros Ek -> H1 H2 H. revert d us Ek H. generalize (knots_of s) as ks.
  induction ks as [|k ks IH]; intros [|d] us Ek H; cbn in *; try discriminate.
  - injection Ek as ->. inversion H as [|? v ? vs Hv Hvs]; subst. split; [constructor; [lra | auto] | cbn; lra].
  - inversion H as [|? v ? vs Hv Hvs]; subst. destruct (IH d vs Ek Hvs) as [A B]. split; auto.
Qed.

(* what every call keeps *)
Definition kept s s' : Prop :=
  well_formed s' /\ degs_of s' = degs_of s /\ ph_dim (sp_ph s') = ph_dim (sp_ph s) /\ (is_bspline s' <-> is_bspline s) /\
  length (knots_of s') = length (knots_of s).
(* what calls that keep the map keep *)
Definition same_map s s' : Prop := regular s -> regular s' /\
  forall us dims, length us = length (knots_of s) -> valid_dims s dims -> evaluate s' us dims = evaluate s us dims.

Lemma kept_trans s s1 s2 : kept s s1 -> kept s1 s2 -> kept s s2.
Proof.
  intros (W1 & G1 & D1 & B1 & L1) (W2 & G2 & D2 & B2 & L2). split; [auto|]. split; [congruence|]. split; [congruence|].
  split; [now rewrite B2 | congruence].
Qed.

Lemma insert_sync s d kv p u r : well_formed s -> direction s d kv p -> insertable kv p u r -> 0 <= r -> zlen kv < 2 ^ 31 ->
  exists s', insert_knot s u d r = Ok s' /\ kept s s' /\ ends s' = ends s /\ same_map s s'.
Proof.
  intros Hwf Hdir Hins Hr Hz.
  destruct (insert_full dz s d kv p u r Hwf Hdir Hins Hr Hz) as (s' & kv' & E & W & K & Hnd & Hpm & F1 & F2 & G & Np & Dm & Wt & P).
  exists s'. split; [auto|]. split; [|split; [|exact P]].
  - split; [auto|]. split; [auto|]. split; [auto|]. split; [rewrite <- !weighted_bspline, Wt; reflexivity|]. rewrite K. apply upd_length.
  - rewrite K. apply map_upd_same with kv; [apply Hdir | congruence].
Qed.

Lemma refine_sync : forall new s d kv p, well_formed s -> direction s d kv p ->
  all_insertable kv p new -> zlen kv + zlen new <= 2 ^ 31 ->
  exists s', refine_knots s new d = Ok s' /\ kept s s' /\ ends s' = ends s /\ same_map s s'.
Proof.
  induction new as [|u new IH]; intros s d kv p Hwf Hdir (Hall & Hsep & Hocc) Hz.
  - exists s. split; [reflexivity|]. split; [repeat (split; [auto; tauto|]); reflexivity|]. split; [reflexivity|].
    intros H. split; auto.
  - assert (Hins : insertable kv p u 1).
    { split; [now inversion Hall|]. split.
      - apply (separated_incl _ ((u :: new) ++ kv)); auto. intros x [<-|Hx]; [now left | right; apply in_app_iff; auto].
      - specialize (Hocc u (or_introl eq_refl)). unfold occurrences in *. cbn [app count_occ] in Hocc.
        destruct (Req_EM_T u u); [|congruence]. rewrite count_occ_app in Hocc. lia. }
    assert (Hz1 : zlen kv < 2 ^ 31) by (unfold zlen in *; cbn [length] in Hz; lia).
    destruct (insert_full dz s d kv p u 1 Hwf Hdir Hins ltac:(lia) Hz1) as (s1 & kv1 & E & W & K & Hnd & Hpm & F1 & F2 & G & Np & Dm & Wt & P).
    change (repeat u (Z.to_nat 1) ++ kv) with (u :: kv) in Hpm.
    destruct (insert_sync s d kv p u 1 Hwf Hdir Hins ltac:(lia) Hz1) as (s1' & E' & K1 & E1 & _).
    assert (s1' = s1) by congruence. subst s1'.
    destruct Hdir as [Ek Ed].
    assert (Hdir1 : direction s1 d kv1 p) by (split; [rewrite K; now apply (nth_error_upd_same _ _ _ kv) | now rewrite G]).
    assert (Hpm2 : Permutation (new ++ kv1) ((u :: new) ++ kv)).
    { rewrite Hpm. cbn [app]. symmetry. apply Permutation_middle. }
    destruct (IH s1 d kv1 p W Hdir1) as (s2 & E2 & K2 & I2 & M2).
    { split; [|split].
      - inversion Hall; subst. rewrite F1, F2. auto.
      - apply (separated_incl _ ((u :: new) ++ kv)); auto. intros x. apply Permutation_in; auto.
      - intros v Hv. rewrite (occ_perm _ _ v Hpm2). apply Hocc. now right. }
    { apply Permutation_length in Hpm. unfold zlen in *. cbn [length] in *. lia. }
    exists s2. split; [unfold refine_knots; cbn [foldM]; rewrite E; exact E2|].
    split; [exact (kept_trans s s1 s2 K1 K2)|]. split; [congruence|].
    intros H. destruct (P H) as [R1 V1]. destruct (M2 R1) as [R2 V2]. split; [auto|].
    intros us dims Hl Hv. rewrite V2; auto.
    + rewrite K, upd_length. auto.
    + unfold valid_dims in *. now rewrite Dm.
Qed.

Lemma remove_sync s d kv p u tol m : well_formed s -> direction s d kv p -> In u kv ->
  (first_knot kv < u < final_knot kv)%R -> 0 <= m <= Z.of_nat (occurrences kv u) -> Z.of_nat (occurrences kv u) <= p -> zlen kv < 2 ^ 31 ->
  exists c s', remove_knot s u d tol m = Ok (c, s') /\ kept s s' /\ ends s' = ends s.
Proof.
  intros Hwf Hdir Hin Hu Hm Ho Hz. pose proof Hdir as [Ek Ed].
  destruct (remove_counts dz s d kv p u tol m Hwf Hdir Hu Hm Ho Hin Hz) as (c & s' & kv' & E & Hc & _ & W & K & Hpm & G & _ & Dm & Bs).
  assert (Ek' : nth_error (knots_of s') d = Some kv') by (rewrite K; now apply (nth_error_upd_same _ _ _ kv)).
  assert (Ed' : nth_error (degs_of s') d = Some p) by (now rewrite G).
  destruct (wf_direction dz s d kv p Hwf Ek Ed) as ((_ & _ & Hn & _) & _).
  destruct (wf_direction dz s' d kv' p W Ek' Ed') as ((Hp & (Hcl & _) & Hn' & _) & _).
  destruct (ends_perm kv kv' u (Z.to_nat c) Hn Hn' ltac:(intros ->; cbn [length] in Hcl; lia) Hpm Hu) as [F1 F2].
  exists c, s'. split; [auto|]. split.
  - split; [auto|]. split; [auto|]. split; [auto|]. split; [auto|]. rewrite K. apply upd_length.
  - rewrite K. apply map_upd_same with kv; [auto | congruence].
Qed.

Lemma split_sync s d kv p u keep : well_formed s -> direction s d kv p -> insertable kv p u 0 -> zlen kv < 2 ^ 31 ->
  total (upd (npts_of s) d (nth d (npts_of s) 0 + p + 1)) < 2 ^ 64 ->
  exists r, subdivide s u d = Ok r /\ kept s (pick keep r) /\
    (keep = WholeSpline -> ends (pick keep r) = ends s) /\
    (forall us, in_domain (pick keep r) us -> in_domain s us) /\
    (forall us, below_ends (pick keep r) us -> below_ends s us) /\
    (regular s -> regular (pick keep r) /\
      (forall us dims, in_domain (pick keep r) us -> valid_dims s dims ->
         (keep = LeftPiece -> Z.of_nat (occurrences kv u) <= p) -> evaluate (pick keep r) us dims = evaluate s us dims) /\
      (forall us dims, below_ends (pick keep r) us -> valid_dims s dims -> evaluate (pick keep r) us dims = evaluate s us dims)).
Proof.
  intros Hwf Hdir Hins Hz Ht. pose proof Hins as (Hu & _).
  destruct (subdivide_ok dz s d kv p u Hwf Hdir Hins Hz Ht) as
    (s1 & s2 & s' & kv1 & kv2 & kv' & E & (W1 & K1 & G1 & F1 & L1 & D1 & B1) & (W2 & K2 & G2 & F2 & L2 & D2 & B2) &
     (W3 & K3 & G3 & _ & F3 & L3 & D3 & B3) & P).
  destruct Hdir as [Ek Ed]. exists (s1, s2, s'). split; [exact E|].
  assert (Hlen : forall (t : spline F) us, in_domain t us -> length us = length (knots_of t)).
  { intros t us H. symmetry. apply (Forall2_len _ _ _ H). }
  destruct keep; cbn [pick].
  - assert (Hb : forall us, below_ends s1 us -> below_ends s us /\ (nth d us 0 < u)%R).
    { intros us H. rewrite <- L1. apply (below_part s s1 d kv kv1 us); auto; [rewrite F1; lra | rewrite L1; lra]. }
    split; [split; [auto|]; repeat (split; [auto|]); rewrite K1; apply upd_length|]. split; [discriminate|].
    split; [intros us H; apply (in_domain_part dz s s1 d kv kv1 us); auto; [rewrite F1; lra | rewrite L1; lra]|].
    split; [intros us H; now apply Hb|].
    intros H. destruct (P H) as (R1 & R2 & R3 & V1 & V2 & V3). split; [auto|]. split.
    + intros us dims Hus Hv Hk. apply V1; auto.
    + intros us dims Hus Hv. destruct (Hb us Hus). apply V1; auto. now apply below_domain.
  - split; [split; [auto|]; repeat (split; [auto|]); rewrite K2; apply upd_length|]. split; [discriminate|].
    split; [intros us H; apply (in_domain_part dz s s2 d kv kv2 us); auto; [rewrite F2; lra | rewrite L2; lra]|].
    split; [intros us H; apply (below_part s s2 d kv kv2 us); auto; [rewrite F2; lra | rewrite L2; lra]|].
    intros H. destruct (P H) as (R1 & R2 & R3 & V1 & V2 & V3). split; [auto|]. split.
    + intros us dims Hus Hv Hk. apply V2; auto.
    + intros us dims Hus Hv. apply V2; auto. now apply below_domain.
  - assert (He : ends s' = ends s) by (rewrite K3; apply map_upd_same with kv; [auto | congruence]).
    split; [split; [auto|]; repeat (split; [auto|]); rewrite K3; apply upd_length|]. split; [auto|].
    split; [intros us; now apply ends_domain|]. split; [intros us; now apply ends_below|].
    assert (Hl3 : length (knots_of s') = length (knots_of s)) by (rewrite K3; apply upd_length).
    intros H. destruct (P H) as (R1 & R2 & R3 & V1 & V2 & V3). split; [auto|]. split.
    + intros us dims Hus Hv _. apply V3; auto. rewrite <- Hl3. now apply Hlen.
    + intros us dims Hus Hv. apply V3; auto. rewrite <- Hl3. apply Hlen. now apply below_domain.
Qed.

Lemma edit_sync s e : well_formed s -> admissible s e ->
  exists s', apply_edit s e = Ok s' /\ kept s s' /\ (keeps_domain e -> ends s' = ends s) /\
    (forall us, in_domain s' us -> in_domain s us) /\ (forall us, below_ends s' us -> below_ends s us) /\
    (keeps_map e -> regular s -> regular s' /\
      (no_jump s e -> forall us dims, in_domain s' us -> valid_dims s dims -> evaluate s' us dims = evaluate s us dims) /\
      (forall us dims, below_ends s' us -> valid_dims s dims -> evaluate s' us dims = evaluate s us dims)).
Proof.
  assert (Whole : forall (s s' : spline F), kept s s' -> ends s' = ends s -> same_map s s' -> regular s -> regular s' /\
      (True -> forall us dims, in_domain s' us -> valid_dims s dims -> evaluate s' us dims = evaluate s us dims) /\
      (forall us dims, below_ends s' us -> valid_dims s dims -> evaluate s' us dims = evaluate s us dims)).
  { intros s1 s2 (_ & _ & _ & _ & L) _ M H. destruct (M H) as [R V]. split; [auto|]. split.
    - intros _ us dims Hus Hv. apply V; auto. rewrite <- L. symmetry. apply (Forall2_len _ _ _ Hus).
    - intros us dims Hus Hv. apply V; auto. rewrite <- L. symmetry. apply (Forall2_len _ _ _ Hus). }
  intros Hwf Ha. destruct e as [d u r | d new | d u tol m | d u keep]; cbn [admissible apply_edit keeps_domain keeps_map no_jump] in *.
  - destruct Ha as (kv & p & Hdir & Hins & Hr & Hz). destruct (insert_sync s d kv p u r Hwf Hdir Hins Hr Hz) as (s' & E & K & I & M).
    exists s'. split; [auto|]. split; [auto|]. split; [auto|]. split; [intros us; now apply ends_domain|].
    split; [intros us; now apply ends_below|]. intros _. now apply Whole.
  - destruct Ha as (kv & p & Hdir & Hins & Hz). destruct (refine_sync new s d kv p Hwf Hdir Hins Hz) as (s' & E & K & I & M).
    exists s'. split; [auto|]. split; [auto|]. split; [auto|]. split; [intros us; now apply ends_domain|].
    split; [intros us; now apply ends_below|]. intros _. now apply Whole.
  - destruct Ha as (kv & p & Hdir & Hin & Hu & Hm & Ho & Hz).
    destruct (remove_sync s d kv p u tol m Hwf Hdir Hin Hu Hm Ho Hz) as (c & s' & E & K & I).
    exists s'. rewrite E. split; [reflexivity|]. split; [auto|]. split; [auto|]. split; [intros us; now apply ends_domain|].
    split; [intros us; now apply ends_below|]. intros [].
  - destruct Ha as (kv & p & Hdir & Hins & Hz & Ht).
    destruct (split_sync s d kv p u keep Hwf Hdir Hins Hz Ht) as (r & E & K & I & D1 & D2 & M).
    exists (pick keep r). rewrite E. split; [reflexivity|]. split; [auto|]. split; [intros H; destruct keep; tauto|].
    split; [auto|]. split; [auto|]. intros _ H. destruct (M H) as (R & V1 & V2). split; [auto|]. split; [|auto].
    intros Hj us dims Hus Hv. apply V1; auto. intros ->. now apply Hj.
Qed.

Theorem history_invariant : forall knots degs cps wts s0 l s,
  Forall2 good_direction knots degs -> total (map2 (fun kv p => zlen kv - p - 1) knots degs) < 2 ^ 64 ->
  1 <= zlen (nth 0 cps []) ->
  spline_new (F := F) knots degs cps wts = Ok s0 -> history admissible s0 l s ->
  (Forall2 good_direction (knots_of s) (degs_of s) /\
   create_bases (F := F) (knots_of s) (degs_of s) = Ok (ps_bfs (sp_ps s)) /\
   npts_of s = map2 (fun kv p => zlen kv - p - 1) (knots_of s) (degs_of s) /\
   zlen (ph_cps (sp_ph s)) = ph_dim (sp_ph s) * total (npts_of s) /\
   (forall w, ph_wts (sp_ph s) = Some w -> zlen w = total (npts_of s))) /\
  degs_of s = degs /\ ph_dim (sp_ph s) = ph_dim (sp_ph s0) /\ (is_bspline s <-> wts = None) /\
  (forall us, in_domain s us -> in_domain s0 us) /\
  (Forall keeps_domain l -> forall us, in_domain s0 us -> in_domain s us) /\
  (forall e, admissible s e -> exists s', apply_edit s e = Ok s').
Proof.
  intros knots degs cps wts s0 l s Hg Ht Hdim Hrun Hh.
  destruct (new_well_formed knots degs cps wts s0 Hg Ht Hdim Hrun) as (W0 & K0 & G0 & B0).
  assert (H : kept s0 s /\ (forall us, in_domain s us -> in_domain s0 us) /\ (Forall keeps_domain l -> ends s = ends s0)).
  { induction Hh as [|l s e s' Hh IH Ha He].
    - split; [repeat (split; [auto; tauto|]); reflexivity|]. auto.
    - destruct IH as (K & I & J). destruct (edit_sync s e (proj1 K) Ha) as (s2 & E & K2 & J2 & I2 & _).
      assert (s2 = s') by congruence. subst s2. split; [exact (kept_trans _ _ _ K K2)|]. split; [auto|].
      intros Hf. apply Forall_app in Hf. destruct Hf as [Hf1 Hf2]. inversion Hf2; subst. rewrite J2, J; auto. }
  destruct H as ((W & G & D & Bs & _) & I & J).
  split; [pose proof W as [W1 W2 W3 W4 W5 W6]; auto 10|]. split; [congruence|]. split; [auto|].
  split; [rewrite Bs; unfold is_bspline; rewrite B0; tauto|]. split; [auto|].
  split; [intros Hf us; apply ends_domain; symmetry; auto|].
  intros e Ha. destruct (edit_sync s e W Ha) as (s' & E & _). eauto.
Qed.

(* geometry: [strict] asks for histories without jumps *)
Lemma history_map_gen (strict : bool) s0 l s : well_formed s0 -> regular s0 ->
  history (fun t e => admissible t e /\ keeps_map e /\ if strict then no_jump t e else True) s0 l s ->
  kept s0 s /\ regular s /\ (forall us, below_ends s us -> below_ends s0 us) /\ (forall us, in_domain s us -> in_domain s0 us) /\
  forall us dims, (if strict then in_domain s us else below_ends s us) -> valid_dims s0 dims -> evaluate s us dims = evaluate s0 us dims.
Proof.
  intros W0 R0 Hh. induction Hh as [|l s e s' Hh IH (Ha & Hm & Hj) He].
  - split; [repeat (split; [auto; tauto|]); reflexivity|]. auto.
  - destruct IH as (K & R & Ib & Id & V). destruct (edit_sync s e (proj1 K) Ha) as (s2 & E & K2 & _ & I2 & J2 & M).
    assert (s2 = s') by congruence. subst s2. destruct (M Hm R) as (R2 & V1 & V2).
    split; [exact (kept_trans _ _ _ K K2)|]. split; [auto|]. split; [auto|]. split; [auto|].
    intros us dims Hus Hv. destruct K as (_ & _ & D & _).
    assert (Hv' : valid_dims s dims) by (unfold valid_dims in *; now rewrite D).
    destruct strict.
    + rewrite V1, V; auto.
    + rewrite V2, V; auto.
Qed.

Theorem history_map : forall s0 l s, well_formed s0 -> regular s0 ->
  history (fun t e => admissible t e /\ keeps_map e /\ no_jump t e) s0 l s ->
  forall us dims, in_domain s us -> valid_dims s0 dims -> in_domain s0 us /\ evaluate s us dims = evaluate s0 us dims.
Proof.
  intros s0 l s W R H us dims Hus Hv. destruct (history_map_gen true s0 l s W R H) as (_ & _ & _ & I & V). auto.
Qed.

Theorem history_map_below : forall s0 l s, well_formed s0 -> regular s0 ->
  history (fun t e => admissible t e /\ keeps_map e) s0 l s ->
  forall us dims, below_ends s us -> valid_dims s0 dims -> in_domain s0 us /\ evaluate s us dims = evaluate s0 us dims.
Proof.
  intros s0 l s W R H us dims Hus Hv.
  assert (H' : history (fun t e => admissible t e /\ keeps_map e /\ True) s0 l s).
  { clear - H. induction H; econstructor; eauto; tauto. }
  destruct (history_map_gen false s0 l s W R H') as (_ & _ & I & _ & V). split; [apply below_domain|]; auto.
Qed.
End Thms.

Lemma ex_history : exists s0 s : spline (Rops (fun x => x)),
  Forall2 good_direction ex_knots ex_degs /\
  total (map2 (fun kv p => zlen kv - p - 1) ex_knots ex_degs) < 2 ^ 64 /\ 1 <= zlen (nth 0 ex_points []) /\
  spline_new (F := Rops (fun x => x)) ex_knots ex_degs ex_points (Some ex_weights) = Ok s0 /\
  history admissible s0 [Insert 0 (1/2) 1; Remove 0 (1/2) 0 1] s.
Proof.
  destruct (ex_spline (Some ex_weights)) as (n & N1 & N2 & N3 & N4 & N5 & N6 & N7 & N8 & N9 & N10 & _); auto.
  assert (Hi : insertable [0; 0; 0; 1; 2; 2; 2]%R 2 (1/2) 1).
  { split; [cbn; lra|]. split; [sepsolve|]. unfold occurrences. cbn [count_occ].
    repeat match goal with |- context [Req_EM_T ?a ?b] => destruct (Req_EM_T a b); try lra end; cbn; lia. }
  assert (Hdir : direction n 0 [0; 0; 0; 1; 2; 2; 2]%R 2) by (unfold direction; rewrite N6, N7; split; reflexivity).
  assert (Hocc : occurrences [0; 0; 0; 1; 2; 2; 2]%R (1/2) = 0%nat).
  { unfold occurrences; cbn [count_occ]; repeat match goal with |- context [Req_EM_T ?a ?b] => destruct (Req_EM_T a b); try lra end; reflexivity. }
  destruct (insert_full (fun x => x) n 0 _ 2 (1/2)%R 1 N2 Hdir Hi ltac:(lia) ltac:(cbn; lia)) as (s1 & kv1 & E & W & K & Hnd & Hpm & F1 & F2 & G & Np & Dm & Wt & _).
  assert (Hdir1 : direction s1 0 kv1 2).
  { split; [rewrite K; now apply (nth_error_upd_same _ _ _ [0; 0; 0; 1; 2; 2; 2]%R); rewrite N6 | rewrite G, N7; reflexivity]. }
  assert (Hocc1 : occurrences kv1 (1/2) = 1%nat).
  { rewrite (occ_perm _ _ _ Hpm). change (repeat (1/2)%R (Z.to_nat 1) ++ [0; 0; 0; 1; 2; 2; 2]%R) with ((1/2)%R :: [0; 0; 0; 1; 2; 2; 2]%R).
    unfold occurrences in *. cbn [count_occ] in *. destruct (Req_EM_T (1/2) (1/2)); [|congruence]. now rewrite Hocc. }
  assert (Hin1 : In (1/2)%R kv1) by (apply (Permutation_in _ (Permutation_sym Hpm)); now left).
  assert (Hz1 : zlen kv1 = 8) by (unfold zlen; rewrite (Permutation_length Hpm); reflexivity).
  assert (Ha : admissible s1 (Remove 0 (1/2) 0 1)).
  { exists kv1, 2. split; [auto|]. split; [auto|]. rewrite F1, F2. split; [cbn; lra|]. rewrite Hocc1, Hz1. lia. }
  destruct (edit_sync (fun x => x) s1 _ W Ha) as (s & E2 & _).
  exists n, s. split; [exact ex_good|]. split; [reflexivity|]. split; [cbn; lia|]. split; [exact N1|].
  change [Insert 0 (1 / 2) 1; Remove 0 (1 / 2) 0 1] with (([] ++ [Insert 0 (1 / 2) 1]) ++ [Remove 0 (1 / 2) 0 1]).
  apply history_step with s1; auto. apply history_step with n; auto; [constructor|].
  exists [0; 0; 0; 1; 2; 2; 2]%R, 2. split; [auto|]. split; [auto|]. split; [lia | cbn; lia].
Qed.

Lemma ex_history_map : exists s0 s : spline (Rops (fun x => x)),
  well_formed s0 /\ regular s0 /\ ~ is_bspline s0 /\
  history (fun t e => admissible t e /\ keeps_map e /\ no_jump t e) s0 [Insert 0 (1/2) 1; Split 0 (1/2) LeftPiece] s.
Proof.
  destruct (ex_spline (Some ex_weights)) as (n & N1 & N2 & N3 & N4 & N5 & N6 & N7 & N8 & N9 & N10 & _); auto.
  assert (Hocc : occurrences [0; 0; 0; 1; 2; 2; 2]%R (1/2) = 0%nat).
  { unfold occurrences; cbn [count_occ]; repeat match goal with |- context [Req_EM_T ?a ?b] => destruct (Req_EM_T a b); try lra end; reflexivity. }
  assert (Hi : insertable [0; 0; 0; 1; 2; 2; 2]%R 2 (1/2) 1).
  { split; [cbn; lra|]. split; [sepsolve|]. rewrite Hocc. lia. }
  assert (Hdir : direction n 0 [0; 0; 0; 1; 2; 2; 2]%R 2) by (unfold direction; rewrite N6, N7; split; reflexivity).
  destruct (insert_full (fun x => x) n 0 _ 2 (1/2)%R 1 N2 Hdir Hi ltac:(lia) ltac:(cbn; lia)) as (s1 & kv1 & E & W & K & Hnd & Hpm & F1 & F2 & G & Np & Dm & Wt & _).
  assert (Hdir1 : direction s1 0 kv1 2).
  { split; [rewrite K; now apply (nth_error_upd_same _ _ _ [0; 0; 0; 1; 2; 2; 2]%R); rewrite N6 | rewrite G, N7; reflexivity]. }
  assert (Hocc1 : occurrences kv1 (1/2) = 1%nat).
  { rewrite (occ_perm _ _ _ Hpm). change (repeat (1/2)%R (Z.to_nat 1) ++ [0; 0; 0; 1; 2; 2; 2]%R) with ((1/2)%R :: [0; 0; 0; 1; 2; 2; 2]%R).
    unfold occurrences in *. cbn [count_occ] in *. destruct (Req_EM_T (1/2) (1/2)); [|congruence]. now rewrite Hocc. }
  assert (Hz1 : zlen kv1 = 8) by (unfold zlen; rewrite (Permutation_length Hpm); reflexivity).
  assert (Hsep : separated ((1/2)%R :: kv1)).
  { apply (separated_incl _ ((1/2)%R :: [0; 0; 0; 1; 2; 2; 2]%R)); [|apply Hi]. intros x [<-|Hx]; [now left|].
    apply (Permutation_in _ Hpm) in Hx. exact Hx. }
  assert (Ha : admissible s1 (Split 0 (1/2) LeftPiece)).
  { exists kv1, 2. split; [auto|]. rewrite Hz1, Np, N10. split; [|split; reflexivity]. split; [rewrite F1, F2; cbn; lra|].
    split; [auto|]. rewrite Hocc1. lia. }
  destruct (edit_sync (fun x => x) s1 _ W Ha) as (s & E2 & _).
  exists n, s. split; [auto|]. split; [right; exists ex_weights; split; auto; repeat constructor; lra|].
  split; [unfold is_bspline; rewrite N3; discriminate|].
  change [Insert 0 (1 / 2) 1; Split 0 (1/2) LeftPiece] with (([] ++ [Insert 0 (1 / 2) 1]) ++ [Split 0 (1/2) LeftPiece]).
  apply history_step with s1; auto.
  - apply history_step with n; auto; [constructor|]. split; [|split; exact I].
    exists [0; 0; 0; 1; 2; 2; 2]%R, 2. split; [auto|]. split; [auto|]. split; [lia | cbn; lia].
  - split; [auto|]. split; [exact I|]. intros kv p [A B]. destruct Hdir1 as [A1 B1]. rewrite A1 in A. rewrite B1 in B.
    injection A as <-. injection B as <-. rewrite Hocc1. lia.
Qed.
