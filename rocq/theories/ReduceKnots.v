(* ProduceBezierSegments and RemoveBezierKnots in real arithmetic: all inner knots get p copies, and the
   copies go away again (C83). *)
From Coq Require Import ZArith List Bool Lia Reals Lra.
From Verif Require Import Base BaseFacts RSum MultiIndex MultiIndexSpec MultiIndexFacts TensorSum
  KnotVec KnotVecSpec KnotVecFacts KnotVecThms BSplineTheory Boehm BasisSpec Basis BasisFacts BasisThms VecUtils Spaces SpacesSpec
  SpacesFacts SpacesThms SplineEval SplineEdit SplineSpec EvalFacts EvalDeriv SplineNew EvalThms PhysFacts AdjustFacts InsertKnots InsertFacts
  EditSpec InsertThms RemoveFacts RemoveCompact RemoveCheck RemovePoints RemoveKnots RemoveMain RemoveThms RemoveSpec RemoveDecide InsertRepeat
  UniqueSpec UniqueFacts SplineDegree DegreeFacts KnotRuns.
Import ListNotations.
Open Scope Z_scope.

Section Knots.
Variable dz : R -> R.
Local Notation F := (Rops dz).
Implicit Types s : spline F.

(* the same map, also in homogeneous coordinates *)
Definition same_map s s' : Prop :=
  ph_dim (sp_ph s') = ph_dim (sp_ph s) /\ is_weighted dz (sp_ph s') = is_weighted dz (sp_ph s) /\
  forall us, (in_domain s us <-> in_domain s' us) /\
    (in_domain s us -> weight_function s' us = weight_function s us /\
      forall c, 0 <= c < ph_dim (sp_ph s) -> weighted_sum s' us c = weighted_sum s us c).

Lemma same_map_refl s : same_map s s.
Proof. split; [auto|]. split; [auto|]. intros us. split; [tauto|]. auto. Qed.
Lemma same_map_sym s s' : same_map s s' -> same_map s' s.
Proof.
  intros (H1 & H2 & H3). split; [auto|]. split; [auto|]. intros us. destruct (H3 us) as [A B]. split; [tauto|]. intros Hd. apply A in Hd.
  destruct (B Hd) as [B1 B2]. split; [auto|]. intros c Hc. rewrite B2; auto. lia.
Qed.
Lemma same_map_trans s1 s2 s3 : same_map s1 s2 -> same_map s2 s3 -> same_map s1 s3.
Proof.
  intros (H1 & H2 & H3) (G1 & G2 & G3). split; [congruence|]. split; [congruence|]. intros us. destruct (H3 us) as [A B]. destruct (G3 us) as [A' B'].
  split; [tauto|]. intros Hd. destruct (B Hd) as [B1 B2]. apply A in Hd. destruct (B' Hd) as [B1' B2']. split; [congruence|].
  intros c Hc. rewrite B2' by lia. now apply B2.
Qed.

(* one spline for one map *)
Lemma same_map_unique s s' : well_formed s -> well_formed s' -> regular s ->
  knots_of s' = knots_of s -> degs_of s' = degs_of s -> Forall2 full_support (knots_of s) (degs_of s) -> same_map s s' -> s' = s.
Proof.
  intros Hwf Hwf' Hreg Ek Eg Hf (Hdim & Hwt & Hm).
  assert (Eps : sp_ps s' = sp_ps s) by (rewrite (wf_mkps dz s Hwf), (wf_mkps dz s' Hwf'); congruence).
  pose proof (same_shape dz s s' Hwf Hwf' Eps) as En. pose proof Hwf as [Hd _ Hnp _ _ _].
  assert (W : forall idx, in_box (npts_of s) idx -> weight s' idx = weight s idx).
  { intros idx Hb. assert (Hb2 := Hb). rewrite Hnp in Hb2. destruct (supported_spans _ _ idx Hd Hf Hb2) as (ks & Hne & Hu).
    assert (Z0 : (weight s' idx - weight s idx)%R = 0%R); [|lra].
    apply (tensor_independent dz (knots_of s) (degs_of s) ks (fun idx => weight s' idx - weight s idx)%R Hd Hne); [|exact Hu].
    intros us Hus. pose proof (inside_in_domain _ _ _ _ Hd Hus) as Hdom. destruct (Hm us) as [_ Hm2]. destruct (Hm2 Hdom) as [M1 _].
    rewrite <- Hnp. unfold weight_function in M1. rewrite Ek, Eg, En in M1.
    rewrite (lsum_ext _ (fun j => (basis_product (knots_of s) (degs_of s) us j * weight s' j - basis_product (knots_of s) (degs_of s) us j * weight s j))%R).
    2:{ intros j _. ring. }
    rewrite lsum_minus, M1. lra. }
  assert (C : forall idx c, in_box (npts_of s) idx -> 0 <= c < ph_dim (sp_ph s) -> coordinate s' idx c = coordinate s idx c).
  { intros idx c Hb Hc. assert (Hb2 := Hb). rewrite Hnp in Hb2. destruct (supported_spans _ _ idx Hd Hf Hb2) as (ks & Hne & Hu).
    assert (Z0 : (weight s' idx * coordinate s' idx c - weight s idx * coordinate s idx c)%R = 0%R).
    { apply (tensor_independent dz (knots_of s) (degs_of s) ks (fun idx => weight s' idx * coordinate s' idx c - weight s idx * coordinate s idx c)%R Hd Hne); [|exact Hu].
      intros us Hus. pose proof (inside_in_domain _ _ _ _ Hd Hus) as Hdom. destruct (Hm us) as [_ Hm2]. destruct (Hm2 Hdom) as [_ M2].
      specialize (M2 c Hc). rewrite <- Hnp. unfold weighted_sum in M2. rewrite Ek, Eg, En in M2.
      rewrite (lsum_ext _ (fun j => (basis_product (knots_of s) (degs_of s) us j * (weight s' j * coordinate s' j c) -
         basis_product (knots_of s) (degs_of s) us j * (weight s j * coordinate s j c)))%R).
      2:{ intros j _. ring. }
      rewrite lsum_minus, M2. lra. }
    rewrite (W idx Hb) in Z0. pose proof (weight_nonzero dz s idx Hwf Hreg Hb) as Hnz.
    apply (Rmult_eq_reg_l (weight s idx)); [lra | auto]. }
  assert (Eph : sp_ph s' = sp_ph s).
  { apply (phys_ext dz); try (now apply wf_phys); auto.
    - intros idx c Hb Hc. rewrite <- !coordinate_p. apply C; [rewrite <- En; exact Hb | lia].
    - intros _ idx Hb. rewrite <- !weight_p. apply W. rewrite <- En. exact Hb. }
  destruct s, s'; cbn in *. congruence.
Qed.

Lemma separated_in (kv : list R) u : In u kv -> separated kv -> separated (u :: kv).
Proof.
  intros Hi Hs. apply (In_nth _ _ 0%R) in Hi as (k & Hk & E).
  intros [|i] [|j] H1 H2 H3; cbn [length] in *; unfold knot in *; cbn [nth] in *; try lra.
  - rewrite <- E in *. apply (Hs k j); auto; lia.
  - rewrite <- E in *. apply (Hs i k); auto; lia.
  - apply (Hs i j); auto; lia.
Qed.

(* runs around one knot *)
Lemma runs_mid p a r1 x m r2 b : of_runs p a (r1 ++ (x, m) :: r2) b =
  (repeat a (Z.to_nat p + 1) ++ expand r1) ++ repeat x m ++ expand r2 ++ repeat b (Z.to_nat p + 1).
Proof. unfold of_runs. rewrite expand_app, expand_cons, <- !app_assoc. reflexivity. Qed.

Lemma runs_inner p a r1 x m r2 b : chain a (r1 ++ (x, m) :: r2) b -> good_direction (of_runs p a (r1 ++ (x, m) :: r2) b) p ->
  exists n, inner (of_runs p a (r1 ++ (x, m) :: r2) b) p x n /\
    forall r, insm (of_runs p a (r1 ++ (x, m) :: r2) b) n x r = of_runs p a (r1 ++ (x, (m + r)%nat) :: r2) b.
Proof.
  intros Hc Hg. destruct (chain_split _ _ _ _ _ _ Hc) as (C1 & C2 & C3). pose proof (chain_lt _ _ _ C1). pose proof (chain_lt _ _ _ C3).
  set (l1 := (repeat a (Z.to_nat p + 1) ++ expand r1) ++ repeat x m). set (l2 := expand r2 ++ repeat b (Z.to_nat p + 1)).
  assert (E : of_runs p a (r1 ++ (x, m) :: r2) b = l1 ++ l2) by (rewrite runs_mid; unfold l1, l2; rewrite <- !app_assoc; reflexivity).
  assert (Hin : In x (of_runs p a (r1 ++ (x, m) :: r2) b)).
  { rewrite runs_mid. apply in_or_app. right. apply in_or_app. left. destruct m; [lia|]. now left. }
  exists (length l1). split.
  - split; [auto|]. split; [apply separated_in; [auto | apply Hg]|]. split; [|rewrite runs_first, runs_final; lra].
    rewrite E. apply at_pos_split.
    + unfold l1. rewrite Nat.add_comm. discriminate.
    + unfold l2. rewrite Nat.add_comm. destruct (expand r2); discriminate.
    + unfold l1. apply Forall_app. split; [apply Forall_app; split|].
      * apply Forall_forall. intros y Hy. apply repeat_spec in Hy. subst. lra.
      * eapply Forall_impl; [|exact (chain_between _ _ _ C1)]. cbv beta. intros; lra.
      * apply Forall_forall. intros y Hy. apply repeat_spec in Hy. subst. lra.
    + unfold l2. apply Forall_app. split.
      * eapply Forall_impl; [|exact (chain_between _ _ _ C3)]. cbv beta. intros; lra.
      * apply Forall_forall. intros y Hy. apply repeat_spec in Hy. subst. lra.
  - intros r. rewrite E, insm_split. rewrite runs_mid. unfold l1, l2. rewrite (repeat_app x m r), <- !app_assoc. reflexivity.
Qed.

Lemma fill_step s d p a r1 x m r2 b r : well_formed s -> regular s -> direction s d (of_runs p a (r1 ++ (x, m) :: r2) b) p ->
  chain a (r1 ++ (x, m) :: r2) b -> Z.of_nat (m + r) <= p -> zlen (of_runs p a (r1 ++ (x, m) :: r2) b) + Z.of_nat r < 2 ^ 31 ->
  exists s', insert_knot s x d (Z.of_nat r) = Ok s' /\ well_formed s' /\ regular s' /\
    knots_of s' = upd (knots_of s) d (of_runs p a (r1 ++ (x, (m + r)%nat) :: r2) b) /\ degs_of s' = degs_of s /\ same_map s s' /\
    forall tol, (0 <= tol)%R -> remove_knot s' x d tol (Z.of_nat r) = Ok (Z.of_nat r, s).
Proof.
  intros Hwf Hreg Hdir Hc Hm Hz. pose proof Hdir as [Ek Ed]. destruct (wf_direction dz s d _ p Hwf Ek Ed) as (Hg & _).
  set (kv := of_runs p a (r1 ++ (x, m) :: r2) b) in *.
  destruct (runs_inner p a r1 x m r2 b Hc Hg) as (n & Hin & Hins). fold kv in Hin, Hins.
  assert (Ho : occurrences kv x = m) by (unfold kv; now apply runs_occ).
  destruct (insert_ok dz s d kv p x n r Hwf Ek Ed Hin ltac:(lia) ltac:(lia)) as (s' & E & W & K & G & D & Wt & Pv).
  destruct (Pv (regular_positive dz s Hwf Hreg)) as [Q1 Q2]. exists s'. split; [auto|]. split; [auto|].
  split; [now apply (regular_back dz s)|]. split; [now rewrite K, Hins|]. split; [auto|]. split.
  - split; [auto|]. split; [auto|]. intros us. split; [|apply Q2].
    apply (in_domain_upd_iff dz s s' d kv (insm kv n x r)); auto; destruct (first_insm kv p n x r Hin); auto.
  - intros tol Ht.
    assert (Hi : insertable kv p x (Z.of_nat r)) by (split; [apply Hin|]; split; [apply Hin | lia]).
    destruct (insert_remove_many dz s d kv p x tol (Z.of_nat r) Hwf Hreg Hdir Hi ltac:(lia) ltac:(lia) Ht ltac:(lia)) as (s'' & I1 & I2).
    congruence.
Qed.

(* p copies of every inner knot; how many copies that takes *)
Definition fill (p : Z) (rs : list (R * nat)) : list (R * nat) := map (fun r => (fst r, Z.to_nat p)) rs.
Definition gaps (p : Z) (rs : list (R * nat)) : list Z := map (fun r => p - Z.of_nat (snd r)) rs.

Lemma chain_refill a rs rs' b : chain a rs b -> map fst rs' = map fst rs -> Forall (fun r => (1 <= snd r)%nat) rs' -> chain a rs' b.
Proof.
  revert a rs'. induction rs as [|[x m] rs IH]; intros a [|[y k] rs'] H E Hf; cbn [map fst] in E; try discriminate; auto.
  injection E as -> E. inversion Hf as [|? ? F1 F2]; subst. destruct H as (H1 & _ & H2). cbn [fst snd] in *. cbn [chain fst snd]. auto.
Qed.
Lemma chain_counts a rs b : chain a rs b -> Forall (fun r => (1 <= snd r)%nat) rs.
Proof. revert a. induction rs as [|[x m] rs IH]; intros a H; constructor; cbn in *; [tauto | apply (IH x); tauto]. Qed.
Lemma map_fst_fill p rs : map fst (fill p rs) = map fst rs.
Proof. unfold fill. now rewrite map_map. Qed.
Lemma fill_counts p rs : 1 <= p -> Forall (fun r => (1 <= snd r)%nat) (fill p rs).
Proof. intros Hp. apply Forall_forall. intros r Hr. apply in_map_iff in Hr as (q & <- & _). cbn. lia. Qed.
Lemma chain_fill p a r1 r2 b : 1 <= p -> chain a (r1 ++ r2) b -> chain a (r1 ++ fill p r2) b /\ chain a (fill p r1 ++ r2) b.
Proof.
  intros Hp H. pose proof (chain_counts _ _ _ H) as Hk. apply Forall_app in Hk as [K1 K2].
  split; apply (chain_refill a (r1 ++ r2)); auto; rewrite ?map_app, ?map_fst_fill; auto; apply Forall_app; split; auto; now apply fill_counts.
Qed.
Lemma expand_fill_length p rs : length (expand (fill p rs)) = (length rs * Z.to_nat p)%nat.
Proof. induction rs as [|[x m] rs IH]; [reflexivity|]. cbn [fill map fst]. rewrite expand_cons, app_length, repeat_length. fold (fill p rs). rewrite IH. cbn [length]. lia. Qed.
Lemma expand_le_fill p rs : Forall (fun r => (snd r <= Z.to_nat p)%nat) rs -> (length (expand rs) <= length rs * Z.to_nat p)%nat.
Proof. induction 1 as [|[x m] rs Hm H IH]; [cbn; lia|]. rewrite expand_cons, app_length, repeat_length. cbn [length snd] in *. lia. Qed.

Lemma list_split {A} (l : list A) i : (i < length l)%nat -> exists x, l = firstn i l ++ x :: skipn (S i) l /\ nth_error l i = Some x /\ skipn i l = x :: skipn (S i) l /\ firstn (S i) l = firstn i l ++ [x].
Proof.
  revert i. induction l as [|y l IH]; intros [|i] H; cbn [length] in H; try lia.
  - exists y. cbn. auto.
  - destruct (IH i ltac:(lia)) as (x & E1 & E2 & E3 & E4). exists x. split; [cbn [firstn skipn app]; f_equal; exact E1|]. split; [exact E2|]. split; [exact E3|].
    change (firstn (S (S i)) (y :: l)) with (y :: firstn (S i) l). rewrite E4. reflexivity.
Qed.

Lemma upd_middle {A} (l1 l2 : list A) x y : upd (l1 ++ x :: l2) (length l1) y = l1 ++ y :: l2.
Proof. induction l1 as [|z l1 IH]; cbn [app length upd]; [reflexivity | now rewrite IH]. Qed.

Lemma u64_small z : 0 <= z < 2 ^ 64 -> u64 z = z.
Proof. intros H. unfold u64. now apply Z.mod_small. Qed.

Definition fits (p : Z) (rs : list (R * nat)) : Prop := 2 * (p + 1) + Z.of_nat (length rs) * p < 2 ^ 31.

(* ProduceBezierSegments *)
Theorem produce_ok s d p a rs b : well_formed s -> regular s -> direction s d (of_runs p a rs b) p -> chain a rs b -> 1 <= p ->
  Forall (fun r => Z.of_nat (snd r) <= p) rs -> fits p rs ->
  exists s1, produce_bezier s d = Ok (gaps p rs, s1) /\ well_formed s1 /\ regular s1 /\
    knots_of s1 = upd (knots_of s) d (of_runs p a (fill p rs) b) /\ degs_of s1 = degs_of s /\ same_map s s1.
Proof.
  intros Hwf Hreg [Ek Ed] Hc Hp Hm Hz. unfold produce_bezier, sp_deg, sp_knots, dget. fold (knots_of s) (degs_of s). rnorm. rewrite Ed. cbn [bind]. rewrite Ek. cbn [bind].
  rewrite (runs_different dz p a rs b Hc). replace (2 + Z.of_nat (length rs) - 2) with (Z.of_nat (length rs)) by lia.
  unfold vmake. assert (E0 : Z.of_nat (length rs) <? 0 = false) by (apply Z.ltb_ge; lia). rewrite E0. cbn [bind]. rewrite Nat2Z.id. clear E0.
  match goal with |- exists s1, bind (for_up 0 ?n ?body ?st0) _ = _ /\ _ =>
    destruct (for_up_inv (fun i (st : Z * list Z * spline F) => exists s',
       st = (p + 1 + i * p, firstn (Z.to_nat i) (gaps p rs) ++ repeat (p - 1) (length rs - Z.to_nat i), s') /\ well_formed s' /\ regular s' /\
       knots_of s' = upd (knots_of s) d (of_runs p a (fill p (firstn (Z.to_nat i) rs) ++ skipn (Z.to_nat i) rs) b) /\ degs_of s' = degs_of s /\ same_map s s')
       0 n body st0) as (st & Est & (s1 & Es & W & Rg & K & G & M))
  end.
  - lia.
  - intros i st Hi (s' & -> & W & Rg & K & G & M). cbv beta iota.
    destruct (list_split rs (Z.to_nat i) ltac:(lia)) as ([x m] & E1 & E2 & E3 & E4).
    set (r1 := fill p (firstn (Z.to_nat i) rs)) in *. set (r2 := skipn (S (Z.to_nat i)) rs) in *. rewrite E3 in K.
    assert (Ek' : nth_error (knots_of s') d = Some (of_runs p a (r1 ++ (x, m) :: r2) b)) by (rewrite K; now apply (nth_error_upd_same _ _ _ (of_runs p a rs b))).
    assert (Ed' : nth_error (degs_of s') d = Some p) by now rewrite G.
    assert (Hc' : chain a (r1 ++ (x, m) :: r2) b).
    { unfold r1. rewrite <- E3. apply chain_fill; auto. rewrite firstn_skipn. exact Hc. }
    destruct (chain_split _ _ _ _ _ _ Hc') as (C1 & C2 & C3).
    assert (Hmx : Z.of_nat m <= p).
    { rewrite Forall_forall in Hm. apply (Hm (x, m)). eapply nth_error_In. exact E2. }
    fold (knots_of s'). rewrite Ek'. cbn [bind].
    set (pre := repeat a (Z.to_nat p + 1) ++ expand r1).
    assert (Lpre : zlen pre = p + 1 + i * p).
    { unfold pre, zlen, r1. rewrite app_length, repeat_length, expand_fill_length, firstn_length. nia. }
    assert (Epost : exists y post, expand r2 ++ repeat b (Z.to_nat p + 1) = y :: post /\ x <> y).
    { destruct r2 as [|[y k] r2']; [exists b, (repeat b (Z.to_nat p)); rewrite Nat.add_comm; cbn; split; auto; cbn in C3; lra|].
      destruct C3 as (D1 & D2 & D3). cbn [fst snd] in *. destruct k as [|k]; [lia|]. rewrite expand_cons. cbn [repeat app].
      eexists y, _. split; [reflexivity | lra]. }
    destruct Epost as (y & post & Epost & Hxy).
    destruct m as [|m]; [lia|].
    assert (Ekv : of_runs p a (r1 ++ (x, S m) :: r2) b = pre ++ repeat x (S m) ++ y :: post) by (rewrite runs_mid, Epost; reflexivity).
    rewrite <- Lpre.
    assert (Erun : run_length (F := F) (S (length (of_runs p a (r1 ++ (x, S m) :: r2) b))) (of_runs p a (r1 ++ (x, S m) :: r2) b) (zlen pre) = Ok (Z.of_nat m)).
    { rewrite Ekv. apply run_length_ok; auto. rewrite !app_length, repeat_length. lia. }
    step Erun.
    assert (Lg : length (gaps p rs) = length rs) by (unfold gaps; apply map_length).
    assert (Lf : length (firstn (Z.to_nat i) (gaps p rs)) = Z.to_nat i) by (rewrite firstn_length; lia).
    assert (Evg : vget (firstn (Z.to_nat i) (gaps p rs) ++ repeat (p - 1) (length rs - Z.to_nat i)) i = Ok (p - 1)).
    { rewrite (vget_nth _ i 0) by (unfold zlen; rewrite app_length, repeat_length; lia). rewrite app_nth2 by lia. rewrite Lf. f_equal.
      apply nth_in_repeat. lia. }
    rewrite Evg. cbn [bind].
    assert (Evs : vset (firstn (Z.to_nat i) (gaps p rs) ++ repeat (p - 1) (length rs - Z.to_nat i)) i (p - 1 - Z.of_nat m) =
                  Ok (firstn (Z.to_nat (i + 1)) (gaps p rs) ++ repeat (p - 1) (length rs - Z.to_nat (i + 1)))).
    { rewrite vset_ok by (unfold zlen; rewrite app_length, repeat_length; lia). f_equal.
      replace (Z.to_nat (i + 1)) with (S (Z.to_nat i)) by lia.
      destruct (list_split (gaps p rs) (Z.to_nat i) ltac:(lia)) as (g & _ & G2 & _ & G4). rewrite G4, <- app_assoc. cbn [app].
      replace (length rs - Z.to_nat i)%nat with (S (length rs - S (Z.to_nat i))) by lia. cbn [repeat].
      assert (Eg : g = p - 1 - Z.of_nat m).
      { unfold gaps in G2. rewrite nth_error_map, E2 in G2. cbn in G2. injection G2 as <-. lia. }
      rewrite Eg. pose proof (upd_middle (firstn (Z.to_nat i) (gaps p rs)) (repeat (p - 1) (length rs - S (Z.to_nat i))) (p - 1) (p - 1 - Z.of_nat m)) as U.
      rewrite Lf in U. exact U. }
    rewrite Evs. cbn [bind].
    assert (Eu : get_knot (F := F) (of_runs p a (r1 ++ (x, S m) :: r2) b) (zlen pre + Z.of_nat m) = Ok x).
    { rewrite Ekv. rewrite get_after by (rewrite app_length, repeat_length; lia). f_equal. rewrite app_nth1 by (rewrite repeat_length; lia). apply nth_in_repeat. lia. }
    rewrite Eu. cbn [bind].
    rewrite u64_small by (unfold fits in Hz; nia).
    destruct (fill_step s' d p a r1 x (S m) r2 b (Z.to_nat (p - 1 - Z.of_nat m)) W Rg (conj Ek' Ed') Hc' ltac:(lia)) as (s'' & I1 & W' & Rg' & K' & G' & M' & _).
    { assert (Hl2 : (length (expand r2) <= length r2 * Z.to_nat p)%nat).
      { apply expand_le_fill. unfold r2. apply Forall_forall. intros q Hq. rewrite Forall_forall in Hm. assert (In q rs) by (rewrite E1; apply in_or_app; right; now right). specialize (Hm q H). lia. }
      unfold zlen. rewrite runs_length, expand_app, expand_cons, !app_length, repeat_length. unfold r1. rewrite expand_fill_length, firstn_length.
      assert (length rs = Z.to_nat i + S (length r2))%nat.
      { unfold r2. rewrite skipn_length. lia. }
      unfold fits in Hz. nia. }
    rewrite Z2Nat.id in I1 by lia. rewrite I1. cbn [bind]. eexists. split; [reflexivity|]. exists s''. split.
    { do 2 f_equal. rewrite Lpre. nia. }
    split; [auto|]. split; [auto|]. split; [|split; [congruence | now apply (same_map_trans s s')]].
    rewrite K', K, upd_upd. f_equal. replace (Z.to_nat (i + 1)) with (S (Z.to_nat i)) by lia. rewrite E4. unfold fill. rewrite map_app, <- app_assoc. cbn [map app fst].
    fold (fill p (firstn (Z.to_nat i) rs)). fold r1. fold r2. do 4 f_equal. f_equal. lia.
  - exists s. cbn [Z.to_nat firstn skipn app fill map]. rewrite Nat.sub_0_r. split; [do 2 f_equal; lia|]. split; [auto|]. split; [auto|].
    split; [symmetry; now apply upd_id|]. split; [auto | apply same_map_refl].
  - rewrite Est. cbn [bind]. subst st. cbn [fst snd]. exists s1. rewrite Nat2Z.id in *.
    rewrite Nat.sub_diag. cbn [repeat]. rewrite app_nil_r. rewrite firstn_all2 by (unfold gaps; now rewrite map_length).
    split; [reflexivity|]. rewrite firstn_all, skipn_all, app_nil_r in K. repeat (split; [assumption|]). assumption.
Qed.

(* RemoveBezierKnots *)
Lemma remove_stages s d p a rs b : well_formed s -> regular s -> direction s d (of_runs p a rs b) p -> chain a rs b -> 1 <= p ->
  Forall (fun r => Z.of_nat (snd r) <= p) rs -> fits p rs -> forall k, (k <= length rs)%nat ->
  let j := (length rs - k)%nat in
  exists t, well_formed t /\ regular t /\ degs_of t = degs_of s /\ same_map s t /\
    knots_of t = upd (knots_of s) d (of_runs p a (firstn j rs ++ fill p (skipn j rs)) b) /\
    forall fuel, (k <= fuel)%nat ->
      remove_bezier_loop fuel t d (gaps p rs) (Z.of_nat j) (p + 1 + zlen (expand (firstn j rs))) = Ok s.
Proof.
  intros Hwf Hreg [Ek Ed] Hc Hp Hm Hz. induction k as [|k IH]; intros Hk j.
  - exists s. subst j. rewrite Nat.sub_0_r, firstn_all, skipn_all. cbn [fill map]. rewrite app_nil_r. split; [auto|]. split; [auto|]. split; [auto|].
    split; [apply same_map_refl|]. split; [symmetry; now apply upd_id|]. intros fuel _.
    assert (E : remove_bezier_loop fuel s d (gaps p rs) (Z.of_nat (length rs)) (p + 1 + zlen (expand rs)) =
       (kv <- sp_knots s d ;; if Z.of_nat (length rs) <? num_different kv - 2 then match fuel with O => UB | S f => u <- get_knot kv (p + 1 + zlen (expand rs)) ;; di <- vget (gaps p rs) (Z.of_nat (length rs)) ;;
        cs <- remove_knot s u d kEpsilon (u64 di) ;; kv' <- sp_knots (snd cs) d ;; r <- run_length (S (length kv')) kv' (p + 1 + zlen (expand rs)) ;;
        remove_bezier_loop f (snd cs) d (gaps p rs) (Z.of_nat (length rs) + 1) (p + 1 + zlen (expand rs) + r + 1) end else Ok s)) by (destruct fuel; reflexivity).
    rewrite E. unfold sp_knots, dget. fold (knots_of s). rnorm. rewrite Ek. cbn [bind]. rewrite (runs_different dz p a rs b Hc).
    destruct (Z.ltb_spec (Z.of_nat (length rs)) (2 + Z.of_nat (length rs) - 2)); [lia | reflexivity].
  - specialize (IH ltac:(lia)). cbv zeta in IH. replace (length rs - k)%nat with (S j) in IH by lia.
    destruct IH as (t1 & W & Rg & G & M & K & L).
    destruct (list_split rs j ltac:(unfold j; lia)) as ([x m] & E1 & E2 & E3 & E4).
    set (r1 := firstn j rs) in *. set (r2 := fill p (skipn (S j) rs)) in *. rewrite E4, <- app_assoc in K. cbn [app] in K.
    assert (Hmx : Z.of_nat m <= p).
    { rewrite Forall_forall in Hm. apply (Hm (x, m)). eapply nth_error_In. exact E2. }
    assert (Hc1 : chain a (r1 ++ (x, m) :: r2) b).
    { change (r1 ++ (x, m) :: r2) with (r1 ++ [(x, m)] ++ r2). rewrite app_assoc. apply chain_fill; auto. rewrite <- app_assoc. cbn [app]. rewrite <- E1. exact Hc. }
    destruct (chain_split _ _ _ _ _ _ Hc1) as (C1 & C2 & C3).
    assert (Ek1 : nth_error (knots_of t1) d = Some (of_runs p a (r1 ++ (x, m) :: r2) b)) by (rewrite K; now apply (nth_error_upd_same _ _ _ (of_runs p a rs b))).
    assert (Ed1 : nth_error (degs_of t1) d = Some p) by now rewrite G.
    destruct (fill_step t1 d p a r1 x m r2 b (Z.to_nat p - m) W Rg (conj Ek1 Ed1) Hc1 ltac:(lia)) as (t & I1 & W' & Rg' & K' & G' & M' & Rm).
    { assert (Hl1 : (length (expand r1) <= length r1 * Z.to_nat p)%nat).
      { apply expand_le_fill. unfold r1. apply Forall_forall. intros q Hq. rewrite Forall_forall in Hm. assert (In q rs) by (rewrite E1; apply in_or_app; now left). specialize (Hm q H). lia. }
      unfold zlen. rewrite runs_length, expand_app, expand_cons, !app_length, repeat_length. unfold r2. rewrite expand_fill_length, skipn_length.
      assert (length r1 = j) by (unfold r1; rewrite firstn_length; lia). unfold fits in Hz. nia. }
    replace (m + (Z.to_nat p - m))%nat with (Z.to_nat p) in K' by lia.
    exists t. split; [auto|]. split; [auto|]. split; [congruence|]. split; [now apply (same_map_trans s t1)|].
    assert (Efill : fill p (skipn j rs) = (x, Z.to_nat p) :: r2) by (rewrite E3; reflexivity).
    rewrite Efill. split; [now rewrite K', K, upd_upd|].
    intros fuel Hf. destruct fuel as [|fuel]; [lia|]. cbn [remove_bezier_loop].
    assert (Ekt : nth_error (knots_of t) d = Some (of_runs p a (r1 ++ (x, Z.to_nat p) :: r2) b)) by (rewrite K'; now apply (nth_error_upd_same _ _ _ (of_runs p a (r1 ++ (x, m) :: r2) b))).
    unfold sp_knots at 1, dget. fold (knots_of t). rnorm. rewrite Ekt. cbn [bind].
    assert (Hct : chain a (r1 ++ (x, Z.to_nat p) :: r2) b) by (apply chain_join; auto; lia).
    rewrite (runs_different dz p a _ b Hct).
    assert (Lr : length (r1 ++ (x, Z.to_nat p) :: r2) = length rs).
    { unfold r1, r2, fill. rewrite app_length. cbn [length]. rewrite map_length, firstn_length, skipn_length. lia. }
    rewrite Lr. assert (Eb : Z.of_nat j <? 2 + Z.of_nat (length rs) - 2 = true) by (apply Z.ltb_lt; lia). rewrite Eb.
    set (pre := repeat a (Z.to_nat p + 1) ++ expand r1).
    assert (Lpre : p + 1 + zlen (expand r1) = zlen pre) by (unfold pre, zlen; rewrite app_length, repeat_length; lia).
    rewrite Lpre.
    assert (Eu : get_knot (F := F) (of_runs p a (r1 ++ (x, Z.to_nat p) :: r2) b) (zlen pre) = Ok x).
    { rewrite runs_mid. fold pre. replace (zlen pre) with (zlen pre + Z.of_nat 0) by lia.
      rewrite get_after by (rewrite app_length, repeat_length; lia). f_equal. rewrite app_nth1 by (rewrite repeat_length; lia). apply nth_in_repeat. lia. }
    rewrite Eu. cbn [bind].
    assert (Eg : vget (gaps p rs) (Z.of_nat j) = Ok (p - Z.of_nat m)).
    { rewrite (vget_nth _ _ 0) by (unfold gaps, zlen; rewrite map_length; lia). rewrite Nat2Z.id. f_equal. apply nth_error_nth.
      unfold gaps. rewrite nth_error_map, E2. reflexivity. }
    rewrite Eg. cbn [bind]. rewrite u64_small by (unfold fits in Hz; nia).
    rewrite kEpsilon_R. replace (p - Z.of_nat m) with (Z.of_nat (Z.to_nat p - m)) by lia. rewrite Rm by (unfold epsR; lra). cbn [bind snd].
    unfold sp_knots, dget. fold (knots_of t1). rnorm. rewrite Ek1. cbn [bind].
    assert (Epost : exists y post, expand r2 ++ repeat b (Z.to_nat p + 1) = y :: post /\ x <> y).
    { destruct r2 as [|[y q] r2']; [exists b, (repeat b (Z.to_nat p)); rewrite Nat.add_comm; cbn; split; auto; cbn in C3; lra|].
      destruct C3 as (D1 & D2 & D3). cbn [fst snd] in *. destruct q as [|q]; [lia|]. rewrite expand_cons. cbn [repeat app].
      eexists y, _. split; [reflexivity | lra]. }
    destruct Epost as (y & post & Epost & Hxy). destruct m as [|m]; [lia|].
    assert (Ekv : of_runs p a (r1 ++ (x, S m) :: r2) b = pre ++ repeat x (S m) ++ y :: post) by (rewrite runs_mid, Epost; reflexivity).
    assert (Erun : run_length (F := F) (S (length (of_runs p a (r1 ++ (x, S m) :: r2) b))) (of_runs p a (r1 ++ (x, S m) :: r2) b) (zlen pre) = Ok (Z.of_nat m)).
    { rewrite Ekv. apply run_length_ok; auto. rewrite !app_length, repeat_length. lia. }
    step Erun. specialize (L fuel ltac:(lia)). rewrite E4, expand_app, expand_cons in L. cbn [expand flat_map] in L.
    rewrite <- L. f_equal; [lia|]. rewrite <- Lpre. unfold zlen. rewrite !app_length, repeat_length. cbn [length]. lia.
Qed.

Theorem remove_ok s d p a rs b t : well_formed s -> regular s -> direction s d (of_runs p a rs b) p -> chain a rs b -> 1 <= p ->
  Forall (fun r => Z.of_nat (snd r) <= p) rs -> fits p rs -> Forall2 full_support (knots_of s) (degs_of s) ->
  well_formed t -> knots_of t = upd (knots_of s) d (of_runs p a (fill p rs) b) -> degs_of t = degs_of s -> same_map s t ->
  remove_bezier t d (gaps p rs) = Ok s.
Proof.
  intros Hwf Hreg Hdir Hc Hp Hm Hz Hf Wt Kt Gt Mt. pose proof Hdir as [Ek Ed].
  destruct (remove_stages s d p a rs b Hwf Hreg Hdir Hc Hp Hm Hz (length rs) ltac:(lia)) as (t0 & W & Rg & G & M & K & L).
  rewrite Nat.sub_diag in *. cbn [firstn skipn app expand flat_map] in *.
  assert (Hct : chain a (fill p rs) b) by (apply (chain_fill p a [] rs b Hp); exact Hc).
  assert (Ekt : nth_error (knots_of t0) d = Some (of_runs p a (fill p rs) b)) by (rewrite K; now apply (nth_error_upd_same _ _ _ (of_runs p a rs b))).
  assert (E : t = t0).
  { apply same_map_unique; auto; try congruence.
    - rewrite K, G. apply Forall2_upd; auto. intros q Eq. assert (q = p) by congruence. subst q.
      destruct (wf_direction dz t0 d _ p W Ekt ltac:(congruence)) as (Hg & _).
      apply support_occ; [lia | apply Hg|]. apply runs_occ_le; auto; [lia|]. apply Forall_forall. intros r Hr. apply in_map_iff in Hr as (q & <- & _). cbn. lia.
    - apply (same_map_trans t0 s); auto. now apply same_map_sym. }
  subst t0. unfold remove_bezier, sp_deg, sp_knots, dget. fold (knots_of t) (degs_of t). rnorm. rewrite Gt, Ed. cbn [bind]. rewrite Ekt. cbn [bind].
  rewrite <- (L (length (of_runs p a (fill p rs) b))); [f_equal; unfold zlen; cbn; lia|].
  rewrite runs_length, expand_fill_length. nia.
Qed.
End Knots.
