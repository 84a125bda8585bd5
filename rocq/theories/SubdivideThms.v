(* Closing lemmas for subdivision (C28) and the example. *)
From Coq Require Import ZArith List Bool Lia Reals Lra Permutation Floats.
From Verif Require Import Base BaseFacts RSum MultiIndex MultiIndexSpec MultiIndexFacts TensorSum
  KnotVec KnotVecSpec KnotVecFacts KnotVecThms BSplineTheory Boehm BasisSpec Basis BasisFacts BasisThms VecUtils Spaces SpacesSpec
  SpacesFacts SpacesThms SplineEval SplineEdit SplineSpec EvalFacts RationalDeriv EvalDeriv SplineNew EvalThms PhysFacts
  AdjustFacts InsertKnots InsertFacts EditSpec InsertThms SubdivideFacts SubdividePieces.
Import ListNotations.
Open Scope Z_scope.

Section Thms.
Variable dz : R -> R.
Local Notation F := (Rops dz).
Implicit Types s : spline F.

Lemma Forall2_len {A C} (P : A -> C -> Prop) l1 l2 : Forall2 P l1 l2 -> length l1 = length l2.
Proof. induction 1; cbn; auto. Qed.

Lemma get_knots_range (kv : list R) lo m : 0 <= lo -> lo + Z.of_nat m <= zlen kv ->
  mapM (get_knot (F := F) kv) (zseq lo m) = Ok (firstn m (skipn (Z.to_nat lo) kv)).
Proof.
  intros Hlo Hm. rewrite (mapM_ok _ (fun i => knot kv (Z.to_nat i))).
  2:{ intros i Hi. apply zseq_In in Hi. rewrite get_knot_tk by (rnorm; lia). rewrite tk_knot' by lia. reflexivity. }
  f_equal. apply nth_ext with 0%R 0%R.
  { rewrite map_length, zseq_length, firstn_length, skipn_length. unfold zlen in *. lia. }
  intros k Hk. rewrite map_length, zseq_length in Hk.
  rewrite (nth_map_in _ _ _ 0) by (rewrite zseq_length; lia). rewrite zseq_nth by lia. unfold knot.
  transitivity (nth k (skipn (Z.to_nat lo) kv) 0%R).
  - clear - Hlo. replace (Z.to_nat (lo + Z.of_nat k)) with (Z.to_nat lo + k)%nat by lia. generalize (Z.to_nat lo) as a. intros a. revert kv. induction a as [|a IH]; intros kv; cbn [Nat.add skipn]; auto.
    destruct kv; cbn [nth]; [destruct k; reflexivity | apply IH].
  - generalize (skipn (Z.to_nat lo) kv) as l. clear - Hk. revert k Hk. induction m as [|m IH]; intros k Hk l; [lia|].
    destruct l as [|x l]; [destruct k; reflexivity|]. destruct k; cbn; auto. apply IH. lia.
Qed.

Lemma divided_knots_ok s d kv p u n : well_formed s -> nth_error (knots_of s) d = Some kv -> nth_error (degs_of s) d = Some p ->
  inner kv p u n -> Z.of_nat (occurrences kv u) = p + 1 ->
  divided_knot_vectors (sp_ps s) u d = Ok (upd (knots_of s) d (left_part kv n), upd (knots_of s) d (right_part kv p n)).
Proof.
  intros Hwf Ek Ed Hin Hf. destruct (part_sizes kv p u n Hin Hf) as (H1 & H2 & H3).
  unfold divided_knot_vectors, dget. fold (knots_of s) (degs_of s). rnorm. rewrite Ek. cbn [bind]. rewrite Ed. cbn [bind].
  rewrite (inner_span dz kv p u n Hin). cbn [bind].
  rewrite get_knots_range by (unfold zlen in *; lia). cbn [bind].
  rewrite get_knots_range by (unfold zlen in *; rnorm; lia). cbn [bind].
  match goal with |- Ok (upd _ _ ?a, upd _ _ ?b) = _ =>
    replace a with (left_part kv n); [replace b with (right_part kv p n); [reflexivity|]|] end; unfold left_part, right_part.
  - replace (Z.to_nat (Z.of_nat n - 1 - p)) with (n - 1 - Z.to_nat p)%nat by lia. symmetry.
    apply firstn_all2. rewrite skipn_length. rnorm. unfold zlen in *. lia.
  - cbn [Z.to_nat skipn]. f_equal. lia.
Qed.

Lemma in_domain_part s s' d kv kv' us : nth_error (knots_of s) d = Some kv -> knots_of s' = upd (knots_of s) d kv' ->
  (first_knot kv <= first_knot kv')%R -> (final_knot kv' <= final_knot kv)%R -> in_domain s' us ->
  in_domain s us /\ exists v, nth_error us d = Some v /\ (first_knot kv' <= v <= final_knot kv')%R.
Proof.
  unfold in_domain. intros Ek -> H1 H2 H. revert d us Ek H. generalize (knots_of s) as ks.
  induction ks as [|k ks IH]; intros [|d] us Ek H; cbn in *; try discriminate.
  - injection Ek as ->. inversion H as [|? v ? vs Hv Hvs]; subst. split; [constructor; [lra | auto] | exists v; split; [reflexivity | lra]].
  - inversion H as [|? v ? vs Hv Hvs]; subst. destruct (IH d vs Ek Hvs) as [A B]. split; auto.
Qed.

Lemma piece_regular s s' d first : well_formed s -> well_formed s' -> is_weighted dz (sp_ph s') = is_weighted dz (sp_ph s) ->
  all_positive dz (sp_ph s) -> regular s ->
  (forall idx, in_box (npts_of s') idx -> in_box (npts_of s) (moved d first idx) /\ weight s' idx = weight s (moved d first idx)) ->
  regular s'.
Proof.
  intros Hwf Hwf' Ew Hpos Hreg H. apply (regular_back dz s); auto.
  intros idx Hb. destruct (H idx Hb) as [Hm E]. rewrite <- weight_p, E, weight_p. now apply Hpos.
Qed.

Lemma moved_insat d first i r : (d <= length r)%nat -> moved d first (insat d i r) = insat d (i + first) r.
Proof. intros H. unfold moved. rewrite insat_nth, insat_upd by auto. reflexivity. Qed.

Theorem subdivide_ok s d kv p u : well_formed s -> direction s d kv p ->
  insertable kv p u 0 -> zlen kv < 2 ^ 31 -> total (upd (npts_of s) d (nth d (npts_of s) 0 + p + 1)) < 2 ^ 64 ->
  exists s1 s2 s' kv1 kv2 kv', subdivide s u d = Ok (s1, s2, s') /\
    (well_formed s1 /\ knots_of s1 = upd (knots_of s) d kv1 /\ degs_of s1 = degs_of s /\
     first_knot kv1 = first_knot kv /\ final_knot kv1 = u /\ ph_dim (sp_ph s1) = ph_dim (sp_ph s) /\
     (is_bspline s1 <-> is_bspline s)) /\
    (well_formed s2 /\ knots_of s2 = upd (knots_of s) d kv2 /\ degs_of s2 = degs_of s /\
     first_knot kv2 = u /\ final_knot kv2 = final_knot kv /\ ph_dim (sp_ph s2) = ph_dim (sp_ph s) /\
     (is_bspline s2 <-> is_bspline s)) /\
    (well_formed s' /\ knots_of s' = upd (knots_of s) d kv' /\ degs_of s' = degs_of s /\
     Permutation kv' (repeat u (Z.to_nat (p + 1) - occurrences kv u) ++ kv) /\
     first_knot kv' = first_knot kv /\ final_knot kv' = final_knot kv /\ ph_dim (sp_ph s') = ph_dim (sp_ph s) /\
     (is_bspline s' <-> is_bspline s)) /\
    (regular s -> regular s1 /\ regular s2 /\ regular s' /\
     (forall us dims, in_domain s1 us -> Z.of_nat (occurrences kv u) <= p \/ (nth d us 0 < u)%R ->
       valid_dims s dims -> evaluate s1 us dims = evaluate s us dims) /\
     (forall us dims, in_domain s2 us -> valid_dims s dims -> evaluate s2 us dims = evaluate s us dims) /\
     (forall us dims, length us = length (knots_of s) -> valid_dims s dims -> evaluate s' us dims = evaluate s us dims)).
Proof.
  intros Hwf Hdir Hins Hz Ht. pose proof Hdir as [Ek Ed]. pose proof Hins as (Hu & Hsep & Hocc).
  destruct (insertable_inner dz s d kv p u 0 Hwf Hdir Hins) as (n & Hin).
  destruct (wf_direction dz s d kv p Hwf Ek Ed) as (Hg & Hd & Hnd). pose proof Hg as (Hp & _).
  set (r := (Z.to_nat (p + 1) - occurrences kv u)%nat).
  assert (Er : Z.of_nat (r + occurrences kv u) = p + 1) by (unfold r; lia).
  destruct (insert_full dz s d kv p u (Z.of_nat r) Hwf Hdir) as (s' & kv' & E & W & K & Hndk & Hpm & F1 & F2 & G & Np & Dm & Wt & P).
  { split; [auto|]. split; [auto|]. lia. } { lia. } { auto. }
  rewrite Nat2Z.id in Hpm.
  destruct (insert_ok dz s d kv p u n r Hwf Ek Ed Hin ltac:(lia) Hz) as (s'' & E'' & _ & K'' & _ & _ & _ & P'').
  assert (s'' = s') by congruence. subst s''.
  set (N := (n + r)%nat). set (kvN := insm kv n u r) in *.
  assert (Ekv : kv' = kvN).
  { pose proof (nth_error_upd_same (knots_of s) d kv' kv Ek) as A. pose proof (nth_error_upd_same (knots_of s) d kvN kv Ek) as B'.
    rewrite <- K in A. rewrite <- K'' in B'. congruence. }
  subst kv'.
  assert (HinN : inner kvN p u N) by (now apply inner_insm).
  assert (HfN : Z.of_nat (occurrences kvN u) = p + 1).
  { rewrite (occ_perm _ _ u Hpm). unfold occurrences in *. rewrite count_occ_app.
    assert (Erep : count_occ Req_EM_T (repeat u r) u = r).
    { clear. induction r as [|m IH]; cbn; auto. destruct (Req_EM_T u u); congruence. }
    rewrite Erep. lia. }
  destruct (part_sizes kvN p u N HinN HfN) as (_ & Z1 & Z2).
  pose proof (left_length kvN p u N HinN HfN) as LL. pose proof (right_length kvN p u N HinN HfN) as RL.
  pose proof (left_good kvN p u N HinN HfN) as LG. pose proof (right_good kvN p u N HinN HfN) as RG.
  destruct (left_ends kvN p u N HinN HfN) as [LE1 LE2]. destruct (right_ends kvN p u N HinN HfN) as [RE1 RE2].
  set (kv1 := left_part kvN N) in *. set (kv2 := right_part kvN p N) in *.
  assert (Ek' : nth_error (knots_of s') d = Some kvN) by (rewrite K; now apply (nth_error_upd_same _ _ _ kv)).
  assert (Ed' : nth_error (degs_of s') d = Some p) by (now rewrite G).
  assert (Ht' : total (npts_of s') < 2 ^ 64).
  { rewrite Np. eapply Z.le_lt_trans; [|exact Ht].
    rewrite !total_upd by auto.
    assert (0 <= total (remove_at d (npts_of s))).
    { assert (pos_lens (remove_at d (npts_of s))).
      { pose proof (wf_phys dz s Hwf) as (Hpl & _). fold (npts_of s) in Hpl. unfold pos_lens in *. clear - Hpl. revert d; induction Hpl; intros [|d]; cbn; auto; constructor; auto. }
      pose proof (total_pos _ H). lia. }
    nia. }
  destruct (piece_ok dz s' d kvN p kv1 0 W Ek' Ed' LG ltac:(lia) ltac:(lia) Ht') as (s1 & E1 & W1 & K1 & G1 & D1 & T1 & N1 & V1).
  destruct (piece_ok dz s' d kvN p kv2 (zlen kv1 - p - 1) W Ek' Ed' RG ltac:(lia) ltac:(lia) Ht') as (s2 & E2 & W2 & K2 & G2 & D2 & T2 & N2 & V2).
  assert (Hlen1 : length (knots_of s1) = length (knots_of s)) by (rewrite K1, upd_length, K; apply upd_length).
  assert (Hlen2 : length (knots_of s2) = length (knots_of s)) by (rewrite K2, upd_length, K; apply upd_length).
  assert (Hdd : forall rest i, in_box (npts_of s') (insat d i rest) -> (d <= length rest)%nat -> 0 <= i < zlen kvN - p - 1).
  { intros rest i Hb Hl. destruct (wf_direction dz s' d kvN p W Ek' Ed') as (_ & Hd' & Hn'). pose proof (in_box_nth _ _ d Hb Hd') as Hj.
    rewrite insat_nth in Hj by auto. lia. }
  exists s1, s2, s', kv1, kv2, kvN. split.
  { unfold subdivide, sp_deg, sp_knots, dget. fold (degs_of s) (knots_of s). rewrite Ed. cbn [bind]. rnorm. rewrite Ek. cbn [bind].
    rewrite multiplicity_occ.
    assert (Eu : u64 (p + 1 - Z.of_nat (occurrences kv u)) = Z.of_nat r).
    { unfold u64. rewrite Z.mod_small; [lia|]. assert (p < zlen kv) by (destruct Hg as (_ & (Hc & _) & _); unfold zlen; lia). lia. }
    rewrite Eu, E. cbn [bind]. rewrite (divided_knots_ok s' d kvN p u N W Ek' Ed' HinN HfN). cbn [bind fst snd].
    fold kv1 kv2. rewrite E1. cbn [bind fst snd]. rewrite E2. reflexivity. }
  split; [|split; [|split]].
  - split; [auto|]. split; [rewrite K1, K; apply upd_upd|]. split; [congruence|]. split; [congruence|]. split; [auto|].
    split; [congruence|]. rewrite <- !weighted_bspline. now rewrite T1, Wt.
  - split; [auto|]. split; [rewrite K2, K; apply upd_upd|]. split; [congruence|]. split; [congruence|]. split; [congruence|].
    split; [congruence|]. rewrite <- !weighted_bspline. now rewrite T2, Wt.
  - repeat (split; [now auto|]). rewrite <- !weighted_bspline. now rewrite Wt.
  - intros Hreg. destruct (P Hreg) as [Hreg' Hev'].
    pose proof (regular_positive dz s Hwf Hreg) as Hpos. destruct (P'' Hpos) as [Hpos' Hsum].
    assert (R1 : regular s1).
    { apply (piece_regular s' s1 d 0); auto. intros idx Hb. destruct (V1 idx Hb) as (A & B' & _). auto. }
    assert (R2 : regular s2).
    { apply (piece_regular s' s2 d (zlen kv1 - p - 1)); auto. intros idx Hb. destruct (V2 idx Hb) as (A & B' & _). auto. }
    split; [auto|]. split; [auto|]. split; [auto|]. split; [|split; [|exact Hev']].
  { intros us dims Hus Hside Hv.
    assert (Ek1 : knots_of s1 = upd (knots_of s') d kv1) by auto.
    destruct (in_domain_part s' s1 d kvN kv1 us Ek' Ek1) as [Hus' (v & Ev & Hvr)]; [lra | rewrite LE2, F2; lra | auto |].
    assert (Hl : length us = length (knots_of s)).
    { unfold in_domain in Hus. apply Forall2_len in Hus. congruence. }
    rewrite <- Hev' by auto. apply same_evaluation; auto.
    + tauto.
    + rewrite K1. apply upd_length.
    + rewrite K, upd_length. auto.
    + unfold valid_dims in *. now rewrite Dm.
    + intros _.
      assert (Hline : forall g : list Z -> R,
         (Z.of_nat (occurrences kv u) <= p -> forall rest, (d <= length rest)%nat -> in_box (npts_of s') (insat d (Z.of_nat N - p - 2) rest) ->
            in_box (npts_of s') (insat d (Z.of_nat N - p - 2 + 1) rest) ->
            g (insat d (Z.of_nat N - p - 2) rest) = g (insat d (Z.of_nat N - p - 2 + 1) rest)) ->
         forall k k' r0 v0, nth_error us d = Some v0 -> in_span kvN k v0 -> in_span kv1 k' v0 -> (d <= length r0)%nat ->
         (forall i, 0 <= i < zlen kvN - p - 1 -> in_box (npts_of s') (insat d i r0)) ->
         lsum (fun i => g (insat d i r0) * B (tk kvN) k (Z.to_nat p) i v0)%R (zseq 0 (Z.to_nat (zlen kvN - p - 1))) =
         lsum (fun i => g (insat d i r0) * B (tk kv1) k' (Z.to_nat p) i v0)%R (zseq 0 (Z.to_nat (zlen kv1 - p - 1)))).
      { intros g Hgd k k' r0 v0 Ev0 Sk Sk' Hr0 Hb0. assert (v0 = v) by congruence. subst v0.
        apply (sum_left kvN p u N HinN HfN (fun i => g (insat d i r0))); auto.
        - rewrite LE1, LE2 in Hvr. auto.
        - destruct Hside as [Hside|Hside]; [right | left; now rewrite (nth_error_nth _ _ _ Ev) in Hside].
          replace (Z.of_nat N - p - 1) with (Z.of_nat N - p - 2 + 1) by lia. apply Hgd; auto; apply Hb0; unfold zlen in *; lia. }
      assert (Hdup : Z.of_nat (occurrences kv u) <= p -> forall rest, (d <= length rest)%nat -> in_box (npts_of s') (insat d (Z.of_nat N - p - 2) rest) ->
            in_box (npts_of s') (insat d (Z.of_nat N - p - 2 + 1) rest) ->
            weight s' (insat d (Z.of_nat N - p - 2 + 1) rest) = weight s' (insat d (Z.of_nat N - p - 2) rest) /\
            forall c, 0 <= c < ph_dim (sp_ph s) ->
            (weight s' (insat d (Z.of_nat N - p - 2 + 1) rest) * coordinate s' (insat d (Z.of_nat N - p - 2 + 1) rest) c =
             weight s' (insat d (Z.of_nat N - p - 2) rest) * coordinate s' (insat d (Z.of_nat N - p - 2) rest) c)%R).
      { intros Hp1 rest A B' C. destruct r as [|r'] eqn:Er0; [lia|].
        apply (insert_dup dz s d kv p u n r' s'); auto. }
      split.
      * unfold weight_function.
        apply (dir_sums dz s' s1 d kvN kv1 p (weight s') (weight s1) us); auto.
        intros k k' r0 v0 Ev0 Sk Sk' Hr0 Hb0 Hb1. rewrite (Hline (weight s')) with (k' := k'); auto.
        2:{ intros Hp1 rest A B' C. symmetry. now apply Hdup. }
        apply lsum_ext. intros i Hi. apply zseq_In in Hi. f_equal.
        destruct (V1 (insat d i r0)) as (_ & A & _); [apply Hb1; lia|]. rewrite A, moved_insat by auto. now rewrite Z.add_0_r.
      * intros c Hc. unfold weighted_sum.
        apply (dir_sums dz s' s1 d kvN kv1 p (fun idx => weight s' idx * coordinate s' idx c)%R (fun idx => weight s1 idx * coordinate s1 idx c)%R us); auto.
        intros k k' r0 v0 Ev0 Sk Sk' Hr0 Hb0 Hb1. rewrite (Hline (fun idx => weight s' idx * coordinate s' idx c)%R) with (k' := k'); auto.
        2:{ intros Hp1 rest A B' C. symmetry. apply Hdup; auto. congruence. }
        apply lsum_ext. intros i Hi. apply zseq_In in Hi. f_equal.
        destruct (V1 (insat d i r0)) as (_ & A & B'); [apply Hb1; lia|]. rewrite A, B', moved_insat by auto. now rewrite Z.add_0_r. }
  { intros us dims Hus Hv.
    assert (Ek2 : knots_of s2 = upd (knots_of s') d kv2) by auto.
    destruct (in_domain_part s' s2 d kvN kv2 us Ek' Ek2) as [Hus' (v & Ev & Hvr)]; [rewrite RE1, F1; lra | lra | auto |].
    assert (Hl : length us = length (knots_of s)).
    { unfold in_domain in Hus. apply Forall2_len in Hus. congruence. }
    rewrite <- Hev' by auto. apply same_evaluation; auto.
    + tauto.
    + rewrite K2. apply upd_length.
    + rewrite K, upd_length. auto.
    + unfold valid_dims in *. now rewrite Dm.
    + intros _.
      assert (Hline : forall g : list Z -> R,
         forall k k' r0 v0, nth_error us d = Some v0 -> in_span kvN k v0 -> in_span kv2 k' v0 -> (d <= length r0)%nat ->
         lsum (fun i => g (insat d i r0) * B (tk kvN) k (Z.to_nat p) i v0)%R (zseq 0 (Z.to_nat (zlen kvN - p - 1))) =
         lsum (fun i => g (insat d (i + (zlen kv1 - p - 1)) r0) * B (tk kv2) k' (Z.to_nat p) i v0)%R (zseq 0 (Z.to_nat (zlen kv2 - p - 1)))).
      { intros g k k' r0 v0 Ev0 Sk Sk' Hr0. assert (v0 = v) by congruence. subst v0.
        rewrite (sum_right kvN p u N HinN HfN (fun i => g (insat d i r0)) k k'); auto.
        - fold kv2. apply lsum_ext. intros i _. do 3 f_equal. lia.
        - rewrite RE1, RE2 in Hvr. auto. }
      split.
      * unfold weight_function.
        apply (dir_sums dz s' s2 d kvN kv2 p (weight s') (weight s2) us); auto.
        intros k k' r0 v0 Ev0 Sk Sk' Hr0 Hb0 Hb1. rewrite (Hline (weight s')) with (k' := k'); auto.
        apply lsum_ext. intros i Hi. apply zseq_In in Hi. f_equal.
        destruct (V2 (insat d i r0)) as (_ & A & _); [apply Hb1; lia|]. now rewrite A, moved_insat by auto.
      * intros c Hc. unfold weighted_sum.
        apply (dir_sums dz s' s2 d kvN kv2 p (fun idx => weight s' idx * coordinate s' idx c)%R (fun idx => weight s2 idx * coordinate s2 idx c)%R us); auto.
        intros k k' r0 v0 Ev0 Sk Sk' Hr0 Hb0 Hb1. rewrite (Hline (fun idx => weight s' idx * coordinate s' idx c)%R) with (k' := k'); auto.
        apply lsum_ext. intros i Hi. apply zseq_In in Hi. f_equal.
        destruct (V2 (insat d i r0)) as (_ & A & B'); [apply Hb1; lia|]. now rewrite A, B', moved_insat by auto. }
Qed.
End Thms.

Lemma ex_subdivide : exists b n : spline (Rops (fun x => x)),
  well_formed b /\ is_bspline b /\ well_formed n /\ positive_weights n /\
  direction b 0 [0; 0; 0; 1; 2; 2; 2]%R 2 /\ direction n 0 [0; 0; 0; 1; 2; 2; 2]%R 2 /\
  insertable [0; 0; 0; 1; 2; 2; 2]%R 2 1 0 /\ insertable [0; 0; 0; 1; 2; 2; 2]%R 2 (1/2) 0 /\
  total (upd (npts_of b) 0 (nth 0 (npts_of b) 0 + 2 + 1)) < 2 ^ 64 /\
  total (upd (npts_of n) 0 (nth 0 (npts_of n) 0 + 2 + 1)) < 2 ^ 64.
Proof.
  destruct (ex_spline None) as (b & B1 & B2 & B3 & B4 & B5 & B6 & B7 & B8 & B9 & B10 & _); auto.
  destruct (ex_spline (Some ex_weights)) as (n & N1 & N2 & N3 & N4 & N5 & N6 & N7 & N8 & N9 & N10 & _); auto.
  exists b, n. do 3 (split; [assumption|]). split; [exists ex_weights; split; auto; repeat constructor; lra|].
  unfold direction. rewrite B6, B7, N6, N7, B10, N10. split; [split; reflexivity|]. split; [split; reflexivity|].
  split.
  { destruct ex_insertable as (A & B & C). split; [auto|]. split; [auto|]. lia. }
  split; [|split; reflexivity].
  split; [cbn; lra|]. split; [sepsolve|]. unfold occurrences. cbn [count_occ].
  repeat match goal with |- context [Req_EM_T ?a ?b] => destruct (Req_EM_T a b); try lra end; cbn; lia.
Qed.

(* a jump: p+1 copies of the knot at which the spline is split *)
Lemma split_jump_run :
  match spline_new (F := Fops) [[0; 0; 1; 1; 2; 2]%float] [1] [[0]; [1]; [5]; [6]]%float None with
  | Ok s => match subdivide s 1%float 0 with
            | Ok (s1, _, _) => match evaluate s1 [1%float] [0], evaluate s [1%float] [0] with
                               | Ok [a], Ok [b] => PrimFloat.eqb a 1 && PrimFloat.eqb b 5
                               | _, _ => false
                               end
            | _ => false
            end
  | _ => false
  end = true.
Proof. vm_compute. reflexivity. Qed.

Lemma split_jump : exists (s s1 s2 s' : spline Fops) (a b : float),
  spline_new (F := Fops) [[0; 0; 1; 1; 2; 2]%float] [1] [[0]; [1]; [5]; [6]]%float None = Ok s /\
  subdivide s 1%float 0 = Ok (s1, s2, s') /\
  evaluate s1 [1%float] [0] = Ok [a] /\ evaluate s [1%float] [0] = Ok [b] /\ PrimFloat.eqb a 1 = true /\ PrimFloat.eqb b 5 = true.
Proof.
  pose proof split_jump_run as H.
  destruct (spline_new (F := Fops) [[0; 0; 1; 1; 2; 2]%float] [1] [[0]; [1]; [5]; [6]]%float None) as [s| |] eqn:E1; try discriminate H.
  destruct (subdivide s 1%float 0) as [[[s1 s2] s']| |] eqn:E2; try discriminate H.
  destruct (evaluate s1 [1%float] [0]) as [[|a [|]]| |] eqn:E3; try discriminate H.
  destruct (evaluate s [1%float] [0]) as [[|b [|]]| |] eqn:E4; try discriminate H.
  apply andb_prop in H. destruct H. exists s, s1, s2, s', a, b. auto 10.
Qed.
