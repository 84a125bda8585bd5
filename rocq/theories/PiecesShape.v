(* The pieces of a subdivision inherit range, growth and steepness of the control points. *)
From Coq Require Import ZArith List Bool Lia Reals Lra Permutation.
From Verif Require Import Base BaseFacts RSum MultiIndex MultiIndexSpec MultiIndexFacts TensorSum
  KnotVec KnotVecSpec KnotVecFacts BSplineTheory Boehm BasisSpec Basis BasisFacts VecUtils Spaces SpacesSpec SpacesFacts
  SplineEval SplineEdit SplineSpec EvalFacts EvalThms PhysFacts AdjustFacts InsertKnots InsertFacts InsertThms InsertRepeat EditSpec
  SubdivideFacts SubdividePieces SubdivideThms GrevilleSpec GrevilleFacts MonotoneSpec Monotone SteepSpec Steep SmoothSpec Smooth.
Import ListNotations.
Open Scope Z_scope.

Section Pieces.
Variable dz : R -> R.
Implicit Types s : spline (Rops dz).

(* t holds the control points of s from number first on in direction d, with their knots *)
Definition part_of (s t : spline (Rops dz)) (d : nat) (kv kv' : list R) (p first : Z) : Prop :=
  0 <= first /\ knots_of t = upd (knots_of s) d kv' /\ degs_of t = degs_of s /\ nth d (npts_of t) 0 = zlen kv' - p - 1 /\ (d < length (npts_of t))%nat /\
  (forall i, (i < length kv')%nat -> knot kv' i = knot kv (i + Z.to_nat first)) /\
  forall idx, in_box (npts_of t) idx -> in_box (npts_of s) (moved d first idx) /\
    forall c, 0 <= c < ph_dim (sp_ph s) -> coordinate t idx c = coordinate s (moved d first idx) c.

Lemma subdivide_parts s d kv p u : well_formed s -> direction s d kv p ->
  insertable kv p u 0 -> zlen kv < 2 ^ 31 -> total (upd (npts_of s) d (nth d (npts_of s) 0 + p + 1)) < 2 ^ 64 ->
  exists s1 s2 s' r kvN kv1 kv2 f2, subdivide s u d = Ok (s1, s2, s') /\ insert_knot s u d r = Ok s' /\ 0 <= r <= p + 1 /\ insertable kv p u r /\
    direction s' d kvN p /\ degs_of s' = degs_of s /\ ph_dim (sp_ph s') = ph_dim (sp_ph s) /\ part_of s' s1 d kvN kv1 p 0 /\ part_of s' s2 d kvN kv2 p f2.
Proof.
  intros Hwf Hdir Hins Hz Ht. pose proof Hdir as [Ek Ed]. pose proof Hins as (Hu & Hsep & Hocc).
  destruct (insertable_inner dz s d kv p u 0 Hwf Hdir Hins) as (n & Hin).
  destruct (wf_direction dz s d kv p Hwf Ek Ed) as (Hg & Hd & Hnd). pose proof Hg as (Hp & _).
  set (r := (Z.to_nat (p + 1) - occurrences kv u)%nat).
  assert (Er : Z.of_nat (r + occurrences kv u) = p + 1) by (unfold r; lia).
  assert (Hinsr : insertable kv p u (Z.of_nat r)) by (split; [auto|]; split; [auto | lia]).
  destruct (insert_full dz s d kv p u (Z.of_nat r) Hwf Hdir Hinsr) as (s' & kv' & E & W & K & Hndk & Hpm & F1 & F2 & G & Np & Dm & Wt & P); [lia | auto |].
  rewrite Nat2Z.id in Hpm.
  destruct (insert_ok dz s d kv p u n r Hwf Ek Ed Hin ltac:(lia) Hz) as (s'' & E'' & _ & K'' & _ & _ & _ & P'').
  assert (s'' = s') by congruence. subst s''.
  set (N := (n + r)%nat). set (kvN := insm kv n u r) in *.
  assert (Ekv : kv' = kvN).
  { pose proof (nth_error_upd_same (knots_of s) d kv' kv Ek) as A. pose proof (nth_error_upd_same (knots_of s) d kvN kv Ek) as B'.
    rewrite <- K in A. rewrite <- K'' in B'. congruence. }
  subst kv'.
  assert (HinN : inner kvN p u N) by (now apply inner_insm).
  assert (HfN : Z.of_nat (occurrences kvN u) = p + 1).
  { rewrite (occ_perm _ _ u Hpm). unfold occurrences in *. rewrite count_occ_app, count_occ_repeat_eq by reflexivity. lia. }
  destruct (part_sizes kvN p u N HinN HfN) as (_ & Z1 & Z2).
  pose proof (left_length kvN p u N HinN HfN) as LL. pose proof (right_length kvN p u N HinN HfN) as RL.
  pose proof (left_good kvN p u N HinN HfN) as LG. pose proof (right_good kvN p u N HinN HfN) as RG.
  pose proof (knot_left kvN p u N HinN HfN) as KL. pose proof (knot_right kvN p N) as KR.
  set (kv1 := left_part kvN N) in *. set (kv2 := right_part kvN p N) in *.
  assert (Ek' : nth_error (knots_of s') d = Some kvN) by (rewrite K; now apply (nth_error_upd_same _ _ _ kv)).
  assert (Ed' : nth_error (degs_of s') d = Some p) by (now rewrite G).
  assert (Ht' : total (npts_of s') < 2 ^ 64).
  { rewrite Np. eapply Z.le_lt_trans; [|exact Ht].
    rewrite !total_upd by auto.
    assert (0 <= total (remove_at d (npts_of s))).
    { assert (Hpl' : pos_lens (remove_at d (npts_of s))).
      { pose proof (wf_phys dz s Hwf) as (Hpl & _). fold (npts_of s) in Hpl. unfold pos_lens in *. clear - Hpl. revert d; induction Hpl; intros [|d]; cbn; auto; constructor; auto. }
      pose proof (total_pos _ Hpl'). lia. }
    nia. }
  destruct (piece_ok dz s' d kvN p kv1 0 W Ek' Ed' LG ltac:(lia) ltac:(lia) Ht') as (s1 & E1 & W1 & K1 & G1 & D1 & T1 & N1 & V1).
  destruct (piece_ok dz s' d kvN p kv2 (zlen kv1 - p - 1) W Ek' Ed' RG ltac:(lia) ltac:(lia) Ht') as (s2 & E2 & W2 & K2 & G2 & D2 & T2 & N2 & V2).
  assert (Hd' : (d < length (npts_of s'))%nat) by (rewrite Np, upd_length; exact Hd).
  exists s1, s2, s', (Z.of_nat r), kvN, kv1, kv2, (zlen kv1 - p - 1). split.
  { unfold subdivide, sp_deg, sp_knots, dget. fold (degs_of s) (knots_of s). rewrite Ed. cbn [bind]. rnorm. rewrite Ek. cbn [bind].
    rewrite multiplicity_occ.
    assert (Eu : u64 (p + 1 - Z.of_nat (occurrences kv u)) = Z.of_nat r).
    { unfold u64. rewrite Z.mod_small; [lia|]. assert (p < zlen kv) by (destruct Hg as (_ & (Hc & _) & _); unfold zlen; lia). lia. }
    rewrite Eu, E. cbn [bind]. rewrite (divided_knots_ok dz s' d kvN p u N W Ek' Ed' HinN HfN). cbn [bind fst snd].
    fold kv1 kv2. rewrite E1. cbn [bind fst snd]. rewrite E2. reflexivity. }
  split; [exact E|]. split; [lia|]. split; [exact Hinsr|]. split; [split; assumption|]. split; [exact G|]. split; [exact Dm|]. split.
  - split; [lia|]. split; [exact K1|]. split; [congruence|]. split; [rewrite N1; now apply nth_upd_same|]. split; [rewrite N1, upd_length; exact Hd'|].
    split; [intros i Hi; rewrite KL by (unfold zlen in *; lia); f_equal; lia|].
    intros idx Hb. destruct (V1 idx Hb) as (A & _ & B'). auto.
  - split; [lia|]. split; [exact K2|]. split; [congruence|]. split; [rewrite N2; now apply nth_upd_same|]. split; [rewrite N2, upd_length; exact Hd'|].
    split; [intros i Hi; rewrite KR; f_equal; unfold zlen in *; lia|].
    intros idx Hb. destruct (V2 idx Hb) as (A & _ & B'). auto.
Qed.

Lemma moved_next d first e idx : (d < length idx)%nat -> moved d first (next_in e idx) = next_in e (moved d first idx).
Proof.
  intros H. unfold moved, next_in. destruct (Nat.eq_dec d e) as [<-|Hne].
  - rewrite !nth_upd_same by auto. rewrite !upd_upd. f_equal. lia.
  - rewrite !nth_upd_ne by congruence. apply upd_comm. congruence.
Qed.

Lemma part_between s t d kv kv' p first c lo hi : part_of s t d kv kv' p first -> 0 <= c < ph_dim (sp_ph s) -> points_between s c lo hi -> points_between t c lo hi.
Proof. intros (_ & _ & _ & _ & _ & _ & V) Hc H idx Hb. destruct (V idx Hb) as [A B]. rewrite B by auto. now apply H. Qed.

Lemma part_falls s t d kv kv' p first c e : part_of s t d kv kv' p first -> 0 <= c < ph_dim (sp_ph s) -> never_falls s e c -> never_falls t e c.
Proof.
  intros (_ & _ & _ & _ & Hd & _ & V) Hc H idx H1 H2. destruct (V idx H1) as [A1 B1]. destruct (V _ H2) as [A2 B2]. rewrite B1, B2 by auto.
  rewrite moved_next in * by (pose proof (f2_len H1); lia). now apply H.
Qed.

Lemma part_polygon s t d kv kv' p first c e K : part_of s t d kv kv' p first -> direction s d kv p -> 0 <= p -> 0 <= c < ph_dim (sp_ph s) -> polygon_within s e c K -> polygon_within t e c K.
Proof.
  intros (Hf & Ek & Eg & En & Hd & Hk & V) [D1 D2] Hp Hc H kv2 q idx Q1 Q2 H1 H2. destruct (V idx H1) as [A1 B1]. destruct (V _ H2) as [A2 B2]. rewrite B1, B2 by auto.
  assert (Hl : (d < length idx)%nat) by (pose proof (f2_len H1); lia).
  rewrite moved_next in * by exact Hl.
  destruct (Nat.eq_dec d e) as [<-|Hne].
  - assert (kv2 = kv') by (rewrite Ek, (nth_error_upd_same _ _ _ kv D1) in Q1; congruence). assert (q = p) by congruence. subst kv2 q.
    pose proof (H kv p (moved d first idx) D1 D2 A1 A2) as X. unfold moved at 3 4 in X. rewrite nth_upd_same in X by exact Hl.
    pose proof (in_box_nth _ _ d H1 Hd) as R1. pose proof (in_box_nth _ _ d H2 Hd) as R2. unfold next_in in R2. rewrite nth_upd_same in R2 by exact Hl. rewrite En in R1, R2.
    assert (Gr : forall i, 0 <= i < zlen kv' - p - 1 -> greville kv' p i = greville kv p (i + first)%Z).
    { intros i Hi. unfold greville. f_equal. apply lsum_ext. intros j Hj. apply zseq_In in Hj. rewrite Hk by (unfold zlen in *; lia). f_equal. lia. }
    rewrite !Gr by lia. replace (nth d idx 0 + 1 + first) with (nth d idx 0 + first + 1) by lia. exact X.
  - assert (C1 : nth_error (knots_of s) e = Some kv2) by (rewrite Ek, nth_error_upd_other in Q1; auto).
    assert (C2 : nth_error (degs_of s) e = Some q) by congruence.
    pose proof (H kv2 q (moved d first idx) C1 C2 A1 A2) as X. unfold moved at 3 4 in X. rewrite nth_upd_ne in X by congruence. exact X.
Qed.

Lemma small kv p r : good_direction kv p -> zlen kv < 2 ^ 30 -> r <= p + 1 -> zlen kv + r <= 2 ^ 31.
Proof. intros (_ & (Hc & _) & _) H1 H2. unfold zlen in *. change (2 ^ 31) with (2 ^ 30 + 2 ^ 30). lia. Qed.

Theorem pieces_between s d kv p u c lo hi : well_formed s -> regular s -> direction s d kv p -> insertable kv p u 0 -> zlen kv < 2 ^ 30 ->
  total (upd (npts_of s) d (nth d (npts_of s) 0 + p + 1)) < 2 ^ 64 -> 0 <= c < ph_dim (sp_ph s) -> points_between s c lo hi ->
  exists s1 s2 s', subdivide s u d = Ok (s1, s2, s') /\ points_between s1 c lo hi /\ points_between s2 c lo hi /\ points_between s' c lo hi.
Proof.
  intros W Rg D Hi Hz Ht Hc H. destruct (wf_direction dz s d kv p W (proj1 D) (proj2 D)) as (Hg & _).
  destruct (subdivide_parts s d kv p u W D Hi ltac:(lia) Ht) as (s1 & s2 & s' & r & kvN & kv1 & kv2 & f2 & E & Ei & Hr & Hir & D' & G & Dm & P1 & P2).
  destruct (copies_refine dz s d kv p u r W Rg D Hir ltac:(lia) (small kv p r Hg Hz ltac:(lia))) as [A Er].
  destruct (refine_between dz s _ d kv p c lo hi W Rg D A ltac:(unfold zlen at 2; rewrite repeat_length, Z2Nat.id by lia; apply (small kv p r Hg Hz); lia) Hc H) as (s3 & E3 & H').
  rewrite <- Er, Ei in E3. injection E3 as <-. exists s1, s2, s'. split; [exact E|]. rewrite <- Dm in Hc.
  split; [now apply (part_between _ _ _ _ _ _ _ _ _ _ P1)|]. split; [now apply (part_between _ _ _ _ _ _ _ _ _ _ P2) | exact H'].
Qed.

Theorem pieces_fall s d kv p u c e : well_formed s -> is_bspline s -> direction s d kv p -> insertable kv p u 0 -> zlen kv < 2 ^ 30 ->
  total (upd (npts_of s) d (nth d (npts_of s) 0 + p + 1)) < 2 ^ 64 -> 0 <= c < ph_dim (sp_ph s) -> never_falls s e c ->
  exists s1 s2 s', subdivide s u d = Ok (s1, s2, s') /\ never_falls s1 e c /\ never_falls s2 e c /\ never_falls s' e c.
Proof.
  intros W B D Hi Hz Ht Hc H. destruct (wf_direction dz s d kv p W (proj1 D) (proj2 D)) as (Hg & _).
  destruct (subdivide_parts s d kv p u W D Hi ltac:(lia) Ht) as (s1 & s2 & s' & r & kvN & kv1 & kv2 & f2 & E & Ei & Hr & Hir & D' & G & Dm & P1 & P2).
  destruct (copies_refine dz s d kv p u r W (or_introl B) D Hir ltac:(lia) (small kv p r Hg Hz ltac:(lia))) as [A Er].
  destruct (refine_falls dz s _ d kv p c e W B D A ltac:(unfold zlen at 2; rewrite repeat_length, Z2Nat.id by lia; apply (small kv p r Hg Hz); lia) Hc H) as (s3 & E3 & H').
  rewrite <- Er, Ei in E3. injection E3 as <-. exists s1, s2, s'. split; [exact E|]. rewrite <- Dm in Hc.
  split; [now apply (part_falls _ _ _ _ _ _ _ _ _ P1)|]. split; [now apply (part_falls _ _ _ _ _ _ _ _ _ P2) | exact H'].
Qed.

Theorem pieces_polygon s d kv p u c e K : well_formed s -> is_bspline s -> Forall (fun p => 1 <= p) (degs_of s) -> direction s d kv p -> insertable kv p u 0 -> zlen kv < 2 ^ 30 ->
  total (upd (npts_of s) d (nth d (npts_of s) 0 + p + 1)) < 2 ^ 64 -> 0 <= c < ph_dim (sp_ph s) -> polygon_within s e c K ->
  exists s1 s2 s', subdivide s u d = Ok (s1, s2, s') /\ polygon_within s1 e c K /\ polygon_within s2 e c K /\ polygon_within s' e c K.
Proof.
  intros W B HD D Hi Hz Ht Hc H. destruct (wf_direction dz s d kv p W (proj1 D) (proj2 D)) as (Hg & _).
  destruct (subdivide_parts s d kv p u W D Hi ltac:(lia) Ht) as (s1 & s2 & s' & r & kvN & kv1 & kv2 & f2 & E & Ei & Hr & Hir & D' & G & Dm & P1 & P2).
  destruct (copies_refine dz s d kv p u r W (or_introl B) D Hir ltac:(lia) (small kv p r Hg Hz ltac:(lia))) as [A Er].
  destruct (refine_polygon dz s _ d kv p c e K W B HD D A ltac:(unfold zlen at 2; rewrite repeat_length, Z2Nat.id by lia; apply (small kv p r Hg Hz); lia) Hc H) as (s3 & E3 & H').
  rewrite <- Er, Ei in E3. injection E3 as <-. exists s1, s2, s'. split; [exact E|]. rewrite <- Dm in Hc. destruct Hg as (Hp & _).
  split; [now apply (part_polygon _ _ _ _ _ _ _ _ _ _ P1)|]. split; [now apply (part_polygon _ _ _ _ _ _ _ _ _ _ P2) | exact H'].
Qed.
End Pieces.
