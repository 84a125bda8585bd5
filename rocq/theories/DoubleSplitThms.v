(* Subdivision of splines of doubles. *)
From Coq Require Import ZArith List Bool Lia Reals Floats Lra Permutation.
From Verif Require Import Base BaseFacts RSum MultiIndex MultiIndexSpec MultiIndexFacts TensorSum
  KnotVec KnotVecSpec KnotVecFacts Boehm Basis BasisSpec BSplineTheory BasisFacts VecUtils
  Spaces SpacesSpec SpacesFacts SplineEval SplineEdit SplineSpec EvalFacts RationalDeriv EvalDeriv EvalThms SplineNew
  PhysFacts AdjustFacts InsertKnots InsertFacts InsertThms EditSpec AdjustAny SubdivideFacts SubdividePieces SubdivideThms
  DoubleSpec DoubleRationalSpec DoubleFacts DoubleError DoubleKnots DoubleBasis DoubleSum DoubleEval DoubleThms DoubleRationalEval DoubleRationalThms
  DoubleMix DoubleMixRational DoubleInsert DoubleInsertThms DoubleInsertRational DoubleInsertRationalThms DoubleNurbsInsert
  DoubleSplitSpec DoubleSplit DoubleSplitSums.
Import ListNotations.
Open Scope Z_scope.

(* ---- the insertion, with the repeated layer ---- *)
Definition repeats (ph : phys Fops) (d : nat) (i : Z) : Prop := forall idx, in_box (ph_npts ph) idx ->
  (forall c, 0 <= c < ph_dim ph -> g_pcoord ph (upd idx d (i + 1)) c = g_pcoord ph (upd idx d i) c) /\
  g_pweight ph (upd idx d (i + 1)) = g_pweight ph (upd idx d i).

Section Insert.
Variables (knots : list (list float)) (degs : list Z) (d : nat) (kv : list float) (p : Z) (u : float) (n : nat) (ph : phys Fops) (r : nat).
Hypothesis Hg : Forall2 double_direction knots degs.
Hypothesis Ek : nth_error knots d = Some kv.
Hypothesis Ed : nth_error degs d = Some p.
Hypothesis Mu : moderate u.
Hypothesis Hin : inner (map dval kv) p (dval u) n.
Hypothesis Hz : zlen kv < 2 ^ 31.
Hypothesis Hph : g_phys_ok ph.
Hypothesis En : ph_npts ph = point_counts knots degs.
Hypothesis Hr : Z.of_nat (r + occurrences (map dval kv) (dval u)) = p + 1.

Lemma run_insert ph' : 
  foldM (fun st i => insert_pass (F := Fops) kv p u d i st) (zseq 1 r) (Z.of_nat n - 1, ph) = Ok (Z.of_nat n - 1, ph') ->
  foldM (fun ps (_ : Z) => ps_insert (F := Fops) ps u d) (zseq 0 r) (fmkps knots degs) = Ok (fmkps (upd knots d (finsm kv n u r)) degs) ->
  insert_knot (mkSpline (F := Fops) (fmkps knots degs) ph) u d (Z.of_nat r) = Ok (mkSpline (F := Fops) (fmkps (upd knots d (finsm kv n u r)) degs) ph').
Proof.
  intros F1 F2. unfold insert_knot, sp_knots, sp_deg, dget. cbn [sp_ps sp_ph ps_knots ps_degs fmkps]. change (num Fops) with float. rewrite Ek. cbn [bind].
  destruct (ins_kv knots degs d kv p Hg Ek Ed) as [Mk _]. rewrite (f_span kv p u n Mk Mu Hin). cbn [bind]. rewrite Ed. cbn [bind].
  rewrite !for_up_foldM. replace (Z.of_nat r + 1 - 1) with (Z.of_nat r) by lia. replace (Z.of_nat r - 0) with (Z.of_nat r) by lia. rewrite Nat2Z.id.
  change (num Fops) with float in *. rewrite F1. cbn [bind]. change (mkPS (F := Fops) knots degs (map2 dbfs knots degs)) with (fmkps knots degs).
  rewrite F2. reflexivity.
Qed.

Lemma run_repeats r0 ph0 ph' : r = S r0 ->
  foldM (fun st i => insert_pass (F := Fops) kv p u d i st) (zseq 1 r0) (Z.of_nat n - 1, ph) = Ok (Z.of_nat n - 1, ph0) ->
  ph_npts ph0 = point_counts (upd knots d (finsm kv n u r0)) degs -> g_phys_ok ph0 -> ph_dim ph0 = ph_dim ph -> ph_dim ph' = ph_dim ph ->
  foldM (fun st i => insert_pass (F := Fops) kv p u d i st) (zseq 1 r) (Z.of_nat n - 1, ph) = Ok (Z.of_nat n - 1, ph') ->
  repeats ph' d (Z.of_nat (n + r) - p - 2).
Proof.
  intros -> F0 N0 P0 D0 D1 F1. destruct (ins_kv knots degs d kv p Hg Ek Ed) as [Mk _]. destruct (counts_nth knots degs d kv p Ek Ed) as [Cd Cn].
  pose proof (f_n kv p u n Hin) as Hn1.
  assert (LM : zlen (finsm kv n u r0) = zlen kv + Z.of_nat r0) by (unfold zlen; rewrite finsm_length by lia; lia).
  destruct (full_pass kv p u n r0 d ph0 Mk Mu Hin ltac:(lia) Hz P0) as (ph2 & E & Rp).
  { rewrite N0, (counts_upd knots degs d p Ed), upd_length. exact Cd. }
  { rewrite N0, (counts_upd knots degs d p Ed), nth_upd_same by exact Cd. rewrite LM. lia. }
  replace (zseq 1 (S r0)) with (zseq 1 r0 ++ [Z.of_nat r0 + 1]) in F1.
  2:{ replace (S r0) with (r0 + 1)%nat by lia. rewrite zseq_app. cbn [zseq]. do 2 f_equal. lia. }
  rewrite foldM_app, F0 in F1. cbn [bind foldM] in F1. rewrite E in F1. cbn [bind] in F1. injection F1 as ->.
  intros idx Hb. destruct (Rp idx Hb) as [A B]. split; [|exact B]. intros c Hc. apply A. lia.
Qed.
End Insert.

(* ---- SudivideSpline after the insertion ---- *)
Section Pieces.
Variables (knots : list (list float)) (degs : list Z) (d : nat) (kv : list float) (p : Z) (u : float) (n : nat) (ph ph' : phys Fops) (r : nat).
Hypothesis Hg : Forall2 double_direction knots degs.
Hypothesis Ek : nth_error knots d = Some kv.
Hypothesis Ed : nth_error degs d = Some p.
Hypothesis Mu : moderate u.
Hypothesis Hin : inner (map dval kv) p (dval u) n.
Hypothesis Hz : zlen kv < 2 ^ 31.
Hypothesis Hr : Z.of_nat (r + occurrences (map dval kv) (dval u)) = p + 1.
Let kvN := finsm kv n u r.
Let N := (n + r)%nat.
Hypothesis Hrun : insert_knot (mkSpline (F := Fops) (fmkps knots degs) ph) u d (Z.of_nat r) = Ok (mkSpline (F := Fops) (fmkps (upd knots d kvN) degs) ph').
Hypothesis Hph : g_phys_ok ph'.
Hypothesis En : ph_npts ph' = point_counts (upd knots d kvN) degs.
Hypothesis Ht : total (ph_npts ph') < 2 ^ 64.

Definition pleft := fleft kvN N.
Definition pright := fright kvN p N.
Definition nleft := piece_net ph' 0 (zlen pleft - p - 1) d.
Definition nright := piece_net ph' (Z.of_nat N - 1 - p) (zlen pright - p - 1) d.

Lemma N_dirs : Forall2 double_direction (upd knots d kvN) degs.
Proof. now apply (ins_dirs knots degs d kv p u n Hg Ek Ed Mu Hin). Qed.
Lemma N_kv : nth_error (upd knots d kvN) d = Some kvN.
Proof. now apply (nth_error_upd_same _ _ _ kv). Qed.
Lemma N_inner : inner (map dval kvN) p (dval u) N.
Proof. unfold kvN. rewrite map_finsm. now apply inner_insm. Qed.
Lemma N_full : Z.of_nat (occurrences (map dval kvN) (dval u)) = p + 1.
Proof.
  rewrite (occ_perm _ (repeat (dval u) r ++ map dval kv) (dval u)).
  - unfold occurrences in *. rewrite count_occ_app.
    assert (Erep : count_occ Req_EM_T (repeat (dval u) r) (dval u) = r).
    { clear. induction r as [|m IH]; cbn; auto. destruct (Req_EM_T (dval u) (dval u)); congruence. }
    rewrite Erep. lia.
  - replace (repeat (dval u) r) with (map dval (repeat u r)) by (clear; induction r; cbn; congruence).
    rewrite <- map_app. apply Permutation_map. apply finsm_perm.
Qed.
Lemma pleft_dir : double_direction pleft p.
Proof. exact (fleft_dir _ _ d _ p u _ N_dirs N_kv Ed N_inner N_full). Qed.
Lemma pright_dir : double_direction pright p.
Proof. exact (fright_dir _ _ d _ p u _ N_dirs N_kv Ed N_inner N_full). Qed.
Lemma pleft_zlen : zlen pleft = Z.of_nat N.
Proof. exact (fleft_zlen _ p u _ N_inner N_full). Qed.
Lemma pright_zlen : zlen pright = zlen kvN - (Z.of_nat N - 1 - p).
Proof. exact (fright_zlen _ p u _ N_inner N_full). Qed.
Lemma N_sizes : 0 <= p /\ 2 * p + 2 <= Z.of_nat N /\ Z.of_nat N + p + 1 <= zlen kvN.
Proof. exact (split_sizes _ p u _ N_inner N_full). Qed.
Lemma N_ends : first_knot (map dval kvN) = first_knot (map dval kv) /\ final_knot (map dval kvN) = final_knot (map dval kv).
Proof. unfold kvN. rewrite map_finsm. exact (first_insm _ _ _ _ r Hin). Qed.
Lemma pleft_ends : first_knot (map dval pleft) = first_knot (map dval kv) /\ final_knot (map dval pleft) = dval u.
Proof. destruct N_ends as [A B]. destruct (fleft_ends _ p u _ N_inner N_full) as [C D]. unfold pleft. split; congruence. Qed.
Lemma pright_ends : first_knot (map dval pright) = dval u /\ final_knot (map dval pright) = final_knot (map dval kv).
Proof. destruct N_ends as [A B]. destruct (fright_ends _ p u _ N_inner N_full) as [C D]. unfold pright. split; congruence. Qed.
Lemma p_join : Permutation (pleft ++ skipn (Z.to_nat (p + 1)) pright) (repeat u r ++ kv).
Proof. unfold pleft, pright. rewrite (parts_join _ p u _ N_inner N_full). apply finsm_perm. Qed.

Lemma left_room : 0 <= 0 /\ 0 + (zlen pleft - p - 1) <= zlen kvN - p - 1.
Proof. pose proof N_sizes. rewrite pleft_zlen. lia. Qed.
Lemma right_room : 0 <= Z.of_nat N - 1 - p /\ Z.of_nat N - 1 - p + (zlen pright - p - 1) <= zlen kvN - p - 1.
Proof. pose proof N_sizes. rewrite pright_zlen. lia. Qed.

Lemma subdivide_run : subdivide (mkSpline (F := Fops) (fmkps knots degs) ph) u d =
  Ok (mkSpline (F := Fops) (fmkps (upd knots d pleft) degs) nleft, mkSpline (F := Fops) (fmkps (upd knots d pright) degs) nright,
      mkSpline (F := Fops) (fmkps (upd knots d kvN) degs) ph').
Proof.
  destruct (ins_kv knots degs d kv p Hg Ek Ed) as [Mk Gk]. destruct left_room as [L1 L2]. destruct right_room as [R1 R2].
  unfold subdivide, sp_deg, sp_knots, dget. cbn [sp_ps ps_degs ps_knots fmkps]. change (num Fops) with float. rewrite Ed. cbn [bind]. rewrite Ek. cbn [bind].
  rewrite (f_multiplicity kv u Mk Mu).
  assert (Eu : u64 (p + 1 - Z.of_nat (occurrences (map dval kv) (dval u))) = Z.of_nat r).
  { unfold u64. rewrite Z.mod_small; [lia|]. destruct (double_finite kv p (conj Mk Gk)) as (_ & _ & ? & ?). lia. }
  rewrite Eu. match goal with |- bind ?m _ = _ => replace m with (Ok (mkSpline (F := Fops) (fmkps (upd knots d kvN) degs) ph')) by (symmetry; exact Hrun) end.
  cbn [bind sp_ps].
  pose proof (fdivided_knots (upd knots d kvN) degs d kvN p u N N_dirs N_kv Ed Mu N_inner N_full) as DK. rewrite !upd_upd in DK.
  match goal with |- bind ?m _ = _ => replace m with (Ok (upd knots d pleft, upd knots d pright)) by (symmetry; exact DK) end.
  cbn [bind fst snd].
  pose proof (piece_made (upd knots d kvN) degs d kvN p u ph' N_dirs N_kv Ed Hph En Ht pleft 0 pleft_dir L1 L2) as M1.
  pose proof (piece_made (upd knots d kvN) degs d kvN p u ph' N_dirs N_kv Ed Hph En Ht pright (Z.of_nat N - 1 - p) pright_dir R1 R2) as M2.
  rewrite !upd_upd in M1, M2.
  match goal with |- bind ?m _ = _ => replace m with (Ok (zlen pleft - p - 1, mkSpline (F := Fops) (fmkps (upd knots d pleft) degs) nleft)) by (symmetry; exact M1) end.
  cbn [bind fst snd].
  replace (zlen pleft - p - 1) with (Z.of_nat N - 1 - p) at 1 by (rewrite pleft_zlen; lia).
  match goal with |- bind ?m _ = _ => replace m with (Ok (zlen pright - p - 1, mkSpline (F := Fops) (fmkps (upd knots d pright) degs) nright)) by (symmetry; exact M2) end.
  reflexivity.
Qed.

Lemma nleft_facts : g_phys_ok nleft /\ ph_npts nleft = point_counts (upd knots d pleft) degs /\ total (ph_npts nleft) < 2 ^ 64 /\ ph_dim nleft = ph_dim ph'.
Proof.
  destruct left_room as [L1 L2]. split; [exact (piece_phys d kvN p u ph' Hph pleft 0 pleft_dir)|]. split.
  - pose proof (piece_counts (upd knots d kvN) degs d p ph' Ed En pleft 0) as E. now rewrite upd_upd in E.
  - split; [|reflexivity]. exact (piece_total (upd knots d kvN) degs d kvN p u ph' N_kv Ed Hph En Ht pleft 0 pleft_dir L1 L2).
Qed.
Lemma nright_facts : g_phys_ok nright /\ ph_npts nright = point_counts (upd knots d pright) degs /\ total (ph_npts nright) < 2 ^ 64 /\ ph_dim nright = ph_dim ph'.
Proof.
  destruct right_room as [L1 L2]. split; [exact (piece_phys d kvN p u ph' Hph pright _ pright_dir)|]. split.
  - pose proof (piece_counts (upd knots d kvN) degs d p ph' Ed En pright (Z.of_nat N - 1 - p)) as E. now rewrite upd_upd in E.
  - split; [|reflexivity]. exact (piece_total (upd knots d kvN) degs d kvN p u ph' N_kv Ed Hph En Ht pright _ pright_dir L1 L2).
Qed.

(* parameters on one side *)
Lemma side_left us : inside knots us -> (nth d us 0 <= dval u)%R -> inside (upd knots d pleft) us.
Proof.
  intros H Hv. destruct pleft_ends as [A B]. clear - H Hv Ek A B. unfold inside in *. revert d Ek Hv. induction H as [|k v ks vs Hk H IH]; intros [|d] Ek Hv; cbn in *; try discriminate; constructor; auto.
  injection Ek as ->. rewrite A, B. lra.
Qed.
Lemma side_right us : inside knots us -> (dval u <= nth d us 0)%R -> inside (upd knots d pright) us.
Proof.
  intros H Hv. destruct pright_ends as [A B]. clear - H Hv Ek A B. unfold inside in *. revert d Ek Hv. induction H as [|k v ks vs Hk H IH]; intros [|d] Ek Hv; cbn in *; try discriminate; constructor; auto.
  injection Ek as ->. rewrite A, B. lra.
Qed.

Hypothesis Hrep : Z.of_nat (occurrences (map dval kv) (dval u)) <= p -> repeats ph' d (Z.of_nat N - p - 2).

Lemma left_coord us c : inside knots us -> (nth d us 0 <= dval u)%R -> Z.of_nat (occurrences (map dval kv) (dval u)) <= p \/ (nth d us 0 < dval u)%R -> 0 <= c < ph_dim ph' ->
  csum (map (map dval) (upd knots d pleft)) degs (fun idx => dval (g_pcoord nleft idx c)) us =
  csum (map (map dval) (upd knots d kvN)) degs (fun idx => dval (g_pcoord ph' idx c)) us.
Proof.
  intros Hus Hv Hside Hc. pose proof (side_left us Hus Hv) as Hl.
  pose proof (left_sum (upd knots d kvN) degs d kvN p u N ph' N_dirs N_kv Ed N_inner N_full Hph En (fun idx => dval (g_pcoord ph' idx c)) (fun idx => dval (g_pcoord nleft idx c)) us) as LS.
  rewrite !upd_upd in LS. apply LS; auto.
  - destruct Hside as [Ho|Ho]; [right | left; exact Ho]. intros idx Hb. destruct (Hrep Ho idx Hb) as [A _].
    replace (Z.of_nat N - p - 1) with (Z.of_nat N - p - 2 + 1) by lia. f_equal. symmetry. now apply A.
  - intros idx Hb. f_equal. apply (piece_coord d kvN p u ph' Hph pleft 0 pleft_dir); auto.
Qed.
Lemma left_weight us : inside knots us -> (nth d us 0 <= dval u)%R -> Z.of_nat (occurrences (map dval kv) (dval u)) <= p \/ (nth d us 0 < dval u)%R ->
  csum (map (map dval) (upd knots d pleft)) degs (wgt nleft) us = csum (map (map dval) (upd knots d kvN)) degs (wgt ph') us.
Proof.
  intros Hus Hv Hside. pose proof (side_left us Hus Hv) as Hl.
  pose proof (left_sum (upd knots d kvN) degs d kvN p u N ph' N_dirs N_kv Ed N_inner N_full Hph En (wgt ph') (wgt nleft) us) as LS.
  rewrite !upd_upd in LS. apply LS; auto.
  - destruct Hside as [Ho|Ho]; [right | left; exact Ho]. intros idx Hb. destruct (Hrep Ho idx Hb) as [_ A].
    replace (Z.of_nat N - p - 1) with (Z.of_nat N - p - 2 + 1) by lia. unfold wgt. f_equal. symmetry. exact A.
  - intros idx Hb. unfold wgt. f_equal. now apply piece_weight.
Qed.
Lemma left_hom us c : inside knots us -> (nth d us 0 <= dval u)%R -> Z.of_nat (occurrences (map dval kv) (dval u)) <= p \/ (nth d us 0 < dval u)%R -> 0 <= c < ph_dim ph' ->
  csum (map (map dval) (upd knots d pleft)) degs (hom nleft c) us = csum (map (map dval) (upd knots d kvN)) degs (hom ph' c) us.
Proof.
  intros Hus Hv Hside Hc. pose proof (side_left us Hus Hv) as Hl.
  pose proof (left_sum (upd knots d kvN) degs d kvN p u N ph' N_dirs N_kv Ed N_inner N_full Hph En (hom ph' c) (hom nleft c) us) as LS.
  rewrite !upd_upd in LS. apply LS; auto.
  - destruct Hside as [Ho|Ho]; [right | left; exact Ho]. intros idx Hb. destruct (Hrep Ho idx Hb) as [A B].
    replace (Z.of_nat N - p - 1) with (Z.of_nat N - p - 2 + 1) by lia. unfold hom. rewrite (A c Hc), B. reflexivity.
  - intros idx Hb. unfold hom. f_equal; f_equal; [now apply piece_weight | apply (piece_coord d kvN p u ph' Hph pleft 0 pleft_dir); auto].
Qed.
Lemma right_coord us c : inside knots us -> (dval u <= nth d us 0)%R -> 0 <= c < ph_dim ph' ->
  csum (map (map dval) (upd knots d pright)) degs (fun idx => dval (g_pcoord nright idx c)) us =
  csum (map (map dval) (upd knots d kvN)) degs (fun idx => dval (g_pcoord ph' idx c)) us.
Proof.
  intros Hus Hv Hc. pose proof (side_right us Hus Hv) as Hl.
  pose proof (right_sum (upd knots d kvN) degs d kvN p u N ph' N_dirs N_kv Ed N_inner N_full Hph En (fun idx => dval (g_pcoord ph' idx c)) (fun idx => dval (g_pcoord nright idx c)) us) as LS.
  rewrite !upd_upd in LS. apply LS; auto.
  intros idx Hb. f_equal. apply (piece_coord d kvN p u ph' Hph pright _ pright_dir); auto.
Qed.
Lemma right_weight us : inside knots us -> (dval u <= nth d us 0)%R ->
  csum (map (map dval) (upd knots d pright)) degs (wgt nright) us = csum (map (map dval) (upd knots d kvN)) degs (wgt ph') us.
Proof.
  intros Hus Hv. pose proof (side_right us Hus Hv) as Hl.
  pose proof (right_sum (upd knots d kvN) degs d kvN p u N ph' N_dirs N_kv Ed N_inner N_full Hph En (wgt ph') (wgt nright) us) as LS.
  rewrite !upd_upd in LS. apply LS; auto.
  intros idx Hb. unfold wgt. f_equal. now apply piece_weight.
Qed.
Lemma right_hom us c : inside knots us -> (dval u <= nth d us 0)%R -> 0 <= c < ph_dim ph' ->
  csum (map (map dval) (upd knots d pright)) degs (hom nright c) us = csum (map (map dval) (upd knots d kvN)) degs (hom ph' c) us.
Proof.
  intros Hus Hv Hc. pose proof (side_right us Hus Hv) as Hl.
  pose proof (right_sum (upd knots d kvN) degs d kvN p u N ph' N_dirs N_kv Ed N_inner N_full Hph En (hom ph' c) (hom nright c) us) as LS.
  rewrite !upd_upd in LS. apply LS; auto.
  intros idx Hb. unfold hom. f_equal; f_equal; [now apply piece_weight | apply (piece_coord d kvN p u ph' Hph pright _ pright_dir); auto].
Qed.

(* the seam *)
Lemma seam_index idx : in_box (ph_npts nleft) idx ->
  in_box (ph_npts nleft) (upd idx d (nth d (ph_npts nleft) 0 - 1)) /\ in_box (ph_npts nright) (upd idx d 0) /\
  exists jdx, in_box (ph_npts ph') jdx /\ moved d 0 (upd idx d (nth d (ph_npts nleft) 0 - 1)) = upd jdx d (Z.of_nat N - p - 2) /\
    moved d (Z.of_nat N - 1 - p) (upd idx d 0) = upd jdx d (Z.of_nat N - p - 2 + 1).
Proof.
  intros Hb. destruct (counts_nth knots degs d kv p Ek Ed) as [Cd _].
  pose proof N_sizes as (S1 & S2 & S3). pose proof pleft_zlen as LL. pose proof pright_zlen as RL.
  assert (Ld : (d < length (ph_npts ph'))%nat) by (rewrite En, (counts_upd knots degs d p Ed), upd_length; exact Cd).
  cbn [nleft nright piece_net ph_npts] in *. rewrite nth_upd_same by exact Ld.
  pose proof (in_box_length _ _ Hb) as Li. rewrite upd_length in Li.
  assert (Nd : nth d (ph_npts ph') 0 = zlen kvN - p - 1).
  { rewrite En, (counts_upd knots degs d p Ed), nth_upd_same by exact Cd. reflexivity. }
  assert (Hj : in_box (ph_npts ph') (upd idx d 0)) by (apply (in_box_upd _ _ d 0 _ Hb); lia).
  split; [apply (in_box_upd _ idx d _ (zlen pleft - p - 1)); [now rewrite upd_upd | rewrite nth_upd_same by exact Ld; lia]|].
  split.
  { replace (upd idx d 0) with (upd (upd idx d 0) d 0) by apply upd_upd. apply in_box_upd_both; [exact Hj | lia]. }
  exists (upd idx d 0). split; [exact Hj|]. unfold moved. rewrite !nth_upd_same by lia. rewrite !upd_upd.
  split; f_equal; lia.
Qed.

Lemma nth_rows (q : phys Fops) idx : in_box (ph_npts q) idx ->
  nth (Z.to_nat (get1d (ph_npts q) idx)) (rows q) [] = map (fun c => g_pcoord q idx c : float) (zseq 0 (Z.to_nat (ph_dim q))).
Proof.
  intros Hb. pose proof (get1d_range _ _ Hb) as Hr0. unfold rows. rewrite (nth_map_in _ _ _ 0) by (rewrite zseq_length; lia).
  rewrite zseq_nth by lia. unfold g_pcoord. apply map_ext. intros c. f_equal. lia.
Qed.

Lemma rows_meet : Z.of_nat (occurrences (map dval kv) (dval u)) <= p ->
  layers_meet [] (point_counts (upd knots d pleft) degs) (point_counts (upd knots d pright) degs) d (rows nleft) (rows nright).
Proof.
  intros Ho. destruct nleft_facts as (Pl & Nl & _ & Dl). destruct nright_facts as (Pr & Nr & _ & Dr). rewrite <- Nl, <- Nr.
  intros idx Hb. destruct (seam_index idx Hb) as (B1 & B2 & jdx & Bj & E1 & E2). rewrite !position_get1d.
  rewrite (nth_rows nleft _ B1), (nth_rows nright _ B2), Dl, Dr. apply map_ext_in. intros c Hc. apply zseq_In in Hc.
  assert (Hc' : 0 <= c < ph_dim ph') by (pose proof Hph as (_ & ? & _); lia).
  transitivity (g_pcoord ph' (moved d 0 (upd idx d (nth d (ph_npts nleft) 0 - 1))) c : float).
  { exact (piece_coord d kvN p u ph' Hph pleft 0 pleft_dir _ c B1 Hc'). }
  transitivity (g_pcoord ph' (moved d (Z.of_nat N - 1 - p) (upd idx d 0)) c : float).
  - rewrite E1, E2. symmetry. now apply (Hrep Ho jdx Bj).
  - symmetry. exact (piece_coord d kvN p u ph' Hph pright _ pright_dir _ c B2 Hc').
Qed.

Lemma weights_meet (w1 w2 : list float) : ph_wts nleft = Some w1 -> ph_wts nright = Some w2 ->
  Z.of_nat (occurrences (map dval kv) (dval u)) <= p ->
  layers_meet 0%float (point_counts (upd knots d pleft) degs) (point_counts (upd knots d pright) degs) d w1 w2.
Proof.
  intros Q1 Q2 Ho. destruct nleft_facts as (Pl & Nl & _ & Dl). destruct nright_facts as (Pr & Nr & _ & Dr). rewrite <- Nl, <- Nr.
  intros idx Hb. destruct (seam_index idx Hb) as (B1 & B2 & jdx & Bj & E1 & E2). rewrite !position_get1d.
  transitivity (g_pweight nleft (upd idx d (nth d (ph_npts nleft) 0 - 1))); [unfold g_pweight, g_wat; rewrite Q1; reflexivity|].
  transitivity (g_pweight nright (upd idx d 0)); [|unfold g_pweight, g_wat; rewrite Q2; reflexivity].
  transitivity (g_pweight ph' (moved d 0 (upd idx d (nth d (ph_npts nleft) 0 - 1)))); [now apply piece_weight|].
  transitivity (g_pweight ph' (moved d (Z.of_nat N - 1 - p) (upd idx d 0))); [|symmetry; now apply piece_weight].
  rewrite E1, E2. symmetry. now apply (Hrep Ho jdx Bj).
Qed.
End Pieces.
