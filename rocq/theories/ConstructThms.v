(* The constructors of BSpline and NURBS. *)
From Coq Require Import ZArith List Bool Lia Reals Lra.
From Verif Require Import Base BaseFacts RSum MultiIndex MultiIndexSpec MultiIndexFacts KnotVec KnotVecSpec KnotVecFacts Basis
  BasisSpec BasisFacts Spaces SpacesSpec SpacesFacts SpacesThms SplineEval SplineSpec SplineNew EvalFacts ConstructSpec.
Import ListNotations.
Open Scope Z_scope.

Section Construct.
Variable dz : R -> R.
Local Notation F := (Rops dz).

Lemma flatten_bad (cps : list (list R)) dim acc : ~ Forall (fun cp => zlen cp = dim) cps ->
  foldM (fun acc cp => if zlen cp =? dim then Ok (acc ++ cp) else Throw RuntimeError) cps acc = Throw RuntimeError.
Proof.
  revert acc. induction cps as [|cp cps IH]; intros acc H; [destruct H; constructor|]. cbn [foldM].
  destruct (Z.eqb_spec (zlen cp) dim) as [E|E]; [|reflexivity]. cbn [bind]. apply IH. intros G. apply H. now constructor.
Qed.
Lemma phys_new_cases (cp : list R) cps npts : total npts < 2 ^ 64 -> 0 <= total npts ->
  phys_new (F := F) (cp :: cps) npts =
  if total npts =? zlen (cp :: cps) then
    if Forall_dec (fun c : list R => zlen c = zlen cp) (fun c => Z.eq_dec (zlen c) (zlen cp)) (cp :: cps)
    then Ok (mkPhys (F := F) (zlen cp) npts (concat (cp :: cps)) None) else Throw RuntimeError
  else Throw RuntimeError.
Proof.
  intros Hb H0. unfold phys_new. change (vget (A := list (num F)) (cp :: cps) 0) with (Ok cp). cbn [bind].
  unfold u64. rewrite Z.mod_small by lia. rnorm. destruct (total npts =? zlen (cp :: cps)); [|reflexivity]. cbn [negb].
  destruct (Forall_dec _ _ _) as [H|H].
  - rewrite (flatten_ok (cp :: cps) (zlen cp) []) by auto. reflexivity.
  - rewrite (flatten_bad (cp :: cps) (zlen cp) []) by auto. reflexivity.
Qed.

Lemma sizes_pos knots degs : Forall2 (fun kv p => 0 <= p /\ clamped kv p) knots degs -> 0 <= total (sizes knots degs).
Proof.
  intros H. assert (P : pos_lens (sizes knots degs)).
  { unfold pos_lens, sizes. induction H as [|kv p l1 l2 (A & (B & _)) _ IH]; cbn [map2]; constructor; auto. zl. }
  apply total_pos in P. lia.
Qed.

Lemma construct_ok : forall knots degs (cps : list (list R)) (wts : option (list R)) dim,
  Forall2 (fun kv p => 0 <= p /\ clamped kv p) knots degs ->
  cps <> [] -> Forall (fun cp => zlen cp = dim) cps -> zlen cps = total (sizes knots degs) -> zlen cps < 2 ^ 64 ->
  (forall w, wts = Some w -> zlen w = zlen cps) ->
  exists s : spline F, spline_new (F := F) knots degs cps wts = Ok s /\
    knots_of s = knots /\ degs_of s = degs /\ npts_of s = sizes knots degs /\ ph_dim (sp_ph s) = dim /\
    (is_bspline s <-> wts = None) /\
    forall idx, In idx (all_indices (sizes knots degs)) ->
      (forall c, 0 <= c < dim ->
         coordinate s idx c = nth (Z.to_nat c) (nth (Z.to_nat (position (sizes knots degs) idx)) cps []) 0%R) /\
      weight s idx = match wts with None => 1%R | Some w => nth (Z.to_nat (position (sizes knots degs) idx)) w 0%R end.
Proof.
  intros knots degs cps wts dim Hg Hne Hd Hn Hb Hw.
  exists (mkSpline (F := F) (mkps dz knots degs) (mkPhys (F := F) dim (sizes knots degs) (concat cps) wts)).
  split; [|].
  - unfold spline_new. rewrite ps_new_ok by auto. cbn [bind]. rewrite (map_combine (fun kv p => zlen kv - p - 1)). rnorm.
    fold (sizes knots degs). destruct wts as [w|].
    + unfold wphys_new. rewrite (phys_new_ok dz cps _ dim) by (auto; lia). cbn [bind ph_dim ph_npts ph_cps].
      rnorm. rewrite (Hw w eq_refl), Z.eqb_refl. reflexivity.
    + rewrite (phys_new_ok dz cps _ dim) by (auto; lia). reflexivity.
  - repeat (split; [reflexivity|]).
    intros idx Hi. apply all_indices_box, position_range in Hi. split.
    + intros c Hc. unfold coordinate, npts_of. cbn [sp_ph ph_dim ph_npts ph_cps]. apply concat_nth; auto. lia.
    + unfold weight, npts_of. cbn [sp_ph ph_wts ph_npts]. destruct wts; reflexivity.
Qed.

Lemma construct_bad : forall knots degs (cps : list (list R)) (wts : option (list R)),
  length knots = length degs -> Forall (fun kv => kv <> []) knots -> total (sizes knots degs) < 2 ^ 64 ->
  (~ Forall2 (fun kv p => 0 <= p /\ clamped kv p) knots degs -> spline_new (F := F) knots degs cps wts = Throw RuntimeError) /\
  (Forall2 (fun kv p => 0 <= p /\ clamped kv p) knots degs ->
     (cps = [] -> spline_new (F := F) knots degs cps wts = UB) /\
     (cps <> [] ->
      zlen cps <> total (sizes knots degs) \/ (forall dim, ~ Forall (fun cp => zlen cp = dim) cps) \/
      (exists w, wts = Some w /\ zlen w <> zlen cps) ->
      spline_new (F := F) knots degs cps wts = Throw RuntimeError)).
Proof.
  intros knots degs cps wts Hl Hk Hb. split.
  - intros H. unfold spline_new. rnorm. rewrite (proj2 (constructor_iff dz knots degs Hl Hk) H). reflexivity.
  - intros H. unfold spline_new. rewrite ps_new_ok by auto. cbn [bind]. rewrite (map_combine (fun kv p => zlen kv - p - 1)).
    rnorm. fold (sizes knots degs). split.
    + intros ->. destruct wts; reflexivity.
    + destruct cps as [|cp cps]; [congruence|]. intros _ C. pose proof (sizes_pos knots degs H) as H0.
      pose proof (phys_new_cases cp cps (sizes knots degs) Hb H0) as E.
      destruct (Z.eqb_spec (total (sizes knots degs)) (zlen (cp :: cps))) as [En|En].
      * destruct (Forall_dec _ _ _) as [Hf|Hf] in E.
        -- destruct C as [C|[C|(w & -> & C)]]; [lia|exfalso; exact (C _ Hf)|].
           unfold wphys_new. rewrite E. cbn [bind]. rnorm. destruct (Z.eqb_spec (zlen (cp :: cps)) (zlen w)); [lia|reflexivity].
        -- destruct wts; unfold wphys_new; rewrite E; reflexivity.
      * destruct wts; unfold wphys_new; rewrite E; reflexivity.
Qed.
End Construct.

(* examples *)
Lemma cx_clamped : Forall2 (fun kv p => 0 <= p /\ clamped kv p) [[0; 0; 1; 1]%R; [0; 1; 2]%R] [1; 0].
Proof.
  repeat constructor; try (cbn; lia).
  - unfold knot, first_knot. destruct j as [|[|j]]; cbn; try reflexivity. lia.
  - unfold knot, final_knot. destruct j as [|[|j]]; cbn; try reflexivity. lia.
  - unfold knot, first_knot. destruct j as [|j]; cbn; try reflexivity. lia.
  - unfold knot, final_knot. destruct j as [|j]; cbn; try reflexivity. lia.
Qed.
Lemma cx_accepted : Forall2 (fun kv p => 0 <= p /\ clamped kv p) [[0; 0; 1; 1]%R; [0; 1; 2]%R] [1; 0] /\
  Forall (fun cp => zlen cp = 2) [[0; 0]; [1; 0]; [0; 1]; [1; 1]]%R /\
  zlen [[0; 0]; [1; 0]; [0; 1]; [1; 1]]%R = total (sizes [[0; 0; 1; 1]%R; [0; 1; 2]%R] [1; 0]) /\
  zlen [1; 2; 3; 4]%R = zlen [[0; 0]; [1; 0]; [0; 1]; [1; 1]]%R /\
  position (sizes [[0; 0; 1; 1]%R; [0; 1; 2]%R] [1; 0]) [0; 1] = 2.
Proof. split; [exact cx_clamped|]. split; [repeat constructor|]. split; [reflexivity|]. split; reflexivity. Qed.
Lemma cx_rejected : length [[0; 0; 1; 1]%R; [0; 1; 2]%R] = length [1; 0] /\
  Forall (fun kv : list R => kv <> []) [[0; 0; 1; 1]%R; [0; 1; 2]%R] /\
  total (sizes [[0; 0; 1; 1]%R; [0; 1; 2]%R] [1; 0]) < 2 ^ 64 /\
  zlen [[0; 0]; [1; 0]; [0; 1]]%R <> total (sizes [[0; 0; 1; 1]%R; [0; 1; 2]%R] [1; 0]) /\
  (forall dim, ~ Forall (fun cp => zlen cp = dim) [[0; 0]; [1; 0]; [0; 1]; [1]]%R) /\
  ~ Forall2 (fun kv p => 0 <= p /\ clamped kv p) [[0; 0; 1; 1]%R; [0; 1; 2]%R] [1; 1].
Proof.
  split; [reflexivity|]. split; [repeat constructor; discriminate|]. split; [reflexivity|]. split; [discriminate|]. split.
  - intros dim H. inversion H as [|? ? A B]; subst. inversion B as [|? ? C D]; subst. inversion D as [|? ? C' D']; subst.
    inversion D' as [|? ? E ?]. discriminate E.
  - intros H. inversion H as [|? ? ? ? A B]; subst. inversion B as [|? ? ? ? (C & D & _) E]; subst. cbn in D. lia.
Qed.
