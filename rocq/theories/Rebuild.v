(* A spline constructed from the numbers of another one. *)
From Coq Require Import ZArith List Bool Lia Reals Lra.
From Verif Require Import Base BaseFacts MultiIndex MultiIndexSpec MultiIndexFacts KnotVec KnotVecSpec KnotVecFacts Spaces SpacesSpec SpacesFacts SplineEval SplineSpec SplineNew EvalFacts
  Convert ConvertFacts VtkSpec VtkFacts FormatSpec.
Import ListNotations.
Open Scope Z_scope.

Lemma nth_zseq n k : 0 <= k < Z.of_nat n -> nth (Z.to_nat k) (zseq 0 n) 0 = k.
Proof.
  intros H. rewrite zseq_seq. rewrite (nth_map_in _ _ _ 0%nat) by (rewrite seq_length; lia). rewrite seq_nth by lia. lia.
Qed.

Section Rebuild.
Context {dz : R -> R}.
Notation F := (Rops dz).
Implicit Types s : spline F.
Variables (rk : R -> R) (rw : R -> R) (rc : list Z -> Z -> R).

Definition new_knots s : list (list R) := map (map rk) (knots_of s).
Definition new_row s (dim : Z) (idx : list Z) : list R := map (rc idx) (zseq 0 (Z.to_nat dim)).
Definition new_points s (dim : Z) : list (list R) := map (new_row s dim) (grid (npts_of s)).
Definition new_weights s : option (list R) :=
  match ph_wts (sp_ph s) with None => None | Some _ => Some (map (fun idx => rw (weight s idx)) (grid (npts_of s))) end.
Definition rebuilt s (dim : Z) : spline F :=
  mkSpline (F := F) (mkps dz (new_knots s) (degs_of s)) (mkPhys (F := F) dim (npts_of s) (concat (new_points s dim)) (new_weights s)).

Lemma map_clamped kv p : clamped kv p -> 0 <= p -> clamped (map rk kv) p.
Proof.
  intros [L H] Hp. split; [now rewrite map_length|]. intros j Hj. destruct (H j Hj) as [A B].
  assert (G : forall i, (i < length kv)%nat -> knot (map rk kv) i = rk (knot kv i)).
  { intros i Hi. unfold knot. now rewrite (nth_map_in _ _ _ 0%R). }
  change (first_knot (map rk kv)) with (knot (map rk kv) 0). change (final_knot (map rk kv)) with (knot (map rk kv) (length (map rk kv) - 1)).
  rewrite !map_length. rewrite !G by lia. split; f_equal; [exact A | exact B].
Qed.
Lemma new_clamped s : well_formed s -> Forall2 (fun kv p => 0 <= p /\ clamped kv p) (new_knots s) (degs_of s).
Proof.
  intros Hwf. unfold new_knots. pose proof (wf_directions s Hwf) as H. induction H as [|kv p l1 l2 (A & B & _) _ IH]; constructor; auto.
  split; auto. now apply map_clamped.
Qed.
Lemma new_npts s : well_formed s -> map2 (fun kv p => zlen kv - p - 1) (new_knots s) (degs_of s) = npts_of s.
Proof.
  intros Hwf. rewrite (wf_npts s Hwf). unfold new_knots. pose proof (wf_directions s Hwf) as H.
  induction H as [|kv p l1 l2 (A & B & _) _ IH]; cbn [map map2]; auto. rewrite IH. unfold zlen. now rewrite map_length.
Qed.
Lemma wf_pos s : well_formed s -> pos_lens (npts_of s).
Proof. intros Hwf. rewrite (wf_npts s Hwf). apply good_npts_pos. exact (wf_directions s Hwf). Qed.
Lemma wf_grid s : well_formed s -> zlen (grid (npts_of s)) = total (npts_of s) /\ 1 <= total (npts_of s).
Proof.
  intros Hwf. pose proof (wf_pos s Hwf) as Hp. pose proof (total_pos _ Hp) as Ht. unfold zlen.
  rewrite grid_length by (eapply Forall_impl; [|exact Hp]; cbv beta; lia). unfold size. unfold total in *. lia.
Qed.
Lemma new_row_len s dim idx : 0 <= dim -> zlen (new_row s dim idx) = dim.
Proof. intros H. unfold new_row, zlen. rewrite map_length, zseq_length. lia. Qed.
Lemma new_rows_len s dim : 0 <= dim -> Forall (fun cp => zlen cp = dim) (new_points s dim).
Proof. intros H. unfold new_points. rewrite Forall_map. apply Forall_forall. intros idx _. now apply new_row_len. Qed.

Lemma rebuilt_ok s dim : well_formed s -> 1 <= dim -> total (npts_of s) < 2 ^ 64 ->
  spline_new (F := F) (new_knots s) (degs_of s) (new_points s dim) (new_weights s) = Ok (rebuilt s dim).
Proof.
  intros Hwf Hd Hb. destruct (wf_grid s Hwf) as [Hg Ht]. unfold spline_new. rewrite ps_new_ok by now apply new_clamped. cbn [bind].
  rewrite (map_combine (fun kv p => zlen kv - p - 1)). rnorm. rewrite new_npts by auto.
  assert (Hl : zlen (new_points s dim) = total (npts_of s)) by (unfold new_points, zlen in *; rewrite map_length; exact Hg).
  assert (Hne : new_points s dim <> []) by (intros E; rewrite E in Hl; change (zlen (@nil (list R))) with 0 in Hl; lia).
  pose proof (phys_new_ok dz (new_points s dim) (npts_of s) dim (new_rows_len s dim ltac:(lia)) Hne Hl Hb) as EP.
  unfold rebuilt. destruct (ph_wts (sp_ph s)) as [w|] eqn:Ew; unfold new_weights; rewrite Ew.
  - unfold wphys_new. rewrite EP. cbn [bind ph_dim ph_npts ph_cps]. rnorm. rewrite Hl. unfold zlen at 1. rewrite map_length. fold (zlen (grid (npts_of s))). rewrite Hg, Z.eqb_refl. reflexivity.
  - rewrite EP. reflexivity.
Qed.

Lemma rebuilt_coordinate s dim idx c : well_formed s -> 1 <= dim -> In idx (all_indices (npts_of s)) -> 0 <= c < dim ->
  coordinate (rebuilt s dim) idx c = rc idx c.
Proof.
  intros Hwf Hd Hi Hc. apply all_indices_box in Hi. pose proof (get1d_range _ _ Hi) as Hr. rewrite <- position_get1d in Hr.
  destruct (wf_grid s Hwf) as [Hg _]. unfold coordinate, rebuilt. cbn [sp_ph ph_dim ph_npts ph_cps npts_of].
  change (npts_of {| sp_ps := _; sp_ph := _ |}) with (npts_of s).
  rewrite (concat_nth (new_points s dim) dim) by (try (apply new_rows_len; lia); auto; unfold new_points, zlen in *; rewrite ?map_length; lia).
  unfold new_points. rewrite (nth_map_in _ _ _ []) by (unfold zlen in Hg; lia).
  rewrite (nth_error_nth _ _ [] (grid_nth _ _ Hi)). unfold new_row. rewrite (nth_map_in _ _ _ 0) by (rewrite zseq_length; lia). rewrite nth_zseq by lia. reflexivity.
Qed.
Lemma rebuilt_weight s dim idx : well_formed s -> In idx (all_indices (npts_of s)) ->
  weight (rebuilt s dim) idx = match ph_wts (sp_ph s) with None => 1%R | Some _ => rw (weight s idx) end.
Proof.
  intros Hwf Hi. apply all_indices_box in Hi. pose proof (get1d_range _ _ Hi) as Hr. rewrite <- position_get1d in Hr. destruct (wf_grid s Hwf) as [Hg _].
  unfold weight at 1, rebuilt. cbn [sp_ph ph_wts]. unfold new_weights. destruct (ph_wts (sp_ph s)) as [w|] eqn:Ew; [|reflexivity].
  change (npts_of {| sp_ps := _; sp_ph := _ |}) with (npts_of s).
  rewrite (nth_map_in _ _ _ []) by (unfold zlen in Hg; lia). now rewrite (nth_error_nth _ _ [] (grid_nth _ _ Hi)).
Qed.
Lemma rebuilt_knots s dim : knots_of (rebuilt s dim) = new_knots s /\ degs_of (rebuilt s dim) = degs_of s /\ npts_of (rebuilt s dim) = npts_of s /\
  ph_dim (sp_ph (rebuilt s dim)) = dim /\ (ph_wts (sp_ph (rebuilt s dim)) = None <-> ph_wts (sp_ph s) = None).
Proof.
  repeat split; auto; unfold rebuilt; cbn [sp_ph ph_wts]; unfold new_weights; destruct (ph_wts (sp_ph s)); auto; discriminate.
Qed.
Lemma rebuilt_shape s dim : same_shape s (rebuilt s dim) <-> dim = ph_dim (sp_ph s).
Proof.
  destruct (rebuilt_knots s dim) as (A & B & C & D & E). unfold same_shape. rewrite A, B, C, D. split; [tauto|]. intros ->. repeat split; auto; try apply E.
  unfold new_knots. rewrite map_map. apply map_ext. intros kv. unfold zlen. now rewrite map_length.
Qed.
Lemma rebuilt_sound s dim : well_formed s -> 1 <= dim -> total (npts_of s) < 2 ^ 64 -> sound (rebuilt s dim).
Proof.
  intros Hwf Hd Hb Hg. destruct (rebuilt_knots s dim) as (A & B & _). rewrite A, B in Hg. destruct (wf_grid s Hwf) as [Hl _].
  assert (Hn : zlen (new_points s dim) = total (npts_of s)) by (unfold new_points, zlen in *; rewrite map_length; exact Hl).
  destruct (spline_new_ok dz (new_knots s) (degs_of s) (new_points s dim) (new_weights s) dim) as [E W]; auto.
  - apply new_rows_len. lia.
  - rewrite new_npts by auto. exact Hn.
  - lia.
  - intros w. unfold new_weights. destruct (ph_wts (sp_ph s)); [|discriminate]. intros Ew. injection Ew as <-. rewrite Hn, <- Hl. unfold zlen. now rewrite map_length.
  - rewrite rebuilt_ok in E by auto. injection E as E. unfold rebuilt. rewrite E. exact W.
Qed.
Lemma rebuilt_within s dim fmt tol : Forall (Forall (fun x => comes_back fmt tol x (rk x))) (knots_of s) -> Forall2 (within fmt tol) (knots_of s) (knots_of (rebuilt s dim)).
Proof.
  intros H. destruct (rebuilt_knots s dim) as (-> & _). unfold new_knots. induction H as [|kv l Hk H IH]; constructor; auto.
  unfold within. induction Hk as [|x kv Hx Hk IHk]; constructor; auto.
Qed.
End Rebuild.
