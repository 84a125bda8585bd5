(* Proofs about VTK files: points, assembly of the file, examples. *)
From Coq Require Import ZArith List Lia Bool Reals Lra Floats.
From Verif Require Import Base BaseFacts RSum MultiIndex MultiIndexSpec MultiIndexFacts TensorSum KnotVec KnotVecSpec KnotVecFacts KnotVecThms
  Basis BasisThms Spaces SpacesSpec SpacesThms SplineEval SplineSpec SplineNew EvalFacts EvalThms EqualThms Convert ConvertSpec ConvertFacts Vtk VtkSpec VtkFacts.
Import ListNotations.
Open Scope Z_scope.

Section Points.
Context {dz : R -> R}.
Notation F := (Rops dz).
Implicit Types s : spline F.

Lemma collect_rows {A B} (f : A -> Res B) (g : A -> B) l acc : (forall x, In x l -> f x = Ok (g x)) ->
  foldM (fun rows x => r <- f x ;; Ok (rows ++ [r])) l acc = Ok (acc ++ map g l).
Proof.
  revert acc. induction l as [|x l IH]; intros acc H; cbn [foldM map]; [now rewrite app_nil_r|].
  rewrite H by now left. cbn [bind]. rewrite IH by (intros; apply H; now right). now rewrite <- app_assoc.
Qed.

Lemma parameters_in knots sc idx : Forall (fun kv => first_knot kv <= final_knot kv)%R knots -> Forall (fun n => 1 <= n) sc ->
  length knots = length sc -> in_box (samples sc) idx ->
  Forall2 (fun kv u => first_knot kv <= u <= final_knot kv)%R knots (parameters knots sc idx).
Proof.
  intros Hk. revert sc idx. induction Hk as [|kv knots Hv Hk IH]; intros [|n sc] idx Hn Hl Hb; cbn [length samples map] in *; try discriminate.
  - inversion Hb; subst. constructor.
  - inversion Hb as [|? i ? idx' Hi Hb']; subst. inversion Hn; subst. cbn [parameters]. constructor.
    + assert (Hn1 : (1 <= IZR n)%R) by (apply (IZR_le 1); lia). assert (Hi0 : (0 <= IZR i)%R) by (apply (IZR_le 0); lia).
      assert (Hi1 : (IZR i <= IZR n)%R) by (apply IZR_le; lia).
      set (D := (final_knot kv - first_knot kv)%R). assert (HD : (0 <= D)%R) by (unfold D; lra).
      replace (IZR i * (D / IZR n))%R with (D * (IZR i / IZR n))%R by (unfold Rdiv; ring).
      assert (0 <= IZR i / IZR n <= 1)%R.
      { split; [apply Rmult_le_pos; [lra | left; apply Rinv_0_lt_compat; lra]|].
        apply (Rmult_le_reg_r (IZR n)); [lra|]. unfold Rdiv. rewrite Rmult_assoc, Rinv_l by lra. lra. }
      split; [nra|]. replace (final_knot kv) with (first_knot kv + D * 1)%R by (unfold D; ring). nra.
    + apply IH; auto.
Qed.

Lemma wf_ranges s : well_formed s -> Forall (fun kv => first_knot kv <= final_knot kv)%R (knots_of s) /\
  Forall (fun kv => (0 < length kv)%nat) (knots_of s) /\ length (knots_of s) = length (degs_of s).
Proof.
  intros [H _ _ _ _ _]. induction H as [|kv p l1 l2 (A & (B & _) & C & _) _ IH]; cbn [length].
  - repeat split; constructor.
  - destruct IH as (I1 & I2 & I3). assert (0 < length kv)%nat by zl.
    repeat split; try constructor; auto. apply final_knot_ge; auto.
Qed.

Lemma nonzero_weights s us : is_bspline s \/ positive_weights s -> well_formed s -> in_domain s us -> weight_function s us <> 0%R.
Proof.
  intros [H|H] Hwf Hu.
  - rewrite weight_function_bspline by auto. lra.
  - apply Rgt_not_eq. now apply weight_function_positive.
Qed.

Lemma edge_ok s : (1 <= length (knots_of s) <= 3)%nat -> Forall (fun kv => (0 < length kv)%nat) (knots_of s) ->
  edge_knots (zlen (knots_of s)) s = Ok (map first_knot (knots_of s) ++ map final_knot (knots_of s)).
Proof.
  intros Hl Hk. unfold edge_knots, sp_knots. fold (knots_of s).
  assert (G : forall kv : list R, (0 < length kv)%nat -> get_knot (F := F) kv 0 = Ok (first_knot kv)).
  { intros [|x kv] H; cbn [length] in H; [lia|]. unfold get_knot. exact (vget_nth (x :: kv) 0 0%R ltac:(unfold zlen; cbn [length]; lia)). }
  pose proof (fun kv H => last_knot_ok dz kv H) as L.
  destruct (knots_of s) as [|k0 [|k1 [|k2 [|? ?]]]]; cbn [length] in Hl; try lia;
    repeat match goal with H : Forall _ (_ :: _) |- _ => inversion H; subst; clear H end;
    match goal with |- context [zseq ?a ?n] => let v := eval compute in (zseq a n) in change (zseq a n) with v end; cbn [mapM];
    repeat match goal with |- context [?a <? ?b] => let v := eval compute in (a <? b) in change (a <? b) with v end; cbn [bind];
    repeat match goal with |- context [dget ?l (Z.to_nat ?b)] =>
      let v := eval compute in (Z.to_nat b) in change (dget l (Z.to_nat b)) with (dget l v); cbn [dget nth_error bind] end;
    rewrite ?G, ?L by auto; reflexivity.
Qed.

Lemma coords_ok knots sc idx d : d = zlen knots -> (1 <= length knots <= 3)%nat -> length sc = length knots -> length idx = length knots ->
  Forall (fun n => 1 <= n) sc ->
  mapM (fun j => a <- vget (map first_knot knots ++ map final_knot knots) j ;; i <- vget idx j ;;
                 b <- vget (map first_knot knots ++ map final_knot knots) (j + d) ;; n <- vget sc j ;;
                 Ok (nadd (n := F) a (ndiv (n := F) (nmul (n := F) (nofZ i) (nsub (n := F) b a)) (nofZ n)))) (zseq 0 (Z.to_nat d)) =
  Ok (parameters knots sc idx).
Proof.
  intros -> Hl Hs Hi Hn.
  assert (Q : forall (a b : R) i n, 1 <= n -> nadd (n := F) a (ndiv (n := F) (nmul (n := F) (nofZ i) (nsub (n := F) b a)) (nofZ n)) = (a + IZR i * ((b - a) / IZR n))%R).
  { intros a b i n H1. assert (IZR n <> 0%R) by (apply not_0_IZR; lia). rewrite ndiv_R by (rnorm; auto). rnorm. unfold Rdiv. ring. }
  destruct knots as [|k0 [|k1 [|k2 [|? ?]]]]; cbn [length] in Hl; try lia;
  destruct sc as [|s0 [|s1 [|s2 [|? ?]]]]; cbn [length] in Hs; try discriminate Hs;
  destruct idx as [|i0 [|i1 [|i2 [|? ?]]]]; cbn [length] in Hi; try discriminate Hi;
    repeat match goal with H : Forall _ (_ :: _) |- _ => inversion H; subst; clear H end;
    cbn [parameters]; rewrite <- !(Q _ _ _ _) by auto; reflexivity.
Qed.

Lemma row_ok s sc idx : well_formed s -> is_bspline s \/ positive_weights s -> in_domain s (parameters (knots_of s) sc idx) ->
  mapM (fun k => if k <? sp_pdim s then v <- evaluate s (parameters (knots_of s) sc idx) [k] ;; vget v 0 else Ok n0) [0; 1; 2] =
  Ok (row s sc idx).
Proof.
  intros Hwf Hw Hu. unfold row.
  rewrite (mapM_ok _ (fun k => if k <? ph_dim (sp_ph s) then
     (weighted_sum s (parameters (knots_of s) sc idx) k / weight_function s (parameters (knots_of s) sc idx))%R else 0%R)); [reflexivity|].
  intros k Hk. unfold sp_pdim. destruct (Z.ltb_spec k (ph_dim (sp_ph s))) as [E|E]; [|reflexivity].
  rewrite (eval_quotient dz); auto using nonzero_weights.
  constructor; [|constructor]. cbn in Hk. lia.
Qed.

Lemma write_points_ok s d (a : any (spline F)) sc : get_spline d a = Ok s -> d = zlen (degs_of s) -> well_formed s ->
  is_bspline s \/ positive_weights s -> length sc = length (degs_of s) -> (length sc <= 3)%nat -> (1 <= length sc)%nat ->
  Forall (fun n => 1 <= n) sc ->
  write_points d a sc = Ok (map (row s sc) (grid (samples sc))).
Proof.
  intros Hg Ed Hwf Hw Hl Hl3 Hl1 Hn. destruct (wf_ranges s Hwf) as (R1 & R2 & R3).
  unfold write_points. rewrite Hg. cbn [bind].
  assert (Ed' : d = zlen (knots_of s)) by (unfold zlen in *; lia).
  assert (EK := edge_ok s ltac:(lia) R2). rewrite <- Ed' in EK.
  refine (eq_trans (f_equal (fun r => bind r _) EK) _). cbn [bind].
  rewrite mih_loop_visited. fold (samples sc). cbn [mcur].
  assert (Hp : pos_lens (samples sc)) by (apply samples_pos; eapply Forall_impl; [|exact Hn]; cbv beta; intros; lia).
  rewrite visited_grid by auto.
  match goal with |- foldM ?f _ _ = _ => set (body := f) end.
  assert (EB : forall rows idx, In idx (grid (samples sc)) -> body rows idx = Ok (rows ++ [row s sc idx])).
  { intros rows idx Hin. apply grid_In in Hin. unfold body.
    assert (Hli : length idx = length (knots_of s)).
    { pose proof (in_box_length _ _ Hin) as E. unfold samples in E. rewrite map_length in E. lia. }
    refine (eq_trans (f_equal (fun r => bind r _) (coords_ok (knots_of s) sc idx d Ed' ltac:(lia) ltac:(lia) Hli Hn)) _). cbn [bind].
    assert (Hu : in_domain s (parameters (knots_of s) sc idx)) by (apply parameters_in; auto; lia).
    refine (eq_trans (f_equal (fun r => bind r _) (row_ok s sc idx Hwf Hw Hu)) _). reflexivity. }
  clearbody body. revert EB. generalize (grid (samples sc)). intros G EB.
  assert (E : forall acc, foldM body G acc = Ok (acc ++ map (row s sc) G)); [|apply (E [])].
  induction G as [|x G IH]; intros acc; cbn [foldM map]; [now rewrite app_nil_r|].
  rewrite EB by now left. cbn [bind]. rewrite IH by (intros; apply EB; now right). now rewrite <- app_assoc.
Qed.

Lemma add_points_ok (j : @job dz) : good_job j ->
  add_points (F := F) (object j) (divisions j) (zlen (divisions j)) = Ok (rows_of j).
Proof.
  destruct j as [a s sc]. intros [Ht Hwf Hd (Hl & Hn)]. unfold rows_of. cbn [object content divisions] in *.
  assert (Ed : zlen sc = zlen (degs_of s)) by (unfold zlen; lia).
  assert (Hg : get_spline (zlen sc) a = Ok s) by (destruct Ht as [[-> _]|[-> _]]; cbn [get_spline]; now rewrite <- Ed, Z.eqb_refl).
  assert (Hw : is_bspline s \/ positive_weights s) by (destruct Ht as [[_ H]|[_ H]]; auto).
  rewrite <- (write_points_ok s (zlen sc) a sc) by (auto; lia).
  destruct sc as [|s0 [|s1 [|s2 [|? ?]]]]; cbn [length] in Hl; try lia; reflexivity.
Qed.

(* ---- loops over the splines ---- *)
Lemma vget_mid {A B} (f : A -> B) pre x post : vget (map f (pre ++ x :: post)) (zlen pre) = Ok (f x).
Proof.
  apply vget_at; [unfold zlen; lia|]. unfold zlen. rewrite Nat2Z.id, map_app, nth_error_app2; rewrite map_length; auto.
  now rewrite Nat.sub_diag.
Qed.

Fixpoint along {J S} (step : list J -> J -> S -> S) (pre post : list J) (st : S) : S :=
  match post with [] => st | j :: t => along step (pre ++ [j]) t (step pre j st) end.

Lemma for_split {J S} (jobs : list J) (body : Z -> S -> Res S) (step : list J -> J -> S -> S) (st0 : S) :
  (forall pre j post st, jobs = pre ++ j :: post -> body (zlen pre) st = Ok (step pre j st)) ->
  for_up 0 (zlen jobs) body st0 = Ok (along step [] jobs st0).
Proof.
  intros H. unfold for_up. rewrite Z.sub_0_r. unfold zlen at 1. rewrite Nat2Z.id.
  assert (E : forall post pre st, jobs = pre ++ post -> for_n (length post) (zlen pre) body st = Ok (along step pre post st)).
  { induction post as [|j post IH]; intros pre st Ej; cbn [length for_n along]; [reflexivity|].
    rewrite (H pre j post st Ej). cbn [bind].
    replace (zlen pre + 1) with (zlen (pre ++ [j])) by (unfold zlen; rewrite app_length; cbn [length]; lia).
    apply IH. rewrite <- app_assoc. exact Ej. }
  apply (E jobs []). reflexivity.
Qed.

Lemma mapM_split {J B} (jobs : list J) (f : Z -> Res B) (g : J -> B) :
  (forall pre j post, jobs = pre ++ j :: post -> f (zlen pre) = Ok (g j)) -> mapM f (zseq 0 (length jobs)) = Ok (map g jobs).
Proof.
  intros H.
  assert (E : forall post pre, jobs = pre ++ post -> mapM f (zseq (zlen pre) (length post)) = Ok (map g post)).
  { induction post as [|j post IH]; intros pre Ej; cbn [length zseq mapM map]; [reflexivity|].
    rewrite (H pre j post Ej). cbn [bind].
    replace (zlen pre + 1) with (zlen (pre ++ [j])) by (unfold zlen; rewrite app_length; cbn [length]; lia).
    rewrite IH by (rewrite <- app_assoc; exact Ej). reflexivity. }
  apply (E jobs []). reflexivity.
Qed.

Definition sum (l : list Z) : Z := fold_right Z.add 0 l.
Lemma fold_left_sum l a : fold_left Z.add l a = a + sum l.
Proof. revert a. induction l as [|x l IH]; intros a; cbn [fold_left sum fold_right]; [lia|]. rewrite IH. unfold sum. lia. Qed.

Lemma along_app {J B} (g : list J -> J -> list B) pre post acc :
  along (fun pre j acc => acc ++ g pre j) pre post acc = acc ++ along (fun pre j acc => acc ++ g pre j) pre post [].
Proof.
  revert pre acc. induction post as [|j post IH]; intros pre acc; cbn [along]; [now rewrite app_nil_r|].
  rewrite IH, (IH _ ([] ++ g pre j)). now rewrite <- app_assoc.
Qed.

Lemma along_flat {J B} (g : J -> list B) pre post acc : along (fun _ j acc => acc ++ g j) pre post acc = acc ++ flat_map g post.
Proof.
  revert pre acc. induction post as [|j post IH]; intros pre acc; cbn [along flat_map]; [now rewrite app_nil_r|].
  rewrite IH. now rewrite <- app_assoc.
Qed.

Definition points_in (j : @job dz) : Z := size (samples (divisions j)).

Lemma along_cells (jobs pre : list (@job dz)) acc :
  along (fun pre (j : @job dz) acc => acc ++ map (cell (divisions j) (sum (map points_in pre))) (grid (divisions j))) pre jobs acc =
  acc ++ all_cells (sum (map points_in pre)) (map divisions jobs).
Proof.
  revert pre acc. induction jobs as [|j jobs IH]; intros pre acc; cbn [along map all_cells]; [now rewrite app_nil_r|].
  rewrite IH, <- app_assoc. do 2 f_equal. f_equal. rewrite map_app. unfold sum. rewrite fold_right_app. cbn [map fold_right].
  generalize (map points_in pre). intros l. unfold points_in. induction l as [|x l IHl]; cbn [fold_right]; [lia|]. lia.
Qed.

Lemma good_sizes (j : @job dz) : good_job j -> (1 <= length (divisions j) <= 3)%nat /\ Forall (fun n => 0 <= n) (divisions j).
Proof.
  intros [_ _ Hd (Hl & Hn)]. split; [lia|]. eapply Forall_impl; [|exact Hn]. cbv beta. intros; lia.
Qed.

Lemma good_dimension (j : @job dz) : good_job j -> get_dimension (object j) = Ok (zlen (divisions j)).
Proof.
  intros Hj. pose proof (good_sizes j Hj) as (Hs & _). destruct Hj as [Ht _ Hd (Hl & _)].
  apply dimension_ok; [|unfold zlen; lia]. exists (content j).
  replace (zlen (divisions j)) with (zlen (degs_of (content j))) by (unfold zlen; lia). tauto.
Qed.

Lemma size_pos lens : Forall (fun n => 0 <= n) lens -> 0 <= size lens.
Proof. intros H. induction H; cbn; [lia|]. unfold size in *. nia. Qed.

Lemma entries_app a b : entries (a ++ b) = entries a + entries b.
Proof. induction a as [|l a IH]; cbn [app entries fold_right]; [reflexivity|]. unfold entries in *. rewrite IH. lia. Qed.

Lemma rows_count (pre : list (@job dz)) : Forall good_job pre -> zlen (flat_map rows_of pre) = sum (map (fun sc => size (samples sc)) (map divisions pre)).
Proof.
  intros H. induction H as [|j jobs Hjj Hj IH]; [reflexivity|]. cbn [map flat_map sum fold_right]. unfold sum in IH. rewrite <- IH.
  unfold zlen. rewrite app_length, Nat2Z.inj_add. unfold rows_of at 1. rewrite map_length.
  destruct (good_sizes j Hjj) as (_ & Hn). pose proof (samples_pos _ Hn) as Hp.
  assert (Hq : Forall (fun n => 0 <= n) (samples (divisions j))) by (eapply Forall_impl; [|exact Hp]; cbv beta; intros; lia).
  rewrite grid_length by auto. pose proof (size_pos _ Hq). lia.
Qed.

Lemma vtk_written : forall jobs : list (@job dz), Forall good_job jobs ->
  exists f, write_vtk (F := F) (map object jobs) (map divisions jobs) = Ok f /\
    vf_rows f = flat_map rows_of jobs /\ vf_npoints f = zlen (vf_rows f) /\
    vf_cells f = all_cells 0 (map divisions jobs) /\ vf_ncells f = zlen (vf_cells f) /\ vf_nentries f = entries (vf_cells f) /\
    vf_types f = flat_map (fun j => repeat (vtk_type (length (divisions j))) (Z.to_nat (size (divisions j)))) jobs /\
    vf_ntypes f = zlen (vf_types f).
Proof.
  intros jobs Hj.
  assert (Hin : forall pre j post, jobs = pre ++ j :: post -> good_job j).
  { intros pre j post E. rewrite E in Hj. apply Forall_elt in Hj. exact Hj. }
  unfold write_vtk.
  assert (E1 : mapM get_dimension (map object jobs) = Ok (map (fun j => zlen (divisions j)) jobs)).
  { clear Hin. induction Hj as [|j jobs Hjj Hj IH]; [reflexivity|]. cbn [map mapM]. rewrite good_dimension by auto. cbn [bind]. now rewrite IH. }
  rewrite E1. cbn [bind].
  assert (Ez : forall {A} (f : @job dz -> A), zlen (map f jobs) = zlen jobs) by (intros; unfold zlen; now rewrite map_length).
  assert (E2 : check_scattering (map divisions jobs) (map (fun j => zlen (divisions j)) jobs) = Ok tt).
  { unfold check_scattering. rewrite !Ez, Z.eqb_refl. cbn [negb]. rewrite (for_split jobs _ (fun _ _ _ => tt)).
    - f_equal. now destruct (along _ _ _ _).
    - intros pre j post st Ej. rewrite Ej, !vget_mid. cbn [bind]. now rewrite Z.eqb_refl. }
  rewrite E2. cbn [bind]. unfold count_all. rewrite !map_length.
  rewrite (mapM_split jobs _ (fun j => size (divisions j))).
  2:{ intros pre j post Ej. rewrite Ej, !vget_mid. cbn [bind]. apply count_cells_ok. now apply good_sizes, (Hin pre j post). }
  cbn [bind].
  rewrite (mapM_split jobs _ points_in).
  2:{ intros pre j post Ej. rewrite Ej, !vget_mid. cbn [bind]. apply count_points_ok. now apply good_sizes, (Hin pre j post). }
  cbn [bind]. rewrite Ez.
  rewrite (for_split jobs _ (fun _ j acc => acc ++ rows_of j)).
  2:{ intros pre j post acc Ej. rewrite Ej, !vget_mid. cbn [bind]. rewrite (add_points_ok j) by now apply (Hin pre j post). reflexivity. }
  cbn [bind]. unfold count_entries. rewrite Ez.
  rewrite (for_split jobs _ (fun _ j st => st + size (divisions j) * (if zlen (divisions j) =? 1 then 3 else if zlen (divisions j) =? 2 then 5 else 9))).
  2:{ intros pre j post st Ej. rewrite Ej, !vget_mid. reflexivity. }
  cbn [bind].
  rewrite (for_split jobs _ (fun pre j acc => acc ++ map (cell (divisions j) (sum (map points_in pre))) (grid (divisions j)))).
  2:{ intros pre j post acc Ej. pose proof (good_sizes j (Hin pre j post Ej)) as (S1 & S2).
      assert (Ef : fold_left Z.add (firstn (Z.to_nat (zlen pre)) (map points_in jobs)) 0 = sum (map points_in pre)).
      { rewrite fold_left_sum, Ej, map_app. unfold zlen. rewrite Nat2Z.id.
        replace (length pre) with (length (map points_in pre) + 0)%nat by (rewrite map_length; lia).
        rewrite firstn_app_2, firstn_O, app_nil_r. lia. }
      rewrite Ef. rewrite Ej, !vget_mid. cbn [bind]. rewrite add_cells_ok by auto. reflexivity. }
  cbn [bind].
  rewrite (for_split jobs _ (fun _ j acc => acc ++ repeat (vtk_type (length (divisions j))) (Z.to_nat (size (divisions j))))).
  2:{ intros pre j post acc Ej. rewrite Ej, !vget_mid. cbn [bind].
      rewrite add_cell_types_ok by now apply good_sizes, (Hin pre j post). reflexivity. }
  cbn [bind]. eexists. split; [reflexivity|]. cbn [vf_rows vf_npoints vf_cells vf_ncells vf_nentries vf_types vf_ntypes].
  rewrite !along_flat, along_cells, !fold_left_sum. cbn [app].
  split; [reflexivity|]. split.
  { rewrite rows_count by auto. rewrite map_map. reflexivity. }
  split; [reflexivity|].
  assert (HC : forall off, zlen (all_cells off (map divisions jobs)) = sum (map (fun j : @job dz => size (divisions j)) jobs)).
  { clear - Hj. induction Hj as [|j jobs Hjj Hj IH]; intros off; [reflexivity|]. cbn [map all_cells sum fold_right].
    unfold zlen in *. rewrite app_length, Nat2Z.inj_add, IH, map_length.
    destruct (good_sizes j Hjj) as (_ & Hn). rewrite grid_length by auto. pose proof (size_pos _ Hn). unfold sum. lia. }
  split; [rewrite HC; lia|].
  split.
  { assert (HE : forall jobs pre off st, Forall good_job jobs ->
      along (fun _ (j : @job dz) st => st + size (divisions j) * (if zlen (divisions j) =? 1 then 3 else if zlen (divisions j) =? 2 then 5 else 9)) pre jobs st =
      st + entries (all_cells off (map divisions jobs))).
    { clear. induction jobs as [|j jobs IH]; intros pre off st H; [cbn; lia|]. inversion H as [|? ? Hjj Hj]; subst.
      cbn [along map all_cells]. rewrite (IH _ (off + size (samples (divisions j)))) by auto. rewrite entries_app.
      destruct (good_sizes j Hjj) as (S1 & Hn).
      assert (HG : forall G, entries (map (cell (divisions j) off) G) =
                     Z.of_nat (length G) * (if zlen (divisions j) =? 1 then 3 else if zlen (divisions j) =? 2 then 5 else 9)).
      { induction G as [|c G IHG]; [reflexivity|]. cbn [map entries fold_right]. unfold entries in IHG. rewrite IHG, cell_length by auto.
        cbn [length]. lia. }
      rewrite HG, grid_length by auto. pose proof (size_pos _ Hn). rewrite Z2Nat.id by auto. lia. }
    rewrite (HE jobs [] 0 0) by auto. reflexivity. }
  split; [reflexivity|].
  clear - Hj. induction Hj as [|j jobs Hjj Hj IH]; [reflexivity|]. cbn [map flat_map sum fold_right].
  unfold zlen in *. rewrite app_length, repeat_length, Nat2Z.inj_add, <- IH.
  destruct (good_sizes j Hjj) as (_ & Hn). pose proof (size_pos _ Hn). unfold sum. lia.
Qed.

(* the row of sample point idx of the spline after [pre] *)
Lemma vtk_point : forall (pre : list (@job dz)) j post idx, Forall good_job (pre ++ j :: post) -> in_box (samples (divisions j)) idx ->
  exists f, write_vtk (F := F) (map object (pre ++ j :: post)) (map divisions (pre ++ j :: post)) = Ok f /\
    nth_error (vf_rows f) (Z.to_nat (zlen (flat_map rows_of pre) + position (samples (divisions j)) idx)) =
    Some (row (content j) (divisions j) idx).
Proof.
  intros pre j post idx Hj Hb. destruct (vtk_written _ Hj) as (f & Ef & Er & _). exists f. split; [exact Ef|].
  rewrite Er, flat_map_app. cbn [flat_map]. pose proof (position_range _ _ Hb) as Hr.
  rewrite Z2Nat.inj_add by (unfold zlen; lia). unfold zlen. rewrite Nat2Z.id, nth_error_app2 by lia.
  replace (length (flat_map rows_of pre) + Z.to_nat (position (samples (divisions j)) idx) - length (flat_map rows_of pre))%nat
    with (Z.to_nat (position (samples (divisions j)) idx)) by lia.
  assert (E : nth_error (rows_of j) (Z.to_nat (position (samples (divisions j)) idx)) = Some (row (content j) (divisions j) idx)).
  { unfold rows_of. rewrite nth_error_map, grid_nth by auto. reflexivity. }
  rewrite nth_error_app1; [exact E|]. apply nth_error_Some. rewrite E. discriminate.
Qed.

(* the cells of the spline after [pre] *)
Lemma all_cells_app off a b : all_cells off (a ++ b) = all_cells off a ++ all_cells (off + sum (map (fun sc => size (samples sc)) a)) b.
Proof.
  revert off. induction a as [|sc a IH]; intros off; cbn [app all_cells map sum fold_right]; [now rewrite Z.add_0_r|].
  rewrite IH, <- app_assoc. do 2 f_equal. f_equal. unfold sum. lia.
Qed.

Lemma corners_box sc c e : in_box sc c -> (1 <= length sc <= 3)%nat -> In e (corners (length sc)) -> in_box (samples sc) (map2 Z.add c e).
Proof.
  intros Hb Hl He. destruct sc as [|s0 [|s1 [|s2 [|? ?]]]]; cbn [length] in Hl; try lia; cbn [length corners] in He;
    repeat match goal with H : in_box _ _ |- _ => inversion H; subst; clear H | H : Forall2 _ _ _ |- _ => inversion H; subst; clear H end;
    repeat (destruct He as [<- |He]); try contradiction; repeat constructor; lia.
Qed.

Lemma vtk_cell : forall (pre : list (@job dz)) j post c, Forall good_job (pre ++ j :: post) -> in_box (divisions j) c ->
  exists f, write_vtk (F := F) (map object (pre ++ j :: post)) (map divisions (pre ++ j :: post)) = Ok f /\
    exists line, nth_error (vf_cells f) (Z.to_nat (zlen (all_cells 0 (map divisions pre)) + position (divisions j) c)) = Some line /\
      hd 0 line = zlen (tl line) /\
      Forall2 (fun e r => nth_error (vf_rows f) (Z.to_nat r) = Some (row (content j) (divisions j) (map2 Z.add c e)) /\
                          zlen (flat_map rows_of pre) <= r < zlen (flat_map rows_of pre) + zlen (rows_of j))
              (corners (length (divisions j))) (tl line).
Proof.
  intros pre j post c Hj Hb. destruct (vtk_written _ Hj) as (f & Ef & Er & _ & Ec & _). exists f. split; [exact Ef|].
  apply Forall_app in Hj. destruct Hj as [Hpre Hj]. inversion Hj as [|? ? Hjj Hpost]; subst.
  destruct (good_sizes j Hjj) as (S1 & S2).
  rewrite Ec, map_app, all_cells_app, <- rows_count by auto. cbn [map all_cells]. set (off := 0 + zlen (flat_map rows_of pre)).
  exists (cell (divisions j) off c). split; [|split].
  - pose proof (position_range _ _ Hb). rewrite Z2Nat.inj_add by (unfold zlen; lia). unfold zlen at 1. rewrite Nat2Z.id, nth_error_app2 by lia.
    match goal with |- nth_error _ ?n = _ => replace n with (Z.to_nat (position (divisions j) c)) by lia end.
    assert (E : nth_error (map (cell (divisions j) off) (grid (divisions j))) (Z.to_nat (position (divisions j) c)) = Some (cell (divisions j) off c)).
    { rewrite nth_error_map, grid_nth by auto. reflexivity. }
    rewrite nth_error_app1; [exact E|]. apply nth_error_Some. rewrite E. discriminate.
  - unfold cell. cbn [hd tl]. unfold zlen. now rewrite map_length.
  - unfold cell. cbn [tl].
    assert (H : forall e, In e (corners (length (divisions j))) -> in_box (samples (divisions j)) (map2 Z.add c e))
      by (intros e; now apply corners_box).
    revert H. generalize (corners (length (divisions j))). intros es. induction es as [|e es IH]; intros H; [constructor|]. cbn [map]. constructor.
    + assert (Hbe := H e (or_introl eq_refl)). pose proof (position_range _ _ Hbe) as Hr. split.
      * destruct (vtk_point pre j post _ ltac:(apply Forall_app; split; [auto|constructor; auto]) Hbe) as (f' & Ef' & Hf').
        rewrite Ef in Ef'. injection Ef' as <-. exact Hf'.
      * unfold off. assert (E : zlen (rows_of j) = total (samples (divisions j))).
        { unfold zlen, rows_of. rewrite map_length. pose proof (samples_pos _ S2) as Hp.
          assert (Hq : Forall (fun n => 0 <= n) (samples (divisions j))) by (eapply Forall_impl; [|exact Hp]; cbv beta; intros; lia).
          rewrite grid_length by auto. pose proof (size_pos _ Hq). rewrite Z2Nat.id by auto. reflexivity. }
        lia.
    + apply IH. intros; apply H; now right.
Qed.

(* ---- refusals ---- *)
Lemma vtk_not_spline : forall objects scattering, ~ Forall is_spline objects -> write_vtk (F := F) objects scattering = Throw RuntimeError.
Proof.
  intros objects scattering H. unfold write_vtk.
  assert (E : mapM get_dimension objects = Throw RuntimeError); [|now rewrite E].
  induction objects as [|a objects IH]; [exfalso; apply H; constructor|]. cbn [mapM].
  destruct (get_dimension a) as [d|e|] eqn:Ea.
  - cbn [bind]. rewrite IH; [reflexivity|]. intros Hf. apply H. constructor; auto.
    destruct a as [e s|e s|]; unfold get_dimension, catch_runtime in Ea; cbn in Ea; try discriminate;
      exists e; (split; [exists s; auto|]);
      destruct (Z.eqb_spec e 1), (Z.eqb_spec e 2), (Z.eqb_spec e 3), (Z.eqb_spec e 4); subst; cbn in Ea; try discriminate; lia.
  - cbn [bind]. destruct a as [e' s|e' s|]; unfold get_dimension, catch_runtime in Ea; cbn in Ea; [| |congruence];
      destruct (e' =? 1), (e' =? 2), (e' =? 3), (e' =? 4); cbn in Ea; congruence.
  - destruct a as [e' s|e' s|]; unfold get_dimension, catch_runtime in Ea; cbn in Ea; [| |congruence];
      destruct (e' =? 1), (e' =? 2), (e' =? 3), (e' =? 4); cbn in Ea; congruence.
Qed.

Lemma dims_exist (objects : list (any (spline F))) : Forall is_spline objects ->
  exists dims, mapM get_dimension objects = Ok dims /\ Forall2 spline_dim objects dims.
Proof.
  intros H. induction H as [|a objects (d & Hd & Hr) H (dims & E & IH)]; [exists []; split; [reflexivity|constructor]|].
  exists (d :: dims). cbn [mapM]. rewrite (dimension_ok a d) by auto. cbn [bind]. rewrite E. split; [reflexivity|]. now constructor.
Qed.

Lemma check_cases (scattering : list (list Z)) dims :
  check_scattering scattering dims = Throw RuntimeError \/ (check_scattering scattering dims = Ok tt /\ Forall2 (fun sc d => zlen sc = d) scattering dims).
Proof.
  unfold check_scattering. destruct (Z.eqb_spec (zlen scattering) (zlen dims)) as [El|El]; [|now left]. cbn [negb].
  unfold for_up. rewrite Z.sub_0_r.
  assert (E : forall post pre spost spre, dims = pre ++ post -> scattering = spre ++ spost -> length pre = length spre -> length post = length spost ->
    let r := for_n (length post) (zlen pre) (fun i _ => sc <- vget scattering i ;; d <- vget dims i ;;
               if negb (zlen sc =? d) then Throw RuntimeError else Ok tt) tt in
    r = Throw RuntimeError \/ (r = Ok tt /\ Forall2 (fun sc d => zlen sc = d) spost post)).
  { induction post as [|d post IH]; intros pre [|sc spost] spre E1 E2 E3 E4; cbn [length] in E4; try discriminate; cbn [length for_n]; cbv zeta.
    - right. split; [reflexivity|constructor].
    - assert (V1 : vget dims (zlen pre) = Ok d) by (rewrite E1, <- (map_id (pre ++ d :: post)); exact (vget_mid (fun x => x) pre d post)).
      assert (V2 : vget scattering (zlen pre) = Ok sc).
      { replace (zlen pre) with (zlen spre) by (unfold zlen; lia). rewrite E2, <- (map_id (spre ++ sc :: spost)). exact (vget_mid (fun x => x) spre sc spost). }
      rewrite V1, V2. cbn [bind].
      destruct (Z.eqb_spec (zlen sc) d) as [Ed|Ed]; cbn [negb bind]; [|now left].
      replace (zlen pre + 1) with (zlen (pre ++ [d])) by (unfold zlen; rewrite app_length; cbn [length]; lia).
      destruct (IH (pre ++ [d]) spost (spre ++ [sc])) as [E|[E EF]]; try (rewrite <- app_assoc; auto); try (rewrite !app_length; cbn [length]; lia); [lia|left; exact E|].
      right. split; [exact E|]. now constructor. }
  replace (Z.to_nat (zlen dims)) with (length dims) by (unfold zlen; now rewrite Nat2Z.id). apply (E dims [] scattering []); auto. unfold zlen in El. lia.
Qed.

Lemma vtk_wrong_sizes : forall (objects : list (any (spline F))) scattering, Forall is_spline objects ->
  ~ Forall2 (fun a (sc : list Z) => spline_dim a (zlen sc)) objects scattering -> write_vtk (F := F) objects scattering = Throw RuntimeError.
Proof.
  intros objects scattering H Hn. destruct (dims_exist objects H) as (dims & E & Hd). unfold write_vtk. rewrite E. cbn [bind].
  destruct (check_cases scattering dims) as [Ec|[_ Ec]]; [now rewrite Ec|]. exfalso. apply Hn. clear - Hd Ec.
  revert scattering Ec. induction Hd as [|a d objects dims Ha Hd IH]; intros scattering Ec; inversion Ec; subst; constructor; auto.
Qed.

Lemma mapM_total {A B} (f : A -> Res B) l : (forall x, In x l -> exists b, f x = Ok b) -> exists bs, mapM f l = Ok bs.
Proof.
  induction l as [|x l IH]; intros H; cbn [mapM]; [now exists []|].
  destruct (H x (or_introl eq_refl)) as (b & Eb). destruct IH as (bs & Ebs); [intros; apply H; now right|].
  rewrite Eb, Ebs. now exists (b :: bs).
Qed.

Lemma for_n_app {S} a b lo (body : Z -> S -> Res S) st :
  for_n (a + b) lo body st = (s' <- for_n a lo body st ;; for_n b (lo + Z.of_nat a) body s').
Proof.
  revert lo st. induction a as [|a IH]; intros lo st; cbn [Nat.add for_n bind]; [f_equal; lia|].
  destruct (body lo st); cbn [bind]; auto. rewrite IH. destruct (for_n a _ _ _); cbn [bind]; auto. f_equal. lia.
Qed.

Lemma vget_app {A} (l r : list A) i : 0 <= i < zlen l -> vget (l ++ r) i = vget l i.
Proof.
  intros H. destruct l as [|a l']; [unfold zlen in H; cbn in H; lia|].
  rewrite (vget_nth (_ ++ _) i a), (vget_nth (a :: l') i a) by (unfold zlen in *; rewrite ?app_length; lia).
  f_equal. apply app_nth1. unfold zlen in H. lia.
Qed.

(* a spline with four parameters after good ones *)
Lemma vtk_four : forall (pre : list (@job dz)) a sc (rest : list (any (spline F) * list Z)), Forall good_job pre ->
  Forall (fun p => spline_dim (fst p) (zlen (snd p)) /\ 1 <= zlen (snd p) <= 4) ((a, sc) :: rest) -> zlen sc = 4 ->
  write_vtk (F := F) (map object pre ++ a :: map fst rest) (map divisions pre ++ sc :: map snd rest) = Throw RuntimeError.
Proof.
  intros pre a sc rest Hpre Hrest H4.
  set (P := map (fun j : @job dz => (object j, divisions j)) pre ++ (a, sc) :: rest).
  assert (HP : Forall (fun p => spline_dim (fst p) (zlen (snd p)) /\ 1 <= zlen (snd p) <= 4) P).
  { unfold P. apply Forall_app. split; [|exact Hrest].
    apply Forall_forall. intros x Hx. apply in_map_iff in Hx. destruct Hx as (j & <- & Hj). rewrite Forall_forall in Hpre. cbn [fst snd].
    destruct (good_sizes j (Hpre j Hj)) as (S1 & _). destruct (Hpre j Hj) as [Ht _ Hd (Hl & _)].
    split; [|unfold zlen; lia]. exists (content j). replace (zlen (divisions j)) with (zlen (degs_of (content j))) by (unfold zlen; lia). tauto. }
  replace (map object pre ++ a :: map fst rest) with (map fst P) by (unfold P; rewrite map_app, map_map; reflexivity).
  replace (map divisions pre ++ sc :: map snd rest) with (map snd P) by (unfold P; rewrite map_app, map_map; reflexivity).
  assert (Hin : forall q p post, P = q ++ p :: post -> spline_dim (fst p) (zlen (snd p)) /\ 1 <= zlen (snd p) <= 4).
  { intros q p post E. rewrite E in HP. apply Forall_elt in HP. exact HP. }
  unfold write_vtk.
  assert (E1 : mapM get_dimension (map fst P) = Ok (map (fun p => zlen (snd p)) P)).
  { clear - HP. induction HP as [|p P (Hp & Hr) HP IH]; [reflexivity|]. cbn [map mapM]. rewrite (dimension_ok _ _ Hp Hr). cbn [bind]. now rewrite IH. }
  rewrite E1. cbn [bind].
  assert (Ez : forall {A} (f : _ -> A), zlen (map f P) = zlen P) by (intros; unfold zlen; now rewrite map_length).
  assert (E2 : check_scattering (map snd P) (map (fun p => zlen (snd p)) P) = Ok tt).
  { unfold check_scattering. rewrite !Ez, Z.eqb_refl. cbn [negb]. rewrite (for_split P _ (fun _ _ _ => tt)).
    - f_equal. now destruct (along _ _ _ _).
    - intros q p post st Ej. rewrite Ej, !vget_mid. cbn [bind]. now rewrite Z.eqb_refl. }
  rewrite E2. cbn [bind]. unfold count_all. rewrite !map_length.
  assert (EC : exists cs, mapM (fun i => d <- vget (map (fun p => zlen (snd p)) P) i ;; sc <- vget (map snd P) i ;; count_cells d sc) (zseq 0 (length P)) = Ok cs).
  { exists (map (fun p => match count_cells (zlen (snd p)) (snd p) with Ok x => x | _ => 0 end) P).
    apply (mapM_split P). intros q p post Ej. rewrite Ej, !vget_mid. cbn [bind].
    destruct (Hin q p post Ej) as (_ & Hr). destruct p as [b [|s0 [|s1 [|s2 [|s3 [|? ?]]]]]]; unfold zlen in Hr; cbn [snd length] in Hr; try lia; reflexivity. }
  destruct EC as (cs & EC). rewrite EC. cbn [bind].
  assert (EP : exists cs, mapM (fun i => d <- vget (map (fun p => zlen (snd p)) P) i ;; sc <- vget (map snd P) i ;; count_points d sc) (zseq 0 (length P)) = Ok cs).
  { exists (map (fun p => match count_points (zlen (snd p)) (snd p) with Ok x => x | _ => 0 end) P).
    apply (mapM_split P). intros q p post Ej. rewrite Ej, !vget_mid. cbn [bind].
    destruct (Hin q p post Ej) as (_ & Hr). destruct p as [b [|s0 [|s1 [|s2 [|s3 [|? ?]]]]]]; unfold zlen in Hr; cbn [snd length] in Hr; try lia; reflexivity. }
  destruct EP as (ps & EP). rewrite EP. cbn [bind]. rewrite Ez.
  match goal with |- (rows <- ?m ;; _) = _ => enough (EM : m = Throw RuntimeError) by now rewrite EM end.
  unfold for_up. rewrite Z.sub_0_r. unfold zlen at 1. rewrite Nat2Z.id.
  replace (length P) with (length pre + S (length rest))%nat by (unfold P; rewrite app_length, map_length; reflexivity).
  rewrite for_n_app.
  match goal with |- context [for_n (length pre) 0 ?b _] => set (body := b) end.
  assert (HB : forall q p post acc, P = q ++ p :: post -> body (zlen q) acc = (r <- add_points (fst p) (snd p) (zlen (snd p)) ;; Ok (acc ++ r))).
  { intros q p post acc Ej. unfold body. rewrite Ej, !vget_mid. reflexivity. }
  clearbody body.
  assert (E3 : for_n (length pre) 0 body [] = Ok (along (fun _ (j : @job dz) acc => acc ++ rows_of j) [] pre [])).
  { rewrite <- (for_split pre body).
    - unfold for_up. rewrite Z.sub_0_r. unfold zlen. now rewrite Nat2Z.id.
    - intros q j post acc Ej.
      replace (zlen q) with (zlen (map (fun j : @job dz => (object j, divisions j)) q)) by (unfold zlen; now rewrite map_length).
      rewrite (HB _ (object j, divisions j) (map (fun j : @job dz => (object j, divisions j)) post ++ (a, sc) :: rest)).
      + cbn [fst snd]. rewrite (add_points_ok j); [reflexivity|]. rewrite Ej in Hpre. apply Forall_elt in Hpre. exact Hpre.
      + unfold P. rewrite Ej, map_app. cbn [map]. now rewrite <- app_assoc. }
  rewrite E3. cbn [bind for_n].
  replace (0 + Z.of_nat (length pre)) with (zlen (map (fun j : @job dz => (object j, divisions j)) pre)) by (unfold zlen; rewrite map_length; lia).
  rewrite (HB _ (a, sc) rest) by reflexivity. cbn [fst snd]. rewrite H4. reflexivity.
Qed.
End Points.

(* ---- rounding ---- *)
Lemma rounding_witness :
  match spline_new (F := Fops) [[0; 0; 0x1.999999999999ap-4; 0x1.999999999999ap-4]%float] [1] [[0]; [1]]%float None with
  | Ok s => match write_vtk (F := Fops) [AnyB 1 s] [[3]], write_vtk (F := Fops) [AnyB 1 s] [[2]] with
            | Throw RangeError, Ok f => vf_npoints f =? 3
            | _, _ => false
            end
  | _ => false
  end = true.
Proof. vm_compute. reflexivity. Qed.

Lemma vtk_rounding : exists s f,
  spline_new (F := Fops) [[0; 0; 0x1.999999999999ap-4; 0x1.999999999999ap-4]%float] [1] [[0]; [1]]%float None = Ok s /\
  write_vtk (F := Fops) [AnyB 1 s] [[2]] = Ok f /\ write_vtk (F := Fops) [AnyB 1 s] [[3]] = Throw RangeError.
Proof.
  pose proof rounding_witness as H.
  destruct (spline_new (F := Fops) [[0; 0; 0x1.999999999999ap-4; 0x1.999999999999ap-4]%float] [1] [[0]; [1]]%float None) as [s| |] eqn:E1; try discriminate H.
  destruct (write_vtk (F := Fops) [AnyB 1 s] [[3]]) as [|[]|] eqn:E2; try discriminate H.
  destruct (write_vtk (F := Fops) [AnyB 1 s] [[2]]) as [f| |] eqn:E3; try discriminate H.
  exists s, f. auto.
Qed.

(* ---- examples ---- *)
Lemma ex_jobs : exists b n : spline (Rops (fun x => x)),
  spline_new (F := Rops (fun x => x)) ex_knots ex_degs ex_points None = Ok b /\
  spline_new (F := Rops (fun x => x)) ex_knots ex_degs ex_points (Some ex_weights) = Ok n /\
  Forall good_job ([mkJob (AnyB 2 b) b [2; 3]] ++ mkJob (AnyN 2 n) n [1; 1] :: []) /\
  in_box (samples [1; 1]) [1; 0] /\ in_box [1; 1] [0; 0].
Proof.
  destruct (ex_spline None) as (b & B1 & B2 & B3 & B4 & B5 & B6 & B7 & _); auto.
  destruct (ex_spline (Some ex_weights)) as (n & N1 & N2 & N3 & N4 & N5 & N6 & N7 & _); auto.
  assert (D : @degs_of (fun x => x) b = [2; 1] /\ @degs_of (fun x => x) n = [2; 1]) by (rewrite B7, N7; split; reflexivity).
  destruct D as [D1 D2].
  exists b, n. split; auto. split; auto. split; [|split; repeat constructor; lia].
  constructor; [|constructor; [|constructor]]; constructor; cbn [object content divisions]; auto; rewrite ?D1, ?D2; cbn; try lia.
  - left. split; auto.
  - split; auto. repeat constructor; lia.
  - right. split; auto. exists ex_weights. split; auto. repeat constructor; lra.
  - split; auto. repeat constructor; lia.
Qed.

Lemma ex_cells : all_cells 0 [[2; 1]; [1; 1; 1]] =
  [[4; 0; 1; 4; 3]; [4; 1; 2; 5; 4]; [8; 6; 7; 9; 8; 10; 11; 13; 12]].
Proof. reflexivity. Qed.

Lemma ex_refused : exists s : spline (Rops (fun x => x)),
  ~ Forall is_spline [AnyB 2 s; AnyOther] /\ Forall is_spline [AnyB 2 s] /\
  ~ Forall2 (fun a (sc : list Z) => spline_dim a (zlen sc)) [AnyB 2 s] [[5]] /\
  Forall (fun p : any (spline (Rops (fun x => x))) * list Z => spline_dim (fst p) (zlen (snd p)) /\ 1 <= zlen (snd p) <= 4)
    [(AnyB 4 s, [1; 1; 1; 1])] /\ zlen [1; 1; 1; 1] = 4.
Proof.
  destruct (ex_spline None) as (b & _); auto. exists b. split; [|split; [|split; [|split]]].
  - intros H. inversion H as [|? ? _ H']; subst. inversion H' as [|? ? (d & (a & [E|E]) & _) _]; discriminate.
  - constructor; [|constructor]. exists 2. split; [exists b; auto | lia].
  - intros H. inversion H as [|? ? ? ? (a & [E|E]) _]; subst; discriminate.
  - constructor; [|constructor]. cbn [fst snd]. split; [exists b; now left | unfold zlen; cbn; lia].
  - reflexivity.
Qed.
