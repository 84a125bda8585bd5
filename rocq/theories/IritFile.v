(* Writing splines to an IRIT file and reading them back. *)
From Coq Require Import ZArith Ascii String List Bool Lia Reals Lra.
From Verif Require Import Base BaseFacts MultiIndex MultiIndexSpec MultiIndexFacts TensorSum KnotVec KnotVecSpec Spaces SpacesSpec SpacesFacts SplineEval SplineSpec SplineNew EvalFacts
  StrSpec StrOps StrFacts StrNum StrDelim Convert ConvertSpec ConvertFacts VtkSpec VtkFacts Format FormatSpec FormatFacts Irit IritFacts IritRead IritBack Rebuild.
Import ListNotations.
Open Scope Z_scope.

Lemma int_word n : 0 <= n < 2 ^ 31 -> starts_with (int_str n) bracket_open = false.
Proof.
  intros H. rewrite <- (app_nil_r (int_str n)). apply (starts_no "["%char); [now apply int_plain|].
  eapply Forall_impl; [|exact (numchar_int n H)]. intros c C; apply C.
Qed.
Lemma type_word b n : starts_with (irit_point_type b n) bracket_open = false /\ starts_with (irit_point_type b n) (of_string "P") = b.
Proof.
  unfold irit_point_type. destruct b; (split; [apply (starts_no "["%char); [discriminate | repeat constructor; discriminate]|]).
  - apply (starts_yes "P"%char).
  - apply (starts_no "P"%char); [discriminate | repeat constructor; discriminate].
Qed.
Lemma kind_dimension d : 1 <= d <= 3 -> irit_dimension (irit_kind d) = d /\ starts_with (irit_kind d) (of_string "[KV") = false.
Proof. intros H. assert (d = 1 \/ d = 2 \/ d = 3) as [->|[-> | ->]] by lia; split; vm_compute; reflexivity. Qed.

Section File.
Context {dz : R -> R}.
Notation F := (Rops dz).
Variable fmt : R -> str.
Variable tol : R.
Notation P := (prints fmt tol).
Notation rv := (rval (dz := dz) fmt).
Implicit Types s : spline F.

Lemma number_loop e q : forall l k M acc, Forall (fun n => 1 <= n < 2 ^ 31) l -> stands e (q + k) (map int_str l ++ M) ->
  foldM (fun n i => t <- vget e (q + i) ;; x <- string_to_double (F := F) t ;; z <- to_int (F := F) toward_zero x ;; Ok (n * z)) (zseq k (List.length l)) acc
  = Ok (acc * total l).
Proof.
  induction l as [|n l IH]; intros k M acc Hl H; cbn [List.length zseq foldM map total fold_right].
  - now rewrite Z.mul_1_r.
  - inversion Hl as [|? ? Hn Hl']; subst. cbn [map app] in H. destruct (stands_cons _ _ _ _ H) as [-> H']. cbn [bind].
    rewrite read_int by lia. cbn [bind]. rnorm. rewrite (to_int_IZR dz) by lia. cbn [bind].
    rewrite (IH (k + 1) M) by (auto; replace (q + (k + 1)) with (q + k + 1) by lia; exact H'). unfold total. f_equal. lia.
Qed.

Section One.
Variables (d : Z) (o : any (spline F)) (s : spline F) (number p : Z) (e : list str).
Hypothesis H : irit_ready fmt tol d o s.
Hypothesis S0 : stands e p (spline_words fmt s number).
Definition tail_words : list str := map int_str (npts_of s) ++ map int_str (map (fun q => q + 1) (degs_of s)) ++ [irit_point_type (is_nurbs s) (ph_dim (sp_ph s))] ++
  knot_words fmt s ++ point_words fmt s ++ [of_string "]"].

Lemma at_kind : stands e (p + 2) (irit_kind d :: of_string "BSPLINE" :: tail_words).
Proof.
  unfold spline_words, header_words in S0. assert (E : zlen (degs_of s) = d) by apply H. rewrite E in S0.
  apply (stands_app e p [of_string "[OBJECT"; of_string "SPLINE" ++ int_str (number + 1)]).
  unfold tail_words. cbn [app] in *. repeat rewrite <- app_assoc in S0. exact S0.
Qed.
Lemma at_sizes : stands e (p + 2 + 2) tail_words.
Proof. replace (p + 2 + 2) with (p + 2 + 1 + 1) by lia. apply (stands_cons e _ (of_string "BSPLINE")). apply (stands_cons e _ (irit_kind d)). exact at_kind. Qed.

Lemma read_number : irit_number (F := F) toward_zero (p + 2) e = Ok (total (npts_of s)).
Proof.
  destruct (ready_lengths fmt tol d o s H) as (_ & _ & L). destruct (ready_ranges fmt tol d o s H) as (R1 & _).
  unfold irit_number. destruct (stands_cons _ _ _ _ at_kind) as [-> _]. cbn [bind].
  rewrite (proj1 (kind_dimension d (ir_dim _ _ _ _ _ H))). rewrite for_up_foldM, Z.sub_0_r, <- L.
  pose proof at_sizes as A. unfold tail_words in A. rewrite <- (Z.add_0_r (p + 2 + 2)) in A.
  pose proof (number_loop e (p + 2 + 2) (npts_of s) 0 _ 1 R1 A) as E. rewrite Z.mul_1_l in E. exact E.
Qed.
Lemma read_degrees : irit_get_degrees (F := F) toward_zero d (p + 2) e = Ok (degs_of s).
Proof.
  destruct (ready_lengths fmt tol d o s H) as (_ & L & L'). destruct (ready_ranges fmt tol d o s H) as (_ & R2 & _).
  unfold irit_get_degrees. rewrite <- L.
  rewrite (mapM_ok _ (fun i => nth (Z.to_nat i) (degs_of s) 0)).
  - f_equal. rewrite <- (map_id (degs_of s)) at 2. exact (map_nth_zseq (fun q => q) (degs_of s) 0).
  - intros i Hi. apply zseq_In in Hi. pose proof at_sizes as A. unfold tail_words in A.
    destruct (stands_app _ _ _ _ A) as [_ B]. destruct (stands_app _ _ _ _ B) as [C _].
    replace (p + 2 + d + 2 + i) with (p + 2 + 2 + zlen (map int_str (npts_of s)) + i) by (unfold zlen; rewrite map_length, L'; pose proof (ir_dim _ _ _ _ _ H); lia).
    rewrite (stands_nth _ _ _ i [] C) by (unfold zlen; rewrite !map_length; lia). cbn [bind].
    rewrite (nth_map_in _ _ _ 0) by (rewrite map_length; lia). rewrite (nth_map_in _ _ _ 0) by lia.
    rewrite Forall_forall in R2. destruct (R2 (nth (Z.to_nat i) (degs_of s) 0) ltac:(apply nth_In; lia)) as [Q1 Q2].
    rewrite read_int by lia. cbn [bind]. rnorm. rewrite (to_int_IZR dz) by lia. cbn [bind]. f_equal. lia.
Qed.
Lemma read_rational : irit_is_rational d (p + 2) e = Ok (is_nurbs s).
Proof.
  destruct (ready_lengths fmt tol d o s H) as (_ & L & L'). unfold irit_is_rational. pose proof at_sizes as A. unfold tail_words in A.
  destruct (stands_app _ _ _ _ A) as [_ B]. destruct (stands_app _ _ _ _ B) as [_ C]. destruct (stands_cons _ _ _ _ C) as [E _].
  replace (p + 2 + 2 * d + 2) with (p + 2 + 2 + zlen (map int_str (npts_of s)) + zlen (map int_str (map (fun q => q + 1) (degs_of s))))
    by (unfold zlen; rewrite !map_length, L, L'; pose proof (ir_dim _ _ _ _ _ H); lia).
  rewrite E. cbn [bind]. f_equal. apply type_word.
Qed.
Definition before_knots : list str := map int_str (npts_of s) ++ map int_str (map (fun q => q + 1) (degs_of s)) ++ [irit_point_type (is_nurbs s) (ph_dim (sp_ph s))].
Lemma before_plain : Forall (fun t => starts_with t bracket_open = false) before_knots.
Proof.
  destruct (ready_ranges fmt tol d o s H) as (R1 & R2 & _). unfold before_knots. repeat (apply Forall_app; split).
  - rewrite Forall_map. eapply Forall_impl; [|exact R1]. cbv beta. intros n Hn. apply int_word. lia.
  - rewrite !Forall_map. eapply Forall_impl; [|exact R2]. cbv beta. intros n Hn. apply int_word. lia.
  - constructor; [apply type_word | constructor].
Qed.
(* the first control point *)
Lemma grid_cons : exists i0 g0, grid (npts_of s) = i0 :: g0 /\ in_box (npts_of s) i0.
Proof.
  destruct (wf_grid s (ir_wf _ _ _ _ _ H)) as [G1 G2]. destruct (grid (npts_of s)) as [|i0 g0] eqn:E; [unfold zlen in G1; cbn in G1; lia|].
  exists i0, g0. split; auto. apply grid_In. rewrite E. now left.
Qed.
Lemma first_word : exists x B, point_words fmt s = x :: B /\ starts_with x bracket_open = true /\ starts_with x (of_string "[KV") = false.
Proof.
  destruct grid_cons as (i0 & g0 & E & Hi). unfold point_words. rewrite E. cbn [map concat]. rewrite row_texts_nums.
  destruct (row_nums_ok fmt tol d o s i0 H Hi) as [N1 N2]. destruct (row_ok (dz := dz) fmt tol _ N1 N2) as [_ _ (t & r & -> & T1 & T2)].
  exists t. eexists. split; [reflexivity|]. auto.
Qed.
Lemma read_all_knots : irit_get_knots (F := F) d (p + 2) e = Ok (new_knots rv s).
Proof.
  destruct (ready_lengths fmt tol d o s H) as (L & _ & _). unfold irit_get_knots. rewrite for_up_foldM, Z.sub_0_r.
  destruct first_word as (x & B & EB & X1 & _).
  destruct (knots_loop (dz := dz) fmt tol e (knots_of s) (zseq 0 (Z.to_nat d)) (irit_kind d :: of_string "BSPLINE" :: before_knots) (p + 2) x (B ++ [of_string "]"]) []) as (p' & E).
  - now rewrite zseq_length.
  - pose proof at_kind as A. unfold tail_words in A. rewrite EB in A. unfold before_knots, knot_words in *. cbn [app] in *. repeat rewrite <- app_assoc. exact A.
  - constructor; [apply kind_dimension; apply H|]. constructor; [vm_compute; reflexivity|]. eapply Forall_impl; [|exact before_plain]. intros t. apply starts_longer.
  - exact X1.
  - apply (ir_prints _ _ _ _ _ H).
  - unfold new_knots. cbn [app] in E. exact (f_equal (fun m : Res (Z * list (list R)) => bind m (fun st => Ok (snd st))) E).
Qed.
Lemma read_first : exists q, irit_first_point (p + 2) e = Ok q /\ stands e q (point_words fmt s ++ [of_string "]"]).
Proof.
  destruct first_word as (x & B & EB & X1 & X2). destruct (stands_cons _ _ _ _ at_kind) as [_ A].
  assert (A' : stands e (p + 2 + 1) ((of_string "BSPLINE" :: before_knots ++ knot_words fmt s) ++ x :: (B ++ [of_string "]"]))).
  { unfold tail_words in A. rewrite EB in A. unfold before_knots. cbn [app] in *. repeat rewrite <- app_assoc. exact A. }
  exists (p + 2 + 1 + zlen (of_string "BSPLINE" :: before_knots ++ knot_words fmt s)). split.
  - unfold irit_first_point. pose proof (stands_fuel _ _ _ A') as Hf. rewrite app_length in Hf. cbn [List.length] in Hf.
    apply (first_point_ok e _ (p + 2 + 1) _ x (B ++ [of_string "]"])); auto; [|cbn [List.length]; lia].
    constructor; [left; vm_compute; reflexivity|]. apply Forall_app. split.
    + eapply Forall_impl; [|exact before_plain]. auto.
    + unfold knot_words. apply Forall_concat. rewrite Forall_map. eapply Forall_impl; [|exact (ip_knots _ _ _ (ir_prints _ _ _ _ _ H))].
      intros kv Hk. constructor; [right; vm_compute; reflexivity|]. destruct (closed_words (dz := dz) fmt tol kv Hk) as [_ W]. eapply Forall_impl; [|exact W]. auto.
  - rewrite EB. cbn [app]. exact (proj2 (stands_app _ _ _ _ A')).
Qed.
Lemma grid_boxes : Forall (in_box (npts_of s)) (grid (npts_of s)).
Proof. apply Forall_forall. intros idx. apply grid_In. Qed.
Lemma grid_len : List.length (grid (npts_of s)) = Z.to_nat (total (npts_of s)).
Proof. destruct (wf_grid s (ir_wf _ _ _ _ _ H)) as [G _]. unfold zlen in G. lia. Qed.

Lemma read_weights : irit_get_weights (F := F) toward_zero (p + 2) e (is_nurbs s) = Ok (map (back_weight (dz := dz) fmt s) (grid (npts_of s))).
Proof.
  destruct (wf_grid s (ir_wf _ _ _ _ _ H)) as [G1 G2]. pose proof grid_len as GL.
  unfold irit_get_weights. rewrite read_number. cbn [bind]. unfold vmake. replace (total (npts_of s) <? 0) with false by (symmetry; apply Z.ltb_ge; lia). cbn [bind].
  destruct (ph_wts (sp_ph s)) as [w0|] eqn:Ew.
  - unfold is_nurbs. rewrite Ew. destruct read_first as (q & -> & Hq). cbn [bind]. rewrite for_up_foldM, Z.sub_0_r, <- GL.
    destruct (weights_loop fmt tol d o s e w0 H Ew (grid (npts_of s)) q [] [of_string "]"] grid_boxes Hq) as (p' & E).
    cbn [app] in E. change (zlen (@nil R)) with 0 in E. exact (f_equal (fun m : Res (Z * list R) => bind m (fun st => Ok (snd st))) E).
  - unfold is_nurbs. rewrite Ew. f_equal. rewrite <- GL. unfold back_weight. rewrite Ew. rnorm. clear. induction (grid (npts_of s)) as [|x g IH]; cbn [List.length repeat map]; [reflexivity|now rewrite IH].
Qed.
Lemma read_points : irit_get_points (F := F) toward_zero (p + 2) e (is_nurbs s) (map (back_weight (dz := dz) fmt s) (grid (npts_of s)))
  = Ok (new_points (back_coord (dz := dz) fmt s) s (ph_dim (sp_ph s))).
Proof.
  pose proof grid_len as GL. unfold irit_get_points. rewrite read_number. cbn [bind]. destruct read_first as (q & -> & Hq). cbn [bind]. rewrite for_up_foldM, Z.sub_0_r, <- GL.
  destruct (points_loop fmt tol d o s e (map (back_weight (dz := dz) fmt s) (grid (npts_of s))) H (grid (npts_of s)) 0 q [] [of_string "]"] grid_boxes Hq ltac:(lia)) as (p' & E).
  - intros i Hi. rewrite Z.add_0_l. apply vget_at; [lia|]. rewrite Nat2Z.id. apply map_nth_error. now apply nth_error_nth'.
  - cbn [app] in E. exact (f_equal (fun m : Res (Z * list (list R)) => bind m (fun st => Ok (snd st))) E).
Qed.
Definition back : spline F := rebuilt rv rv (back_coord (dz := dz) fmt s) s (ph_dim (sp_ph s)).
Definition back_object : any (spline F) := if is_nurbs s then AnyN d back else AnyB d back.
Lemma read_spline : irit_get_spline (F := F) toward_zero d (p + 2) e = Ok back_object.
Proof.
  pose proof (ir_wf _ _ _ _ _ H) as Hwf. pose proof (wf_dim s Hwf) as D.
  unfold irit_get_spline. rewrite read_all_knots. cbn [bind]. rewrite read_degrees. cbn [bind]. rewrite read_rational. cbn [bind]. rewrite read_weights. cbn [bind].
  rewrite read_points. cbn [bind].
  pose proof (rebuilt_ok rv rv (back_coord (dz := dz) fmt s) s (ph_dim (sp_ph s)) Hwf D ltac:(destruct (ir_size _ _ _ _ _ H) as (_ & X & _); lia)) as E.
  unfold new_weights in E. unfold back_object, back, is_nurbs, back_weight. destruct (ph_wts (sp_ph s)) as [w|]; exact (f_equal (fun m : Res (spline F) => bind m _) E).
Qed.
Lemma back_holds : holds d back_object back.
Proof.
  destruct (rebuilt_knots (dz := dz) rv rv (back_coord fmt s) s (ph_dim (sp_ph s))) as (A & B & C & D & E). fold back in A, B, C, D, E.
  unfold holds. rewrite B. split; [apply H|]. unfold back_object, is_nurbs. destruct (ph_wts (sp_ph s)) eqn:Ew.
  - right. split; auto. destruct (ph_wts (sp_ph back)) as [w|]; [eauto|]. destruct E as [E _]. specialize (E eq_refl). discriminate.
  - left. split; auto. now apply E.
Qed.
Lemma back_close : irit_back fmt tol s back.
Proof.
  pose proof (ir_wf _ _ _ _ _ H) as Hwf. pose proof (wf_dim s Hwf) as D. pose proof (ir_prints _ _ _ _ _ H) as [P1 P2 P3]. split.
  - now apply rebuilt_shape.
  - apply rebuilt_sound; auto. destruct (ir_size _ _ _ _ _ H) as (_ & X & _). lia.
  - apply rebuilt_within. eapply Forall_impl; [|exact P1]. intros kv Hk. eapply Forall_impl; [|exact Hk]. intros x Hx. now apply rval_back.
  - intros idx Hi. unfold back. rewrite rebuilt_weight by auto. pose proof (proj2 (row_nums_ok fmt tol d o s idx H (proj1 (all_indices_box _ _) Hi))) as N.
    unfold row_nums in N. unfold weight at 2 in N. destruct (ph_wts (sp_ph s)) as [w|] eqn:Ew.
    + apply Forall_app in N. destruct N as [N _]. inversion N; subst. now apply rval_back.
    + assert (weight s idx = 1%R) as -> by (unfold weight; now rewrite Ew). split; [|auto]. rewrite Rminus_diag_eq by auto. rewrite Rabs_R0.
      destruct (rval_ok (dz := dz) fmt tol _ (P3 idx 0 Hi ltac:(lia))) as [_ T]. eapply Rle_trans; [|exact T]. apply Rabs_pos.
  - intros idx c Hi Hc Nt. unfold back. rewrite rebuilt_coordinate by auto. unfold irit_error, back_coord, back_weight.
    destruct (rval_ok (dz := dz) fmt tol _ (P3 idx c Hi Hc)) as [_ T]. destruct (ph_wts (sp_ph s)) as [w|] eqn:Ew.
    + assert (Nw : P (weight s idx)).
      { pose proof (P2 w eq_refl) as Hw'. rewrite Forall_forall in Hw'. unfold weight. rewrite Ew. apply Hw'. apply nth_In. apply all_indices_box in Hi.
        pose proof (wf_wts s Hwf w Ew) as El. rewrite position_get1d. pose proof (get1d_range _ _ Hi). unfold zlen in El. unfold npts_of in *. rnorm. lia. }
      destruct Nt as [Nt|Nt]; [discriminate|]. destruct (rval_ok (dz := dz) fmt tol _ Nw) as [_ T2].
      set (x := coordinate s idx c) in *. set (wt := weight s idx) in *. set (V := rv (x * wt)%R) in *. set (W := rv wt) in *.
      assert (HW : (wt - tol <= W)%R) by (pose proof (Rle_abs (- (W - wt))) as HA; rewrite Rabs_Ropp in HA; lra).
      assert (W > 0)%R by lra. rewrite ndiv_R by lra.
      replace (V / W - x)%R with (((V - x * wt) + x * (wt - W)) / W)%R by (field; lra).
      unfold Rdiv. rewrite Rabs_mult, (Rabs_right (/ W)) by (left; now apply Rinv_0_lt_compat).
      assert (A1 : (Rabs (V - x * wt + x * (wt - W)) <= tol * (1 + Rabs x))%R).
      { eapply Rle_trans; [apply Rabs_triang|]. rewrite Rabs_mult. rewrite (Rabs_minus_sym wt W). pose proof (Rabs_pos x). pose proof (Rabs_pos (W - wt)). nra. }
      apply Rmult_le_compat; auto.
      * apply Rabs_pos.
      * left. now apply Rinv_0_lt_compat.
      * apply Rinv_le_contravar; lra.
    + assert (weight s idx = 1%R) as E1 by (unfold weight; now rewrite Ew). rewrite E1, Rmult_1_r in *. rewrite ndiv_R by lra. unfold Rdiv. rewrite Rinv_1, Rmult_1_r. exact T.
  - intros idx c Hi Hc Nt. unfold back. rewrite rebuilt_coordinate by auto. unfold back_coord, back_weight.
    destruct (rval_ok (dz := dz) fmt tol _ (P3 idx c Hi Hc)) as [_ T]. destruct (ph_wts (sp_ph s)) as [w|] eqn:Ew.
    + destruct Nt as [Nt|[Nt Hp]]; [discriminate|]. rewrite (proj2 (rval_back (dz := dz) fmt 0 _ Nt) Nt).
      set (x := coordinate s idx c) in *. set (wt := weight s idx) in *. set (V := rv (x * wt)%R) in *. rewrite ndiv_R by lra.
      replace (V / wt - x)%R with ((V - x * wt) / wt)%R by (field; lra). unfold Rdiv. rewrite Rabs_mult, (Rabs_right (/ wt)) by (left; now apply Rinv_0_lt_compat).
      apply Rmult_le_compat_r; [left; now apply Rinv_0_lt_compat | exact T].
    + assert (weight s idx = 1%R) as E1 by (unfold weight; now rewrite Ew). rewrite E1, Rmult_1_r in *. rewrite ndiv_R by lra. unfold Rdiv. rewrite Rinv_1, !Rmult_1_r. exact T.
Qed.
End One.

(* ---- all splines of a file ---- *)
Lemma not_bspline_head t : (match t with [] => True | c :: _ => c <> "B"%char end) -> t <> of_string "BSPLINE".
Proof. intros H E. subst t. now apply H. Qed.
Lemma head_no_b t r : t <> [] -> Forall numchar t -> t ++ r <> of_string "BSPLINE".
Proof. intros Hne H. apply not_bspline_head. destruct t as [|c t]; [contradiction|]. inversion H as [|? ? C _]; subst. apply C. Qed.
Lemma words_bspline d o s number x k : irit_ready fmt tol d o s -> x <> of_string "BSPLINE" -> bpos k (spline_words fmt s number ++ [x]) = [k + 2].
Proof.
  intros H Hx. destruct (ready_ranges fmt tol d o s H) as (R1 & R2 & _). pose proof (ir_dim _ _ _ _ _ H) as Hd. assert (Ez : zlen (degs_of s) = d) by apply H.
  assert (E : spline_words fmt s number ++ [x] = [of_string "[OBJECT"; of_string "SPLINE" ++ int_str (number + 1); irit_kind d] ++ [of_string "BSPLINE"] ++ tail_words s ++ [x]).
  { unfold spline_words, header_words, tail_words. rewrite Ez. repeat rewrite <- app_assoc. cbn [app]. repeat rewrite <- app_assoc. reflexivity. }
  rewrite E, bpos_app, (bpos_app [of_string "BSPLINE"]). rewrite bpos_none, (bpos_none (tail_words s ++ [x])).
  - cbn [app bpos]. change (str_eqb (of_string "BSPLINE") (of_string "BSPLINE")) with true. cbn iota. rewrite app_nil_r. f_equal. unfold zlen. cbn [List.length]. lia.
  - apply Forall_app. split; [|constructor; [exact Hx|constructor]].
    assert (I : forall n, 0 <= n < 2 ^ 31 -> int_str n <> of_string "BSPLINE").
    { intros n Hn. rewrite <- (app_nil_r (int_str n)). apply head_no_b; [now apply int_plain | now apply numchar_int]. }
    assert (C : forall xs, Forall P xs -> Forall (fun t => t <> of_string "BSPLINE") (closed (map fmt xs))).
    { intros xs Hxs. induction Hxs as [|y ys Hy Hys IH]; [constructor|]. destruct (fmt_chars (dz := dz) fmt tol y Hy) as (A & _ & B & _).
      destruct ys as [|z ys]; cbn [map closed] in *; constructor; auto; [|rewrite <- (app_nil_r (fmt y))]; now apply head_no_b. }
    unfold tail_words. repeat (apply Forall_app; split).
    + rewrite Forall_map. eapply Forall_impl; [|exact R1]. cbv beta. intros n Hn. apply I. lia.
    + rewrite !Forall_map. eapply Forall_impl; [|exact R2]. cbv beta. intros n Hn. apply I. lia.
    + constructor; [|constructor]. apply not_bspline_head. unfold irit_point_type. destruct (is_nurbs s); discriminate.
    + unfold knot_words. apply Forall_concat. rewrite Forall_map. eapply Forall_impl; [|exact (ip_knots _ _ _ (ir_prints _ _ _ _ _ H))].
      intros kv Hk. constructor; [apply not_bspline_head; discriminate|]. now apply C.
    + unfold point_words. apply Forall_concat. rewrite Forall_map. eapply Forall_impl; [|exact (grid_boxes s)]. intros idx Hi.
      destruct (row_nums_ok fmt tol d o s idx H Hi) as [_ N2]. rewrite row_texts_nums. unfold opened. pose proof (C _ N2) as C'. destruct (closed (map fmt (row_nums s idx))) as [|y ys]; [constructor|].
      inversion C'; subst. constructor; auto. apply not_bspline_head. discriminate.
    + constructor; [apply not_bspline_head; discriminate | constructor].
  - constructor; [apply not_bspline_head; discriminate|]. constructor; [apply not_bspline_head; discriminate|]. constructor; [|constructor].
    apply not_bspline_head. assert (d = 1 \/ d = 2 \/ d = 3) as [->|[-> | ->]] by lia; discriminate.
Qed.

(* a spline, its number and the word behind it *)
Definition chunk (c : (Z * spline F) * str) : list str := spline_words fmt (snd (fst c)) (fst (fst c)) ++ [snd c].
Lemma chunks_read e : forall cs pre post acc, e = pre ++ concat (map chunk cs) ++ post ->
  Forall (fun c => snd c <> of_string "BSPLINE" /\ exists d o, irit_ready fmt tol d o (snd (fst c))) cs ->
  exists os', foldM (fun acc p => t <- vget e p ;; let d := irit_dimension t in
      if (d =? 1) || (d =? 2) || (d =? 3) then s <- irit_get_spline (F := F) toward_zero d p e ;; Ok (acc ++ [s]) else Ok acc)
    (bpos (zlen pre) (concat (map chunk cs))) acc = Ok (acc ++ os') /\
  Forall2 (fun o' c => exists d, holds d o' (back (snd (fst c)))) os' cs.
Proof.
  induction cs as [|c cs IH]; intros pre post acc He Hc; cbn [map concat bpos].
  - exists []. cbn [foldM]. rewrite app_nil_r. split; [reflexivity|constructor].
  - pose proof (Forall_inv Hc) as (Hx & d & o & H). pose proof (Forall_inv_tail Hc) as Hc'. destruct c as [[number s] x]. cbn [fst snd chunk] in *.
    rewrite bpos_app, foldM_app. unfold chunk at 1. cbn [fst snd]. rewrite (words_bspline d o s number x _ H Hx). cbn [foldM].
    assert (S0 : stands e (zlen pre) (spline_words fmt s number)).
    { exists pre, ([x] ++ concat (map chunk cs) ++ post). split; [|reflexivity]. rewrite He. cbn [map concat]. unfold chunk at 1. cbn [fst snd]. now repeat rewrite <- app_assoc. }
    destruct (stands_cons _ _ _ _ (at_kind d o s number (zlen pre) e H S0)) as [-> _]. cbn [bind]. cbv zeta.
    pose proof (ir_dim _ _ _ _ _ H) as Hd. rewrite (proj1 (kind_dimension d Hd)).
    replace ((d =? 1) || (d =? 2) || (d =? 3))%bool with true by (assert (d = 1 \/ d = 2 \/ d = 3) as [->|[-> | ->]] by lia; reflexivity).
    rewrite (read_spline d o s number (zlen pre) e H S0). cbn [bind].
    destruct (IH (pre ++ chunk (number, s, x)) post (acc ++ [back_object d s])) as (os' & E & G).
    + rewrite He. cbn [map concat]. now repeat rewrite <- app_assoc.
    + exact Hc'.
    + exists (back_object d s :: os'). split.
      * replace (zlen pre + zlen (chunk (number, s, x))) with (zlen (pre ++ chunk (number, s, x))) by (unfold zlen; rewrite app_length; lia).
        change ((spline_words fmt s number ++ [x])) with (chunk (number, s, x)). rewrite E. now rewrite <- app_assoc.
      * constructor; auto. exists d. apply (back_holds d o); auto.
Qed.

(* the words of the whole file *)
Fixpoint numbered (k : Z) (ss : list (spline F)) : list (Z * spline F) :=
  match ss with [] => [] | s :: t => (k, s) :: numbered (k + 1) t end.
Definition bracket : str := of_string "]".
Lemma chunk_words (l : list (Z * spline F)) : l <> [] -> exists a w cs,
  concat (map (fun c => spline_words fmt (snd c) (fst c) ++ [bracket]) l) = a ++ [w] /\ a ++ [w ++ bracket] = concat (map chunk cs) /\
  map fst cs = l /\ Forall (fun c => snd c <> of_string "BSPLINE") cs.
Proof.
  intros Hne. destruct (exists_last Hne) as (l0 & c & ->). rewrite map_app, concat_app. cbn [map concat]. rewrite app_nil_r.
  exists (concat (map (fun c => spline_words fmt (snd c) (fst c) ++ [bracket]) l0) ++ spline_words fmt (snd c) (fst c)), bracket, (map (fun c => (c, bracket)) l0 ++ [(c, bracket ++ bracket)]).
  split; [now rewrite app_assoc|]. split; [|split].
  - rewrite map_app, concat_app, map_map. unfold chunk. cbn [map concat fst snd]. rewrite app_nil_r. now rewrite <- app_assoc.
  - rewrite map_app, map_map. cbn [map fst]. rewrite map_id. reflexivity.
  - apply Forall_app. split; [rewrite Forall_map; apply Forall_forall; intros y _; discriminate | repeat constructor; discriminate].
Qed.

Lemma file_texts os ss : Forall2 (fun o s => exists d, irit_ready fmt tol d o s) os ss -> forall k n, 0 <= k -> k + zlen os <= n -> n < 2 ^ 31 - 1 -> forall all,
  (forall i, (i < List.length os)%nat -> vget all (k + Z.of_nat i) = Ok (nth i os (AnyOther))) ->
  exists ts, mapM (fun i => spl <- vget all i ;; t <- irit_spline (F := F) fmt spl i ;; Ok (t ++ (if i <? n - 1 then nl else []))) (zseq k (List.length os)) = Ok ts /\
  Forall2 emits ts (map (fun c => spline_words fmt (snd c) (fst c) ++ [bracket]) (numbered k ss)).
Proof.
  induction 1 as [|o s os ss (d & Hs) H IH]; intros k n Hk Hn Hb all Hall; cbn [List.length zseq mapM numbered map].
  - exists []. split; [reflexivity|constructor].
  - pose proof (Hall 0%nat ltac:(cbn [List.length]; lia)) as E0. cbn [nth Z.of_nat] in E0. rewrite Z.add_0_r in E0. rewrite E0. cbn [bind].
    assert (Hlen : zlen (o :: os) = zlen os + 1) by (unfold zlen; cbn [List.length]; lia). assert (0 <= zlen os) by (unfold zlen; lia).
    destruct (spline_text fmt tol d o s k Hs ltac:(lia)) as (t & Et & M1 & M2). rewrite Et. cbn [bind].
    destruct (IH (k + 1) n ltac:(lia) ltac:(lia) Hb all) as (ts & E & G).
    + intros i Hi. replace (k + 1 + Z.of_nat i) with (k + Z.of_nat (S i)) by lia. apply (Hall (S i)). cbn [List.length]. lia.
    + rewrite E. cbn [bind]. eexists. split; [reflexivity|]. constructor; auto. cbn [fst snd]. unfold bracket. destruct (k <? n - 1); [exact M2|]. rewrite app_nil_r. exact M1.
Qed.
Lemma numbered_snd k ss : map snd (numbered k ss) = ss.
Proof. revert k; induction ss as [|s ss IH]; intros k; cbn [numbered map snd]; [reflexivity|now rewrite IH]. Qed.

Lemma irit_round_trip os ss : Forall2 (fun o s => exists d, irit_ready fmt tol d o s) os ss -> zlen os < 2 ^ 31 - 1 ->
  exists text os', write_irit (F := F) fmt os = Ok text /\ read_irit (F := F) toward_zero text = Ok os' /\
    Forall2 (fun o' s' => exists d, holds d o' s') os' (map back ss) /\ Forall2 (irit_back fmt tol) ss (map back ss).
Proof.
  intros H Hb. destruct (file_texts os ss H 0 (zlen os) ltac:(lia) ltac:(lia) Hb os) as (ts & E & G).
  { intros i Hi. rewrite Z.add_0_l. apply vget_at; [lia|]. rewrite Nat2Z.id. now apply nth_error_nth'. }
  assert (HW : write_irit (F := F) fmt os = Ok (of_string "[OBJECT SPLINES" ++ nl ++ concat ts ++ of_string "]")).
  { unfold write_irit, concatM.
    exact (f_equal (fun m : Res (list str) => bind (bind m (fun t => Ok (concat t))) (fun text => Ok (of_string "[OBJECT SPLINES" ++ nl ++ text ++ of_string "]"))) E). }
  eexists. destruct ss as [|s ss].
  - inversion H; subst. exists []. split; [exact HW|]. inversion G; subst. split; [|split; constructor]. vm_compute. reflexivity.
  - destruct (chunk_words (numbered 0 (s :: ss))) as (a & w & cs & EA & EC & EF & EB); [discriminate|].
    assert (Hts : ts <> []) by (intros ->; inversion G). assert (GC := emits_concat _ _ Hts G). rewrite EA in GC. destruct GC as (l & w' & El & _ & GW).
    apply app_inj_tail in El. destruct El as [<- <-].
    assert (EE : words [] (of_string "[OBJECT SPLINES" ++ nl ++ concat ts ++ of_string "]") = [of_string "[OBJECT"; of_string "SPLINES"] ++ concat (map chunk cs) ++ []).
    { change (words [] (of_string "[OBJECT SPLINES" ++ nl ++ concat ts ++ of_string "]")) with (of_string "[OBJECT" :: words (of_string "SPLINES") (concat ts ++ of_string "]")).
      rewrite GW. rewrite <- EC, app_nil_r. unfold bracket.
      assert (EWW : words w (of_string "]") = [w ++ of_string "]"]). { change (words w (of_string "]")) with (flush (w ++ of_string "]")). apply flush_some. intros X. apply app_eq_nil in X. destruct X; discriminate. }
      rewrite EWW. reflexivity. }
    assert (R : Forall (fun c => snd c <> of_string "BSPLINE" /\ exists d o, irit_ready fmt tol d o (snd (fst c))) cs).
    { apply Forall_forall. intros c Hc. rewrite Forall_forall in EB. split; [now apply EB|].
      assert (I : In (snd (fst c)) (s :: ss)). { rewrite <- (numbered_snd 0 (s :: ss)), <- EF, map_map. now apply (in_map (fun c => snd (fst c))). }
      clear - H I. induction H as [|o s' os ss' (d & Hd) H IH]; [contradiction|]. destruct I as [<- |I]; eauto. }
    destruct (chunks_read _ cs [of_string "[OBJECT"; of_string "SPLINES"] [] [] EE R) as (os' & EO & FO).
    exists os'. split; [exact HW|]. split; [|split].
    + unfold read_irit. unfold blank. rewrite split_words. rewrite positions_bpos. cbn [bind].
      assert (EBP : bpos 0 (words [] (of_string "[OBJECT SPLINES" ++ nl ++ concat ts ++ of_string "]")) = bpos (zlen [of_string "[OBJECT"; of_string "SPLINES"]) (concat (map chunk cs))).
      { rewrite EE, app_nil_r, bpos_app. rewrite (bpos_none [_; _]); [reflexivity|]. repeat constructor; discriminate. }
      rewrite EBP. exact EO.
    + assert (EM : map back (s :: ss) = map (fun c => back (snd (fst c))) cs). { rewrite <- (numbered_snd 0 (s :: ss)), <- EF, !map_map. reflexivity. }
      rewrite EM. clear - FO. induction FO; cbn [map]; constructor; auto.
    + clear - H. induction H as [|o s' os ss' (d & Hd) H IH]; cbn [map]; constructor; auto. now apply (back_close d o).
Qed.
End File.
