(* Closing lemmas for degree elevation, degree reduction and the geometric comparison (C29 to C31). *)
From Coq Require Import ZArith List Bool Lia Reals Lra.
From Verif Require Import Base BaseFacts RSum MultiIndex MultiIndexSpec MultiIndexFacts TensorSum
  KnotVec KnotVecSpec KnotVecFacts KnotVecThms VecUtils Spaces SpacesSpec SpacesFacts SpacesThms SplineEval SplineEdit SplineDegree SplineSpec EvalFacts RationalDeriv EvalDeriv
  SplineNew BasisThms EvalThms InsertThms SubdivideThms DegreeSpec DegreeFacts DegreeReduce.
Import ListNotations.
Open Scope Z_scope.

(* ---- C29 ---- *)
Lemma shape_seg p lines dim cps : segment_shape p lines dim cps <-> seg (lines * (p + 1)) dim cps.
Proof. split; intros [H1 H2]; split; auto. Qed.

Lemma elevation_defect : forall dz p pdim lines cps, 1 <= p -> 0 <= pdim -> 0 <= lines ->
  segment_shape p lines (pdim + 1) cps ->
  exists new, elevate_segment (F := Rops dz) p pdim lines cps (elevation_coefficients (F := Rops dz) p) = Ok new /\
    segment_shape (p + 1) lines (pdim + 1) new /\
    (forall i c, 0 <= i < lines -> 0 <= c <= pdim -> value new (p + 1) i p c = 0%R) /\
    (forall i c u, 0 <= i < lines -> 0 <= c <= pdim ->
       bezier (p + 1) (fun j => value new (p + 1) i j c) u =
       (bezier p (fun j => value cps p i j c) u -
        bernstein (p + 1) p u * elevated (p + 1) (fun j => value cps p i j c) p)%R).
Proof.
  intros dz p pdim lines cps Hp Hd Hl Hs.
  destruct (elevate_segment_ok dz p pdim lines cps ltac:(lia) Hd Hl (proj1 (shape_seg _ _ _ _) Hs)) as (new & E & S & V).
  assert (V' : forall i j c, 0 <= i < lines -> 0 <= j <= p + 1 -> value new (p + 1) i j c =
    if j =? p then 0%R else elevated (p + 1) (fun j => value cps p i j c) j).
  { intros i j c Hi Hj. specialize (V i j c Hi Hj). destruct (Z.leb_spec 1 p); [|lia]. cbn [andb] in V.
    rewrite <- co_value. replace (p + 1 + 1) with (p + 2) by lia. exact V. }
  exists new. split; [exact E|]. split.
  { apply shape_seg. replace (p + 1 + 1) with (p + 2) by lia. exact S. }
  split.
  - intros i c Hi Hc. rewrite V' by lia. now rewrite Z.eqb_refl.
  - intros i c u Hi Hc. set (f := fun j => value cps p i j c).
    replace p with (p + 1 - 1) at 2 by lia. rewrite <- (bezier_elevated (p + 1) f u) by lia.
    set (g := fun j => if j =? p then elevated (p + 1) f p else 0%R).
    assert (Eg : (bernstein (p + 1) p u * elevated (p + 1) f p = bezier (p + 1) g u)%R).
    { rewrite (bezier_two (p + 1) g p u); [|lia|lia|].
      - unfold g. rewrite Z.eqb_refl. destruct (Z.eqb_spec (p + 1) p); [lia|]. ring.
      - intros j Hj N1 _. unfold g. destruct (Z.eqb_spec j p); [lia|reflexivity]. }
    rewrite Eg, <- bezier_minus. apply bezier_ext. intros j Hj. rewrite V' by lia. unfold g.
    destruct (Z.eqb_spec j p) as [->|]; [fold f; ring | fold f; ring].
Qed.

Lemma elevation_degree_zero : forall dz pdim lines cps, 0 <= pdim -> 0 <= lines ->
  segment_shape 0 lines (pdim + 1) cps ->
  exists new, elevate_segment (F := Rops dz) 0 pdim lines cps (elevation_coefficients (F := Rops dz) 0) = Ok new /\
    segment_shape 1 lines (pdim + 1) new /\ elevation_of 1 lines (pdim + 1) cps new.
Proof.
  intros dz pdim lines cps Hd Hl Hs.
  destruct (elevate_segment_ok dz 0 pdim lines cps ltac:(lia) Hd Hl (proj1 (shape_seg _ _ _ _) Hs)) as (new & E & S & V).
  exists new. split; [exact E|]. split; [apply shape_seg; exact S|].
  intros i j c Hi Hj Hc. rewrite <- co_value. specialize (V i j c Hi ltac:(lia)). cbn [Z.leb andb] in V. exact V.
Qed.

(* ---- C30 ---- *)
Lemma reduction_exact : forall dz p pdim lines cps, 2 <= p -> 0 <= pdim -> 0 <= lines ->
  segment_shape p lines (pdim + 1) cps ->
  exists new err,
    (forall tol, reduce_segment (F := Rops dz) p pdim lines cps tol = Ok (new, if Rlt_dec err tol then true else false)) /\
    segment_shape (p - 1) lines (pdim + 1) new /\ (0 <= err)%R /\
    (forall i c u, 0 <= i < lines -> 0 <= c <= pdim -> (0 <= u <= 1)%R ->
       (Rabs (bezier p (fun j => value cps p i j c) u - bezier (p - 1) (fun j => value new (p - 1) i j c) u) <= err)%R) /\
    (err = 0%R <-> exists P, segment_shape (p - 1) lines (pdim + 1) P /\ elevation_of p lines (pdim + 1) P cps) /\
    (forall P, segment_shape (p - 1) lines (pdim + 1) P -> elevation_of p lines (pdim + 1) P cps -> new = P).
Proof.
  intros dz p pdim lines cps Hp Hd Hl Hs. apply shape_seg in Hs.
  destruct (reduce_segment_ok dz p pdim lines cps Hp Hd Hl Hs) as (new & err & ef & E & S & Herr & Hef & Hmax).
  assert (EV : forall i j c, value new (p - 1) i j c = co new (i * p + j) c).
  { intros. unfold value, co, pt. replace (p - 1 + 1) with p by lia. reflexivity. }
  exists new, err. split; [exact E|].
  split; [apply shape_seg; replace (p - 1 + 1) with p by lia; exact S|]. split; [exact Herr|].
  assert (UNIQ : forall P, segment_shape (p - 1) lines (pdim + 1) P -> elevation_of p lines (pdim + 1) P cps ->
    (forall i, 0 <= i < lines -> norm (ef i) = 0%R) /\ new = P).
  { intros P HP HE. apply shape_seg in HP. replace (p - 1 + 1) with p in HP by lia.
    assert (G : forall i c, 0 <= i < lines -> 0 <= c < pdim + 1 ->
       nth (Z.to_nat c) (ef i) 0%R = 0%R /\ forall j, 0 <= j <= p - 1 -> co new (i * p + j) c = co P (i * p + j) c).
    { intros i c Hi Hc. destruct (Hef i Hi) as (Le & Hres & _).
      apply (residual_exact p cps new (ef i) (fun j => co P (i * p + j) c) i c Hp ltac:(lia) Hres).
      intros j Hj. rewrite co_value, (HE i j c Hi Hj Hc). unfold elevated. unfold value, co, pt. replace (p - 1 + 1) with p by lia. reflexivity. }
    split.
    - intros i Hi. apply norm_of_zero. intros c. destruct (Hef i Hi) as (Le & _).
      destruct (Z.lt_ge_cases (Z.of_nat c) (pdim + 1)) as [Hc|Hc].
      + destruct (G i (Z.of_nat c) Hi ltac:(lia)) as [G1 _]. now rewrite Nat2Z.id in G1.
      + apply nth_overflow. unfold zlen in Le. lia.
    - destruct S as [S1 S2]. destruct HP as [P1 P2]. apply (list_ext _ _ []).
      + zl.
      + intros k Hk. rewrite Forall_forall in S2, P2.
        assert (LS : zlen (nth k new []) = pdim + 1) by (apply S2, nth_In; auto).
        assert (LP : zlen (nth k P []) = pdim + 1) by (apply P2, nth_In; zl).
        apply (list_ext _ _ 0%R); [zl|]. intros c Hc.
        set (i := Z.of_nat k / p). set (j := Z.of_nat k mod p).
        pose proof (Z.div_mod (Z.of_nat k) p ltac:(lia)) as DM. pose proof (Z.mod_pos_bound (Z.of_nat k) p ltac:(lia)) as MB.
        fold i j in DM. fold j in MB.
        assert (Hi : 0 <= i < lines). { assert (Hk' : Z.of_nat k < p * lines) by (rewrite Z.mul_comm; zl). split; [apply Z.div_pos; lia|]. apply Z.div_lt_upper_bound; lia. }
        destruct (G i (Z.of_nat c) Hi ltac:(zl)) as [_ G2]. specialize (G2 j ltac:(lia)).
        unfold co, pt in G2. rewrite Nat2Z.id in G2. replace (i * p + j) with (Z.of_nat k) in G2 by lia. rewrite Nat2Z.id in G2. exact G2. }
  split; [|split].
  - intros i c u Hi Hc Hu. destruct (Hef i Hi) as (Le & Hres & Hn).
    eapply Rle_trans; [|exact Hn]. rewrite (bezier_ext (p - 1) _ (fun j => co new (i * p + j) c)) by (intros; apply EV).
    apply (residual_deviation p i cps new (ef i) u c Hp ltac:(lia) Hres Hu).
  - split.
    + intros E0. exists new. split; [apply shape_seg; replace (p - 1 + 1) with p by lia; exact S|].
      intros i j c Hi Hj Hc. destruct (Hef i Hi) as (Le & Hres & Hn). rewrite E0 in Hn.
      assert (N0 : norm (ef i) = 0%R) by (pose proof (norm_nonneg (ef i)); lra).
      specialize (Hres j c Hj ltac:(lia)). rewrite (norm_zero _ N0) in Hres. rewrite Rmult_0_r in Hres.
      rewrite <- co_value. unfold elevated in *. rewrite !EV. lra.
    + intros (P & HP & HE). destruct (UNIQ P HP HE) as [N0 _]. destruct Hmax as [H|(i & Hi & H)]; auto. rewrite H. auto.
  - intros P HP HE. apply (UNIQ P HP HE).
Qed.

Lemma reduction_degree_one : forall dz pdim lines cps tol, 0 <= pdim -> 1 <= lines ->
  segment_shape 1 lines (pdim + 1) cps -> reduce_segment (F := Rops dz) 1 pdim lines cps tol = UB.
Proof.
  intros dz pdim lines cps tol Hd Hl Hs. apply shape_seg in Hs.
  unfold reduce_segment, vmake. assert (E0 : 1 * lines <? 0 = false) by (apply Z.ltb_ge; lia). rewrite E0. cbn [bind].
  unfold for_up. replace (Z.to_nat (lines - 0)) with (S (Z.to_nat (lines - 1))) by lia. cbn [for_n].
  match goal with |- bind (bind ?m _) _ = UB => assert (E : m = UB) end; [|rewrite E; reflexivity].
  unfold ix2.
  destruct (seg_get _ _ _ 0 Hs ltac:(lia)) as [Ea La]. destruct (seg_get _ _ _ 1 Hs ltac:(lia)) as [Eb Lb].
  assert (S0 : seg lines (pdim + 1) (repeat (repeat 0%R (Z.to_nat (pdim + 1))) (Z.to_nat (1 * lines)))).
  { replace (1 * lines) with lines by lia. replace (pdim + 1) with (Z.of_nat (Z.to_nat (pdim + 1))) at 1 by lia. apply seg_repeat. lia. }
  destruct (seg_set _ _ _ 0 _ S0 ltac:(lia) La) as (n1 & E1 & S1 & P1 & O1).
  destruct (seg_set _ _ n1 0 _ S1 ltac:(lia) Lb) as (n2 & E2 & S2 & P2 & O2).
  change (0 * (1 + 1) + 0) with 0. change (0 * 1 + 0) with 0. change (0 * (1 + 1) + (1 - 1 + 1)) with 1. change (0 * 1 + (1 - 1)) with 0.
  step Ea. step E1. step Eb. step E2.
  change (Z.rem (1 - 1 + 1) 2 =? 0) with false. cbn [negb]. change (Z.quot (1 - 1) 2) with 0.
  cbn [Z.sub Z.add Z.opp Z.pos_sub Z.to_nat for_n Pos.to_nat]. cbn [bind zseq rev foldM]. 
  destruct (seg_get _ _ _ 0 Hs ltac:(lia)) as [Ec _]. cbn [Z.mul Z.add].
  step Ec.
  match goal with |- bind ?m _ = UB => assert (Ev : m = UB) by (apply vget_out; lia); rewrite Ev end. reflexivity.
Qed.

(* ---- C31 ---- *)
Section Geometric.
Variable dz : R -> R.
Local Notation F := (Rops dz).
Implicit Types s : spline F.

Lemma transform_ok (a b : list R) : length a = length b -> transform_into (F := F) Rminus a b = Ok (map2 Rminus a b).
Proof.
  revert b. induction a as [|x a IH]; intros [|y b] H; try discriminate; auto.
  cbn [transform_into map2]. rewrite IH by (injection H; auto). reflexivity.
Qed.

Lemma distance_ok (a b : list R) : length a = length b -> distance (F := F) a b = Ok (euclid a b).
Proof.
  intros H. unfold distance, difference. 
  assert (E := transform_ok a b H). step E. f_equal.
  unfold two_norm, euclid. rnorm. rewrite sum_of_R, lsum_map. cbn [nsqrt Rops].
  assert (G : lsum (fun a => a * a)%R (map2 Rminus a b) = lsum (fun xy => (fst xy - snd xy) * (fst xy - snd xy))%R (combine a b)).
  { clear. revert b. induction a as [|x a IH]; intros [|y b]; cbn [map2 combine lsum]; auto. now rewrite IH. }
  destruct (Rlt_dec _ 0) as [C|C]; [|now rewrite G]. exfalso. apply (Rlt_irrefl 0). eapply Rle_lt_trans; [|exact C].
  apply lsum_nonneg. intros x _. apply Rle_0_sqr.
Qed.

Lemma sample_ok (knots : list (list R)) number idx : 1 <= number -> Forall (fun kv => kv <> []) knots ->
  mapM (fun x => l <- last_knot (F := F) (fst x) ;; f <- get_knot (F := F) (fst x) 0 ;;
                 Ok ((l - f) / nofZ number * nofZ (snd x))%num) (combine knots idx) = Ok (sample knots number idx).
Proof.
  intros Hn H. revert idx. induction H as [|kv knots Hkv H IH]; intros [|i idx]; cbn [combine mapM sample map2]; auto.
  cbn [fst snd].
  assert (Hlen : 0 < zlen kv) by (destruct kv; [contradiction | unfold zlen; cbn [length]; lia]).
  rewrite last_knot_ok by zl. cbn [bind]. unfold get_knot.
  assert (E : vget kv 0 = Ok (first_knot kv)) by (rewrite (vget_nth kv 0 0%R) by lia; reflexivity). step E.
  fold (sample knots number idx). step (IH idx). rewrite ndiv_R; [reflexivity|]. cbn. apply not_0_IZR. lia.
Qed.

Lemma good_nonempty knots degs : Forall2 good_direction knots degs -> Forall (fun kv : list R => kv <> []) knots.
Proof.
  intros H. induction H as [|kv p l1 l2 (Hp & (Hc & _) & _) H IH]; constructor; auto. intros ->. cbn [length] in Hc. lia.
Qed.

Definition all_coordinates s : list Z := zseq 0 (Z.to_nat (ph_dim (sp_ph s))).

Lemma all_coordinates_valid s s' : ph_dim (sp_ph s) <= ph_dim (sp_ph s') -> valid_dims s' (all_coordinates s).
Proof. intros H. apply Forall_forall. intros c Hc. apply zseq_In in Hc. lia. Qed.

Lemma sample_length knots number idx : length idx = length knots -> length (sample knots number idx) = length knots.
Proof. intros H. unfold sample. rewrite map2_length; auto. Qed.

(* one sample *)
Definition compare_at (a b : spline F) (tol : R) (us : list R) : Res bool :=
  x <- evaluate a us (all_coordinates a) ;; y <- evaluate b us (all_coordinates a) ;;
  d <- distance (F := F) x y ;; Ok (negb (Rltb tol d)).

Lemma geometrically_equal_fold (a b : spline F) (tol : R) number : well_formed a -> 1 <= number ->
  geometrically_equal a b tol number =
  foldM (fun (acc : bool) idx => if acc then compare_at a b tol (sample (knots_of a) number idx) else Ok false)
    (visited (map (fun _ => number + 1) (degs_of a))) true.
Proof.
  intros Hwf Hn. unfold geometrically_equal. rewrite mih_loop_visited. cbn [mcur].
  fold (degs_of a). set (l := visited _). clearbody l. generalize true at 1 2 as acc. induction l as [|idx l IH]; intros acc; cbn [foldM]; auto.
  destruct acc.
  - fold (knots_of a).
    pose proof (sample_ok (knots_of a) number idx Hn (good_nonempty _ _ (wf_directions a Hwf))) as E.
    match goal with |- bind (bind ?m ?f) ?g = bind ?r ?g' => assert (E' : bind m f = r) end.
    { step E. reflexivity. }
    rewrite E'. destruct (compare_at a b tol (sample (knots_of a) number idx)) as [v| |]; cbn [bind]; auto.
  - cbn [bind]. apply IH.
Qed.

Lemma foldM_forall {A} (f : A -> Res bool) (P : A -> Prop) l :
  (forall x, In x l -> exists r, f x = Ok r /\ (r = true <-> P x)) ->
  forall acc, exists r, foldM (fun (acc : bool) x => if acc then f x else Ok false) l acc = Ok r /\
    (r = true <-> acc = true /\ forall x, In x l -> P x).
Proof.
  induction l as [|x l IH]; intros H acc; cbn [foldM].
  - exists acc. split; auto. split; [intros; split; auto; intros ? [] | tauto].
  - destruct acc.
    + destruct (H x (or_introl eq_refl)) as (r & E & Hr). rewrite E. cbn [bind].
      destruct (IH (fun y Hy => H y (or_intror Hy)) r) as (r' & E' & Hr'). exists r'. split; auto.
      rewrite Hr'. split.
      * intros [T1 T2]. split; auto. intros y [->|Hy]; [now apply Hr|auto].
      * intros [_ T]. split; [apply Hr, T; now left | intros; apply T; now right].
    + cbn [bind]. destruct (IH (fun y Hy => H y (or_intror Hy)) false) as (r' & E' & Hr'). exists r'. split; auto.
      rewrite Hr'. split; intros [C _]; discriminate.
Qed.

Lemma grid_box n (degs : list Z) idx : in_box (map (fun _ => n) degs) idx -> length idx = length degs.
Proof. intros H. apply in_box_length in H. now rewrite map_length in H. Qed.

Lemma sample_in_range number (degs : list Z) idx (knots : list (list R)) : 1 <= number -> length degs = length knots ->
  in_box (map (fun _ => number + 1) degs) idx ->
  Forall (fun kv => first_knot kv = 0%R /\ (0 <= final_knot kv)%R) knots ->
  Forall2 (fun kv u => (first_knot kv <= u <= final_knot kv)%R) knots (sample knots number idx).
Proof.
  intros Hn Hl Hb H. revert degs idx Hl Hb. induction H as [|kv knots (H0 & H1) H IH]; intros [|p degs] idx Hl Hb; try discriminate.
  - inversion Hb; subst. constructor.
  - cbn [map] in Hb. inversion Hb as [|? i ? idx' Hi Hb']; subst. cbn [sample map2]. constructor; [|apply (IH degs); auto].
    rewrite H0. assert (P : (0 < IZR number)%R) by (apply IZR_lt; lia).
    assert (I0 : (0 <= IZR i)%R) by (apply IZR_le; lia). assert (I1 : (IZR i <= IZR number)%R) by (apply IZR_le; lia).
    replace ((final_knot kv - 0) / IZR number * IZR i)%R with (final_knot kv * (IZR i / IZR number))%R by (field; lra).
    assert (Q : (0 <= IZR i / IZR number <= 1)%R).
    { split; [apply Rmult_le_pos; auto; apply Rlt_le, Rinv_0_lt_compat; lra|].
      apply Rmult_le_reg_r with (IZR number); [lra|]. unfold Rdiv. rewrite Rmult_assoc, Rinv_l by lra. lra. }
    split; [apply Rmult_le_pos; lra|]. rewrite <- (Rmult_1_r (final_knot kv)) at 2. apply Rmult_le_compat_l; lra.
Qed.

Lemma good_first_final kv p : good_direction kv p -> (first_knot kv <= final_knot kv)%R.
Proof. intros (_ & _ & _ & _ & H). lra. Qed.

Lemma geometric_equality_sound : forall (a b : spline F) (tol : R) number, well_formed a -> well_formed b -> 1 <= number ->
  ph_dim (sp_ph a) <= ph_dim (sp_ph b) ->
  Forall2 (fun kv kv' => first_knot kv = 0%R /\ first_knot kv' = 0%R /\ final_knot kv' = final_knot kv) (knots_of a) (knots_of b) ->
  exists r, geometrically_equal a b tol number = Ok r /\
    (r = true <-> forall idx, in_box (map (fun _ => number + 1) (degs_of a)) idx ->
       exists va vb, evaluate a (sample (knots_of a) number idx) (all_coordinates a) = Ok va /\
         evaluate b (sample (knots_of a) number idx) (all_coordinates a) = Ok vb /\ (euclid va vb <= tol)%R).
Proof.
  intros a b tol number Ha Hb Hn Hdim Hdom. rewrite geometrically_equal_fold by auto.
  set (lens := map (fun _ => number + 1) (degs_of a)).
  assert (Hpos : pos_lens lens) by (apply Forall_forall; intros x Hx; apply in_map_iff in Hx; destruct Hx as (? & <- & _); lia).
  assert (Lk : length (degs_of a) = length (knots_of a)) by (symmetry; apply (Forall2_len _ _ _ (wf_directions a Ha))).
  assert (Lb : length (knots_of b) = length (knots_of a)) by (symmetry; apply (Forall2_len _ _ _ Hdom)).
  destruct (foldM_forall (fun idx => compare_at a b tol (sample (knots_of a) number idx))
    (fun idx => exists va vb, evaluate a (sample (knots_of a) number idx) (all_coordinates a) = Ok va /\
         evaluate b (sample (knots_of a) number idx) (all_coordinates a) = Ok vb /\ (euclid va vb <= tol)%R) (visited lens)) with (acc := true)
    as (r & E & Hr).
  - intros idx Hin. apply visited_In in Hin; auto.
    assert (Li : length idx = length (knots_of a)) by (rewrite <- Lk; eapply grid_box; exact Hin).
    assert (Da : in_domain a (sample (knots_of a) number idx)).
    { unfold in_domain. apply (sample_in_range number (degs_of a)); auto.
      pose proof (wf_directions a Ha) as G. revert G. generalize (degs_of a). clear - Hdom. induction Hdom as [|kv kv' l l' (D1 & D2 & D3) Hd IH]; intros degs G.
      - constructor. - inversion G; subst. constructor; [|eapply IH; eauto]. split; auto. rewrite <- D1. eapply good_first_final; eauto. }
    assert (Db : in_domain b (sample (knots_of a) number idx)).
    { unfold in_domain in *. clear - Da Hdom. revert Da. generalize (sample (knots_of a) number idx). 
      induction Hdom as [|kv kv' l l' (D1 & D2 & D3) Hd IH]; intros us Da; inversion Da; subst; constructor; auto. rewrite D2, D3, <- D1. auto. }
    destruct (eval_safe dz a (sample (knots_of a) number idx) (all_coordinates a) (zeros (length (degs_of a))) Ha (sample_length _ _ _ Li)
       (all_coordinates_valid a a ltac:(lia)) (zeros_length _) (zeros_nonneg _)) as [Sa _].
    destruct (Sa Da) as [(va & Ea & La) _].
    destruct (eval_safe dz b (sample (knots_of a) number idx) (all_coordinates a) (zeros (length (degs_of b))) Hb ltac:(rewrite Lb; apply sample_length; auto)
       (all_coordinates_valid a b ltac:(lia)) (zeros_length _) (zeros_nonneg _)) as [Sb _].
    destruct (Sb Db) as [(vb & Eb & Lvb) _].
    unfold compare_at. rewrite Ea, Eb. cbn [bind]. assert (Ed := distance_ok va vb (eq_trans La (eq_sym Lvb))). step Ed.
    eexists. split; [reflexivity|]. destruct (Rltb_spec tol (euclid va vb)) as [C|C]; cbn [negb].
    + split; [discriminate|]. intros (va' & vb' & E1 & E2 & C'). injection E1 as <-. injection E2 as <-. lra.
    + split; auto. intros _. exists va, vb. repeat split; auto. lra.
  - exists r. split; [exact E|]. rewrite Hr. split.
    + intros [_ T] idx Hin. apply T, visited_In; auto.
    + intros T. split; auto. intros idx Hin. apply T, visited_In; auto.
Qed.
End Geometric.

(* a spline compared with itself: outside [0, ...) the first sample beyond the domain throws *)
Lemma foldM_throw {A} (f : bool -> A -> Res bool) l :
  (forall x, In x l -> f true x = Ok true \/ f true x = Throw RangeError) ->
  (exists x, In x l /\ f true x = Throw RangeError) -> foldM f l true = Throw RangeError.
Proof.
  induction l as [|x l IH]; intros H (y & Hy & Ey); [destruct Hy|]. cbn [foldM].
  destruct (H x (or_introl eq_refl)) as [E|E]; rewrite E; [|reflexivity]. cbn [bind].
  apply IH; [intros z Hz; apply H; now right|]. destruct Hy as [->|Hy]; [congruence|]. exists y. auto.
Qed.

Lemma euclid_self a : euclid a a = 0%R.
Proof.
  unfold euclid. rewrite lsum_zero; [apply sqrt_0|]. intros [x y] Hxy. cbn [fst snd].
  assert (x = y) by (clear - Hxy; induction a as [|z a IH]; cbn in Hxy; [destruct Hxy|]; destruct Hxy as [E|E]; [congruence|auto]). subst. ring.
Qed.

Lemma sample_nth (knots : list (list R)) number idx d kv : length idx = length knots -> nth_error knots d = Some kv ->
  nth d (sample knots number idx) 0%R = ((final_knot kv - first_knot kv) / IZR number * IZR (nth d idx 0%Z))%R.
Proof.
  intros Hl Hd. unfold sample.
  assert (Hlt : (d < length knots)%nat) by (apply nth_error_Some; congruence).
  rewrite (nth_map2 _ _ _ _ (@nil R) 0%Z) by (auto; lia).
  rewrite (nth_error_nth knots d [] Hd). reflexivity.
Qed.

Lemma in_domain_nth dz (s : spline (Rops dz)) us d kv : in_domain s us -> nth_error (knots_of s) d = Some kv ->
  (first_knot kv <= nth d us 0 <= final_knot kv)%R.
Proof.
  unfold in_domain. intros H. revert d. induction H as [|k u l l' Hk H IH]; intros [|d] E; cbn in *; try discriminate.
  - injection E as <-. exact Hk. - apply IH. exact E.
Qed.

Lemma geometric_equality_shifted : forall dz (s : spline (Rops dz)) (tol : R) number d kv, well_formed s -> 1 <= number -> (0 <= tol)%R ->
  nth_error (knots_of s) d = Some kv -> first_knot kv <> 0%R ->
  geometrically_equal s s tol number = Throw RangeError.
Proof.
  intros dz s tol number d kv Hs Hn Ht Hd H0. rewrite geometrically_equal_fold by auto.
  set (lens := map (fun _ => number + 1) (degs_of s)).
  assert (Hpos : pos_lens lens) by (apply Forall_forall; intros x Hx; apply in_map_iff in Hx; destruct Hx as (? & <- & _); lia).
  assert (Lk : length (degs_of s) = length (knots_of s)) by (symmetry; apply (Forall2_len _ _ _ (wf_directions s Hs))).
  assert (Hd' : (d < length (knots_of s))%nat) by (apply nth_error_Some; congruence).
  assert (SAFE : forall idx, in_box lens idx ->
    (in_domain s (sample (knots_of s) number idx) -> compare_at dz s s tol (sample (knots_of s) number idx) = Ok true) /\
    (~ in_domain s (sample (knots_of s) number idx) -> compare_at dz s s tol (sample (knots_of s) number idx) = Throw RangeError)).
  { intros idx Hin. assert (Li : length idx = length (knots_of s)) by (rewrite <- Lk; eapply grid_box; exact Hin).
    destruct (eval_safe dz s (sample (knots_of s) number idx) (all_coordinates dz s) (zeros (length (degs_of s))) Hs (sample_length _ _ _ Li)
       (all_coordinates_valid dz s s ltac:(lia)) (zeros_length _) (zeros_nonneg _)) as [Sa Sb].
    split; intros Hin'.
    - destruct (Sa Hin') as [(va & Ea & La) _]. unfold compare_at. rewrite Ea. cbn [bind]. assert (Ed := distance_ok dz va va eq_refl). step Ed.
      rewrite euclid_self. destruct (Rltb_spec tol 0); [lra|reflexivity].
    - destruct (Sb Hin') as [Ea _]. unfold compare_at. rewrite Ea. reflexivity. }
  apply foldM_throw.
  - intros idx Hin. apply visited_In in Hin; auto. destruct (SAFE idx Hin) as [S1 S2].
    destruct (in_domain_dec dz s (sample (knots_of s) number idx)); auto.
  - set (top := if Rlt_dec (first_knot kv) 0 then number else 0).
    set (idx := upd (map (fun _ => 0) (degs_of s)) d top).
    assert (Hin : in_box lens idx).
    { unfold idx, lens, top. revert Lk Hd'. clear - Hn. generalize (length (knots_of s)) as n. intros n E. rewrite <- E. clear E n. revert d.
      induction (degs_of s) as [|p degs IH]; intros d Hd; cbn [length] in Hd; [lia|].
      destruct d as [|d]; cbn [map upd]; constructor.
      - destruct (Rlt_dec _ _); lia.
      - clear - Hn. induction degs; cbn [map]; constructor; auto; lia.
      - lia.
      - apply IH. lia. }
    exists idx. split; [apply visited_In; auto|]. apply SAFE; auto. intros C.
    assert (Li : length idx = length (knots_of s)) by (rewrite <- Lk; eapply grid_box; exact Hin).
    pose proof (in_domain_nth dz s _ d kv C Hd) as B. rewrite (sample_nth _ _ _ d kv Li Hd) in B.
    assert (Ei : nth d idx 0 = top) by (unfold idx; apply nth_upd_same; rewrite map_length; lia). rewrite Ei in B.
    assert (P : (0 < IZR number)%R) by (apply IZR_lt; lia).
    unfold top in B. destruct (Rlt_dec (first_knot kv) 0).
    + replace ((final_knot kv - first_knot kv) / IZR number * IZR number)%R with (final_knot kv - first_knot kv)%R in B by (field; lra). lra.
    + rewrite Rmult_0_r in B. lra.
Qed.

(* ---- examples and witnesses ---- *)
From Coq Require Import Floats.
Lemma elevate_nan_run :
  match spline_new (F := Fops) [[0; 0; 1; 1]%float] [1] [[0]; [1]]%float None with
  | Ok s => match evaluate s [0.5%float] [0], elevate_degree s 0 with
            | Ok [v], Ok s' => PrimFloat.eqb v 0.5 &&
                match evaluate s' [0.5%float] [0], geometrically_equal s' s kEpsilon 100 with
                | Ok [v'], Ok true => negb (PrimFloat.eqb v' v')
                | _, _ => false
                end
            | _, _ => false
            end
  | _ => false
  end = true.
Proof. vm_compute. reflexivity. Qed.

Lemma elevate_nan : exists (s s' : spline Fops) (v v' : float),
  spline_new (F := Fops) [[0; 0; 1; 1]%float] [1] [[0]; [1]]%float None = Ok s /\
  elevate_degree s 0 = Ok s' /\
  evaluate s [0.5%float] [0] = Ok [v] /\ PrimFloat.eqb v 0.5 = true /\
  evaluate s' [0.5%float] [0] = Ok [v'] /\ PrimFloat.eqb v' v' = false /\
  geometrically_equal s' s kEpsilon 100 = Ok true.
Proof.
  pose proof elevate_nan_run as H.
  destruct (spline_new (F := Fops) [[0; 0; 1; 1]%float] [1] [[0]; [1]]%float None) as [s| |] eqn:E1; try discriminate H.
  match type of H with context [evaluate s ?b ?c] => destruct (evaluate s b c) as [[|v [|]]| |] eqn:E2 end; try discriminate H.
  destruct (elevate_degree s 0) as [s'| |] eqn:E3; try discriminate H.
  apply andb_prop in H as [H1 H].
  match type of H with context [evaluate s' ?b ?c] => destruct (evaluate s' b c) as [[|v' [|]]| |] eqn:E4 end; try discriminate H.
  destruct (geometrically_equal s' s kEpsilon 100) as [[|]| |] eqn:E5; try discriminate H.
  apply negb_true_iff in H.
  exists s, s', v, v'. exact (conj eq_refl (conj E3 (conj E2 (conj H1 (conj E4 (conj H E5)))))).
Qed.

(* control point NaN: equal to every line *)
Lemma compare_nan_run :
  match spline_new (F := Fops) [[0; 0; 1; 1]%float] [1] [[nan]; [nan]]%float None,
        spline_new (F := Fops) [[0; 0; 1; 1]%float] [1] [[0]; [1]]%float None with
  | Ok s, Ok t => match geometrically_equal s t kEpsilon 100, geometrically_equal t s kEpsilon 100 with
                  | Ok true, Ok true => true
                  | _, _ => false
                  end
  | _, _ => false
  end = true.
Proof. vm_compute. reflexivity. Qed.

Lemma compare_nan : exists s t : spline Fops,
  spline_new (F := Fops) [[0; 0; 1; 1]%float] [1] [[nan]; [nan]]%float None = Ok s /\
  spline_new (F := Fops) [[0; 0; 1; 1]%float] [1] [[0]; [1]]%float None = Ok t /\
  geometrically_equal s t kEpsilon 100 = Ok true /\ geometrically_equal t s kEpsilon 100 = Ok true.
Proof.
  pose proof compare_nan_run as H.
  destruct (spline_new (F := Fops) [[0; 0; 1; 1]%float] [1] [[nan]; [nan]]%float None) as [s| |] eqn:E1; try discriminate H.
  destruct (spline_new (F := Fops) [[0; 0; 1; 1]%float] [1] [[0]; [1]]%float None) as [t| |] eqn:E2; try discriminate H.
  destruct (geometrically_equal s t kEpsilon 100) as [[|]| |] eqn:E3; try discriminate H.
  destruct (geometrically_equal t s kEpsilon 100) as [[|]| |] eqn:E4; try discriminate H.
  exists s, t. exact (conj eq_refl (conj eq_refl (conj E3 E4))).
Qed.

(* the quadratic with homogeneous points (0,1), (1,1), (4,1), two lines *)
Definition ex_quadratic : list (list R) := [[0; 1]; [1; 1]; [4; 1]; [0; 1]; [1; 2]; [2; 3]]%R.
Lemma ex_shape : segment_shape 2 2 (1 + 1) ex_quadratic.
Proof. split; [reflexivity|]. repeat constructor. Qed.

Definition ex_cubic : list (list R) := [[0; 1]; [2/3; 1]; [2; 1]; [4; 1]; [0; 1]; [2/3; 5/3]; [4/3; 7/3]; [2; 3]]%R.
Lemma ex_elevation : segment_shape 3 2 (1 + 1) ex_cubic /\ segment_shape (3 - 1) 2 (1 + 1) ex_quadratic /\
  elevation_of 3 2 (1 + 1) ex_quadratic ex_cubic.
Proof.
  split; [split; [reflexivity|]; repeat constructor|]. split; [split; [reflexivity|]; repeat constructor|].
  intros i j c Hi Hj Hc.
  assert (i = 0 \/ i = 1) as [-> | ->] by lia; assert (c = 0 \/ c = 1) as [-> | ->] by lia;
    assert (j = 0 \/ j = 1 \/ j = 2 \/ j = 3) as [-> | [-> | [-> | ->]]] by lia;
    unfold elevated, value, ex_cubic, ex_quadratic;
    repeat match goal with |- context [Z.to_nat ?z] => let v := eval vm_compute in (Z.to_nat z) in change (Z.to_nat z) with v end;
    cbn [nth]; lra.
Qed.

Lemma ex_compare : exists a b s : spline (Rops (fun x => x)),
  well_formed a /\ well_formed b /\ ph_dim (sp_ph a) <= ph_dim (sp_ph b) /\
  Forall2 (fun kv kv' => first_knot kv = 0%R /\ first_knot kv' = 0%R /\ final_knot kv' = final_knot kv) (knots_of a) (knots_of b) /\
  well_formed s /\ nth_error (knots_of s) 0 = Some [1; 1; 2; 2]%R /\ first_knot [1; 1; 2; 2]%R <> 0%R.
Proof.
  destruct (ex_spline None) as (a & A1 & A2 & A3 & A4 & A5 & A6 & A7 & A8 & _); auto.
  destruct (ex_spline (Some ex_weights)) as (b & B1 & B2 & B3 & B4 & B5 & B6 & B7 & B8 & _); auto.
  destruct (spline_new_ok (fun x => x) [[1; 1; 2; 2]%R] [1] [[0]; [1]]%R None 1) as [H1 H2].
  - constructor; [|constructor]. split; [lia|]. split; [split; [cbn; lia|]; intros [|[|j]] Hj; try lia; cbn; auto|].
    split; [nondec|]. split; [sepsolve | cbn; lra].
  - lia. - repeat constructor. - reflexivity. - reflexivity. - discriminate.
  - exists a, b. eexists. split; [auto|]. split; [auto|]. split; [lia|]. split.
    + rewrite A6, B6. unfold ex_knots. constructor; [|constructor; [|constructor]]; cbn; lra.
    + split; [exact H2|]. split; [reflexivity|]. cbn. lra.
Qed.
