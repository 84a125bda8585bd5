(* Subdivision of B-splines of doubles: the statements about the constructed splines. *)
From Coq Require Import ZArith List Bool Lia Reals Floats Lra Permutation.
From Verif Require Import Base BaseFacts RSum MultiIndex MultiIndexSpec MultiIndexFacts TensorSum
  KnotVec KnotVecSpec KnotVecFacts Boehm Basis BasisSpec BSplineTheory BasisFacts VecUtils
  Spaces SpacesSpec SpacesFacts SplineEval SplineEdit SplineSpec EvalFacts RationalDeriv EvalDeriv EvalThms SplineNew
  PhysFacts AdjustFacts InsertKnots InsertFacts InsertThms EditSpec AdjustAny SubdivideFacts SubdividePieces SubdivideThms
  DoubleSpec DoubleRationalSpec DoubleFacts DoubleError DoubleKnots DoubleBasis DoubleSum DoubleEval DoubleThms DoubleRationalEval DoubleRationalThms
  DoubleMix DoubleMixRational DoubleInsert DoubleInsertThms DoubleInsertRational DoubleInsertRationalThms DoubleNurbsInsert
  DoubleSplitSpec DoubleSplit DoubleSplitSums DoubleSplitThms.
Import ListNotations.
Open Scope Z_scope.

Lemma double_split : forall (knots : list (list float)) degs (cps : list (list float)) d kv p (u : float) dim M,
  Forall2 double_direction knots degs -> nth_error knots d = Some kv -> nth_error degs d = Some p ->
  finite u -> insertable (map dval kv) p (dval u) 0 -> zlen kv < 2 ^ 31 ->
  1 <= dim -> Forall (fun cp => zlen cp = dim) cps -> zlen cps = total (point_counts knots degs) -> zlen cps * (2 + p) < 2 ^ 64 ->
  Forall (Forall (fun x => finite x /\ (Rabs (dval x) <= M)%R)) cps -> (M <= 2 ^ 499)%R ->
  let r := p + 1 - Z.of_nat (occurrences (map dval kv) (dval u)) in
  let e := (M * / 2 ^ 48 + 4 * underflow)%R in
  exists s s1 s2 s' kv1 kv2 cps1 cps2, spline_new (F := Fops) knots degs cps None = Ok s /\
    subdivide s u d = Ok (s1, s2, s') /\ insert_knot s u d r = Ok s' /\
    spline_new (F := Fops) (upd knots d kv1) degs cps1 None = Ok s1 /\ spline_new (F := Fops) (upd knots d kv2) degs cps2 None = Ok s2 /\
    double_direction kv1 p /\ double_direction kv2 p /\
    first_knot (map dval kv1) = first_knot (map dval kv) /\ final_knot (map dval kv1) = dval u /\
    first_knot (map dval kv2) = dval u /\ final_knot (map dval kv2) = final_knot (map dval kv) /\
    Permutation (kv1 ++ skipn (Z.to_nat (p + 1)) kv2) (repeat u (Z.to_nat r) ++ kv) /\
    zlen cps1 = total (point_counts (upd knots d kv1) degs) /\ zlen cps2 = total (point_counts (upd knots d kv2) degs) /\
    zlen cps1 < 2 ^ 64 /\ zlen cps2 < 2 ^ 64 /\
    Forall (fun cp => zlen cp = dim) cps1 /\ Forall (fun cp => zlen cp = dim) cps2 /\
    Forall (Forall (fun x => finite x /\ (Rabs (dval x) <= M + IZR r * e)%R)) cps1 /\
    Forall (Forall (fun x => finite x /\ (Rabs (dval x) <= M + IZR r * e)%R)) cps2 /\
    (1 <= r -> layers_meet [] (point_counts (upd knots d kv1) degs) (point_counts (upd knots d kv2) degs) d cps1 cps2) /\
    forall us c, Forall2 (fun kv v => (first_knot (map dval kv) <= v <= final_knot (map dval kv))%R) knots us -> 0 <= c < dim ->
      ((nth d us 0 < dval u \/ nth d us 0 = dval u /\ (1 <= r)%Z)%R ->
        (Rabs (exact_coordinate (map (map dval) (upd knots d kv1)) degs (map (map dval) cps1) us c -
               exact_coordinate (map (map dval) knots) degs (map (map dval) cps) us c) <= IZR r * e)%R) /\
      ((dval u <= nth d us 0)%R ->
        (Rabs (exact_coordinate (map (map dval) (upd knots d kv2)) degs (map (map dval) cps2) us c -
               exact_coordinate (map (map dval) knots) degs (map (map dval) cps) us c) <= IZR r * e)%R).
Proof.
  intros knots degs cps d kv p u dim M Hg Ek Ed Fu Hins Hz Hd Hrow Hn Hb Hv HM r e.
  destruct (phys_of_rows knots degs cps dim M Hg Hd Hrow Hn Hv) as [Hph Hbd]. set (ph := mkPhys (F := Fops) dim (point_counts knots degs) (concat cps) None) in *.
  assert (Hkv : double_direction kv p) by (eapply Forall2_nth_error; eauto).
  assert (Mu : moderate u) by (apply (moderate_inside kv p); auto; apply Hins).
  destruct (double_inner kv p u 0 Hkv Hins) as (n & Hin). pose proof Hins as (_ & _ & Ho).
  assert (Hr0 : 0 <= r) by (unfold r; lia). assert (Hr1 : r <= p + 1) by (unfold r; lia).
  set (rn := Z.to_nat r). assert (Er : Z.of_nat rn = r) by (unfold rn; lia).
  assert (Hr : Z.of_nat (rn + occurrences (map dval kv) (dval u)) = p + 1) by (unfold rn, r in *; lia).
  pose proof (f_n kv p u n Hin) as Hn1.
  destruct (f_passes knots degs d kv p u n ph M Hg Ek Ed Mu Hin Hz Hph eq_refl eq_refl Hbd HM rn ltac:(lia)) as (ph' & F1 & F2 & D1 & D2 & D3 & D4 & D5 & D6).
  rewrite Er in D5, D6. fold (pass_error M) in e. change (ph_dim ph) with dim in *.
  pose proof (run_insert knots degs d kv p u n ph rn Hg Ek Ed Mu Hin Hr ph' F1 F2) as Run.
  assert (Hrep : Z.of_nat (occurrences (map dval kv) (dval u)) <= p -> repeats ph' d (Z.of_nat (n + rn) - p - 2)).
  { intros Hp. assert (Ern : rn = S (rn - 1)) by (unfold rn, r in *; lia).
    destruct (f_passes knots degs d kv p u n ph M Hg Ek Ed Mu Hin Hz Hph eq_refl eq_refl Hbd HM (rn - 1) ltac:(lia)) as (ph0 & G1 & _ & G3 & G4 & G5 & _).
    exact (run_repeats knots degs d kv p u n ph rn Hg Ek Ed Mu Hin Hz Hr (rn - 1) ph0 ph' Ern G1 G4 G5 G3 D1 F1). }
  assert (LkN : zlen (finsm kv n u rn) = zlen kv + r) by (unfold zlen; rewrite finsm_length by lia; lia).
  pose proof (counts_grow knots degs d kv (finsm kv n u rn) p Ek Ed Hg ltac:(lia)) as Ct. rewrite LkN in Ct. replace (zlen kv + r - zlen kv) with r in Ct by lia.
  assert (H0 : 0 <= zlen cps) by (unfold zlen; lia).
  assert (Ht : total (ph_npts ph') < 2 ^ 64) by (rewrite D2; nia).
  set (kv1 := pleft kv u n rn). set (kv2 := pright kv p u n rn). set (ph1 := nleft d kv p u n ph' rn). set (ph2 := nright d kv p u n ph' rn).
  destruct (nleft_facts knots degs d kv p u n ph' rn Hg Ek Ed Mu Hin Hr D3 D2 Ht) as (L1 & L2 & L3 & L4). fold ph1 kv1 in L1, L2, L3, L4.
  destruct (nright_facts knots degs d kv p u n ph' rn Hg Ek Ed Mu Hin Hr D3 D2 Ht) as (R1 & R2 & R3 & R4). fold ph2 kv2 in R1, R2, R3, R4.
  pose proof (pleft_dir knots degs d kv p u n rn Hg Ek Ed Mu Hin Hr) as Dk1. fold kv1 in Dk1.
  pose proof (pright_dir knots degs d kv p u n rn Hg Ek Ed Mu Hin Hr) as Dk2. fold kv2 in Dk2.
  destruct (pleft_ends kv p u n rn Hin Hr) as [P1 P2]. destruct (pright_ends kv p u n rn Hin Hr) as [P3 P4].
  assert (Hg1 : Forall2 double_direction (upd knots d kv1) degs) by (apply Forall2_upd; auto; intros q Eq; replace q with p by congruence; exact Dk1).
  assert (Hg2 : Forall2 double_direction (upd knots d kv2) degs) by (apply Forall2_upd; auto; intros q Eq; replace q with p by congruence; exact Dk2).
  assert (W1 : ph_wts ph1 = None) by (unfold ph1, nleft, piece_net; cbn [ph_wts]; rewrite D4; reflexivity).
  assert (W2 : ph_wts ph2 = None) by (unfold ph2, nright, piece_net; cbn [ph_wts]; rewrite D4; reflexivity).
  destruct (left_room kv p u n rn Hin Hr) as [Q1 Q2]. destruct (right_room kv p u n rn Hin Hr) as [Q3 Q4].
  pose proof (piece_bounded _ degs d _ p u ph' (N_kv knots d kv u n rn Ek) Ed D3 D2 kv1 0 Dk1 Q1 Q2 _ D5) as B1. fold ph1 in B1.
  pose proof (piece_bounded _ degs d _ p u ph' (N_kv knots d kv u n rn Ek) Ed D3 D2 kv2 _ Dk2 Q3 Q4 _ D5) as B2. fold ph2 in B2.
  exists (mkSpline (F := Fops) (fmkps knots degs) ph), (mkSpline (F := Fops) (fmkps (upd knots d kv1) degs) ph1), (mkSpline (F := Fops) (fmkps (upd knots d kv2) degs) ph2),
    (mkSpline (F := Fops) (fmkps (upd knots d (finsm kv n u rn)) degs) ph'), kv1, kv2, (rows ph1), (rows ph2).
  split; [apply fspline_new_ok; auto; nia|].
  split; [exact (subdivide_run knots degs d kv p u n ph ph' rn Hg Ek Ed Mu Hin Hz Hr Run D3 D2 Ht)|].
  split; [rewrite <- Er; exact Run|].
  split; [now apply rows_new|]. split; [now apply rows_new|]. split; [exact Dk1|]. split; [exact Dk2|].
  split; [exact P1|]. split; [exact P2|]. split; [exact P3|]. split; [exact P4|].
  split; [exact (p_join kv p u n rn Hin Hr)|].
  split; [rewrite rows_zlen, L2 by auto; reflexivity|]. split; [rewrite rows_zlen, R2 by auto; reflexivity|].
  split; [rewrite rows_zlen by auto; exact L3|]. split; [rewrite rows_zlen by auto; exact R3|].
  assert (Ldim : ph_dim ph1 = dim) by (rewrite L4; exact D1). assert (Rdim : ph_dim ph2 = dim) by (rewrite R4; exact D1).
  assert (RD1 : Forall (fun cp => zlen cp = dim) (rows ph1)) by (rewrite <- Ldim; apply rows_dim; lia).
  assert (RD2 : Forall (fun cp => zlen cp = dim) (rows ph2)) by (rewrite <- Rdim; apply rows_dim; lia).
  split; [exact RD1|]. split; [exact RD2|]. split; [now apply rows_bounded|]. split; [now apply rows_bounded|].
  split; [intros H1; apply (rows_meet knots degs d kv p u n ph' rn Hg Ek Ed Mu Hin Hr D3 D2 Ht Hrep); unfold r in H1; lia|].
  intros us c Hus Hc. rewrite (exact_csum knots degs ph cps us c) by (auto; reflexivity).
  assert (Hc' : 0 <= c < ph_dim ph') by (rewrite D1; exact Hc). split.
  - intros Hside. rewrite (exact_csum (upd knots d kv1) degs ph1 (rows ph1) us c);
      [ | exact L1 | exact L2 | symmetry; now apply rows_concat | now rewrite Ldim | now apply rows_zlen | now rewrite Ldim].
    unfold kv1, ph1. rewrite (left_coord knots degs d kv p u n ph' rn Hg Ek Ed Mu Hin Hr D3 D2 Hrep us c Hus); auto.
    + apply D6; [now apply inside_map | exact Hc].
    + destruct Hside as [Hs|[Hs _]]; lra.
    + destruct Hside as [Hs|[_ Hs]]; [now right | left; unfold r in Hs; lia].
  - intros Hside. rewrite (exact_csum (upd knots d kv2) degs ph2 (rows ph2) us c);
      [ | exact R1 | exact R2 | symmetry; now apply rows_concat | now rewrite Rdim | now apply rows_zlen | now rewrite Rdim].
    unfold kv2, ph2. rewrite (right_coord knots degs d kv p u n ph' rn Hg Ek Ed Mu Hin Hr D3 D2 us c Hus Hside Hc').
    apply D6; [now apply inside_map | exact Hc].
Qed.

(* ---- evaluating the pieces ---- *)
Lemma parameter_inside knots us : Forall2 double_parameter knots us -> inside knots (map dval us).
Proof. induction 1 as [|k v ks vs [_ Hv] _ IH]; cbn [map]; constructor; auto. Qed.
Lemma parameter_of knots us : Forall finite us -> inside knots (map dval us) -> Forall2 double_parameter knots us.
Proof.
  revert us. induction knots as [|k ks IH]; intros [|v vs] Hf Hi; inversion Hi; subst; constructor; inversion Hf; subst; auto. split; assumption.
Qed.
Lemma parameter_finite knots us : Forall2 double_parameter knots us -> Forall finite us.
Proof. induction 1 as [|k v ks vs [Hv _] _ IH]; constructor; auto. Qed.
Lemma inside_piece knots d kv kv1 us : nth_error knots d = Some kv -> inside knots us ->
  (first_knot (map dval kv1) <= nth d us 0 <= final_knot (map dval kv1))%R -> inside (upd knots d kv1) us.
Proof.
  intros Ek H Hv. unfold inside in *. revert d Ek Hv. induction H as [|k v ks vs Hk H IH]; intros [|d] Ek Hv; cbn in *; try discriminate; constructor; auto.
Qed.
Lemma inside_at knots d kv us : nth_error knots d = Some kv -> inside knots us -> (first_knot (map dval kv) <= nth d us 0 <= final_knot (map dval kv))%R.
Proof.
  intros Ek H. unfold inside in *. revert d Ek. induction H as [|k v ks vs Hk H IH]; intros [|d] Ek; cbn in *; try discriminate; auto. injection Ek as ->. exact Hk.
Qed.

Lemma double_split_evaluate : forall (knots : list (list float)) degs (cps : list (list float)) d kv p (u : float) (us : list float) dim dims M,
  Forall2 double_direction knots degs -> nth_error knots d = Some kv -> nth_error degs d = Some p ->
  finite u -> insertable (map dval kv) p (dval u) 0 -> zlen kv < 2 ^ 31 ->
  1 <= dim -> Forall (fun cp => zlen cp = dim) cps -> zlen cps = total (point_counts knots degs) -> zlen cps * (2 + p) < 2 ^ 64 ->
  Forall (Forall (fun x => finite x /\ (Rabs (dval x) <= M)%R)) cps -> (M <= 2 ^ 499)%R ->
  Forall2 double_parameter knots us -> Forall (fun c => 0 <= c < dim) dims ->
  degree_cost degs + summands degs + 1 <= 2 ^ 50 -> depth degs <= 500 ->
  let r := p + 1 - Z.of_nat (occurrences (map dval kv) (dval u)) in
  let e := (M * / 2 ^ 48 + 4 * underflow)%R in
  let M' := (M + IZR r * e)%R in
  let near := Forall2 (fun c v => finite v /\
      (Rabs (dval v - exact_coordinate (map (map dval) knots) degs (map (map dval) cps) (map dval us) c) <=
        IZR (degree_cost degs + summands degs + 1) * / 2 ^ 52 * M' +
        2 * IZR (summands degs) * (4 ^ Z.to_nat (depth degs) * M' + 1) * underflow + IZR r * e)%R) dims in
  exists s s1 s2 s', spline_new (F := Fops) knots degs cps None = Ok s /\ subdivide s u d = Ok (s1, s2, s') /\
    ((nth d (map dval us) 0 < dval u \/ nth d (map dval us) 0 = dval u /\ (1 <= r)%Z)%R -> exists vs, evaluate s1 us dims = Ok vs /\ near vs) /\
    ((dval u <= nth d (map dval us) 0)%R -> exists vs, evaluate s2 us dims = Ok vs /\ near vs).
Proof.
  intros knots degs cps d kv p u us dim dims M Hg Ek Ed Fu Hins Hz Hd Hrow Hn Hb Hv HM Hus Hdims Hc1 Hc2 r e M' near.
  destruct (double_split knots degs cps d kv p u dim M Hg Ek Ed Fu Hins Hz Hd Hrow Hn Hb Hv HM)
    as (s & s1 & s2 & s' & kv1 & kv2 & cps1 & cps2 & E1 & E2 & _ & E3 & E4 & Dk1 & Dk2 & P1 & P2 & P3 & P4 & _ & Z1 & Z2 & Zb1 & Zb2 & R1 & R2 & B1 & B2 & _ & X).
  fold r e in B1, B2, X. fold M' in B1, B2.
  assert (Hkv : double_direction kv p) by (eapply Forall2_nth_error; eauto).
  assert (M0 : (0 <= M)%R).
  { destruct (phys_of_rows knots degs cps dim M Hg Hd Hrow Hn Hv) as [Hph Hbd]. exact (ins_M _ M Hph Hbd). }
  assert (Hr31 : 0 <= r <= 2 ^ 31).
  { pose proof Hins as (_ & _ & Ho). destruct (double_finite kv p Hkv) as (_ & _ & _ & Hl). unfold r. lia. }
  assert (HM' : (M' <= 2 ^ 500)%R).
  { destruct (pass_grow M r M0 Hr31) as [_ G2]. unfold M', e. fold (pass_error M).
    rewrite <- (tech_pow_Rmult 2 499). pose proof (pow2_ge1 499) as P. revert HM P. generalize (2 ^ 499)%R. intros. lra. }
  pose proof (parameter_inside _ _ Hus) as Dom. pose proof (inside_at knots d kv _ Ek Dom) as Dd.
  assert (Din : forall c, In c dims -> 0 <= c < dim) by (now apply Forall_forall).
  assert (Piece : forall kvi cpsi si, double_direction kvi p -> spline_new (F := Fops) (upd knots d kvi) degs cpsi None = Ok si ->
     zlen cpsi = total (point_counts (upd knots d kvi) degs) -> zlen cpsi < 2 ^ 64 -> Forall (fun cp => zlen cp = dim) cpsi ->
     Forall (Forall (fun x => finite x /\ (Rabs (dval x) <= M')%R)) cpsi ->
     (first_knot (map dval kvi) <= nth d (map dval us) 0 <= final_knot (map dval kvi))%R ->
     (forall c, 0 <= c < dim -> (Rabs (exact_coordinate (map (map dval) (upd knots d kvi)) degs (map (map dval) cpsi) (map dval us) c -
        exact_coordinate (map (map dval) knots) degs (map (map dval) cps) (map dval us) c) <= IZR r * e)%R) ->
     exists vs, evaluate si us dims = Ok vs /\ near vs).
  { intros kvi cpsi si Dk Es Zi Zb Ri Bi Hd' Xi.
    assert (Hg' : Forall2 double_direction (upd knots d kvi) degs) by (apply Forall2_upd; auto; intros q Eq; replace q with p by congruence; exact Dk).
    assert (Us' : Forall2 double_parameter (upd knots d kvi) us).
    { apply parameter_of; [now apply (parameter_finite knots) | now apply (inside_piece knots d kv)]. }
    assert (Bm : Forall (Forall moderate) cpsi).
    { eapply Forall_impl; [|exact Bi]. intros l Hl. eapply Forall_impl; [|exact Hl]. intros x [X1 X2]. split; [exact X1 | lra]. }
    assert (Bb : Forall (Forall (fun x => Rabs (dval x) <= M')%R) cpsi).
    { eapply Forall_impl; [|exact Bi]. intros l Hl. eapply Forall_impl; [|exact Hl]. intros x [_ X2]. exact X2. }
    destruct (double_evaluate (upd knots d kvi) degs cpsi us dim dims M' Hg' Us' Ri Zi Zb Hdims Bm Bb HM' Hc1 Hc2) as (s4 & vs & E5 & E6 & V).
    rewrite Es in E5. injection E5 as <-. exists vs. split; [exact E6|]. unfold near. clear - V Din Xi.
    induction V as [|c v dims vs [V1 V2] _ IH]; constructor.
    - split; [exact V1|]. specialize (Xi c (Din c (or_introl eq_refl))).
      set (b := (IZR (degree_cost degs + summands degs + 1) * / 2 ^ 52 * M' + 2 * IZR (summands degs) * (4 ^ Z.to_nat (depth degs) * M' + 1) * underflow)%R) in *.
      clearbody b e M'. apply Rabs_between in V2. apply Rabs_between in Xi. clear - V2 Xi. apply Rabs_le. lra.
    - apply IH. intros; apply Din. now right. }
  exists s, s1, s2, s'. split; [exact E1|]. split; [exact E2|]. split.
  - intros Hs. apply (Piece kv1 cps1 s1); auto.
    + rewrite P1, P2. destruct Hs as [Hs|[Hs _]]; lra.
    + intros c Hc. exact (proj1 (X _ c Dom Hc) Hs).
  - intros Hs. apply (Piece kv2 cps2 s2); auto.
    + rewrite P3, P4. lra.
    + intros c Hc. exact (proj2 (X _ c Dom Hc) Hs).
Qed.
