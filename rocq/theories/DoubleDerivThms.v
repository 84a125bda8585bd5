(* Derivatives of B-splines in doubles. *)
From Coq Require Import ZArith List Bool Lia Reals Floats Lra Psatz.
From Verif Require Import Base BaseFacts RSum MultiIndex MultiIndexSpec MultiIndexFacts TensorSum
  KnotVec KnotVecSpec KnotVecFacts Basis BasisSpec BSplineTheory BasisFacts BasisThms
  Spaces SpacesSpec SpacesFacts SplineEval SplineSpec EvalFacts RationalDeriv EvalDeriv EvalThms SplineNew
  DoubleSpec DoubleFacts DoubleError DoubleKnots DoubleBasis DoubleSum DoubleEval DoubleThms DoubleDerivSpec DoubleDeriv.
Import ListNotations.
Open Scope Z_scope.

(* ---- the exact derivatives ---- *)
Lemma cox_derivative_piece kv k m p i u : nondecreasing kv -> in_span kv k u -> 0 <= i -> i + Z.of_nat p + 1 < zlen kv ->
  cox_derivative kv m p (Z.to_nat i) u = DB (tk kv) k m p i u.
Proof.
  intros Hn Hsp. revert p i; induction m as [|m IH]; intros p i H0 H1.
  - destruct p; apply cox_piece; auto.
  - destruct p as [|q]; [reflexivity|]. cbn [cox_derivative DB].
    rewrite IH by lia. replace (Z.to_nat i + 1)%nat with (Z.to_nat (i + 1)) by lia. rewrite IH by lia.
    rewrite (tk_knot' kv i) by lia. rewrite (tk_knot' kv (i + 1)) by lia.
    rewrite (tk_knot' kv (i + Z.of_nat (S q))) by lia. rewrite (tk_knot' kv (i + Z.of_nat (S q) + 1)) by lia.
    change quotient with quot0.
    replace (Z.to_nat (i + Z.of_nat (S q))) with (Z.to_nat i + S q)%nat by lia.
    replace (Z.to_nat (i + Z.of_nat (S q) + 1)) with (Z.to_nat i + S q + 1)%nat by lia.
    reflexivity.
Qed.

Lemma cox_derivative_0 kv p i u : cox_derivative kv 0 p i u = cox_de_boor kv p i u.
Proof. destruct p; reflexivity. Qed.

Lemma cox_derivative_is kv m p i u : nondecreasing kv -> (i + p + 1 < length kv)%nat ->
  (first_knot kv <= u <= final_knot kv)%R -> ~ In u kv ->
  derivable_pt_lim (cox_derivative kv m p i) u (cox_derivative kv (S m) p i u).
Proof.
  intros Hn Hl Hu Hni.
  assert (Ho : (first_knot kv < u < final_knot kv)%R).
  { assert (u <> first_knot kv) by (intros ->; apply Hni, nth_In; lia).
    assert (u <> final_knot kv) by (intros ->; apply Hni, nth_In; lia). lra. }
  destruct (between_knots kv u Hn Hni Ho) as (k & Hk0 & Hk1 & Hku).
  assert (Hpos : (0 < Rmin (u - tk kv k) (tk kv (k + 1) - u))%R) by (apply Rmin_pos; lra).
  assert (Hin : in_span kv k u).
  { apply (open_span kv k u u); auto. rewrite Rminus_diag_eq by reflexivity. rewrite Rabs_R0. auto. }
  assert (E : forall m v, in_span kv k v -> cox_derivative kv m p i v = DB (tk kv) k m p (Z.of_nat i) v).
  { intros m' v Hv. rewrite <- (Nat2Z.id i) at 1. apply cox_derivative_piece; auto; unfold zlen; lia. }
  rewrite (E (S m) u Hin).
  apply (derivable_local (DB (tk kv) k m p (Z.of_nat i)) _ u _ _ Hpos).
  - intros v Hv. symmetry. apply E. apply (open_span kv k u v); auto.
  - apply (DB_derivable (tk kv) (tk_monotone kv Hn) k ltac:(lra)).
Qed.

Lemma derivative_product_zero knots degs us idx : length degs = length knots -> length us = length knots ->
  derivative_product knots degs us (repeat 0 (length knots)) idx = basis_product knots degs us idx.
Proof.
  revert degs us idx; induction knots as [|kv knots IH]; intros [|p degs] [|u us] [|i idx] H1 H2; cbn in *; try discriminate; auto.
  rewrite IH by lia. reflexivity.
Qed.

Lemma derivable_right f u l a : derivable_pt_lim f u l -> derivable_pt_lim (fun v => f v * a)%R u (l * a)%R.
Proof.
  intros H. replace (l * a)%R with (l * a + f u * 0)%R by ring.
  apply (derivable_pt_lim_mult f (fun _ => a) u l 0 H). apply derivable_pt_lim_const.
Qed.
Lemma derivable_left f u l a : derivable_pt_lim f u l -> derivable_pt_lim (fun v => a * f v)%R u (a * l)%R.
Proof.
  intros H. replace (a * l)%R with (0 * f u + a * l)%R by ring.
  apply (derivable_pt_lim_mult (fun _ => a) f u 0 l); [apply derivable_pt_lim_const | exact H].
Qed.
Lemma derivable_sum {I} (f : I -> R -> R) (g : I -> R) u l : (forall x, In x l -> derivable_pt_lim (f x) u (g x)) ->
  derivable_pt_lim (fun v => lsum (fun x => f x v) l) u (lsum g l).
Proof.
  induction l as [|x l IH]; intros H; cbn [lsum]; [apply derivable_pt_lim_const|].
  apply (derivable_pt_lim_plus (f x) (fun v => lsum (fun x => f x v) l)); [apply H; now left | apply IH; intros; apply H; now right].
Qed.

Lemma derivative_product_is knots degs us ders idx d kv u :
  Forall2 (fun kv p => nondecreasing kv /\ 0 <= p) knots degs -> length us = length knots -> length ders = length knots ->
  Forall (fun m => 0 <= m) ders -> in_box (point_counts knots degs) idx ->
  nth_error knots d = Some kv -> nth_error us d = Some u -> (first_knot kv <= u <= final_knot kv)%R -> ~ In u kv ->
  derivable_pt_lim (fun v => derivative_product knots degs (upd us d v) ders idx) u
    (derivative_product knots degs us (upd ders d (nth d ders 0 + 1)) idx).
Proof.
  intros H. revert us ders idx d. induction H as [|kv0 p knots degs [Hn Hp] H IH]; intros us ders idx d Hl Hm Hd Hb Ek Eu Hu Hni.
  - destruct d; discriminate.
  - destruct us as [|u0 us]; [discriminate|]. destruct ders as [|m ders]; [discriminate|].
    unfold point_counts in Hb. cbn [map2] in Hb. inversion Hb as [|? i ? idx' Hi Hb']; subst. inversion Hd as [|? ? Hm0 Hd']; subst.
    destruct d as [|d]; cbn [nth_error upd nth] in *.
    + injection Ek as ->. injection Eu as ->. cbn [derivative_product].
      replace (Z.to_nat (m + 1)) with (S (Z.to_nat m)) by lia.
      apply derivable_right. apply cox_derivative_is; auto. unfold zlen in Hi. lia.
    + cbn [derivative_product]. apply derivable_left. apply IH; auto.
Qed.

Lemma exact_derivative_zero knots degs cps us c : length degs = length knots -> length us = length knots ->
  exact_derivative knots degs cps us (repeat 0 (length knots)) c = exact_coordinate knots degs cps us c.
Proof. intros H1 H2. apply lsum_ext. intros idx _. now rewrite derivative_product_zero. Qed.

Lemma exact_derivative_is knots degs cps us ders d kv u c :
  Forall2 good_direction knots degs -> length us = length knots -> length ders = length knots ->
  Forall (fun m => 0 <= m) ders ->
  nth_error knots d = Some kv -> nth_error us d = Some u -> (first_knot kv <= u <= final_knot kv)%R -> ~ In u kv ->
  derivable_pt_lim (fun v => exact_derivative knots degs cps (upd us d v) ders c) u
    (exact_derivative knots degs cps us (upd ders d (nth d ders 0 + 1)) c).
Proof.
  intros H Hl Hm Hd Ek Eu Hu Hni. unfold exact_derivative.
  apply derivable_sum. intros idx Hi. apply derivable_right. apply all_indices_box in Hi.
  apply (derivative_product_is knots degs us ders idx d kv u); auto.
  clear - H. induction H as [|kv p knots degs (A & _ & B & _) _ IH]; constructor; auto.
Qed.

(* ---- one basis function ---- *)
Lemma growth1_nat h p m : 0 <= p -> growth1 h p m = ((2 * INR (Z.to_nat (Z.max 1 p)) / h) ^ Z.to_nat m)%R.
Proof. intros H. unfold growth1. do 3 f_equal. rewrite INR_IZR_INZ. repeat f_equal. lia. Qed.

Lemma double_basis_derivative kv p u i q m h : double_direction kv q -> double_parameter kv u -> spaced h (map dval kv) -> (0 < h <= 1)%R ->
  (i + p + 1 < length kv)%nat -> (p <= 500)%nat -> (m <= 500)%nat ->
  (1 <= p)%nat \/ (1 <= m)%nat \/ (knot (map dval kv) i < knot (map dval kv) (S i))%R ->
  (growth1 h (Z.of_nat p) (Z.of_nat m) <= 2 ^ 900)%R ->
  exists b, create_dynamic (F := Fops) kv (Z.of_nat i) (Z.of_nat p) = Ok b /\
    let v := bf_deriv b u (Z.of_nat m) in
    finite v /\ (Rabs (dval v - cox_derivative (map dval kv) m p i (dval u)) <=
       INR (6 * p + 2 * m + 1) * / 2 ^ 52 * growth1 h (Z.of_nat p) (Z.of_nat m))%R.
Proof.
  intros Hd Hu Hh Hh1 Hi Hp Hm Hq HB. pose proof (inside_moderate kv q u Hd Hu) as Mu.
  destruct Hd as [Mk (_ & Hc & Hn & Hs & Hlt)]. destruct Hu as [Fu Ru].
  destruct (knot_span_in_span noz (map dval kv) (dval u) Hn Hs Hlt Ru) as (k & E & Sp).
  exists (dbf kv (Z.of_nat i) p). split.
  { rewrite dcreate_dynamic by (unfold zlen; lia). now rewrite Nat2Z.id. }
  cbv zeta. rewrite growth1_nat, Nat2Z.id in * by lia. set (P := Z.to_nat (Z.max 1 (Z.of_nat p))) in *.
  destruct (phi_small (6 * p + 2 * m + 1)) as [Ph1 Ph2].
  { assert (N : (INR (6 * p + 2 * m + 1) <= 2 ^ 50)%R).
    { rewrite INR_IZR_INZ. replace (2 ^ 50)%R with (IZR (2 ^ 50)) by exact (eq_sym (pow_IZR 2 50)). apply IZR_le. lia. }
    apply Rle_trans with (2 ^ 50 * roundoff)%R; [apply Rmult_le_compat_r; [pose proof roundoff_pos; lra | exact N]|].
    unfold roundoff. replace (2 ^ 53)%R with (2 ^ 50 * 8)%R by ring. rewrite Rinv_mult, <- Rmult_assoc, Rinv_r; [lra | apply pow_nonzero; lra]. }
  destruct (dbf_near noz kv k u h P Mk Mu Hn Hs Sp Hh Hh1 ltac:(lia) m p (Z.of_nat i) ltac:(lia) ltac:(unfold zlen; lia) ltac:(lia) Ph2 HB) as [Fv [_ Cv]].
  rewrite (bf_deriv_piece noz (map dval kv) k m p (Z.of_nat i) (dval u) Hn Hs Sp) in Cv.
  - rewrite <- (cox_derivative_piece (map dval kv) k m p (Z.of_nat i) (dval u)), Nat2Z.id in Cv by (auto; try rewrite zlen_map; unfold zlen; lia).
    split; [exact Fv|]. eapply Rle_trans; [exact Cv|]. apply Rmult_le_compat_r.
    + apply pow_le. unfold Rdiv. apply Rmult_le_pos; [pose proof (pos_INR P); lra|]. left; apply Rinv_0_lt_compat; lra.
    + eapply Rle_trans; [exact Ph1|]. unfold roundoff. replace (2 ^ 53)%R with (2 * 2 ^ 52)%R by ring. rewrite Rinv_mult.
      pose proof (pos_INR (6 * p + 2 * m + 1)). assert (0 < / 2 ^ 52)%R by (apply Rinv_0_lt_compat, pow_lt; lra).
      assert (0 <= INR (6 * p + 2 * m + 1) * / 2 ^ 52)%R by (apply Rmult_le_pos; lra). lra.
  - lia.
  - rewrite zlen_map. unfold zlen. lia.
  - destruct Hq as [Hq|[Hq|Hq]]; auto. right; right. replace (Z.of_nat i + 1) with (Z.of_nat (S i)) by lia.
    rewrite !tk_knot by (rewrite map_length; lia). exact Hq.
Qed.

(* ---- the product ---- *)
Definition exm (x : fdir * Z) : dir := mkDir (map dval (fk (fst x))) (fp (fst x)) (dval (fu (fst x))) (fsp (fst x)) (snd x).

Section Product.
Context (dz : R -> R) (h : R) (Hh : (0 < h <= 1)%R).

Definition good_m (x : fdir * Z) : Prop :=
  good_fdir dz (fst x) /\ 0 <= snd x /\ fp (fst x) <= 500 /\ spaced h (map dval (fk (fst x))).

Lemma exm_good x : good_m x -> good_dir dz (exm x).
Proof.
  intros ((_ & _ & A & B & C & D & _) & H & _). exact (conj A (conj B (conj C (conj D H)))).
Qed.

Fixpoint mprod (v : float) (LM : list (fdir * Z)) (idx : list Z) : float :=
  match LM, idx with
  | (d, m) :: L', i :: idx' => mprod (v * bf_deriv (dbf (fk d) i (Z.to_nat (fp d))) (fu d) m)%float L' idx'
  | _, _ => v
  end.

Lemma mbasis_ok LM idx : Forall good_m LM -> factive (map fst LM) idx ->
  get_basis_function_derivs (psF (map fst LM)) idx (map fu (map fst LM)) (map snd LM) = Ok (mprod 1%float LM idx).
Proof.
  intros H. unfold get_basis_function_derivs, psF, fmkps. cbn [ps_bfs]. rewrite map2_map. change (@n1 Fops) with 1%float.
  generalize 1%float. revert idx. induction H as [|[d m] LM Hd HL IH]; intros idx v Ha; cbn [map fst snd] in *; inversion Ha; subst; cbn [combine foldM mprod]; auto.
  cbn [fst snd]. destruct Hd as (G & _). cbn [fst] in G. destruct (good_fdir_facts dz d G) as (_ & _ & _ & A & B & _).
  rewrite dbfs_get by lia. cbn [bind]. apply IH. assumption.
Qed.

Definition mcost (LM : list (fdir * Z)) : nat := fold_right (fun x a => 6 * Z.to_nat (fp (fst x)) + 2 * Z.to_nat (snd x) + 3 + a)%nat 0%nat LM.
Definition mgrow (LM : list (fdir * Z)) : R := fold_right (fun x a => growth1 h (fp (fst x)) (snd x) * a)%R 1%R LM.

Lemma growth1_ge1 p m : (1 <= growth1 h p m)%R.
Proof.
  unfold growth1. apply pow_R1_Rle. unfold Rdiv.
  assert (1 <= / h)%R by (rewrite <- Rinv_1; apply Rinv_le_contravar; lra).
  assert (1 <= IZR (Z.max 1 p))%R by (apply IZR_le; lia). nra.
Qed.
Lemma mgrow_ge1 LM : (1 <= mgrow LM)%R.
Proof. induction LM as [|x LM IH]; cbn [mgrow fold_right]; [lra|]. fold (mgrow LM). pose proof (growth1_ge1 (fp (fst x)) (snd x)). nra. Qed.

Lemma exm_factor d m i : good_m (d, m) -> fsp d - fp d <= i <= fsp d ->
  bf_deriv (mkbf dz (map dval (fk d)) i (Z.to_nat (fp d))) (dval (fu d)) m = dfactor (exm (d, m)) i.
Proof.
  intros (Hd & Hm & _) Hi. cbn [fst snd] in *. destruct (good_fdir_facts dz d Hd) as (_ & _ & _ & A & B & _). destruct Hd as (Mk & Mu & Hg & Hsp & _).
  cbn [ex EvalFacts.dk dp du dsp] in *. pose proof Hg as (Hp & Hc & Hn & Hs & Hlt).
  assert (ZL : zlen (map dval (fk d)) = zlen (fk d)) by apply zlen_map.
  unfold dfactor. cbn [exm EvalFacts.dk dp du dsp dm fst snd]. rewrite <- (bf_deriv_piece dz) by (auto; try lia;
    destruct (tk_nondeg _ _ i (fsp d) (dval (fu d)) Hg Hsp ltac:(lia)); auto).
  now rewrite Z2Nat.id by lia.
Qed.

Lemma mprod_near LM : Forall good_m LM -> forall idx v X n G, factive (map fst LM) idx ->
  finite v -> (1 <= G)%R -> near (phi ^ n) G (dval v) X ->
  (INR (n + mcost LM) * roundoff <= / 4)%R -> (G * mgrow LM <= 2 ^ 900)%R ->
  finite (mprod v LM idx) /\
  near (phi ^ (n + mcost LM)) (G * mgrow LM) (dval (mprod v LM idx)) (X * prodf (map dfactor (map exm LM)) idx).
Proof.
  induction 1 as [|[d m] LM Hd HL IH]; intros idx v X n G Ha Fv HG Cv Hn HB; cbn [map fst] in Ha; inversion Ha as [|? i ? idx' Hi Ha']; subst.
  - cbn [mprod map prodf mcost mgrow fold_right] in *. rewrite Nat.add_0_r, !Rmult_1_r in *. auto.
  - cbn [mprod map prodf mcost mgrow fold_right fst snd] in *. fold (mcost LM) (mgrow LM) in *.
    pose proof (exm_factor d m i Hd Hi) as Ef. pose proof Hd as (Gd & Hm & Hp5 & Hsd). cbn [fst snd] in *.
    destruct (good_fdir_facts dz d Gd) as (_ & _ & _ & A & B & _).
    pose proof Gd as (Mk & Mu & (Hp & Hc & Hnd & Hs & Hlt) & Hsp & _). cbn [ex EvalFacts.dk dp du dsp] in *.
    pose proof (growth1_ge1 (fp d) m) as G1. pose proof (mgrow_ge1 LM) as G2. pose proof roundoff_pos as Rp. pose proof phi_gt as Pg.
    set (g := growth1 h (fp d) m) in *. set (p := Z.to_nat (fp d)) in *.
    assert (g1 : (1 <= G * g)%R) by (rewrite <- (Rmult_1_l 1); apply Rmult_le_compat; lra).
    assert (gG : (g <= G * g)%R) by (rewrite <- (Rmult_1_l g) at 1; apply Rmult_le_compat_r; lra).
    assert (BGg : (G * g <= 2 ^ 900)%R).
    { eapply Rle_trans; [|exact HB]. rewrite <- Rmult_assoc. rewrite <- (Rmult_1_r (G * g)) at 1. apply Rmult_le_compat_l; lra. }
    assert (Bg : (g <= 2 ^ 900)%R) by (eapply Rle_trans; [exact gG | exact BGg]).
    assert (Sm : forall k, (k <= n + (6 * p + 2 * Z.to_nat m + 3 + mcost LM))%nat -> (phi ^ k <= 4 / 3)%R).
    { intros k Hk. apply phi_small. eapply Rle_trans; [|exact Hn]. apply Rmult_le_compat_r; [lra|]. now apply le_INR. }
    assert (Eg : g = ((2 * INR (Z.to_nat (Z.max 1 (fp d))) / h) ^ Z.to_nat m)%R) by (apply growth1_nat; lia).
    destruct (dbf_near dz (fk d) (fsp d) (fu d) h (Z.to_nat (Z.max 1 (fp d))) Mk Mu Hnd Hs Hsp Hsd Hh ltac:(lia) (Z.to_nat m) p i ltac:(lia) ltac:(unfold p; lia)
       ltac:(unfold p; lia) (Sm (6 * p + 2 * Z.to_nat m + 1)%nat ltac:(lia)) ltac:(rewrite <- Eg; exact Bg)) as [Fb Cb].
    rewrite <- Eg in Cb. rewrite Z2Nat.id in Fb, Cb by lia. rewrite Ef in Cb.
    set (b := bf_deriv (dbf (fk d) i p) (fu d) m) in *. set (Y := dfactor (exm (d, m)) i) in *.
    change (num Fops) with float in (type of b).
    assert (Big : (4 / 3 * 2 ^ 900 <= 2 ^ 1023)%R).
    { replace 1023%nat with (1 + 1022)%nat by lia. rewrite pow_add, pow_1. pose proof (pow2_le 900 1022 ltac:(lia)) as Q1. pose proof (pow2_ge1 900) as Q2.
      revert Q1 Q2. generalize (2 ^ 900)%R (2 ^ 1022)%R. intros. lra. }
    destruct (near_fmul (phi ^ n) (phi ^ (6 * p + 2 * Z.to_nat m + 1)) G g v X b Y) as [Fz Cz]; auto using phi_pow_ge; try lra.
    + eapply Rle_trans; [|exact Big]. rewrite <- pow_add. pose proof (phi_pow_ge (n + (6 * p + 2 * Z.to_nat m + 1))).
      apply Rmult_le_compat; [lra | lra | apply Sm; lia | exact BGg].
    + rewrite <- !pow_add in Cz.
      destruct (IH idx' (v * b)%float (X * Y)%R (n + (6 * p + 2 * Z.to_nat m + 1) + 2)%nat (G * g)%R) as [Fr Cr]; auto.
      * eapply Rle_trans; [|exact Hn]. apply Req_le. do 2 f_equal. lia.
      * rewrite Rmult_assoc. exact HB.
      * split; [exact Fr|]. replace (n + (6 * p + 2 * Z.to_nat m + 3 + mcost LM))%nat with (n + (6 * p + 2 * Z.to_nat m + 1) + 2 + mcost LM)%nat by lia.
        rewrite <- !Rmult_assoc in *. exact Cr.
Qed.
End Product.

(* ---- evaluation ---- *)
Lemma fderiv_ok dz h LM cps dim dims : Forall (good_m dz h) LM -> Forall (fun cp => zlen cp = dim) cps ->
  let L := map fst LM in let npts := point_counts (map fk L) (map fp L) in
  zlen cps = total npts -> Forall (fun c => 0 <= c < dim) dims ->
  evaluate_derivative (mkSpline (F := Fops) (psF L) (mkPhys (F := Fops) dim npts (concat cps) None)) (map fu L) dims (map snd LM) =
  Ok (map (fun c => fold_left (fun v cur => (v + mprod 1 LM (map2 Z.add cur (map (fun d => fsp d - fp d)%Z L)) *
              fcoord npts cps (map2 Z.add cur (map (fun d => fsp d - fp d)%Z L)) c)%float)
            (visited (map (fun q => q + 1) (map fp L))) 0%float) dims).
Proof.
  intros HL Hd L npts Hn Hv. assert (HG : Forall (good_fdir dz) L).
  { unfold L. rewrite Forall_map. eapply Forall_impl; [|exact HL]. intros x Hx. apply Hx. }
  unfold evaluate_derivative. cbn [sp_ps]. rewrite (fthrow_ok dz) by auto. cbn [bind].
  rewrite (ffirst_ok dz) by auto. cbn [bind]. rewrite mih_loop_visited. cbn [mcur]. unfold num_to_evaluate. cbn [sp_ps].
  change (ps_degs (psF L)) with (map fp L).
  etransitivity; [apply (fpoint_fold
    (fun idx c => evaluated_deriv_control_point (mkSpline (F := Fops) (psF L) (mkPhys (F := Fops) dim npts (concat cps) None)) (map fu L) (map snd LM)
          (map2 Z.add idx (map (fun d => fsp d - fp d)%Z L)) c)
    (fun cur c => (mprod 1 LM (map2 Z.add cur (map (fun d => fsp d - fp d)%Z L)) *
              fcoord npts cps (map2 Z.add cur (map (fun d => fsp d - fp d)%Z L)) c)%float)
    (visited (map (fun q => q + 1) (map fp L))) dims (repeat 0%float (length dims)))|].
  - now rewrite repeat_length.
  - intros cur c Hc Hin. destruct (fvisited dz L cur HG Hc) as [Ha Hb]. unfold evaluated_deriv_control_point. cbn [sp_ps sp_ph ph_wts].
    pose proof (mbasis_ok dz h LM _ HL Ha) as EB. fold L in EB. rewrite EB. cbn [bind]. rewrite fcp_value_ok; auto. rewrite Forall_forall in Hv. auto.
  - now rewrite map2_repeat.
Qed.

Lemma exm_dp LM : map dp (map exm LM) = map fp (map fst LM).
Proof. rewrite !map_map. reflexivity. Qed.
Lemma exm_lens LM : lensL (map exm LM) = point_counts (map fk (map fst LM)) (map fp (map fst LM)).
Proof. unfold lensL, point_counts. rewrite !map_map, map2_map. apply map_ext. intros d. unfold dlen. cbn. now rewrite zlen_map. Qed.
Lemma exm_shift LM : map (fun d => dsp d - dp d) (map exm LM) = map (fun d => fsp d - fp d) (map fst LM).
Proof. rewrite !map_map. reflexivity. Qed.

Lemma derivative_product_dirs L idx : Forall (good_dir noz) L -> in_box (lensL L) idx ->
  derivative_product (map EvalFacts.dk L) (map dp L) (map du L) (map dm L) idx = prodf (map dfactor L) idx.
Proof.
  unfold in_box, lensL. intros HL. revert idx. induction HL as [|x L Hx HL IH]; intros idx Hb; cbn [map] in *.
  - reflexivity.
  - inversion Hb as [|? i ? idx' Hi Hb']; subst. cbn [derivative_product prodf].
    rewrite IH by auto. f_equal. destruct Hx as ((Hp & Hc & Hn & _) & Hsp & _).
    rewrite (cox_derivative_piece (EvalFacts.dk x) (dsp x)); auto; try lia.
    unfold dlen in Hi. lia.
Qed.

Lemma exact_derivative_visited h LM cps c : Forall (good_m noz h) LM -> let L := map fst LM in
  exact_derivative (map (map dval) (map fk L)) (map fp L) (map (map dval) cps) (map dval (map fu L)) (map snd LM) c =
  lsum (fun cur => (prodf (map dfactor (map exm LM)) (map2 Z.add cur (map (fun d => fsp d - fp d)%Z L)) *
      dval (fcoord (point_counts (map fk L) (map fp L)) cps (map2 Z.add cur (map (fun d => fsp d - fp d)%Z L)) c))%R)
    (visited (map (fun q => q + 1) (map fp L))).
Proof.
  intros HL L. assert (HG : Forall (good_dir noz) (map exm LM)).
  { rewrite Forall_map. eapply Forall_impl; [|exact HL]. apply exm_good. }
  unfold exact_derivative, L.
  assert (E1 : map (map dval) (map fk (map fst LM)) = map EvalFacts.dk (map exm LM)) by (rewrite !map_map; reflexivity).
  assert (E2 : map dval (map fu (map fst LM)) = map du (map exm LM)) by (rewrite !map_map; reflexivity).
  assert (E4 : map snd LM = map dm (map exm LM)) by (rewrite !map_map; reflexivity).
  assert (E3 : point_counts (map EvalFacts.dk (map exm LM)) (map dp (map exm LM)) = lensL (map exm LM)).
  { unfold point_counts, lensL. rewrite map2_map. reflexivity. }
  rewrite E1, E2, E4, <- (exm_lens LM), <- (exm_shift LM), <- (exm_dp LM), E3.
  pose proof (visited_sum noz (map exm LM) (fun idx => dval (fcoord (lensL (map exm LM)) cps idx c)) HG) as V. cbv zeta in V.
  rewrite V. rewrite <- tsum_boxl by (now rewrite !map_length).
  rewrite all_indices_boxl, lensL_ranges.
  apply lsum_ext. intros idx Hi. rewrite derivative_product_dirs; auto.
  - f_equal. unfold fcoord. rewrite <- (proj2 zero_exact).
    rewrite <- (map_nth dval). f_equal. exact (map_nth (map dval) cps [] _).
  - apply all_indices_box. now rewrite all_indices_boxl, lensL_ranges.
Qed.

Lemma mcost_eq LM h : Forall (good_m noz h) LM -> derivative_cost (map fp (map fst LM)) (map snd LM) = Z.of_nat (mcost LM).
Proof.
  induction 1 as [|[d m] LM Hd H IH]; cbn [map mcost fold_right fst snd]; [reflexivity|]. unfold derivative_cost in *. cbn [map2 fold_right].
  rewrite IH. fold (mcost LM). destruct Hd as (G & Hm & _). cbn [fst snd] in *. destruct (good_fdir_facts noz d G) as (_ & _ & _ & A & _). lia.
Qed.
Lemma mgrow_eq LM h : growth h (map fp (map fst LM)) (map snd LM) = mgrow h LM.
Proof. induction LM as [|[d m] LM IH]; cbn [map mgrow fold_right fst snd]; [reflexivity|]. unfold growth in *. cbn [map2 fold_right]. now rewrite IH. Qed.

(* a sum of terms of the same size *)
Lemma near_sum {I} (f : I -> float) (T : I -> R) F G l : (1 <= F)%R -> (1 <= G)%R ->
  (forall x, In x l -> finite (f x) /\ near F G (dval (f x)) (T x)) ->
  forall k acc A, finite acc -> near (F * phi ^ (2 * k)) (INR k * G) (dval acc) A ->
  (F * phi ^ (2 * (k + length l)) <= 4 / 3)%R -> (INR (k + length l) * G <= 2 ^ 900)%R ->
  finite (fold_left (fun v x => (v + f x)%float) l acc) /\
  near (F * phi ^ (2 * (k + length l))) (INR (k + length l) * G) (dval (fold_left (fun v x => (v + f x)%float) l acc)) (A + lsum T l).
Proof.
  intros HF HG. induction l as [|x l IH]; intros Hl k acc A Fa Ca HP HB.
  - cbn [fold_left lsum length] in *. rewrite Nat.add_0_r, Rplus_0_r in *. auto.
  - cbn [fold_left lsum length] in *. replace (k + S (length l))%nat with (S k + length l)%nat in * by lia.
    destruct (Hl x (or_introl eq_refl)) as [Fx Cx]. pose proof phi_gt as Pg.
    assert (Big : (4 / 3 * 2 ^ 900 <= 2 ^ 1023)%R).
    { replace 1023%nat with (1 + 1022)%nat by lia. rewrite pow_add, pow_1. pose proof (pow2_le 900 1022 ltac:(lia)) as Q1. pose proof (pow2_ge1 900) as Q2.
      revert Q1 Q2. generalize (2 ^ 900)%R (2 ^ 1022)%R. intros. lra. }
    pose proof (phi_pow_ge (2 * k)) as P2. pose proof (pos_INR k) as K0.
    assert (F1 : (1 <= F * phi ^ (2 * k))%R) by nra.
    assert (Mono : (F * phi ^ (2 * k) <= F * phi ^ (2 * (S k + length l)))%R) by (apply Rmult_le_compat_l; [lra|]; apply Rle_pow; [lra | lia]).
    assert (Sk : (INR (S k) <= INR (S k + length l))%R) by (apply le_INR; lia).
    assert (SG : (INR k * G + G = INR (S k) * G)%R) by (rewrite S_INR; ring).
    assert (BG : (INR (S k) * G <= 2 ^ 900)%R) by (eapply Rle_trans; [|exact HB]; apply Rmult_le_compat_r; lra).
    assert (SG0 : (0 <= INR k * G)%R) by (apply Rmult_le_pos; lra).
    destruct (near_fadd (F * phi ^ (2 * k)) (INR k * G) G acc A (f x) (T x)) as [Fz Cz]; auto; try lra.
    + rewrite SG. eapply Rle_trans; [|exact Big]. apply Rmult_le_compat; lra.
    + eapply near_weaken; [| |exact Cx]; split; try lra. nra.
    + rewrite SG in Cz. replace (F * phi ^ (2 * k) * phi ^ 2)%R with (F * phi ^ (2 * S k))%R in Cz
        by (replace (2 * S k)%nat with (2 * k + 2)%nat by lia; rewrite pow_add; ring).
      destruct (IH (fun y Hy => Hl y (or_intror Hy)) (S k) (acc + f x)%float (A + T x)%R Fz Cz HP HB) as [Fr Cr].
      split; [exact Fr|]. rewrite <- Rplus_assoc. exact Cr.
Qed.

Lemma double_derivative knots degs cps us ders dim dims M h :
  Forall2 double_direction knots degs -> Forall2 double_parameter knots us ->
  Forall (fun kv => spaced h (map dval kv)) knots -> (0 < h <= 1)%R ->
  length ders = length degs -> Forall (fun m => 0 <= m) ders -> Forall (fun p => p <= 500) degs ->
  Forall (fun cp => zlen cp = dim) cps -> zlen cps = total (point_counts knots degs) -> zlen cps < 2 ^ 64 ->
  Forall (fun c => 0 <= c < dim) dims ->
  Forall (Forall finite) cps -> Forall (Forall (fun x => Rabs (dval x) <= M)%R) cps -> (1 <= M <= 2 ^ 400)%R ->
  (growth h degs ders <= 2 ^ 400)%R ->
  derivative_cost degs ders + 2 * summands degs + 2 <= 2 ^ 50 ->
  exists s vs, spline_new (F := Fops) knots degs cps None = Ok s /\ evaluate_derivative s us dims ders = Ok vs /\
    Forall2 (fun c v => finite v /\
      (Rabs (dval v - exact_derivative (map (map dval) knots) degs (map (map dval) cps) (map dval us) ders c) <=
        IZR (derivative_cost degs ders + 2 * summands degs + 2) * / 2 ^ 52 * (IZR (summands degs) * growth h degs ders * M))%R) dims vs.
Proof.
  intros Hk Hu Hsp Hh Hlm Hm Hp5 Hc Hn Hb Hdims Hf HM HM5 HG Hcost.
  destruct (fdirections noz knots degs us Hk Hu) as (L & HL & -> & -> & ->).
  assert (HLM : exists LM, L = map fst LM /\ ders = map snd LM).
  { exists (combine L ders). rewrite map_length in Hlm. clear - Hlm. revert ders Hlm. induction L as [|d L IH]; intros [|m ders] H; cbn in *; try discriminate; auto.
    destruct (IH ders ltac:(lia)) as [<- <-]. auto. }
  destruct HLM as (LM & -> & ->).
  assert (HgM : Forall (good_m noz h) LM).
  { clear - HL Hsp Hm Hp5. induction LM as [|[d m] LM IH]; constructor; cbn [map fst snd] in *.
    - exact (conj (Forall_inv HL) (conj (Forall_inv Hm) (conj (Forall_inv Hp5) (Forall_inv Hsp)))).
    - apply IH; eapply Forall_inv_tail; eassumption. }
  set (L := map fst LM) in *.
  eexists. eexists. split; [apply (fspline_new_ok _ _ cps dim); auto|].
  split; [apply (fderiv_ok noz h LM cps dim dims); auto|]. fold L.
  set (npts := point_counts (map fk L) (map fp L)) in *. set (sh := map (fun d => fsp d - fp d)%Z L).
  set (vis := visited (map (fun q => q + 1) (map fp L))).
  assert (Evl : Z.of_nat (length vis) = summands (map fp L)).
  { unfold vis, visited. rewrite map_length, seq_length, <- summands_total. pose proof (summands_pos L noz HL). lia. }
  pose proof (mcost_eq LM h HgM) as Ecost. pose proof (mgrow_eq LM h) as Egrow. fold L in Ecost, Egrow.
  pose proof roundoff_pos as Rp. pose proof phi_gt as Pg. pose proof (summands_pos L noz HL) as Sp1.
  set (n := length vis) in *. set (D := mcost LM) in *. rewrite Ecost, Egrow in *.
  pose proof (mgrow_ge1 h Hh LM) as Gr1. set (Gr := mgrow h LM) in *.
  assert (Small : (INR (D + 2 + 2 * n) * roundoff <= / 4)%R).
  { assert (INR (D + 2 + 2 * n) <= 2 ^ 50)%R.
    { rewrite INR_IZR_INZ. replace (2 ^ 50)%R with (IZR (2 ^ 50)) by exact (eq_sym (pow_IZR 2 50)).
      apply IZR_le. lia. }
    apply Rle_trans with (2 ^ 50 * roundoff)%R; [apply Rmult_le_compat_r; lra|].
    unfold roundoff. replace (2 ^ 53)%R with (2 ^ 50 * 8)%R by ring. rewrite Rinv_mult, <- Rmult_assoc, Rinv_r; [lra | apply pow_nonzero; lra]. }
  destruct (phi_small (D + 2 + 2 * n) Small) as [Ph1 Ph2].
  assert (Caps : (Gr <= 2 ^ 900)%R /\ (1 * Gr <= 2 ^ 900)%R /\ (4 / 3 * (Gr * M) <= 2 ^ 1023)%R /\ (INR n * (Gr * M) <= 2 ^ 900)%R).
  { assert (N50 : (INR n <= 2 ^ 50)%R).
    { rewrite INR_IZR_INZ. replace (2 ^ 50)%R with (IZR (2 ^ 50)) by exact (eq_sym (pow_IZR 2 50)). apply IZR_le. lia. }
    assert (GM : (Gr * M <= 2 ^ 800)%R).
    { replace 800%nat with (400 + 400)%nat by lia. rewrite pow_add. apply Rmult_le_compat; lra. }
    pose proof (pow2_le 400 900 ltac:(lia)) as Q1. pose proof (pow2_le 850 900 ltac:(lia)) as Q2. pose proof (pow2_le 801 1023 ltac:(lia)) as Q3.
    pose proof (pow2_ge1 800) as Q4. assert (Q5 : (2 ^ 801 = 2 * 2 ^ 800)%R) by (rewrite tech_pow_Rmult; reflexivity).
    split; [eapply Rle_trans; [exact HG | exact Q1]|]. split; [rewrite Rmult_1_l; eapply Rle_trans; [exact HG | exact Q1]|]. split.
    - eapply Rle_trans; [|exact Q3]. rewrite Q5. revert GM Q4. generalize (2 ^ 800)%R (Gr * M)%R. intros. lra.
    - eapply Rle_trans; [|exact Q2]. replace 850%nat with (50 + 800)%nat by lia. rewrite pow_add.
      apply Rmult_le_compat; [apply pos_INR | nra | exact N50 | exact GM]. }
  destruct Caps as (Cap1 & Cap2 & Cap3 & Cap4).
  assert (Main : forall c, In c dims ->
    let v := fold_left (fun v cur => (v + mprod 1 LM (map2 Z.add cur sh) * fcoord npts cps (map2 Z.add cur sh) c)%float) vis 0%float in
    finite v /\
    (Rabs (dval v - exact_derivative (map (map dval) (map fk L)) (map fp L) (map (map dval) cps) (map dval (map fu L)) (map snd LM) c) <=
        IZR (Z.of_nat D + 2 * summands (map fp L) + 2) * / 2 ^ 52 * (IZR (summands (map fp L)) * Gr * M))%R).
  2:{ clear - Main. induction dims as [|c dims IH]; cbn [map]; constructor.
      - apply Main. now left.
      - apply IH. intros; apply Main; now right. }
  intros c Hin. cbv zeta. unfold L. rewrite (exact_derivative_visited h LM cps c HgM). fold L. fold npts sh vis.
  assert (GM1 : (1 <= Gr * M)%R) by nra.
  destruct (near_sum (fun cur => (mprod 1 LM (map2 Z.add cur sh) * fcoord npts cps (map2 Z.add cur sh) c)%float)
     (fun cur => (prodf (map dfactor (map exm LM)) (map2 Z.add cur sh) * dval (fcoord npts cps (map2 Z.add cur sh) c))%R)
     (phi ^ (D + 2)) (Gr * M) vis (phi_pow_ge _) GM1) with (k := 0%nat) (acc := 0%float) (A := 0%R) as [Fr [_ Cr]].
  - intros cur Hcur. destruct (fvisited noz L cur HL Hcur) as [Ha Hbx]. fold sh npts in Ha, Hbx.
    rewrite Forall_forall in Hdims. pose proof (Hdims c Hin) as Hc1.
    assert (Hx : finite (fcoord npts cps (map2 Z.add cur sh) c) /\ (Rabs (dval (fcoord npts cps (map2 Z.add cur sh) c)) <= M)%R).
    { pose proof (position_range _ _ Hbx) as Hr. unfold fcoord.
      assert (I1 : In (nth (Z.to_nat (position npts (map2 Z.add cur sh))) cps []) cps) by (apply nth_In; unfold zlen in Hn; lia).
      rewrite Forall_forall in Hc, Hf, HM. pose proof (Hc _ I1) as Z1.
      assert (I2 : In (nth (Z.to_nat c) (nth (Z.to_nat (position npts (map2 Z.add cur sh))) cps []) 0%float) (nth (Z.to_nat (position npts (map2 Z.add cur sh))) cps []))
        by (apply nth_In; unfold zlen in Z1; lia).
      pose proof (Hf _ I1) as F1. pose proof (HM _ I1) as M1. rewrite Forall_forall in F1, M1. auto. }
    destruct Hx as [Fc Bc].
    destruct (mprod_near noz h Hh LM HgM (map2 Z.add cur sh) 1%float 1%R 0%nat 1%R Ha) as [Fm Cm]; try lra.
    + apply one_exact.
    + rewrite (proj2 one_exact). cbn [pow]. apply near_exact. rewrite Rabs_R1. lra.
    + eapply Rle_trans; [|exact Small]. apply Rmult_le_compat_r; [lra|]. apply le_INR. fold D. lia.
    + exact Cap2.
    + cbn [Nat.add] in Cm. fold D Gr in Cm. rewrite !Rmult_1_l in Cm.
      destruct (near_fmul (phi ^ D) 1 Gr M (mprod 1 LM (map2 Z.add cur sh)) (prodf (map dfactor (map exm LM)) (map2 Z.add cur sh))
        (fcoord npts cps (map2 Z.add cur sh) c) (dval (fcoord npts cps (map2 Z.add cur sh) c))) as [Fz Cz]; auto using phi_pow_ge, near_exact; try lra.
      * rewrite Rmult_1_r. eapply Rle_trans; [|exact Cap3]. apply Rmult_le_compat_r; [lra|]. eapply Rle_trans; [|exact Ph2]. apply Rle_pow; [lra | lia].
      * split; [exact Fz|]. rewrite Rmult_1_r, <- pow_add in Cz. exact Cz.
  - apply zero_exact.
  - rewrite (proj2 zero_exact). cbn [INR]. rewrite Rmult_0_l. unfold near. rewrite Rminus_0_r, Rabs_R0. split; [lra | apply Req_le; ring].
  - fold n. cbn [Nat.add]. rewrite <- pow_add. exact Ph2.
  - fold n. cbn [Nat.add]. exact Cap4.
  - fold n in Fr, Cr. cbn [Nat.add] in Cr. rewrite Rplus_0_l, <- pow_add in Cr. split; [exact Fr|].
    eapply Rle_trans; [exact Cr|].
    assert (EI : IZR (Z.of_nat D + 2 * summands (map fp L) + 2) = INR (D + 2 + 2 * n)).
    { rewrite INR_IZR_INZ. f_equal. lia. }
    assert (En : IZR (summands (map fp L)) = INR n) by (rewrite INR_IZR_INZ; f_equal; lia).
    rewrite EI, En, (Rmult_assoc (INR n)). apply Rmult_le_compat_r; [apply Rmult_le_pos; [apply pos_INR | lra]|].
    eapply Rle_trans; [exact Ph1|]. unfold roundoff. replace (2 ^ 53)%R with (2 * 2 ^ 52)%R by ring. rewrite Rinv_mult.
    pose proof (pos_INR (D + 2 + 2 * n)). assert (0 < / 2 ^ 52)%R by (apply Rinv_0_lt_compat, pow_lt; lra).
    assert (0 <= INR (D + 2 + 2 * n) * / 2 ^ 52)%R by (apply Rmult_le_pos; lra). lra.
Qed.

(* parameters outside the domain *)
Lemma double_derivative_domain knots degs cps us ders dim dims :
  Forall2 double_direction knots degs -> length us = length knots ->
  Forall (fun cp => zlen cp = dim) cps -> zlen cps = total (point_counts knots degs) -> zlen cps < 2 ^ 64 ->
  ~ Forall2 double_parameter knots us ->
  exists s, spline_new (F := Fops) knots degs cps None = Ok s /\ evaluate_derivative s us dims ders = Throw RangeError.
Proof.
  intros Hk Hl Hc Hn Hb Hu. eexists. split; [apply (fspline_new_ok _ _ cps dim); auto|].
  unfold evaluate_derivative. cbn [sp_ps]. rewrite throw_outside by auto. reflexivity.
Qed.
