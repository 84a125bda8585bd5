(* Reduction of a Bezier segment: the loops of DegreeReduceBezierSegment. *)
From Coq Require Import ZArith List Bool Lia Reals Lra.
From Verif Require Import Base BaseFacts RSum VecUtils SplineDegree DegreeSpec DegreeFacts.
Import ListNotations.
Open Scope Z_scope.

Section Reduce.
Variable dz : R -> R.
Local Notation F := (Rops dz).

Lemma residual_intro deg i cps new e : 2 <= deg ->
  let r := Z.quot (deg - 1) 2 in let odd := negb (Z.rem deg 2 =? 0) in
  let x j c := co new (i * deg + j) c in let y j c := co cps (i * (deg + 1) + j) c in
  (forall c, x 0 c = y 0 c) -> (forall c, x (deg - 1) c = y deg c) ->
  (forall j c, (1 <= j <= (if odd then r - 1 else r))%Z -> x j c = (y j c - x (j - 1)%Z c * (IZR j / IZR deg)) * (1 / (1 - IZR j / IZR deg)))%R ->
  (forall j c, (r + 1 <= j <= deg - 2)%Z -> x j c = (y (j + 1)%Z c - x (j + 1)%Z c * (1 - IZR (j + 1) / IZR deg)) * (1 / (IZR (j + 1) / IZR deg)))%R ->
  (if odd then exists pl pr : list R, (forall c, nth c e 0 = nth c pl 0 - nth c pr 0)%R /\
     (forall c, (0 <= c)%Z -> x r c = (nth (Z.to_nat c) pl 0 + nth (Z.to_nat c) pr 0) * (1 / 2))%R /\
     (forall c, (0 <= c)%Z -> nth (Z.to_nat c) pl 0 = (y r c - x (r - 1)%Z c * (IZR r / IZR deg)) * (1 / (1 - IZR r / IZR deg)))%R /\
     (forall c, (0 <= c)%Z -> nth (Z.to_nat c) pr 0 = (y (r + 1)%Z c - x (r + 1)%Z c * (1 - IZR (r + 1) / IZR deg)) * (1 / (IZR (r + 1) / IZR deg)))%R
   else forall c, (0 <= c)%Z -> nth (Z.to_nat c) e 0 = (y (r + 1)%Z c - (x r c + x (r + 1)%Z c) * (1 / 2)))%R ->
  residual deg i cps new e.
Proof.
  intros Hd r odd x y H0 Hn H1 H2 H3 j c Hj Hc.
  assert (D : (0 < IZR deg)%R) by (apply IZR_lt; lia).
  unfold c_low, c_high. fold r. fold (y j c). change (fun j0 : Z => co new (i * deg + j0) c) with (fun j => x j c). unfold elevated.
  assert (Hpar : (odd = true /\ deg = 2 * r + 1 /\ 1 <= r) \/ (odd = false /\ deg = 2 * r + 2 /\ 0 <= r)).
  { unfold odd, r. rewrite Z.quot_div_nonneg by lia. rewrite Z.rem_mod_nonneg by lia.
    pose proof (Z.div_mod deg 2 ltac:(lia)) as M1. pose proof (Z.mod_pos_bound deg 2 ltac:(lia)) as M2.
    pose proof (Z.div_mod (deg - 1) 2 ltac:(lia)) as M3. pose proof (Z.mod_pos_bound (deg - 1) 2 ltac:(lia)) as M4.
    destruct (Z.eqb_spec (deg mod 2) 0); cbn [negb]; [right|left]; split; auto; lia. }
  assert (Hodd : (Z.rem deg 2 =? 0) = negb odd) by (unfold odd; now rewrite negb_involutive). rewrite Hodd.
  assert (A1 : forall k, 0 <= k < deg -> (1 - IZR k / IZR deg <> 0)%R) by (intros k Hk; pose proof (frac_lt k deg Hk); lra).
  assert (A2 : forall k, 0 < k -> (IZR k / IZR deg <> 0)%R) by (intros k Hk; pose proof (frac_pos k deg Hk ltac:(lia)); lra).
  destruct (Z.eq_dec j 0) as [->|Hj0].
  { rewrite <- H0. replace (IZR 0 / IZR deg)%R with 0%R by (unfold Rdiv; ring).
    destruct Hpar as [(-> & E & Hr)|(-> & E & Hr)]; cbn [negb].
    - destruct (Z.eqb_spec 0 r); [lia|]. destruct (Z.eqb_spec 0 (r + 1)); [lia|]. ring.
    - destruct (Z.eqb_spec 0 r); [ring|]. destruct (Z.eqb_spec 0 (r + 1)); [lia|]. ring. }
  destruct (Z.eq_dec j deg) as [->|Hjd].
  { rewrite <- Hn. replace (IZR deg / IZR deg)%R with 1%R by (field; lra).
    destruct (Z.eqb_spec deg r); [lia|]. destruct (Z.eqb_spec deg (r + 1)); [lia|]. ring. }
  destruct Hpar as [(Eo & E & Hr)|(Eo & E & Hr)]; rewrite Eo in *; cbn [negb].
  - destruct H3 as (pl & pr & V1 & V2 & V3 & V4).
    destruct (Z.eqb_spec j r) as [->|N1].
    + rewrite V1, V2 by auto. pose proof (V3 c Hc) as V3c. 
      assert (Y : (y r c = nth (Z.to_nat c) pl 0 * (1 - IZR r / IZR deg) + x (r - 1)%Z c * (IZR r / IZR deg))%R).
      { rewrite V3c. set (a := (IZR r / IZR deg)%R). assert (1 - a <> 0)%R by (apply A1; lia). field. auto. }
      rewrite Y. field. lra.
    + destruct (Z.eqb_spec j (r + 1)) as [->|N2].
      * replace (r + 1 - 1) with r by lia. rewrite V1, V2 by auto. pose proof (V4 c Hc) as V4c.
        assert (Y : (y (r + 1)%Z c = nth (Z.to_nat c) pr 0 * (IZR (r + 1) / IZR deg) + x (r + 1)%Z c * (1 - IZR (r + 1) / IZR deg))%R).
        { rewrite V4c. set (a := (IZR (r + 1) / IZR deg)%R). assert (a <> 0)%R by (apply A2; lia). field. auto. }
        rewrite Y. field. lra.
      * rewrite Rmult_0_l. destruct (Z.lt_ge_cases j r) as [Hlt|Hge].
        -- rewrite (H1 j c) by lia. set (a := (IZR j / IZR deg)%R). assert (1 - a <> 0)%R by (apply A1; lia). field. auto.
        -- pose proof (H2 (j - 1) c ltac:(lia)) as X. replace (j - 1 + 1) with j in X by lia. rewrite X.
           set (a := (IZR j / IZR deg)%R). assert (a <> 0)%R by (apply A2; lia). field. auto.
  - destruct (Z.eqb_spec j r) as [->|N1].
    + rewrite Rmult_0_l. rewrite (H1 r c) by lia. set (a := (IZR r / IZR deg)%R). assert (1 - a <> 0)%R by (apply A1; lia). field. auto.
    + destruct (Z.eqb_spec j (r + 1)) as [->|N2].
      * rewrite H3 by auto. replace (IZR (r + 1) / IZR deg)%R with (1 / 2)%R.
        -- replace (r + 1 - 1) with r by lia. field.
        -- rewrite E. replace (2 * r + 2) with (2 * (r + 1)) by lia. rewrite mult_IZR. field. apply not_0_IZR. lia.
      * rewrite Rmult_0_l. destruct (Z.lt_ge_cases j r) as [Hlt|Hge].
        -- rewrite (H1 j c) by lia. set (a := (IZR j / IZR deg)%R). assert (1 - a <> 0)%R by (apply A1; lia). field. auto.
        -- pose proof (H2 (j - 1) c ltac:(lia)) as X. replace (j - 1 + 1) with j in X by lia. rewrite X.
           set (a := (IZR j / IZR deg)%R). assert (a <> 0)%R by (apply A2; lia). field. auto.
Qed.

Lemma half_ok : ndiv (n := F) n1 (nadd (n := F) n1 n1) = (1 / 2)%R.
Proof. rewrite ndiv_R; rnorm; [reflexivity | lra]. Qed.

Lemma one_div x : x <> 0%R -> ndiv (n := F) n1 x = (1 / x)%R.
Proof. intros H. now rewrite ndiv_R. Qed.

Lemma parity deg : 2 <= deg -> let r := Z.quot (deg - 1) 2 in let odd := negb (Z.rem deg 2 =? 0) in
  (odd = true /\ deg = 2 * r + 1 /\ 1 <= r) \/ (odd = false /\ deg = 2 * r + 2 /\ 0 <= r).
Proof.
  intros Hd r odd. unfold odd, r. rewrite Z.quot_div_nonneg by lia. rewrite Z.rem_mod_nonneg by lia.
  pose proof (Z.div_mod deg 2 ltac:(lia)) as M1. pose proof (Z.mod_pos_bound deg 2 ltac:(lia)) as M2.
  pose proof (Z.div_mod (deg - 1) 2 ltac:(lia)) as M3. pose proof (Z.mod_pos_bound (deg - 1) 2 ltac:(lia)) as M4.
  destruct (Z.eqb_spec (deg mod 2) 0); cbn [negb]; [right|left]; split; auto; lia.
Qed.

(* one line of points *)
Lemma reduce_line deg lines dim cps new err i : 2 <= deg -> 0 <= i < lines ->
  seg (lines * (deg + 1)) dim cps -> seg (lines * deg) dim new ->
  let nd := deg - 1 in let r := Z.quot nd 2 in
  let old j i := ix2 (deg + 1) j i in let nw j i := ix2 deg j i in
  let odd := negb (Z.rem (nd + 1) 2 =? 0) in
  let alpha_r := ndiv (n := F) (nofZ r) (nofZ (nd + 1)) in
  let alpha_r_plus := ndiv (n := F) (nofZ (r + 1)) (nofZ (nd + 1)) in
  let half := ndiv (n := F) n1 (n1 + n1)%num in
  exists new' e, (
    a <- vget cps (old 0 i) ;; new <- vset new (nw 0 i) a ;;
    b <- vget cps (old (nd + 1) i) ;; new <- vset new (nw nd i) b ;;
    new <- for_up 1 ((if odd then r - 1 else r) + 1) (fun j (new : list (list R)) =>
      let al := ndiv (n := F) (nofZ j) (nofZ (nd + 1)) in
      q <- vget cps (old j i) ;; p <- vget new (nw (j - 1) i) ;;
      z <- cp_sub (F := F) q (cp_scale (F := F) p al) ;;
      vset new (nw j i) (cp_scale (F := F) z (ndiv (n := F) n1 (nsub (n := F) n1 al)))) new ;;
    new <- foldM (fun (new : list (list R)) j =>
      let al := ndiv (n := F) (nofZ (j + 1)) (nofZ (nd + 1)) in
      q <- vget cps (old (j + 1) i) ;; p <- vget new (nw (j + 1) i) ;;
      z <- cp_sub (F := F) q (cp_scale (F := F) p (nsub (n := F) n1 al)) ;;
      vset new (nw j i) (cp_scale (F := F) z (ndiv (n := F) n1 al))) (rev (zseq (r + 1) (Z.to_nat (nd - 1 - r)))) new ;;
    if odd then
      q <- vget cps (old r i) ;; p <- vget new (nw (r - 1) i) ;;
      zl <- cp_sub (F := F) q (cp_scale (F := F) p alpha_r) ;;
      let pl := cp_scale (F := F) zl (ndiv (n := F) n1 (nsub (n := F) n1 alpha_r)) in
      q2 <- vget cps (old (r + 1) i) ;; p2 <- vget new (nw (r + 1) i) ;;
      zr <- cp_sub (F := F) q2 (cp_scale (F := F) p2 (nsub (n := F) n1 alpha_r_plus)) ;;
      let pr := cp_scale (F := F) zr (ndiv (n := F) n1 alpha_r_plus) in
      m <- cp_add (F := F) pl pr ;;
      new <- vset new (nw r i) (cp_scale (F := F) m half) ;;
      e <- cp_sub (F := F) pl pr ;;
      Ok (new, if nltb (n := F) err (cp_norm e) then cp_norm e else err)
    else
      q <- vget cps (old (r + 1) i) ;;
      p <- vget new (nw r i) ;; p2 <- vget new (nw (r + 1) i) ;;
      m <- cp_add (F := F) p p2 ;;
      e <- cp_sub (F := F) q (cp_scale (F := F) m half) ;;
      Ok (new, if nltb (n := F) err (cp_norm e) then cp_norm e else err)) =
    Ok (new', if Rltb err (norm e) then norm e else err) /\ seg (lines * deg) dim new' /\
    zlen e = dim /\ residual deg i cps new' e /\
    (forall q, 0 <= q -> ~ (i * deg <= q < i * deg + deg) -> pt new' q = pt new q).
Proof.
  intros Hd Hi Hs Hn nd r old nw odd alpha_r alpha_r_plus half.
  assert (B1 : 0 <= i * (deg + 1)) by nia. assert (B2 : (i + 1) * (deg + 1) <= lines * (deg + 1)) by nia.
  assert (B3 : 0 <= i * deg) by nia. assert (B4 : (i + 1) * deg <= lines * deg) by nia.
  assert (Ac : half = (1 / 2)%R) by apply half_ok. clearbody half.
  assert (En : nd + 1 = deg) by (unfold nd; lia).
  assert (Aa : alpha_r = (IZR r / IZR deg)%R) by (unfold alpha_r; rewrite En; apply div_ok; lia). clearbody alpha_r.
  assert (Ab : alpha_r_plus = (IZR (r + 1) / IZR deg)%R) by (unfold alpha_r_plus; rewrite En; apply div_ok; lia). clearbody alpha_r_plus.
  assert (Ho : odd = negb (Z.rem deg 2 =? 0)) by (unfold odd; now rewrite En). clearbody odd.
  assert (Er : r = Z.quot (deg - 1) 2) by reflexivity. clearbody r. unfold nd. clear nd En. set (nd := deg - 1).
  replace (nd + 1) with deg by (unfold nd; lia).
  pose proof (parity deg Hd) as Hpar. cbv zeta in Hpar. rewrite <- Er, <- Ho in Hpar.
  set (e1 := if odd then r - 1 else r).
  assert (He1 : 0 <= e1 <= r /\ e1 <= nd - 1) by (unfold e1, nd; destruct Hpar as [(Eo & ? & ?)|(Eo & ? & ?)]; rewrite Eo; lia).
  assert (Hr : r <= nd - 1 /\ 0 <= r) by (unfold nd; destruct Hpar as [(? & ? & ?)|(? & ? & ?)]; lia).
  unfold nw, old, ix2.
  destruct (seg_get _ _ _ (i * (deg + 1) + 0) Hs ltac:(lia)) as [Ea La].
  destruct (seg_get _ _ _ (i * (deg + 1) + deg) Hs ltac:(lia)) as [Eb Lb].
  destruct (seg_set _ _ new (i * deg + 0) _ Hn ltac:(lia) La) as (n1 & E1 & S1 & P1 & O1).
  destruct (seg_set _ _ n1 (i * deg + nd) _ S1 ltac:(unfold nd; lia) Lb) as (n2 & E2 & S2 & P2 & O2).
  (* the loop from the left *)
  set (J := fun (j : Z) (l : list (list R)) => seg (lines * deg) dim l /\
    (forall j' c, 1 <= j' < j -> co l (i * deg + j') c =
       ((co cps (i * (deg + 1) + j') c - co l (i * deg + (j' - 1)) c * (IZR j' / IZR deg)) * (1 / (1 - IZR j' / IZR deg)))%R) /\
    (forall q, 0 <= q -> ~ (i * deg + 1 <= q < i * deg + j) -> pt l q = pt n2 q)).
  match goal with |- context [fun x => bind (for_up 1 (e1 + 1) ?b x) _] =>
    destruct (for_up_inv J 1 (e1 + 1) b n2) as (n3 & E3 & S3 & V3 & O3) end; [lia | | |].
  { intros j l Hj (J1 & J2 & J3).
    destruct (calc_step dz _ _ _ cps l (i * (deg + 1) + j) (i * deg + (j - 1)) (i * deg + j) (IZR j / IZR deg) (1 / (1 - IZR j / IZR deg)) Hs J1)
      as (l' & E & S' & V & O); [unfold nd in *; lia | unfold nd in *; lia | unfold nd in *; lia |].
    exists l'. split; [|split; [auto|split]].
    - cbv zeta. rewrite (div_ok dz) by lia. rewrite one_div; [exact E|]. 
      pose proof (frac_lt j deg ltac:(unfold nd in *; lia)). rnorm. lra.
    - intros j' c Hj'. destruct (Z.eq_dec j' j) as [->|Hne].
      + rewrite V. unfold co at 4. rewrite O by lia. reflexivity.
      + unfold co at 1 3. rewrite !O by lia. apply J2. lia.
    - intros q Hq Hnq. rewrite O by lia. apply J3; lia. }
  { split; [auto|]. split; [intros; lia | auto]. }
  (* the loop from the right *)
  set (K := fun (j : Z) (l : list (list R)) => seg (lines * deg) dim l /\
    (forall j' c, j <= j' <= nd - 1 -> co l (i * deg + j') c =
       ((co cps (i * (deg + 1) + (j' + 1)) c - co l (i * deg + (j' + 1)) c * (1 - IZR (j' + 1) / IZR deg)) * (1 / (IZR (j' + 1) / IZR deg)))%R) /\
    (forall q, 0 <= q -> ~ (i * deg + j <= q <= i * deg + nd - 1) -> pt l q = pt n3 q)).
  match goal with |- context [fun x => bind (foldM ?b (rev (zseq (r + 1) ?m)) x) _] =>
    destruct (foldM_down_inv K (r + 1) m b n3) as (n4 & E4 & S4 & V4 & O4) end.
  { intros j l Hj (J1 & J2 & J3).
    destruct (calc_step dz _ _ _ cps l (i * (deg + 1) + (j + 1)) (i * deg + (j + 1)) (i * deg + j) (1 - IZR (j + 1) / IZR deg) (1 / (IZR (j + 1) / IZR deg)) Hs J1)
      as (l' & E & S' & V & O); [unfold nd in *; lia | unfold nd in *; lia | unfold nd in *; lia |].
    exists l'. split; [|split; [auto|split]].
    - cbv zeta. rewrite (div_ok dz) by lia. rewrite one_div; [exact E|]. 
      pose proof (frac_pos (j + 1) deg ltac:(unfold nd in *; lia) ltac:(lia)). lra.
    - intros j' c Hj'. destruct (Z.eq_dec j' j) as [->|Hne].
      + rewrite V. unfold co at 4. rewrite O by lia. reflexivity.
      + unfold co at 1 3. rewrite !O by lia. apply J2. lia.
    - intros q Hq Hnq. rewrite O by lia. apply J3; lia. }
  { split; [auto|]. split; [intros; lia | auto]. }
  assert (X0 : forall c, co n4 (i * deg + 0) c = co cps (i * (deg + 1) + 0) c).
  { intros c. unfold co. rewrite O4, O3, O2, P1 by lia. reflexivity. }
  assert (Xn : forall c, co n4 (i * deg + (deg - 1)) c = co cps (i * (deg + 1) + deg) c).
  { intros c. unfold co. fold nd. rewrite O4, O3, P2 by lia. reflexivity. }
  assert (X1 : forall j c, 1 <= j <= e1 -> co n4 (i * deg + j) c =
     ((co cps (i * (deg + 1) + j) c - co n4 (i * deg + (j - 1)) c * (IZR j / IZR deg)) * (1 / (1 - IZR j / IZR deg)))%R).
  { intros j c Hj. unfold co at 1 3. rewrite !O4 by lia. apply V3. lia. }
  assert (Hout : forall q, 0 <= q -> ~ (i * deg <= q < i * deg + deg) -> pt n4 q = pt new q).
  { intros q Hq Hnq. unfold nd in *. rewrite O4, O3, O2, O1 by lia. reflexivity. }
  destruct Hpar as [(Eo & Ed & Hr1)|(Eo & Ed & Hr1)].
  - (* odd degree *)
    assert (Ee : e1 = r - 1) by (unfold e1; now rewrite Eo).
    destruct (seg_get _ _ _ (i * (deg + 1) + r) Hs ltac:(lia)) as [G1 L1].
    destruct (seg_get _ _ _ (i * deg + (r - 1)) S4 ltac:(lia)) as [G2 L2].
    destruct (seg_get _ _ _ (i * (deg + 1) + (r + 1)) Hs ltac:(lia)) as [G3 L3].
    destruct (seg_get _ _ _ (i * deg + (r + 1)) S4 ltac:(lia)) as [G4 L4].
    destruct (sub_scale_ok dz _ _ (IZR r / IZR deg)%R (eq_trans L1 (eq_sym L2))) as (z1 & Z1 & ZL1 & ZV1).
    destruct (sub_scale_ok dz _ _ (1 - IZR (r + 1) / IZR deg)%R (eq_trans L3 (eq_sym L4))) as (z2 & Z2 & ZL2 & ZV2).
    set (pl := cp_scale (F := F) z1 (1 / (1 - IZR r / IZR deg))%R). set (pr := cp_scale (F := F) z2 (1 / (IZR (r + 1) / IZR deg))%R).
    assert (Lpl : zlen pl = dim) by (exact (eq_trans (cp_scale_zlen dz z1 _) (eq_trans ZL1 L1))).
    assert (Lpr : zlen pr = dim) by (exact (eq_trans (cp_scale_zlen dz z2 _) (eq_trans ZL2 L3))).
    destruct (add_ok dz pl pr (eq_trans Lpl (eq_sym Lpr))) as (m & M1 & M2 & M3).
    destruct (sub_ok dz pl pr (eq_trans Lpl (eq_sym Lpr))) as (e & Q1 & Q2 & Q3).
    destruct (seg_set _ _ n4 (i * deg + r) (cp_scale (F := F) m (1 / 2)%R) S4 ltac:(lia) (eq_trans (cp_scale_zlen dz m _) (eq_trans M2 Lpl))) as (n5 & E5 & S5 & P5 & O5).
    exists n5, e. split; [|split; [auto|split; [|split]]].
    + step Ea. step E1. step Eb. step E2. step E3. step E4. rewrite Eo, Aa, Ab, Ac.
      step G1. step G2. step Z1. step G3. step G4. step Z2.
      assert (H1a : ndiv (n := F) Base.n1 (nsub (n := F) Base.n1 (IZR r / IZR deg)%R) = (1 / (1 - IZR r / IZR deg))%R).
      { apply one_div. pose proof (frac_lt r deg ltac:(lia)). rnorm. lra. }
      assert (H1b : ndiv (n := F) Base.n1 (IZR (r + 1) / IZR deg)%R = (1 / (IZR (r + 1) / IZR deg))%R).
      { apply one_div. pose proof (frac_pos (r + 1) deg ltac:(lia) ltac:(lia)). lra. }
      rewrite H1a, H1b. fold pl pr. step M1. step E5. step Q1. rewrite norm_ok. reflexivity.
    + exact (eq_trans Q2 Lpl).
    + apply residual_intro; auto; rewrite <- ?Er, <- ?Ho.
      * intros c. unfold co at 1. rewrite O5 by lia. apply X0.
      * intros c. unfold co at 1. rewrite O5 by lia. apply Xn.
      * intros j c Hj. fold e1 in Hj. unfold co at 1 3. rewrite !O5 by lia. apply X1. exact Hj.
      * intros j c Hj. unfold co at 1 3. rewrite !O5 by lia. apply V4. lia.
      * rewrite Eo. exists pl, pr. split; [exact Q3|]. split; [|split].
        -- intros c Hc. unfold co. rewrite P5. refine (eq_trans (cp_scale_nth dz m _ _) _). now rewrite M3.
        -- intros c Hc. unfold co. rewrite !O5 by lia. refine (eq_trans (cp_scale_nth dz z1 _ _) _). now rewrite ZV1.
        -- intros c Hc. unfold co. rewrite !O5 by lia. refine (eq_trans (cp_scale_nth dz z2 _ _) _). now rewrite ZV2.
    + intros q Hq Hnq. rewrite O5 by lia. apply Hout; auto.
  - (* even degree *)
    assert (Ee : e1 = r) by (unfold e1; now rewrite Eo).
    destruct (seg_get _ _ _ (i * (deg + 1) + (r + 1)) Hs ltac:(lia)) as [G3 L3].
    destruct (seg_get _ _ _ (i * deg + r) S4 ltac:(lia)) as [G2 L2].
    destruct (seg_get _ _ _ (i * deg + (r + 1)) S4 ltac:(lia)) as [G4 L4].
    destruct (add_ok dz _ _ (eq_trans L2 (eq_sym L4))) as (m & M1 & M2 & M3).
    destruct (sub_scale_ok dz (pt cps (i * (deg + 1) + (r + 1))) m (1 / 2)%R (eq_trans L3 (eq_sym (eq_trans M2 L2)))) as (e & Q1 & Q2 & Q3).
    exists n4, e. split; [|split; [auto|split; [|split]]].
    + step Ea. step E1. step Eb. step E2. step E3. step E4. rewrite Eo, Ac.
      step G3. step G2. step G4. step M1. step Q1. rewrite norm_ok. reflexivity.
    + exact (eq_trans Q2 L3).
    + apply residual_intro; auto; rewrite <- ?Er, <- ?Ho.
      * intros j c Hj. apply X1. exact Hj.
      * intros j c Hj. apply V4. lia.
      * rewrite Eo. intros c Hc. refine (eq_trans (Q3 _) _). rewrite M3. reflexivity.
    + exact Hout.
Qed.

(* all lines: the error is the largest norm *)
Lemma reduce_segment_ok deg pdim lines cps : 2 <= deg -> 0 <= pdim -> 0 <= lines ->
  seg (lines * (deg + 1)) (pdim + 1) cps -> exists new err ef,
  (forall tol, reduce_segment (F := F) deg pdim lines cps tol = Ok (new, Rltb err tol)) /\
  seg (lines * deg) (pdim + 1) new /\ (0 <= err)%R /\
  (forall i, 0 <= i < lines -> zlen (ef i) = pdim + 1 /\ residual deg i cps new (ef i) /\ (norm (ef i) <= err)%R) /\
  (err = 0%R \/ exists i, 0 <= i < lines /\ err = norm (ef i)).
Proof.
  intros Hd Hp Hl Hs.
  set (Inv := fun (i : Z) (st : list (list R) * R) => exists ef, seg (lines * deg) (pdim + 1) (fst st) /\ (0 <= snd st)%R /\
    (forall i', 0 <= i' < i -> zlen (ef i') = pdim + 1 /\ residual deg i' cps (fst st) (ef i') /\ (norm (ef i') <= snd st)%R) /\
    (snd st = 0%R \/ exists i', 0 <= i' < i /\ snd st = norm (ef i'))).
  assert (G : exists st, Inv lines st /\ forall tol, reduce_segment (F := F) deg pdim lines cps tol = Ok (fst st, Rltb (snd st) tol)).
  { unfold reduce_segment, vmake.
    assert (E0 : deg * lines <? 0 = false) by (apply Z.ltb_ge; nia). rewrite E0. cbn [bind].
    match goal with |- context [for_up 0 lines ?b ?s0] => destruct (for_up_inv Inv 0 lines b s0) as (st & E & I) end; auto.
    - intros i [new err] Hi (ef & I1 & I2 & I3 & I4). cbn [fst snd] in *.
      destruct (reduce_line deg lines (pdim + 1) cps new err i Hd Hi Hs I1) as (new' & e & E & S' & Le & Hres & Hout).
      eexists. split; [exact E|]. exists (fun k => if Z.eq_dec k i then e else ef k). cbn [fst snd].
      split; [auto|]. 
      assert (M : (err <= (if Rltb err (norm e) then norm e else err) /\ norm e <= (if Rltb err (norm e) then norm e else err))%R).
      { destruct (Rltb_spec err (norm e)); lra. }
      split; [lra|]. split.
      + intros i' Hi'. destruct (Z.eq_dec i' i) as [->|Hne].
        * split; [auto|]. split; [auto|]. apply M.
        * destruct (I3 i' ltac:(lia)) as (R1 & R2 & R3). split; [auto|]. split; [|lra].
          apply (residual_ext deg i' cps new); auto; [lia|lia|]. intros j Hj. apply Hout; [nia|].
          assert ((i' + 1) * deg <= i * deg) by nia. nia.
      + destruct (Rltb_spec err (norm e)).
        * right. exists i. split; [lia|]. destruct (Z.eq_dec i i); [auto|congruence].
        * destruct I4 as [I4|(i' & Hi' & I4)]; [left; auto|]. right. exists i'. split; [lia|]. destruct (Z.eq_dec i' i); [lia|auto].
    - exists (fun _ => []). cbn [fst snd]. split; [|split; [cbn; lra|split; [intros; lia|left; reflexivity]]].
      replace (Z.to_nat (deg * lines)) with (Z.to_nat (lines * deg)) by (f_equal; lia).
      replace (pdim + 1) with (Z.of_nat (Z.to_nat (pdim + 1))) at 1 by lia. apply seg_repeat. nia.
    - exists st. split; [exact I|]. intros tol. step E. reflexivity. }
  destruct G as ((new & err) & (ef & I1 & I2 & I3 & I4) & E). cbn [fst snd] in *. exists new, err, ef. auto.
Qed.

End Reduce.

(* ---- consequences of the residual ---- *)
Lemma co_value l p i j c : co l (i * (p + 1) + j) c = value l p i j c.
Proof. reflexivity. Qed.

Lemma c_bounds deg : 2 <= deg -> (Rabs (c_low deg) <= 1 /\ Rabs (c_high deg) <= 1)%R.
Proof.
  intros Hd. unfold c_low, c_high. pose proof (parity deg Hd) as Hp. cbv zeta in Hp. set (r := Z.quot (deg - 1) 2) in *.
  destruct (Z.rem deg 2 =? 0); cbn [negb] in Hp.
  - rewrite Rabs_R0, Rabs_R1. lra.
  - destruct Hp as [(_ & E & Hr)|(C & _)]; [|discriminate].
    pose proof (frac_lt r deg ltac:(lia)) as F1. pose proof (frac_lt (r + 1) deg ltac:(lia)) as F2.
    set (a := (IZR r / IZR deg)%R) in *. set (b := (IZR (r + 1) / IZR deg)%R) in *.
    split; apply Rabs_le; lra.
Qed.

(* deviation of the curves *)
Lemma residual_deviation deg i cps new e u c : 2 <= deg -> 0 <= c -> residual deg i cps new e -> (0 <= u <= 1)%R ->
  (Rabs (bezier deg (fun j => co cps (i * (deg + 1) + j) c) u - bezier (deg - 1) (fun j => co new (i * deg + j) c) u) <= norm e)%R.
Proof.
  intros Hd Hc Hr Hu. rewrite <- (bezier_elevated deg) by lia. rewrite <- bezier_minus.
  set (r := Z.quot (deg - 1) 2).
  assert (Hr' : 0 <= r /\ r + 1 <= deg).
  { pose proof (parity deg Hd) as Hp. cbv zeta in Hp. fold r in Hp. destruct Hp as [(_ & ? & ?)|(_ & ? & ?)]; lia. }
  rewrite (bezier_two deg _ r u); [|lia|lia|].
  2:{ intros j Hj N1 N2. rewrite (Hr j c) by lia. fold r.
      destruct (Z.eqb_spec j r); [lia|]. destruct (Z.eqb_spec j (r + 1)); [lia|]. ring. }
  rewrite (Hr r c), (Hr (r + 1) c) by lia. fold r. rewrite !Z.eqb_refl.
  destruct (Z.eqb_spec (r + 1) r); [lia|].
  pose proof (c_bounds deg Hd) as [C1 C2]. pose proof (norm_coord e (Z.to_nat c)) as Ne.
  pose proof (bernstein_nonneg deg r u Hu) as B1. pose proof (bernstein_nonneg deg (r + 1) u Hu) as B2.
  pose proof (bernstein_pair deg r u Hu ltac:(lia) ltac:(lia)) as B3.
  set (x := nth (Z.to_nat c) e 0%R) in *. set (b1 := bernstein deg r u) in *. set (b2 := bernstein deg (r + 1) u) in *.
  replace (b1 * (c_low deg * x) + b2 * (c_high deg * x))%R with ((b1 * c_low deg + b2 * c_high deg) * x)%R by ring.
  rewrite Rabs_mult.
  assert (T : (Rabs (b1 * c_low deg + b2 * c_high deg) <= 1)%R).
  { eapply Rle_trans; [apply Rabs_triang|]. rewrite !Rabs_mult, (Rabs_pos_eq b1), (Rabs_pos_eq b2) by auto.
    apply Rle_trans with (b1 * 1 + b2 * 1)%R; [|lra]. apply Rplus_le_compat; apply Rmult_le_compat_l; auto. }
  apply Rle_trans with (1 * Rabs x)%R; [|lra]. apply Rmult_le_compat_r; [apply Rabs_pos|auto].
Qed.

(* if the input is an elevation of P, the result is P *)
Lemma residual_exact deg cps new e (P : Z -> R) i c : 2 <= deg -> 0 <= c -> residual deg i cps new e ->
  (forall j, 0 <= j <= deg -> co cps (i * (deg + 1) + j) c = elevated deg P j) ->
  nth (Z.to_nat c) e 0%R = 0%R /\ forall j, 0 <= j <= deg - 1 -> co new (i * deg + j) c = P j.
Proof.
  intros Hd Hc Hres HP. set (x := fun j => co new (i * deg + j) c). set (r := Z.quot (deg - 1) 2). set (ec := nth (Z.to_nat c) e 0%R).
  assert (D : (0 < IZR deg)%R) by (apply IZR_lt; lia).
  pose proof (parity deg Hd) as Hp. cbv zeta in Hp. fold r in Hp.
  assert (Hr : 0 <= r /\ r + 1 <= deg) by (destruct Hp as [(_ & ? & ?)|(_ & ? & ?)]; lia).
  assert (Q : forall j, 0 <= j <= deg -> ((1 - IZR j / IZR deg) * (P j - x j) + IZR j / IZR deg * (P (j - 1)%Z - x (j - 1)%Z) =
    (if j =? r then c_low deg else if j =? r + 1 then c_high deg else 0) * ec)%R).
  { intros j Hj. specialize (Hres j c Hj Hc). rewrite (HP j Hj) in Hres. fold r in Hres. fold ec in Hres. rewrite <- Hres. unfold elevated, x. ring. }
  set (odd := negb (Z.rem deg 2 =? 0)) in *.
  assert (LOW : forall k : nat, Z.of_nat k <= (if odd then r - 1 else r) -> P (Z.of_nat k) = x (Z.of_nat k)).
  { induction k as [|k IH]; intros Hk.
    - specialize (Q 0 ltac:(lia)). cbn [Z.of_nat]. replace (IZR 0 / IZR deg)%R with 0%R in Q by (unfold Rdiv; ring).
      assert (Z0 : ((if 0 =? r then c_low deg else if 0 =? r + 1 then c_high deg else 0) * ec)%R = 0%R).
      { destruct (Z.eqb_spec 0 r).
        - destruct Hp as [(Ho & ? & ?)|(Ho & ? & ?)]; [lia|]. unfold c_low. unfold odd in Ho. apply negb_false_iff in Ho. rewrite Ho. ring.
        - destruct (Z.eqb_spec 0 (r + 1)); [lia|ring]. }
      rewrite Z0 in Q. lra.
    - assert (Hlt : Z.of_nat (S k) < deg) by (destruct odd; lia).
      specialize (Q (Z.of_nat (S k)) ltac:(lia)). replace (Z.of_nat (S k) - 1) with (Z.of_nat k) in Q by lia.
      rewrite IH in Q by (destruct odd; lia).
      assert (Z0 : ((if Z.of_nat (S k) =? r then c_low deg else if Z.of_nat (S k) =? r + 1 then c_high deg else 0) * ec)%R = 0%R).
      { destruct (Z.eqb_spec (Z.of_nat (S k)) r).
        - destruct Hp as [(Ho & ? & ?)|(Ho & ? & ?)]; [rewrite Ho in Hk; lia|]. unfold c_low. unfold odd in Ho. apply negb_false_iff in Ho. rewrite Ho. ring.
        - destruct (Z.eqb_spec (Z.of_nat (S k)) (r + 1)); [destruct odd; lia|ring]. }
      rewrite Z0 in Q. pose proof (frac_lt (Z.of_nat (S k)) deg ltac:(lia)) as Fr.
      set (a := (IZR (Z.of_nat (S k)) / IZR deg)%R) in *.
      assert (T : ((1 - a) * (P (Z.of_nat (S k)) - x (Z.of_nat (S k))) = 0)%R) by lra.
      apply Rmult_integral in T. lra. }
  assert (HIGH : forall k : nat, r + 1 <= deg - 1 - Z.of_nat k -> P (deg - 1 - Z.of_nat k) = x (deg - 1 - Z.of_nat k)).
  { induction k as [|k IH]; intros Hk.
    - specialize (Q deg ltac:(lia)). replace (IZR deg / IZR deg)%R with 1%R in Q by (field; lra).
      destruct (Z.eqb_spec deg r); [lia|]. destruct (Z.eqb_spec deg (r + 1)); [lia|].
      replace (deg - 1 - Z.of_nat 0) with (deg - 1) by lia. lra.
    - specialize (Q (deg - 1 - Z.of_nat k) ltac:(lia)). rewrite IH in Q by lia.
      destruct (Z.eqb_spec (deg - 1 - Z.of_nat k) r); [lia|]. destruct (Z.eqb_spec (deg - 1 - Z.of_nat k) (r + 1)); [lia|].
      replace (deg - 1 - Z.of_nat k - 1) with (deg - 1 - Z.of_nat (S k)) in Q by lia.
      pose proof (frac_pos (deg - 1 - Z.of_nat k) deg ltac:(lia) ltac:(lia)) as Fr.
      set (a := (IZR (deg - 1 - Z.of_nat k) / IZR deg)%R) in *.
      assert (T : (a * (P (deg - 1 - Z.of_nat (S k))%Z - x (deg - 1 - Z.of_nat (S k))%Z) = 0)%R) by lra.
      apply Rmult_integral in T. lra. }
  assert (LOW' : forall j, 0 <= j <= (if odd then r - 1 else r) -> P j = x j).
  { intros j Hj. specialize (LOW (Z.to_nat j)). rewrite Z2Nat.id in LOW by lia. apply LOW. lia. }
  assert (HIGH' : forall j, r + 1 <= j <= deg - 1 -> P j = x j).
  { intros j Hj. specialize (HIGH (Z.to_nat (deg - 1 - j))). rewrite Z2Nat.id in HIGH by lia.
    replace (deg - 1 - (deg - 1 - j)) with j in HIGH by lia. apply HIGH. lia. }
  destruct Hp as [(Ho & Ed & Hr1)|(Ho & Ed & Hr1)]; rewrite Ho in *.
  - pose proof (Q r ltac:(lia)) as Q1. pose proof (Q (r + 1) ltac:(lia)) as Q2.
    rewrite Z.eqb_refl in Q1. rewrite Z.eqb_refl in Q2. destruct (Z.eqb_spec (r + 1) r); [lia|].
    rewrite (LOW' (r - 1)) in Q1 by lia. rewrite (HIGH' (r + 1)) in Q2 by lia. replace (r + 1 - 1) with r in Q2 by lia.
    unfold c_low, c_high in Q1, Q2. unfold odd in Ho. apply negb_true_iff in Ho. rewrite Ho in Q1, Q2. fold r in Q1, Q2.
    pose proof (frac_lt r deg ltac:(lia)) as F1. pose proof (frac_pos (r + 1) deg ltac:(lia) ltac:(lia)) as F2.
    set (a := (IZR r / IZR deg)%R) in *. set (b := (IZR (r + 1) / IZR deg)%R) in *.
    assert (T1 : ((1 - a) * (P r - x r - ec / 2) = 0)%R) by lra.
    assert (T2 : (b * (P r - x r + ec / 2) = 0)%R) by lra.
    apply Rmult_integral in T1. apply Rmult_integral in T2.
    split; [lra|]. intros j Hj. change (x j = P j). destruct (Z.lt_trichotomy j r) as [H|[->|H]].
    + symmetry. apply LOW'. lia. + lra. + symmetry. apply HIGH'. lia.
  - pose proof (Q (r + 1) ltac:(lia)) as Q2. rewrite Z.eqb_refl in Q2. destruct (Z.eqb_spec (r + 1) r); [lia|].
    rewrite (HIGH' (r + 1)) in Q2 by lia. replace (r + 1 - 1) with r in Q2 by lia. rewrite (LOW' r) in Q2 by lia.
    unfold c_high in Q2. unfold odd in Ho. apply negb_false_iff in Ho. rewrite Ho in Q2.
    split; [lra|]. intros j Hj. change (x j = P j). destruct (Z.le_gt_cases j r) as [H|H].
    + symmetry. apply LOW'. lia. + symmetry. apply HIGH'. lia.
Qed.
