(* Degree elevation and reduction of Bezier segments in real arithmetic. *)
From Coq Require Import ZArith List Bool Lia Reals Lra.
From Verif Require Import Base BaseFacts RSum VecUtils SplineDegree DegreeSpec.
Import ListNotations.
Open Scope Z_scope.

(* ---- Bernstein polynomials ---- *)
Lemma INR_fact_pos n : (0 < INR (fact n))%R.
Proof. apply lt_0_INR, lt_O_fact. Qed.

Lemma bernstein_left p j u : 1 <= p -> 0 <= j <= p - 1 ->
  ((1 - u) * bernstein (p - 1) j u = (1 - IZR j / IZR p) * bernstein p j u)%R.
Proof.
  intros Hp Hj. unfold bernstein. replace (Z.to_nat (p - j)) with (S (Z.to_nat (p - 1 - j))) by lia.
  assert (EC : (C (Z.to_nat (p - 1)) (Z.to_nat j) = (1 - IZR j / IZR p) * C (Z.to_nat p) (Z.to_nat j))%R).
  { unfold C. replace (Z.to_nat p) with (S (Z.to_nat (p - 1))) by lia.
    replace (S (Z.to_nat (p - 1)) - Z.to_nat j)%nat with (S (Z.to_nat (p - 1) - Z.to_nat j)) by lia.
    rewrite !fact_simpl, !mult_INR.
    assert (E1 : INR (S (Z.to_nat (p - 1))) = IZR p) by (rewrite INR_IZR_INZ; f_equal; lia).
    assert (E2 : INR (S (Z.to_nat (p - 1) - Z.to_nat j)) = (IZR p - IZR j)%R).
    { rewrite <- minus_IZR, INR_IZR_INZ; f_equal; lia. }
    rewrite E1, E2.
    pose proof (INR_fact_pos (Z.to_nat j)). pose proof (INR_fact_pos (Z.to_nat (p - 1) - Z.to_nat j)).
    assert (IZR p <> 0)%R by (apply not_0_IZR; lia).
    assert (IZR p - IZR j <> 0)%R by (rewrite <- minus_IZR; apply not_0_IZR; lia).
    field. repeat split; lra. }
  rewrite EC. cbn [pow]. ring.
Qed.

Lemma bernstein_right p j u : 1 <= p -> 0 <= j <= p - 1 ->
  (u * bernstein (p - 1) j u = IZR (j + 1) / IZR p * bernstein p (j + 1) u)%R.
Proof.
  intros Hp Hj. unfold bernstein. replace (Z.to_nat (p - (j + 1))) with (Z.to_nat (p - 1 - j)) by lia.
  replace (Z.to_nat (j + 1)) with (S (Z.to_nat j)) by lia.
  assert (EC : (C (Z.to_nat (p - 1)) (Z.to_nat j) = IZR (j + 1) / IZR p * C (Z.to_nat p) (S (Z.to_nat j)))%R).
  { unfold C. replace (Z.to_nat p) with (S (Z.to_nat (p - 1))) by lia.
    replace (S (Z.to_nat (p - 1)) - S (Z.to_nat j))%nat with (Z.to_nat (p - 1) - Z.to_nat j)%nat by lia.
    rewrite !fact_simpl, !mult_INR.
    assert (E1 : INR (S (Z.to_nat (p - 1))) = IZR p) by (rewrite INR_IZR_INZ; f_equal; lia).
    assert (E2 : INR (S (Z.to_nat j)) = IZR (j + 1)) by (rewrite INR_IZR_INZ; f_equal; lia).
    rewrite E1, E2.
    pose proof (INR_fact_pos (Z.to_nat j)). pose proof (INR_fact_pos (Z.to_nat (p - 1) - Z.to_nat j)).
    assert (IZR p <> 0)%R by (apply not_0_IZR; lia).
    assert (IZR (j + 1) <> 0)%R by (apply not_0_IZR; lia).
    field. repeat split; lra. }
  rewrite EC. cbn [pow]. ring.
Qed.

Lemma bernstein_nonneg p j u : (0 <= u <= 1)%R -> (0 <= bernstein p j u)%R.
Proof.
  intros Hu. unfold bernstein. apply Rmult_le_pos; [apply Rmult_le_pos|].
  - unfold C. apply Rlt_le, Rdiv_lt_0_compat; [apply INR_fact_pos|].
    apply Rmult_lt_0_compat; apply INR_fact_pos.
  - apply pow_le; lra.
  - apply pow_le; lra.
Qed.

(* the elevated points give the same curve *)
Lemma bezier_elevated p f u : 1 <= p -> bezier p (elevated p f) u = bezier (p - 1) f u.
Proof.
  intros Hp. assert (Hp0 : IZR p <> 0%R) by (apply not_0_IZR; lia).
  unfold bezier. replace (p - 1 + 1) with p by lia.
  transitivity (lsum (fun j => (1 - IZR j / IZR p) * bernstein p j u * f j)%R (zseq 0 (Z.to_nat (p + 1))) +
                lsum (fun j => IZR j / IZR p * bernstein p j u * f (j - 1)%Z)%R (zseq 0 (Z.to_nat (p + 1))))%R.
  { rewrite <- lsum_plus. apply lsum_ext. intros j _. unfold elevated. ring. }
  replace (Z.to_nat (p + 1)) with (S (Z.to_nat p)) by lia.
  rewrite (lsum_zseq_S (fun j => (1 - IZR j / IZR p) * bernstein p j u * f j)%R).
  replace (0 + Z.of_nat (Z.to_nat p)) with p by lia.
  assert (E2 : lsum (fun j => (IZR j / IZR p * bernstein p j u * f (j - 1)%Z)%R) (zseq 0 (S (Z.to_nat p))) =
    lsum (fun j => (IZR (j + 1) / IZR p * bernstein p (j + 1) u * f j)%R) (zseq 0 (Z.to_nat p))).
  { cbn [zseq lsum]. change (0 + 1) with (0 + 1). rewrite lsum_zseq_shift.
    replace (IZR 0 / IZR p)%R with 0%R by (unfold Rdiv; ring).
    rewrite Rmult_0_l, Rmult_0_l, Rplus_0_l. apply lsum_ext. intros j _. repeat f_equal. lia. }
  rewrite E2.
  replace ((1 - IZR p / IZR p) * bernstein p p u * f p)%R with 0%R by (field; auto).
  rewrite Rplus_0_r, <- lsum_plus. apply lsum_ext. intros j Hj. apply zseq_In in Hj.
  rewrite <- bernstein_left by lia. rewrite <- bernstein_right by lia. ring.
Qed.

Lemma bezier_ext p f g u : (forall j, 0 <= j <= p -> f j = g j) -> bezier p f u = bezier p g u.
Proof. intros H. unfold bezier. apply lsum_ext. intros j Hj. apply zseq_In in Hj. rewrite H by lia. reflexivity. Qed.

Lemma bezier_minus p f g u : bezier p (fun j => f j - g j)%R u = (bezier p f u - bezier p g u)%R.
Proof. unfold bezier. rewrite <- lsum_minus. apply lsum_ext. intros j _. ring. Qed.

Lemma bezier_one p u : 0 <= p -> bezier p (fun _ => 1%R) u = 1%R.
Proof.
  intros Hp. rewrite <- (Z2Nat.id p) by auto. clear Hp. induction (Z.to_nat p) as [|n IH].
  - unfold bezier. change (zseq 0 (Z.to_nat (Z.of_nat 0 + 1))) with [0]. cbn [lsum]. unfold bernstein.
    change (C (Z.to_nat (Z.of_nat 0)) (Z.to_nat 0)) with (C 0 0). change (Z.to_nat 0) with 0%nat.
    change (Z.to_nat (Z.of_nat 0 - 0)) with 0%nat. cbn [pow]. replace (C 0 0) with 1%R; [ring|].
    unfold C. cbn [fact Nat.sub INR]. field.
  - rewrite <- (bezier_ext _ (elevated (Z.of_nat (S n)) (fun _ => 1%R))).
    + rewrite bezier_elevated by lia. replace (Z.of_nat (S n) - 1) with (Z.of_nat n) by lia. exact IH.
    + intros j _. unfold elevated. ring.
Qed.

(* a curve with at most two non-zero points next to each other *)
Lemma bezier_two p f k u : 0 <= k -> k + 1 <= p -> (forall j, 0 <= j <= p -> j <> k -> j <> k + 1 -> f j = 0%R) ->
  bezier p f u = (bernstein p k u * f k + bernstein p (k + 1) u * f (k + 1)%Z)%R.
Proof.
  intros Hk Hp H0. unfold bezier.
  rewrite (lsum_zseq_extend _ k 2 0 (Z.to_nat (p + 1))) by (try lia; intros j Hj1 Hj2; rewrite H0 by lia; ring).
  cbn [zseq lsum]. ring.
Qed.

Lemma bernstein_pair p k u : (0 <= u <= 1)%R -> 0 <= k -> k + 1 <= p -> (bernstein p k u + bernstein p (k + 1) u <= 1)%R.
Proof.
  intros Hu Hk Hp. rewrite <- (bezier_one p u) by lia. unfold bezier.
  apply Rle_trans with (lsum (fun j => if Z.eq_dec j k then bernstein p j u else if Z.eq_dec j (k + 1) then bernstein p j u else 0)%R (zseq 0 (Z.to_nat (p + 1)))).
  - rewrite (lsum_zseq_extend _ k 2 0 (Z.to_nat (p + 1))).
    + cbn [zseq lsum]. repeat destruct (Z.eq_dec _ _); try lia; lra.
    + lia. + lia.
    + intros j Hj1 Hj2. repeat destruct (Z.eq_dec _ _); try lia; lra.
  - apply lsum_le. intros j _. pose proof (bernstein_nonneg p j u Hu). repeat destruct (Z.eq_dec _ _); lra.
Qed.

(* ---- loops ---- *)
Lemma for_up_inv {St} (Inv : Z -> St -> Prop) lo hi (body : Z -> St -> Res St) st : lo <= hi ->
  (forall j st, lo <= j < hi -> Inv j st -> exists st', body j st = Ok st' /\ Inv (j + 1) st') ->
  Inv lo st -> exists st', for_up lo hi body st = Ok st' /\ Inv hi st'.
Proof.
  intros Hle Hb Hi. unfold for_up.
  assert (G : forall n lo st, lo + Z.of_nat n <= hi -> (forall j st, lo <= j < hi -> Inv j st -> exists st', body j st = Ok st' /\ Inv (j + 1) st') ->
    Inv lo st -> exists st', for_n n lo body st = Ok st' /\ Inv (lo + Z.of_nat n) st').
  { clear. induction n as [|n IH]; intros lo st Hn Hb Hi.
    - exists st. split; [reflexivity|]. replace (lo + Z.of_nat 0) with lo by lia. exact Hi.
    - cbn [for_n]. destruct (Hb lo st ltac:(lia) Hi) as (st' & E & Hi'). rewrite E. cbn [bind].
      replace (lo + Z.of_nat (S n)) with (lo + 1 + Z.of_nat n) by lia.
      apply IH; auto; [lia|]. intros j s Hj. apply Hb. lia. }
  destruct (G (Z.to_nat (hi - lo)) lo st ltac:(lia) Hb Hi) as (st' & E & Hi').
  exists st'. split; auto. replace hi with (lo + Z.of_nat (Z.to_nat (hi - lo))) by lia. exact Hi'.
Qed.

Lemma foldM_down_inv {St} (Inv : Z -> St -> Prop) lo n (f : St -> Z -> Res St) st :
  (forall j st, lo <= j < lo + Z.of_nat n -> Inv (j + 1) st -> exists st', f st j = Ok st' /\ Inv j st') ->
  Inv (lo + Z.of_nat n) st -> exists st', foldM f (rev (zseq lo n)) st = Ok st' /\ Inv lo st'.
Proof.
  revert lo st. induction n as [|n IH]; intros lo st Hb Hi.
  - exists st. split; [reflexivity|]. replace lo with (lo + Z.of_nat 0) by lia. exact Hi.
  - cbn [zseq rev]. destruct (IH (lo + 1) st) as (st' & E & Hi').
    + intros j s Hj. apply Hb. lia.
    + replace (lo + 1 + Z.of_nat n) with (lo + Z.of_nat (S n)) by lia. exact Hi.
    + destruct (Hb lo st' ltac:(lia) Hi') as (st'' & E' & Hi''). exists st''. split; auto.
      rewrite foldM_app, E. cbn [bind foldM]. rewrite E'. reflexivity.
Qed.

(* the outermost monadic step is known *)
Ltac step E := match goal with |- context [bind ?m ?f] =>
  match type of E with _ = Ok ?v => let E' := fresh in assert (E' : m = Ok v) by exact E; rewrite E'; clear E' end end; cbn [bind].

(* ---- arrays of points ---- *)
Definition seg (n dim : Z) (l : list (list R)) : Prop := zlen l = n /\ Forall (fun p => zlen p = dim) l.
Definition pt (l : list (list R)) (q : Z) : list R := nth (Z.to_nat q) l [].
Definition co (l : list (list R)) (q : Z) (c : Z) : R := nth (Z.to_nat c) (pt l q) 0%R.

Lemma seg_get n dim l q : seg n dim l -> 0 <= q < n -> vget l q = Ok (pt l q) /\ zlen (pt l q) = dim.
Proof.
  intros [H1 H2] Hq. split.
  - apply vget_nth. rewrite H1. exact Hq.
  - rewrite Forall_forall in H2. apply H2. apply nth_In. unfold zlen in H1. lia.
Qed.

Lemma seg_set n dim l q a : seg n dim l -> 0 <= q < n -> zlen a = dim ->
  exists l', vset l q a = Ok l' /\ seg n dim l' /\ pt l' q = a /\ forall q', 0 <= q' -> q' <> q -> pt l' q' = pt l q'.
Proof.
  intros [H1 H2] Hq Ha. exists (upd l (Z.to_nat q) a). split; [apply vset_ok; rewrite H1; exact Hq|].
  split; [split|split].
  - now rewrite zlen_upd.
  - rewrite Forall_forall in *. intros x Hx. apply In_nth with (d := []) in Hx. destruct Hx as (k & Hk & <-).
    rewrite upd_length in Hk. rewrite nth_upd by (unfold zlen in H1; lia). destruct (Nat.eqb_spec k (Z.to_nat q)); auto.
    apply H2, nth_In; lia.
  - unfold pt. apply nth_upd_same. unfold zlen in H1. lia.
  - intros q' Hq' Hne. unfold pt. apply nth_upd_other. lia.
Qed.

Lemma seg_repeat n dim : 0 <= n -> seg n (Z.of_nat dim) (repeat (repeat 0%R dim) (Z.to_nat n)).
Proof.
  intros Hn. split.
  - unfold zlen. rewrite repeat_length. lia.
  - apply Forall_forall. intros x Hx. apply repeat_spec in Hx. subst x. unfold zlen. now rewrite repeat_length.
Qed.

Section Segments.
Variable dz : R -> R.
Local Notation F := (Rops dz).

Lemma cp_zip_ok (op : R -> R -> R) (a b : list R) : zlen a = zlen b -> cp_zip (F := F) op a b = Ok (map2 op a b).
Proof.
  revert b. induction a as [|x a IH]; intros [|y b] H; unfold zlen in H; cbn [length] in H; try lia; auto.
  cbn [cp_zip map2]. rewrite IH; [reflexivity|]. unfold zlen. lia.
Qed.

Lemma map2_zlen {A B C} (f : A -> B -> C) a b : zlen a = zlen b -> zlen (map2 f a b) = zlen a.
Proof. intros H. unfold zlen in *. rewrite map2_length; lia. Qed.

Lemma cp_scale_zlen (a : list R) s : zlen (cp_scale (F := F) a s) = zlen a.
Proof. unfold zlen, cp_scale. rnorm. now rewrite map_length. Qed.

Lemma cp_scale_nth (a : list R) s c : nth c (cp_scale (F := F) a s) 0%R = (nth c a 0 * s)%R.
Proof.
  unfold cp_scale. rnorm. destruct (Nat.lt_ge_cases c (length a)).
  - now rewrite (nth_map_in _ _ _ 0%R).
  - rewrite !nth_overflow; [ring | auto | now rewrite map_length].
Qed.

Lemma map2_nth_R (op : R -> R -> R) a b c : (op 0 0 = 0)%R -> zlen a = zlen b -> nth c (map2 op a b) 0%R = op (nth c a 0%R) (nth c b 0%R).
Proof.
  intros H0 H. destruct (Nat.lt_ge_cases c (length a)) as [Hc|Hc].
  - rewrite (nth_map2 _ _ _ _ 0%R 0%R); auto. unfold zlen in H. lia.
  - rewrite !nth_overflow; auto; unfold zlen in H; try lia. rewrite map2_length; lia.
Qed.

Lemma sub_scale_ok (a b : list R) (al : R) : zlen a = zlen b -> exists z,
  cp_sub (F := F) a (cp_scale (F := F) b al) = Ok z /\ zlen z = zlen a /\
  forall c, nth c z 0%R = (nth c a 0 - nth c b 0 * al)%R.
Proof.
  intros H. unfold cp_sub. eexists. split; [apply cp_zip_ok; now rewrite cp_scale_zlen|].
  split; [apply map2_zlen; now rewrite cp_scale_zlen|]. intros c. rnorm.
  rewrite map2_nth_R; [|ring | now rewrite cp_scale_zlen]. now rewrite cp_scale_nth.
Qed.

Lemma add_ok (a b : list R) : zlen a = zlen b -> exists z,
  cp_add (F := F) a b = Ok z /\ zlen z = zlen a /\ forall c, nth c z 0%R = (nth c a 0 + nth c b 0)%R.
Proof.
  intros H. unfold cp_add. eexists. split; [apply cp_zip_ok; auto|].
  split; [apply map2_zlen; auto|]. intros c. rnorm. rewrite map2_nth_R; auto. ring.
Qed.

Lemma sub_ok (a b : list R) : zlen a = zlen b -> exists z,
  cp_sub (F := F) a b = Ok z /\ zlen z = zlen a /\ forall c, nth c z 0%R = (nth c a 0 - nth c b 0)%R.
Proof.
  intros H. unfold cp_sub. eexists. split; [apply cp_zip_ok; auto|].
  split; [apply map2_zlen; auto|]. intros c. rnorm. rewrite map2_nth_R; auto. ring.
Qed.

(* q - p * al, scaled by be, written to position k *)
Lemma calc_step N n dim cps new a b k (al be : R) : seg N dim cps -> seg n dim new ->
  0 <= a < N -> 0 <= b < n -> 0 <= k < n -> exists new',
  (q <- vget cps a ;; p <- vget new b ;; z <- cp_sub (F := F) q (cp_scale (F := F) p al) ;;
   vset new k (cp_scale (F := F) z be)) = Ok new' /\ seg n dim new' /\
  (forall c, co new' k c = (co cps a c - co new b c * al) * be)%R /\
  (forall q', 0 <= q' -> q' <> k -> pt new' q' = pt new q').
Proof.
  intros H1 H2 Ha Hb Hk. destruct (seg_get _ _ _ a H1 Ha) as [E1 L1]. destruct (seg_get _ _ _ b H2 Hb) as [E2 L2].
  destruct (sub_scale_ok (pt cps a) (pt new b) al ltac:(lia)) as (z & E3 & L3 & V3).
  destruct (seg_set n dim new k (cp_scale (F := F) z be) H2 Hk (eq_trans (cp_scale_zlen z be) (eq_trans L3 L1))) as (l' & E4 & S4 & P4 & O4).
  exists l'. split; [|split; [auto|split; [|auto]]].
  - rewrite E1. cbn [bind]. rewrite E2. cbn [bind]. rewrite E3. cbn [bind]. exact E4.
  - intros c. unfold co at 1. rewrite P4, cp_scale_nth, V3. reflexivity.
Qed.

(* a point copied to position k *)
Lemma copy_step N n dim cps new a k : seg N dim cps -> seg n dim new -> 0 <= a < N -> 0 <= k < n -> exists new',
  (q <- vget cps a ;; vset new k q) = Ok new' /\ seg n dim new' /\ pt new' k = pt cps a /\
  (forall q', 0 <= q' -> q' <> k -> pt new' q' = pt new q').
Proof.
  intros H1 H2 Ha Hk. destruct (seg_get _ _ _ a H1 Ha) as [E1 L1].
  destruct (seg_set n dim new k (pt cps a) H2 Hk L1) as (l' & E4 & S4 & P4 & O4).
  exists l'. split; [|auto]. rewrite E1. cbn [bind]. exact E4.
Qed.

(* (1 - al) x + al y written to position k *)
Lemma mix_step N n dim cps new a b k (al : R) : seg N dim cps -> seg n dim new ->
  0 <= a < N -> 0 <= b < N -> 0 <= k < n -> exists new',
  (x <- vget cps a ;; y <- vget cps b ;;
   z <- cp_add (F := F) (cp_scale (F := F) x (1 - al)%R) (cp_scale (F := F) y al) ;; vset new k z) = Ok new' /\ seg n dim new' /\
  (forall c, co new' k c = co cps a c * (1 - al) + co cps b c * al)%R /\
  (forall q', 0 <= q' -> q' <> k -> pt new' q' = pt new q').
Proof.
  intros H1 H2 Ha Hb Hk. destruct (seg_get _ _ _ a H1 Ha) as [E1 L1]. destruct (seg_get _ _ _ b H1 Hb) as [E2 L2].
  destruct (add_ok (cp_scale (F := F) (pt cps a) (1 - al)%R) (cp_scale (F := F) (pt cps b) al)) as (z & E3 & L3 & V3).
  { rewrite !cp_scale_zlen. congruence. }
  destruct (seg_set n dim new k z H2 Hk (eq_trans L3 (eq_trans (cp_scale_zlen _ _) L1))) as (l' & E4 & S4 & P4 & O4).
  exists l'. split; [|split; [auto|split; [|auto]]].
  - rewrite E1. cbn [bind]. rewrite E2. cbn [bind]. rewrite E3. cbn [bind]. exact E4.
  - intros c. unfold co at 1. rewrite P4, V3, !cp_scale_nth. reflexivity.
Qed.

Lemma alpha_ok deg j : 0 <= deg -> 0 <= j < deg + 2 ->
  vget (elevation_coefficients (F := F) deg) j = Ok (IZR j / IZR (deg + 1))%R.
Proof.
  intros Hd Hj. unfold elevation_coefficients. rewrite (vget_nth (A := R) _ j 0%R).
  - f_equal. rewrite (nth_map_in _ _ _ 0) by (rewrite zseq_length; lia). rewrite zseq_nth by lia. rnorm.
    rewrite Z2Nat.id by lia. change (0 + j)%Z with j. rewrite <- plus_IZR. apply (ndiv_R dz). apply not_0_IZR. lia.
  - unfold zlen. rewrite map_length, zseq_length. lia.
Qed.

Lemma repeat_pt n dim q c : co (repeat (repeat 0%R dim) n) q c = 0%R.
Proof.
  unfold co, pt. destruct (nth_in_or_default (Z.to_nat q) (repeat (repeat 0%R dim) n) []) as [H|H].
  - apply repeat_spec in H. rewrite H. apply nth_repeat.
  - rewrite H. now destruct (Z.to_nat c).
Qed.

Lemma elevate_segment_ok deg pdim lines cps : 0 <= deg -> 0 <= pdim -> 0 <= lines ->
  seg (lines * (deg + 1)) (pdim + 1) cps -> exists new,
  elevate_segment (F := F) deg pdim lines cps (elevation_coefficients (F := F) deg) = Ok new /\
  seg (lines * (deg + 2)) (pdim + 1) new /\
  (forall i j c, 0 <= i < lines -> 0 <= j <= deg + 1 ->
     co new (i * (deg + 2) + j) c =
       if (1 <=? deg) && (j =? deg) then 0%R
       else elevated (deg + 1) (fun j => co cps (i * (deg + 1) + j) c) j).
Proof.
  intros Hd Hp Hl Hs. unfold elevate_segment. unfold vmake.
  assert (E0 : (deg + 2) * lines <? 0 = false) by (apply Z.ltb_ge; nia). rewrite E0. cbn [bind].
  set (N := lines * (deg + 2)).
  set (ok := fun (i : Z) (new : list (list R)) => forall j c, 0 <= j <= deg + 1 ->
     co new (i * (deg + 2) + j) c =
       if (1 <=? deg) && (j =? deg) then 0%R
       else elevated (deg + 1) (fun j => co cps (i * (deg + 1) + j) c) j).
  set (Inv := fun (i : Z) (new : list (list R)) => seg N (pdim + 1) new /\ (forall i', 0 <= i' < i -> ok i' new) /\
     (forall q c, i * (deg + 2) <= q -> co new q c = 0%R)).
  match goal with |- context [for_up 0 lines ?b ?s0] => destruct (for_up_inv Inv 0 lines b s0) as (new & E & I1 & I2 & I3) end; auto.
  - intros i new Hi (I1 & I2 & I3). unfold ix2.
    assert (B1 : 0 <= i * (deg + 1)) by nia. assert (B2 : (i + 1) * (deg + 1) <= lines * (deg + 1)) by nia.
    assert (B3 : 0 <= i * (deg + 2)) by nia. assert (B4 : (i + 1) * (deg + 2) <= N) by (unfold N; nia).
    replace (deg + 2 - 1) with (deg + 1) by lia. replace (deg + 2 - 2) with deg by lia.
    destruct (seg_get _ _ _ (i * (deg + 1) + 0) Hs ltac:(lia)) as [Ea La].
    destruct (seg_get _ _ _ (i * (deg + 1) + deg) Hs ltac:(lia)) as [Eb Lb].
    destruct (seg_set _ _ new (i * (deg + 2) + 0) _ I1 ltac:(lia) La) as (n1 & E1 & S1 & P1 & O1).
    destruct (seg_set _ _ n1 (i * (deg + 2) + (deg + 1)) _ S1 ltac:(lia) Lb) as (n2 & E2 & S2 & P2 & O2).
    step Ea. step E1. step Eb. step E2.
    set (J := fun (j : Z) (l : list (list R)) => seg N (pdim + 1) l /\
      (forall j' c, 1 <= j' < j -> co l (i * (deg + 2) + j') c =
         (co cps (i * (deg + 1) + j') c * (1 - IZR j' / IZR (deg + 1)) + co cps (i * (deg + 1) + (j' - 1)) c * (IZR j' / IZR (deg + 1)))%R) /\
      (forall q, 0 <= q -> ~ (i * (deg + 2) + 1 <= q < i * (deg + 2) + j) -> pt l q = pt n2 q)).
    assert (G : exists l, for_up 1 (Z.max 1 deg) (fun (j : Z) (new : list (list R)) =>
      x <- vget cps (i * (deg + 1) + j) ;; y <- vget cps (i * (deg + 1) + (j - 1)) ;;
      al <- vget (elevation_coefficients (F := F) deg) j ;;
      z <- cp_add (F := F) (cp_scale (F := F) x (1 - al)%R) (cp_scale (F := F) y al) ;; vset new (i * (deg + 2) + j) z) n2 = Ok l /\ J (Z.max 1 deg) l).
    { apply (for_up_inv J); [lia| |].
      - intros j l Hj (J1 & J2 & J3). destruct (mix_step _ _ _ cps l (i * (deg + 1) + j) (i * (deg + 1) + (j - 1)) (i * (deg + 2) + j) (IZR j / IZR (deg + 1)) Hs J1) as (l' & E & S' & V & O);
          [lia | lia | lia |].
        exists l'. split; [|split; [auto|split]].
        + rewrite <- E. rewrite alpha_ok by lia. reflexivity.
        + intros j' c Hj'. destruct (Z.eq_dec j' j) as [->|Hne]; [apply V|].
          unfold co at 1. rewrite O by lia. apply J2. lia.
        + intros q Hq Hn. rewrite O by lia. apply J3; lia.
      - split; [auto|]. split; [intros; lia | auto]. }
    destruct G as (l & E & J1 & J2 & J3). exists l. split; [|split; [auto|split]].
    + destruct (Z.eq_dec deg 0) as [D0|D0].
      * subst deg. cbn in E. cbn. exact E.
      * replace (Z.max 1 deg) with deg in E by lia. exact E.
    + intros i' Hi'. destruct (Z.eq_dec i' i) as [->|Hne].
      * intros j c Hj. destruct (Z.leb_spec 1 deg) as [D|D]; cbn [andb].
        -- destruct (Z.eqb_spec j deg) as [->|Hjd].
           ++ unfold co. rewrite J3, O2, O1 by lia. apply I3. lia.
           ++ destruct (Z.eq_dec j 0) as [->|Hj0].
              ** unfold co at 1. rewrite J3, O2, P1 by lia. unfold elevated, co. field. apply not_0_IZR; lia.
              ** destruct (Z.eq_dec j (deg + 1)) as [->|Hj1].
                 --- unfold co at 1. rewrite J3, P2 by lia. unfold elevated, co. replace (deg + 1 - 1) with deg by lia. field. apply not_0_IZR; lia.
                 --- rewrite J2 by lia. unfold elevated. ring.
        -- assert (deg = 0) by lia. subst deg. destruct (Z.eq_dec j 0) as [->|Hj0].
           ++ unfold co at 1. rewrite J3, O2, P1 by lia. unfold elevated, co. field. apply not_0_IZR; lia.
           ++ assert (j = 1) by lia. subst j. unfold co at 1. rewrite J3 by lia.
              change (0 + 2) with 2 in *. change (0 + 1) with 1 in *. rewrite P2. unfold elevated, co.
              replace (i * 1 + 1 - 1) with (i * 1 + 0) by lia. replace (i * 1 + (1 - 1)) with (i * 1 + 0) by lia. field.
      * intros j c Hj. unfold co at 1.
        assert (Q1 : (i' + 1) * (deg + 2) <= i * (deg + 2)) by nia. assert (Q2 : 0 <= i' * (deg + 2)) by nia.
        rewrite J3, O2, O1 by lia. apply (I2 i' ltac:(lia)). exact Hj.
    + intros q c Hq. unfold co. rewrite J3, O2, O1 by lia. apply I3. lia.
  - unfold Inv. split; [|split].
    + replace (Z.to_nat ((deg + 2) * lines)) with (Z.to_nat N) by (f_equal; unfold N; lia).
      replace (pdim + 1) with (Z.of_nat (Z.to_nat (pdim + 1))) at 1 by lia. apply seg_repeat. unfold N. nia.
    + intros; lia.
    + intros q c _. apply repeat_pt.
  - exists new. split; [exact E|]. split; [exact I1|]. intros i j c Hi Hj. apply (I2 i Hi j c Hj).
Qed.


(* ---- reduction ---- *)
Lemma sum_of_R (l : list R) : sum_of (F := F) l = lsum (fun x => x) l.
Proof.
  unfold sum_of. rnorm. pose proof (lsum_fold_left (fun x : R => x) l 0%R) as H. rewrite Rplus_0_l in H. exact H.
Qed.

Definition norm (e : list R) : R := sqrt (lsum (fun x => x * x)%R e).

Lemma norm_ok (e : list R) : cp_norm (F := F) e = norm e.
Proof.
  unfold cp_norm, norm. rnorm. rewrite sum_of_R, lsum_map. cbn [nsqrt Rops].
  destruct (Rlt_dec _ 0) as [H|H]; auto. exfalso. apply (Rlt_irrefl 0). apply Rle_lt_trans with (2 := H).
  apply lsum_nonneg. intros x _. apply Rle_0_sqr.
Qed.

Lemma norm_nonneg e : (0 <= norm e)%R.
Proof. apply sqrt_pos. Qed.

Lemma sq_le_sum (e : list R) c : (nth c e 0 * nth c e 0 <= lsum (fun x => x * x) e)%R.
Proof.
  revert c. induction e as [|x e IH]; intros [|c]; cbn [nth lsum]; try lra.
  - pose proof (lsum_nonneg (fun x => x * x)%R e (fun x _ => Rle_0_sqr x)). lra.
  - specialize (IH c). pose proof (Rle_0_sqr x). unfold Rsqr in *. lra.
Qed.

Lemma norm_coord e c : (Rabs (nth c e 0) <= norm e)%R.
Proof.
  unfold norm. rewrite <- sqrt_Rsqr_abs. apply sqrt_le_1_alt. apply sq_le_sum.
Qed.

Lemma norm_zero e : norm e = 0%R -> forall c, nth c e 0%R = 0%R.
Proof. intros H c. pose proof (norm_coord e c) as H1. rewrite H in H1. revert H1. unfold Rabs. destruct (Rcase_abs _); lra. Qed.

Lemma norm_of_zero e : (forall c, nth c e 0%R = 0%R) -> norm e = 0%R.
Proof.
  intros H. unfold norm. rewrite lsum_zero; [apply sqrt_0|]. intros x Hx. apply In_nth with (d := 0%R) in Hx. destruct Hx as (c & _ & <-).
  rewrite H. ring.
Qed.

(* the coefficients of the two equations that need not hold after a reduction *)
Definition c_low (deg : Z) : R := if Z.rem deg 2 =? 0 then 0%R else ((1 - IZR (Z.quot (deg - 1) 2) / IZR deg) / 2)%R.
Definition c_high (deg : Z) : R := if Z.rem deg 2 =? 0 then 1%R else (- (IZR (Z.quot (deg - 1) 2 + 1) / IZR deg) / 2)%R.

Definition residual (deg i : Z) (cps new : list (list R)) (e : list R) : Prop :=
  forall j c, 0 <= j <= deg -> 0 <= c ->
    (co cps (i * (deg + 1) + j) c - elevated deg (fun j => co new (i * deg + j) c) j =
     (if j =? Z.quot (deg - 1) 2 then c_low deg else if j =? Z.quot (deg - 1) 2 + 1 then c_high deg else 0) * nth (Z.to_nat c) e 0)%R.

Lemma residual_ext deg i cps new new' e : 1 <= deg -> 0 <= i -> (forall j, 0 <= j < deg -> pt new' (i * deg + j) = pt new (i * deg + j)) ->
  residual deg i cps new e -> residual deg i cps new' e.
Proof.
  intros Hd Hi H Hr j c Hj Hc. rewrite <- Hr by auto. f_equal. unfold elevated.
  assert (G : forall j, 0 <= j < deg -> co new' (i * deg + j) c = co new (i * deg + j) c) by (intros; unfold co; now rewrite H).
  assert (D : IZR deg <> 0%R) by (apply not_0_IZR; lia).
  destruct (Z.eq_dec j 0) as [->|H0].
  - rewrite (G 0) by lia. unfold Rdiv. rewrite !Rmult_0_l. reflexivity.
  - destruct (Z.eq_dec j deg) as [->|H1].
    + rewrite (G (deg - 1)) by lia. replace (1 - IZR deg / IZR deg)%R with 0%R by (field; auto). rewrite !Rmult_0_l. reflexivity.
    + rewrite (G j), (G (j - 1)) by lia. reflexivity.
Qed.

Lemma div_ok j deg : 1 <= deg -> ndiv (n := F) (nofZ j) (nofZ deg) = (IZR j / IZR deg)%R.
Proof. intros H. apply (ndiv_R dz). cbn. apply not_0_IZR. lia. Qed.

Lemma frac_lt j deg : 0 <= j < deg -> (0 <= IZR j / IZR deg < 1)%R.
Proof.
  intros H. assert (0 < IZR deg)%R by (apply IZR_lt; lia). assert (0 <= IZR j)%R by (apply IZR_le; lia). assert (IZR j < IZR deg)%R by (apply IZR_lt; lia).
  split; [apply Rmult_le_pos; [lra|apply Rlt_le, Rinv_0_lt_compat; lra]|]. apply Rmult_lt_reg_r with (IZR deg); [lra|]. unfold Rdiv. rewrite Rmult_assoc, Rinv_l by lra. lra.
Qed.
Lemma frac_pos j deg : 0 < j -> 0 < deg -> (0 < IZR j / IZR deg)%R.
Proof. intros H1 H2. apply Rdiv_lt_0_compat; apply IZR_lt; lia. Qed.

End Segments.
