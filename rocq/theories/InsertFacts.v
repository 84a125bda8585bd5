(* Knot insertion over real arithmetic: the passes of InsertKnot are Boehm's algorithm. *)
From Coq Require Import ZArith List Bool Lia Reals Lra.
From Verif Require Import Base BaseFacts RSum MultiIndex MultiIndexSpec MultiIndexFacts TensorSum
  KnotVec KnotVecSpec KnotVecFacts BSplineTheory Boehm BasisSpec Basis BasisFacts VecUtils Spaces SpacesSpec SpacesFacts
  SplineEval SplineEdit SplineSpec EvalFacts RationalDeriv EvalDeriv SplineNew EvalThms PhysFacts AdjustFacts InsertKnots.
Import ListNotations.
Open Scope Z_scope.

Section Insert.
Variable dz : R -> R.
Local Notation F := (Rops dz).
Implicit Types s : spline F.

Lemma dir_unique x y : good_dir dz x -> good_dir dz y -> dk x = dk y -> dp x = dp y -> du x = du y -> dm x = dm y -> x = y.
Proof.
  intros (_ & _ & _ & E1 & _) (_ & _ & _ & E2 & _). destruct x, y; cbn in *. intros -> -> -> ->. f_equal. congruence.
Qed.

Lemma nth_error_ext {A} (l1 l2 : list A) : (forall n, nth_error l1 n = nth_error l2 n) -> l1 = l2.
Proof.
  revert l2; induction l1 as [|a l1 IH]; intros [|b l2] H; auto.
  - specialize (H 0%nat); discriminate.
  - specialize (H 0%nat); discriminate.
  - f_equal; [specialize (H 0%nat); cbn in H; congruence | apply IH; intros n; apply (H (S n))].
Qed.

Lemma nth_error_upd_other {A} (l : list A) d a j : j <> d -> nth_error (upd l d a) j = nth_error l j.
Proof. revert d j; induction l as [|x l IH]; intros [|d] [|j] H; cbn; auto; congruence. Qed.

(* two splines that differ in one direction *)
Lemma dirs_differ s s' L L' d kv kv' p : wfL dz s L -> wfL dz s' L' -> order0 L -> order0 L' -> map du L' = map du L ->
  nth_error (knots_of s) d = Some kv -> nth_error (degs_of s) d = Some p ->
  knots_of s' = upd (knots_of s) d kv' -> degs_of s' = degs_of s ->
  exists x x', nth_error L d = Some x /\ L' = upd L d x' /\ good_dir dz x /\ good_dir dz x' /\
    dk x = kv /\ dk x' = kv' /\ dp x = p /\ dp x' = p /\ du x' = du x /\ dm x = 0 /\ dm x' = 0.
Proof.
  intros HL HL' H0 H0' Eu Ek Ed Ek' Ed'.
  destruct (wfL_of dz s L HL) as (K1 & K2 & _). destruct (wfL_of dz s' L' HL') as (K1' & K2' & _).
  pose proof HL as (HG & _). pose proof HL' as (HG' & _).
  rewrite Forall_forall in HG, HG'. unfold order0 in *. rewrite Forall_forall in H0, H0'.
  rewrite K1 in Ek, Ek'. rewrite K2 in Ed, Ed'. rewrite K1' in Ek'. rewrite K2' in Ed'.
  rewrite nth_error_map in Ek, Ed. destruct (nth_error L d) as [x|] eqn:Ex; [|discriminate].
  cbn in Ek, Ed. injection Ek as Ek. injection Ed as Ed.
  assert (Hlen : length L' = length L) by (rewrite <- (map_length du L'), Eu, map_length; auto).
  assert (Hx' : exists x', nth_error L' d = Some x').
  { destruct (nth_error L' d) eqn:E; eauto. apply nth_error_None in E. assert (nth_error L d <> None) as C by congruence. apply nth_error_Some in C; lia. }
  destruct Hx' as (x' & Ex').
  assert (Gk : forall j y, nth_error L' j = Some y -> nth_error (upd (map dk L) d kv') j = Some (dk y)).
  { intros j y E. rewrite <- Ek', nth_error_map, E. reflexivity. }
  assert (Gp : forall j y, nth_error L' j = Some y -> nth_error (map dp L) j = Some (dp y)).
  { intros j y E. rewrite <- Ed', nth_error_map, E. reflexivity. }
  assert (Gu : forall j y, nth_error L' j = Some y -> nth_error (map du L) j = Some (du y)).
  { intros j y E. rewrite <- Eu, nth_error_map, E. reflexivity. }
  exists x, x'. split; [auto|]. split; [|].
  - apply nth_error_ext. intros j. destruct (Nat.eq_dec j d) as [->|Hj].
    + rewrite Ex'. symmetry. now apply (nth_error_upd_same L d x' x).
    + rewrite nth_error_upd_other by auto. destruct (nth_error L' j) as [y|] eqn:Ey.
      * specialize (Gk j y Ey). specialize (Gp j y Ey). specialize (Gu j y Ey).
        rewrite nth_error_upd_other in Gk by auto. rewrite nth_error_map in Gk, Gp, Gu.
        destruct (nth_error L j) as [z|] eqn:Ez; [|discriminate]. cbn in Gk, Gp, Gu. f_equal.
        apply dir_unique; try congruence.
        -- apply HG'. eapply nth_error_In; eauto.
        -- apply HG. eapply nth_error_In; eauto.
        -- rewrite (H0 z), (H0' y); auto; eapply nth_error_In; eauto.
      * apply nth_error_None in Ey. symmetry. apply nth_error_None. lia.
  - pose proof (nth_error_In _ _ Ex). pose proof (nth_error_In _ _ Ex').
    specialize (Gk d x' Ex'). specialize (Gp d x' Ex'). specialize (Gu d x' Ex').
    rewrite (nth_error_upd_same (map dk L) d kv' (dk x)) in Gk by (now rewrite nth_error_map, Ex).
    rewrite nth_error_map, Ex in Gp, Gu. cbn in Gp, Gu.
    repeat split; try congruence; try (now apply HG); try (now apply HG'); auto.
Qed.

Lemma in_box_insat_range npts d r : (d < length npts)%nat -> forall i, 0 <= i < nth d npts 0 ->
  in_box (remove_at d npts) r -> in_box npts (insat d i r).
Proof.
  unfold in_box, insat. revert d r; induction npts as [|n npts IH]; intros [|d] r Hd i Hi Hr; cbn in *; try lia.
  - constructor; auto.
  - inversion Hr as [|? j ? r' Hj Hr']; subst. cbn. constructor; auto. apply IH; auto. lia.
Qed.

(* coefficients combined by the insertion weights give the same sums *)
Lemma refine_sums s s' d kv p u n (c c' : list Z -> R) us :
  well_formed s -> well_formed s' ->
  nth_error (knots_of s) d = Some kv -> nth_error (degs_of s) d = Some p -> inner kv p u n ->
  knots_of s' = upd (knots_of s) d (ins1 kv n u) -> degs_of s' = degs_of s ->
  (forall idx, in_box (npts_of s') idx ->
     let a := alpha (tk kv) (Z.of_nat n - 1) u (Z.to_nat p) (nth d idx 0%Z) in
     c' idx = (a * c idx + (1 - a) * c (below d idx))%R) ->
  in_domain s us ->
  lsum (fun idx => basis_product (knots_of s') (degs_of s') us idx * c' idx)%R (all_indices (npts_of s')) =
  lsum (fun idx => basis_product (knots_of s) (degs_of s) us idx * c idx)%R (all_indices (npts_of s)).
Proof.
  intros Hwf Hwf' Ek Ed Hin Ek' Ed' Hc Hdom.
  assert (Hn1 : (1 <= n < length kv)%nat) by (destruct Hin as (_ & _ & (H & _) & _); exact H).
  assert (Hdom' : in_domain s' us).
  { unfold in_domain in *. rewrite Ek'. clear - Hdom Ek Hn1. revert d Ek.
    induction Hdom as [|k v ks vs Hv Hd IH]; intros [|d] Ek; cbn in *; try discriminate; constructor; auto.
    injection Ek as ->. rewrite first_ins1, final_ins1 by lia. auto. }
  destruct (wf_dirs dz s us Hwf Hdom) as (L & HL & Eu & H0).
  destruct (wf_dirs dz s' us Hwf' Hdom') as (L' & HL' & Eu' & H0').
  assert (Euu : map du L' = map du L) by congruence.
  rewrite Eu. rewrite (full_sum dz s L c) by auto. rewrite <- Euu. rewrite (full_sum dz s' L' c') by auto.
  destruct (dirs_differ s s' L L' d kv (ins1 kv n u) p HL HL' H0 H0' Euu Ek Ed Ek' Ed')
    as (x & x' & Ex & EL & Gx & Gx' & Kx & Kx' & Px & Px' & Ux & Mx & Mx').
  symmetry. rewrite EL, !map_upd.
  assert (Hd : (d < length L)%nat) by (apply nth_error_Some; congruence).
  assert (Enx : nth d (map dfactor L) (fun _ => 0%R) = dfactor x).
  { rewrite (nth_map_in dfactor L d x) by auto. f_equal. now apply nth_error_nth. }
  assert (Enr : nth d (map drange L) [] = drange x).
  { rewrite (nth_map_in drange L d x) by auto. f_equal. now apply nth_error_nth. }
  apply tsum_dir; [now rewrite map_length | now rewrite !map_length|].
  intros r Hr. rewrite Enx, Enr.
  assert (Hlr : length r = (length L - 1)%nat).
  { apply boxl_length in Hr. rewrite Hr, remove_at_length; rewrite map_length; lia. }
  pose proof (inner_ends kv p u n Hin) as [E1 E2].
  assert (Hp : 0 <= p) by (destruct Hin as ((H & _) & _); exact H).
  assert (Hlen1 : zlen (ins1 kv n u) = zlen kv + 1) by (unfold zlen; rewrite ins1_length by lia; lia).
  pose proof Gx as (_ & Sx & _). pose proof Gx' as (_ & Sx' & _).
  rewrite Kx in Sx. rewrite Kx', Ux in Sx'.
  assert (Esp : dsp x = old_span (Z.of_nat n - 1) (dsp x')).
  { apply (in_span_unique kv _ _ (du x)); [destruct Hin as ((_ & _ & H & _) & _); exact H | auto |].
    apply (in_span_ins1 kv p u n); auto. }
  rewrite (lsum_ext _ (fun i => c (insat d i r) * B (tk kv) (old_span (Z.of_nat n - 1) (dsp x')) (Z.to_nat p) i (du x))%R).
  2:{ intros i _. rewrite dfactor_0 by auto. rewrite Kx, Px, Esp. ring. }
  unfold drange, dlen at 1. rewrite Kx, Px.
  pose proof Hin as ((_ & _ & Hnd & _) & _ & (_ & Hlo & Hhi) & Hu).
  assert (Hm : monotone (tk kv)) by (now apply tk_monotone).
  assert (Tlo : (tk kv (Z.of_nat n - 1) <= u)%R) by (rewrite tk_knot' by (unfold zlen; lia); apply Hlo; lia).
  assert (Thi : (u < tk kv (Z.of_nat n - 1 + 1))%R) by (rewrite tk_knot' by (unfold zlen; lia); apply Hhi; lia).
  destruct Sx' as (S1 & S2 & S3 & S4 & S5).
  rewrite (boehm_curve (tk kv) Hm (Z.of_nat n - 1) u Tlo ltac:(lra) (dsp x')); try lia.
  2:{ rewrite <- !tk_ins1 by auto. auto. }
  unfold dlen. rewrite Kx', Px', Hlen1.
  replace (Z.to_nat (zlen kv + 1 - p - 1)) with (S (Z.to_nat (zlen kv - p - 1))) by lia.
  apply lsum_ext. intros j Hj. apply zseq_In in Hj.
  rewrite dfactor_0 by auto. rewrite Kx', Px', Ux.
  rewrite (B_ext (tk (ins1 kv n u)) (ins (tk kv) (Z.of_nat n - 1) u)) by (intros; now apply tk_ins1).
  assert (Hb : in_box (npts_of s') (insat d j r)).
  { destruct (wfL_of dz s' L' HL') as (_ & _ & En'). rewrite En', EL. unfold lensL. rewrite map_upd.
    apply in_box_insat_range.
    - rewrite upd_length, map_length. auto.
    - rewrite nth_upd_same by (rewrite map_length; auto). unfold dlen. rewrite Kx', Px', Hlen1. lia.
    - rewrite remove_at_upd. clear - Hr. apply all_indices_box. rewrite all_indices_boxl.
      replace (map (fun n => zseq 0 (Z.to_nat n)) (remove_at d (map dlen L))) with (remove_at d (map drange L)); auto.
      rewrite <- (lensL_ranges L). unfold lensL. clear. revert d; induction L as [|x L IH]; intros [|d]; cbn; auto. now rewrite IH. }
  rewrite (Hc _ Hb). rewrite insat_nth by lia. unfold below. rewrite insat_nth by lia. rewrite insat_upd by lia.
  unfold refined. ring.
Qed.

(* ---- one pass of the loop ---- *)
Lemma scaling_ok kv u p i last : zlen kv < 2 ^ 64 -> 0 <= p -> p - i + 1 >= 0 -> last + (p - i + 1) < zlen kv ->
  forall fuel j, 0 <= j -> last - j + 1 <= Z.of_nat fuel ->
  insert_scaling (F := F) fuel kv u p i j last =
  Ok (map (fun x => ndiv (n := F) (u - tk kv x)%R (tk kv (x + p - i + 1) - tk kv x)%R) (zseq j (Z.to_nat (last - j + 1)))).
Proof.
  intros Hz Hp Hi Hl. induction fuel as [|f IH]; intros j Hj Hf; cbn [insert_scaling]; destruct (Z.leb_spec j last) as [H|H]; try lia.
  - replace (Z.to_nat (last - j + 1)) with 0%nat by lia. reflexivity.
  - rewrite get_knot_tk by (rnorm; lia). cbn [bind].
    assert (E1 : u64 (j + p - i + 1) = j + p - i + 1) by (unfold u64; apply Z.mod_small; lia).
    assert (E2 : u64 (j + 1) = j + 1) by (unfold u64; apply Z.mod_small; lia).
    rewrite E1, E2. rewrite get_knot_tk by (rnorm; lia). cbn [bind].
    rewrite IH by lia. cbn [bind]. replace (Z.to_nat (last - j + 1)) with (S (Z.to_nat (last - (j + 1) + 1))) by lia.
    reflexivity.
  - replace (Z.to_nat (last - j + 1)) with 0%nat by lia. reflexivity.
Qed.

Lemma alpha_range t k u p j : monotone t -> (t k <= u)%R -> (u < t (k + 1)%Z)%R -> (0 <= alpha t k u p j <= 1)%R.
Proof.
  intros Hm H1 H2. unfold alpha. destruct (Z_le_dec (j + Z.of_nat p) k); [lra|]. destruct (Z_le_dec j k); [|lra].
  pose proof (Hm j k ltac:(lia)). pose proof (Hm (k + 1) (j + Z.of_nat p) ltac:(lia)).
  assert (0 < t (j + Z.of_nat p)%Z - t j)%R by lra. split.
  - apply Rmult_le_pos; [lra|]. left. now apply Rinv_0_lt_compat.
  - apply Rmult_le_reg_r with (t (j + Z.of_nat p)%Z - t j)%R; auto. unfold Rdiv. rewrite Rmult_assoc, Rinv_l by lra. lra.
Qed.

Definition hval (ph : phys F) (idx : list Z) (c : Z) : R := (pweight dz ph idx * pcoord dz ph idx c)%R.

Lemma insert_pass_ok kv p u n m d ph : inner kv p u n -> Z.of_nat (m + occurrences kv u) <= p -> zlen kv < 2 ^ 31 ->
  phys_ok dz ph -> (d < length (ph_npts ph))%nat -> nth d (ph_npts ph) 0 = zlen kv + Z.of_nat m - p - 1 ->
  exists ph', insert_pass (F := F) kv p u d (Z.of_nat m + 1) (Z.of_nat n - 1, ph) = Ok (Z.of_nat n - 1, ph') /\
    ph_dim ph' = ph_dim ph /\ ph_npts ph' = upd (ph_npts ph) d (nth d (ph_npts ph) 0 + 1) /\ phys_ok dz ph' /\
    is_weighted dz ph' = is_weighted dz ph /\
    forall idx, in_box (ph_npts ph') idx ->
      let a := alpha (tk (insm kv n u m)) (Z.of_nat (n + m) - 1) u (Z.to_nat p) (nth d idx 0%Z) in
      pweight dz ph' idx = (a * pweight dz ph idx + (1 - a) * pweight dz ph (below d idx))%R /\
      forall c, 0 <= c < ph_dim ph -> pweight dz ph' idx <> 0%R ->
        hval ph' idx c = (a * hval ph idx c + (1 - a) * hval ph (below d idx) c)%R.
Proof.
  intros Hin Hm Hz Hph Hd Hnd.
  pose proof (inner_ends kv p u n Hin) as [E1 E2]. pose proof (inner_mult kv p u n Hin) as Hmu.
  pose proof Hin as ((Hp & _ & Hnn & _) & _ & Hat & Hu). pose proof Hat as (Hn1 & Hlo & Hhi).
  destruct (occurrences_below kv u n Hnn Hat) as (_ & Hlt & Heq).
  set (o := occurrences kv u) in *.
  unfold insert_pass. rewrite (inner_is_last dz kv p u n Hin). cbn [bind fst snd].
  rewrite multiplicity_occ. fold o.
  assert (U1 : u64 (Z.of_nat n - 1 - Z.of_nat o) = Z.of_nat n - 1 - Z.of_nat o) by (unfold u64; apply Z.mod_small; lia).
  assert (U2 : u64 (Z.of_nat n - 1 - p + (Z.of_nat m + 1)) = Z.of_nat n - p + Z.of_nat m) by (unfold u64; rewrite Z.mod_small; lia).
  rewrite U1, U2.
  set (last := Z.of_nat n - 1 - Z.of_nat o). set (first := Z.of_nat n - p + Z.of_nat m).
  rewrite scaling_ok; try (unfold first, last, zlen in *; rnorm; lia). cbn [bind].
  set (sc := map _ (zseq first (Z.to_nat (last - first + 1)))).
  assert (I1 : i32 first = first) by (unfold i32; rewrite Z.mod_small; unfold first; lia).
  assert (I2 : i32 last = last) by (unfold i32; rewrite Z.mod_small; unfold last; lia).
  rewrite I1, I2.
  assert (Hscl : zlen sc = last - first + 1).
  { unfold sc, zlen. rewrite map_length, zseq_length. unfold first, last. lia. }
  destruct (adjust_ok dz ph sc first last d (nth d (ph_npts ph) 0)) as (ph' & E & D1 & D2 & D3 & D4 & D5); auto.
  { unfold first. lia. } { unfold last. rewrite Hnd. lia. } { rnorm. lia. }
  rnorm. rewrite E. cbn [bind]. exists ph'. split; [reflexivity|]. split; [auto|]. split; [auto|]. split; [auto|]. split; [auto|].
  intros idx Hb. rewrite D2 in Hb. specialize (D5 idx Hb). destruct D5 as [D5 D6]. cbv zeta.
  set (j := nth d idx 0). set (a := alpha _ _ _ _ j).
  pose proof (in_box_nth _ _ d Hb ltac:(now rewrite upd_length)) as Hj. rewrite nth_upd_same in Hj by auto. fold j in Hj.
  assert (Hal : (j > last -> a = 0%R) /\ (j < first -> a = 1%R) /\
                (first <= j <= last -> a = nth (Z.to_nat (j - first)) sc 0%R)).
  { pose proof (tk_insm kv n u m) as T. unfold a, alpha. rewrite Z2Nat.id by lia. repeat split.
    - intros C. destruct (Z_le_dec (j + p) (Z.of_nat (n + m) - 1)) as [Q|Q]; [unfold last in *; lia|].
      destruct (Z_le_dec j (Z.of_nat (n + m) - 1)) as [Q'|Q']; auto. rewrite (T j) by auto.
      assert (Ej : (if Z_lt_dec j (Z.of_nat n) then tk kv j else if Z_lt_dec j (Z.of_nat n + Z.of_nat m) then u else tk kv (j - Z.of_nat m)) = u).
      { destruct (Z_lt_dec j (Z.of_nat n)).
        - rewrite tk_knot' by (unfold zlen; lia). apply Heq. unfold last in *. lia.
        - destruct (Z_lt_dec j (Z.of_nat n + Z.of_nat m)); [reflexivity | lia]. }
      rewrite Ej. unfold Rdiv. rewrite Rminus_diag_eq by reflexivity. apply Rmult_0_l.
    - intros C. destruct (Z_le_dec (j + p) (Z.of_nat (n + m) - 1)) as [Q|Q]; auto. unfold first in *; lia.
    - intros C. destruct (Z_le_dec (j + p) (Z.of_nat (n + m) - 1)) as [Q|Q]; [unfold first in *; lia|].
      destruct (Z_le_dec j (Z.of_nat (n + m) - 1)) as [Q'|Q']; [|unfold last in *; lia].
      rewrite !T by auto. destruct (Z_lt_dec j (Z.of_nat n)); [|unfold last in *; lia].
      destruct (Z_lt_dec (j + p) (Z.of_nat n)); [unfold first in *; lia|].
      destruct (Z_lt_dec (j + p) (Z.of_nat n + Z.of_nat m)); [unfold first in *; lia|].
      unfold sc. rewrite (nth_map_in _ _ _ 0) by (rewrite zseq_length; lia). rewrite zseq_nth by lia.
      replace (first + Z.of_nat (Z.to_nat (j - first))) with j by lia.
      replace (j + p - (Z.of_nat m + 1) + 1) with (j + p - Z.of_nat m) by lia. rewrite ndiv_R; auto.
      assert (tk kv j < u)%R. { rewrite tk_knot' by (unfold zlen; lia). apply Hlt. unfold last in *; lia. }
      assert (u < tk kv (j + p - Z.of_nat m))%R.
      { apply Rlt_le_trans with (tk kv (Z.of_nat n)).
        - rewrite tk_knot' by (unfold zlen; lia). apply Hhi. lia.
        - apply tk_monotone; auto. unfold first in *. lia. }
      lra. }
  destruct Hal as (A1 & A2 & A3).
  assert (HW : pweight dz ph' idx = (a * pweight dz ph idx + (1 - a) * pweight dz ph (below d idx))%R).
  { destruct (is_weighted dz ph) eqn:Ew.
    - rewrite D6 by auto. unfold newW. fold j.
      destruct (Z.gtb_spec j last); [rewrite A1 by lia; lra|].
      destruct (Z.geb_spec j first); [rewrite A3 by lia; reflexivity | rewrite A2 by lia; lra].
    - assert (W1 : forall q, wat dz ph q = 1%R) by (intros; unfold wat, is_weighted in *; destruct (ph_wts ph); [discriminate | auto]).
      assert (W2 : forall q, wat dz ph' q = 1%R) by (intros; unfold wat, is_weighted in *; destruct (ph_wts ph'); [discriminate | auto]).
      unfold pweight. rewrite !W1, W2. lra. }
  split; [exact HW|].
  intros c Hc Hnz. unfold hval. rewrite D5 by auto. unfold newC. fold j.
  destruct (Z.gtb_spec j last).
  { rewrite HW, A1 by lia. lra. }
  destruct (Z.geb_spec j first).
  2:{ rewrite HW, A2 by lia. lra. }
  destruct (is_weighted dz ph) eqn:Ew.
  - rewrite <- D6 by auto. rewrite ndiv_R by auto. unfold mixR. rewrite <- A3 by lia.
    match goal with |- @eq _ ?x ?y => change (@eq R x y) end. field. auto.
  - assert (W1 : forall q, wat dz ph q = 1%R) by (intros; unfold wat, is_weighted in *; destruct (ph_wts ph); [discriminate | auto]).
    rewrite HW. unfold pweight. rewrite !W1. unfold mixR. rewrite <- A3 by lia. lra.
Qed.

(* ---- the whole operation ---- *)
Lemma weight_p s idx : weight s idx = pweight dz (sp_ph s) idx.
Proof. unfold weight, pweight, wat, npts_of. now rewrite position_get1d. Qed.
Lemma coordinate_p s idx c : coordinate s idx c = pcoord dz (sp_ph s) idx c.
Proof. unfold coordinate, pcoord, cpat, npts_of. now rewrite position_get1d. Qed.

Lemma map2_upd_l {A B C} (f : A -> B -> C) l1 l2 d a b : nth_error l2 d = Some b ->
  map2 f (upd l1 d a) l2 = upd (map2 f l1 l2) d (f a b).
Proof.
  revert l2 d; induction l1 as [|x l1 IH]; intros [|y l2] [|d] H; cbn in *; try discriminate; auto.
  - injection H as ->. reflexivity.
  - f_equal. now apply IH.
Qed.

Lemma wf_phys s : well_formed s -> phys_ok dz (sp_ph s).
Proof.
  intros [H1 H2 H3 H4 H5 H6]. split.
  - change (pos_lens (npts_of s)). rewrite H3. now apply good_npts_pos.
  - split; [auto|]. split; auto.
Qed.

Lemma wf_lens s : well_formed s -> lens_ok (knots_of s) (degs_of s).
Proof. intros [H1 _ _ _ _ _]. now apply good_lens. Qed.

Lemma wf_direction s d kv p : well_formed s -> nth_error (knots_of s) d = Some kv -> nth_error (degs_of s) d = Some p ->
  good_direction kv p /\ (d < length (npts_of s))%nat /\ nth d (npts_of s) 0 = zlen kv - p - 1.
Proof.
  intros [H1 _ H3 _ _ _] Ek Ed. rewrite H3. clear H3.
  revert d Ek Ed. induction H1 as [|k q ks qs Hg H IH]; intros [|d] Ek Ed; cbn in *; try discriminate.
  - injection Ek as ->. injection Ed as ->. split; [auto | split; [cbn; lia | reflexivity]].
  - destruct (IH d Ek Ed) as (A & B' & C). split; [auto | split; [cbn; lia | auto]].
Qed.

(* building a well-formed spline from parts *)
Lemma wf_build knots degs ph : Forall2 good_direction knots degs -> phys_ok dz ph ->
  ph_npts ph = map2 (fun kv p => zlen kv - p - 1) knots degs ->
  well_formed (mkSpline (F := F) (mkps dz knots degs) ph).
Proof.
  intros Hg (Hp & H1 & H2 & H3) En. constructor; cbn; auto.
  apply create_bases_ok. now apply good_lens.
Qed.

Lemma Forall2_nth_error {A B} (P : A -> B -> Prop) l1 l2 d a b :
  Forall2 P l1 l2 -> nth_error l1 d = Some a -> nth_error l2 d = Some b -> P a b.
Proof. intros H; revert d; induction H; intros [|d] E1 E2; cbn in *; try discriminate; [congruence | eauto]. Qed.

Definition all_positive (ph : phys F) : Prop := forall idx, in_box (ph_npts ph) idx -> (0 < pweight dz ph idx)%R.

(* one pass turns the spline over m inserted knots into one over m+1 *)
Lemma pass_step s d kv p u n m :
  well_formed s -> nth_error (knots_of s) d = Some (insm kv n u m) -> nth_error (degs_of s) d = Some p ->
  inner kv p u n -> Z.of_nat (m + occurrences kv u) <= p -> zlen kv < 2 ^ 31 ->
  exists ph', insert_pass (F := F) kv p u d (Z.of_nat m + 1) (Z.of_nat n - 1, sp_ph s) = Ok (Z.of_nat n - 1, ph') /\
    let s' := mkSpline (F := F) (mkps dz (upd (knots_of s) d (insm kv n u (S m))) (degs_of s)) ph' in
    well_formed s' /\ ph_dim ph' = ph_dim (sp_ph s) /\ is_weighted dz ph' = is_weighted dz (sp_ph s) /\
    ps_insert (sp_ps s) u d = Ok (sp_ps s') /\
    (all_positive (sp_ph s) -> all_positive ph' /\
      forall us, in_domain s us -> weight_function s' us = weight_function s us /\
        forall c, 0 <= c < ph_dim ph' -> weighted_sum s' us c = weighted_sum s us c).
Proof.
  intros Hwf Ek Ed Hin Hm Hz.
  pose proof (inner_insm kv p u n m Hin) as HinM.
  assert (Hn1 : (1 <= n < length kv)%nat) by (destruct Hin as (_ & _ & (H & _) & _); exact H).
  destruct (wf_direction s d _ p Hwf Ek Ed) as (Hg & Hd & Hnd).
  pose proof (wf_phys s Hwf) as Hph.
  assert (HlenM : zlen (insm kv n u m) = zlen kv + Z.of_nat m) by (unfold zlen; rewrite insm_length by lia; lia).
  rewrite HlenM in Hnd. unfold npts_of in Hd, Hnd.
  destruct (insert_pass_ok kv p u n m d (sp_ph s) Hin Hm Hz Hph Hd Hnd) as (ph' & E & D1 & D2 & D3 & D4 & D5).
  exists ph'. split; [exact E|]. cbv zeta.
  assert (EinsM : insm kv n u (S m) = ins1 (insm kv n u m) (n + m) u) by (apply insm_S; lia).
  pose proof Hwf as [W1 W2 W3 W4 W5 W6].
  assert (Hgood : Forall2 good_direction (upd (knots_of s) d (insm kv n u (S m))) (degs_of s)).
  { apply Forall2_upd; auto. intros q Eq. assert (q = p) by congruence. subst q. rewrite EinsM.
    apply (inner_step _ _ _ _ HinM). }
  set (s' := mkSpline (F := F) (mkps dz (upd (knots_of s) d (insm kv n u (S m))) (degs_of s)) ph').
  assert (Hwf' : well_formed s').
  { apply wf_build; auto. rewrite D2. rewrite (map2_upd_l _ _ _ d _ p Ed). fold (npts_of s). rewrite W3. f_equal.
    rewrite <- W3. unfold npts_of. rewrite Hnd. unfold zlen. rewrite !insm_length by lia. lia. }
  split; [exact Hwf'|]. split; [auto|]. split; [auto|]. split.
  { rewrite (wf_mkps dz s Hwf). cbn [s' sp_ps].
    apply (ps_insert_ok dz (knots_of s) (degs_of s) d u (insm kv n u m) (insm kv n u (S m))); auto.
    - now apply wf_lens.
    - rewrite EinsM. now apply (inner_insert dz _ p).
    - rewrite !insm_length by lia. lia. }
  intros Hpos.
  set (al := fun idx => alpha (tk (insm kv n u m)) (Z.of_nat (n + m) - 1) u (Z.to_nat p) (nth d idx 0)).
  pose proof HinM as ((Hp & _ & HndM & _) & _ & (HnM & HloM & HhiM) & HuM).
  pose proof (inner_ends _ _ _ _ HinM) as [E1 E2].
  assert (Har : forall idx, (0 <= al idx <= 1)%R).
  { intros idx. apply alpha_range; [now apply tk_monotone | |].
    - rewrite tk_knot' by (unfold zlen; lia). apply HloM. lia.
    - replace (Z.of_nat (n + m) - 1 + 1) with (Z.of_nat (n + m)) by lia. rewrite tk_knot' by (unfold zlen; lia). apply HhiM. lia. }
  assert (Hpos' : all_positive ph').
  { intros idx Hb. destruct (D5 idx Hb) as [D6 _]. rewrite D6. fold (al idx). specialize (Har idx).
    rewrite D2 in Hb. pose proof (in_box_nth _ _ d Hb ltac:(now rewrite upd_length)) as Hj. rewrite nth_upd_same in Hj by auto.
    assert (P1 : al idx <> 0%R -> (0 < pweight dz (sp_ph s) idx)%R).
    { intros Ha. apply Hpos. apply (in_box_self _ _ d _ Hb). unfold al, alpha in Ha.
      destruct (Z_le_dec (nth d idx 0 + Z.of_nat (Z.to_nat p)) (Z.of_nat (n + m) - 1)); [lia|].
      destruct (Z_le_dec (nth d idx 0) (Z.of_nat (n + m) - 1)); [lia | congruence]. }
    assert (P2 : al idx <> 1%R -> (0 < pweight dz (sp_ph s) (below d idx))%R).
    { intros Ha. apply Hpos. apply (below_box _ d (nth d (ph_npts (sp_ph s)) 0)); auto. unfold al, alpha in Ha.
      destruct (Z_le_dec (nth d idx 0 + Z.of_nat (Z.to_nat p)) (Z.of_nat (n + m) - 1)); [congruence|]. lia. }
    destruct (Req_EM_T (al idx) 0) as [A0|A0]; [rewrite A0; specialize (P2 ltac:(lra)); lra|].
    destruct (Req_EM_T (al idx) 1) as [A1|A1]; [rewrite A1; specialize (P1 ltac:(lra)); lra|].
    specialize (P1 A0). specialize (P2 A1). apply Rplus_lt_0_compat; apply Rmult_lt_0_compat; lra. }
  split; [exact Hpos'|].
  intros us Hdom.
  assert (Ek' : knots_of s' = upd (knots_of s) d (ins1 (insm kv n u m) (n + m) u)) by (rewrite <- EinsM; reflexivity).
  split.
  - unfold weight_function. apply (refine_sums s s' d (insm kv n u m) p u (n + m)); auto.
    intros idx Hb. cbv zeta. rewrite !weight_p. apply (D5 idx). exact Hb.
  - intros c Hc. unfold weighted_sum. apply (refine_sums s s' d (insm kv n u m) p u (n + m)); auto.
    intros idx Hb. cbv zeta. rewrite !weight_p, !coordinate_p. apply (D5 idx Hb).
    + now rewrite <- D1.
    + apply Rgt_not_eq. apply Hpos'. exact Hb.
Qed.

Lemma upd_id {A} (l : list A) d a : nth_error l d = Some a -> upd l d a = l.
Proof. revert d; induction l as [|x l IH]; intros [|d] H; cbn in *; try discriminate; [congruence | now rewrite IH]. Qed.

Lemma in_domain_ext s s' us : knots_of s' = knots_of s -> in_domain s us -> in_domain s' us.
Proof. unfold in_domain. now intros ->. Qed.

Lemma first_insm kv p n u m : inner kv p u n -> first_knot (insm kv n u m) = first_knot kv /\ final_knot (insm kv n u m) = final_knot kv.
Proof.
  intros Hin. induction m as [|m [IH1 IH2]]; [now rewrite insm_0|].
  pose proof (inner_insm kv p u n m Hin) as (_ & _ & (Hm & _) & _).
  assert (Hn1 : (1 <= n < length kv)%nat) by (destruct Hin as (_ & _ & (H & _) & _); exact H).
  rewrite insm_S by lia. rewrite first_ins1, final_ins1 by lia. auto.
Qed.

Lemma in_domain_upd s d kv kv' us : nth_error (knots_of s) d = Some kv ->
  first_knot kv' = first_knot kv -> final_knot kv' = final_knot kv -> in_domain s us ->
  Forall2 (fun kv u => (first_knot kv <= u <= final_knot kv)%R) (upd (knots_of s) d kv') us.
Proof.
  intros Ek E1 E2 H. unfold in_domain in H. revert d Ek. induction H as [|k v ks vs Hv H IH]; intros [|d] Ek; cbn in *; try discriminate; constructor; auto.
  injection Ek as ->. now rewrite E1, E2.
Qed.

(* the first m passes *)
Lemma insert_passes s d kv p u n : well_formed s -> nth_error (knots_of s) d = Some kv -> nth_error (degs_of s) d = Some p ->
  inner kv p u n -> zlen kv < 2 ^ 31 -> forall m, Z.of_nat (m + occurrences kv u) <= p + 1 ->
    exists s', foldM (fun st i => insert_pass (F := F) kv p u d i st) (zseq 1 m) (Z.of_nat n - 1, sp_ph s) = Ok (Z.of_nat n - 1, sp_ph s') /\
      foldM (fun ps (_ : Z) => ps_insert (F := F) ps u d) (zseq 0 m) (sp_ps s) = Ok (sp_ps s') /\
      well_formed s' /\ knots_of s' = upd (knots_of s) d (insm kv n u m) /\ degs_of s' = degs_of s /\
      ph_dim (sp_ph s') = ph_dim (sp_ph s) /\ is_weighted dz (sp_ph s') = is_weighted dz (sp_ph s) /\
      (all_positive (sp_ph s) -> all_positive (sp_ph s') /\
        forall us, in_domain s us -> weight_function s' us = weight_function s us /\
          forall c, 0 <= c < ph_dim (sp_ph s) -> weighted_sum s' us c = weighted_sum s us c).
Proof.
  intros Hwf Ek Ed Hin Hz.
  induction m as [|m IH]; intros Hm.
    - exists s. split; [reflexivity|]. split; [reflexivity|]. split; [auto|].
      split; [rewrite insm_0; symmetry; now apply upd_id|]. repeat (split; [reflexivity|]). auto.
    - destruct IH as (s1 & F1 & F2 & W & K & G & Dm & Wt & Pv); [lia|].
      assert (Ek1 : nth_error (knots_of s1) d = Some (insm kv n u m)) by (rewrite K; now apply (nth_error_upd_same _ _ _ kv)).
      assert (Ed1 : nth_error (degs_of s1) d = Some p) by (now rewrite G).
      destruct (pass_step s1 d kv p u n m W Ek1 Ed1 Hin ltac:(lia) Hz) as (ph' & P1 & P2 & P3 & P4 & P5 & P6).
      set (s2 := mkSpline (F := F) (mkps dz (upd (knots_of s1) d (insm kv n u (S m))) (degs_of s1)) ph') in *.
      assert (K2 : knots_of s2 = upd (knots_of s) d (insm kv n u (S m))).
      { unfold s2. cbn. rewrite K. now rewrite upd_upd. }
      exists s2. split; [|split; [|split; [|split; [|split; [|split; [|split]]]]]].
      + replace (zseq 1 (S m)) with (zseq 1 m ++ [Z.of_nat m + 1]).
        * rewrite foldM_app, F1. cbn [bind foldM]. rewrite P1. reflexivity.
        * replace (S m) with (m + 1)%nat by lia. rewrite zseq_app. cbn [zseq]. do 2 f_equal. lia.
      + replace (zseq 0 (S m)) with (zseq 0 m ++ [Z.of_nat m]).
        * rewrite foldM_app, F2. cbn [bind foldM]. rewrite P5. reflexivity.
        * replace (S m) with (m + 1)%nat by lia. rewrite zseq_app. cbn [zseq]. do 2 f_equal.
      + exact P2.
      + exact K2.
      + exact G.
      + cbn. congruence.
      + cbn. congruence.
      + intros Hpos. destruct (Pv Hpos) as [Q1 Q2]. destruct (P6 Q1) as [Q3 Q4]. split; [exact Q3|].
        intros us Hus. destruct (Q2 us Hus) as [Q5 Q6].
        assert (Hus1 : in_domain s1 us).
        { unfold in_domain. rewrite K. destruct (first_insm kv p n u m Hin). now apply (in_domain_upd s d kv). }
        destruct (Q4 us Hus1) as [Q7 Q8]. split; [congruence|]. intros c Hc. rewrite Q8 by (rewrite P3, Dm; auto). now apply Q6.
Qed.

Theorem insert_ok s d kv p u n r :
  well_formed s -> nth_error (knots_of s) d = Some kv -> nth_error (degs_of s) d = Some p ->
  inner kv p u n -> Z.of_nat (r + occurrences kv u) <= p + 1 -> zlen kv < 2 ^ 31 ->
  exists s', insert_knot s u d (Z.of_nat r) = Ok s' /\ well_formed s' /\
    knots_of s' = upd (knots_of s) d (insm kv n u r) /\ degs_of s' = degs_of s /\
    ph_dim (sp_ph s') = ph_dim (sp_ph s) /\ is_weighted dz (sp_ph s') = is_weighted dz (sp_ph s) /\
    (all_positive (sp_ph s) -> all_positive (sp_ph s') /\
      forall us, in_domain s us -> weight_function s' us = weight_function s us /\
        forall c, 0 <= c < ph_dim (sp_ph s) -> weighted_sum s' us c = weighted_sum s us c).
Proof.
  intros Hwf Ek Ed Hin Hr Hz.
  unfold insert_knot, sp_knots, sp_deg, dget. fold (knots_of s) (degs_of s). rnorm. rewrite Ek. cbn [bind].
  rewrite (inner_span dz kv p u n Hin). cbn [bind]. rewrite Ed. cbn [bind].
  rewrite !for_up_foldM. replace (Z.to_nat (Z.of_nat r + 1 - 1)) with r by lia. replace (Z.to_nat (Z.of_nat r - 0)) with r by lia.
  destruct (insert_passes s d kv p u n Hwf Ek Ed Hin Hz r Hr) as (s' & F1 & F2 & Rest). rewrite F1. cbn [bind]. rewrite F2. cbn [bind]. cbn [snd].
  exists s'. split; [destruct s'; reflexivity | exact Rest].
Qed.
End Insert.
