(* The stiffness matrix: gradients in physical coordinates and the assembled entries. *)
From Coq Require Import ZArith List Bool Reals Lra Lia Permutation.
From Verif Require Import Base BaseFacts RSum MultiIndex MultiIndexSpec MultiIndexFacts TensorSum
  KnotVec KnotVecSpec KnotVecFacts Basis BasisSpec BSplineTheory BasisFacts
  Spaces SpacesSpec SpacesFacts SplineEval SplineSpec EvalFacts EvalThms
  IgaSpec Iga IgaFacts IgaThms IgaBasis IgaBasisThms IgaSystem IgaSystemSpec Scatter IgaSystemFacts IgaAssembly.
Import ListNotations.
Open Scope Z_scope.

Section Stiffness.
Context {dz : R -> R}.
Local Notation F := (Rops dz).
Implicit Types s : spline F.

Lemma firstn_zseq n : forall m lo, (n <= m)%nat -> firstn n (zseq lo m) = zseq lo n.
Proof. induction n as [|n IH]; intros [|m] lo H; cbn; auto; [lia|]. now rewrite IH by lia. Qed.

Lemma dxi_dx_ok (minv : list (list R) -> Res (list (list R))) s us : well_formed s -> in_domain s us ->
  Z.of_nat (length us) <= ph_dim (sp_ph s) ->
  dxi_dx (F := F) minv s us = minv (table (length us) (fun i d => dpart s us (Z.of_nat i) d)).
Proof.
  intros Hwf Hu Hd. unfold dxi_dx. rewrite dx_dxi_ok by auto. cbn [bind]. unfold sp_pdim, zlen. change (num F) with R.
  destruct (Z.ltb_spec (ph_dim (sp_ph s)) (Z.of_nat (length us))) as [C|C]; [lia|]. f_equal.
  rewrite firstn_map, firstn_zseq by lia. rewrite map_map. unfold table. rewrite zseq_map, map_map. apply map_ext. intros i.
  cbn. rewrite firstn_map, firstn_all2 by (rewrite seq_length; lia). reflexivity.
Qed.

Lemma table_nth n f i j : (i < n)%nat -> (j < n)%nat -> nth j (nth i (table n f) []) 0%R = f i j.
Proof.
  intros Hi Hj. unfold table. rewrite (nth_map_in _ _ i 0%nat) by (rewrite seq_length; lia).
  rewrite (nth_map_in _ _ j 0%nat) by (rewrite seq_length; lia). now rewrite !seq_nth by lia.
Qed.

Lemma foldM_sum {A} (l : list A) (f : A -> R) (step : R -> A -> Res R) :
  (forall a t, In a l -> step t a = Ok (t + f a)%R) -> forall t, foldM step l t = Ok (t + lsum f l)%R.
Proof.
  induction l as [|a l IH]; intros H t; cbn [foldM lsum]; [f_equal; lra|].
  rewrite H by (now left). cbn [bind]. rewrite IH by (intros; apply H; now right). f_equal. lra.
Qed.

(* moving one coordinate inside the element *)
Lemma strict_upd lists : forall es us d, strictly_inside lists es us -> (d < length us)%nat ->
  exists r, (0 < r)%R /\ forall v, (Rabs (v - nth d us 0) < r)%R -> strictly_inside lists es (upd us d v).
Proof.
  induction lists as [|l lists IH]; intros [|e es] [|u us] d H Hd; cbn [strictly_inside] in H; try contradiction; [cbn in Hd; lia|].
  destruct H as (Hu & H). destruct d as [|d]; cbn [upd nth].
  - set (lo := fst (nth (Z.to_nat e) l (0, 0)%R)) in *. set (hi := snd (nth (Z.to_nat e) l (0, 0)%R)) in *.
    exists (Rmin (u - lo) (hi - u)). split; [apply Rmin_pos; lra|]. intros v Hv.
    pose proof (Rmin_l (u - lo) (hi - u)). pose proof (Rmin_r (u - lo) (hi - u)). apply Rabs_def2 in Hv.
    cbn [strictly_inside]. fold lo hi. split; auto. lra.
  - destruct (IH es us d H ltac:(cbn in Hd; lia)) as (r & Hr & Hv). exists r. split; auto. intros v Hv'. cbn [strictly_inside]. auto.
Qed.

Lemma in_dir {A B} (P : A -> B -> Prop) l1 l2 d b : Forall2 P l1 l2 -> nth_error l2 d = Some b -> exists a, nth_error l1 d = Some a /\ P a b.
Proof. intros H. revert d. induction H as [|x y l1 l2 Hxy H IH]; intros [|d] E; cbn in *; try discriminate; eauto. inversion E; subst; eauto. Qed.

Section Points.
Variables (minv : list (list R) -> Res (list (list R))) (s : spline F).
Hypothesis Hwf : well_formed s.
Hypothesis Hunit : unit_weights s.
Hypothesis Hsize : Z.of_nat (length (degs_of s)) <= total (local_sizes (degs_of s)).
Let lists := dlists (knots_of s) (degs_of s).
Let nb := local_sizes (degs_of s).
Let npts := npts_of s.

Lemma unit_box idx : in_box npts idx -> weight s idx = 1%R.
Proof. intros H. apply Hunit. now apply all_indices_box. Qed.
Lemma unit_regular : regular s.
Proof. intros us Hu. rewrite (unit_weight_function s us Hwf Hu unit_box). lra. Qed.

(* what the code computes at a point *)
Definition pspans (us : list R) : list Z :=
  match mapM (fun x => knot_span (F := F) (fst x) (snd x)) (combine (knots_of s) us) with Ok ks => ks | _ => [] end.
Definition pgrads (us : list R) : list (list R) := match physical_derivs (F := F) minv s us with Ok g => g | _ => [] end.
Definition gfun (us : list R) (i : nat) (idx : list Z) : R :=
  lsum (fun l => if list_eq_dec Z.eq_dec idx (gpoint s (pspans us) l) then nth (Z.to_nat l) (nth i (pgrads us) []) 0%R else 0%R)
       (zseq 0 (Z.to_nat (total nb))).

Lemma gpoint_inj es us ks l l' : located s es us ks -> 0 <= l < total nb -> 0 <= l' < total nb -> gpoint s ks l = gpoint s ks l' -> l = l'.
Proof.
  intros Hl H1 H2 E. destruct (box_number nb l (nb_pos s Hwf) H1) as (B1 & P1). destruct (box_number nb l' (nb_pos s Hwf) H2) as (B2 & P2).
  rewrite <- P1, <- P2. f_equal. apply (loc_inj _ _ _ _ Hl); auto.
Qed.

Lemma gfun_local es us ks i l : located s es us ks -> 0 <= l < total nb ->
  gfun us i (gpoint s ks l) = nth (Z.to_nat l) (nth i (pgrads us) []) 0%R.
Proof.
  intros Hl H. unfold gfun, pspans. rewrite (loc_knots _ _ _ _ Hl). rewrite (lsum_single _ _ l).
  - destruct (list_eq_dec Z.eq_dec (gpoint s ks l) (gpoint s ks l)); congruence.
  - apply zseq_NoDup.
  - apply zseq_In. lia.
  - intros b Hb Hne. apply zseq_In in Hb. destruct (list_eq_dec _ _ _) as [C|C]; auto. exfalso. apply Hne.
    symmetry. eapply gpoint_inj; eauto. lia.
Qed.

Lemma gfun_vanishing es us ks i : located s es us ks -> vanishing s ks (gfun us i).
Proof.
  intros Hl idx Hb Hn. unfold gfun, pspans. rewrite (loc_knots _ _ _ _ Hl). apply lsum_zero. intros l Hll.
  destruct (list_eq_dec _ _ _) as [C|C]; auto. exfalso. apply zseq_In in Hll.
  pose proof (total_pos _ (nb_pos s Hwf)) as Ht. fold nb in Ht.
  destruct (box_number nb l (nb_pos s Hwf) ltac:(lia)) as (B & _). exact (Hn _ B C).
Qed.

Lemma gradients_at es us : in_box (map zlen lists) es -> strictly_inside lists es us -> invertible_at minv s us ->
  exists ks dB w, located s es us ks /\
  physical_derivs (F := F) minv s us = Ok (pgrads us) /\ length (pgrads us) = length us /\
  (forall i, (i < length us)%nat -> zlen (nth i (pgrads us) []) = total nb) /\
  (forall i l, (i < length us)%nat -> 0 <= l < total nb ->
     nth (Z.to_nat l) (nth i (pgrads us) []) 0%R = lsum (fun k => dB k l * nth i (nth k w []) 0)%R (seq 0 (length us))) /\
  (forall k l, (k < length us)%nat -> 0 <= l < total nb ->
     derivable_pt_lim (fun v => nurbs_basis s (upd us k v) (gpoint s ks l)) (nth k us 0%R) (dB k l)) /\
  (forall k d, (k < length us)%nat -> (d < length us)%nat ->
     lsum (fun i => nth i (nth k w []) 0 * dpart s us (Z.of_nat i) d)%R (seq 0 (length us)) = if Nat.eqb k d then 1%R else 0%R).
Proof.
  intros Hes Hin (Hdim & Hinv). destruct (located_at s es us Hwf Hes Hin) as (ks & Hl). pose proof (loc_domain _ _ _ _ Hl) as Hu.
  pose proof (strict_not_knot _ _ (wf_directions s Hwf) _ _ _ _ (loc_spans _ _ _ _ Hl) Hin) as Hnot.
  pose proof (spans_domain _ _ (wf_directions s Hwf) _ _ _ _ (loc_spans _ _ _ _ Hl) Hin) as Hopen.
  assert (Hlen : length us = length (degs_of s)) by (rewrite degs_length by auto; now apply domain_length).
  destruct (nurbs_derivs_described s us Hwf Hu (unit_regular us Hu) Hsize) as (dvals & ks' & D1 & D2 & D3 & D4).
  destruct (nurbs_derivs_unit s us Hwf Hu unit_box Hsize) as (dvals' & ks'' & U1 & U2 & U3).
  assert (dvals' = dvals) by congruence. subst dvals'.
  assert (ks'' = ks) by (rewrite (loc_knots _ _ _ _ Hl) in U2; congruence). subst ks''.
  assert (ks' = ks) by (rewrite (loc_knots _ _ _ _ Hl) in D2; congruence). subst ks'. clear D2 U2 U1.
  destruct (Hinv (dpart s us) (dpart_partials s us Hwf unit_regular Hopen Hnot)) as (w & Ew & Lw & Rw & Iw).
  set (dB := fun (k : nat) (l : Z) => nth (Z.to_nat l) (nth k dvals []) 0%R).
  assert (Hk : forall k, (k < length us)%nat -> exists kv u, nth_error (knots_of s) k = Some kv /\ nth_error us k = Some u /\ ~ In u kv /\ nth k us 0%R = u).
  { intros k Hk. destruct (nth_error us k) as [u|] eqn:Eu; [|apply nth_error_None in Eu; lia].
    destruct (in_dir _ _ _ _ _ Hnot Eu) as (kv & Ek & Hn). exists kv, u. repeat split; auto. now apply nth_error_nth. }
  assert (Hzl : forall k, (k < length us)%nat -> zlen (nth k dvals []) = total nb).
  { intros k Hkk. destruct (Hk k Hkk) as (kv & u & E1 & E2 & E3 & _).
    destruct (D4 k kv u (nth_index nb 0) E1 E2 E3) as (Hz & _); auto. apply nth_index_box. exact (nb_pos s Hwf). }
  assert (Ep : physical_derivs (F := F) minv s us =
    Ok (map (fun i => map (fun l => lsum (fun k => dB k l * nth i (nth k w []) 0)%R (seq 0 (length us))) (zseq 0 (Z.to_nat (total nb)))) (seq 0 (length us)))).
  { unfold physical_derivs. rewrite D1. cbn [bind]. rewrite dxi_dx_ok by auto. change (num F) with R in *. rewrite Ew. cbn [bind].
    apply mapM_ok. intros i Hi. apply in_seq in Hi. rewrite (dget_nth dvals i []) by lia. cbn [bind].
    assert (Eln : length (nth i dvals []) = Z.to_nat (total nb)) by (specialize (Hzl i ltac:(lia)); unfold zlen in Hzl; lia).
    rewrite Eln. apply mapM_ok. intros l Hll. apply zseq_In in Hll.
    refine (eq_trans (foldM_sum (seq 0 (length us)) (fun k => dB k l * nth i (nth k w []) 0)%R _ _ _) _).
    - intros k t Hkk. apply in_seq in Hkk. rewrite (dget_nth dvals k []) by lia. cbn [bind].
      rewrite (vget_nth (nth k dvals []) l 0%R) by (rewrite Hzl by lia; lia). cbn [bind].
      rewrite (dget_nth w k []) by lia. cbn [bind].
      assert (Lr : length (nth k w []) = length us) by (rewrite Forall_forall in Rw; apply Rw, nth_In; lia).
      rewrite (dget_nth (nth k w []) i 0%R) by lia. cbn [bind]. reflexivity.
    - cbn. f_equal. lra. }
  exists ks, dB, w. split; auto. unfold pgrads. rewrite Ep. split; auto. split; [now rewrite map_length, seq_length|].
  assert (Hn : forall i, (i < length us)%nat -> nth i (map (fun i => map (fun l => lsum (fun k => dB k l * nth i (nth k w []) 0)%R (seq 0 (length us))) (zseq 0 (Z.to_nat (total nb)))) (seq 0 (length us))) [] =
    map (fun l => lsum (fun k => dB k l * nth i (nth k w []) 0)%R (seq 0 (length us))) (zseq 0 (Z.to_nat (total nb)))).
  { intros i Hi. rewrite (nth_map_in _ _ i 0%nat) by (rewrite seq_length; lia). now rewrite seq_nth by lia. }
  split; [|split; [|split]].
  - intros i Hi. rewrite Hn by auto. unfold zlen. rewrite map_length, zseq_length. pose proof (total_pos _ (nb_pos s Hwf)) as Ht. fold nb in Ht. lia.
  - intros i l Hi Hll. rewrite Hn by auto. rewrite (nth_map_in _ _ _ 0) by (rewrite zseq_length; lia). rewrite zseq_nth by lia.
    apply lsum_ext. intros k _. do 2 f_equal. lia.
  - intros k l Hkk Hll. destruct (Hk k Hkk) as (kv & u & E1 & E2 & E3 & E4). rewrite E4.
    destruct (box_number nb l (nb_pos s Hwf) Hll) as (B & P).
    pose proof (U3 k kv u (nth_index nb (Z.to_nat l)) E1 E2 E3 B) as X. fold nb in X. rewrite P in X. exact X.
  - intros k d Hk1 Hd1. rewrite <- (Iw k d Hk1 Hd1). apply lsum_ext. intros i Hi. apply in_seq in Hi. now rewrite table_nth by lia.
Qed.

Lemma partials_unique us D D' c d : partials s us D -> partials s us D' -> 0 <= c < ph_dim (sp_ph s) -> (d < length us)%nat -> D c d = D' c d.
Proof. intros H H' Hc Hd. eapply uniqueness_limite; [apply H | apply H']; auto. Qed.

Lemma gradient_ok es us idx : in_box (map zlen lists) es -> strictly_inside lists es us -> invertible_at minv s us ->
  in_box npts idx -> physical_gradient s us idx (fun i => gfun us i idx).
Proof.
  intros Hes Hin Hinv Hb D d HD Hd.
  destruct (gradients_at es us Hes Hin Hinv) as (ks & dB & w & Hl & _ & _ & _ & Hg & HdB & Hw).
  pose proof (strict_not_knot _ _ (wf_directions s Hwf) _ _ _ _ (loc_spans _ _ _ _ Hl) Hin) as Hnot.
  pose proof (spans_domain _ _ (wf_directions s Hwf) _ _ _ _ (loc_spans _ _ _ _ Hl) Hin) as Hopen.
  pose proof (dpart_partials s us Hwf unit_regular Hopen Hnot) as HP.
  assert (ED : forall i, (i < length us)%nat -> D (Z.of_nat i) d = dpart s us (Z.of_nat i) d).
  { intros i Hi. eapply partials_unique; eauto. destruct Hinv as (Hdim & _). lia. }
  rewrite (lsum_ext _ (fun i => gfun us i idx * dpart s us (Z.of_nat i) d)%R) by (intros i Hi; apply in_seq in Hi; now rewrite ED by lia).
  destruct (local_dec s ks idx) as [(ls & Hls & ->)|Hn].
  - set (l := position (local_sizes (degs_of s)) ls).
    assert (Hlr : 0 <= l < total nb) by (now apply position_range).
    assert (Egp : local_point (degs_of s) ks ls = gpoint s ks l) by (unfold gpoint, l; now rewrite number_box).
    rewrite Egp. replace (lsum _ _) with (dB d l); [now apply HdB|].
    rewrite (lsum_ext _ (fun i => lsum (fun k => dB k l * nth i (nth k w []) 0 * dpart s us (Z.of_nat i) d)%R (seq 0 (length us)))).
    2:{ intros i Hi. apply in_seq in Hi. rewrite (gfun_local es) by auto. rewrite Hg by (auto; lia). now rewrite lsum_scal_r. }
    rewrite lsum_swap.
    rewrite (lsum_ext _ (fun k => dB k l * (if Nat.eqb k d then (fun _ => 1) k else 0))%R).
    + now rewrite (lsum_diag (fun k => dB k l) (fun _ => 1%R)), Rmult_1_r by auto.
    + intros k Hk. apply in_seq in Hk. rewrite <- (Hw k d) by lia. rewrite <- lsum_scal. apply lsum_ext. intros i _. ring.
  - rewrite (lsum_zero _ _) by (intros i _; rewrite (gfun_vanishing es us ks i Hl idx Hb Hn); ring).
    destruct (strict_upd lists es us d Hin Hd) as (r & Hr & Hv).
    eapply (derivable_near (fun _ => 0%R) _ _ _ (mkposreal r Hr)); [|apply derivable_pt_lim_const].
    intros h Hh. cbn in Hh. symmetry. assert (Hin' : strictly_inside lists es (upd us d (nth d us 0 + h)%R)).
    { apply Hv. now replace (nth d us 0 + h - nth d us 0)%R with h by ring. }
    destruct (located_at s es _ Hwf Hes Hin') as (ks' & Hl').
    assert (ks' = ks) by (eapply spans_unique; [exact (wf_directions s Hwf) | exact (loc_spans _ _ _ _ Hl') | exact (loc_spans _ _ _ _ Hl)]). subst ks'.
    exact (nurbs_basis_vanishing s es _ ks Hl' idx Hb Hn).
Qed.
End Points.

Section Elements.
Variables (mdet : list (list R) -> R) (minv : list (list R) -> Res (list (list R))) (s : spline F) (rl : list (R * R)) (es : list Z) (jac : list R -> R).
Hypothesis Hwf : well_formed s.
Hypothesis Hunit : unit_weights s.
Hypothesis Hne : degs_of s <> [].
Hypothesis Hsize : Z.of_nat (length (degs_of s)) <= total (local_sizes (degs_of s)).
Hypothesis Hrl : inner_rule rl.
Let lists := dlists (knots_of s) (degs_of s).
Hypothesis Hes : in_box (map zlen lists) es.
Hypothesis Hjac : forall us, strictly_inside lists es us -> jacobian_determinant (F := F) mdet s us = Ok (jac us).
Hypothesis Hinv : forall us, strictly_inside lists es us -> invertible_at minv s us.
Let lens := repeat (Z.of_nat (length rl)) (length lists).
Let npts := npts_of s.
Let N := total npts.
Let n := length (degs_of s).
Definition gn (us : list R) (i : nat) (a : Z) : R := gfun minv s us i (nth_index npts (Z.to_nat a)).

Lemma laplace_adds kappa : adds (square N) (in_range2 N) pentry (laplace_matrix (F := F) mdet minv s rl kappa (position (map zlen lists) es))
  (fun ij => lsum (fun qs => grid_weight rl qs * (jac (qpoint s rl es qs) *
       (kappa * lsum (fun i => gn (qpoint s rl es qs) i (fst ij) * gn (qpoint s rl es qs) i (snd ij)) (seq 0 n)))) (all_indices lens))%R.
Proof.
  unfold laplace_matrix. rewrite (element_points_ok mdet s rl es Hwf Hrl Hes _ (pgrads minv s) jac); auto.
  2:{ intros us Hin. destruct (gradients_at minv s Hwf Hunit Hsize es us Hes Hin (Hinv us Hin)) as (ks & dB & w & _ & H & _). exact H. }
  cbn [bind]. eapply adds_ext; [intros m _; symmetry; apply foldM_map|intros i _; apply lsum_visited; exact (lens_pos s rl Hrl)|].
  apply adds_foldM. intros qs Hqs. apply visited_In in Hqs; [|exact (lens_pos s rl Hrl)].
  pose proof (qpoint_inside s rl es Hwf Hrl Hes qs Hqs) as Hin. set (us := qpoint s rl es qs) in *.
  destruct (gradients_at minv s Hwf Hunit Hsize es us Hes Hin (Hinv us Hin)) as (ks & dB & w & Hl & _ & Lg & Zg & _).
  assert (Hlen : length us = n).
  { unfold n. rewrite degs_length by auto. exact (domain_length s us (loc_domain _ _ _ _ Hl)). }
  assert (Hn0 : (0 < n)%nat) by (unfold n; destruct (degs_of s); [contradiction|cbn; lia]).
  cbv beta iota. change (num F) with R in *. rewrite (dget_nth (pgrads minv s us) 0 []) by lia. cbn [bind].
  rewrite (Zg 0%nat) by lia.
  eapply adds_ext; [intros m _; reflexivity | | apply (scatter_matrix s es us ks Hwf Hl
    (fun a b => lsum (fun i => gfun minv s us i a * gfun minv s us i b) (seq 0 n) * (grid_weight rl qs * jac us * kappa))%R)].
  - intros ij _. cbv beta. unfold gn. fold npts. ring.
  - intros a _ b Hb Hb'. rewrite lsum_zero; [ring|]. intros i _. rewrite (gfun_vanishing minv s Hwf es us ks i Hl b Hb Hb'). ring.
  - intros b _ a Ha Ha'. rewrite lsum_zero; [ring|]. intros i _. rewrite (gfun_vanishing minv s Hwf es us ks i Hl a Ha Ha'). ring.
  - intros l k m H1 H2 _.
    refine (eq_trans (f_equal (fun r => bind r _) (foldM_sum (pgrads minv s us) (fun gi => nth (Z.to_nat l) gi 0 * nth (Z.to_nat k) gi 0)%R _ _ _)) _).
    + intros gi t Hgi. apply (In_nth _ _ []) in Hgi as (i & Hi & <-).
      rewrite (vget_nth (nth i (pgrads minv s us) []) l 0%R), (vget_nth (nth i (pgrads minv s us) []) k 0%R) by (rewrite Zg by lia; auto). reflexivity.
    + cbn [bind]. destruct (gpoint_box s es us ks Hwf Hl l H1) as (_ & G1). destruct (gpoint_box s es us ks Hwf Hl k H2) as (_ & G2).
      fold lists in G1, G2. rewrite G1, G2. cbn [bind]. rewrite !Z.add_simpl_r. f_equal. cbn. f_equal. rewrite Rplus_0_l.
      assert (Eg : pgrads minv s us = map (fun i => nth i (pgrads minv s us) []) (seq 0 n)).
      { rewrite <- Hlen, <- Lg. generalize (pgrads minv s us). intros g. clear. apply (list_ext _ _ []); [now rewrite map_length, seq_length|].
        intros i Hi. rewrite (nth_map_in _ _ i 0%nat) by (rewrite seq_length; lia). now rewrite seq_nth by lia. }
      etransitivity; [exact (f_equal (lsum _) Eg)|]. rewrite lsum_map. apply lsum_ext. intros i Hi.
      now rewrite !(gfun_local minv s Hwf es us ks) by auto.
Qed.
End Elements.
End Stiffness.
