(* Elements, local and global basis functions, and the points of integration. *)
From Coq Require Import ZArith List Bool Reals Lra Lia Permutation.
From Verif Require Import Base BaseFacts RSum MultiIndex MultiIndexSpec MultiIndexFacts TensorSum
  KnotVec KnotVecSpec KnotVecFacts Basis BasisSpec BSplineTheory BasisFacts
  Spaces SpacesSpec SpacesFacts SplineEval SplineSpec EvalFacts EvalThms
  IgaSpec Iga IgaFacts IgaThms IgaBasis IgaBasisThms IgaSystem IgaSystemSpec Scatter.
Import ListNotations.
Open Scope Z_scope.

(* intervals *)
Lemma tiles_from l : forall a b j, tiles a b l -> (j < length l)%nat -> (a <= fst (nth j l (0, 0)) /\ fst (nth j l (0, 0)) < snd (nth j l (0, 0)))%R.
Proof.
  induction l as [|(x, y) l IH]; intros a b j H Hj; cbn in *; [lia|]. destruct H as (-> & Hxy & H).
  destruct j as [|j]; cbn; [lra|]. destruct (IH y b j H ltac:(lia)). lra.
Qed.

Lemma tiles_order l : forall a b i j, tiles a b l -> (i < j)%nat -> (j < length l)%nat -> (snd (nth i l (0, 0)) <= fst (nth j l (0, 0)))%R.
Proof.
  induction l as [|(x, y) l IH]; intros a b i j H Hi Hj; cbn in *; [lia|]. destruct H as (-> & Hxy & H).
  destruct j as [|j]; [lia|]. destruct i as [|i]; cbn.
  - apply (tiles_from l y b j H). lia.
  - apply (IH y b); auto; lia.
Qed.

Lemma interval_unique l a b e e' u : tiles a b l -> 0 <= e < zlen l -> 0 <= e' < zlen l ->
  (fst (nth (Z.to_nat e) l (0, 0)) < u < snd (nth (Z.to_nat e) l (0, 0)))%R ->
  (fst (nth (Z.to_nat e') l (0, 0)) <= u <= snd (nth (Z.to_nat e') l (0, 0)))%R -> e = e'.
Proof.
  unfold zlen. intros H He He' Hu Hu'. destruct (Z.lt_trichotomy e e') as [C|[C|C]]; auto; exfalso.
  - pose proof (tiles_order l a b (Z.to_nat e) (Z.to_nat e') H ltac:(lia) ltac:(lia)). lra.
  - pose proof (tiles_order l a b (Z.to_nat e') (Z.to_nat e) H ltac:(lia) ltac:(lia)). lra.
Qed.

Lemma dlists_length knots degs : Forall2 good_direction knots degs -> length (dlists knots degs) = length degs.
Proof. induction 1 as [|kv p knots degs Hg H IH]; auto. unfold dlists in *. cbn [map2 length]. now rewrite IH. Qed.

Lemma inside_unique knots degs : Forall2 good_direction knots degs -> forall es es' us,
  in_box (map zlen (dlists knots degs)) es -> in_box (map zlen (dlists knots degs)) es' ->
  strictly_inside (dlists knots degs) es us -> inside (dlists knots degs) es' us -> es = es'.
Proof.
  induction 1 as [|kv p knots degs Hg H IH]; intros es es' us B B' S I; inversion B as [|? e ? es1 Be B1]; subst; inversion B' as [|? e' ? es1' Be' B1']; subst; auto.
  cbn [dlists map2 strictly_inside inside] in S, I. destruct us as [|u us]; [contradiction|].
  destruct S as (Su & S). destruct I as (Iu & I).
  f_equal; [|eapply IH; eauto]. eapply interval_unique; eauto. apply pairs_tiles; [now apply inner_nondec | now apply inner_ne].
Qed.

Lemma knot_interval_unique kv p k k' e : nondecreasing kv -> 0 <= p -> knot_interval kv p k e -> knot_interval kv p k' e -> k = k'.
Proof.
  intros Hn Hp (Hk & E & Hlt) (Hk' & E' & _). rewrite E in E', Hlt. cbn [fst snd] in Hlt. inversion E' as [[E1 E2]].
  destruct (Z.lt_trichotomy k k') as [C|[C|C]]; auto; exfalso.
  - pose proof (Hn (Z.to_nat (k + 1)) (Z.to_nat k') ltac:(lia) ltac:(lia)). lra.
  - pose proof (Hn (Z.to_nat (k' + 1)) (Z.to_nat k) ltac:(lia) ltac:(lia)). lra.
Qed.

Lemma spans_unique knots degs : Forall2 good_direction knots degs -> forall ks ks' lists es,
  element_spans knots degs ks lists es -> element_spans knots degs ks' lists es -> ks = ks'.
Proof.
  induction 1 as [|kv p knots degs Hg H IH]; intros [|k ks] [|k' ks'] [|l lists] [|e es] S S'; cbn [element_spans] in S, S'; try contradiction; auto.
  destruct S as (K & S). destruct S' as (K' & S'). f_equal; [|eapply IH; eauto].
  destruct Hg as (Hp & _ & Hn & _). eapply knot_interval_unique; eauto.
Qed.

Lemma spans_domain knots degs : Forall2 good_direction knots degs -> forall ks lists es us,
  element_spans knots degs ks lists es -> strictly_inside lists es us ->
  Forall2 (fun kv u => (first_knot kv < u < final_knot kv)%R) knots us.
Proof.
  induction 1 as [|kv p knots degs Hg H IH]; intros [|k ks] [|l lists] [|e es] us S I; cbn [element_spans] in S; try contradiction.
  - destruct us; cbn in I; [constructor|contradiction].
  - destruct us as [|u us]; cbn [strictly_inside] in I; [contradiction|]. destruct S as ((Hk & E & _) & S). destruct I as (Iu & I).
    constructor; [|eapply IH; eauto]. rewrite E in Iu. cbn [fst snd] in Iu. destruct Hg as (Hp & _ & Hn & _).
    pose proof (Hn 0%nat (Z.to_nat k) ltac:(lia) ltac:(lia)). pose proof (Hn (Z.to_nat (k + 1)) (length kv - 1)%nat ltac:(lia) ltac:(lia)).
    unfold first_knot, final_knot, knot in *. lra.
Qed.

Section Facts.
Context {dz : R -> R}.
Local Notation F := (Rops dz).
Implicit Types s : spline F.

(* everything known about a point strictly inside an element *)
Record located s (es : list Z) (us : list R) (ks : list Z) : Prop := mkLocated {
  loc_domain : in_domain s us;
  loc_spans : element_spans (knots_of s) (degs_of s) ks (dlists (knots_of s) (degs_of s)) es;
  loc_knots : mapM (fun x => knot_span (F := F) (fst x) (snd x)) (combine (knots_of s) us) = Ok ks;
  loc_element : element_at s us = Ok (position (map zlen (dlists (knots_of s) (degs_of s))) es);
  loc_global : forall ls, in_box (local_sizes (degs_of s)) ls ->
    in_box (npts_of s) (local_point (degs_of s) ks ls) /\
    global_index s (position (map zlen (dlists (knots_of s) (degs_of s))) es) (position (local_sizes (degs_of s)) ls) =
      Ok (position (npts_of s) (local_point (degs_of s) ks ls) + 1);
  loc_active : forall idx, in_box (npts_of s) idx -> basis_product (knots_of s) (degs_of s) us idx <> 0%R ->
    exists ls, in_box (local_sizes (degs_of s)) ls /\ idx = local_point (degs_of s) ks ls;
  loc_inj : forall ls ls', in_box (local_sizes (degs_of s)) ls -> in_box (local_sizes (degs_of s)) ls' ->
    local_point (degs_of s) ks ls = local_point (degs_of s) ks ls' -> ls = ls' }.

Lemma local_point_inj degs ks ls ls' : length ks = length degs -> length ls = length degs -> length ls' = length degs ->
  local_point degs ks ls = local_point degs ks ls' -> ls = ls'.
Proof.
  unfold local_point. revert ks ls ls'. induction degs as [|p degs IH]; intros [|k ks] [|x ls] [|y ls'] H1 H2 H3 E; cbn in *; try discriminate; auto.
  injection E as E1 E2. f_equal; [lia|]. apply (IH ks); auto.
Qed.

Lemma located_at s es us : well_formed s -> in_box (map zlen (dlists (knots_of s) (degs_of s))) es ->
  strictly_inside (dlists (knots_of s) (degs_of s)) es us -> exists ks, located s es us ks.
Proof.
  intros Hwf He Hs. pose proof (wf_directions s Hwf) as Hd.
  destruct (connectivity s Hwf) as (lists & El & _ & H).
  assert (lists = dlists (knots_of s) (degs_of s)) by (rewrite element_lists_ok in El by auto; congruence). subst lists. clear El.
  destruct (H (position (map zlen (dlists (knots_of s) (degs_of s))) es) (position_range _ _ He)) as (es' & ks & He' & Ep & Hsp & Hl). clear H.
  assert (es' = es) by (eapply position_inj; eauto). subst es'.
  assert (Hdom : in_domain s us).
  { pose proof (spans_domain _ _ Hd _ _ _ _ Hsp Hs) as Hdom. unfold in_domain. clear - Hdom. induction Hdom; constructor; auto. lra. }
  destruct (element_at_ok s us Hwf Hdom) as (lists & es' & ks' & El & Hes' & Hin & Hat & Hsp' & Hks).
  assert (lists = dlists (knots_of s) (degs_of s)) by (rewrite element_lists_ok in El by auto; congruence). subst lists. clear El.
  assert (es' = es) by (symmetry; eapply inside_unique; eauto). subst es'.
  assert (ks' = ks) by (eapply spans_unique; eauto). subst ks'.
  exists ks. constructor; auto.
  - intros ls Hls. split.
    + rewrite (wf_npts s Hwf). eapply spans_box; eauto.
    + destruct (Hl _ (position_range _ _ Hls)) as (ls' & Hls' & Epl & Eg).
      assert (ls' = ls) by (eapply position_inj; eauto). subst ls'. exact Eg.
  - intros idx Hb Hne. rewrite (wf_npts s Hwf) in Hb. eapply active_product in Hne; eauto.
  - intros ls ls' H1 H2. apply in_box_length in H1, H2. unfold local_sizes in *. rewrite map_length in *.
    destruct (spans_length _ _ _ _ _ Hsp) as (L1 & L2 & L3 & L4). apply local_point_inj; congruence.
Qed.

(* numbers instead of multi-indices *)
Lemma box_number lens i : pos_lens lens -> 0 <= i < total lens ->
  in_box lens (nth_index lens (Z.to_nat i)) /\ position lens (nth_index lens (Z.to_nat i)) = i.
Proof.
  intros Hp Hi. split; [now apply nth_index_box|]. rewrite position_get1d, nth_index_get1d by (auto; lia). lia.
Qed.
Lemma number_box lens idx : in_box lens idx -> nth_index lens (Z.to_nat (position lens idx)) = idx.
Proof. intros H. rewrite position_get1d. now apply nth_index_of_get1d. Qed.

Lemma lsum_numbers (f : list Z -> R) lens : pos_lens lens ->
  lsum (fun i => f (nth_index lens (Z.to_nat i))) (zseq 0 (Z.to_nat (total lens))) = lsum f (all_indices lens).
Proof.
  intros Hp. rewrite all_indices_boxl, <- (lsum_perm _ _ _ (visited_perm lens Hp)).
  rewrite <- (map_id (visited lens)) at 1. rewrite (visited_tab (fun x => x)), lsum_map. reflexivity.
Qed.

Lemma lsum_visited (f : list Z -> R) lens : pos_lens lens -> lsum f (visited lens) = lsum f (all_indices lens).
Proof. intros Hp. rewrite all_indices_boxl. now apply lsum_perm, visited_perm. Qed.

Section Local.
Variables (s : spline F) (es : list Z) (us : list R) (ks : list Z).
Hypothesis Hwf : well_formed s.
Hypothesis Hloc : located s es us ks.
Let nb := local_sizes (degs_of s).
Let npts := npts_of s.

Lemma nb_pos : pos_lens nb.
Proof. unfold nb, local_sizes. exact (degs_nonneg _ _ (wf_directions s Hwf)). Qed.
Lemma npts_pos : pos_lens npts.
Proof.
  unfold npts. rewrite (wf_npts s Hwf). pose proof (wf_directions s Hwf) as H.
  induction H as [|kv p knots degs (Hp & (Hc & _) & _) H IH]; constructor; auto. unfold zlen. lia.
Qed.

(* control point number of local function number l *)
Definition gpoint (l : Z) : list Z := local_point (degs_of s) ks (nth_index nb (Z.to_nat l)).

Lemma gpoint_box l : 0 <= l < total nb -> in_box npts (gpoint l) /\
  global_index s (position (map zlen (dlists (knots_of s) (degs_of s))) es) l = Ok (position npts (gpoint l) + 1).
Proof.
  intros Hl. destruct (box_number nb l nb_pos Hl) as (Hb & Ep). destruct (loc_global _ _ _ _ Hloc _ Hb) as (H1 & H2).
  split; auto. etransitivity; [|exact H2]. f_equal. symmetry. exact Ep.
Qed.

(* zero for all control points but those of the element *)
Definition vanishing (phi : list Z -> R) : Prop :=
  forall idx, in_box npts idx -> (forall ls, in_box nb ls -> idx <> local_point (degs_of s) ks ls) -> phi idx = 0%R.

Lemma local_dec idx : {exists ls, in_box nb ls /\ idx = local_point (degs_of s) ks ls} +
                      {forall ls, in_box nb ls -> idx <> local_point (degs_of s) ks ls}.
Proof.
  destruct (in_dec (list_eq_dec Z.eq_dec) idx (map (local_point (degs_of s) ks) (all_indices nb))) as [H|H].
  - left. apply in_map_iff in H as (ls & E & H). apply all_indices_box in H. eauto.
  - right. intros ls Hls E. apply H. rewrite E. now apply in_map, all_indices_box.
Qed.

Lemma local_pick phi idx : vanishing phi -> in_box npts idx ->
  lsum (fun l => if position npts idx =? position npts (gpoint l) then phi (gpoint l) else 0%R) (zseq 0 (Z.to_nat (total nb))) = phi idx.
Proof.
  intros Hv Hb. pose proof (total_pos _ nb_pos) as Ht.
  assert (Hz : forall l, In l (zseq 0 (Z.to_nat (total nb))) -> 0 <= l < total nb) by (intros l Hl; apply zseq_In in Hl; lia).
  assert (Heq : forall l, 0 <= l < total nb -> (position npts idx =? position npts (gpoint l)) = true <-> idx = gpoint l).
  { intros l Hl. rewrite Z.eqb_eq. split; [|now intros ->]. apply position_inj; auto. now apply gpoint_box. }
  destruct (local_dec idx) as [E|E].
  2:{ rewrite (Hv _ Hb E). apply lsum_zero. intros l Hl. destruct (_ =? _) eqn:C; auto. apply Heq in C; auto. rewrite <- C. auto. }
  - destruct E as (ls & Hls & ->).
    rewrite (lsum_single _ _ (position nb ls)).
    + assert (Eg : gpoint (position nb ls) = local_point (degs_of s) ks ls) by (unfold gpoint; f_equal; now apply number_box).
      rewrite Eg, Z.eqb_refl. reflexivity.
    + apply zseq_NoDup.
    + apply zseq_In. pose proof (position_range nb ls Hls). lia.
    + intros l Hl Hne. destruct (_ =? _) eqn:C; auto. apply Heq in C; auto. exfalso. apply Hne.
      destruct (box_number nb l nb_pos (Hz l Hl)) as (Hb' & Ep'). rewrite <- Ep'. f_equal. symmetry.
      apply (loc_inj _ _ _ _ Hloc); auto.
Qed.

Lemma local_sum phi : vanishing phi ->
  lsum (fun l => phi (gpoint l)) (zseq 0 (Z.to_nat (total nb))) = lsum phi (all_indices npts).
Proof.
  intros Hv. symmetry. erewrite lsum_ext; [|intros idx Hi; symmetry; apply local_pick; [exact Hv|now apply all_indices_box]].
  rewrite lsum_swap. apply lsum_ext. intros l Hl. apply zseq_In in Hl. pose proof (total_pos _ nb_pos) as Ht.
  destruct (gpoint_box l ltac:(lia)) as (Hb & _).
  rewrite (lsum_single _ _ (gpoint l)).
  - now rewrite Z.eqb_refl.
  - rewrite all_indices_boxl. apply boxl_NoDup. apply Forall_forall. intros x Hx. apply in_map_iff in Hx as (n & <- & _). apply zseq_NoDup.
  - now apply all_indices_box.
  - intros idx Hi Hne. destruct (Z.eqb_spec (position npts idx) (position npts (gpoint l))) as [C|C]; auto.
    exfalso. apply Hne. eapply position_inj; eauto. now apply all_indices_box.
Qed.

(* the values of the basis functions *)
Hypothesis HW : weight_function s us <> 0%R.

Lemma nurbs_basis_vanishing : vanishing (nurbs_basis s us).
Proof.
  intros idx Hb E. unfold nurbs_basis. destruct (Req_dec (basis_product (knots_of s) (degs_of s) us idx) 0) as [->|C]; [unfold Rdiv; ring|].
  destruct (loc_active _ _ _ _ Hloc _ Hb C) as (ls & Hls & E'). now destruct (E ls Hls).
Qed.

Lemma values_at : exists vals, nonzero_nurbs s us = Ok vals /\ zlen vals = total nb /\
  forall l, 0 <= l < total nb -> nth (Z.to_nat l) vals 0%R = nurbs_basis s us (gpoint l).
Proof.
  destruct (nurbs_values s us Hwf (loc_domain _ _ _ _ Hloc) HW) as (vals & ks' & Ev & Ek & Hl & H).
  assert (ks' = ks) by (rewrite (loc_knots _ _ _ _ Hloc) in Ek; congruence). subst ks'.
  exists vals. split; auto. split; auto. intros l Hl'. destruct (box_number nb l nb_pos Hl') as (Hb & Ep).
  destruct (H _ Hb) as (_ & E). fold nb in E. rewrite Ep in E. exact E.
Qed.
End Local.
End Facts.
