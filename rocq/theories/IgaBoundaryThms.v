(* Closing lemmas about boundary conditions and repeated solution (C55, C56). *)
From Coq Require Import ZArith List Bool Reals Lra Lia Permutation Sorted.
From Verif Require Import Base BaseFacts RSum MultiIndex MultiIndexSpec MultiIndexFacts TensorSum
  KnotVecSpec Basis BasisSpec Spaces SpacesSpec SplineEval SplineSpec EvalFacts
  IgaSpec Iga IgaFacts IgaThms IgaSystem IgaSystemSpec Scatter IgaSystemFacts IgaAssembly IgaStiffness IgaSystemThms IgaBoundaryFacts.
Import ListNotations.
Open Scope Z_scope.

Section Conditions.
Context {dz : R -> R}.
Local Notation F := (Rops dz).

(* C55 *)
Lemma rows_conditioned npts m v values : pos_lens npts -> square (total npts) m -> Z.of_nat (length v) = total npts ->
  Z.of_nat (length (boundary_order npts)) <= zlen values -> exists m' v' k,
  foldM (set_step (dz := dz) values) (map (position npts) (boundary_order npts)) (m, v, 0) = Ok (m', v', k) /\
  conditioned npts (boundary_order npts) m m' v v' values.
Proof.
  intros Hp Hm Hv Hlen. destruct (order_positions npts Hp) as (Hnd & Hr). destruct (order_spec npts Hp) as (Ho & _).
  destruct (set_rows (dz := dz) (total npts) values _ m v 0 Hm Hv Hnd Hr ltac:(lia)) as (m' & v' & E & S' & V' & A & B & C).
  { rewrite map_length. lia. }
  exists m', v', (0 + Z.of_nat (length (map (position npts) (boundary_order npts)))). split; [exact E|]. split; auto. split; auto. split.
  - intros k idx Hk. assert (Hk' : nth_error (map (position npts) (boundary_order npts)) k = Some (position npts idx)) by (now rewrite nth_error_map, Hk).
    split; [rewrite (A k _ Hk'); f_equal; lia|]. intros j Hj. apply B; auto. eapply nth_error_In; eauto.
  - intros idx Hb Hnb. apply C; [now apply position_range|]. intros Hin. apply in_map_iff in Hin. destruct Hin as (idx' & E' & Hin).
    apply Hnb. destruct (proj1 (Ho idx') Hin) as (Hb' & _).
    replace idx with idx'; auto. rewrite <- (number_box npts idx Hb), <- (number_box npts idx' Hb'). now rewrite E'.
Qed.

Lemma boundary_conditions : forall npts, pos_lens npts -> exists order, boundary_list npts order /\
  forall m v, square (total npts) m -> Z.of_nat (length v) = total npts ->
  (exists m' v', set_zero (F := F) npts m v = Ok (m', v') /\ conditioned npts order m m' v v' (repeat 0%R (length order))) /\
  (exists m' v', set_dirichlet (F := F) npts m v None = Ok (m', v') /\ conditioned npts order m m' v v' (repeat 0%R (length order))) /\
  (forall values, (length order <= length values)%nat ->
     exists m' v', set_dirichlet (F := F) npts m v (Some values) = Ok (m', v') /\ conditioned npts order m m' v v' values) /\
  (forall values, (length values < length order)%nat -> set_dirichlet (F := F) npts m v (Some values) = UB).
Proof.
  intros npts Hp. exists (boundary_order npts). destruct (order_spec npts Hp) as (Ho & Hs). split; [now split|].
  intros m v Hm Hv. pose proof (order_length npts Hp) as Hl. pose proof (total_pos _ Hp) as Ht.
  assert (Z0 : forall values m' v', (forall k, component values k = 0%R) -> conditioned npts (boundary_order npts) m m' v v' values ->
    conditioned npts (boundary_order npts) m m' v v' (repeat 0%R (length (boundary_order npts)))).
  { intros values m' v' Hz (C1 & C2 & C3 & C4). split; auto. split; auto. split; auto. intros k idx Hk. destruct (C3 k idx Hk) as (C5 & C6). split; auto.
    rewrite C5, Hz. unfold component. now rewrite nth_repeat. }
  assert (Zv : forall k, component (vec_zeros (F := F) (total npts)) k = 0%R) by (intros k; unfold component, vec_zeros; apply nth_repeat).
  assert (Lv : zlen (vec_zeros (F := F) (total npts)) = total npts) by (unfold zlen, vec_zeros; rewrite repeat_length; lia).
  split; [|split; [|split]].
  - rewrite (set_zero_fold npts m v (total npts)) by lia.
    destruct (rows_conditioned npts m v (vec_zeros (F := F) (total npts)) Hp Hm Hv ltac:(eapply Z.le_trans; [exact Hl|]; apply Z.eq_le_incl; symmetry; exact Lv)) as (m' & v' & k & E & C).
    exists m', v'. split; [now setoid_rewrite E | now apply (Z0 (vec_zeros (F := F) (total npts)))].
  - rewrite set_dirichlet_fold. assert (Ev : @zlen (num F) v = total npts) by exact Hv. rewrite Ev.
    destruct (rows_conditioned npts m v (vec_zeros (F := F) (total npts)) Hp Hm Hv ltac:(eapply Z.le_trans; [exact Hl|]; apply Z.eq_le_incl; symmetry; exact Lv)) as (m' & v' & k & E & C).
    exists m', v'. split; [now setoid_rewrite E | now apply (Z0 (vec_zeros (F := F) (total npts)))].
  - intros values Hval. rewrite set_dirichlet_fold. change (num F) with R in *.
    destruct (rows_conditioned npts m v values Hp Hm Hv ltac:(unfold zlen; lia)) as (m' & v' & k & E & C).
    exists m', v'. split; [now setoid_rewrite E | auto].
  - intros values Hval. rewrite set_dirichlet_fold. change (num F) with R in *. destruct (order_positions npts Hp) as (Hnd & Hr).
    setoid_rewrite (set_rows_short (dz := dz) (total npts) values _ m v 0 Hm Hv Hr ltac:(unfold zlen; lia)); auto.
    unfold zlen. rewrite map_length. lia.
Qed.

(* what a solution of a conditioned system satisfies *)
Lemma lsum_unit n (x : list R) g : 0 <= g < n ->
  lsum (fun j => (if j =? g then 1 else 0) * component x j)%R (zseq 0 (Z.to_nat n)) = component x g.
Proof.
  intros Hg. rewrite (lsum_ext _ (fun j => if j =? g then component x j else 0%R)) by (intros j _; destruct (j =? g); ring).
  assert (G : forall k a, lsum (fun j => if j =? g then component x j else 0%R) (zseq a k) =
    if (a <=? g) && (g <? a + Z.of_nat k) then component x g else 0%R).
  { induction k as [|k IH]; intros a; cbn [zseq lsum].
    - destruct (Z.leb_spec a g), (Z.ltb_spec g (a + Z.of_nat 0)); cbn [andb]; auto; lia.
    - rewrite IH. destruct (Z.eqb_spec a g) as [->|Hne].
      + destruct (Z.leb_spec (g + 1) g); [lia|]. cbn [andb]. destruct (Z.leb_spec g g), (Z.ltb_spec g (g + Z.of_nat (S k))); cbn [andb]; try lia. ring.
      + destruct (Z.leb_spec (a + 1) g), (Z.leb_spec a g), (Z.ltb_spec g (a + 1 + Z.of_nat k)), (Z.ltb_spec g (a + Z.of_nat (S k))); cbn [andb]; try lia; ring. }
  rewrite G. destruct (Z.leb_spec 0 g), (Z.ltb_spec g (0 + Z.of_nat (Z.to_nat n))); cbn [andb]; auto; lia.
Qed.

Lemma boundary_dec npts idx : in_box npts idx -> {at_boundary npts idx} + {~ at_boundary npts idx}.
Proof.
  intros H. destruct (on_boundary (mkMih npts idx)) eqn:E; [left | right].
  - now apply boundary_iff.
  - intros C. apply boundary_iff in C; auto. congruence.
Qed.

(* the list of boundary control points is determined *)
Lemma sorted_unique {A} (f : A -> Z) (l l' : list A) : StronglySorted (fun a b => f a < f b) l -> StronglySorted (fun a b => f a < f b) l' ->
  (forall a, In a l <-> In a l') -> l = l'.
Proof.
  intros H. revert l'. induction H as [|a l H1 IH H2]; intros l' H' E.
  - destruct l' as [|b l']; auto. destruct (proj2 (E b) (or_introl eq_refl)).
  - destruct H' as [|b l' H1' H2']; [destruct (proj1 (E a) (or_introl eq_refl))|]. rewrite Forall_forall in H2, H2'.
    assert (Eab : a = b).
    { destruct (proj1 (E a) (or_introl eq_refl)) as [X|X]; [auto|]. destruct (proj2 (E b) (or_introl eq_refl)) as [Y|Y]; [auto|].
      specialize (H2 b Y). specialize (H2' a X). lia. }
    subst b. f_equal. apply IH; auto. intros c. split; intros Hc.
    + destruct (proj1 (E c) (or_intror Hc)) as [X|X]; auto. subst c. specialize (H2 a Hc). lia.
    + destruct (proj2 (E c) (or_intror Hc)) as [X|X]; auto. subst c. specialize (H2' a Hc). lia.
Qed.
Lemma boundary_list_unique npts order : pos_lens npts -> boundary_list npts order -> order = boundary_order npts.
Proof.
  intros Hp (H1 & H2). destruct (order_spec npts Hp) as (H3 & H4). apply (sorted_unique (position npts)); auto.
  intros a. now rewrite H1, H3.
Qed.

Lemma conditioned_solutions npts order m m' v v' values x : pos_lens npts -> boundary_list npts order ->
  conditioned npts order m m' v v' values ->
  solves (total npts) m' v' x <->
  weak_form npts values x (fun a b => entry m (position npts a) (position npts b)) (fun a => component v (position npts a)).
Proof.
  intros Hp Hord (_ & _ & C3 & C4). destruct Hord as (Ho & Hs).
  assert (Eq : forall a, lsum (fun b => entry m (position npts a) (position npts b) * component x (position npts b))%R (all_indices npts) =
    lsum (fun j => entry m (position npts a) j * component x j)%R (zseq 0 (Z.to_nat (total npts)))).
  { intros a. rewrite <- lsum_numbers by auto. apply lsum_ext. intros j Hj. apply zseq_In in Hj. pose proof (total_pos _ Hp).
    destruct (box_number npts j Hp ltac:(lia)) as (_ & ->). reflexivity. }
  unfold solves, weak_form. split.
  - intros (Hl & H). split; auto. split.
    + intros order' k idx Hord' Hk. assert (order' = order) by (rewrite (boundary_list_unique npts order' Hp Hord'); symmetry; exact (boundary_list_unique npts order Hp (conj Ho Hs))). subst order'.
      destruct (C3 k idx Hk) as (E1 & E2). assert (Hb : in_box npts idx) by (apply Ho; eapply nth_error_In; eauto).
      pose proof (position_range _ _ Hb) as Hr. rewrite <- E1, <- H by auto. rewrite <- (lsum_unit (total npts) x _ Hr).
      apply lsum_ext. intros j Hj. apply zseq_In in Hj. pose proof (total_pos _ Hp). rewrite E2 by lia. reflexivity.
    + intros idx Hb Hn. rewrite Eq. destruct (C4 idx Hb) as (E1 & E2); [intros X; apply Ho in X; tauto|]. rewrite <- E1, <- H by (now apply position_range).
      apply lsum_ext. intros j Hj. apply zseq_In in Hj. pose proof (total_pos _ Hp). rewrite E2 by lia. reflexivity.
  - intros (Hl & HB & HI). split; auto. intros i Hi. destruct (box_number npts i Hp Hi) as (Hb & Ei). set (idx := nth_index npts (Z.to_nat i)) in *.
    rewrite <- Ei. destruct (boundary_dec npts idx Hb) as [Hat|Hat].
    + assert (Hin : In idx order) by (now apply Ho). apply In_nth_error in Hin. destruct Hin as (k & Hk).
      destruct (C3 k idx Hk) as (E1 & E2). rewrite E1, <- (HB order k idx (conj Ho Hs) Hk). rewrite <- (lsum_unit (total npts) x _ (position_range _ _ Hb)).
      apply lsum_ext. intros j Hj. apply zseq_In in Hj. pose proof (total_pos _ Hp). rewrite E2 by lia. reflexivity.
    + destruct (C4 idx Hb) as (E1 & E2); [intros X; apply Ho in X; tauto|]. rewrite E1, <- (HI idx Hb Hat), Eq.
      apply lsum_ext. intros j Hj. apply zseq_In in Hj. pose proof (total_pos _ Hp). rewrite E2 by lia. reflexivity.
Qed.
End Conditions.
