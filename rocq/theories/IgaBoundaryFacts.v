(* Lemmas about the rows changed by boundary conditions and about boundary control points (C55, C57). *)
From Coq Require Import ZArith List Bool Reals Lra Lia Permutation Sorted.
From Verif Require Import Base BaseFacts RSum MultiIndex MultiIndexSpec MultiIndexFacts TensorSum
  SplineSpec EvalFacts IgaSpec Iga IgaSystem IgaSystemSpec Scatter IgaSystemFacts.
Import ListNotations.
Open Scope Z_scope.

(* ---- the order in which the control points are visited ---- *)
Lemma seq_offset b : forall m c, seq (c + b) m = map (fun i => (i + b)%nat) (seq c m).
Proof. induction m as [|m IH]; intros c; cbn [seq map]; auto. f_equal. exact (IH (S c)). Qed.
Lemma seq_blocks n : forall t a, seq (n * a) (n * t) = flat_map (fun q => map (fun i => (i + n * q)%nat) (seq 0 n)) (seq a t).
Proof.
  induction t as [|t IH]; intros a.
  - now rewrite Nat.mul_0_r.
  - rewrite Nat.mul_succ_r, Nat.add_comm, seq_app. cbn [seq flat_map]. f_equal.
    + exact (seq_offset (n * a) n 0).
    + rewrite <- IH. f_equal. lia.
Qed.

Lemma visited_cons n lens : 1 <= n -> pos_lens lens ->
  visited (n :: lens) = flat_map (fun js => map (fun i => i :: js) (zseq 0 (Z.to_nat n))) (visited lens).
Proof.
  intros Hn Hp. unfold visited. pose proof (total_pos _ Hp) as Ht.
  assert (E : Z.to_nat (total (n :: lens)) = (Z.to_nat n * Z.to_nat (total lens))%nat) by (rewrite total_cons; apply Z2Nat.inj_mul; lia).
  rewrite E. rewrite <- (Nat.mul_0_r (Z.to_nat n)) at 1. rewrite seq_blocks.
  rewrite !flat_map_concat_map, concat_map, !map_map. f_equal. apply map_ext_in. intros q Hq. apply in_seq in Hq. rewrite map_map.
  rewrite zseq_map, map_map. apply map_ext_in. intros i Hi. apply in_seq in Hi.
  destruct (box_number lens (Z.of_nat q) Hp ltac:(lia)) as (Hb & Ep). rewrite Nat2Z.id in *.
  assert (Hb' : in_box (n :: lens) (0 + Z.of_nat i :: nth_index lens q)) by (constructor; [lia|exact Hb]).
  rewrite <- (number_box _ _ Hb'). f_equal. cbn [position]. rewrite Ep. nia.
Qed.

Lemma visited_nil : visited [] = [[]].
Proof. reflexivity. Qed.

Lemma filter_flat_map {A B} (P : B -> bool) (f : A -> list B) l : filter P (flat_map f l) = flat_map (fun a => filter P (f a)) l.
Proof. induction l; cbn; auto. now rewrite filter_app, IHl. Qed.
Lemma flat_map_filter {A B} (P : A -> bool) (f : A -> list B) l :
  flat_map (fun a => if P a then f a else []) l = flat_map f (filter P l).
Proof. induction l as [|a l IH]; cbn; auto. rewrite IH. now destruct (P a). Qed.
Lemma flat_map_map {A B C} (f : B -> list C) (g : A -> B) l : flat_map f (map g l) = flat_map (fun a => f (g a)) l.
Proof. induction l; cbn; auto. now rewrite IHl. Qed.
Lemma map_flat_map {A B C} (f : B -> C) (g : A -> list B) l : map f (flat_map g l) = flat_map (fun a => map f (g a)) l.
Proof. induction l; cbn; auto. now rewrite map_app, IHl. Qed.
Lemma flat_map_single {A B} (f : A -> B) l : flat_map (fun a => [f a]) l = map f l.
Proof. induction l; cbn; congruence. Qed.
Lemma filter_zseq c n a : a <= c < a + Z.of_nat n -> filter (fun i => i =? c) (zseq a n) = [c].
Proof.
  revert a. induction n as [|n IH]; intros a H; [lia|].
  cbn [zseq filter]. destruct (Z.eqb_spec a c) as [->|Hne]; [|apply IH; lia]. f_equal.
  destruct (filter _ (zseq (c + 1) n)) as [|x t] eqn:Ef; auto. exfalso.
  assert (In x (x :: t)) as Hx by (left; reflexivity). rewrite <- Ef in Hx. apply filter_In in Hx. destruct Hx as (Hx & Hc).
  apply zseq_In in Hx. apply Z.eqb_eq in Hc. lia.
Qed.

(* the control points with index c in direction d, in the order visited *)
Lemma visited_slice : forall d lens c n, pos_lens lens -> nth_error lens d = Some n -> 0 <= c < n ->
  filter (fun idx => nth d idx 0 =? c) (visited lens) = map (put_at d c) (visited (remove_at d lens)).
Proof.
  induction d as [|d IH]; intros [|l lens] c n Hp Hn Hc; cbn [nth_error] in Hn; try discriminate; inversion Hp as [|? ? Hl Hp']; subst.
  - injection Hn as ->. cbn [remove_at]. rewrite visited_cons by auto. rewrite filter_flat_map.
    rewrite <- (flat_map_single (put_at 0 c)). apply flat_map_ext. intros js. unfold put_at. cbn [firstn skipn app].
    assert (E : forall l0 : list Z, filter (fun idx => nth 0 idx 0 =? c) (map (fun i => i :: js) l0) = map (fun i => i :: js) (filter (fun i => i =? c) l0)).
    { induction l0 as [|a l0 IH0]; cbn; auto. rewrite IH0. now destruct (a =? c). }
    rewrite E, filter_zseq by lia. reflexivity.
  - assert (Hr : pos_lens (remove_at d lens)).
    { clear - Hp'. revert d. induction Hp'; intros [|d]; cbn [remove_at]; auto; constructor; auto. apply IHHp'. }
    cbn [remove_at]. rewrite !visited_cons by auto. rewrite filter_flat_map.
    rewrite map_flat_map. rewrite <- (flat_map_map (fun js => map (fun i => i :: js) (zseq 0 (Z.to_nat l)))
      (put_at d c) (visited (remove_at d lens))) || idtac.
    rewrite (flat_map_ext _ (fun js => if nth d js 0 =? c then map (fun i => i :: js) (zseq 0 (Z.to_nat l)) else [])).
    + rewrite (flat_map_filter (fun js => nth d js 0 =? c) (fun js => map (fun i => i :: js) (zseq 0 (Z.to_nat l)))).
      rewrite (IH lens c n Hp' Hn Hc), flat_map_map. apply flat_map_ext. intros js. rewrite map_map. apply map_ext. reflexivity.
    + intros js. generalize (zseq 0 (Z.to_nat l)). intros l0. destruct (nth d js 0 =? c) eqn:E.
      * induction l0 as [|a l0 IH0]; cbn; auto. now rewrite E, IH0.
      * induction l0 as [|a l0 IH0]; cbn; auto. now rewrite E, IH0.
Qed.

(* positions increase along the list visited *)
Lemma visited_positions lens : pos_lens lens -> map (position lens) (visited lens) = zseq 0 (Z.to_nat (total lens)).
Proof.
  intros Hp. unfold visited. rewrite zseq_map, map_map. apply map_ext_in. intros k Hk. apply in_seq in Hk.
  destruct (box_number lens (Z.of_nat k) Hp ltac:(lia)) as (_ & E). rewrite Nat2Z.id in E. rewrite E. lia.
Qed.
Lemma zseq_sorted n a : StronglySorted Z.lt (zseq a n).
Proof.
  revert a. induction n as [|n IH]; intros a; cbn [zseq]; constructor; auto.
  apply Forall_forall. intros x Hx. apply zseq_In in Hx. lia.
Qed.
Lemma sorted_map {A} (f : A -> Z) l : StronglySorted Z.lt (map f l) -> StronglySorted (fun a b => f a < f b) l.
Proof.
  induction l as [|a l IH]; cbn [map]; intros H; constructor; inversion H as [|? ? H1 H2]; subst; auto.
  apply Forall_forall. intros x Hx. rewrite Forall_forall in H2. apply H2, in_map, Hx.
Qed.
Lemma sorted_filter {A} (P : A -> bool) (R : A -> A -> Prop) l : StronglySorted R l -> StronglySorted R (filter P l).
Proof.
  induction 1 as [|a l H1 IH H2]; cbn [filter]; [constructor|]. destruct (P a); auto. constructor; auto.
  apply Forall_forall. intros x Hx. apply filter_In in Hx. rewrite Forall_forall in H2. now apply H2.
Qed.
Lemma visited_sorted lens : pos_lens lens -> StronglySorted (fun a b => position lens a < position lens b) (visited lens).
Proof. intros Hp. apply sorted_map. rewrite visited_positions by auto. apply zseq_sorted. Qed.
Lemma sorted_lt_NoDup l : StronglySorted Z.lt l -> NoDup l.
Proof.
  induction 1 as [|a l H1 IH H2]; constructor; auto. intros C. rewrite Forall_forall in H2. specialize (H2 a C). lia.
Qed.
Lemma map_sorted {A} (f : A -> Z) l : StronglySorted (fun a b => f a < f b) l -> StronglySorted Z.lt (map f l).
Proof.
  induction 1 as [|a l H1 IH H2]; cbn [map]; constructor; auto.
  apply Forall_forall. intros x Hx. apply in_map_iff in Hx. destruct Hx as (y & <- & Hy). rewrite Forall_forall in H2. now apply H2.
Qed.

(* ---- which control points are on the boundary ---- *)
Lemma boundary_iff npts idx : in_box npts idx -> on_boundary (mkMih npts idx) = true <-> at_boundary npts idx.
Proof.
  intros H. unfold on_boundary, difference_indices, at_boundary. cbn [mcur mlen].
  induction H as [|n i npts idx Hi H IH]; cbn [combine map existsb fst snd].
  - split; [discriminate|]. intros (d & n & i & E & _). now destruct d.
  - rewrite orb_true_iff, IH, negb_true_iff, andb_false_iff, !Z.ltb_ge. split.
    + intros [C|(d & n' & i' & E1 & E2 & E3)].
      * exists 0%nat, n, i. repeat split; lia.
      * exists (S d), n', i'. auto.
    + intros ([|d] & n' & i' & E1 & E2 & E3); cbn [nth_error] in E1, E2.
      * injection E1 as <-. injection E2 as <-. left. lia.
      * right. exists d, n', i'. auto.
Qed.

Section Rows.
Context {dz : R -> R}.
Local Notation F := (Rops dz).

Lemma nth_const (l : list R) k : nth k (map (fun _ => 0%R) l) 0%R = 0%R.
Proof. revert k. induction l; intros [|k]; cbn; auto. Qed.
(* the loop of SetZeroBC and SetDirichletBC over the list of boundary positions *)
Lemma unit_row_ok n (m : list (list R)) i : square n m -> 0 <= i < n -> exists m',
  unit_row (F := F) m i = Ok m' /\ square n m' /\
  forall a b, 0 <= a < n -> 0 <= b < n -> entry m' a b = if a =? i then (if b =? i then 1%R else 0%R) else entry m a b.
Proof.
  intros Hm Hi. unfold unit_row. change (num F) with R. rewrite (vget_nth m i []) by (destruct Hm; unfold zlen; lia). cbn [bind].
  pose proof (square_row n m i Hm Hi) as Hr. unfold vlen in Hr.
  rewrite vset_ok by (unfold zlen; rewrite map_length; lia). cbn [bind]. rewrite vset_ok by (destruct Hm; unfold zlen; lia).
  eexists. split; [reflexivity|]. split; [apply square_upd; auto; unfold vlen; rewrite upd_length, map_length; auto|].
  intros a b Ha Hb. rewrite (entry_upd n) by (auto; lia). destruct (a =? i); auto.
  unfold component. rewrite nth_upd by (rewrite map_length; lia). destruct (Z.eqb_spec b i) as [->|Hne].
  - rewrite Nat.eqb_refl. reflexivity.
  - destruct (Nat.eqb_spec (Z.to_nat b) (Z.to_nat i)) as [H|H]; [lia|]. apply nth_const.
Qed.

Definition set_step (values : list R) (st : list (list R) * list R * Z) (g : Z) : Res (list (list R) * list R * Z) :=
  let '(m, v, number) := st in
  x <- vget values number ;; b <- vset v g x ;; a <- unit_row (F := F) m g ;; Ok (a, b, number + 1).

Lemma set_rows n values : forall gs m v k0, square n m -> vlen n v -> NoDup gs -> Forall (fun g => 0 <= g < n) gs ->
  0 <= k0 -> k0 + Z.of_nat (length gs) <= zlen values -> exists m' v',
  foldM (set_step values) gs (m, v, k0) = Ok (m', v', k0 + Z.of_nat (length gs)) /\ square n m' /\ vlen n v' /\
  (forall k g, nth_error gs k = Some g -> component v' g = component values (k0 + Z.of_nat k)) /\
  (forall g b, In g gs -> 0 <= b < n -> entry m' g b = if b =? g then 1%R else 0%R) /\
  (forall g, 0 <= g < n -> ~ In g gs -> component v' g = component v g /\ forall b, 0 <= b < n -> entry m' g b = entry m g b).
Proof.
  induction gs as [|g gs IH]; intros m v k0 Hm Hv Hnd Hr Hnum Hlen.
  - exists m, v. cbn [foldM length]. replace (k0 + Z.of_nat 0) with k0 by lia. split; auto. split; auto. split; auto.
    split; [intros [|k] g E; discriminate|]. split; [intros g b []|]. auto.
  - inversion Hnd as [|? ? Hni Hnd']; subst. inversion Hr as [|? ? Hg Hr']; subst. cbn [length] in Hlen.
    cbn [foldM]. unfold set_step at 1. rewrite (vget_nth values k0 0%R) by lia. cbn [bind].
    rewrite vset_ok by (unfold vlen in Hv; unfold zlen; change (num F) with R; lia). cbn [bind].
    destruct (unit_row_ok n m g Hm Hg) as (m1 & E1 & S1 & O1). rewrite E1. cbn [bind].
    set (v1 := upd v (Z.to_nat g) (nth (Z.to_nat k0) values 0%R)).
    assert (Hv1 : vlen n v1) by (unfold v1, vlen; now rewrite upd_length).
    assert (O2 : forall j, 0 <= j < n -> component v1 j = if j =? g then component values k0 else component v j).
    { intros j Hj. unfold v1, component. unfold vlen in Hv. rewrite nth_upd by lia. destruct (Z.eqb_spec j g) as [->|Hne].
      - now rewrite Nat.eqb_refl.
      - destruct (Nat.eqb_spec (Z.to_nat j) (Z.to_nat g)); [lia|auto]. }
    destruct (IH m1 v1 (k0 + 1) S1 Hv1 Hnd' Hr' ltac:(lia) ltac:(lia)) as (m' & v' & E & S' & V' & A & B & C).
    exists m', v'. split; [etransitivity; [exact E|]; do 2 f_equal; cbn [length]; lia|]. split; auto. split; auto. split; [|split].
    + intros [|k] g' Eg; cbn [nth_error] in Eg.
      * injection Eg as <-. destruct (C g Hg Hni) as (Cv & _). rewrite Cv, O2, Z.eqb_refl by auto. f_equal. lia.
      * rewrite (A k g' Eg). f_equal. lia.
    + intros g' b [<-|Hin] Hb.
      * destruct (C g Hg Hni) as (_ & Cm). rewrite Cm, O1, Z.eqb_refl by auto. reflexivity.
      * now apply B.
    + intros g' Hg' Hnin. destruct (C g' Hg') as (Cv & Cm); [intros X; apply Hnin; now right|].
      assert (g' <> g) by (intros ->; apply Hnin; now left). destruct (Z.eqb_spec g' g) as [?|Hne]; [contradiction|].
      split.
      * rewrite Cv, O2 by auto. destruct (Z.eqb_spec g' g); [contradiction|auto].
      * intros b Hb. rewrite Cm, O1 by auto. destruct (Z.eqb_spec g' g); [contradiction|auto].
Qed.

(* fewer values than boundary control points *)
Lemma set_rows_short n values : forall gs m v k0, square n m -> vlen n v -> Forall (fun g => 0 <= g < n) gs -> 0 <= k0 <= zlen values ->
  zlen values < k0 + Z.of_nat (length gs) -> foldM (set_step values) gs (m, v, k0) = UB.
Proof.
  induction gs as [|g gs IH]; intros m v k0 Hm Hv Hr Hnum Hlen; cbn [length] in Hlen; [lia|].
  inversion Hr as [|? ? Hg Hr']; subst. cbn [foldM]. unfold set_step at 1.
  destruct (Z.eq_dec k0 (zlen values)) as [Hq|Hq].
  - unfold vget. destruct (Z.ltb_spec k0 0) as [X|X]; [lia|]. 
    assert (N : nth_error values (Z.to_nat k0) = None) by (apply nth_error_None; unfold zlen in *; lia).
    rewrite N. now destruct (_ && _).
  - rewrite (vget_nth values k0 0%R) by lia. cbn [bind].
    rewrite vset_ok by (unfold vlen in Hv; unfold zlen; change (num F) with R; lia). cbn [bind].
    destruct (unit_row_ok n m g Hm Hg) as (m1 & E1 & S1 & O1). rewrite E1. cbn [bind].
    apply IH; auto; [unfold vlen; now rewrite upd_length | lia | lia].
Qed.

Definition boundary_order (npts : list Z) : list (list Z) := filter (fun idx => on_boundary (mkMih npts idx)) (visited npts).

Lemma order_spec npts : pos_lens npts ->
  (forall idx, In idx (boundary_order npts) <-> in_box npts idx /\ at_boundary npts idx) /\
  StronglySorted (fun a b => position npts a < position npts b) (boundary_order npts).
Proof.
  intros Hp. split.
  - intros idx. unfold boundary_order. rewrite filter_In, visited_In by auto. split; intros (H1 & H2); split; auto; now apply boundary_iff.
  - now apply sorted_filter, visited_sorted.
Qed.
Lemma order_positions npts : pos_lens npts -> NoDup (map (position npts) (boundary_order npts)) /\
  Forall (fun g => 0 <= g < total npts) (map (position npts) (boundary_order npts)).
Proof.
  intros Hp. destruct (order_spec npts Hp) as (H1 & H2). split; [now apply sorted_lt_NoDup, map_sorted|].
  apply Forall_forall. intros g Hg. apply in_map_iff in Hg. destruct Hg as (idx & <- & Hi). apply H1 in Hi. now apply position_range.
Qed.
Lemma order_length npts : pos_lens npts -> Z.of_nat (length (boundary_order npts)) <= total npts.
Proof.
  intros Hp. pose proof (total_pos _ Hp). unfold boundary_order.
  assert (H0 : (length (filter (fun idx => on_boundary (mkMih npts idx)) (visited npts)) <= length (visited npts))%nat).
  { generalize (visited npts). intros l. induction l as [|a l IH]; cbn [filter length]; auto. destruct (on_boundary (mkMih npts a)); cbn [length]; lia. }
  assert (length (visited npts) = Z.to_nat (total npts)) by (unfold visited; now rewrite map_length, seq_length). lia.
Qed.

Lemma foldM_ext' {A St} (f g : St -> A -> Res St) l s : (forall s x, f s x = g s x) -> foldM f l s = foldM g l s.
Proof. intros H. revert s. induction l as [|a l IH]; intros s; cbn [foldM]; auto. rewrite H. destruct (g s a); cbn [bind]; auto. Qed.
Lemma foldM_filter {A St} (P : A -> bool) (step : St -> A -> Res St) l : forall st,
  foldM (fun st a => if P a then step st a else Ok st) l st = foldM step (filter P l) st.
Proof.
  induction l as [|a l IH]; intros st; cbn [foldM filter]; auto. destruct (P a); cbn [foldM bind].
  - destruct (step st a); cbn [bind]; auto.
  - apply IH.
Qed.

Lemma set_dirichlet_fold npts m v dir :
  set_dirichlet (F := F) npts m v dir =
  (st <- foldM (set_step (match dir with Some d => d | None => vec_zeros (F := F) (zlen v) end))
         (map (position npts) (boundary_order npts)) (m, v, 0) ;; Ok (fst st)).
Proof.
  unfold set_dirichlet. rewrite mih_loop_visited. unfold boundary_order. rewrite foldM_map.
  f_equal. rewrite <- (foldM_filter (fun idx => on_boundary (mkMih npts idx))). apply foldM_ext'. intros ((m0, v0), k0) idx.
  destruct (on_boundary (mkMih npts idx)); auto. unfold set_step, mih_get1d. cbn [mlen mcur]. rewrite position_get1d. reflexivity.
Qed.

Lemma set_zero_fold npts m v k : 0 <= k -> Z.of_nat (length (boundary_order npts)) <= k ->
  set_zero (F := F) npts m v =
  (st <- foldM (set_step (vec_zeros (F := F) k)) (map (position npts) (boundary_order npts)) (m, v, 0) ;; Ok (fst st)).
Proof.
  intros Hk Hlen. unfold set_zero. rewrite mih_loop_visited.
  rewrite (foldM_ext' _ (fun st idx => if on_boundary (mkMih npts idx) then
     (b <- vset (snd st) (position npts idx) 0%R ;; a <- unit_row (F := F) (fst st) (position npts idx) ;; Ok (a, b)) else Ok st)).
  2:{ intros st idx. unfold mih_get1d. cbn [mlen mcur]. now rewrite position_get1d. }
  rewrite foldM_filter. fold (boundary_order npts). rewrite foldM_map.
  assert (G : forall l m v k0, 0 <= k0 -> k0 + Z.of_nat (length l) <= k ->
    foldM (fun st idx => b <- vset (snd st) (position npts idx) 0%R ;; a <- unit_row (F := F) (fst st) (position npts idx) ;; Ok (a, b)) l (m, v) =
    (st <- foldM (fun s idx => set_step (vec_zeros (F := F) k) s (position npts idx)) l (m, v, k0) ;; Ok (fst st))).
  { induction l as [|idx l IH]; intros m0 v0 k0 Hn Hl; cbn [foldM bind fst snd length] in *; auto.
    assert (E : vget (A := R) (vec_zeros (F := F) k) k0 = Ok 0%R).
    { unfold vec_zeros. change (num F) with R. rewrite (vget_nth _ k0 0%R) by (unfold zlen; rewrite repeat_length; lia). cbn [n0 Rops]. now rewrite nth_repeat. }
    assert (Es : set_step (vec_zeros (F := F) k) (m0, v0, k0) (position npts idx) =
      (b <- vset v0 (position npts idx) 0%R ;; a <- unit_row (F := F) m0 (position npts idx) ;; Ok (a, b, k0 + 1))) by (unfold set_step; now rewrite E).
    rewrite Es. change (num F) with R. destruct (vset v0 (position npts idx) 0%R); cbn [bind]; auto.
    destruct (unit_row m0 (position npts idx)); cbn [bind]; auto. apply IH; lia. }
  apply G; lia.
Qed.
End Rows.
