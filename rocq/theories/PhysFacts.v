(* Reading and writing control points and weights of a physical space (real arithmetic). *)
From Coq Require Import ZArith List Bool Lia Reals Lra.
From Verif Require Import Base BaseFacts RSum MultiIndex MultiIndexSpec MultiIndexFacts TensorSum
  KnotVec VecUtils Spaces SplineSpec EvalFacts.
Import ListNotations.
Open Scope Z_scope.

(* ---- loops over multi-indices that run downwards ---- *)
Lemma nth_index_S lens n : nth_index lens (S n) = incr lens (nth_index lens n).
Proof.
  unfold nth_index. cbn [iterate nat_rect]. cbn. f_equal.
  change (nat_rect (fun _ => mih) (mih_new lens) (fun _ => mih_incr) n) with (iterate n mih_incr (mih_new lens)).
  now rewrite iter_incr_mlen.
Qed.

Lemma mih_for_down_inv {St} lens (Inv : nat -> St -> Prop) (body : mih -> St -> Res St) :
  pos_lens lens ->
  (forall n st, Z.of_nat n < total lens -> Inv (S n) st ->
     exists st', body (mkMih lens (nth_index lens n)) st = Ok st' /\ Inv n st') ->
  forall n st, Z.of_nat n <= total lens -> Inv n st ->
     exists st', mih_for_down n (mkMih lens (nth_index lens (n - 1))) body st = Ok st' /\ Inv 0%nat st'.
Proof.
  intros Hp Hb. induction n as [|n IH]; intros st Hn Hi.
  - exists st. split; auto.
  - cbn [mih_for_down]. replace (S n - 1)%nat with n by lia.
    destruct (Hb n st ltac:(lia) Hi) as (st' & E & Hi'). rewrite E. cbn [bind].
    destruct n as [|m].
    + exists st'. split; auto.
    + destruct (IH st' ltac:(lia) Hi') as (st'' & E' & Hi''). exists st''. split; auto.
      rewrite <- E'. f_equal. unfold mih_decr. cbn [mlen mcur]. f_equal.
      replace (S m - 1)%nat with m by lia. rewrite nth_index_S. apply decr_incr. now apply nth_index_box.
Qed.

Lemma top_box lens : pos_lens lens -> in_box lens (map (fun n => n - 1) lens).
Proof. unfold pos_lens, in_box. induction 1; cbn; constructor; auto. lia. Qed.
Lemma top_get1d lens : pos_lens lens -> get1d lens (map (fun n => n - 1) lens) = total lens - 1.
Proof.
  induction 1 as [|n lens Hn H IH]; [reflexivity|]. cbn [map]. rewrite get1d_cons, IH, total_cons. lia.
Qed.
Lemma nth_index_top lens : pos_lens lens -> nth_index lens (Z.to_nat (total lens) - 1) = map (fun n => n - 1) lens.
Proof.
  intros H. pose proof (nth_index_of_get1d lens _ (top_box lens H)) as E. rewrite top_get1d in E by auto.
  rewrite <- E. f_equal. pose proof (total_pos lens H). lia.
Qed.

(* ---- linear positions when one length grows ---- *)
Lemma get1d_mono lens lens' idx : Forall2 Z.le lens lens' -> Forall (fun i => 0 <= i) idx -> pos_lens lens ->
  get1d lens idx <= get1d lens' idx.
Proof.
  intros H. revert idx. induction H as [|l l' ls ls' Hl H IH]; intros [|i idx] Hi Hp; rewrite ?get1d_nil, ?get1d_nil_r; try lia.
  rewrite !get1d_cons. inversion Hi; subst. inversion Hp; subst. specialize (IH idx H3 H5).
  assert (0 <= get1d ls idx).
  { clear - H3 H5. revert ls H5; induction idx as [|i idx IHi]; intros [|l ls] Hp; rewrite ?get1d_nil, ?get1d_nil_r; try lia.
    rewrite get1d_cons. inversion H3; subst. inversion Hp; subst. specialize (IHi H2 ls H5). nia. }
  nia.
Qed.

Lemma get1d_idx_mono lens idx idx' : Forall2 Z.le idx idx' -> pos_lens lens -> length idx = length lens ->
  get1d lens idx <= get1d lens idx'.
Proof.
  intros H. revert lens. induction H as [|i i' idx idx' Hi H IH]; intros [|l lens] Hp Hl; try discriminate; try reflexivity.
  rewrite !get1d_cons. inversion Hp; subst. specialize (IH lens H3 ltac:(cbn in Hl; lia)). nia.
Qed.

Lemma Forall2_upd_le (l : list Z) d a : l <> [] -> nth d l 0 <= a -> Forall2 Z.le l (upd l d a).
Proof.
  intros _. revert d; induction l as [|x l IH]; intros [|d] H; cbn in *; constructor; auto; try lia.
  clear. induction l; constructor; auto; lia.
Qed.
Lemma Forall2_upd_ge (l : list Z) d a : a <= nth d l 0 -> Forall2 Z.le (upd l d a) l.
Proof.
  revert d; induction l as [|x l IH]; intros [|d] H; cbn in *; constructor; auto; try lia.
  clear. induction l; constructor; auto; lia.
Qed.

Lemma in_box_nth lens idx d : in_box lens idx -> (d < length lens)%nat -> 0 <= nth d idx 0 < nth d lens 0.
Proof.
  intros H. revert d; induction H as [|l i ls is Hi H IH]; intros [|d] Hd; cbn in *; try lia. apply IH. lia.
Qed.
Lemma in_box_upd lens idx d i n : in_box (upd lens d n) idx -> 0 <= i < nth d lens 0 -> in_box lens (upd idx d i).
Proof.
  unfold in_box. revert lens d; induction idx as [|x idx IH]; intros [|l lens] [|d] H Hi; cbn in *; inversion H; subst; constructor; auto; try lia.
Qed.
Lemma in_box_upd_both lens idx d i n : in_box lens idx -> 0 <= i < n -> in_box (upd lens d n) (upd idx d i).
Proof.
  unfold in_box. intros H. revert d; induction H as [|l j ls js Hj H IH]; intros [|d] Hi; cbn in *; constructor; auto.
Qed.
Lemma in_box_self lens idx d n : in_box (upd lens d n) idx -> nth d idx 0 < nth d lens 0 -> in_box lens idx.
Proof.
  unfold in_box. revert lens d; induction idx as [|x idx IH]; intros [|l lens] [|d] H Hi; cbn in *; inversion H; subst; constructor; auto; try lia.
  eapply IH; eauto.
Qed.
Lemma in_box_nonneg lens idx : in_box lens idx -> Forall (fun i => 0 <= i) idx.
Proof. induction 1; constructor; auto; lia. Qed.
Lemma pos_lens_upd lens d n : pos_lens lens -> 1 <= n -> pos_lens (upd lens d n).
Proof. unfold pos_lens. intros H Hn. revert d; induction H; intros [|d]; cbn; constructor; auto. Qed.
Lemma pos_lens_nth lens d : pos_lens lens -> (d < length lens)%nat -> 1 <= nth d lens 0.
Proof. unfold pos_lens. rewrite Forall_forall. intros H Hd. apply H. now apply nth_In. Qed.
Lemma total_upd lens d n : (d < length lens)%nat -> total (upd lens d n) = n * total (remove_at d lens).
Proof.
  intros H. rewrite <- (total_remove_at (upd lens d n) d) by (now rewrite upd_length).
  rewrite nth_upd_same by auto. now rewrite remove_at_upd.
Qed.

Section Phys.
Variable dz : R -> R.
Local Notation F := (Rops dz).
Implicit Types p : phys F.

(* values at a linear position *)
Definition cpat p (q c : Z) : R := nth (Z.to_nat (ph_dim p * q + c)) (ph_cps p) 0%R.
Definition wat p (q : Z) : R := match ph_wts p with None => 1%R | Some w => nth (Z.to_nat q) w 0%R end.

Definition sized p (N : Z) : Prop :=
  1 <= ph_dim p /\ zlen (ph_cps p) = ph_dim p * N /\ (forall w, ph_wts p = Some w -> zlen w = N).
Definition phys_ok p : Prop := pos_lens (ph_npts p) /\ sized p (total (ph_npts p)).

(* values at a multi-index *)
Definition pcoord p (idx : list Z) (c : Z) : R := cpat p (get1d (ph_npts p) idx) c.
Definition pweight p (idx : list Z) : R := wat p (get1d (ph_npts p) idx).

Definition is_weighted p : bool := match ph_wts p with None => false | Some _ => true end.

Lemma get_cp_at p N idx : sized p N -> 0 <= get1d (ph_npts p) idx < N ->
  get_control_point p idx = Ok (map (cpat p (get1d (ph_npts p) idx)) (zseq 0 (Z.to_nat (ph_dim p)))).
Proof.
  intros (H1 & H2 & _) Hq. unfold get_control_point. apply mapM_ok. intros c Hc. apply zseq_In in Hc.
  unfold cpat. rewrite (vget_nth _ _ 0%R); auto. rnorm. rewrite H2. nia.
Qed.

Lemma get_weight_at p N idx : sized p N -> 0 <= get1d (ph_npts p) idx < N ->
  get_weight p idx = Ok (wat p (get1d (ph_npts p) idx)).
Proof.
  intros (H1 & H2 & H3) Hq. unfold get_weight, wat. destruct (ph_wts p) as [w|]; auto.
  apply vget_nth. rewrite (H3 w); auto.
Qed.

Lemma get_hom_at p N idx : sized p N -> 0 <= get1d (ph_npts p) idx < N -> is_weighted p = true ->
  get_homogeneous p idx =
  Ok (map (fun c => cpat p (get1d (ph_npts p) idx) c * wat p (get1d (ph_npts p) idx))%R (zseq 0 (Z.to_nat (ph_dim p)))
      ++ [wat p (get1d (ph_npts p) idx)]).
Proof.
  intros Hs Hq Hw. pose proof Hs as (H1 & H2 & H3). unfold get_homogeneous, wat, is_weighted in *. destruct (ph_wts p) as [w|] eqn:Ew; [|discriminate].
  set (q := get1d (ph_npts p) idx) in *.
  erewrite (mapM_ok _ (fun c => cpat p q c * nth (Z.to_nat q) w 0)%R).
  - cbn [bind]. rewrite (vget_nth w q 0%R) by (rewrite (H3 w); auto). reflexivity.
  - intros c Hc. apply zseq_In in Hc. rewrite (vget_nth _ _ 0%R) by (rnorm; rewrite H2; nia). cbn [bind].
    assert (Ei : idiv (ph_dim p * q) (ph_dim p) = Ok q).
    { unfold idiv. destruct (Z.eqb_spec (ph_dim p) 0); [lia|]. f_equal. rewrite Z.mul_comm. apply Z.quot_mul. lia. }
    rewrite Ei. cbn [bind]. rewrite (vget_nth w q 0%R) by (rewrite (H3 w); auto). reflexivity.
Qed.

Lemma vset_block (l cp : list R) off n : 0 <= off -> off + Z.of_nat n <= zlen l -> Z.of_nat n <= zlen cp ->
  exists l', foldM (fun l c => x <- vget cp c ;; vset l (off + c) x) (zseq 0 n) l = Ok l' /\ length l' = length l /\
    forall j, 0 <= j -> nth (Z.to_nat j) l' 0%R =
      if (off <=? j) && (j <? off + Z.of_nat n) then nth (Z.to_nat (j - off)) cp 0%R else nth (Z.to_nat j) l 0%R.
Proof.
  intros Ho. revert l; induction n as [|n IH]; intros l Hl Hc.
  - exists l. split; auto. split; auto. intros j Hj. destruct (Z.leb_spec off j), (Z.ltb_spec j (off + Z.of_nat 0)); auto; lia.
  - assert (Es : zseq 0 (S n) = zseq 0 n ++ [Z.of_nat n]).
    { rewrite !zseq_map. rewrite seq_S, map_app. cbn [map]. f_equal. }
    destruct (IH l ltac:(lia) ltac:(lia)) as (l' & E & Hlen & Hn).
    rewrite Es, foldM_app, E. cbn [bind foldM].
    rewrite (vget_nth cp (Z.of_nat n) 0%R) by lia. cbn [bind].
    rewrite vset_ok by (unfold zlen in *; rewrite Hlen; lia). cbn [bind].
    eexists. split; [reflexivity|]. split; [now rewrite upd_length|].
    intros j Hj. rewrite nth_upd by (unfold zlen in *; rewrite Hlen; lia).
    destruct (Nat.eqb_spec (Z.to_nat j) (Z.to_nat (off + Z.of_nat n))) as [Ej|Ej].
    + assert (j = off + Z.of_nat n) by lia. subst j.
      destruct (Z.leb_spec off (off + Z.of_nat n)); [|lia].
      destruct (Z.ltb_spec (off + Z.of_nat n) (off + Z.of_nat (S n))); [|lia]. cbn [andb]. f_equal. lia.
    + rewrite Hn by auto. destruct (Z.leb_spec off j); cbn [andb]; auto.
      destruct (Z.ltb_spec j (off + Z.of_nat n)); destruct (Z.ltb_spec j (off + Z.of_nat (S n))); auto; lia.
Qed.

Lemma set_cp_at p N lens idx cp : sized p N -> 0 <= get1d lens idx < N -> ph_dim p <= zlen cp ->
  exists p', set_control_point p lens idx cp = Ok p' /\ sized p' N /\ ph_dim p' = ph_dim p /\ ph_npts p' = ph_npts p /\
    ph_wts p' = ph_wts p /\
    forall q c, 0 <= q -> 0 <= c < ph_dim p ->
      cpat p' q c = if q =? get1d lens idx then nth (Z.to_nat c) cp 0%R else cpat p q c.
Proof.
  intros (H1 & H2 & H3) Hq Hcp. unfold set_control_point.
  destruct (vset_block (ph_cps p) cp (ph_dim p * get1d lens idx) (Z.to_nat (ph_dim p))) as (l' & E & Hl & Hn);
    [nia | rnorm; rewrite H2; nia | rnorm; lia|].
  rnorm. rewrite E. cbn [bind]. eexists. split; [reflexivity|].
  split; [|split; [reflexivity | split; [reflexivity | split; [reflexivity|]]]].
  - split; [auto|]. split; [|auto]. cbn [ph_cps ph_dim]. rewrite <- H2. unfold zlen. rnorm. now rewrite Hl.
  - intros q c Hq' Hc. unfold cpat. cbn [ph_cps ph_dim]. rewrite Hn by nia.
    destruct (Z.eqb_spec q (get1d lens idx)) as [->|Hne].
    + destruct (Z.leb_spec (ph_dim p * get1d lens idx) (ph_dim p * get1d lens idx + c)); [|lia].
      destruct (Z.ltb_spec (ph_dim p * get1d lens idx + c) (ph_dim p * get1d lens idx + Z.of_nat (Z.to_nat (ph_dim p)))); [|lia].
      cbn [andb]. f_equal. lia.
    + destruct (Z.leb_spec (ph_dim p * get1d lens idx) (ph_dim p * q + c)); cbn [andb]; auto.
      destruct (Z.ltb_spec (ph_dim p * q + c) (ph_dim p * get1d lens idx + Z.of_nat (Z.to_nat (ph_dim p)))); auto.
      exfalso. apply Hne. assert (q < get1d lens idx + 1) by nia. assert (get1d lens idx < q + 1) by nia. lia.
Qed.

Lemma set_w_at p N lens idx x : sized p N -> 0 <= get1d lens idx < N -> is_weighted p = true ->
  exists p', set_weight p lens idx x = Ok p' /\ sized p' N /\ ph_dim p' = ph_dim p /\ ph_npts p' = ph_npts p /\
    is_weighted p' = true /\ ph_cps p' = ph_cps p /\
    forall q, 0 <= q -> wat p' q = if q =? get1d lens idx then x else wat p q.
Proof.
  intros (H1 & H2 & H3) Hq Hw. unfold set_weight, is_weighted, wat in *. destruct (ph_wts p) as [w|] eqn:Ew; [|discriminate].
  specialize (H3 w eq_refl). rnorm. rewrite vset_ok by lia. cbn [bind]. eexists. split; [reflexivity|].
  split; [|repeat (split; [reflexivity|])].
  - split; [auto|]. split; auto. cbn [ph_wts]. intros w' E. inversion E; subst. now rewrite zlen_upd.
  - cbn [ph_wts]. intros q Hq'. rewrite nth_upd by (unfold zlen in H3; lia).
    destruct (Nat.eqb_spec (Z.to_nat q) (Z.to_nat (get1d lens idx))); destruct (Z.eqb_spec q (get1d lens idx)); auto; lia.
Qed.
End Phys.
