(* Facts about the multi-index handler model. *)
From Coq Require Import ZArith List Bool Lia.
From Verif Require Import Base MultiIndex MultiIndexSpec.
Import ListNotations.
Open Scope Z_scope.


Lemma in_box_length : forall lens idx, in_box lens idx -> length idx = length lens.
Proof. intros lens idx H; induction H; cbn; congruence. Qed.

Lemma in_box_pos : forall lens idx, in_box lens idx -> pos_lens lens.
Proof. intros lens idx H; induction H; constructor; auto; lia. Qed.

Lemma in_box_origin : forall lens, pos_lens lens -> in_box lens (origin lens).
Proof. intros lens H; induction H; constructor; auto; lia. Qed.

Lemma total_pos : forall lens, pos_lens lens -> 1 <= total lens.
Proof. intros lens H; induction H; cbn; [lia|]. unfold total in *. nia. Qed.

Lemma total_cons : forall l ls, total (l :: ls) = l * total ls.
Proof. reflexivity. Qed.

Lemma get1d_from_scale : forall lens idx s, get1d_from s lens idx = s * get1d lens idx.
Proof.
  unfold get1d.
  induction lens as [|l ls IH]; intros [|i is] s; cbn [get1d_from]; try lia.
  rewrite (IH is (s * l)), (IH is (1 * l)). ring.
Qed.

Lemma get1d_cons : forall l ls i is, get1d (l :: ls) (i :: is) = i + l * get1d ls is.
Proof.
  intros. unfold get1d at 1. cbn [get1d_from]. rewrite get1d_from_scale. lia.
Qed.

Lemma get1d_nil : forall idx, get1d [] idx = 0.
Proof. destruct idx; reflexivity. Qed.

Lemma get1d_nil_r : forall lens, get1d lens [] = 0.
Proof. destruct lens; reflexivity. Qed.

Lemma get1d_range : forall lens idx, in_box lens idx -> 0 <= get1d lens idx < total lens.
Proof.
  intros lens idx H; induction H as [|l i ls is Hi H IH].
  - rewrite get1d_nil. cbn. lia.
  - rewrite get1d_cons, total_cons. nia.
Qed.

Lemma get1d_inj : forall lens i1 i2, in_box lens i1 -> in_box lens i2 ->
  get1d lens i1 = get1d lens i2 -> i1 = i2.
Proof.
  intros lens i1 i2 H; revert i2; induction H as [|l i ls is Hi H IH]; intros i2 H2 E.
  - inversion H2; auto.
  - inversion H2 as [|? j ? js Hj HJ]; subst. rewrite !get1d_cons in E.
    assert (Hq : get1d ls is = get1d ls js /\ i = j).
    { destruct (Z.lt_trichotomy (get1d ls is) (get1d ls js)) as [L|[L|L]]; [nia| |nia].
      rewrite L in E. split; [auto|lia]. }
    destruct Hq as [E1 ->]. f_equal. apply IH; auto.
Qed.

Lemma get1d_surj : forall lens k, pos_lens lens -> 0 <= k < total lens ->
  exists idx, in_box lens idx /\ get1d lens idx = k.
Proof.
  intros lens k H; revert k; induction H as [|l ls Hl H IH]; intros k Hk.
  - cbn in Hk. exists []. split; [constructor|]. rewrite get1d_nil. lia.
  - rewrite total_cons in Hk.
    assert (Hm : 0 <= k mod l < l) by (apply Z.mod_pos_bound; lia).
    assert (Hd : k = l * (k / l) + k mod l) by (apply Z.div_mod; lia).
    destruct (IH (k / l)) as (idx & Hb & Hg).
    { split. apply Z.div_pos; lia. apply Z.div_lt_upper_bound; lia. }
    exists (k mod l :: idx). split; [constructor; auto; lia|].
    rewrite get1d_cons, Hg. lia.
Qed.

Lemma get1d_origin : forall lens, get1d lens (origin lens) = 0.
Proof.
  induction lens; cbn [origin map]; [reflexivity|]. rewrite get1d_cons.
  unfold origin in IHlens. rewrite IHlens. lia.
Qed.

Lemma incr_box : forall lens cur, in_box lens cur -> in_box lens (incr lens cur).
Proof.
  intros lens cur H; induction H as [|l c ls cs Hc H IH]; cbn; [constructor|].
  destruct (Z.eqb_spec c (l - 1)); destruct (Z.eqb_spec l 0); cbn;
    constructor; auto; lia.
Qed.

Lemma decr_box : forall lens cur, in_box lens cur -> in_box lens (decr lens cur).
Proof.
  intros lens cur H; induction H as [|l c ls cs Hc H IH]; cbn; [constructor|].
  destruct (Z.eqb_spec c 0); constructor; auto; lia.
Qed.

(* one step of ++ : the linear index advances by one, or wraps to the origin *)
Lemma incr_get1d : forall lens cur, in_box lens cur ->
  (get1d lens cur < total lens - 1 /\ get1d lens (incr lens cur) = get1d lens cur + 1) \/
  (get1d lens cur = total lens - 1 /\ incr lens cur = origin lens).
Proof.
  intros lens cur H; induction H as [|l c ls cs Hc H IH]; cbn [incr].
  - right. split; reflexivity.
  - rewrite get1d_cons, total_cons.
    assert (R := get1d_range _ _ H).
    destruct (Z.eqb_spec c (l - 1)) as [E|E]; destruct (Z.eqb_spec l 0) as [E0|E0]; cbn [orb].
    + lia.
    + destruct IH as [[IH1 IH2]|[IH1 IH2]].
      * left. split; [nia|]. rewrite get1d_cons, IH2. subst c. nia.
      * right. split; [subst c; rewrite IH1; nia|]. rewrite IH2. reflexivity.
    + lia.
    + left. split; [nia|]. rewrite get1d_cons. lia.
Qed.

Lemma decr_incr : forall lens cur, in_box lens cur -> decr lens (incr lens cur) = cur.
Proof.
  intros lens cur H; induction H as [|l c ls cs Hc H IH]; cbn [incr decr]; auto.
  destruct (Z.eqb_spec c (l - 1)) as [E|E]; destruct (Z.eqb_spec l 0) as [E0|E0]; cbn [orb decr]; try lia.
  - rewrite Z.eqb_refl. rewrite IH. f_equal; lia.
  - destruct (Z.eqb_spec (c + 1) 0); [lia|]. f_equal; lia.
Qed.

Lemma incr_decr : forall lens cur, in_box lens cur -> incr lens (decr lens cur) = cur.
Proof.
  intros lens cur H; induction H as [|l c ls cs Hc H IH]; cbn [incr decr]; auto.
  destruct (Z.eqb_spec c 0) as [E|E]; cbn [incr].
  - rewrite Z.eqb_refl. cbn [orb]. rewrite IH. f_equal; lia.
  - destruct (Z.eqb_spec (c - 1) (l - 1)) as [E1|E1]; destruct (Z.eqb_spec l 0) as [E0|E0]; cbn [orb]; try lia.
    f_equal; lia.
Qed.

(* iteration *)
Lemma iterate_succ_r : forall A k (f : A -> A) x, iterate (S k) f x = iterate k f (f x).
Proof. induction k; intros; cbn in *; auto. rewrite IHk. reflexivity. Qed.

Lemma iter_incr_mlen : forall k h, mlen (iterate k mih_incr h) = mlen h.
Proof. induction k; intros; cbn; auto. Qed.
Lemma iter_decr_mlen : forall k h, mlen (iterate k mih_decr h) = mlen h.
Proof. induction k; intros; cbn; auto. Qed.

Lemma iter_incr_box : forall k h, in_box (mlen h) (mcur h) ->
  in_box (mlen h) (mcur (iterate k mih_incr h)).
Proof.
  induction k; intros h H; cbn; auto.
  rewrite iter_incr_mlen. apply incr_box. auto.
Qed.

Lemma iter_incr_get1d : forall k h, in_box (mlen h) (mcur h) ->
  Z.of_nat k + mih_get1d h < total (mlen h) ->
  mih_get1d (iterate k mih_incr h) = mih_get1d h + Z.of_nat k.
Proof.
  induction k; intros h H L; [cbn [iterate]; lia|].
  cbn [iterate].
  unfold mih_get1d. cbn [mih_incr mlen mcur]. rewrite !iter_incr_mlen.
  pose proof (iter_incr_box k h H) as Hb.
  assert (IH := IHk h H). unfold mih_get1d in IH, L. rewrite iter_incr_mlen in IH.
  destruct (incr_get1d _ _ Hb) as [[A B]|[A B]].
  - rewrite B. rewrite IH; lia.
  - rewrite IH in A by lia. lia.
Qed.


Lemma nth_index_box : forall lens k, pos_lens lens -> in_box lens (nth_index lens k).
Proof.
  intros. unfold nth_index. apply (iter_incr_box k (mih_new lens)). cbn. apply in_box_origin; auto.
Qed.

Lemma nth_index_get1d : forall lens k, pos_lens lens -> Z.of_nat k < total lens ->
  get1d lens (nth_index lens k) = Z.of_nat k.
Proof.
  intros lens k H L. pose proof (iter_incr_get1d k (mih_new lens)) as G.
  assert (E0 : mih_get1d (mih_new lens) = 0) by (unfold mih_get1d; cbn; apply get1d_origin).
  rewrite E0 in G. cbn [mlen mcur mih_new] in G.
  unfold mih_get1d in G at 1. rewrite iter_incr_mlen in G. cbn [mlen mih_new] in G.
  unfold nth_index. rewrite G; [lia|apply in_box_origin; auto|lia].
Qed.

Lemma nth_index_wrap : forall lens, pos_lens lens ->
  nth_index lens (Z.to_nat (total lens)) = origin lens.
Proof.
  intros lens H. pose proof (total_pos _ H) as T.
  replace (Z.to_nat (total lens)) with (S (Z.to_nat (total lens - 1))) by lia.
  unfold nth_index. cbn [iterate mih_incr mcur].
  change (nat_rect (fun _ => mih) (mih_new lens) (fun _ => mih_incr) (Z.to_nat (total lens - 1)))
    with (iterate (Z.to_nat (total lens - 1)) mih_incr (mih_new lens)).
  rewrite iter_incr_mlen. cbn [mlen mih_new].
  fold (nth_index lens (Z.to_nat (total lens - 1))).
  destruct (incr_get1d lens (nth_index lens (Z.to_nat (total lens - 1)))) as [[A B]|[A B]].
  - apply nth_index_box; auto.
  - rewrite nth_index_get1d in A by (auto; lia). lia.
  - auto.
Qed.

Lemma nth_index_of_get1d : forall lens idx, in_box lens idx ->
  nth_index lens (Z.to_nat (get1d lens idx)) = idx.
Proof.
  intros lens idx H. pose proof (in_box_pos _ _ H) as P. pose proof (get1d_range _ _ H) as R.
  apply (get1d_inj lens); auto. apply nth_index_box; auto.
  rewrite nth_index_get1d; auto; lia.
Qed.


Lemma visited_NoDup : forall lens, pos_lens lens -> NoDup (visited lens).
Proof.
  intros lens H. unfold visited.
  apply NoDup_nth_error. intros i j Hi E.
  rewrite map_length, seq_length in Hi.
  rewrite !nth_error_map in E.
  assert (Ei : nth_error (seq 0 (Z.to_nat (total lens))) i = Some i).
  { rewrite (nth_error_nth' _ 0%nat) by (rewrite seq_length; lia). rewrite seq_nth by lia. reflexivity. }
  rewrite Ei in E. cbn in E.
  destruct (Nat.lt_ge_cases j (Z.to_nat (total lens))) as [Lj|Lj].
  - assert (Ej : nth_error (seq 0 (Z.to_nat (total lens))) j = Some j).
    { rewrite (nth_error_nth' _ 0%nat) by (rewrite seq_length; lia). rewrite seq_nth by lia. reflexivity. }
    rewrite Ej in E. cbn in E. injection E as E.
    apply (f_equal (get1d lens)) in E. rewrite !nth_index_get1d in E; auto; lia.
  - assert (Ej : nth_error (seq 0 (Z.to_nat (total lens))) j = None).
    { apply nth_error_None. rewrite seq_length. lia. }
    rewrite Ej in E. discriminate.
Qed.

Lemma visited_In : forall lens idx, pos_lens lens -> (In idx (visited lens) <-> in_box lens idx).
Proof.
  intros lens idx H. unfold visited. rewrite in_map_iff. split.
  - intros (k & <- & _). apply nth_index_box; auto.
  - intros Hb. exists (Z.to_nat (get1d lens idx)). split.
    + apply nth_index_of_get1d; auto.
    + apply in_seq. pose proof (get1d_range _ _ Hb). lia.
Qed.

(* + n then - n *)
Lemma mih_decr_incr : forall h, in_box (mlen h) (mcur h) -> mih_decr (mih_incr h) = h.
Proof.
  intros [lens cur] H. unfold mih_decr, mih_incr; cbn [mlen mcur] in *. rewrite decr_incr; auto.
Qed.

Lemma mih_incr_decr : forall h, in_box (mlen h) (mcur h) -> mih_incr (mih_decr h) = h.
Proof.
  intros [lens cur] H. unfold mih_decr, mih_incr; cbn [mlen mcur] in *. rewrite incr_decr; auto.
Qed.

Lemma iter_decr_incr : forall k h, in_box (mlen h) (mcur h) ->
  iterate k mih_decr (iterate k mih_incr h) = h.
Proof.
  induction k; intros h H; [reflexivity|].
  rewrite iterate_succ_r. cbn [iterate].
  rewrite mih_decr_incr; auto. rewrite iter_incr_mlen. apply iter_incr_box; auto.
Qed.

Lemma iter_decr_box : forall k h, in_box (mlen h) (mcur h) ->
  in_box (mlen h) (mcur (iterate k mih_decr h)).
Proof.
  induction k; intros h H; cbn; auto.
  rewrite iter_decr_mlen. apply decr_box. auto.
Qed.

Lemma iter_incr_decr : forall k h, in_box (mlen h) (mcur h) ->
  iterate k mih_incr (iterate k mih_decr h) = h.
Proof.
  induction k; intros h H; [reflexivity|].
  rewrite iterate_succ_r. cbn [iterate].
  rewrite mih_incr_decr; auto. rewrite iter_decr_mlen. apply iter_decr_box; auto.
Qed.

(* Set1DIndex *)
Lemma set1d_sound : forall n h i h', set1d n h i = Some h' ->
  mih_get1d h' = i /\ mlen h' = mlen h /\ (in_box (mlen h) (mcur h) -> in_box (mlen h) (mcur h')).
Proof.
  induction n; intros h i h' H; cbn [set1d] in H; [discriminate|].
  destruct (Z.eqb_spec (mih_get1d (mih_incr h)) i) as [E|E].
  - injection H as <-. repeat split; auto. intros. apply incr_box; auto.
  - apply IHn in H. destruct H as (A & B & C). repeat split; auto.
    intros Hb. apply C. apply incr_box; auto.
Qed.

Lemma set1d_reaches : forall m h i, in_box (mlen h) (mcur h) -> 0 <= i < total (mlen h) ->
  i - mih_get1d h = Z.of_nat (S m) \/ total (mlen h) + i - mih_get1d h = Z.of_nat (S m) ->
  exists n h', set1d n h i = Some h'.
Proof.
  induction m as [m IH] using (well_founded_induction lt_wf).
  intros h i Hb Hi D.
  destruct (Z.eqb_spec (mih_get1d (mih_incr h)) i) as [E|E].
  { exists 1%nat, (mih_incr h). cbn [set1d]. rewrite (proj2 (Z.eqb_eq _ _) E). reflexivity. }
  assert (Hs : get1d (mlen h) (incr (mlen h) (mcur h)) = mih_get1d (mih_incr h)) by reflexivity.
  assert (exists m', (m' < m)%nat /\
     (i - mih_get1d (mih_incr h) = Z.of_nat (S m') \/ total (mlen h) + i - mih_get1d (mih_incr h) = Z.of_nat (S m'))) as (m' & Lm & D').
  { destruct (incr_get1d _ _ Hb) as [[A B]|[A B]].
    - rewrite Hs in B. change (get1d (mlen h) (mcur h)) with (mih_get1d h) in *.
      exists (pred m). destruct D as [D|D].
      + split; [|left]; lia.
      + split; [|right]; lia.
    - rewrite B, get1d_origin in Hs. change (get1d (mlen h) (mcur h)) with (mih_get1d h) in A.
      exists (Z.to_nat (i - 1)). split; [|left]; lia. }
  destruct (IH m' Lm (mih_incr h) i) as (n & h' & Hn).
  - apply incr_box; auto.
  - auto.
  - exact D'.
  - exists (S n), h'. cbn [set1d]. apply Z.eqb_neq in E. rewrite E. auto.
Qed.

(* ExtractDimension *)
Lemma get1d_app0 : forall lens idx, length lens = length idx ->
  get1d (lens ++ [0]) (idx ++ [0]) = get1d lens idx.
Proof.
  induction lens; intros [|i is] H; try discriminate; [reflexivity|].
  cbn [app]. rewrite !get1d_cons, IHlens; auto.
Qed.

Lemma remove_at_length : forall A d (l : list A), (d < length l)%nat ->
  length (remove_at d l) = pred (length l).
Proof.
  induction d; intros [|x l] H; cbn in *; try lia. rewrite IHd by lia. lia.
Qed.

Lemma in_box_remove_at : forall lens idx d, in_box lens idx ->
  in_box (remove_at d lens) (remove_at d idx).
Proof.
  intros lens idx d H; revert d; induction H as [|l i ls is Hi H IH]; intros [|d]; cbn; try constructor; auto.
  apply IH.
Qed.

Lemma extract_dimension_eq : forall h d, length (mlen h) = length (mcur h) ->
  extract_dimension h d = get1d (remove_at d (mlen h)) (remove_at d (mcur h)).
Proof.
  intros h d H. unfold extract_dimension. apply get1d_app0.
  generalize (mlen h) (mcur h) H. clear. intros l; revert d.
  induction l as [|x l IH]; intros [|d] [|y m] H; cbn in *; try discriminate; auto.
Qed.

Lemma remove_at_nth_eq : forall A (d : A) n l1 l2, (n < length l1)%nat -> length l1 = length l2 ->
  remove_at n l1 = remove_at n l2 -> nth n l1 d = nth n l2 d -> l1 = l2.
Proof.
  induction n; intros [|x l1] [|y l2] L E H1 H2; cbn in *; try lia; try congruence.
  injection H1 as -> H1. f_equal. apply IHn; auto; lia.
Qed.

Lemma difference_indices_box : forall h, in_box (mlen h) (mcur h) ->
  in_box (mlen h) (difference_indices h).
Proof.
  intros [lens cur] H. cbn in *. unfold difference_indices; cbn.
  induction H; cbn; constructor; auto; lia.
Qed.

(* assembled statements used by the property file *)
Lemma enumeration : forall lens, pos_lens lens ->
  NoDup (visited lens) /\
  (forall idx, In idx (visited lens) <-> in_box lens idx) /\
  (forall k, 0 <= k < total lens -> get1d lens (nth_index lens (Z.to_nat k)) = k) /\
  nth_index lens (Z.to_nat (total lens)) = origin lens.
Proof.
  intros lens H. repeat split.
  - apply visited_NoDup; auto.
  - apply (proj1 (visited_In lens idx H)).
  - apply (proj2 (visited_In lens idx H)).
  - intros k Hk. rewrite nth_index_get1d; auto; lia.
  - apply nth_index_wrap; auto.
Qed.

Lemma plus_minus_inverse : forall h n, in_box (mlen h) (mcur h) ->
  mih_minus (mih_plus h n) n = h /\ mih_plus (mih_minus h n) n = h /\
  mih_decr (mih_incr h) = h /\ mih_incr (mih_decr h) = h.
Proof.
  intros. unfold mih_plus, mih_minus. repeat split.
  - apply iter_decr_incr; auto.
  - apply iter_incr_decr; auto.
  - apply mih_decr_incr; auto.
  - apply mih_incr_decr; auto.
Qed.

Lemma get1d_bijective : forall lens, pos_lens lens ->
  (forall i1 i2, in_box lens i1 -> in_box lens i2 -> get1d lens i1 = get1d lens i2 -> i1 = i2) /\
  (forall idx, in_box lens idx -> 0 <= get1d lens idx < total lens) /\
  (forall k, 0 <= k < total lens -> exists idx, in_box lens idx /\ get1d lens idx = k).
Proof.
  intros lens H. split; [|split].
  - intros; eapply get1d_inj; eauto.
  - apply get1d_range.
  - intros; apply get1d_surj; auto.
Qed.

Lemma set1d_spec : forall h i, in_box (mlen h) (mcur h) ->
  (0 <= i < total (mlen h) ->
     exists n h', set1d n h i = Some h' /\ in_box (mlen h) (mcur h') /\ mlen h' = mlen h /\
                  get1d (mlen h) (mcur h') = i) /\
  (~ (0 <= i < total (mlen h)) -> forall n, set1d n h i = None).
Proof.
  intros h i Hb. split.
  - intros Hi. pose proof (get1d_range _ _ Hb) as R.
    change (get1d (mlen h) (mcur h)) with (mih_get1d h) in R.
    destruct (set1d_reaches (Z.to_nat ((if i <=? mih_get1d h then total (mlen h) else 0) + i - mih_get1d h - 1)) h i Hb Hi)
      as (n & h' & Hn).
    { destruct (Z.leb_spec i (mih_get1d h)); [right|left]; lia. }
    exists n, h'. destruct (set1d_sound _ _ _ _ Hn) as (A & B & C).
    repeat split; auto. rewrite <- B. exact A.
  - intros Hi n. destruct (set1d n h i) as [h'|] eqn:E; auto.
    exfalso. apply Hi. destruct (set1d_sound _ _ _ _ E) as (A & B & C).
    rewrite <- A. unfold mih_get1d. rewrite B. apply get1d_range; auto.
Qed.

Lemma remove_at_default : forall (d : nat) (l : list Z), (length l <= d)%nat -> remove_at d l = l.
Proof. induction d; intros [|x l] H; cbn in *; auto; try lia. rewrite IHd; auto; lia. Qed.

Lemma total_remove_at : forall lens d, (d < length lens)%nat ->
  nth d lens 0 * total (remove_at d lens) = total lens.
Proof.
  induction lens; intros [|d] H; cbn [length nth remove_at] in *; try lia.
  - reflexivity.
  - rewrite !total_cons, <- (IHlens d) by lia. ring.
Qed.

Lemma extract_dimension_spec : forall lens i1 i2 d,
  in_box lens i1 -> in_box lens i2 -> (d < length lens)%nat ->
  let e i := extract_dimension (mkMih lens i) d in
  0 <= e i1 /\ nth d lens 0 * e i1 < total lens /\
  ((forall m, m <> d -> nth m i1 0 = nth m i2 0) <-> e i1 = e i2).
Proof.
  intros lens i1 i2 d H1 H2 L e.
  assert (L1 := in_box_length _ _ H1). assert (L2 := in_box_length _ _ H2).
  assert (E1 : e i1 = get1d (remove_at d lens) (remove_at d i1)) by (apply extract_dimension_eq; cbn; auto).
  assert (E2 : e i2 = get1d (remove_at d lens) (remove_at d i2)) by (apply extract_dimension_eq; cbn; auto).
  pose proof (get1d_range _ _ (in_box_remove_at _ _ d H1)) as R.
  assert (Hn : 0 < nth d lens 0).
  { pose proof (in_box_pos _ _ H1) as P. unfold pos_lens in P.
    rewrite Forall_nth in P. specialize (P d 0 L). lia. }
  rewrite E1, E2. split; [|split].
  - lia.
  - rewrite <- (total_remove_at lens d L). nia.
  - split.
    + intros Hm. f_equal.
      assert (G : forall d (l1 l2 : list Z), length l1 = length l2 ->
                 (forall m, m <> d -> nth m l1 0 = nth m l2 0) -> remove_at d l1 = remove_at d l2).
      { clear. induction d; intros [|x l1] [|y l2] E H; cbn in *; try discriminate; auto.
        - apply (nth_ext _ _ 0 0); [lia|]. intros n _. apply (H (S n)). lia.
        - f_equal; [apply (H 0%nat); lia|]. apply IHd; [lia|]. intros m Hm. apply (H (S m)). lia. }
      apply G; [congruence|]. exact Hm.
    + intros Hg. apply get1d_inj in Hg; try (apply in_box_remove_at; auto).
      assert (G : forall d (l1 l2 : list Z), length l1 = length l2 -> remove_at d l1 = remove_at d l2 ->
                  forall m, m <> d -> nth m l1 0 = nth m l2 0).
      { clear. induction d; intros [|x l1] [|y l2] E H m Hm; cbn in *; try discriminate; auto.
        - destruct m; [lia|]. cbn. congruence.
        - injection H as -> H. destruct m; cbn; auto. }
      apply G; auto; congruence.
Qed.
