(* Derivatives of a quotient of two functions by the recursion used in nurbs.h:
   if a_m = sum_j binom(m, j) r_(m-j) W_j for all orders m, then r_(m+e_d) is the derivative of r_m. *)
From Coq Require Import ZArith List Bool Lia Reals Lra Permutation.
From Verif Require Import Base BaseFacts RSum BSplineTheory MultiIndex MultiIndexSpec MultiIndexFacts TensorSum SplineEval.
Import ListNotations.
Open Scope Z_scope.

Definition addone (d : nat) (m : list Z) : list Z := upd m d (nth d m 0 + 1).
Definition orders (m : list Z) : list (list Z) := visited (map (fun k => k + 1) m).
Definition osum (m : list Z) : Z := fold_right Z.add 0 m.
Definition nonneg_orders (m : list Z) : Prop := Forall (fun k => 0 <= k) m.
Definition bin (n : Z) (i : Z) : R := IZR (binom (Z.to_nat n) (Z.to_nat i)).

(* ---- binomial coefficients ---- *)
Lemma binom_0 n : binom n 0 = 1.
Proof. destruct n; reflexivity. Qed.
Lemma binom_nn n : binom n n = 1.
Proof. induction n; cbn; auto. now rewrite Nat.eqb_refl. Qed.

Lemma pascal (g : Z -> R) n :
  lsum (fun i => bin (Z.of_nat n) i * (g i + g (i + 1)%Z))%R (zseq 0 (S n)) =
  lsum (fun i => bin (Z.of_nat n + 1) i * g i)%R (zseq 0 (S (S n))).
Proof.
  rewrite (lsum_ext _ (fun i => bin (Z.of_nat n) i * g i + bin (Z.of_nat n) i * g (i + 1)%Z)%R) by (intros; ring).
  rewrite lsum_plus.
  (* first sum: split off i = 0; second: split off i = n *)
  change (zseq 0 (S (S n))) with (0 :: zseq (0 + 1) (S n)). cbn [lsum].
  rewrite lsum_zseq_shift.
  change (zseq 0 (S n)) with (0 :: zseq (0 + 1) n) at 1. cbn [lsum]. rewrite lsum_zseq_shift.
  rewrite !(lsum_zseq_S _ 0 n).
  assert (E : lsum (fun i => bin (Z.of_nat n + 1) (i + 1) * g (i + 1)%Z)%R (zseq 0 n) =
              (lsum (fun i => bin (Z.of_nat n) (i + 1) * g (i + 1)%Z) (zseq 0 n) +
              lsum (fun i => bin (Z.of_nat n) i * g (i + 1)%Z) (zseq 0 n))%R).
  { rewrite <- lsum_plus. apply lsum_ext. intros i Hi. apply zseq_In in Hi. unfold bin.
    replace (Z.to_nat (Z.of_nat n + 1)) with (S n) by lia. replace (Z.to_nat (i + 1)) with (S (Z.to_nat i)) by lia.
    rewrite Nat2Z.id. cbn [binom]. destruct (Nat.eqb_spec n (Z.to_nat i)) as [C|C]; [lia|].
    rewrite plus_IZR. ring. }
  rewrite E. unfold bin.
  replace (Z.to_nat (Z.of_nat n + 1)) with (S n) by lia. change (Z.to_nat 0) with 0%nat. rewrite !Nat2Z.id, !binom_0.
  replace (Z.to_nat (0 + Z.of_nat n + 1)) with (S n) by lia. replace (Z.to_nat (0 + Z.of_nat n)) with n by lia.
  rewrite !binom_nn. ring.
Qed.

Lemma binoms_prodf m j : length m = length j -> IZR (binoms m j) = prodf (map bin m) j.
Proof.
  intros H. unfold binoms.
  assert (G : forall a, IZR (fold_left (fun bc x => bc * binom (Z.to_nat (fst x)) (Z.to_nat (snd x))) (combine m j) a) =
              (IZR a * prodf (map bin m) j)%R).
  { revert j H; induction m as [|n m IH]; intros [|i j] H a; try discriminate; cbn [combine fold_left map prodf]; [ring|].
    rewrite IH by (now inversion H). cbn [fst snd]. rewrite mult_IZR. unfold bin. ring. }
  rewrite G. ring.
Qed.

Lemma map_upd {A B} (f : A -> B) l d a : map f (upd l d a) = upd (map f l) d (f a).
Proof. revert d; induction l as [|x l IH]; intros [|d]; cbn; auto. now rewrite IH. Qed.

Lemma orders_pos m : nonneg_orders m -> pos_lens (map (fun k => k + 1) m).
Proof. intros H. unfold pos_lens. induction H; cbn; constructor; auto. lia. Qed.

Lemma orders_In m j : nonneg_orders m -> (In j (orders m) <-> Forall2 (fun k i => 0 <= i <= k) m j).
Proof.
  intros H. unfold orders. rewrite visited_In by now apply orders_pos. unfold in_box.
  clear H. revert j; induction m as [|k m IH]; intros j; cbn [map].
  - split; intros H; inversion H; constructor.
  - split; intros H; inversion H; subst; constructor; try lia; now apply IH.
Qed.

Definition oranges (m : list Z) : list (list Z) := map (fun k => zseq 0 (Z.to_nat (k + 1))) m.

Lemma orders_tsum m c : nonneg_orders m ->
  lsum (fun j => IZR (binoms m j) * c j)%R (orders m) = tsum (map bin m) (oranges m) c.
Proof.
  intros H. unfold orders. rewrite (lsum_perm _ _ _ (visited_perm _ (orders_pos m H))).
  rewrite <- tsum_boxl by (unfold oranges; now rewrite !map_length).
  unfold oranges. rewrite map_map. apply lsum_ext. intros j Hj. rewrite binoms_prodf; auto.
  apply boxl_length in Hj. rewrite map_length in Hj. auto.
Qed.

Lemma pascal_multi m d c : nonneg_orders m -> (d < length m)%nat ->
  lsum (fun j => IZR (binoms m j) * (c j + c (addone d j)))%R (orders m) =
  lsum (fun j => IZR (binoms (addone d m) j) * c j)%R (orders (addone d m)).
Proof.
  intros H Hd.
  assert (H' : nonneg_orders (addone d m)).
  { unfold nonneg_orders, addone in *. rewrite Forall_forall in *. intros x Hx.
    apply In_nth with (d := 0) in Hx as (k & Hk & <-). rewrite upd_length in Hk. rewrite nth_upd by auto.
    destruct (Nat.eqb k d); [specialize (H (nth d m 0) (nth_In _ _ Hd)); lia | apply H, nth_In; auto]. }
  rewrite !orders_tsum by auto. unfold addone at 2 3. unfold oranges. rewrite !map_upd.
  apply tsum_dir; rewrite ?map_length; auto.
  intros r Hr. assert (Hlen : (d <= length r)%nat).
  { apply boxl_length in Hr. rewrite remove_at_length in Hr by (now rewrite map_length). rewrite map_length in Hr. lia. }
  rewrite (nth_map_in bin m d 0) by auto. rewrite (nth_map_in _ m d 0) by auto.
  assert (Hn : 0 <= nth d m 0) by (unfold nonneg_orders in H; rewrite Forall_forall in H; apply H, nth_In; auto).
  pose proof (pascal (fun i => c (insat d i r)) (Z.to_nat (nth d m 0))) as P.
  rewrite Z2Nat.id in P by auto.
  replace (Z.to_nat (nth d m 0 + 1)) with (S (Z.to_nat (nth d m 0))) by lia.
  replace (Z.to_nat (nth d m 0 + 1 + 1)) with (S (S (Z.to_nat (nth d m 0)))) by lia.
  rewrite <- P. apply lsum_ext. intros i _. unfold addone. rewrite insat_nth, insat_upd by auto. reflexivity.
Qed.

(* ---- derivatives of finite sums ---- *)
Lemma lsum_derivable {A} (f : A -> R -> R) (f' : A -> R) l u :
  (forall a, In a l -> derivable_pt_lim (f a) u (f' a)) ->
  derivable_pt_lim (fun v => lsum (fun a => f a v) l) u (lsum f' l).
Proof.
  induction l as [|a l IH]; intros H; cbn [lsum].
  - apply derivable_pt_lim_const.
  - apply (derivable_pt_lim_plus (f a) (fun v => lsum (fun a => f a v) l)).
    + apply H; now left.
    + apply IH. intros; apply H; now right.
Qed.

Lemma derivable_scal_l c (f : R -> R) u l : derivable_pt_lim f u l -> derivable_pt_lim (fun v => c * f v)%R u (c * l)%R.
Proof. intros H. apply (derivable_pt_lim_scal f c u l H). Qed.

(* visited starts with the origin *)
Lemma visited_cons lens : pos_lens lens -> exists t, visited lens = origin lens :: t.
Proof.
  intros H. pose proof (total_pos _ H). unfold visited.
  destruct (Z.to_nat (total lens)) as [|n] eqn:E; [lia|]. cbn [seq map]. eexists. reflexivity.
Qed.

Lemma origin_orders m : origin (map (fun k => k + 1) m) = origin m.
Proof. unfold origin. now rewrite map_map. Qed.

Lemma sub_origin m : map2 Z.sub m (origin m) = m.
Proof. unfold origin. induction m as [|k m IH]; cbn [map map2]; auto. rewrite IH. f_equal. lia. Qed.

Lemma binoms_origin m : binoms m (origin m) = 1.
Proof.
  unfold binoms, origin. assert (G : forall a, fold_left (fun bc x => bc * binom (Z.to_nat (fst x)) (Z.to_nat (snd x)))
     (combine m (map (fun _ => 0) m)) a = a).
  { induction m as [|k m IH]; intros a; cbn [map combine fold_left]; auto. cbn [fst snd].
    change (Z.to_nat 0) with 0%nat. rewrite binom_0, IH. lia. }
  apply G.
Qed.

Lemma orders_tail m : nonneg_orders m -> exists t, orders m = origin m :: t /\ tl (orders m) = t /\
  forall j, In j t -> Forall2 (fun k i => 0 <= i <= k) m j /\ 0 < osum j.
Proof.
  intros H. destruct (visited_cons _ (orders_pos m H)) as (t & E). rewrite origin_orders in E.
  exists t. unfold orders. split; [exact E|]. split; [now rewrite E|].
  intros j Hj. assert (Hin : In j (orders m)) by (unfold orders; rewrite E; now right).
  apply orders_In in Hin as Hb; auto. split; auto.
  pose proof (visited_NoDup _ (orders_pos m H)) as Hnd. rewrite E in Hnd. inversion Hnd as [|? ? Hni _]; subst.
  assert (Hne : j <> origin m) by (intros ->; contradiction).
  clear - Hb Hne. unfold osum. induction Hb as [|k i m j Hi Hb IH]; cbn [fold_right]; [exfalso; apply Hne; reflexivity|].
  assert (Hs : 0 <= fold_right Z.add 0 j).
  { clear - Hb. induction Hb; cbn; lia. }
  destruct (Z.eq_dec i 0) as [->|]; [|lia].
  assert (0 < fold_right Z.add 0 j); [|lia]. apply IH. intros ->. apply Hne. reflexivity.
Qed.

Lemma osum_sub m j : Forall2 (fun k i => 0 <= i <= k) m j ->
  osum (map2 Z.sub m j) = osum m - osum j /\ nonneg_orders (map2 Z.sub m j) /\ length (map2 Z.sub m j) = length m.
Proof.
  unfold osum, nonneg_orders. induction 1 as [|k i m j Hi H (IH1 & IH2 & IH3)]; cbn [map2 fold_right length].
  - repeat split; constructor.
  - split; [lia|]. split; [constructor; auto; lia | lia].
Qed.

Lemma addone_length d m : length (addone d m) = length m.
Proof. apply upd_length. Qed.

Lemma sub_addone_l d m j : (d < length m)%nat -> length j = length m ->
  map2 Z.sub (addone d m) j = addone d (map2 Z.sub m j).
Proof.
  unfold addone. revert m j; induction d as [|d IH]; intros [|k m] [|i j] H1 H2; cbn [length] in *; try lia; cbn [nth upd map2].
  - f_equal. lia.
  - f_equal. apply IH; lia.
Qed.

Lemma sub_addone_lr d m j : (d < length m)%nat -> length j = length m ->
  map2 Z.sub (addone d m) (addone d j) = map2 Z.sub m j.
Proof.
  unfold addone. revert m j; induction d as [|d IH]; intros [|k m] [|i j] H1 H2; cbn [length] in *; try lia; cbn [nth upd map2].
  - f_equal. lia.
  - f_equal. apply IH; lia.
Qed.

Lemma Forall2_len {A B} (P : A -> B -> Prop) l1 l2 : Forall2 P l1 l2 -> length l1 = length l2.
Proof. induction 1; cbn; auto. Qed.

Section Quotient.
Variables (n d : nat) (u0 delta : R).
Hypothesis Hd : (d < n)%nat.
Hypothesis Hdelta : (0 < delta)%R.
Variables a W r : list Z -> R -> R.
Definition valid (m : list Z) : Prop := length m = n /\ nonneg_orders m.
Hypothesis Ha : forall m, valid m -> derivable_pt_lim (a m) u0 (a (addone d m) u0).
Hypothesis HW : forall m, valid m -> derivable_pt_lim (W m) u0 (W (addone d m) u0).
Definition zeros : list Z := repeat 0 n.
Hypothesis HW0 : forall v, (Rabs (v - u0) < delta)%R -> W zeros v <> 0%R.
Hypothesis Hid : forall v m, (Rabs (v - u0) < delta)%R -> valid m ->
  a m v = lsum (fun j => IZR (binoms m j) * (r (map2 Z.sub m j) v * W j v))%R (orders m).

Lemma origin_zeros m : length m = n -> origin m = zeros.
Proof.
  intros H. unfold zeros. rewrite <- H. clear. unfold origin. induction m as [|x m IH]; cbn; auto. now rewrite IH.
Qed.

Lemma valid_addone m : valid m -> valid (addone d m).
Proof.
  intros [H1 H2]. split; [now rewrite addone_length|].
  unfold nonneg_orders, addone in *. rewrite Forall_forall in *. intros x Hx.
  apply In_nth with (d := 0) in Hx as (k & Hk & <-). rewrite upd_length in Hk. rewrite nth_upd by lia.
  destruct (Nat.eqb k d).
  - assert (0 <= nth d m 0) by (apply H2, nth_In; lia). lia.
  - apply H2, nth_In; auto.
Qed.

Lemma quotient_derivable : forall m, valid m -> derivable_pt_lim (r m) u0 (r (addone d m) u0).
Proof.
  assert (G : forall N m, osum m < Z.of_nat N -> valid m -> derivable_pt_lim (r m) u0 (r (addone d m) u0)).
  2:{ intros m Hm. apply (G (Z.to_nat (osum m + 1))); auto. lia. }
  induction N as [|N IH]; intros m Hs Hm.
  { exfalso. destruct Hm as [_ Hm]. assert (0 <= osum m); [|lia]. clear - Hm. unfold osum. induction Hm; cbn; lia. }
  destruct Hm as [Hlen Hnn]. destruct (orders_tail m Hnn) as (t & Et & _ & Ht).
  assert (H0 : (Rabs (u0 - u0) < delta)%R) by (rewrite Rminus_diag_eq by reflexivity; now rewrite Rabs_R0).
  (* the derivative of the tail, by induction *)
  assert (Htail : derivable_pt_lim (fun v => lsum (fun j => IZR (binoms m j) * (r (map2 Z.sub m j) v * W j v))%R t) u0
     (lsum (fun j => IZR (binoms m j) * (r (addone d (map2 Z.sub m j)) u0 * W j u0 + r (map2 Z.sub m j) u0 * W (addone d j) u0))%R t)).
  { apply lsum_derivable. intros j Hj. destruct (Ht j Hj) as [Hb Hp]. destruct (osum_sub m j Hb) as (E1 & E2 & E3).
    apply derivable_scal_l. apply (derivable_pt_lim_mult (r (map2 Z.sub m j)) (W j)).
    - apply IH; [lia|]. split; auto. lia.
    - apply HW. split; [rewrite <- Hlen; symmetry; eapply Forall2_len; eauto|].
      clear - Hb. unfold nonneg_orders. induction Hb; constructor; auto. lia. }
  (* r m as a quotient near u0 *)
  assert (Hq : forall v, (Rabs (v - u0) < delta)%R ->
     ((a m v - lsum (fun j => IZR (binoms m j) * (r (map2 Z.sub m j) v * W j v)) t) / W zeros v)%R = r m v).
  { intros v Hv. rewrite (Hid v m Hv) by (split; auto). rewrite Et. cbn [lsum].
    rewrite binoms_origin, sub_origin, (origin_zeros m Hlen). field. auto. }
  set (num := fun v => (a m v - lsum (fun j => IZR (binoms m j) * (r (map2 Z.sub m j) v * W j v)) t)%R).
  assert (Hnum : derivable_pt_lim num u0 (a (addone d m) u0 -
     lsum (fun j => IZR (binoms m j) * (r (addone d (map2 Z.sub m j)) u0 * W j u0 + r (map2 Z.sub m j) u0 * W (addone d j) u0)) t)%R).
  { apply (derivable_pt_lim_minus (a m) (fun v => lsum _ t)); auto. apply Ha. split; auto. }
  assert (Hz : valid zeros).
  { split; [apply repeat_length|]. unfold nonneg_orders. apply Forall_forall. intros x Hx. apply repeat_spec in Hx. lia. }
  pose proof (derivable_pt_lim_div num (W zeros) u0 _ _ Hnum (HW zeros Hz) (HW0 u0 H0)) as Hdiv.
  eapply derivable_local in Hdiv; [|exact Hdelta|].
  2:{ intros v Hv. unfold div_fct, num. apply Hq. exact Hv. }
  (* identify the value *)
  match type of Hdiv with derivable_pt_lim _ _ ?D => replace (r (addone d m) u0) with D; [exact Hdiv|] end.
  pose proof (Hid u0 (addone d m) H0 (valid_addone m (conj Hlen Hnn))) as E.
  rewrite <- (pascal_multi m d (fun j => r (map2 Z.sub (addone d m) j) u0 * W j u0)%R Hnn) in E by lia.
  rewrite Et in E. cbn [lsum] in E. rewrite binoms_origin in E.
  assert (Eo : length (origin m) = length m) by (unfold origin; apply map_length).
  rewrite sub_addone_lr in E by (auto; lia). rewrite sub_addone_l in E by (auto; lia). rewrite sub_origin in E.
  rewrite (origin_zeros m Hlen) in E.
  assert (Etl : lsum (fun j => IZR (binoms m j) * (r (map2 Z.sub (addone d m) j) u0 * W j u0 + r (map2 Z.sub (addone d m) (addone d j)) u0 * W (addone d j) u0))%R t
      = lsum (fun j => IZR (binoms m j) * (r (addone d (map2 Z.sub m j)) u0 * W j u0 + r (map2 Z.sub m j) u0 * W (addone d j) u0))%R t).
  { apply lsum_ext. intros j Hj. destruct (Ht j Hj) as [Hb _]. apply Forall2_len in Hb.
    rewrite sub_addone_l, sub_addone_lr by lia. reflexivity. }
  rewrite Etl in E. rewrite E. specialize (Hq u0 H0). fold (num u0) in Hq.
  rewrite <- Hq. unfold Rsqr. field. apply HW0. exact H0.
Qed.
End Quotient.
