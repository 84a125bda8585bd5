(* Knot vectors as runs of equal knots (C83). *)
From Coq Require Import ZArith List Bool Lia Reals Lra.
From Verif Require Import Base BaseFacts KnotVec KnotVecSpec KnotVecFacts SpacesSpec InsertKnots UniqueSpec SplineDegree.
Import ListNotations.
Open Scope Z_scope.

(* runs: a knot and its number of copies *)
Definition expand (rs : list (R * nat)) : list R := flat_map (fun r => repeat (fst r) (snd r)) rs.
Fixpoint chain (a : R) (rs : list (R * nat)) (b : R) : Prop :=
  match rs with
  | [] => (a < b)%R
  | r :: t => (a < fst r)%R /\ (1 <= snd r)%nat /\ chain (fst r) t b
  end.
Definition of_runs (p : Z) (a : R) (rs : list (R * nat)) (b : R) : list R :=
  repeat a (Z.to_nat p + 1) ++ expand rs ++ repeat b (Z.to_nat p + 1).

Lemma expand_app r1 r2 : expand (r1 ++ r2) = expand r1 ++ expand r2.
Proof. apply flat_map_app. Qed.
Lemma expand_cons x m rs : expand ((x, m) :: rs) = repeat x m ++ expand rs.
Proof. reflexivity. Qed.

Lemma chain_lt a rs b : chain a rs b -> (a < b)%R.
Proof. revert a. induction rs as [|[x m] rs IH]; intros a H; cbn [chain fst snd] in *; auto. destruct H as (H1 & _ & H2). apply IH in H2. lra. Qed.
Lemma chain_between a rs b : chain a rs b -> Forall (fun x => (a < x < b)%R) (expand rs).
Proof.
  revert a. induction rs as [|[x m] rs IH]; intros a H; [constructor|]. destruct H as (H1 & H2 & H3). cbn [fst snd] in *. rewrite expand_cons.
  pose proof (chain_lt _ _ _ H3). apply Forall_app. split.
  - apply Forall_forall. intros y Hy. apply repeat_spec in Hy. subst. lra.
  - eapply Forall_impl; [|apply (IH x H3)]. cbv beta. intros; lra.
Qed.
Lemma chain_split a r1 x m r2 b : chain a (r1 ++ (x, m) :: r2) b -> chain a r1 x /\ (1 <= m)%nat /\ chain x r2 b.
Proof.
  revert a. induction r1 as [|[y k] r1 IH]; intros a H.
  - cbn [app chain fst snd] in *. tauto.
  - cbn [app chain fst snd] in *. destruct H as (H1 & H2 & H3). destruct (IH y H3) as (A & B & C). tauto.
Qed.
Lemma chain_join a r1 x m r2 b : chain a r1 x -> (1 <= m)%nat -> chain x r2 b -> chain a (r1 ++ (x, m) :: r2) b.
Proof.
  revert a. induction r1 as [|[y k] r1 IH]; intros a H Hm H2; cbn [app chain fst snd] in *; [tauto|].
  destruct H as (A & B & C). split; [auto|]. split; [auto|]. now apply IH.
Qed.

Lemma nth_in_repeat {A} (x d : A) n i : (i < n)%nat -> nth i (repeat x n) d = x.
Proof. revert i. induction n as [|n IH]; intros [|i] H; cbn; auto; try lia. apply IH. lia. Qed.

Lemma runs_length p a rs b : length (of_runs p a rs b) = (2 * (Z.to_nat p + 1) + length (expand rs))%nat.
Proof. unfold of_runs. rewrite !app_length, !repeat_length. lia. Qed.
Lemma runs_first p a rs b : first_knot (of_runs p a rs b) = a.
Proof. unfold first_knot, of_runs. rewrite Nat.add_comm. reflexivity. Qed.
Lemma runs_final p a rs b : final_knot (of_runs p a rs b) = b.
Proof.
  unfold final_knot. rewrite runs_length. unfold of_runs. rewrite app_nth2; rewrite repeat_length; [|lia]. rewrite app_nth2 by lia.
  apply nth_in_repeat. lia.
Qed.

(* every knot vector with full support in a clamped direction is of this kind *)
Lemma between_runs a b (l : list R) : (a < b)%R -> nondecreasing l -> Forall (fun x => (a < x < b)%R) l -> exists rs, l = expand rs /\ chain a rs b.
Proof.
  intros Hab. induction l as [|x l IH]; intros Hn Hf; [exists []; auto|].
  inversion Hf as [|? ? F1 F2]; subst.
  destruct (IH (nondecreasing_tail _ _ Hn) F2) as (rs & -> & Hc). destruct rs as [|[y m] rs].
  - exists [(x, 1%nat)]. split; [reflexivity|]. cbn [chain fst snd]. repeat split; try lra; lia.
  - destruct Hc as (C1 & C2 & C3). cbn [fst snd] in *.
    assert (Hxy : (x <= y)%R).
    { apply (nondecreasing_head x (expand ((y, m) :: rs))); auto. rewrite expand_cons. apply in_or_app. left. destruct m; [lia|]. now left. }
    destruct (Req_EM_T x y) as [->|Hne].
    + exists ((y, S m) :: rs). split; [reflexivity|]. cbn [chain fst snd]. repeat split; auto; lia.
    + exists ((x, 1%nat) :: (y, m) :: rs). split; [reflexivity|]. cbn [chain fst snd]. repeat split; auto; try lra; lia.
Qed.

Lemma nth_skipn_R (l : list R) n i : nth i (skipn n l) 0%R = nth (n + i) l 0%R.
Proof. revert l. induction n as [|n IH]; intros [|x l]; cbn; auto. destruct i; reflexivity. Qed.

Lemma runs_exist kv p : good_direction kv p -> full_support kv p ->
  exists rs, kv = of_runs p (first_knot kv) rs (final_knot kv) /\ chain (first_knot kv) rs (final_knot kv).
Proof.
  intros (Hp & [Hl Hc] & Hn & Hs & Hlt) Hf. set (n := (Z.to_nat p + 1)%nat).
  set (mid := firstn (length kv - 2 * n) (skipn n kv)).
  assert (Emid : length mid = (length kv - 2 * n)%nat) by (unfold mid; rewrite firstn_length, skipn_length; unfold n; lia).
  assert (Nmid : forall i, (i < length mid)%nat -> nth i mid 0%R = knot kv (n + i)).
  { intros i Hi. unfold mid, knot. rewrite <- (nth_skipn_R kv n i). rewrite Emid in Hi.
    rewrite <- (firstn_skipn (length kv - 2 * n) (skipn n kv)) at 2. rewrite app_nth1; [reflexivity|]. rewrite firstn_length, skipn_length. lia. }
  destruct (between_runs (first_knot kv) (final_knot kv) mid Hlt) as (rs & E & C).
  { intros i j Hij Hj. unfold knot. rewrite !Nmid by lia. apply Hn; lia. }
  { apply Forall_forall. intros x Hx. apply (In_nth _ _ 0%R) in Hx as (i & Hi & <-). rewrite Nmid by auto.
    pose proof (Hf 0%nat ltac:(unfold zlen; rewrite Emid in Hi; lia)) as F0.
    pose proof (Hf (length kv - n - 1)%nat ltac:(unfold zlen, n; rewrite Emid in Hi; lia)) as F1.
    replace (length kv - n - 1 + Z.to_nat p + 1)%nat with (length kv - 1)%nat in F1 by (unfold n in *; lia).
    replace (0 + Z.to_nat p + 1)%nat with n in F0 by (unfold n; lia).
    rewrite Emid in Hi. split.
    - eapply Rlt_le_trans; [exact F0|]. apply Hn; lia.
    - eapply Rle_lt_trans; [|exact F1]. apply Hn; lia. }
  exists rs. split; auto. unfold of_runs. fold n. rewrite <- E.
  apply (nth_ext _ _ 0%R 0%R); [rewrite !app_length, !repeat_length; unfold n in *; lia|].
  intros i Hi. destruct (Nat.lt_ge_cases i n) as [C1|C1].
  - rewrite app_nth1 by (rewrite repeat_length; lia). rewrite nth_in_repeat by lia. apply (Hc i). unfold n in *. lia.
  - rewrite app_nth2 by (rewrite repeat_length; lia). rewrite repeat_length. destruct (Nat.lt_ge_cases i (length kv - n)) as [C2|C2].
    + rewrite app_nth1 by lia. rewrite Nmid by lia. unfold knot. f_equal. lia.
    + rewrite app_nth2 by lia. rewrite nth_in_repeat by lia.
      destruct (Hc (length kv - 1 - i)%nat ltac:(unfold n in *; lia)) as [_ H2]. rewrite <- H2. unfold knot. f_equal. lia.
Qed.

(* the number of different knots *)
Lemma ascents_run dz a k (l : list R) y : (a < y)%R -> ascents (F := Rops dz) (repeat a (S k) ++ y :: l) = 1 + ascents (F := Rops dz) (y :: l).
Proof.
  intros H. induction k as [|k IH].
  - cbn [repeat app ascents]. change (nltb (n := Rops dz) a y) with (Rltb a y). destruct (Rltb_spec a y); [reflexivity | lra].
  - change (repeat a (S (S k)) ++ y :: l) with (a :: (repeat a (S k) ++ y :: l)).
    change (repeat a (S k) ++ y :: l) with (a :: (repeat a k ++ y :: l)) in *.
    change (ascents (F := Rops dz) (a :: a :: repeat a k ++ y :: l)) with
      ((if Rltb a a then 1 else 0) + ascents (F := Rops dz) (a :: repeat a k ++ y :: l)).
    destruct (Rltb_spec a a); [lra|]. rewrite IH. lia.
Qed.
Lemma ascents_flat dz (b : R) k : ascents (F := Rops dz) (repeat b k) = 0.
Proof.
  induction k as [|[|k] IH]; [reflexivity|reflexivity|].
  change (ascents (F := Rops dz) (repeat b (S (S k)))) with ((if Rltb b b then 1 else 0) + ascents (F := Rops dz) (repeat b (S k))).
  destruct (Rltb_spec b b); [lra|]. rewrite IH. lia.
Qed.
Lemma ascents_runs dz a rs b k : forall n, (1 <= n)%nat -> (1 <= k)%nat -> chain a rs b ->
  ascents (F := Rops dz) (repeat a n ++ expand rs ++ repeat b k) = 1 + Z.of_nat (length rs).
Proof.
  revert a. induction rs as [|[x m] rs IH]; intros a n Hn Hk Hc.
  - destruct n as [|n]; [lia|]. destruct k as [|k]; [lia|]. cbn [expand flat_map app].
    change (repeat b (S k)) with (b :: repeat b k). rewrite ascents_run by exact Hc.
    change (b :: repeat b k) with (repeat b (S k)). rewrite ascents_flat. cbn [length]. lia.
  - destruct Hc as (C1 & C2 & C3). cbn [fst snd] in *. rewrite expand_cons, <- app_assoc. specialize (IH x m C2 Hk C3).
    destruct n as [|n]; [lia|]. destruct m as [|m]; [lia|].
    change (repeat x (S m) ++ expand rs ++ repeat b k) with (x :: (repeat x m ++ expand rs ++ repeat b k)) in *.
    rewrite ascents_run by exact C1. rewrite IH. cbn [length]. lia.
Qed.
Lemma runs_different dz p a rs b : chain a rs b -> num_different (F := Rops dz) (of_runs p a rs b) = 2 + Z.of_nat (length rs).
Proof. intros H. unfold num_different, of_runs. rewrite ascents_runs by (auto; lia). lia. Qed.

(* the length of a run *)
Lemma get_after dz (pre l : list R) (j : nat) : (j < length l)%nat -> get_knot (F := Rops dz) (pre ++ l) (zlen pre + Z.of_nat j) = Ok (nth j l 0%R).
Proof.
  intros H. unfold get_knot. change (num (Rops dz)) with R in *.
  rewrite (vget_nth _ _ 0%R) by (unfold zlen; rewrite !app_length; lia). rewrite app_nth2 by (unfold zlen; lia). do 2 f_equal. unfold zlen. lia.
Qed.
Lemma run_length_ok dz (pre post : list R) x y m : x <> y -> forall fuel, (m < fuel)%nat ->
  run_length (F := Rops dz) fuel (pre ++ repeat x (S m) ++ y :: post) (zlen pre) = Ok (Z.of_nat m).
Proof.
  intros Hne. revert pre. induction m as [|m IH]; intros pre [|fuel] Hf; try lia.
  - cbn [run_length repeat app].
    pose proof (get_after dz pre (x :: y :: post) 0 ltac:(cbn; lia)) as E0. rewrite Z.add_0_r in E0. rewrite E0. cbn [bind].
    pose proof (get_after dz pre (x :: y :: post) 1 ltac:(cbn; lia)) as E1. cbn [Z.of_nat Pos.of_succ_nat] in E1. rewrite E1. cbn [bind nth].
    change (neqb (n := Rops dz) x y) with (Reqb x y). destruct (Reqb_spec x y); [contradiction | reflexivity].
  - cbn [run_length repeat app]. 
    pose proof (get_after dz pre (x :: x :: repeat x m ++ y :: post) 0 ltac:(cbn; lia)) as E0. rewrite Z.add_0_r in E0. rewrite E0. cbn [bind].
    pose proof (get_after dz pre (x :: x :: repeat x m ++ y :: post) 1 ltac:(cbn; lia)) as E1. cbn [Z.of_nat Pos.of_succ_nat] in E1. rewrite E1. cbn [bind nth].
    change (neqb (n := Rops dz) x x) with (Reqb x x). destruct (Reqb_spec x x); [|contradiction].
    specialize (IH (pre ++ [x]) fuel ltac:(lia)). rewrite <- app_assoc in IH. cbn [app repeat] in IH.
    replace (zlen (pre ++ [x])) with (zlen pre + 1) in IH by (unfold zlen; rewrite app_length; cbn; lia).
    rewrite IH. cbn [bind]. f_equal. lia.
Qed.

(* where copies of a knot go *)
Lemma at_pos_split (l1 l2 : list R) u : l1 <> [] -> l2 <> [] -> Forall (fun x => (x <= u)%R) l1 -> Forall (fun x => (u < x)%R) l2 ->
  at_pos (l1 ++ l2) u (length l1).
Proof.
  intros H1 H2 F1 F2. rewrite Forall_forall in F1, F2. unfold at_pos. rewrite app_length. repeat split.
  - destruct l1; [contradiction | cbn; lia].
  - destruct l2; [contradiction | cbn; lia].
  - intros i Hi. unfold knot. rewrite app_nth1 by auto. apply F1. now apply nth_In.
  - intros i Hi. unfold knot. rewrite app_nth2 by lia. apply F2. apply nth_In. lia.
Qed.
Lemma insm_split (l1 l2 : list R) u m : insm (l1 ++ l2) (length l1) u m = l1 ++ repeat u m ++ l2.
Proof. unfold insm. rewrite firstn_app, skipn_app, firstn_all, skipn_all, Nat.sub_diag. cbn [firstn skipn app]. rewrite app_nil_r. reflexivity. Qed.

(* how many copies *)
Lemma occ_app l1 l2 u : occurrences (l1 ++ l2) u = (occurrences l1 u + occurrences l2 u)%nat.
Proof. apply count_occ_app. Qed.
Lemma occ_repeat x m u : occurrences (repeat x m) u = if Req_EM_T x u then m else 0%nat.
Proof.
  unfold occurrences. induction m as [|m IH]; cbn [repeat count_occ]; [now destruct (Req_EM_T x u)|].
  rewrite IH. now destruct (Req_EM_T x u).
Qed.
Lemma occ_none l u : ~ In u l -> occurrences l u = 0%nat.
Proof. apply count_occ_not_In. Qed.
Lemma expand_not_in a rs b u : chain a rs b -> (u <= a)%R \/ (b <= u)%R -> occurrences (expand rs) u = 0%nat.
Proof.
  intros H Hu. apply occ_none. intros Hi. pose proof (chain_between _ _ _ H) as G. rewrite Forall_forall in G. apply G in Hi. lra.
Qed.
Lemma runs_occ p a r1 x m r2 b : chain a (r1 ++ (x, m) :: r2) b -> occurrences (of_runs p a (r1 ++ (x, m) :: r2) b) x = m.
Proof.
  intros H. destruct (chain_split _ _ _ _ _ _ H) as (H1 & H2 & H3). pose proof (chain_lt _ _ _ H1). pose proof (chain_lt _ _ _ H3).
  unfold of_runs. rewrite expand_app, expand_cons, !occ_app, !occ_repeat.
  rewrite (expand_not_in a r1 x), (expand_not_in x r2 b) by (auto; lra).
  destruct (Req_EM_T a x); [lra|]. destruct (Req_EM_T x x); [|lra]. destruct (Req_EM_T b x); [lra|]. lia.
Qed.

(* not more than k copies of anything, k >= 1: no k+1 neighbouring knots are equal *)
Lemma occ_window (kv : list R) i n x : (i + n <= length kv)%nat -> (forall j, (j < n)%nat -> knot kv (i + j) = x) -> (n <= occurrences kv x)%nat.
Proof.
  intros Hl H. rewrite <- (firstn_skipn i kv). rewrite occ_app. rewrite <- (firstn_skipn n (skipn i kv)). rewrite occ_app.
  enough (E : firstn n (skipn i kv) = repeat x n) by (rewrite E, occ_repeat; destruct (Req_EM_T x x); [lia | contradiction]).
  assert (L : length (firstn n (skipn i kv)) = n) by (rewrite firstn_length, skipn_length; lia).
  apply (nth_ext _ _ 0%R 0%R); [now rewrite L, repeat_length|].
  intros j Hj. rewrite L in Hj. rewrite nth_in_repeat by auto. rewrite <- (H j Hj). unfold knot. rewrite <- nth_skipn_R.
  rewrite <- (firstn_skipn n (skipn i kv)) at 2. rewrite app_nth1 by lia. reflexivity.
Qed.
Lemma support_occ kv p : 0 <= p -> nondecreasing kv -> (forall x, Z.of_nat (occurrences kv x) <= p + 1) -> full_support kv p.
Proof.
  intros Hp Hn Ho i Hi. unfold zlen in Hi. destruct (Rlt_dec (knot kv i) (knot kv (i + Z.to_nat p + 1))) as [C|C]; auto. exfalso.
  pose proof (occ_window kv i (Z.to_nat p + 2) (knot kv i) ltac:(lia)) as W. specialize (Ho (knot kv i)).
  enough (Z.to_nat p + 2 <= occurrences kv (knot kv i))%nat by lia. apply W. intros j Hj.
  apply Rle_antisym; [|apply Hn; lia]. apply Rle_trans with (knot kv (i + Z.to_nat p + 1)); [apply Hn; lia | lra].
Qed.
Lemma expand_occ a rs b (k : nat) : chain a rs b -> Forall (fun r => (snd r <= k)%nat) rs -> forall x, (occurrences (expand rs) x <= k)%nat.
Proof.
  intros H Hf x. revert a H. induction Hf as [|[y m] rs Hm Hf IH]; intros a H; [cbn; lia|].
  destruct H as (C1 & C2 & C3). cbn [fst snd] in *. rewrite expand_cons, occ_app, occ_repeat.
  destruct (Req_EM_T y x) as [->|Hne]; [|apply (IH y C3)]. rewrite (expand_not_in x rs b) by (auto; lra). lia.
Qed.
Lemma runs_occ_le p a rs b : 0 <= p -> chain a rs b -> Forall (fun r => (snd r <= Z.to_nat p + 1)%nat) rs -> forall x, Z.of_nat (occurrences (of_runs p a rs b) x) <= p + 1.
Proof.
  intros Hp H Hf x. unfold of_runs. rewrite !occ_app, !occ_repeat. pose proof (chain_lt _ _ _ H).
  destruct (Req_EM_T a x) as [->|N1].
  - rewrite (expand_not_in x rs b) by (auto; lra). destruct (Req_EM_T b x); [lra|]. lia.
  - destruct (Req_EM_T b x) as [->|N2].
    + rewrite (expand_not_in a rs x) by (auto; lra). lia.
    + pose proof (expand_occ a rs b _ H Hf x). lia.
Qed.
