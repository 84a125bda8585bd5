(* Facts about the arithmetic on int in evaluation. *)
From Coq Require Import ZArith List Bool Lia.
From Verif Require Import Base BaseFacts MultiIndex MultiIndexSpec MultiIndexFacts TensorSum KnotVec Basis Spaces SplineEval IntEval IntSpec.
Import ListNotations.
Open Scope Z_scope.

Lemma cint_ok z : is_int z -> cint z = Ok z.
Proof. intros [A B]. unfold cint. destruct (Z.leb_spec (- 2 ^ 31) z), (Z.ltb_spec z (2 ^ 31)); cbn; auto; lia. Qed.
Lemma cint_ub z : ~ is_int z -> cint z = UB.
Proof. intros H. unfold cint, is_int in *. destruct (Z.leb_spec (- 2 ^ 31) z), (Z.ltb_spec z (2 ^ 31)); cbn; auto; lia. Qed.

(* ---- multi-indices ---- *)
Lemma total_ge_1 l : Forall (fun n => 1 <= n) l -> 1 <= total l.
Proof. exact (total_pos l). Qed.

Lemma mul_all before t : Forall (fun n => 1 <= n) before -> 0 <= t -> t * total before < 2 ^ 31 ->
  foldM (fun t n => cint (t * n)) before t = Ok (t * total before).
Proof.
  intros H. revert t. induction H as [|n before Hn H IH]; intros t Ht Hl; cbn [foldM]; [now rewrite Z.mul_1_r|].
  rewrite total_cons in *. pose proof (total_ge_1 before H) as P. rewrite cint_ok by (unfold is_int; nia). cbn [bind].
  rewrite IH by nia. f_equal. ring.
Qed.

Lemma get1d_int_from_ok lens idx : in_box lens idx -> forall before acc, Forall (fun n => 1 <= n) before -> 0 <= acc ->
  acc + total before * get1d lens idx < 2 ^ 31 ->
  get1d_int_from before lens idx acc = Ok (acc + total before * get1d lens idx).
Proof.
  induction 1 as [|l i lens idx Hi H IH]; intros before acc Hb Ha Hl; cbn [get1d_int_from].
  - f_equal. change (get1d [] []) with 0. ring.
  - cbv beta in Hi. rewrite get1d_cons in *. pose proof (total_ge_1 before Hb) as P. pose proof (get1d_range _ _ H) as (G & _).
    assert (N : 0 <= total before * (l * get1d lens idx)) by (apply Z.mul_nonneg_nonneg; [lia | apply Z.mul_nonneg_nonneg; lia]).
    assert (D : total before * (i + l * get1d lens idx) = i * total before + total before * (l * get1d lens idx)) by ring.
    assert (N' : 0 <= i * total before) by nia.
    rewrite mul_all by (auto; lia). cbn [bind]. rewrite cint_ok by (unfold is_int; lia). cbn [bind].
    rewrite IH; [rewrite total_cons; f_equal; ring | constructor; auto; lia | lia | rewrite total_cons; lia].
Qed.

Lemma get1d_int_ok lens idx : in_box lens idx -> get1d lens idx < 2 ^ 31 -> get1d_int lens idx = Ok (get1d lens idx).
Proof.
  intros H Hl. unfold get1d_int. rewrite get1d_int_from_ok; auto; try lia; change (total []) with 1; [f_equal; lia | lia].
Qed.

Lemma length_int_ok lens : pos_lens lens -> total lens < 2 ^ 31 -> length_int lens = Ok (total lens).
Proof. intros H Hl. unfold length_int. rewrite mul_all by (auto; lia). f_equal. ring. Qed.

Lemma mul_all_ub before t : Forall (fun n => 1 <= n) before -> 1 <= t < 2 ^ 31 -> 2 ^ 31 <= t * total before ->
  foldM (fun t n => cint (t * n)) before t = UB.
Proof.
  intros H. revert t. induction H as [|n before Hn H IH]; intros t Ht Hl; cbn [foldM].
  - change (total []) with 1 in Hl. lia.
  - rewrite total_cons in Hl. destruct (Z_lt_dec (t * n) (2 ^ 31)).
    + rewrite cint_ok by (unfold is_int; nia). cbn [bind]. apply IH; nia.
    + rewrite cint_ub by (unfold is_int; lia). reflexivity.
Qed.

Lemma length_int_ub lens : pos_lens lens -> 2 ^ 31 <= total lens -> length_int lens = UB.
Proof. intros H Hl. apply mul_all_ub; auto; lia. Qed.

Lemma mul_zero before : foldM (fun t n => cint (t * n)) before 0 = Ok 0.
Proof. induction before as [|n before IH]; cbn [foldM]; auto. Qed.

Lemma get1d_int_from_pad r : 0 <= r < 2 ^ 31 -> forall lens idx before acc, length lens = length idx ->
  get1d_int_from before lens idx acc = Ok r -> get1d_int_from before (lens ++ [0]) (idx ++ [0]) acc = Ok r.
Proof.
  intros Hr. induction lens as [|l lens IH]; intros [|i idx] b a Hl E; cbn [length] in Hl; try lia; cbn [app get1d_int_from] in *.
  - injection E as <-. rewrite mul_zero. cbn [bind]. rewrite Z.add_0_r, cint_ok by (unfold is_int; lia). reflexivity.
  - apply bind_Ok in E as (t & Et & E). apply bind_Ok in E as (a' & Ea & E). rewrite Et. cbn [bind]. rewrite Ea. cbn [bind]. apply IH; auto; lia.
Qed.

Lemma get1d_pad lens : forall idx stride, length lens = length idx -> get1d_from stride (lens ++ [0]) (idx ++ [0]) = get1d_from stride lens idx.
Proof.
  induction lens as [|l lens IH]; intros [|i idx] stride Hl; cbn [length] in Hl; try lia; cbn [app get1d_from]; [ring|]. rewrite IH by lia. reflexivity.
Qed.

Lemma remove_at_box d : forall lens idx, in_box lens idx -> in_box (remove_at d lens) (remove_at d idx).
Proof. induction d as [|d IH]; intros lens idx H; inversion H; subst; cbn [remove_at]; try constructor; auto. apply IH. auto. Qed.

Lemma remove_at_total d : forall lens, pos_lens lens -> total (remove_at d lens) <= total lens.
Proof.
  induction d as [|d IH]; intros lens H; inversion H as [|l ls A B]; subst; cbn [remove_at]; try lia; rewrite !total_cons.
  - pose proof (total_ge_1 ls B). nia.
  - specialize (IH ls B). nia.
Qed.

Lemma extract_int_ok h d : in_box (mlen h) (mcur h) -> total (mlen h) <= 2 ^ 31 -> extract_int h d = Ok (extract_dimension h d).
Proof.
  intros H Hl. pose proof (remove_at_box d _ _ H) as H'. pose proof (in_box_length _ _ H') as Ln. pose proof (get1d_range _ _ H') as R.
  pose proof (remove_at_total d _ (in_box_pos _ _ H)) as T.
  unfold extract_int, extract_dimension, get1d_int. unfold get1d at 1. rewrite get1d_pad by auto. fold (get1d (remove_at d (mlen h)) (remove_at d (mcur h))).
  apply get1d_int_from_pad; auto; try lia. apply get1d_int_ok; auto. lia.
Qed.

(* ---- binomial coefficients ---- *)
Lemma choose_pos n : forall k, (k <= n)%nat -> 1 <= choose n k.
Proof.
  induction n as [|n IH]; intros [|k] H; cbn [choose]; try lia. specialize (IH k ltac:(lia)) as A.
  assert (B : 0 <= choose n (S k)).
  { destruct (Nat.leb_spec (S k) n) as [C|C]; [specialize (IH (S k) C); lia|]. clear - C.
    assert (Z : forall m j, (m < j)%nat -> choose m j = 0).
    { induction m as [|m IH]; intros [|j] Hj; cbn [choose]; try lia. rewrite !IH by lia. reflexivity. }
    rewrite Z by lia. lia. }
  lia.
Qed.
Lemma choose_zero n : forall k, (n < k)%nat -> choose n k = 0.
Proof. induction n as [|n IH]; intros [|k] H; cbn [choose]; try lia. rewrite !IH by lia. reflexivity. Qed.
Lemma choose_diag n : choose n n = 1.
Proof. induction n as [|n IH]; cbn [choose]; auto. rewrite IH, choose_zero by lia. reflexivity. Qed.

Lemma binom_choose n : forall k, (k <= n)%nat -> binom n k = choose n k.
Proof.
  induction n as [|n IH]; intros [|k] H; cbn [binom choose]; try lia.
  destruct (Nat.eqb_spec n k) as [->|Hne]; [now rewrite choose_diag, choose_zero by lia|]. rewrite !IH by lia. reflexivity.
Qed.

Lemma binom_int_eq n : forall k, (k <= n)%nat -> binom_int n k = cint (choose n k).
Proof.
  induction n as [|n IH]; intros [|k] H; cbn [binom_int choose]; try lia; try reflexivity.
  destruct (Nat.eqb_spec n k) as [->|Hne]; [now rewrite choose_diag, choose_zero by lia|].
  rewrite !IH by lia. pose proof (choose_pos n k ltac:(lia)) as A. pose proof (choose_pos n (S k) ltac:(lia)) as B.
  destruct (Z_lt_dec (choose n k) (2 ^ 31)) as [C|C]; [|rewrite (cint_ub (choose n k)), (cint_ub (choose n k + choose n (S k))) by (unfold is_int; lia); reflexivity].
  rewrite (cint_ok (choose n k)) by (unfold is_int; lia). cbn [bind].
  destruct (Z_lt_dec (choose n (S k)) (2 ^ 31)) as [D|D]; [|rewrite (cint_ub (choose n (S k))), (cint_ub (choose n k + choose n (S k))) by (unfold is_int; lia); reflexivity].
  rewrite (cint_ok (choose n (S k))) by (unfold is_int; lia). reflexivity.
Qed.

Lemma choose_le_pow n : forall k, choose n k <= 2 ^ Z.of_nat n.
Proof.
  induction n as [|n IH]; intros k; [destruct k; cbn [choose]; cbn; lia|].
  rewrite Nat2Z.inj_succ, Z.pow_succ_r by lia. pose proof (IH 0%nat) as I0. destruct k as [|k]; cbn [choose] in *.
  - destruct n; cbn [choose] in I0; lia.
  - pose proof (IH k). pose proof (IH (S k)). lia.
Qed.

Lemma choose_mono_n n k : choose n (S k) <= choose (S n) (S k).
Proof. cbn [choose]. destruct (Nat.leb_spec k n) as [C|C]; [pose proof (choose_pos n k C); lia | rewrite (choose_zero n k) by lia; lia]. Qed.

(* rows of Pascal's triangle, for computing *)
Fixpoint pascal (n : nat) : list Z :=
  match n with O => [1] | S m => let r := pascal m in 1 :: map2 Z.add r (tl r ++ [0]) end.
Lemma nth_tl {A} (l : list A) k d : nth k (tl l) d = nth (S k) l d.
Proof. destruct l; [now destruct k | reflexivity]. Qed.
Lemma pascal_len n : length (pascal n) = S n.
Proof.
  induction n as [|n IH]; cbn [pascal length]; auto. cbv zeta. cbn [length]. f_equal.
  assert (L : forall (a b : list Z), length a = length b -> length (map2 Z.add a b) = length a).
  { induction a as [|x a IHa]; intros [|y b] H; cbn in *; try lia. rewrite IHa; lia. }
  rewrite L; auto. rewrite app_length. destruct (pascal n); cbn in *; lia.
Qed.
Lemma pascal_nth n : forall k, nth k (pascal n) 0 = choose n k.
Proof.
  induction n as [|n IH]; intros k; cbn [pascal]; cbv zeta.
  - destruct k as [|[|k]]; reflexivity.
  - destruct k as [|k]; [reflexivity|]. cbn [nth choose]. rewrite <- !IH.
    assert (L : forall (a b : list Z) j, length a = length b -> nth j (map2 Z.add a b) 0 = nth j a 0 + nth j b 0).
    { induction a as [|x a IHa]; intros [|y b] j H; cbn in *; try lia; destruct j; auto. }
    rewrite L; [|rewrite app_length; pose proof (pascal_len n); destruct (pascal n); cbn in *; lia]. f_equal.
    destruct (Nat.ltb_spec k (length (tl (pascal n)))) as [C|C].
    + rewrite app_nth1 by auto. apply nth_tl.
    + rewrite app_nth2 by auto. rewrite (nth_overflow (pascal n) 0 (n := S k)).
      * destruct (k - length (tl (pascal n)))%nat as [|[|m]]; reflexivity.
      * destruct (pascal n); cbn in *; lia.
Qed.

Lemma choose_up n m k : (n <= m)%nat -> choose n k <= choose m k.
Proof. induction 1 as [|m H IH]; [lia|]. destruct k as [|k]; [destruct m, n; cbn in *; lia|]. pose proof (choose_mono_n m k). lia. Qed.
Lemma choose_33 n k : (n <= 33)%nat -> choose n k < 2 ^ 31.
Proof.
  intros Hn. pose proof (choose_up n 33 k Hn) as U. revert U. rewrite <- (pascal_nth 33).
  assert (A : forallb (fun z => z <? 2 ^ 31) (pascal 33) = true) by (vm_compute; reflexivity). rewrite forallb_forall in A.
  destruct (Nat.ltb_spec k (length (pascal 33))) as [C|C].
  - specialize (A (nth k (pascal 33) 0) (nth_In _ 0 C)). apply Z.ltb_lt in A. lia.
  - rewrite nth_overflow by exact C. lia.
Qed.
Lemma choose_34 n : (34 <= n)%nat -> 2 ^ 31 <= choose n 17.
Proof.
  induction 1 as [|n H IH].
  - rewrite <- pascal_nth. assert (A : 2 ^ 31 <=? nth 17 (pascal 34) 0 = true) by (vm_compute; reflexivity). now apply Z.leb_le.
  - pose proof (choose_mono_n n 16). lia.
Qed.

Lemma fold_binoms ders : forall c bc, fold_left (fun bc x => bc * binom (Z.to_nat (fst x)) (Z.to_nat (snd x))) (combine ders c) bc =
  bc * binoms ders c.
Proof.
  unfold binoms. induction ders as [|d ders IH]; intros [|k c] bc; cbn [combine fold_left]; try ring. rewrite IH, (IH c (1 * _)). ring.
Qed.

Lemma binoms_ok ders : forall c bc, in_box (map (fun k => k + 1) ders) c -> Forall (fun k => 0 <= k) ders -> 1 <= bc ->
  bc * 2 ^ fold_right Z.add 0 ders < 2 ^ 31 ->
  foldM (fun bc x => b <- binom_int (Z.to_nat (fst x)) (Z.to_nat (snd x)) ;; cint (bc * b)) (combine ders c) bc = Ok (bc * binoms ders c).
Proof.
  induction ders as [|d ders IH]; intros c bc Hc Hd Hb Hl; cbn [map] in Hc; inversion Hc as [|? k ? c' Hk Hc']; subst.
  - cbn [combine foldM]. f_equal. unfold binoms. cbn. ring.
  - inversion Hd as [|? ? D1 D2]; subst. cbn [combine foldM fold_right fst snd] in *.
    assert (S0 : 0 <= fold_right Z.add 0 ders) by (clear - D2; induction D2; cbn; lia).
    rewrite Z.pow_add_r in Hl by lia. assert (P1 : 1 <= 2 ^ fold_right Z.add 0 ders) by (apply Z.pow_le_mono_r with (b := 0) (c := fold_right Z.add 0 ders); lia).
    assert (P2 : 1 <= 2 ^ d) by (apply Z.pow_le_mono_r with (b := 0) (c := d); lia).
    pose proof (choose_le_pow (Z.to_nat d) (Z.to_nat k)) as Hch. rewrite Z2Nat.id in Hch by lia.
    pose proof (choose_pos (Z.to_nat d) (Z.to_nat k) ltac:(lia)) as Hpos.
    assert (B1 : bc * 2 ^ d < 2 ^ 31) by nia.
    rewrite binom_int_eq by lia. rewrite <- binom_choose in * by lia. set (b := binom (Z.to_nat d) (Z.to_nat k)) in *.
    rewrite cint_ok by (unfold is_int; nia). cbn [bind]. rewrite cint_ok by (unfold is_int; nia). cbn [bind].
    rewrite IH by (auto; nia). f_equal. unfold binoms at 2. cbn [combine fold_left fst snd]. rewrite fold_binoms. fold b. ring.
Qed.

Lemma binoms_int_ok ders c : in_box (map (fun k => k + 1) ders) c -> Forall (fun k => 0 <= k) ders -> fold_right Z.add 0 ders <= 30 ->
  binoms_int ders c = Ok (binoms ders c).
Proof.
  intros Hc Hd Hs. unfold binoms_int. rewrite binoms_ok; auto; try lia; [f_equal; lia|].
  assert (2 ^ fold_right Z.add 0 ders <= 2 ^ 30) by (apply Z.pow_le_mono_r; lia). lia.
Qed.
