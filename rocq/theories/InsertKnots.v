(* Knot vectors with a knot inserted strictly inside the domain (real arithmetic). *)
From Coq Require Import ZArith List Bool Lia Reals Lra.
From Verif Require Import Base BaseFacts RSum KnotVec KnotVecSpec KnotVecFacts BSplineTheory Boehm
  BasisSpec Basis BasisFacts SpacesSpec Spaces SpacesFacts.
Import ListNotations.
Open Scope Z_scope.

Definition ins1 (kv : list R) (n : nat) (u : R) : list R := firstn n kv ++ u :: skipn n kv.
Definition insm (kv : list R) (n : nat) (u : R) (m : nat) : list R := firstn n kv ++ repeat u m ++ skipn n kv.

(* n = number of knots <= u, and u lies strictly inside *)
Definition at_pos (kv : list R) (u : R) (n : nat) : Prop :=
  (1 <= n < length kv)%nat /\ (forall i, (i < n)%nat -> (knot kv i <= u)%R) /\
  (forall i, (n <= i < length kv)%nat -> (u < knot kv i)%R).

Definition inner (kv : list R) (p : Z) (u : R) (n : nat) : Prop :=
  good_direction kv p /\ separated (u :: kv) /\ at_pos kv u n /\ (first_knot kv < u < final_knot kv)%R.

Lemma ins1_length kv n u : (n <= length kv)%nat -> length (ins1 kv n u) = S (length kv).
Proof. intros H. unfold ins1. rewrite app_length. cbn [length]. rewrite firstn_length, skipn_length. lia. Qed.

Lemma knot_ins1 kv n u i : (n <= length kv)%nat ->
  knot (ins1 kv n u) i = if (i <? n)%nat then knot kv i else if (i =? n)%nat then u else knot kv (i - 1).
Proof. intros H. unfold knot, ins1. now apply nth_insert. Qed.

Lemma insm_0 kv n u : insm kv n u 0 = kv.
Proof. unfold insm. cbn [repeat app]. apply firstn_skipn. Qed.
Lemma insm_length kv n u m : (n <= length kv)%nat -> length (insm kv n u m) = (length kv + m)%nat.
Proof. intros H. unfold insm. rewrite !app_length, firstn_length, skipn_length, repeat_length. lia. Qed.

Lemma insm_S kv n u m : (n <= length kv)%nat -> insm kv n u (S m) = ins1 (insm kv n u m) (n + m) u.
Proof.
  intros H. unfold insm, ins1.
  assert (L1 : length (firstn n kv) = n) by (rewrite firstn_length; lia).
  assert (L2 : length (firstn n kv ++ repeat u m) = (n + m)%nat) by (rewrite app_length, repeat_length; lia).
  rewrite (app_assoc (firstn n kv) (repeat u m) (skipn n kv)). rewrite firstn_app, skipn_app, L2, Nat.sub_diag. cbn [firstn skipn].
  rewrite (firstn_all2 (firstn n kv ++ repeat u m)), (skipn_all2 (firstn n kv ++ repeat u m)) by lia.
  rewrite app_nil_r. cbn [app].
  replace (S m) with (m + 1)%nat by lia. rewrite repeat_app. cbn [repeat]. rewrite <- !app_assoc. reflexivity.
Qed.

Lemma at_pos_unique kv u n k : at_pos kv u n -> (S k < length kv)%nat -> (knot kv k <= u)%R -> (u < knot kv (S k))%R -> S k = n.
Proof.
  intros (H1 & H2 & H3) Hk Hlo Hhi.
  destruct (lt_eq_lt_dec (S k) n) as [[C|C]|C]; auto; exfalso.
  - specialize (H2 (S k) C). lra.
  - specialize (H3 k ltac:(lia)). lra.
Qed.

Lemma at_pos_exists dz kv p u : good_direction kv p -> separated (u :: kv) -> (first_knot kv < u < final_knot kv)%R ->
  exists n, at_pos kv u n /\ knot_span (F := Rops dz) kv u = Ok (Z.of_nat n - 1).
Proof.
  intros (Hp & (Hc & _) & Hn & _) Hs Hu.
  assert (Hnn : ~ near u (final_knot kv)).
  { unfold near. intros Ha. specialize (Hs 0%nat (S (length kv - 1))). cbn [length] in Hs. unfold knot in Hs. cbn [nth] in Hs.
    fold (final_knot kv) in Hs. specialize (Hs ltac:(lia) ltac:(lia) ltac:(lra)). rewrite Rabs_left in Ha by lra. lra. }
  destruct (knot_span_inside dz kv u) as (k & E & Hk & Hlo & Hhi); try lra; auto.
  exists (S k). split; [|rewrite E; f_equal; lia].
  split; [lia|]. split.
  - intros i Hi. apply Rle_trans with (knot kv k); auto. apply Hn; lia.
  - intros i Hi. apply Rlt_le_trans with (knot kv (S k)); auto. apply Hn; lia.
Qed.

Lemma not_near_final kv p u n : inner kv p u n -> ~ near u (final_knot kv).
Proof.
  intros ((Hp & (Hc & _) & Hn & _) & Hs & _ & Hu).
  unfold near. intros Ha. specialize (Hs 0%nat (S (length kv - 1))). cbn [length] in Hs. unfold knot in Hs. cbn [nth] in Hs.
  fold (final_knot kv) in Hs. specialize (Hs ltac:(lia) ltac:(lia) ltac:(lra)). rewrite Rabs_left in Ha by lra. lra.
Qed.

Lemma inner_span dz kv p u n : inner kv p u n -> knot_span (F := Rops dz) kv u = Ok (Z.of_nat n - 1).
Proof.
  intros Hi. pose proof Hi as (Hg & Hs & Ha & Hu). destruct (at_pos_exists dz kv p u Hg Hs Hu) as (n' & Ha' & E).
  rewrite E. f_equal. f_equal. f_equal. destruct Ha' as (A1 & A2 & A3).
  assert (S (n' - 1) = n); [|lia]. apply (at_pos_unique kv u); auto; [lia | apply A2; lia | apply A3; lia].
Qed.

Lemma inner_is_last dz kv p u n : inner kv p u n -> is_last_knot (F := Rops dz) kv u = Ok false.
Proof.
  intros Hi. pose proof Hi as ((Hp & (Hc & _) & _) & _). destruct (is_last_knot_ok dz kv u ltac:(lia)) as (b & E & Hb). rewrite E. f_equal.
  destruct b; auto. exfalso. apply (not_near_final kv p u n Hi). now apply Hb.
Qed.

Lemma inner_insert dz kv p u n : inner kv p u n -> kv_insert (F := Rops dz) kv u = Ok (ins1 kv n u).
Proof.
  intros Hi. unfold kv_insert. rewrite (inner_span dz kv p u n) by auto. cbn [bind].
  replace (Z.of_nat n - 1 + 1) with (Z.of_nat n) by lia. destruct Hi as (_ & _ & (Hn & _) & _). apply insert_at_nat. lia.
Qed.

(* the position is between the clamped ends *)
Lemma inner_ends kv p u n : inner kv p u n -> p + 1 <= Z.of_nat n /\ Z.of_nat n <= zlen kv - p - 1.
Proof.
  intros ((Hp & (Hc & Hcl) & Hn & _) & _ & (H1 & H2 & H3) & Hu).
  split.
  - destruct (Z_le_dec (p + 1) (Z.of_nat n)) as [|C]; auto. exfalso.
    destruct (Hcl n ltac:(lia)) as [E _]. specialize (H3 n ltac:(lia)). lra.
  - unfold zlen. destruct (Z_le_dec (Z.of_nat n) (Z.of_nat (length kv) - p - 1)) as [|C]; auto. exfalso.
    destruct (Hcl (length kv - n)%nat ltac:(lia)) as [_ E].
    replace (length kv - 1 - (length kv - n))%nat with (n - 1)%nat in E by lia. specialize (H2 (n - 1)%nat ltac:(lia)). lra.
Qed.

Lemma first_ins1 kv n u : (1 <= n <= length kv)%nat -> first_knot (ins1 kv n u) = first_knot kv.
Proof. intros H. change (knot (ins1 kv n u) 0 = knot kv 0). rewrite knot_ins1 by lia. destruct (Nat.ltb_spec 0 n); [reflexivity | lia]. Qed.
Lemma final_ins1 kv n u : (n < length kv)%nat -> final_knot (ins1 kv n u) = final_knot kv.
Proof.
  intros H. unfold final_knot. rewrite ins1_length by lia. change (knot (ins1 kv n u) (S (length kv) - 1) = knot kv (length kv - 1)).
  rewrite knot_ins1 by lia. destruct (Nat.ltb_spec (S (length kv) - 1) n); [lia|].
  destruct (Nat.eqb_spec (S (length kv) - 1) n); [lia|]. f_equal. lia.
Qed.

Lemma separated_incl l1 l2 : (forall x, In x l1 -> In x l2) -> separated l2 -> separated l1.
Proof.
  intros Hi Hs i j H1 H2 Hlt.
  destruct (In_nth l2 (knot l1 i) 0%R) as (i' & A1 & A2); [apply Hi, nth_In; auto|].
  destruct (In_nth l2 (knot l1 j) 0%R) as (j' & B1 & B2); [apply Hi, nth_In; auto|].
  specialize (Hs i' j' A1 B1). unfold knot in Hs at 1 2 3 4. rewrite A2, B2 in Hs. now apply Hs.
Qed.

Lemma ins1_In kv n u x : In x (ins1 kv n u) -> In x (u :: kv).
Proof.
  unfold ins1. rewrite in_app_iff. cbn. intros [H|[H|H]]; auto; right; rewrite <- (firstn_skipn n kv); apply in_app_iff; auto.
Qed.

Lemma inner_step kv p u n : inner kv p u n -> inner (ins1 kv n u) p u (S n).
Proof.
  intros Hi. pose proof (inner_ends kv p u n Hi) as [E1 E2]. unfold zlen in E2.
  destruct Hi as ((Hp & (Hc & Hcl) & Hn & Hsep & Hne) & Hs & (H1 & H2 & H3) & Hu).
  assert (HL : length (ins1 kv n u) = S (length kv)) by (apply ins1_length; lia).
  assert (Hnd : nondecreasing (ins1 kv n u)).
  { apply insert_nondecreasing; auto. intros i A B. specialize (H3 i ltac:(lia)). lra. }
  assert (Hs2 : separated (u :: ins1 kv n u)).
  { apply (separated_incl _ (u :: kv)); auto. intros x [<-|Hx]; [now left | now apply (ins1_In kv n u)]. }
  assert (Ef : first_knot (ins1 kv n u) = first_knot kv) by (apply first_ins1; lia).
  assert (El : final_knot (ins1 kv n u) = final_knot kv) by (apply final_ins1; lia).
  split; [|split; [exact Hs2 | split]].
  - split; [auto|]. split; [|split; [auto | split]].
    + split; [lia|]. intros j Hj. rewrite Ef, El, HL. rewrite !knot_ins1 by lia. split.
      * destruct (Nat.ltb_spec j n); [|lia]. apply Hcl. auto.
      * destruct (Nat.ltb_spec (S (length kv) - 1 - j) n); [lia|].
        destruct (Nat.eqb_spec (S (length kv) - 1 - j) n); [lia|].
        replace (S (length kv) - 1 - j - 1)%nat with (length kv - 1 - j)%nat by lia. now apply Hcl.
    + apply (separated_incl _ (u :: ins1 kv n u)); auto. intros; now right.
    + now rewrite Ef, El.
  - split; [lia|]. split.
    + intros i Hi. rewrite knot_ins1 by lia. destruct (Nat.ltb_spec i n); [now apply H2|].
      destruct (Nat.eqb_spec i n); [lra | lia].
    + intros i Hi. rewrite knot_ins1 by lia. destruct (Nat.ltb_spec i n); [lia|].
      destruct (Nat.eqb_spec i n); [lia|]. apply H3. lia.
  - now rewrite Ef, El.
Qed.

Lemma inner_insm kv p u n m : inner kv p u n -> inner (insm kv n u m) p u (n + m).
Proof.
  intros Hi. induction m as [|m IH]; [now rewrite insm_0, Nat.add_0_r|].
  rewrite insm_S by (destruct Hi as (_ & _ & (H & _) & _); lia).
  rewrite Nat.add_succ_r. now apply inner_step.
Qed.

Lemma tk_ins1 kv n u j : (1 <= n < length kv)%nat -> tk (ins1 kv n u) j = ins (tk kv) (Z.of_nat n - 1) u j.
Proof.
  intros Hn. unfold tk, ins. unfold zlen. rewrite ins1_length by lia.
  change (nth (Z.to_nat (Z.min j (Z.of_nat (S (length kv)) - 1))) (ins1 kv n u) 0%R)
    with (knot (ins1 kv n u) (Z.to_nat (Z.min j (Z.of_nat (S (length kv)) - 1)))).
  rewrite knot_ins1 by lia. unfold knot.
  destruct (Z_le_dec j (Z.of_nat n - 1)).
  - destruct (Nat.ltb_spec (Z.to_nat (Z.min j (Z.of_nat (S (length kv)) - 1))) n); [f_equal; lia | lia].
  - destruct (Nat.ltb_spec (Z.to_nat (Z.min j (Z.of_nat (S (length kv)) - 1))) n); [lia|].
    destruct (Z.eq_dec j (Z.of_nat n - 1 + 1)).
    + destruct (Nat.eqb_spec (Z.to_nat (Z.min j (Z.of_nat (S (length kv)) - 1))) n); [reflexivity | lia].
    + destruct (Nat.eqb_spec (Z.to_nat (Z.min j (Z.of_nat (S (length kv)) - 1))) n); [lia|]. f_equal. lia.
Qed.

Lemma tk_insm kv n u m j : (1 <= n < length kv)%nat ->
  tk (insm kv n u m) j =
  if Z_lt_dec j (Z.of_nat n) then tk kv j
  else if Z_lt_dec j (Z.of_nat n + Z.of_nat m) then u else tk kv (j - Z.of_nat m).
Proof.
  intros Hn. revert j; induction m as [|m IH]; intros j.
  - rewrite insm_0. destruct (Z_lt_dec j (Z.of_nat n)); auto. destruct (Z_lt_dec j (Z.of_nat n + Z.of_nat 0)); [lia|]. f_equal. lia.
  - rewrite insm_S by lia. rewrite tk_ins1 by (rewrite insm_length by lia; lia). unfold ins. rewrite !IH.
    destruct (Z_le_dec j (Z.of_nat (n + m) - 1)); destruct (Z_lt_dec j (Z.of_nat n)); try lia; auto.
    + destruct (Z_lt_dec j (Z.of_nat n + Z.of_nat m)); [|lia]. destruct (Z_lt_dec j (Z.of_nat n + Z.of_nat (S m))); [auto | lia].
    + destruct (Z.eq_dec j (Z.of_nat (n + m) - 1 + 1)).
      * destruct (Z_lt_dec j (Z.of_nat n + Z.of_nat (S m))); [auto | lia].
      * destruct (Z_lt_dec (j - 1) (Z.of_nat n)); [lia|]. destruct (Z_lt_dec (j - 1) (Z.of_nat n + Z.of_nat m)); [lia|].
        destruct (Z_lt_dec j (Z.of_nat n + Z.of_nat (S m))); [lia|]. f_equal. lia.
Qed.

(* how the occurrences of u lie below position n *)
Lemma occurrences_bounds dz kv u : nondecreasing kv ->
  Z.of_nat (occurrences kv u) = upper_bound (F := Rops dz) kv u - lower_bound (F := Rops dz) kv u.
Proof.
  unfold occurrences. induction kv as [|x kv IH]; intros Hn; [reflexivity|].
  specialize (IH (nondecreasing_tail _ _ Hn)). cbn [count_occ upper_bound lower_bound]. rnorm.
  destruct (Rltb_spec u x) as [A|A]; destruct (Rltb_spec x u) as [B|B]; destruct (Req_EM_T x u) as [C|C]; try lra; try lia.
  - assert (E : count_occ Req_EM_T kv u = 0%nat); [|lia].
    apply count_occ_not_In. intros Hin. pose proof (nondecreasing_head x kv u Hn Hin). lra.
  - assert (E : lower_bound (F := Rops dz) kv u = 0); [|rewrite E in IH; lia].
    destruct kv as [|y kv]; [reflexivity|]. cbn [lower_bound]. rnorm.
    destruct (Rltb_spec y u); auto. pose proof (nondecreasing_head x (y :: kv) y Hn (or_introl eq_refl)). lra.
Qed.

Lemma occurrences_below kv u n : nondecreasing kv -> at_pos kv u n ->
  (occurrences kv u <= n)%nat /\
  (forall i, (i < n - occurrences kv u)%nat -> (knot kv i < u)%R) /\
  (forall i, (n - occurrences kv u <= i < n)%nat -> knot kv i = u).
Proof.
  intros Hn (H1 & H2 & H3).
  set (dz := fun x : R => x). pose proof (occurrences_bounds dz kv u Hn) as E.
  pose proof (upper_bound_range dz kv u) as R1. pose proof (lower_bound_range dz kv u) as R2.
  assert (Eu : upper_bound (F := Rops dz) kv u = Z.of_nat n).
  { unfold zlen in *. rnorm. destruct (Z.lt_trichotomy (upper_bound (F := Rops dz) kv u) (Z.of_nat n)) as [C|[C|C]]; auto; exfalso.
    - pose proof (upper_bound_at dz kv u (Z.to_nat (upper_bound (F := Rops dz) kv u)) ltac:(lia) ltac:(lia)).
      specialize (H2 (Z.to_nat (upper_bound (F := Rops dz) kv u)) ltac:(lia)). lra.
    - pose proof (upper_bound_below dz kv u n C). specialize (H3 n ltac:(lia)). lra. }
  rewrite Eu in E. split; [lia|]. split.
  - intros i Hi. apply (lower_bound_below dz). lia.
  - intros i Hi. apply Rle_antisym; [apply H2; lia|].
    apply Rle_trans with (knot kv (Z.to_nat (lower_bound (F := Rops dz) kv u))).
    + unfold zlen in *; rnorm. apply (lower_bound_at dz); lia.
    + apply Hn; lia.
Qed.

Lemma inner_mult kv p u n : inner kv p u n -> (occurrences kv u < n)%nat.
Proof.
  intros (Hg & _ & Ha & Hu). pose proof Hg as (_ & _ & Hn & _).
  destruct (occurrences_below kv u n Hn Ha) as (H1 & _ & H2).
  destruct (Nat.eq_dec (occurrences kv u) n) as [C|C]; [|lia]. exfalso.
  destruct Ha as (Ha & _). specialize (H2 0%nat ltac:(lia)). unfold first_knot, knot in *. lra.
Qed.

Lemma B_ext t t' k p i u : (forall j, t j = t' j) -> B t k p i u = B t' k p i u.
Proof. intros H. revert i; induction p as [|q IH]; intros i; cbn [B]; auto. now rewrite !H, !IH. Qed.

(* spans of the refined vector *)
Lemma in_span_ins1 kv p u n s v : inner kv p u n -> in_span (ins1 kv n u) s v -> in_span kv (old_span (Z.of_nat n - 1) s) v.
Proof.
  intros Hi (A1 & A2 & A3 & A4 & A5). destruct Hi as (_ & _ & (Hn & H2 & H3) & Hu).
  rewrite !tk_ins1 in * by auto. rewrite final_ins1 in A5 by lia.
  unfold zlen in A2. rewrite ins1_length in A2 by lia.
  assert (Hlo : (tk kv (Z.of_nat n - 1) <= u)%R) by (rewrite tk_knot' by (unfold zlen; lia); apply H2; lia).
  assert (Hhi : (u < tk kv (Z.of_nat n))%R) by (rewrite tk_knot' by (unfold zlen; lia); apply H3; lia).
  unfold in_span, old_span, ins, zlen in *. replace (Z.of_nat n - 1 + 1) with (Z.of_nat n) in * by lia.
  destruct (Z_le_dec s (Z.of_nat n - 1)).
  - split; [lia|]. destruct (Z_le_dec (s + 1) (Z.of_nat n - 1)).
    + repeat split; auto. lia.
    + destruct (Z.eq_dec (s + 1) (Z.of_nat n)); [|lia]. assert (s = Z.of_nat n - 1) by lia. subst s.
      replace (Z.of_nat n - 1 + 1) with (Z.of_nat n) in * by lia.
      split; [lia|]. split; [lra|]. split; [lra|]. left. lra.
  - destruct (Z_le_dec (s + 1) (Z.of_nat n - 1)); [lia|]. destruct (Z.eq_dec (s + 1) (Z.of_nat n)); [lia|].
    replace (s + 1 - 1) with s in * by lia. replace (s - 1 + 1) with s by lia.
    destruct (Z.eq_dec s (Z.of_nat n)) as [->|].
    + split; [lia|]. split; [lia|]. split; [lra|]. split; [lra|]. auto.
    + split; [lia|]. split; [lia|]. split; [lra|]. split; [lra|]. auto.
Qed.
