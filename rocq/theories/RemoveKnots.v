(* Knot vectors with an inner knot taken out (real arithmetic). *)
From Coq Require Import ZArith List Bool Lia Reals Lra.
From Verif Require Import Base BaseFacts RSum KnotVec KnotVecSpec KnotVecFacts BSplineTheory Boehm
  BasisSpec Basis BasisFacts SpacesSpec Spaces SpacesFacts SplineEdit InsertKnots.
Import ListNotations.
Open Scope Z_scope.

Lemma occurrences_ins1 kv n u : occurrences (ins1 kv n u) u = S (occurrences kv u).
Proof.
  unfold ins1. rewrite occurrences_app. rewrite <- (firstn_skipn n kv) at 3. rewrite occurrences_app.
  unfold occurrences at 2. cbn [count_occ]. destruct (Req_EM_T u u); [|congruence]. fold (occurrences (skipn n kv) u). lia.
Qed.

(* knots below the first copy of u *)
Lemma inner_below kv p u n : inner kv p u n -> p + 1 + Z.of_nat (occurrences kv u) <= Z.of_nat n.
Proof.
  intros Hin. pose proof (inner_ends _ _ _ _ Hin) as [E1 _]. destruct Hin as ((Hp & (Hc & Hcl) & Hn & _) & _ & Ha & Hu).
  destruct (occurrences_below kv u n Hn Ha) as (H1 & H2 & H3).
  destruct (Z_le_dec (p + 1 + Z.of_nat (occurrences kv u)) (Z.of_nat n)) as [|C]; auto. exfalso.
  destruct (Hcl (Z.to_nat p) ltac:(lia)) as [E _]. rewrite H3 in E by lia. lra.
Qed.

Lemma inner_shrink kv p u n : inner kv p u n -> (1 <= occurrences kv u)%nat ->
  exists kv0, kv = ins1 kv0 (n - 1) u /\ inner kv0 p u (n - 1).
Proof.
  intros Hin Ho. pose proof (inner_ends _ _ _ _ Hin) as [E1 E2]. pose proof (inner_below _ _ _ _ Hin) as E3. unfold zlen in E2.
  destruct Hin as ((Hp & (Hc & Hcl) & Hn & Hsep & Hne) & Hs & Ha & Hu).
  destruct (occurrences_below kv u n Hn Ha) as (O1 & O2 & O3). destruct Ha as (H1 & H2 & H3).
  assert (Eu : nth (n - 1) kv 0%R = u) by (apply O3; lia).
  destruct (nth_split kv 0%R (n := n - 1) ltac:(lia)) as (l1 & l2 & Ekv & El). rewrite Eu in Ekv.
  assert (HI : kv = ins1 (l1 ++ l2) (n - 1) u).
  { unfold ins1. rewrite <- El, firstn_app, skipn_app, firstn_all, skipn_all, Nat.sub_diag. cbn. rewrite app_nil_r. exact Ekv. }
  set (kv0 := l1 ++ l2) in *. assert (HL : length kv = S (length kv0)).
  { rewrite HI. apply ins1_length. unfold kv0. rewrite app_length. lia. }
  set (m := (n - 1)%nat) in *. assert (Hm : n = S m) by lia.
  assert (K1 : forall i, (i < m)%nat -> knot kv0 i = knot kv i).
  { intros i Hi. rewrite HI, knot_ins1 by lia. destruct (Nat.ltb_spec i m); [auto | lia]. }
  assert (K2 : forall i, (m <= i)%nat -> knot kv0 i = knot kv (S i)).
  { intros i Hi. rewrite HI, knot_ins1 by lia. destruct (Nat.ltb_spec (S i) m); [lia|]. destruct (Nat.eqb_spec (S i) m); [lia|].
    f_equal. lia. }
  assert (Ef : first_knot kv0 = first_knot kv) by (apply (K1 0%nat); lia).
  assert (El2 : final_knot kv0 = final_knot kv).
  { change (knot kv0 (length kv0 - 1) = knot kv (length kv - 1)). rewrite K2 by lia. f_equal. lia. }
  exists kv0. split; [exact HI|]. 
  assert (HIn : forall x, In x kv0 -> In x kv).
  { intros x Hx. rewrite Ekv. unfold kv0 in Hx. apply in_app_iff in Hx. apply in_app_iff. cbn. tauto. }
  split; [|split; [|split]].
  - split; [auto|]. split; [|split; [|split]].
    + split; [lia|]. intros j Hj. rewrite Ef, El2. split.
      * rewrite K1 by lia. apply Hcl; auto.
      * rewrite K2 by lia. replace (S (length kv0 - 1 - j)) with (length kv - 1 - j)%nat by lia. apply Hcl; auto.
    + intros i j Hij Hj. destruct (Nat.lt_ge_cases i m); destruct (Nat.lt_ge_cases j m); try lia;
        rewrite ?(K1 i), ?(K1 j), ?(K2 i), ?(K2 j) by lia; apply Hn; lia.
    + apply (separated_incl _ kv); auto.
    + now rewrite Ef, El2.
  - apply (separated_incl _ (u :: kv)); auto. intros x [<-|Hx]; [now left | right; auto].
  - split; [lia|]. split.
    + intros i Hi. rewrite K1 by lia. apply H2. lia.
    + intros i Hi. rewrite K2 by lia. apply H3. lia.
  - now rewrite Ef, El2.
Qed.

Lemma inner_remove dz kv p u n : inner kv p u n -> kv_remove (F := Rops dz) (ins1 kv n u) u = Ok kv.
Proof.
  intros Hin. pose proof (inner_step _ _ _ _ Hin) as Hin'. unfold kv_remove.
  rewrite (inner_span dz _ _ _ _ Hin'). cbn [bind]. rewrite (inner_is_last dz _ _ _ _ Hin'). cbn [bind].
  replace (Z.of_nat (S n) - 1) with (Z.of_nat n) by lia.
  destruct Hin as (_ & _ & (H1 & _) & _).
  rewrite erase_at_nat by (rewrite ins1_length by lia; lia). f_equal. unfold ins1.
  assert (L : length (firstn n kv) = n) by (rewrite firstn_length; lia).
  rewrite firstn_app, L, Nat.sub_diag, firstn_all2 by lia. cbn [firstn]. rewrite app_nil_r.
  rewrite skipn_app, L. replace (S n - n)%nat with 1%nat by lia. rewrite (skipn_all2 (firstn n kv)) by lia. cbn [skipn app].
  apply firstn_skipn.
Qed.

Lemma remove_scaling_ok dz kv u p last : zlen kv < 2 ^ 64 -> 0 <= p -> last + p + 1 < zlen kv ->
  forall fuel j, 0 <= j -> last - j + 1 <= Z.of_nat fuel ->
  remove_scaling (F := Rops dz) fuel kv u p j last =
  Ok (map (fun x => ndiv (n := Rops dz) (u - tk kv x)%R (tk kv (x + p + 1) - tk kv x)%R) (zseq j (Z.to_nat (last - j + 1)))).
Proof.
  intros Hz Hp Hl. induction fuel as [|f IH]; intros j Hj Hf; cbn [remove_scaling]; destruct (Z.leb_spec j last) as [H|H]; try lia.
  - replace (Z.to_nat (last - j + 1)) with 0%nat by lia. reflexivity.
  - rewrite get_knot_tk by (rnorm; lia). cbn [bind].
    assert (E1 : u64 (j + p + 1) = j + p + 1) by (unfold u64; apply Z.mod_small; lia).
    assert (E2 : u64 (j + 1) = j + 1) by (unfold u64; apply Z.mod_small; lia).
    rewrite E1, E2. rewrite get_knot_tk by (rnorm; lia). cbn [bind].
    rewrite IH by lia. cbn [bind]. replace (Z.to_nat (last - j + 1)) with (S (Z.to_nat (last - (j + 1) + 1))) by lia.
    reflexivity.
  - replace (Z.to_nat (last - j + 1)) with 0%nat by lia. reflexivity.
Qed.
