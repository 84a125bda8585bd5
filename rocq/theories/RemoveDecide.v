(* When one pass of RemoveKnot succeeds, and the net it leaves (real arithmetic). *)
From Coq Require Import ZArith List Bool Lia Reals Lra Permutation.
From Verif Require Import Base BaseFacts RSum MultiIndex MultiIndexSpec MultiIndexFacts TensorSum
  KnotVec KnotVecSpec KnotVecFacts BSplineTheory Boehm BasisSpec Basis BasisFacts VecUtils Spaces SpacesSpec
  SpacesFacts SplineEval SplineEdit SplineSpec DegreeSpec EvalFacts EvalThms PhysFacts AdjustFacts InsertKnots InsertFacts
  EditSpec InsertThms RemoveFacts RemoveCompact RemoveCheck RemovePoints RemoveKnots RemoveMain RemoveThms RemoveSpec.
Import ListNotations.
Open Scope Z_scope.

Lemma from_left_ext q q' a a' i0 m : (forall j, q j = q' j) -> (forall j, i0 < j <= i0 + Z.of_nat m -> a j = a' j) ->
  from_left q a i0 m = from_left q' a' i0 m.
Proof.
  intros Hq. induction m as [|m IH]; intros Ha; cbn [from_left]; auto. cbv zeta.
  rewrite Hq, (Ha (i0 + Z.of_nat (S m))), IH by (intros; try apply Ha; lia). reflexivity.
Qed.
Lemma from_right_ext q q' a a' i1 m : (forall j, q j = q' j) -> (forall j, i1 - Z.of_nat m <= j < i1 -> a j = a' j) ->
  from_right q a i1 m = from_right q' a' i1 m.
Proof.
  intros Hq. induction m as [|m IH]; intros Ha; cbn [from_right]; auto. cbv zeta.
  rewrite Hq, (Ha (i1 - Z.of_nat (S m))), IH by (intros; try apply Ha; lia). reflexivity.
Qed.
Lemma from_left_one q a i0 m : (forall j, q j = 1%R) -> (forall j, i0 < j <= i0 + Z.of_nat m -> a j <> 0%R) -> from_left q a i0 m = 1%R.
Proof.
  intros Hq. induction m as [|m IH]; intros Ha; cbn [from_left]; auto. cbv zeta.
  rewrite Hq, IH by (intros; apply Ha; lia). field. apply Ha. lia.
Qed.
Lemma from_right_one q a i1 m : (forall j, q j = 1%R) -> (forall j, i1 - Z.of_nat m <= j < i1 -> a j <> 1%R) -> from_right q a i1 m = 1%R.
Proof.
  intros Hq. induction m as [|m IH]; intros Ha; cbn [from_right]; auto. cbv zeta.
  rewrite Hq, IH by (intros; apply Ha; lia). field. intros C. apply (Ha (i1 - Z.of_nat (S m))); [lia|]. lra.
Qed.

Section Decide.
Context {dz : R -> R}.
Notation F := (Rops dz).
Implicit Types s : spline F.

Lemma left_upd s d a first cur x c i : left_part s d a first (upd cur d x) c i = left_part s d a first cur c i.
Proof. apply from_left_ext; auto. intros j. now rewrite upd_upd. Qed.
Lemma right_upd s d a last cur x c i : right_part s d a last (upd cur d x) c i = right_part s d a last cur c i.
Proof. apply from_right_ext; auto. intros j. now rewrite upd_upd. Qed.

Lemma hpart_low s idx c : 0 <= c < ph_dim (sp_ph s) -> hpart s idx c = (pweight dz (sp_ph s) idx * pcoord dz (sp_ph s) idx c)%R.
Proof. intros H. unfold hpart. destruct (Z.ltb_spec c (ph_dim (sp_ph s))); [|lia]. now rewrite weight_p, coordinate_p. Qed.
Lemma hpart_top s idx : hpart s idx (ph_dim (sp_ph s)) = pweight dz (sp_ph s) idx.
Proof. unfold hpart. rewrite Z.ltb_irrefl. now rewrite weight_p. Qed.

Lemma parts_split s : 1 <= ph_dim (sp_ph s) -> parts s = zseq 0 (Z.to_nat (ph_dim (sp_ph s))) ++ [ph_dim (sp_ph s)].
Proof.
  intros H. unfold parts. replace (Z.to_nat (ph_dim (sp_ph s) + 1)) with (Z.to_nat (ph_dim (sp_ph s)) + 1)%nat by lia.
  rewrite zseq_app. cbn [zseq]. do 2 f_equal. lia.
Qed.

(* the removed knot vector *)
Lemma range_inner s d kv p u first last : well_formed s -> direction s d kv p -> removal_range kv p u first last ->
  (first_knot kv < u)%R -> Z.of_nat (occurrences kv u) <= p -> 
  exists kv0 k, kv = ins1 kv0 k u /\ inner kv0 p u k /\ (1 <= k < length kv0)%nat /\ Z.of_nat (occurrences kv0 u) < p /\
    first = Z.of_nat k - p /\ last = Z.of_nat k - 1 - Z.of_nat (occurrences kv0 u) /\
    zlen kv = zlen kv0 + 1.
Proof.
  intros Hwf [Ek Ed] (k & Hk & Eu & Hlt & -> & ->) Hu Ho.
  destruct (wf_direction dz s d kv p Hwf Ek Ed) as (Hg & _).
  assert (Hin : In u kv) by (rewrite <- Eu; apply nth_In; lia).
  assert (Hnd : nondecreasing kv) by apply Hg.
  assert (Hfin : (u < final_knot kv)%R).
  { eapply Rlt_le_trans; [exact Hlt|]. change (final_knot kv) with (knot kv (length kv - 1)). apply Hnd; lia. }
  assert (Hsep : separated (u :: kv)).
  { pose proof Hg as (_ & _ & _ & Hs & _). apply (separated_incl _ kv); auto. intros x [<-|Hx]; auto. }
  destruct (at_pos_exists dz kv p u Hg Hsep ltac:(lra)) as (n & Hn & _).
  assert (En : n = S k).
  { destruct Hn as (N1 & N2 & N3). destruct (Nat.lt_trichotomy n (S k)) as [C|[C|C]]; auto.
    - specialize (N3 k ltac:(lia)). lra.
    - specialize (N2 (S k) C). lra. }
  subst n. assert (Hinn : inner kv p u (S k)) by (split; [auto|]; split; [auto|]; split; [auto | lra]).
  destruct (inner_shrink kv p u (S k) Hinn) as (kv0 & E0 & Hin0).
  { apply count_occ_In. exact Hin. }
  replace (S k - 1)%nat with k in * by lia.
  assert (Hk0 : (1 <= k < length kv0)%nat) by (destruct Hin0 as (_ & _ & (H & _) & _); exact H).
  exists kv0, k. assert (Eo : occurrences kv u = S (occurrences kv0 u)) by (rewrite E0; apply occurrences_ins1).
  rewrite Eo in *. split; [auto|]. split; [auto|]. split; [auto|]. split; [lia|]. split; [auto|]. split; [lia|].
  rewrite E0. unfold zlen. rewrite ins1_length by lia. lia.
Qed.

Lemma ratio_alpha kv0 k u p x : inner kv0 p u k -> (1 <= k < length kv0)%nat ->
  Z.of_nat k - p <= x <= Z.of_nat k - 1 -> 
  ratio (ins1 kv0 k u) p u x = alpha (tk kv0) (Z.of_nat k - 1) u (Z.to_nat p) x.
Proof.
  intros Hin Hk Hx. pose proof (inner_ends _ _ _ _ Hin) as [E1 E2]. pose proof (inner_below _ _ _ _ Hin) as E3.
  pose proof Hin as ((Hp & _) & _). unfold zlen in *.
  unfold ratio, alpha. rewrite Z2Nat.id by lia. destruct (Z_le_dec (x + p) (Z.of_nat k - 1)); [lia|].
  destruct (Z_le_dec x (Z.of_nat k - 1)); [|lia].
  rewrite !knot_ins1 by lia. rewrite !tk_knot' by (unfold zlen; lia).
  destruct (Nat.ltb_spec (Z.to_nat x) k); [|lia]. destruct (Nat.ltb_spec (Z.to_nat (x + p + 1)) k); [lia|].
  destruct (Nat.eqb_spec (Z.to_nat (x + p + 1)) k); [lia|]. replace (Z.to_nat (x + p + 1) - 1)%nat with (Z.to_nat (x + p)) by lia. reflexivity.
Qed.

(* everything about one pass *)
Section One.
Variables (s : spline F) (d : nat) (kv0 : list R) (p : Z) (u tol : R) (k : nat).
Hypothesis Hwf : well_formed s.
Hypothesis Ek : nth_error (knots_of s) d = Some (ins1 kv0 k u).
Hypothesis Ed : nth_error (degs_of s) d = Some p.
Hypothesis Hin : inner kv0 p u k.
Hypothesis Hk : (1 <= k < length kv0)%nat.
Hypothesis Ho : Z.of_nat (occurrences kv0 u) < p.
Hypothesis Hz : zlen kv0 + 1 < 2 ^ 31.
Notation first := (Z.of_nat k - p).
Notation last := (Z.of_nat k - 1 - Z.of_nat (occurrences kv0 u)).
Notation a := (ratio (ins1 kv0 k u) p u).
Notation ph := (sp_ph s).
Notation dim := (ph_dim (sp_ph s)).
Notation lens := (ph_npts (sp_ph s)).
Notation mi := (middle first last).
Notation op := (opposite first last).
Hypothesis Hnz : is_bspline s \/ weights_nonzero s d a first last.

(* the temporary values, homogeneous *)
Definition T (idx : list Z) (c : Z) : R :=
  if nth d idx 0 <? mi then left_part s d a first idx c (nth d idx 0) else right_part s d a last idx c (nth d idx 0).

Lemma mid_range : first <= last /\ first <= mi <= last /\ first - 1 <= op <= last /\ (mi = op \/ mi = op + 1).
Proof. assert (H : first <= last) by lia. split; [exact H|]. exact (half_range first last H). Qed.

Lemma a_range x : first <= x <= last -> (0 < a x < 1)%R /\ a x = alpha (tk kv0) (Z.of_nat k - 1) u (Z.to_nat p) x.
Proof.
  intros Hx. destruct (remove_once_eq dz s d kv0 p u k 0%R Hwf Ek Ed Hin Ho Hz) as (_ & _ & _ & _ & _ & A & _).
  destruct (A x Hx) as [_ A2]. rewrite (ratio_alpha kv0 k u p x Hin Hk) by lia. auto.
Qed.

Lemma T_end idx c : (d < length idx)%nat -> nth d idx 0 = first - 1 \/ nth d idx 0 = last + 1 -> T idx c = hpart s idx c.
Proof.
  intros Hd Hx. pose proof mid_range as (M1 & M2 & M3 & M4). unfold T, left_part, right_part. destruct Hx as [E|E]; rewrite E.
  - destruct (Z.ltb_spec (first - 1) mi); [|lia]. rewrite Z.sub_diag. cbn [Z.to_nat from_left]. rewrite <- E. now rewrite upd_nth_self.
  - destruct (Z.ltb_spec (last + 1) mi); [lia|]. rewrite Z.sub_diag. cbn [Z.to_nat from_right]. rewrite <- E. now rewrite upd_nth_self.
Qed.
Lemma T_lo idx c : (d < length idx)%nat -> first - 1 < nth d idx 0 < mi ->
  T idx c = ((hpart s idx c - (1 - a (nth d idx 0%Z)) * T (below d idx) c) / a (nth d idx 0%Z))%R.
Proof.
  intros Hd Hx. unfold T, below. rewrite nth_upd_same by auto. destruct (Z.ltb_spec (nth d idx 0) mi); [|lia].
  destruct (Z.ltb_spec (nth d idx 0 - 1) mi); [|lia]. rewrite left_upd. unfold left_part.
  replace (Z.to_nat (nth d idx 0 - (first - 1))) with (S (Z.to_nat (nth d idx 0 - 1 - (first - 1)))) by lia.
  cbn [from_left]. cbv zeta. replace (first - 1 + Z.of_nat (S (Z.to_nat (nth d idx 0 - 1 - (first - 1))))) with (nth d idx 0) by lia.
  now rewrite upd_nth_self.
Qed.
Lemma T_hi idx c : (d < length idx)%nat -> op < nth d idx 0 <= last ->
  T idx c = ((hpart s idx c - a (nth d idx 0%Z) * T (above d idx) c) / (1 - a (nth d idx 0%Z)))%R.
Proof.
  intros Hd Hx. pose proof mid_range as (M1 & M2 & M3 & M4). unfold T, above. rewrite nth_upd_same by auto.
  destruct (Z.ltb_spec (nth d idx 0) mi); [lia|].
  destruct (Z.ltb_spec (nth d idx 0 + 1) mi); [lia|]. rewrite right_upd. unfold right_part.
  replace (Z.to_nat (last + 1 - nth d idx 0)) with (S (Z.to_nat (last + 1 - (nth d idx 0 + 1)))) by lia.
  cbn [from_right]. cbv zeta. replace (last + 1 - Z.of_nat (S (Z.to_nat (last + 1 - (nth d idx 0 + 1))))) with (nth d idx 0) by lia.
  now rewrite upd_nth_self.
Qed.

Lemma dirlen : (d < length lens)%nat.
Proof. apply (wf_direction dz s d _ p Hwf Ek Ed). Qed.

Lemma weight_one : is_weighted dz ph = false -> forall idx, pweight dz ph idx = 1%R.
Proof. apply wat_one. Qed.

Lemma T_one idx : is_weighted dz ph = false -> (first - 1 <= nth d idx 0 < mi \/ op < nth d idx 0 <= last + 1) -> T idx dim = 1%R.
Proof.
  intros Hw Hx. pose proof mid_range as (M1 & M2 & M3 & M4). unfold T. destruct (Z.ltb_spec (nth d idx 0) mi).
  - apply from_left_one; [intros j; rewrite hpart_top; now apply weight_one|].
    intros j Hj. destruct (a_range j ltac:(lia)) as [A _]. lra.
  - apply from_right_one; [intros j; rewrite hpart_top; now apply weight_one|].
    intros j Hj. destruct (a_range j ltac:(lia)) as [A _]. lra.
Qed.

Lemma line_of idx : in_box lens idx -> In (upd idx d 0) (lines_of s d).
Proof. intros Hb. apply all_indices_box. apply in_box_upd_both; auto. lia. Qed.

Lemma T_nz idx : in_box lens idx -> (first - 1 <= nth d idx 0 < mi \/ op < nth d idx 0 <= last + 1) -> T idx dim <> 0%R.
Proof.
  intros Hb Hx. pose proof mid_range as (M1 & M2 & M3 & M4).
  destruct Hnz as [Hbs|Hw].
  - rewrite (T_one idx (proj2 (weighted_bspline dz s) Hbs) Hx). apply R1_neq_R0.
  - destruct (Hw _ (line_of idx Hb)) as [W1 W2]. unfold T. destruct (Z.ltb_spec (nth d idx 0) mi).
    + rewrite <- (left_upd s d _ _ idx 0). apply W1. lia.
    + rewrite <- (right_upd s d _ _ idx 0). apply W2. lia.
Qed.

Definition tw (idx : list Z) : R := T idx dim.
Definition tp (idx : list Z) (c : Z) : R := (T idx c / T idx dim)%R.
Notation sc := (rscale kv0 p u first last).

Lemma net_exact : exists r tol', remove_points (F := F) ph sc first last d tol = Ok r /\
  effective dz ph tol tol' /\
  (r <> None <-> accepted s d a first last tol') /\
  forall ph4, r = Some ph4 ->
    phys_ok dz ph4 /\ ph_dim ph4 = dim /\ ph_npts ph4 = short lens d /\ is_weighted dz ph4 = is_weighted dz ph /\
    forall idx, in_box (short lens d) idx ->
      pweight dz ph4 idx = new_part s d a first last idx dim /\
      forall c, 0 <= c < dim -> (pweight dz ph4 idx * pcoord dz ph4 idx c)%R = new_part s d a first last idx c.
Proof.
  destruct (remove_once_eq dz s d kv0 p u k tol Hwf Ek Ed Hin Ho Hz) as (G1 & G2 & G3 & G4 & G5 & A1 & A2 & A3 & EQ).
  unfold npts_of in *.
  pose proof mid_range as (_ & M2 & M3 & M4). pose proof dirlen as Hd.
  pose proof (wf_phys dz s Hwf) as Hok. pose proof Hok as (Hp & Hdim & _).
  assert (Hal : forall x, first <= x <= last -> coef (first - 1) sc x = a x).
  { intros x Hx. destruct (A1 x Hx) as [B1 _]. destruct (a_range x Hx) as [_ B2]. congruence. }
  assert (Hlen : forall idx, inslot lens d (first - 1) last idx -> (d < length idx)%nat).
  { intros idx [Hb _]. rewrite (in_box_length _ _ Hb). exact Hd. }
  assert (Hhq : forall idx c, 0 <= c < dim -> hq dz ph idx c = hpart s idx c).
  { intros idx c Hc. rewrite hpart_low by auto. unfold hq. destruct (is_weighted dz ph) eqn:Ew; [ring|]. rewrite weight_one by auto. ring. }
  assert (Hfin : forall idx y, inslot lens d (first - 1) last idx -> (nth d idx 0 < mi \/ op < nth d idx 0) -> fin dz ph tw idx y = (y / T idx dim)%R).
  { intros idx y [Hb Hx] Hy. unfold fin. destruct (is_weighted dz ph) eqn:Ew; [apply ndiv_R; apply T_nz; auto; lia|].
    rewrite T_one; auto; [field | lia]. }
  assert (Hew : forall idx, (first - 1 <= nth d idx 0 < mi \/ op < nth d idx 0 <= last + 1) -> ew dz ph tw idx = T idx dim).
  { intros idx Hx. unfold ew. destruct (is_weighted dz ph) eqn:Ew; [reflexivity|]. symmetry. now apply T_one. }
  assert (Htp : forall idx c, in_box lens idx -> (first - 1 <= nth d idx 0 < mi \/ op < nth d idx 0 <= last + 1) -> (tp idx c * T idx dim = T idx c)%R).
  { intros idx c Hb Hx. unfold tp. field. now apply T_nz. }
  destruct (remove_points_exact dz ph d first last sc tw tp Hok Hd G1 G2 G3 ltac:(rnorm; lia)) with (tol := tol)
    as (r & E & H & tol' & HE & HB).
  - intros _ idx Hx Hy. unfold tw. rewrite T_end by auto. apply hpart_top.
  - intros _ idx Hx Hy. change (fi first last) with mi in Hy. unfold tw. rewrite T_lo by (auto; lia). rewrite Hal by lia. rewrite hpart_top.
    destruct (a_range (nth d idx 0) ltac:(lia)) as [B _]. rewrite ndiv_R by lra. reflexivity.
  - intros _ idx Hx Hy. change (fj first last) with op in Hy. unfold tw. rewrite T_hi by (auto; lia). rewrite Hal by lia. rewrite hpart_top.
    destruct (a_range (nth d idx 0) ltac:(lia)) as [B _]. rewrite ndiv_R by lra.
    replace (1 - (1 - a (nth d idx 0%Z)))%R with (a (nth d idx 0%Z)) by ring. reflexivity.
  - intros idx c Hx Hc Hy. rewrite Hfin by (auto; lia). rewrite Hhq by auto. unfold tp. now rewrite (T_end idx c) by auto.
  - intros idx c Hx Hc Hy. change (fi first last) with mi in Hy. rewrite Hfin by (auto; lia). rewrite Hhq by auto.
    assert (Hb' : in_box lens (below d idx)) by (unfold below; apply in_box_move; [apply Hx | lia]).
    assert (Nb : nth d (below d idx) 0 = nth d idx 0 - 1) by (unfold below; apply nth_upd_same; auto).
    rewrite Hew by (rewrite Nb; lia). rewrite Rmult_assoc, Htp by (auto; rewrite Nb; lia).
    unfold tp. rewrite (T_lo idx c) by (auto; lia). rewrite Hal by lia.
    destruct (a_range (nth d idx 0) ltac:(lia)) as [B _]. rewrite ndiv_R by lra. reflexivity.
  - intros idx c Hx Hc Hy. change (fj first last) with op in Hy. rewrite Hfin by (auto; lia). rewrite Hhq by auto.
    assert (Hb' : in_box lens (above d idx)) by (unfold above; apply in_box_move; [apply Hx | lia]).
    assert (Nb : nth d (above d idx) 0 = nth d idx 0 + 1) by (unfold above; apply nth_upd_same; auto).
    rewrite Hew by (rewrite Nb; lia). rewrite Rmult_assoc, Htp by (auto; rewrite Nb; lia).
    unfold tp. rewrite (T_hi idx c) by (auto; lia). rewrite Hal by lia.
    destruct (a_range (nth d idx 0) ltac:(lia)) as [B _]. rewrite ndiv_R by lra.
    replace (1 - (1 - a (nth d idx 0%Z)))%R with (a (nth d idx 0%Z)) by ring. reflexivity.
  - exists r, tol'. split; [exact E|]. split; [exact HE|]. split.
    + rewrite HB. unfold accepted, lines_of.
      assert (EQV : forall cur, in_box (upd lens d 1) cur ->
        (accepts dz ph d first last sc tw tp tol' cur <->
         (gap_ends s d a first last cur <= tol')%R \/ (gap_middle s d a first last cur <= tol')%R)).
      { intros cur Hb. assert (L : (d < length cur)%nat) by (rewrite (in_box_length _ _ Hb), upd_length; auto).
        assert (Q : forall x, nth d (upd cur d x) 0 = x) by (intros; apply nth_upd_same; auto).
        assert (Bx : forall x, first - 1 <= x <= last + 1 -> in_box lens (upd cur d x)) by (intros x Hx; eapply in_box_upd; eauto; lia).
        unfold accepts, gap_ends, gap_middle. cbv zeta. change (fi first last) with mi. change (fj first last) with op.
        rewrite parts_split by auto. rewrite !map_app. cbn [map].
        rewrite Hal by lia.
        assert (Tl : forall c, T (upd cur d (mi - 1)) c = left_part s d a first cur c (mi - 1)).
        { intros c. unfold T. rewrite Q. destruct (Z.ltb_spec (mi - 1) mi); [|lia]. apply left_upd. }
        assert (Tr : forall x c, mi <= x -> T (upd cur d x) c = right_part s d a last cur c x).
        { intros x c Hx. unfold T. rewrite Q. destruct (Z.ltb_spec x mi); [lia|]. apply right_upd. }
        assert (E1 : ewt dz ph tw (upd cur d (mi - 1)) = left_part s d a first cur dim (mi - 1)).
        { rewrite <- Tl. apply Hew. rewrite Q. lia. }
        assert (E2 : ewt dz ph tw (upd cur d (op + 1)) = right_part s d a last cur dim (op + 1)).
        { rewrite <- Tr by lia. apply Hew. rewrite Q. lia. }
        assert (E3 : ewt dz ph tw (upd cur d (mi + 1)) = right_part s d a last cur dim (mi + 1)).
        { rewrite <- Tr by lia. apply Hew. rewrite Q. lia. }
        assert (E4 : ewq dz ph (upd cur d mi) = hpart s (upd cur d mi) dim).
        { rewrite hpart_top. unfold ewq. destruct (is_weighted dz ph) eqn:Ew; auto. symmetry. now apply weight_one. }
        rewrite E1, E2, E3, E4.
        assert (P1 : forall c, (tp (upd cur d (mi - 1)%Z) c * left_part s d a first cur dim (mi - 1)%Z = left_part s d a first cur c (mi - 1)%Z)%R).
        { intros c. rewrite <- !Tl. apply Htp; [apply Bx; lia | rewrite Q; lia]. }
        assert (P2 : forall x c, mi <= x -> op < x -> x <= last + 1 -> (tp (upd cur d x) c * right_part s d a last cur dim x = right_part s d a last cur c x)%R).
        { intros x c X1 X2 X3. rewrite <- !Tr by auto. apply Htp; [apply Bx; lia | rewrite Q; lia]. }
        assert (M1 : map (fun c => tp (upd cur d (mi - 1)%Z) c * left_part s d a first cur dim (mi - 1)%Z)%R (zseq 0 (Z.to_nat dim))
                   = map (fun c => left_part s d a first cur c (mi - 1)) (zseq 0 (Z.to_nat dim))) by (apply map_ext; intros; apply P1).
        assert (M5 : map (fun c => tp (upd cur d (op + 1)%Z) c * right_part s d a last cur dim (op + 1)%Z)%R (zseq 0 (Z.to_nat dim))
                   = map (fun c => right_part s d a last cur c (op + 1)) (zseq 0 (Z.to_nat dim))) by (apply map_ext; intros; apply P2; lia).
        assert (M6 : map (fun c => pcoord dz ph (upd cur d mi) c * hpart s (upd cur d mi) dim)%R (zseq 0 (Z.to_nat dim))
                   = map (fun c => hpart s (upd cur d mi) c) (zseq 0 (Z.to_nat dim))).
        { apply map_ext_in. intros c Hc. apply zseq_In in Hc. rewrite hpart_top, hpart_low by lia. ring. }
        assert (M7 : map (fun c => a mi * tp (upd cur d (mi + 1)%Z) c * right_part s d a last cur dim (mi + 1)%Z
                             + (1 - a mi) * tp (upd cur d (mi - 1)%Z) c * left_part s d a first cur dim (mi - 1)%Z)%R (zseq 0 (Z.to_nat dim))
                   = map (fun c => a mi * right_part s d a last cur c (mi + 1)%Z + (1 - a mi) * left_part s d a first cur c (mi - 1)%Z)%R (zseq 0 (Z.to_nat dim))).
        { apply map_ext. intros c. rewrite !Rmult_assoc, P1, P2 by lia. reflexivity. }
        rewrite M1, M5, M6, M7. reflexivity. }
      split; intros HH cur Hc.
      * apply EQV; [now apply all_indices_box|]. apply HH. now apply all_indices_box.
      * apply EQV; auto. apply HH. now apply all_indices_box.
    + intros ph4 Er. destruct (H ph4 Er) as (H1 & H2 & H3 & H4 & H5 & H6).
      split; [auto|]. split; [auto|]. split; [auto|]. split; [auto|]. intros idx Hb.
      assert (Lx : (d < length idx)%nat) by (rewrite (in_box_length _ _ Hb); unfold short; rewrite upd_length; auto).
      pose proof (in_box_nth _ _ d Hb ltac:(unfold short; rewrite upd_length; auto)) as Hx. unfold short in Hx. rewrite nth_upd_same in Hx by auto.
      set (i := nth d idx 0) in *.
      assert (Hb0 : in_box lens idx).
      { assert (E0 : idx = upd idx d i) by (symmetry; apply upd_nth_self). rewrite E0.
        eapply in_box_upd; [exact Hb | lia]. }
      assert (Hb1 : in_box lens (upd idx d (i + 1))) by (apply in_box_move; [auto | lia]).
      assert (KP : forall c, 0 <= c < dim ->
         (keepW dz ph d first last tw (source d mi idx) * keepP dz ph d first last tp (source d mi idx) c = new_part s d a first last idx c)%R /\
         keepW dz ph d first last tw (source d mi idx) = new_part s d a first last idx dim).
      { intros c Hc. unfold new_part, keepW, keepP, source. cbv zeta. fold i. destruct (Z.ltb_spec i mi) as [C|C].
        - fold i. destruct (Z.ltb_spec i first) as [C1|C1].
          + destruct (Z.leb_spec i (first - 1)); [|lia]. cbn [orb]. rewrite hpart_low by auto. now rewrite hpart_top.
          + destruct (Z.leb_spec i (first - 1)); [lia|]. destruct (Z.leb_spec (last + 1) i); [lia|]. cbn [orb].
            unfold tw. assert (ET : forall c, T idx c = left_part s d a first idx c i).
            { intros c'. unfold T. fold i. destruct (Z.ltb_spec i mi); [reflexivity | lia]. }
            split; [|apply ET]. rewrite Rmult_comm, Htp; [apply ET | auto | fold i; lia].
        - assert (Na : nth d (above d idx) 0 = i + 1) by (unfold above; apply nth_upd_same; auto). rewrite Na.
          destruct (Z.leb_spec (i + 1) (first - 1)); [lia|]. cbn [orb].
          change (above d idx) with (upd idx d (i + 1)).
          destruct (Z.ltb_spec last i) as [C1|C1].
          + destruct (Z.leb_spec (last + 1) (i + 1)); [|lia]. rewrite hpart_low by auto. now rewrite hpart_top.
          + assert (ET : forall c, T (upd idx d (i + 1)) c = right_part s d a last idx c (i + 1)).
            { intros c'. unfold T. rewrite nth_upd_same by auto. destruct (Z.ltb_spec (i + 1) mi); [lia|]. apply right_upd. }
            destruct (Z.leb_spec (last + 1) (i + 1)) as [C2|C2].
            * assert (Ei : i = last) by lia. rewrite <- !ET.
              rewrite !T_end by (rewrite ?upd_length, ?nth_upd_same; auto; lia). rewrite hpart_low by auto. now rewrite hpart_top.
            * unfold tw. split; [|apply ET]. rewrite Rmult_comm, Htp; [apply ET | auto | rewrite nth_upd_same by auto; lia]. }
      assert (KW : pweight dz ph4 idx = new_part s d a first last idx dim).
      { destruct (is_weighted dz ph) eqn:Ew; [rewrite H6 by auto; apply (KP 0); lia|].
        rewrite (wat_one dz ph4) by congruence. symmetry.
        unfold new_part. cbv zeta. fold i. destruct (Z.ltb_spec i mi) as [C|C].
        - destruct (Z.ltb_spec i first); [rewrite hpart_top; now apply weight_one|].
          assert (ET : left_part s d a first idx dim i = T idx dim).
          { unfold T. fold i. destruct (Z.ltb_spec i mi); [reflexivity | lia]. }
          rewrite ET. apply T_one; auto. fold i. lia.
        - destruct (Z.ltb_spec last i); [rewrite hpart_top; now apply weight_one|].
          assert (ET : T (upd idx d (i + 1)) dim = right_part s d a last idx dim (i + 1)).
          { unfold T. rewrite nth_upd_same by auto. destruct (Z.ltb_spec (i + 1) mi); [lia|]. apply right_upd. }
          rewrite <- ET. apply T_one; auto. rewrite nth_upd_same by auto. lia. }
      split; [exact KW|]. intros c Hc. rewrite H5 by auto. rewrite KW. destruct (KP c Hc) as [K1 K2]. rewrite <- K2. exact K1.
Qed.
End One.

(* one pass, at the level of splines *)
Lemma decide_once s d kv0 p u tol k : well_formed s ->
  nth_error (knots_of s) d = Some (ins1 kv0 k u) -> nth_error (degs_of s) d = Some p -> inner kv0 p u k ->
  (1 <= k < length kv0)%nat -> Z.of_nat (occurrences kv0 u) < p -> zlen kv0 + 1 < 2 ^ 31 ->
  let first := Z.of_nat k - p in let last := Z.of_nat k - 1 - Z.of_nat (occurrences kv0 u) in
  let a := ratio (ins1 kv0 k u) p u in
  is_bspline s \/ weights_nonzero s d a first last ->
  exists r tol', remove_knot_once s u d tol = Ok r /\ effective dz (sp_ph s) tol tol' /\
    (r <> None <-> accepted s d a first last tol') /\
    forall s', r = Some s' ->
      well_formed s' /\ knots_of s' = upd (knots_of s) d kv0 /\ degs_of s' = degs_of s /\
      ph_dim (sp_ph s') = ph_dim (sp_ph s) /\ npts_of s' = upd (npts_of s) d (nth d (npts_of s) 0 - 1) /\
      is_weighted dz (sp_ph s') = is_weighted dz (sp_ph s) /\
      forall idx, in_box (npts_of s') idx -> forall c, 0 <= c <= ph_dim (sp_ph s) -> hpart s' idx c = new_part s d a first last idx c.
Proof.
  intros Hwf Ek Ed Hin Hk Ho Hz first last a Hnz.
  destruct (remove_once_eq dz s d kv0 p u k tol Hwf Ek Ed Hin Ho Hz) as (_ & _ & _ & _ & _ & _ & _ & _ & EQ).
  destruct (remove_once_ok dz s d kv0 p u k tol Hwf Ek Ed Hin Ho Hz) as (r & E & HR).
  destruct (net_exact s d kv0 p u tol k Hwf Ek Ed Hin Hk Ho Hz Hnz) as (q & tol' & EP & HE & HB & HN).
  rewrite EP in EQ. cbn [bind] in EQ. rewrite EQ in E. injection E as E.
  exists r, tol'. split; [congruence|]. split; [auto|]. split.
  { eapply iff_trans; [|exact HB]. rewrite <- E. destruct q; split; congruence. }
  intros s' Es. destruct (HR s' Es) as (W & K & G & D & N & Wt).
  split; [auto|]. split; [auto|]. split; [auto|]. split; [auto|]. split; [auto|]. split; [auto|].
  destruct q as [ph4|]; [|congruence]. destruct (HN ph4 eq_refl) as (H1 & H2 & H3 & H4 & H5).
  assert (Eph : sp_ph s' = ph4) by (rewrite Es in E; injection E as <-; reflexivity).
  intros idx Hb c Hc. unfold npts_of in Hb. rewrite Eph, H3 in Hb. destruct (H5 idx Hb) as [Q1 Q2].
  destruct (Z.eq_dec c (ph_dim (sp_ph s))) as [->|Nc].
  - rewrite <- D. rewrite hpart_top, Eph, Q1. rewrite H2. reflexivity.
  - rewrite hpart_low by (rewrite D; lia). rewrite Eph. apply Q2. lia.
Qed.

Lemma effective_use s tol t1 t2 : effective dz (sp_ph s) tol t1 -> tolerance_in_use s tol t2 -> t1 = t2.
Proof.
  intros He [Hb Hn]. unfold effective in He. destruct (is_weighted dz (sp_ph s)) eqn:Ew.
  - destruct He as (mw & m & [(i1 & B1 & E1) M1] & [(i2 & B2 & E2) M2] & ->). symmetry. apply Hn.
    + rewrite <- weighted_bspline, Ew. discriminate.
    + split; [exists i1 | intros idx Hi]; rewrite weight_p; [split; auto; now apply all_indices_box | apply M1; now apply all_indices_box].
    + assert (ER : forall idx, from_origin s idx = radius dz (sp_ph s) idx).
      { intros idx. unfold from_origin, radius. f_equal. apply map_ext. intros c. apply coordinate_p. }
      split; [exists i2 | intros idx Hi]; rewrite ER; [split; auto; now apply all_indices_box | apply M2; now apply all_indices_box].
  - subst t1. symmetry. apply Hb. now apply weighted_bspline.
Qed.

(* C26 *)
Lemma removal_decision : forall s d kv p u first last tol tol', well_formed s -> direction s d kv p ->
  removal_range kv p u first last -> (first_knot kv < u)%R -> Z.of_nat (occurrences kv u) <= p -> zlen kv < 2 ^ 31 ->
  is_bspline s \/ weights_nonzero s d (ratio kv p u) first last -> tolerance_in_use s tol tol' ->
  (accepted s d (ratio kv p u) first last tol' ->
     exists s', remove_knot s u d tol 1 = Ok (1, s') /\
       forall idx c, In idx (all_indices (npts_of s')) -> In c (parts s) -> hpart s' idx c = new_part s d (ratio kv p u) first last idx c) /\
  (~ accepted s d (ratio kv p u) first last tol' -> remove_knot s u d tol 1 = Ok (0, s)).
Proof.
  intros s d kv p u first last tol tol' Hwf Hdir Hr Hu Ho Hz Hnz Ht.
  destruct (range_inner s d kv p u first last Hwf Hdir Hr Hu Ho) as (kv0 & k & Ekv & Hin & Hk & Ho0 & Ef & El & EL).
  destruct Hdir as [Ek Ed]. rewrite Ekv in Ek, Hnz. 
  destruct (decide_once s d kv0 p u tol k Hwf Ek Ed Hin Hk Ho0 ltac:(lia)) as (r & t & E & HE & HB & HN).
  { rewrite <- Ef, <- El. exact Hnz. }
  rewrite <- Ef, <- El, <- Ekv in HB, HN. rewrite (effective_use s tol t tol' HE Ht) in HB.
  unfold remove_knot. change (Z.to_nat 1) with 1%nat. cbn [remove_knot_loop]. rewrite E. cbn [bind].
  split; intros HA.
  - destruct r as [s'|]; [|exfalso; apply (proj2 HB HA); reflexivity]. exists s'. split; [reflexivity|].
    intros idx c Hi Hc. destruct (HN s' eq_refl) as (_ & _ & _ & _ & _ & _ & HH). apply HH; [now apply all_indices_box|].
    unfold parts in Hc. apply zseq_In in Hc. destruct Hwf as [_ _ _ Hd _ _]. lia.
  - destruct r as [s'|]; [|reflexivity]. exfalso. apply HA. apply HB. discriminate.
Qed.

Lemma removal_repeats : forall s u d tol m, 0 <= m ->
  (forall s1, remove_knot s u d tol 1 = Ok (1, s1) ->
     remove_knot s u d tol (1 + m) = bind (remove_knot s1 u d tol m) (fun r => Ok (1 + fst r, snd r))) /\
  (forall s1, remove_knot s u d tol 1 = Ok (0, s1) -> remove_knot s u d tol (1 + m) = Ok (0, s)).
Proof.
  intros s u d tol m Hm. unfold remove_knot. replace (Z.to_nat (1 + m)) with (S (Z.to_nat m)) by lia.
  change (Z.to_nat 1) with 1%nat. cbn [remove_knot_loop].
  destruct (remove_knot_once s u d tol) as [[s'|]| |]; cbn [bind fst snd]; split; intros s1 E; try discriminate; auto.
  injection E as <-. reflexivity.
Qed.
End Decide.
