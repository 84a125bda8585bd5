(* Subdivision: the pieces as parts of the spline, and that cuts commute (C87). *)
From Coq Require Import ZArith List Bool Lia Reals Lra Permutation.
From Verif Require Import Base BaseFacts RSum MultiIndex MultiIndexSpec MultiIndexFacts TensorSum
  KnotVec KnotVecSpec KnotVecFacts KnotVecThms BSplineTheory Boehm BasisSpec Basis BasisFacts BasisThms VecUtils Spaces SpacesSpec
  SpacesFacts SpacesThms SplineEval SplineEdit SplineSpec EvalFacts RationalDeriv EvalDeriv SplineNew EvalThms PhysFacts
  AdjustFacts InsertKnots InsertFacts EditSpec InsertThms SubdivideFacts SubdividePieces SubdivideThms UniqueSpec UniqueFacts KnotRuns
  OrderSpec OrderThms.
Import ListNotations.
Open Scope Z_scope.

(* ---- which knots the two parts have ---- *)
Definition lower (kv : list R) (p : Z) (u : R) (kv1 : list R) : Prop :=
  nondecreasing kv1 /\ first_knot kv1 = first_knot kv /\ final_knot kv1 = u /\ zlen kv1 <= zlen kv + p + 1 /\
  (forall x, (x < u)%R -> occurrences kv1 x = occurrences kv x) /\ Z.of_nat (occurrences kv1 u) = p + 1 /\
  (forall x, (u < x)%R -> occurrences kv1 x = 0%nat).
Definition upper (kv : list R) (p : Z) (u : R) (kv2 : list R) : Prop :=
  nondecreasing kv2 /\ first_knot kv2 = u /\ final_knot kv2 = final_knot kv /\ zlen kv2 <= zlen kv + p + 1 /\
  (forall x, (u < x)%R -> occurrences kv2 x = occurrences kv x) /\ Z.of_nat (occurrences kv2 u) = p + 1 /\
  (forall x, (x < u)%R -> occurrences kv2 x = 0%nat).

Lemma firstn_knot (kv : list R) n x : In x (firstn n kv) -> exists i, (i < n)%nat /\ (i < length kv)%nat /\ knot kv i = x.
Proof.
  intros H. apply (In_nth _ _ 0%R) in H as (i & Hi & E). rewrite firstn_length in Hi. exists i. split; [lia|]. split; [lia|].
  rewrite <- E. unfold knot. rewrite <- (firstn_skipn n kv) at 1. rewrite app_nth1 by (rewrite firstn_length; lia). reflexivity.
Qed.
Lemma skipn_knot (kv : list R) n x : In x (skipn n kv) -> exists i, (n <= i < length kv)%nat /\ knot kv i = x.
Proof.
  intros H. apply (In_nth _ _ 0%R) in H as (i & Hi & E). rewrite skipn_length in Hi. exists (n + i)%nat. split; [lia|].
  rewrite <- E. unfold knot. rewrite <- (firstn_skipn n kv) at 1. rewrite app_nth2 by (rewrite firstn_length; lia).
  rewrite firstn_length. f_equal. lia.
Qed.

Lemma left_occ kv p u n : inner kv p u n -> forall x,
  occurrences (left_part kv n) x = if Rle_dec x u then occurrences kv x else 0%nat.
Proof.
  intros (_ & _ & (_ & Hlo & Hhi) & _) x. unfold left_part. destruct (Rle_dec x u) as [Hx|Hx].
  - rewrite <- (firstn_skipn n kv) at 2. rewrite occ_app, (occ_none (skipn n kv)); [lia|].
    intros I. apply skipn_knot in I as (i & Hi & E). specialize (Hhi i Hi). lra.
  - apply occ_none. intros I. apply firstn_knot in I as (i & Hi & _ & E). specialize (Hlo i Hi). lra.
Qed.

Lemma right_occ kv p u n : inner kv p u n -> Z.of_nat (occurrences kv u) = p + 1 -> forall x,
  occurrences (right_part kv p n) x = if Rle_dec u x then occurrences kv x else 0%nat.
Proof.
  intros Hin Hf x. destruct (part_sizes kv p u n Hin Hf) as (Hp & H2 & H3).
  pose proof (right_good kv p u n Hin Hf) as (_ & _ & Hnd & _). destruct (right_ends kv p u n Hin Hf) as [E1 _].
  assert (Hn : (n - 1 - Z.to_nat p <= length kv)%nat) by (unfold zlen in H3; lia).
  set (a := firstn (n - 1 - Z.to_nat p) kv). assert (Es : kv = a ++ right_part kv p n) by (unfold a, right_part; now rewrite firstn_skipn).
  assert (Hw : (Z.to_nat p + 1 <= occurrences (right_part kv p n) u)%nat).
  { apply (occ_window _ 0); [unfold right_part; rewrite skipn_length; unfold zlen in H3; lia|]. intros j Hj. rewrite knot_right.
    replace (0 + j + (n - 1 - Z.to_nat p))%nat with (Z.to_nat (Z.of_nat n - 1 - p + Z.of_nat j)) by lia.
    rewrite <- (tk_knot' kv) by lia. apply (tk_at_u kv p u n Hin Hf). lia. }
  assert (Ha : occurrences a u = 0%nat) by (rewrite Es, occ_app in Hf; lia).
  destruct (Rle_dec u x) as [Hx|Hx].
  - rewrite Es at 2. rewrite occ_app. enough (occurrences a x = 0%nat) by lia.
    destruct (Req_EM_T x u) as [->|Ne]; auto. apply occ_none. intros I. apply firstn_knot in I as (i & Hi & _ & E).
    destruct Hin as (_ & _ & (_ & Hlo & _) & _). specialize (Hlo i ltac:(lia)). lra.
  - apply occ_none. intros I. apply (In_nth _ _ 0%R) in I as (i & Hi & E). specialize (Hnd 0%nat i ltac:(lia) Hi).
    unfold knot in Hnd. rewrite E in Hnd. unfold first_knot in E1. lra.
Qed.

Lemma same_counts l l' : nondecreasing l -> nondecreasing l' -> (forall x, occurrences l x = occurrences l' x) -> l = l'.
Proof. intros H H' E. apply sorted_unique; auto. apply (Permutation_count_occ Req_EM_T). exact E. Qed.

Section Thms.
Variable dz : R -> R.
Local Notation F := (Rops dz).
Implicit Types s : spline F.

Definition strictly s (us : list R) : Prop := Forall2 (fun kv u => (first_knot kv < u < final_knot kv)%R) (knots_of s) us.

Lemma strictly_in s us : strictly s us -> in_domain s us.
Proof. unfold strictly, in_domain. induction 1; constructor; auto; lra. Qed.

Lemma strictly_part ks d kv kv' us : nth_error ks d = Some kv -> (first_knot kv <= first_knot kv')%R -> (final_knot kv' <= final_knot kv)%R ->
  Forall2 (fun kv u => (first_knot kv < u < final_knot kv)%R) (upd ks d kv') us ->
  Forall2 (fun kv u => (first_knot kv < u < final_knot kv)%R) ks us /\ exists v, nth_error us d = Some v /\ (first_knot kv' < v < final_knot kv')%R.
Proof.
  revert d us. induction ks as [|k ks IH]; intros [|d] us Ek H1 H2 H; cbn [upd nth_error] in *; try discriminate.
  - injection Ek as ->. inversion H as [|? v ? vs Hv Hvs]; subst. split; [constructor; [lra | auto] | exists v; split; [reflexivity | lra]].
  - inversion H as [|? v ? vs Hv Hvs]; subst. destruct (IH d vs Ek H1 H2 Hvs) as [A B]. split; [constructor; auto | exact B].
Qed.

(* s' is s over a smaller box *)
Record part s s' : Prop := {
  pt_wf : well_formed s';
  pt_reg : regular s';
  pt_degs : degs_of s' = degs_of s;
  pt_dim : ph_dim (sp_ph s') = ph_dim (sp_ph s);
  pt_wtd : is_weighted dz (sp_ph s') = is_weighted dz (sp_ph s);
  pt_nest : forall us, strictly s' us -> strictly s us;
  pt_sums : forall us, strictly s' us -> weight_function s' us = weight_function s us /\
    forall c, 0 <= c < ph_dim (sp_ph s) -> weighted_sum s' us c = weighted_sum s us c
}.

Lemma part_trans s s1 s2 : part s s1 -> part s1 s2 -> part s s2.
Proof.
  intros H1 H2. constructor; try apply H2.
  - rewrite (pt_degs _ _ H2). apply H1.
  - rewrite (pt_dim _ _ H2). apply H1.
  - rewrite (pt_wtd _ _ H2). apply H1.
  - intros us Hu. apply H1. now apply H2.
  - intros us Hu. destruct (pt_sums _ _ H2 us Hu) as [B1 B2]. destruct (pt_sums _ _ H1 us (pt_nest _ _ H2 us Hu)) as [A1 A2].
    split; [congruence|]. intros c Hc. rewrite B2 by (rewrite (pt_dim _ _ H1); auto). now apply A2.
Qed.

Lemma spans_strict knots degs ks us : Forall2 good_direction knots degs -> inside_spans knots ks us ->
  Forall2 (fun kv u => (first_knot kv < u < final_knot kv)%R) knots us.
Proof.
  intros H. revert ks us. induction H as [|kv p knots degs Hg H IH]; intros [|k ks] [|u us] Hi; cbn [inside_spans] in Hi; try contradiction; constructor.
  - destruct Hi as [(A1 & A2 & A3) _]. destruct Hg as (_ & _ & Hn & _).
    assert (B1 : (first_knot kv <= knot kv (Z.to_nat k))%R) by (apply (Hn 0%nat); unfold zlen in A2; lia).
    assert (B2 : (knot kv (Z.to_nat k + 1) <= final_knot kv)%R) by (apply Hn; unfold zlen in A2; lia). lra.
  - apply (IH ks). apply Hi.
Qed.

(* parts with the same knots are the same spline *)
Lemma part_unique s a b : part s a -> part s b -> knots_of a = knots_of b -> Forall2 full_support (knots_of a) (degs_of a) -> a = b.
Proof.
  intros Pa Pb Ek Hf.
  pose proof (pt_wf _ _ Pa) as W'. pose proof (pt_wf _ _ Pb) as W. pose proof W as [Hd Hb Hn Hdim Hl Hlw]. pose proof W' as [_ Hb' Hn' _ Hl' Hlw'].
  assert (Eg : degs_of a = degs_of b) by (rewrite (pt_degs _ _ Pa); symmetry; apply Pb).
  assert (Ed : ph_dim (sp_ph a) = ph_dim (sp_ph b)) by (rewrite (pt_dim _ _ Pa); symmetry; apply Pb).
  assert (Ew : is_weighted dz (sp_ph a) = is_weighted dz (sp_ph b)) by (rewrite (pt_wtd _ _ Pa); symmetry; apply Pb).
  rewrite Ek, Eg in Hf.
  assert (Hs : forall ks us, inside_spans (knots_of b) ks us -> weight_function a us = weight_function b us /\
    forall c, 0 <= c < ph_dim (sp_ph b) -> weighted_sum a us c = weighted_sum b us c).
  { intros ks us Hi. pose proof (spans_strict _ _ _ _ Hd Hi) as Hu. destruct (pt_sums _ _ Pb us Hu) as [B1 B2].
    destruct (pt_sums _ _ Pa us) as [A1 A2]; [unfold strictly; now rewrite Ek|]. split; [congruence|].
    intros c Hc. rewrite (pt_dim _ _ Pb) in Hc. now rewrite A2, B2. }
  assert (Eps : sp_ps a = sp_ps b).
  { rewrite Ek, Eg, Hb in Hb'. injection Hb' as Hb'. unfold knots_of, degs_of in Ek, Eg. destruct (sp_ps a) as [x y z], (sp_ps b) as [x' y' z'].
    cbn [ps_knots ps_degs ps_bfs] in *. congruence. }
  pose proof (same_shape dz b a W W' Eps) as En.
  assert (Hpos : pos_lens (npts_of b)).
  { rewrite Hn. clear - Hd. unfold pos_lens. induction Hd as [|kv p l1 l2 (A & (B & _) & _) _ IH]; constructor; auto. unfold zlen. lia. }
  assert (Hwt : forall idx, in_box (npts_of b) idx -> weight a idx = weight b idx).
  { intros idx Hbx. rewrite Hn in Hbx. destruct (supported_spans _ _ idx Hd Hf Hbx) as (ks & Hne & Hu).
    enough ((weight a idx - weight b idx = 0)%R) by lra.
    apply (tensor_independent dz (knots_of b) (degs_of b) ks (fun idx => weight a idx - weight b idx)%R Hd Hne); [|exact Hu].
    intros us Hus. destruct (Hs ks us Hus) as [EW _]. rewrite <- Hn. unfold weight_function in EW. rewrite Ek, Eg, En in EW.
    rewrite (lsum_ext _ (fun j => (basis_product (knots_of b) (degs_of b) us j * weight a j -
      basis_product (knots_of b) (degs_of b) us j * weight b j))%R) by (intros j _; ring).
    rewrite lsum_minus, EW. lra. }
  assert (Ewt : ph_wts (sp_ph a) = ph_wts (sp_ph b)).
  { unfold is_weighted in Ew. destruct (ph_wts (sp_ph a)) as [w'|] eqn:Ew', (ph_wts (sp_ph b)) as [w|] eqn:Ew2; try discriminate; auto.
    f_equal. specialize (Hlw w eq_refl). specialize (Hlw' w' eq_refl). rewrite En in Hlw'.
    apply (nth_ext (A := R)) with (d := 0%R) (d' := 0%R); [unfold zlen in *; rnorm; lia|].
    intros n Hlen. assert (Hq : 0 <= Z.of_nat n < total (npts_of b)) by (unfold zlen in *; rnorm; lia).
    destruct (get1d_surj (npts_of b) _ Hpos Hq) as (idx & Hbx & Ei). specialize (Hwt idx Hbx).
    unfold weight in Hwt. rewrite Ew', Ew2, En, position_get1d, Ei, Nat2Z.id in Hwt. exact Hwt. }
  assert (Ec : ph_cps (sp_ph a) = ph_cps (sp_ph b)).
  { rewrite Ed, En in Hl'. rnorm. apply (nth_ext (A := R)) with (d := 0%R) (d' := 0%R); [unfold zlen in *; rnorm; lia|].
    intros n Hlen. assert (Hn2 : 0 <= Z.of_nat n < ph_dim (sp_ph b) * total (npts_of b)) by (unfold zlen in *; rnorm; lia).
    set (D := ph_dim (sp_ph b)) in *. set (q := Z.of_nat n / D). set (c := Z.of_nat n mod D).
    assert (Eq : Z.of_nat n = D * q + c) by (apply Z.div_mod; lia).
    assert (Hc : 0 <= c < D) by (apply Z.mod_pos_bound; lia).
    assert (Hq : 0 <= q < total (npts_of b)) by (split; [apply Z.div_pos; lia | apply Z.div_lt_upper_bound; lia]).
    destruct (get1d_surj (npts_of b) q Hpos Hq) as (idx & Hbx & Ei). pose proof (Hwt idx Hbx) as Hwi.
    assert (Hb2 := Hbx). rewrite Hn in Hb2. destruct (supported_spans _ _ idx Hd Hf Hb2) as (ks & Hne & Hu).
    assert (E0 : (weight a idx * coordinate a idx c - weight b idx * coordinate b idx c = 0)%R).
    { apply (tensor_independent dz (knots_of b) (degs_of b) ks (fun idx => weight a idx * coordinate a idx c - weight b idx * coordinate b idx c)%R Hd Hne); [|exact Hu].
      intros us Hus. destruct (Hs ks us Hus) as [_ ES]. specialize (ES c Hc). rewrite <- Hn. unfold weighted_sum in ES. rewrite Ek, Eg, En in ES.
      rewrite (lsum_ext _ (fun j => (basis_product (knots_of b) (degs_of b) us j * (weight a j * coordinate a j c) -
        basis_product (knots_of b) (degs_of b) us j * (weight b j * coordinate b j c)))%R) by (intros j _; ring).
      rewrite lsum_minus, ES. lra. }
    pose proof (weight_nonzero dz b idx W (pt_reg _ _ Pb) Hbx) as Hnz. rewrite Hwi in E0.
    assert (E : coordinate a idx c = coordinate b idx c).
    { replace (weight b idx * coordinate a idx c - weight b idx * coordinate b idx c)%R
        with (weight b idx * (coordinate a idx c - coordinate b idx c))%R in E0 by ring.
      apply Rmult_integral in E0. destruct E0; [contradiction | lra]. }
    unfold coordinate in E. rewrite En, Ed, position_get1d, Ei in E. fold D in E. rewrite <- Eq, Nat2Z.id in E. exact E. }
  unfold npts_of in En. destruct a as [a' [b' c' d' e']], b as [x [y z t e]]. cbn [sp_ps sp_ph ph_dim ph_npts ph_cps ph_wts] in *. congruence.
Qed.

(* ---- one cut ---- *)
Theorem subdivide_parts s d kv p u : well_formed s -> regular s -> direction s d kv p ->
  insertable kv p u 0 -> zlen kv < 2 ^ 31 -> total (upd (npts_of s) d (nth d (npts_of s) 0 + p + 1)) < 2 ^ 64 ->
  exists s1 s2 s' kv1 kv2, subdivide s u d = Ok (s1, s2, s') /\ part s s1 /\ part s s2 /\
    knots_of s1 = upd (knots_of s) d kv1 /\ lower kv p u kv1 /\ knots_of s2 = upd (knots_of s) d kv2 /\ upper kv p u kv2.
Proof.
  intros Hwf Hreg Hdir Hins Hz Ht. pose proof Hdir as [Ek Ed]. pose proof Hins as (Hu & Hsep & Hocc).
  destruct (insertable_inner dz s d kv p u 0 Hwf Hdir Hins) as (n & Hin).
  destruct (wf_direction dz s d kv p Hwf Ek Ed) as (Hg & Hd & Hnd). pose proof Hg as (Hp & _).
  set (r := (Z.to_nat (p + 1) - occurrences kv u)%nat).
  assert (Er : Z.of_nat (r + occurrences kv u) = p + 1) by (unfold r; lia).
  destruct (insert_full dz s d kv p u (Z.of_nat r) Hwf Hdir) as (s' & kv' & E & W & K & Hndk & Hpm & F1 & F2 & G & Np & Dm & Wt & P).
  { split; [auto|]. split; [auto|]. lia. } { lia. } { auto. }
  rewrite Nat2Z.id in Hpm.
  destruct (insert_ok dz s d kv p u n r Hwf Ek Ed Hin ltac:(lia) Hz) as (s'' & E'' & _ & K'' & _ & _ & _ & P'').
  assert (s'' = s') by congruence. subst s''.
  set (N := (n + r)%nat). set (kvN := insm kv n u r) in *.
  assert (Ekv : kv' = kvN).
  { pose proof (nth_error_upd_same (knots_of s) d kv' kv Ek) as A. pose proof (nth_error_upd_same (knots_of s) d kvN kv Ek) as B'.
    rewrite <- K in A. rewrite <- K'' in B'. congruence. }
  subst kv'.
  assert (HinN : inner kvN p u N) by (now apply inner_insm).
  assert (HfN : Z.of_nat (occurrences kvN u) = p + 1).
  { rewrite (occ_perm _ _ u Hpm), occ_app, occ_repeat. destruct (Req_EM_T u u); [lia | contradiction]. }
  assert (Hocc_other : forall x, x <> u -> occurrences kvN x = occurrences kv x).
  { intros x Hx. rewrite (occ_perm _ _ x Hpm), occ_app, occ_repeat. destruct (Req_EM_T u x); [congruence | lia]. }
  destruct (part_sizes kvN p u N HinN HfN) as (_ & Z1 & Z2).
  pose proof (left_length kvN p u N HinN HfN) as LL. pose proof (right_length kvN p u N HinN HfN) as RL.
  pose proof (left_good kvN p u N HinN HfN) as LG. pose proof (right_good kvN p u N HinN HfN) as RG.
  destruct (left_ends kvN p u N HinN HfN) as [LE1 LE2]. destruct (right_ends kvN p u N HinN HfN) as [RE1 RE2].
  assert (LO : forall x, occurrences (left_part kvN N) x = if Rle_dec x u then occurrences kvN x else 0%nat) by (now apply (left_occ kvN p u)).
  assert (RO : forall x, occurrences (right_part kvN p N) x = if Rle_dec u x then occurrences kvN x else 0%nat) by (now apply (right_occ kvN p u)).
  assert (ZN : zlen kvN <= zlen kv + p + 1).
  { apply Permutation_length in Hpm. rewrite app_length, repeat_length in Hpm. unfold zlen. lia. }
  set (kv1 := left_part kvN N) in *. set (kv2 := right_part kvN p N) in *.
  assert (Ek' : nth_error (knots_of s') d = Some kvN) by (rewrite K; now apply (nth_error_upd_same _ _ _ kv)).
  assert (Ed' : nth_error (degs_of s') d = Some p) by (now rewrite G).
  assert (Ht' : total (npts_of s') < 2 ^ 64).
  { rewrite Np. eapply Z.le_lt_trans; [|exact Ht].
    rewrite !total_upd by auto.
    assert (0 <= total (remove_at d (npts_of s))).
    { assert (pos_lens (remove_at d (npts_of s))).
      { pose proof (wf_phys dz s Hwf) as (Hpl & _). fold (npts_of s) in Hpl. unfold pos_lens in *. clear - Hpl. revert d; induction Hpl; intros [|d]; cbn; auto; constructor; auto. }
      pose proof (total_pos _ H). lia. }
    nia. }
  destruct (piece_ok dz s' d kvN p kv1 0 W Ek' Ed' LG ltac:(lia) ltac:(lia) Ht') as (s1 & E1 & W1 & K1 & G1 & D1 & T1 & N1 & V1).
  destruct (piece_ok dz s' d kvN p kv2 (zlen kv1 - p - 1) W Ek' Ed' RG ltac:(lia) ltac:(lia) Ht') as (s2 & E2 & W2 & K2 & G2 & D2 & T2 & N2 & V2).
  destruct (P Hreg) as [Hreg' _]. pose proof (regular_positive dz s Hwf Hreg) as Hpos. destruct (P'' Hpos) as [Hpos' Hsum].
  assert (Hto : forall us, strictly s' us -> strictly s us).
  { intros us H. unfold strictly in H. rewrite K in H. apply (strictly_part _ d kv kvN us Ek) in H; [apply H | lra | lra]. }
  exists s1, s2, s', kv1, kv2. split.
  { unfold subdivide, sp_deg, sp_knots, dget. fold (degs_of s) (knots_of s). rewrite Ed. cbn [bind]. rnorm. rewrite Ek. cbn [bind].
    rewrite multiplicity_occ.
    assert (Eu : u64 (p + 1 - Z.of_nat (occurrences kv u)) = Z.of_nat r).
    { unfold u64. rewrite Z.mod_small; [lia|]. assert (p < zlen kv) by (destruct Hg as (_ & (Hc & _) & _); unfold zlen; lia). lia. }
    rewrite Eu, E. cbn [bind]. rewrite (divided_knots_ok dz s' d kvN p u N W Ek' Ed' HinN HfN). cbn [bind fst snd].
    fold kv1 kv2. rewrite E1. cbn [bind fst snd]. rewrite E2. reflexivity. }
  assert (Hs1 : forall us, strictly s1 us -> strictly s' us /\ exists v, nth_error us d = Some v /\ (first_knot kvN < v < u)%R).
  { intros us H. unfold strictly in H. rewrite K1 in H. apply (strictly_part _ d kvN kv1 us Ek') in H; [|lra|rewrite LE2, F2; lra].
    destruct H as [A (v & B1 & B2)]. split; [exact A|]. exists v. split; [auto|]. rewrite LE1, LE2 in B2. exact B2. }
  assert (Hs2 : forall us, strictly s2 us -> strictly s' us /\ exists v, nth_error us d = Some v /\ (u < v < final_knot kvN)%R).
  { intros us H. unfold strictly in H. rewrite K2 in H. apply (strictly_part _ d kvN kv2 us Ek') in H; [|rewrite RE1, F1; lra|lra].
    destruct H as [A (v & B1 & B2)]. split; [exact A|]. exists v. split; [auto|]. rewrite RE1, RE2 in B2. exact B2. }
  split; [|split; [|split; [|split; [|split]]]].
  - constructor; auto.
    + apply (piece_regular dz s' s1 d 0); auto. intros idx Hb. destruct (V1 idx Hb) as (A & B' & _). auto.
    + congruence.
    + congruence.
    + congruence.
    + intros us Hus. apply Hto. now apply Hs1.
    + intros us Hus. pose proof (strictly_in s1 us Hus) as Hd1. destruct (Hs1 us Hus) as [Hst (v & Ev & Hvr)].
      pose proof (strictly_in s' us Hst) as Hd2. destruct (Hsum us (strictly_in s us (Hto us Hst))) as [S1 S2]. rewrite <- S1.
      assert (Hline : forall (g : list Z -> R) k k' r0 v0, nth_error us d = Some v0 -> in_span kvN k v0 -> in_span kv1 k' v0 -> (d <= length r0)%nat ->
         lsum (fun i => g (insat d i r0) * B (tk kvN) k (Z.to_nat p) i v0)%R (zseq 0 (Z.to_nat (zlen kvN - p - 1))) =
         lsum (fun i => g (insat d i r0) * B (tk kv1) k' (Z.to_nat p) i v0)%R (zseq 0 (Z.to_nat (zlen kv1 - p - 1)))).
      { intros g k k' r0 v0 Ev0 Sk Sk' Hr0. assert (v0 = v) by congruence. subst v0.
        apply (sum_left kvN p u N HinN HfN (fun i => g (insat d i r0))); auto; [lra | left; lra]. }
      split.
      * unfold weight_function.
        apply (dir_sums dz s' s1 d kvN kv1 p (weight s') (weight s1) us); auto.
        intros k k' r0 v0 Ev0 Sk Sk' Hr0 Hb0 Hb1. rewrite (Hline (weight s')) with (k' := k'); auto.
        apply lsum_ext. intros i Hi. apply zseq_In in Hi. f_equal.
        destruct (V1 (insat d i r0)) as (_ & A & _); [apply Hb1; lia|]. rewrite A, moved_insat by auto. now rewrite Z.add_0_r.
      * intros c Hc. rewrite <- S2 by auto. unfold weighted_sum.
        apply (dir_sums dz s' s1 d kvN kv1 p (fun idx => weight s' idx * coordinate s' idx c)%R (fun idx => weight s1 idx * coordinate s1 idx c)%R us); auto.
        intros k k' r0 v0 Ev0 Sk Sk' Hr0 Hb0 Hb1. rewrite (Hline (fun idx => weight s' idx * coordinate s' idx c)%R) with (k' := k'); auto.
        apply lsum_ext. intros i Hi. apply zseq_In in Hi. f_equal.
        destruct (V1 (insat d i r0)) as (_ & A & B'); [apply Hb1; lia|]. rewrite A, B', moved_insat by (auto; congruence). now rewrite Z.add_0_r.
  - constructor; auto.
    + apply (piece_regular dz s' s2 d (zlen kv1 - p - 1)); auto. intros idx Hb. destruct (V2 idx Hb) as (A & B' & _). auto.
    + congruence.
    + congruence.
    + congruence.
    + intros us Hus. apply Hto. now apply Hs2.
    + intros us Hus. pose proof (strictly_in s2 us Hus) as Hd1. destruct (Hs2 us Hus) as [Hst (v & Ev & Hvr)].
      pose proof (strictly_in s' us Hst) as Hd2. destruct (Hsum us (strictly_in s us (Hto us Hst))) as [S1 S2]. rewrite <- S1.
      assert (Hline : forall (g : list Z -> R) k k' r0 v0, nth_error us d = Some v0 -> in_span kvN k v0 -> in_span kv2 k' v0 -> (d <= length r0)%nat ->
         lsum (fun i => g (insat d i r0) * B (tk kvN) k (Z.to_nat p) i v0)%R (zseq 0 (Z.to_nat (zlen kvN - p - 1))) =
         lsum (fun i => g (insat d (i + (zlen kv1 - p - 1)) r0) * B (tk kv2) k' (Z.to_nat p) i v0)%R (zseq 0 (Z.to_nat (zlen kv2 - p - 1)))).
      { intros g k k' r0 v0 Ev0 Sk Sk' Hr0. assert (v0 = v) by congruence. subst v0.
        rewrite (sum_right kvN p u N HinN HfN (fun i => g (insat d i r0)) k k'); auto; [|lra].
        fold kv2. apply lsum_ext. intros i _. do 3 f_equal. lia. }
      split.
      * unfold weight_function.
        apply (dir_sums dz s' s2 d kvN kv2 p (weight s') (weight s2) us); auto.
        intros k k' r0 v0 Ev0 Sk Sk' Hr0 Hb0 Hb1. rewrite (Hline (weight s')) with (k' := k'); auto.
        apply lsum_ext. intros i Hi. apply zseq_In in Hi. f_equal.
        destruct (V2 (insat d i r0)) as (_ & A & _); [apply Hb1; lia|]. now rewrite A, moved_insat by auto.
      * intros c Hc. rewrite <- S2 by auto. unfold weighted_sum.
        apply (dir_sums dz s' s2 d kvN kv2 p (fun idx => weight s' idx * coordinate s' idx c)%R (fun idx => weight s2 idx * coordinate s2 idx c)%R us); auto.
        intros k k' r0 v0 Ev0 Sk Sk' Hr0 Hb0 Hb1. rewrite (Hline (fun idx => weight s' idx * coordinate s' idx c)%R) with (k' := k'); auto.
        apply lsum_ext. intros i Hi. apply zseq_In in Hi. f_equal.
        destruct (V2 (insat d i r0)) as (_ & A & B'); [apply Hb1; lia|]. now rewrite A, B', moved_insat by (auto; congruence).
  - rewrite K1, K. apply upd_upd.
  - split; [apply LG|]. split; [congruence|]. split; [exact LE2|]. split; [rewrite LL; lia|]. split; [|split].
    + intros x Hx. rewrite LO. destruct (Rle_dec x u); [apply Hocc_other; lra | lra].
    + rewrite LO. destruct (Rle_dec u u); [exact HfN | lra].
    + intros x Hx. rewrite LO. destruct (Rle_dec x u); [lra | reflexivity].
  - rewrite K2, K. apply upd_upd.
  - split; [apply RG|]. split; [exact RE1|]. split; [congruence|]. split; [rewrite RL; lia|]. split; [|split].
    + intros x Hx. rewrite RO. destruct (Rle_dec u x); [apply Hocc_other; lra | lra].
    + rewrite RO. destruct (Rle_dec u u); [exact HfN | lra].
    + intros x Hx. rewrite RO. destruct (Rle_dec u x); [lra | reflexivity].
Qed.
End Thms.
