(* Elements, connectivity and NURBS basis functions of splines. *)
From Coq Require Import ZArith List Bool Reals Lra Lia.
From Verif Require Import Base BaseFacts MultiIndex MultiIndexSpec MultiIndexFacts RSum KnotVecSpec KnotVec KnotVecFacts
  BasisSpec Basis BSplineTheory BasisFacts SpacesSpec Spaces SpacesFacts SplineSpec SplineEval EvalFacts IgaSpec Iga IgaFacts.
Import ListNotations.
Open Scope Z_scope.

Lemma B_pos t k p i u : monotone t -> (t k < u < t (k + 1)%Z)%R -> k - Z.of_nat p <= i <= k -> (0 < B t k p i u)%R.
Proof.
  intros Ht Hu. assert (Hk : (t k < t (k + 1)%Z)%R) by lra.
  revert i; induction p as [|q IH]; intros i Hi.
  - cbn. destruct (Z.eq_dec i k); [lra|lia].
  - rewrite (B_S t Ht k Hk).
    assert (H0 : forall j, j <= k -> k < j + Z.of_nat (S q) -> (0 < w t j (S q) u < 1)%R).
    { intros j Hj1 Hj2. pose proof (active_den t Ht k Hk j (Z.of_nat (S q)) Hj1 Hj2) as Hd.
      pose proof (Ht j k Hj1). pose proof (Ht (k + 1)%Z (j + Z.of_nat (S q)) ltac:(lia)). unfold w.
      assert (0 < / (t (j + Z.of_nat (S q))%Z - t j))%R by (apply Rinv_0_lt_compat; lra).
      split; [unfold Rdiv; apply Rmult_lt_0_compat; lra|].
      apply Rmult_lt_reg_r with (t (j + Z.of_nat (S q))%Z - t j)%R; [lra|].
      unfold Rdiv. rewrite Rmult_assoc, Rinv_l by lra. lra. }
    assert (Hnn : forall j, (0 <= B t k q j u)%R) by (intros j; apply (B_nonneg t Ht k Hk); lra).
    destruct (Z_le_dec (k - Z.of_nat q) i) as [Hl|Hl].
    + pose proof (IH i ltac:(lia)). pose proof (H0 i ltac:(lia) ltac:(lia)).
      apply Rplus_lt_le_0_compat; [apply Rmult_lt_0_compat; lra|].
      destruct (Z_le_dec (i + 1) k) as [Hi1|Hi1]; [|rewrite (B_outside t k) by lia; lra].
      pose proof (H0 (i + 1) ltac:(lia) ltac:(lia)). apply Rmult_le_pos; [lra | apply Hnn].
    + rewrite (B_outside t k q i) by lia. pose proof (IH (i + 1) ltac:(lia)). pose proof (H0 (i + 1) ltac:(lia) ltac:(lia)).
      rewrite Rmult_0_r, Rplus_0_l. apply Rmult_lt_0_compat; lra.
Qed.

(* on an open knot interval exactly the functions k-p .. k are non-zero *)
Lemma active_functions kv p k e : good_direction kv p -> knot_interval kv p k e -> forall u i,
  (fst e < u < snd e)%R -> 0 <= i < zlen kv - p - 1 ->
  (cox_de_boor kv (Z.to_nat p) (Z.to_nat i) u <> 0%R <-> k - p <= i <= k) /\
  (0 <= cox_de_boor kv (Z.to_nat p) (Z.to_nat i) u)%R.
Proof.
  intros (Hp & Hc & Hn & Hs & Hlt) (Hk & -> & Hf) u i Hu Hi. cbn [fst snd] in *. fold (zlen kv) in Hk.
  assert (E1 : knot kv (Z.to_nat k) = tk kv k) by (rewrite tk_knot'; auto; lia).
  assert (E2 : knot kv (Z.to_nat (k + 1)) = tk kv (k + 1)%Z) by (rewrite tk_knot'; auto; lia).
  rewrite E1, E2 in *.
  assert (Hsp : in_span kv k u) by (unfold in_span; repeat split; try lia; try lra; left; lra).
  rewrite (cox_piece kv k (Z.to_nat p) i u Hn Hsp) by lia. split.
  - split.
    + intros H. destruct (Z_le_dec (k - p) i) as [H1|H1]; [destruct (Z_le_dec i k) as [H2|H2]|]; try lia;
        exfalso; apply H, B_outside; lia.
    + intros H. assert (0 < B (tk kv) k (Z.to_nat p) i u)%R; [|lra].
      apply B_pos; auto; [now apply tk_monotone | lia].
  - apply B_nonneg; try lra. now apply tk_monotone.
Qed.

Section Thms.
Context {dz : R -> R}.
Local Notation F := (Rops dz).
Implicit Types s : spline F.

Definition dlists (knots : list (list R)) (degs : list Z) : list (list (R * R)) := map2 (fun kv p => pairs (inner kv p)) knots degs.

Lemma pairs_pos kv p : good_direction kv p -> 1 <= zlen (pairs (inner kv p)).
Proof.
  intros Hg. pose proof (pairs_tiles (inner kv p) (inner_nondec kv p Hg) (inner_ne kv p Hg)) as H.
  rewrite (inner_first kv p Hg), (inner_final kv p Hg) in H. pose proof Hg as (_ & _ & _ & _ & Hlt).
  destruct (pairs (inner kv p)); cbn [tiles] in H; [lra|]. unfold zlen. cbn [length]. lia.
Qed.

Lemma element_lists_ok s : well_formed s -> element_lists s = Ok (dlists (knots_of s) (degs_of s)).
Proof.
  intros [H _ _ _ _ _]. unfold element_lists. fold (knots_of s) (degs_of s).
  generalize dependent (degs_of s). generalize dependent (knots_of s). intros knots degs H.
  induction H as [|kv p knots degs Hg H IH]; [reflexivity|].
  cbn [combine mapM fst snd]. rewrite elements_ok by auto. cbn [bind]. rnorm. rewrite IH. reflexivity.
Qed.

Lemma dlists_pos knots degs : Forall2 good_direction knots degs -> pos_lens (map zlen (dlists knots degs)).
Proof.
  induction 1 as [|kv p knots degs Hg H IH]; [constructor|]. constructor; auto. now apply pairs_pos.
Qed.

Lemma num_elements_ok s : well_formed s -> num_elements s = Ok (map zlen (dlists (knots_of s) (degs_of s))).
Proof. intros H. unfold num_elements. rewrite element_lists_ok by auto. reflexivity. Qed.

Lemma fold_left_mul l a : fold_left Z.mul l a = a * total l.
Proof. revert a; induction l as [|x l IH]; intros a; cbn; [lia|]. rewrite IH. unfold total. cbn. ring. Qed.

Lemma num_all_ok s : well_formed s -> num_all_elements s = Ok (total (map zlen (dlists (knots_of s) (degs_of s)))).
Proof. intros H. unfold num_all_elements. rewrite num_elements_ok by auto. cbn [bind]. rewrite fold_left_mul. f_equal. lia. Qed.

Lemma mih_plus_nth lens n : mcur (mih_plus (mih_new lens) n) = nth_index lens (Z.to_nat n).
Proof. reflexivity. Qed.

Lemma index_shifts_dirs knots degs : Forall2 good_direction knots degs -> forall es,
  in_box (map zlen (dlists knots degs)) es -> exists ks,
  element_spans knots degs ks (dlists knots degs) es /\
  mapM (fun x => index_shift (F := F) (fst x) (fst (snd x)) (snd (snd x))) (combine knots (combine degs es)) =
    Ok (map2 Z.sub (map2 Z.sub ks degs) es).
Proof.
  induction 1 as [|kv p knots degs Hg H IH]; intros es Hb.
  - inversion Hb; subst. exists []. split; reflexivity.
  - unfold in_box in Hb. cbn [dlists map2 map] in Hb. inversion Hb as [|? e ? es' He Hb']; subst.
    destruct (IH es' Hb') as (ks & H1 & H2).
    destruct (element_dir dz kv p Hg e He) as (k & K1 & K2 & _).
    exists (k :: ks). split.
    + cbn [element_spans dlists map2]. split; auto.
    + cbn [combine mapM fst snd map2]. rewrite K2. cbn [bind]. rewrite H2. reflexivity.
Qed.

Lemma spans_length knots degs ks lists es : element_spans knots degs ks lists es ->
  length degs = length knots /\ length ks = length knots /\ length lists = length knots /\ length es = length knots.
Proof.
  revert degs ks lists es; induction knots as [|kv knots IH]; intros [|p degs] [|k ks] [|l lists] [|e es] H; cbn in H; try contradiction; auto.
  destruct H as (_ & H). destruct (IH _ _ _ _ H) as (H1 & H2 & H3 & H4). cbn. lia.
Qed.

Lemma shift_cancel (ls es ks degs : list Z) : length ls = length degs -> length es = length degs -> length ks = length degs ->
  map2 Z.add (map2 Z.add ls es) (map2 Z.sub (map2 Z.sub ks degs) es) = map2 Z.add (map2 Z.sub ks degs) ls.
Proof.
  revert ls es ks; induction degs as [|p degs IH]; intros [|l ls] [|e es] [|k ks] H1 H2 H3; cbn in *; try discriminate; auto.
  rewrite IH by lia. f_equal. lia.
Qed.

Lemma degs_nonneg knots degs : Forall2 good_direction knots degs -> pos_lens (map (fun p => p + 1) degs).
Proof. induction 1 as [|? ? ? ? (Hq & _) ? IH]; constructor; auto. lia. Qed.

Lemma connectivity : forall s, well_formed s -> exists lists,
  element_lists s = Ok lists /\ num_all_elements s = Ok (total (map zlen lists)) /\
  forall n, 0 <= n < total (map zlen lists) -> exists es ks,
    in_box (map zlen lists) es /\ position (map zlen lists) es = n /\
    element_spans (knots_of s) (degs_of s) ks lists es /\
    forall l, 0 <= l < total (map (fun p => p + 1) (degs_of s)) -> exists ls,
      in_box (map (fun p => p + 1) (degs_of s)) ls /\ position (map (fun p => p + 1) (degs_of s)) ls = l /\
      global_index s n l = Ok (position (npts_of s) (map2 Z.add (map2 Z.sub ks (degs_of s)) ls) + 1).
Proof.
  intros s Hwf. exists (dlists (knots_of s) (degs_of s)). split; [now apply element_lists_ok|].
  split; [now apply num_all_ok|]. intros n Hn.
  pose proof (wf_directions s Hwf) as Hd.
  set (ne := map zlen (dlists (knots_of s) (degs_of s))) in *. set (nb := map (fun p => p + 1) (degs_of s)) in *.
  change (0 <= n < total ne) in Hn.
  assert (Pe : pos_lens ne) by (now apply dlists_pos).
  assert (Pb : pos_lens nb) by (eapply degs_nonneg; eauto).
  set (es := nth_index ne (Z.to_nat n)).
  assert (Be : in_box ne es) by (now apply nth_index_box).
  destruct (index_shifts_dirs _ _ Hd es Be) as (ks & Hsp & Hsh).
  exists es, ks. split; auto. split.
  { rewrite position_get1d. unfold es. rewrite nth_index_get1d by (auto; lia). lia. }
  split; auto. intros l Hl. set (ls := nth_index nb (Z.to_nat l)).
  assert (Bb : in_box nb ls) by (now apply nth_index_box).
  exists ls. split; auto. split.
  { rewrite position_get1d. unfold ls. rewrite nth_index_get1d by (auto; lia). lia. }
  assert (Es : index_shifts s n = Ok (map2 Z.sub (map2 Z.sub ks (degs_of s)) es)).
  { unfold index_shifts, element_indices. rewrite num_elements_ok by auto. exact Hsh. }
  unfold global_index, global_indices. rewrite num_elements_ok by auto. cbn [bind]. rewrite Es. cbn [bind].
  rewrite !mih_plus_nth. change (nth_index _ (Z.to_nat n)) with es. change (nth_index _ (Z.to_nat l)) with ls.
  unfold mih_get1d, mih_set_indices. cbn [mlen mcur mih_new].
  rewrite <- position_get1d. fold (npts_of s). do 3 f_equal.
  destruct (spans_length _ _ _ _ _ Hsp) as (L1 & L2 & L3 & L4). apply shift_cancel; try congruence.
  rewrite (in_box_length _ _ Bb). unfold nb. apply map_length.
Qed.

(* the functions active on an element *)
Lemma active_product knots degs : Forall2 good_direction knots degs -> forall ks lists es us,
  element_spans knots degs ks lists es -> strictly_inside lists es us -> forall idx,
  in_box (map2 (fun kv p => zlen kv - p - 1) knots degs) idx ->
  (basis_product knots degs us idx <> 0%R <->
   exists ls, in_box (map (fun p => p + 1) degs) ls /\ idx = map2 Z.add (map2 Z.sub ks degs) ls).
Proof.
  induction 1 as [|kv p knots degs Hg H IH]; intros [|k ks] [|l lists] [|e es] us Hsp Hin idx Hb; cbn [element_spans] in Hsp; try contradiction.
  - inversion Hb; subst. cbn. split; intros _; [exists []; split; constructor | lra].
  - destruct us as [|u us]; cbn [strictly_inside] in Hin; [contradiction|]. destruct Hsp as (Hk & Hsp). destruct Hin as (Hu & Hin).
    cbn [map2] in Hb. inversion Hb as [|? i ? idx' Hi Hb']; subst.
    destruct (active_functions kv p k _ Hg Hk u i Hu Hi) as (Ha & _).
    specialize (IH ks lists es us Hsp Hin idx' Hb'). cbn [basis_product map2 map]. split.
    + intros Hne. assert (H1 : cox_de_boor kv (Z.to_nat p) (Z.to_nat i) u <> 0%R) by (intros C; apply Hne; rewrite C; ring).
      assert (H2 : basis_product knots degs us idx' <> 0%R) by (intros C; apply Hne; rewrite C; ring).
      apply Ha in H1. apply IH in H2 as (ls & Hls & ->). exists (i - (k - p) :: ls). split.
      * constructor; auto. lia.
      * f_equal. lia.
    + intros (ls & Hls & E). inversion Hls as [|? j ? ls' Hj Hls']; subst. inversion E; subst.
      apply Rmult_integral_contrapositive. split; [apply Ha; lia | apply IH; eauto].
Qed.

Lemma spans_box knots degs : Forall2 good_direction knots degs -> forall ks lists es ls,
  element_spans knots degs ks lists es -> in_box (map (fun p => p + 1) degs) ls ->
  in_box (map2 (fun kv p => zlen kv - p - 1) knots degs) (map2 Z.add (map2 Z.sub ks degs) ls).
Proof.
  induction 1 as [|kv p knots degs Hg H IH]; intros [|k ks] [|l lists] [|e es] ls Hsp Hb; cbn [element_spans] in Hsp; try contradiction.
  - constructor.
  - cbn [map] in Hb. inversion Hb as [|? j ? ls' Hj Hb']; subst. destruct Hsp as ((Hk & _) & Hsp).
    cbn [map2]. constructor; [fold (zlen kv) in Hk; lia | eapply IH; eauto].
Qed.

Lemma position_inj npts i j : in_box npts i -> in_box npts j -> position npts i = position npts j -> i = j.
Proof. rewrite !position_get1d. apply get1d_inj. Qed.

Lemma connectivity_exact : forall s, well_formed s -> exists lists,
  element_lists s = Ok lists /\
  forall es us, in_box (map zlen lists) es -> strictly_inside lists es us -> forall g,
  (exists l, 0 <= l < total (map (fun p => p + 1) (degs_of s)) /\ global_index s (position (map zlen lists) es) l = Ok g) <->
  (exists idx, in_box (npts_of s) idx /\ basis_product (knots_of s) (degs_of s) us idx <> 0%R /\ g = position (npts_of s) idx + 1).
Proof.
  intros s Hwf. destruct (connectivity s Hwf) as (lists & El & _ & H). exists lists. split; auto.
  intros es us Hes Hus g. pose proof (wf_directions s Hwf) as Hd.
  destruct (H (position (map zlen lists) es) (position_range _ _ Hes)) as (es' & ks & He' & Ep & Hsp & Hl). clear H.
  assert (es' = es) by (eapply position_inj; eauto). subst es'.
  pose proof (active_product _ _ Hd ks lists es us Hsp Hus) as Ha. pose proof (wf_npts s Hwf) as En.
  split.
  - intros (l & Hlr & Eg). destruct (Hl l Hlr) as (ls & Hls & _ & Eg'). rewrite Eg in Eg'. inversion Eg' as [E]. clear Eg'.
    assert (Hb : in_box (npts_of s) (map2 Z.add (map2 Z.sub ks (degs_of s)) ls)) by (rewrite En; eapply spans_box; eauto).
    exists (map2 Z.add (map2 Z.sub ks (degs_of s)) ls). split; auto. split; auto.
    rewrite En in Hb. apply (Ha _ Hb). eauto.
  - intros (idx & Hb & Hne & ->). rewrite En in Hb. apply (Ha idx Hb) in Hne as (ls & Hls & ->).
    exists (position (map (fun p => p + 1) (degs_of s)) ls). split; [now apply position_range|].
    destruct (Hl _ (position_range _ _ Hls)) as (ls' & Hls' & Epl & ->).
    assert (ls' = ls) by (eapply position_inj; eauto). now subst ls'.
Qed.

Lemma connectivity_injective : forall s, well_formed s -> exists lists,
  element_lists s = Ok lists /\
  forall n l1 l2 g, 0 <= n < total (map zlen lists) ->
  0 <= l1 < total (map (fun p => p + 1) (degs_of s)) -> 0 <= l2 < total (map (fun p => p + 1) (degs_of s)) ->
  global_index s n l1 = Ok g -> global_index s n l2 = Ok g -> l1 = l2.
Proof.
  intros s Hwf. destruct (connectivity s Hwf) as (lists & El & _ & H). exists lists. split; auto.
  intros n l1 l2 g Hn H1 H2 E1 E2. destruct (H n Hn) as (es & ks & He & Ep & Hsp & Hl).
  pose proof (wf_directions s Hwf) as Hd. pose proof (wf_npts s Hwf) as En.
  destruct (Hl l1 H1) as (ls1 & B1 & P1 & G1). destruct (Hl l2 H2) as (ls2 & B2 & P2 & G2).
  assert (X : position (npts_of s) (map2 Z.add (map2 Z.sub ks (degs_of s)) ls1) =
              position (npts_of s) (map2 Z.add (map2 Z.sub ks (degs_of s)) ls2)).
  { rewrite G1 in E1. rewrite G2 in E2. inversion E1; inversion E2; subst; lia. }
  apply position_inj in X; try (rewrite En; eapply spans_box; eauto).
  assert (Els : ls1 = ls2); [|rewrite <- P1, <- P2, Els; reflexivity].
  destruct (spans_length _ _ _ _ _ Hsp) as (L1 & L2 & L3 & L4).
  pose proof (in_box_length _ _ B1) as M1. pose proof (in_box_length _ _ B2) as M2. rewrite map_length in M1, M2.
  assert (Lk : length (map2 Z.sub ks (degs_of s)) = length (degs_of s)) by (rewrite map2_length; lia).
  clear G1 G2 Hl. generalize dependent (map2 Z.sub ks (degs_of s)). intros base X Lb.
  assert (M1' : length ls1 = length base) by congruence. assert (M2' : length ls2 = length base) by congruence.
  clear - X M1' M2'. revert ls1 ls2 X M1' M2'.
  induction base as [|b base IH]; intros [|x ls1] [|y ls2] X M1 M2; cbn in *; try discriminate; auto.
  inversion X. f_equal; [lia|]. apply IH; auto.
Qed.

Lemma elements_tile : forall kv p, good_direction kv p -> exists l,
  elements (F := F) kv p = Ok l /\ l <> [] /\ tiles (first_knot kv) (final_knot kv) l /\
  forall e, In e l -> exists k, knot_interval kv p k e.
Proof.
  intros kv p Hg. exists (pairs (inner kv p)). split; [now apply elements_ok|].
  pose proof (pairs_pos kv p Hg) as Hp. split; [intros C; rewrite C in Hp; cbn in Hp; lia|]. split.
  - rewrite <- (inner_first kv p Hg), <- (inner_final kv p Hg). apply pairs_tiles; [now apply inner_nondec | now apply inner_ne].
  - intros e He. destruct (In_nth _ _ (0, 0)%R He) as (i & Hi & <-).
    destruct (element_dir dz kv p Hg (Z.of_nat i)) as (k & K & _); [zl|]. exists k. now rewrite Nat2Z.id in K.
Qed.

(* the element at a parameter *)
Lemma element_at_dirs knots degs : Forall2 good_direction knots degs -> forall us,
  Forall2 (fun kv u => (first_knot kv <= u <= final_knot kv)%R) knots us -> exists es ks,
  mapM (fun x => kv <- unique_knots (F := F) (fst x) (fst (snd x)) ;; knot_span (F := F) kv (snd (snd x)))
       (combine knots (combine degs us)) = Ok es /\
  in_box (map zlen (dlists knots degs)) es /\ element_spans knots degs ks (dlists knots degs) es /\
  inside (dlists knots degs) es us /\
  mapM (fun x => knot_span (F := F) (fst x) (snd x)) (combine knots us) = Ok ks /\
  mapM (fun x => index_shift (F := F) (fst x) (fst (snd x)) (snd (snd x))) (combine knots (combine degs es)) =
    Ok (map2 Z.sub (map2 Z.sub ks degs) es).
Proof.
  induction 1 as [|kv p knots degs Hg H IH]; intros us Hu; inversion Hu as [|? u ? us' Hu1 Hu2]; subst.
  - exists [], []. repeat split; constructor.
  - destruct (IH us' Hu2) as (es & ks & I1 & I2 & I3 & I4 & I5 & I6).
    destruct (element_at_dir dz kv p Hg u Hu1) as (k & e & K1 & K2 & K3 & K4 & K5 & K6).
    exists (e :: es), (k :: ks).
    cbn [combine mapM fst snd]. rewrite unique_ok by auto. cbn [bind]. rnorm. rewrite K1. cbn [bind]. rewrite I1. cbn [bind].
    split; auto. split; [constructor; auto|]. split; [cbn [element_spans dlists map2]; auto|].
    split; [|split].
    + cbn [inside dlists map2]. split; auto. destruct K5 as (Kr & Ke & _). rewrite Ke. cbn [fst snd].
      destruct K4 as (A1 & A2 & A3 & A4 & A5).
      rewrite (tk_knot' kv k) in * by lia. rewrite (tk_knot' kv (k + 1)) in * by lia. lra.
    + rewrite K3. cbn [bind]. rewrite I5. reflexivity.
    + rewrite K6. cbn [bind]. rewrite I6. reflexivity.
Qed.

Lemma element_at_ok : forall s us, well_formed s -> in_domain s us -> exists lists es ks,
  element_lists s = Ok lists /\ in_box (map zlen lists) es /\ inside lists es us /\
  element_at s us = Ok (position (map zlen lists) es) /\
  element_spans (knots_of s) (degs_of s) ks lists es /\
  mapM (fun x => knot_span (F := F) (fst x) (snd x)) (combine (knots_of s) us) = Ok ks.
Proof.
  intros s us Hwf Hu. destruct (element_at_dirs _ _ (wf_directions s Hwf) us Hu) as (es & ks & H1 & H2 & H3 & H4 & H5 & _).
  exists (dlists (knots_of s) (degs_of s)), es, ks. split; [now apply element_lists_ok|]. split; auto. split; auto.
  split; [|split; auto].
  unfold element_at. fold (knots_of s) (degs_of s).
  assert (E : element_number s es = Ok (position (map zlen (dlists (knots_of s) (degs_of s))) es)).
  { unfold element_number. rewrite num_elements_ok by auto. cbn [bind]. unfold mih_get1d, mih_set_indices. cbn [mlen mcur mih_new].
    now rewrite position_get1d. }
  refine (eq_trans (f_equal (fun r => bind r (element_number s)) H1) _). exact E.
Qed.
End Thms.
