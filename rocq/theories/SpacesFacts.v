(* Facts about the parameter space model over the reals. *)
From Coq Require Import ZArith List Bool Lia Reals Lra Permutation.
From Verif Require Import Base BaseFacts KnotVec KnotVecSpec KnotVecFacts Basis BasisSpec
  RSum BSplineTheory BasisFacts Spaces SpacesSpec.
Import ListNotations.
Open Scope Z_scope.

Section PS.
Variable dz : R -> R.
Local Notation F := (Rops dz).

(* ---- constructor ---- *)
Lemma guard_foldM {A} (f : unit -> A -> Res unit) (c : A -> bool) l :
  (forall a, In a l -> f tt a = if c a then Ok tt else Throw RuntimeError) ->
  foldM f l tt = if forallb c l then Ok tt else Throw RuntimeError.
Proof.
  induction l as [|a l IH]; intros H; cbn [foldM forallb]; auto.
  rewrite H by now left. destruct (c a); cbn [bind andb]; auto. apply IH. intros; apply H; now right.
Qed.

Lemma check_clamped_spec kv p : 0 <= p ->
  (clamped kv p -> check_clamped (F := F) kv p = Ok tt) /\
  (~ clamped kv p -> check_clamped (F := F) kv p = Throw RuntimeError).
Proof.
  intros Hp. unfold check_clamped. rnorm.
  destruct (Z.ltb_spec (zlen kv) (2 * p + 2)) as [Hl|Hl].
  { split; auto. intros [H _]. unfold zlen in *. lia. }
  assert (Hlen : (0 < length kv)%nat) by zl.
  set (c1 := fun j => Reqb (first_knot kv) (tk kv j)).
  set (c2 := fun j => Reqb (final_knot kv) (tk kv j)).
  rewrite (guard_foldM _ c1).
  2:{ intros j Hj. apply zseq_In in Hj. rewrite !get_knot_tk by zl. cbn [bind].
      change (tk kv 0) with (tk kv (Z.of_nat 0)). rewrite tk_knot by auto. reflexivity. }
  rewrite (guard_foldM _ c2).
  2:{ intros j Hj. apply in_rev in Hj. apply zseq_In in Hj. rewrite last_knot_ok by auto. cbn [bind].
      rewrite !get_knot_tk by zl. reflexivity. }
  assert (Hiff : clamped kv p <-> forallb c1 (zseq 1 (Z.to_nat p)) = true /\
                   forallb c2 (rev (zseq (zlen kv - p - 1) (Z.to_nat p))) = true).
  { rewrite !forallb_forall. unfold c1, c2. split.
    - intros [_ H]. split; intros j Hj; apply Reqb_true.
      + apply zseq_In in Hj. destruct (H (Z.to_nat j) ltac:(lia)) as [E _].
        rewrite <- E. rewrite tk_knot' by lia. reflexivity.
      + apply in_rev in Hj. apply zseq_In in Hj.
        destruct (H (Z.to_nat (zlen kv - 1 - j)) ltac:(lia)) as [_ E]. rewrite <- E. rewrite tk_knot' by lia.
        f_equal. unfold zlen in *; lia.
    - intros [H1 H2]. split; [unfold zlen in Hl; lia|]. intros j Hj. split.
      + destruct j as [|j]; [reflexivity|].
        specialize (H1 (Z.of_nat (S j))). rewrite zseq_In in H1. specialize (H1 ltac:(lia)).
        apply Reqb_true in H1. rewrite tk_knot in H1 by zl. congruence.
      + destruct j as [|j]; [unfold final_knot, knot; f_equal; lia|].
        specialize (H2 (Z.of_nat (length kv - 1 - S j))). rewrite <- in_rev, zseq_In in H2.
        specialize (H2 ltac:(zl)).
        apply Reqb_true in H2. rewrite tk_knot in H2 by zl. congruence. }
  destruct (forallb c1 _) eqn:E1; cbn [bind].
  - destruct (forallb c2 _) eqn:E2; split; auto; intros H.
    + exfalso. apply H, Hiff; auto.
    + apply Hiff in H as [_ H]. discriminate.
  - split; auto. intros H. apply Hiff in H as [H _]. discriminate.
Qed.

Lemma clamped_dec kv p : {clamped kv p} + {~ clamped kv p}.
Proof.
  destruct (Z_lt_dec p 0) as [Hn|Hp].
  - destruct (Z_le_dec (2 * p + 2) (Z.of_nat (length kv))) as [H|H].
    + left. split; auto. intros j Hj. lia.
    + right. intros [H' _]. lia.
  - destruct (check_clamped (F := F) kv p) as [[]|e|] eqn:E.
    + left. destruct (Z_le_dec (2 * p + 2) (Z.of_nat (length kv))) as [H|H].
      * (* decide by the check *)
        unfold check_clamped in E. rnorm. split; auto.
        assert (D : forall j, {knot kv j = first_knot kv} + {knot kv j <> first_knot kv}) by (intros; apply Req_EM_T).
        intros j Hj.
        destruct (Req_EM_T (knot kv j) (first_knot kv)) as [E1|E1];
        destruct (Req_EM_T (knot kv (length kv - 1 - j)) (final_knot kv)) as [E2|E2]; auto; exfalso;
        (destruct (check_clamped_spec kv p ltac:(lia)) as [_ X];
         unfold check_clamped in X; rnorm; rewrite E in X;
         assert (Y : ~ clamped kv p) by (intros [_ C]; destruct (C j Hj); contradiction);
         specialize (X Y); discriminate).
      * exfalso. destruct (check_clamped_spec kv p ltac:(lia)) as [_ X].
        assert (Y : ~ clamped kv p) by (intros [C _]; lia). rewrite E in X. specialize (X Y). discriminate.
    + right. intros C. destruct (check_clamped_spec kv p ltac:(lia)) as [X _]. rewrite E in X.
      specialize (X C). discriminate.
    + right. intros C. destruct (check_clamped_spec kv p ltac:(lia)) as [X _]. rewrite E in X.
      specialize (X C). discriminate.
Qed.

(* the parameter space holding given knots and degrees *)
Definition mkps (knots : list (list R)) (degs : list Z) : pspace F :=
  mkPS (F := F) knots degs (map2 (mkbfs dz) knots degs).

Definition lens_ok (knots : list (list R)) (degs : list Z) : Prop :=
  Forall2 (fun kv p => 0 <= p /\ p + 1 <= zlen kv) knots degs.

Lemma create_bases_ok knots degs : lens_ok knots degs ->
  create_bases (F := F) knots degs = Ok (map2 (mkbfs dz) knots degs).
Proof.
  unfold create_bases. induction 1 as [|kv p knots degs [H1 H2] _ IH]; cbn [combine mapM map2]; auto.
  cbn [fst snd]. rewrite create_all_ok by auto. cbn [bind].
  rnorm. rewrite IH. reflexivity.
Qed.

Lemma ps_new_ok knots degs : Forall2 (fun kv p => 0 <= p /\ clamped kv p) knots degs ->
  ps_new (F := F) knots degs = Ok (mkps knots degs).
Proof.
  intros H. unfold ps_new.
  assert (E : foldM (fun (_ : unit) (kp : list F * Z) => check_clamped (fst kp) (snd kp)) (combine knots degs) tt = Ok tt).
  { induction H as [|kv p knots degs [H1 H2] _ IH]; cbn [combine foldM fst snd]; auto.
    rewrite (proj1 (check_clamped_spec kv p H1) H2). cbn [bind]. apply IH. }
  rnorm. rewrite E. cbn [bind]. rewrite create_bases_ok; [reflexivity|].
  unfold lens_ok. clear E. induction H as [|kv p knots degs [H1 [H2 H3]] _ IH]; constructor; auto.
  unfold zlen; lia.
Qed.

Lemma ps_new_throw knots degs : length knots = length degs -> Forall (fun p => 0 <= p) degs ->
  ~ Forall2 (fun kv p => 0 <= p /\ clamped kv p) knots degs ->
  ps_new (F := F) knots degs = Throw RuntimeError.
Proof.
  intros Hl Hd H. unfold ps_new.
  assert (E : foldM (fun (_ : unit) (kp : list F * Z) => check_clamped (fst kp) (snd kp)) (combine knots degs) tt
              = Throw RuntimeError).
  { revert degs Hl Hd H. induction knots as [|kv knots IH]; intros [|p degs] Hl Hd H; cbn in Hl; try lia.
    - exfalso; apply H; constructor.
    - inversion Hd; subst. cbn [combine foldM fst snd].
      destruct (clamped_dec kv p) as [C|C].
      + rewrite (proj1 (check_clamped_spec kv p ltac:(auto)) C). cbn [bind]. apply IH; [lia | auto |].
        intros X. apply H. constructor; auto.
      + rewrite (proj2 (check_clamped_spec kv p ltac:(auto)) C). reflexivity. }
  rnorm. rewrite E. reflexivity.
Qed.

(* ---- one direction ---- *)
Lemma eval_direction kv p u : good_direction kv p -> (first_knot kv <= u <= final_knot kv)%R ->
  exists k, knot_span (F := F) kv u = Ok k /\ in_span kv k u /\ p <= k /\ k < zlen kv - p - 1.
Proof.
  intros (Hp & Hc & Hn & Hs & Hne) Hu.
  destruct (knot_span_in_span dz kv u Hn Hs Hne Hu) as (k & E & Hk).
  exists k. split; auto. split; auto.
  destruct Hk as (A1 & A2 & A3 & A4 & A5). destruct Hc as [Hlen Hc].
  assert (Hlo : forall j, 0 <= j <= p -> tk kv j = first_knot kv).
  { intros j Hj. rewrite tk_knot' by (unfold zlen; lia). apply Hc. lia. }
  assert (Hhi : forall j, zlen kv - p - 1 <= j < zlen kv -> tk kv j = final_knot kv).
  { intros j Hj. rewrite tk_knot' by zl. 
    destruct (Hc (Z.to_nat (zlen kv - 1 - j)) ltac:(zl)) as [_ E2]. rewrite <- E2.
    f_equal. unfold zlen in *; lia. }
  split.
  - destruct (Z_le_dec p k); auto. rewrite !Hlo in A3 by lia. lra.
  - destruct (Z_lt_dec k (zlen kv - p - 1)); auto. rewrite !Hhi in A3 by lia. lra.
Qed.

(* in a good direction no function has degenerate support *)
Lemma tk_nondeg kv p i k u : good_direction kv p -> in_span kv k u -> k - p <= i <= k ->
  (1 <= Z.to_nat p)%nat \/ (tk kv i < tk kv (i + 1))%R.
Proof.
  intros (Hp & _) (A1 & A2 & A3 & _) Hi. destruct (Z.eq_dec p 0) as [->|]; [right | left; lia].
  replace i with k by lia. auto.
Qed.

Lemma eval_all_nonzero_ok knots degs d u kv p :
  nth_error knots d = Some kv -> nth_error degs d = Some p -> good_direction kv p ->
  (first_knot kv <= u <= final_knot kv)%R ->
  exists k, knot_span (F := F) kv u = Ok k /\ in_span kv k u /\ p <= k < zlen kv - p - 1 /\
    eval_all_nonzero (mkps knots degs) d u =
      Ok (map (fun i => B (tk kv) k (Z.to_nat p) (k - p + i) u) (zseq 0 (Z.to_nat (p + 1)))).
Proof.
  intros Hk Hd Hg Hu.
  destruct (eval_direction kv p u Hg Hu) as (k & E & Hsp & Hk1 & Hk2).
  exists k. split; auto. split; auto. split; [lia|].
  unfold eval_all_nonzero, dget. cbn [ps_knots ps_degs ps_bfs mkps].
  change (list (num F)) with (list R). rewrite Hk, Hd. cbn [bind].
  assert (Hb : nth_error (map2 (mkbfs dz) knots degs) d = Some (mkbfs dz kv p)).
  { clear - Hk Hd. revert d degs Hk Hd. induction knots as [|a knots IH]; intros [|d] [|b degs] Hk Hd; cbn in *; try discriminate.
    - inversion Hk; inversion Hd; now subst.
    - auto. }
  rewrite Hb. cbn [bind]. rewrite E. cbn [bind].
  apply mapM_ok. intros i Hi. apply zseq_In in Hi.
  destruct Hg as (Hp & Hc & Hn & Hs & Hne) eqn:Eg.
  rewrite mkbfs_get by (destruct Hsp; lia). cbn [bind]. f_equal.
  apply bf_eval_piece; auto; try lia.
  apply (tk_nondeg kv p _ k u); auto. lia.
Qed.

Lemma partition_unity : forall knots degs d u kv p,
  nth_error knots d = Some kv -> nth_error degs d = Some p -> good_direction kv p ->
  (first_knot kv <= u <= final_knot kv)%R ->
  exists vs, eval_all_nonzero (mkps knots degs) d u = Ok vs /\ zlen vs = p + 1 /\ lsum (fun v => v) vs = 1%R.
Proof.
  intros knots degs d u kv p Hk Hd Hg Hu.
  destruct (eval_all_nonzero_ok knots degs d u kv p Hk Hd Hg Hu) as (k & E & Hsp & Hkp & Ev).
  eexists; split; [exact Ev|]. destruct Hg as (Hp & Hc & Hn & Hs & Hne). split.
  - unfold zlen. rewrite map_length, zseq_length. lia.
  - rewrite lsum_map.
    rewrite (lsum_ext _ (fun i => B (tk kv) k (Z.to_nat p) (i + (k - p)) u)).
    2:{ intros i _. f_equal. lia. }
    rewrite <- (lsum_zseq_shift (fun i => B (tk kv) k (Z.to_nat p) i u)).
    destruct Hsp as (A1 & A2 & A3 & A4 & A5).
    apply B_sum; auto; try lia. now apply tk_monotone.
Qed.

(* ---- editing the knots of one direction ---- *)
Lemma Forall2_upd {A B} (P : A -> B -> Prop) l1 l2 d a :
  Forall2 P l1 l2 -> (forall b, nth_error l2 d = Some b -> P a b) -> Forall2 P (upd l1 d a) l2.
Proof.
  intros H; revert d; induction H as [|x y l1 l2 Hxy H IH]; intros d Ha; [constructor|].
  destruct d as [|d]; cbn; constructor; auto.
Qed.

Lemma ps_insert_ok knots degs d u kv kv' : nth_error knots d = Some kv -> lens_ok knots degs ->
  kv_insert (F := F) kv u = Ok kv' -> (length kv <= length kv')%nat ->
  ps_insert (mkps knots degs) u d = Ok (mkps (upd knots d kv') degs).
Proof.
  intros Hk Hl Hi Hlen. unfold ps_insert, dget. cbn [ps_knots ps_degs mkps]. rnorm. rewrite Hk. cbn [bind].
  rewrite Hi. cbn [bind]. rewrite create_bases_ok; [reflexivity|].
  apply Forall2_upd; auto. intros p Hp. revert d degs Hk Hl Hp. induction knots as [|a knots IH]; intros [|d] degs Hk Hl Hp;
    inversion Hl; subst; cbn in *; try discriminate.
  - inversion Hk; inversion Hp; subst. destruct H1. unfold zlen in *. lia.
  - eauto.
Qed.

Lemma ps_remove_ok knots degs d u kv kv' p : nth_error knots d = Some kv -> nth_error degs d = Some p ->
  lens_ok knots degs -> 0 <= p ->
  kv_remove (F := F) kv u = Ok kv' -> p + 1 <= zlen kv' ->
  ps_remove (mkps knots degs) u d = Ok (mkps (upd knots d kv') degs).
Proof.
  intros Hk Hd Hl Hp Hi Hlen. unfold ps_remove, dget. cbn [ps_knots ps_degs mkps]. rnorm. rewrite Hk. cbn [bind].
  rewrite Hi. cbn [bind]. rewrite create_bases_ok; [reflexivity|].
  apply Forall2_upd; auto. intros q Hq. rewrite Hq in Hd. inversion Hd; subst. auto.
Qed.

Lemma nth_error_upd_same {A} (l : list A) d a b : nth_error l d = Some b -> nth_error (upd l d a) d = Some a.
Proof. revert d; induction l as [|x l IH]; intros [|d] H; cbn in *; try discriminate; auto. Qed.

Lemma lens_ok_upd knots degs d kv' p : lens_ok knots degs -> nth_error degs d = Some p ->
  p + 1 <= zlen kv' -> lens_ok (upd knots d kv') degs.
Proof.
  intros Hl Hd H. apply Forall2_upd; auto. intros q Hq. rewrite Hd in Hq. inversion Hq; subst.
  split; auto. clear - Hl Hd. revert d Hd. induction Hl as [|a b l1 l2 [H1 H2] _ IH]; intros [|d] Hd; cbn in *; try discriminate; eauto.
  inversion Hd; now subst.
Qed.

Lemma lens_ok_nth knots degs d kv p : lens_ok knots degs -> nth_error knots d = Some kv -> nth_error degs d = Some p ->
  0 <= p /\ p + 1 <= zlen kv.
Proof.
  intros H; revert d; induction H as [|a b l1 l2 H1 _ IH]; intros [|d] Hk Hd; cbn in *; try discriminate; eauto.
  inversion Hk; inversion Hd; now subst.
Qed.

Lemma insert_many us : forall knots degs d kv p, nth_error knots d = Some kv -> nth_error degs d = Some p ->
  lens_ok knots degs -> nondecreasing kv ->
  exists kv', foldM (fun p' (u : R) => ps_insert (F := F) p' u d) us (mkps knots degs) = Ok (mkps (upd knots d kv') degs) /\
    nondecreasing kv' /\ Permutation kv' (us ++ kv).
Proof.
  induction us as [|u us IH]; intros knots degs d kv p Hk Hd Hl Hn.
  - exists kv. cbn [foldM app]. split; [|split; auto]. do 2 f_equal.
    clear - Hk. revert d Hk; induction knots as [|a l IH]; intros [|d] Hk; cbn in *; try discriminate; auto.
    + inversion Hk; now subst.
    + now rewrite <- IH.
  - destruct (lens_ok_nth _ _ _ _ _ Hl Hk Hd) as [Hp Hlen].
    destruct (kv_insert_spec dz kv u Hn) as (kv1 & E & Hn1 & Hp1).
    { intros ->. cbn in Hlen. lia. }
    pose proof (Permutation_length Hp1) as Hlen1. cbn [length] in Hlen1.
    cbn [foldM]. rewrite (ps_insert_ok knots degs d u kv kv1) by (auto; zl). cbn [bind].
    destruct (IH (upd knots d kv1) degs d kv1 p) as (kv' & E' & Hn' & Hp'); auto.
    + eapply nth_error_upd_same; eauto.
    + eapply lens_ok_upd; eauto. zl.
    + exists kv'. rewrite upd_upd in E'. split; auto. split; auto.
      rewrite Hp', Hp1. cbn [app]. symmetry. apply Permutation_middle.
Qed.

(* removing a strictly increasing list of present knots *)
Lemma remove_many us : forall knots degs d kv p, nth_error knots d = Some kv -> nth_error degs d = Some p ->
  lens_ok knots degs -> nondecreasing kv -> separated kv ->
  nondecreasing us -> NoDup us -> (forall x, In x us -> In x kv) ->
  (us <> [] -> In (final_knot kv) us) ->
  p + 1 + zlen us <= zlen kv ->
  exists kv', foldM (fun p' (u : R) => ps_remove (F := F) p' u d) us (mkps knots degs) = Ok (mkps (upd knots d kv') degs) /\
    nondecreasing kv' /\ Permutation kv (us ++ kv').
Proof.
  induction us as [|u us IH]; intros knots degs d kv p Hk Hd Hl Hn Hs Hus Hnd Hin Hfin Hcnt.
  - exists kv. cbn [foldM app]. split; [|split; auto]. do 2 f_equal.
    clear - Hk. revert d Hk; induction knots as [|a l IH]; intros [|d] Hk; cbn in *; try discriminate; auto.
    + inversion Hk; now subst.
    + now rewrite <- IH.
  - destruct (lens_ok_nth _ _ _ _ _ Hl Hk Hd) as [Hp Hlen].
    assert (Hu : In u kv) by (apply Hin; now left).
    assert (Hcase : u = final_knot kv \/ ~ near u (final_knot kv)).
    { destruct (Req_EM_T u (final_knot kv)) as [|Hne]; auto. right. intros C.
      apply (In_nth _ _ 0%R) in Hu as (n & Hn1 & <-). rewrite <- tk_last in *.
      change (nth n kv 0%R) with (knot kv n) in *. rewrite <- tk_knot in * by auto.
      apply near_tk_eq in C; auto. }
    destruct (kv_remove_spec dz kv u Hn Hu Hcase) as (kv1 & E & Hn1 & Hp1).
    pose proof (Permutation_length Hp1) as Hlen1. cbn [length] in Hlen1.
    unfold zlen in Hcnt; cbn [length] in Hcnt.
    cbn [foldM]. rewrite (ps_remove_ok knots degs d u kv kv1 p) by (auto; zl). cbn [bind].
    inversion Hnd; subst.
    assert (Hgt : forall x, In x us -> (u < x)%R).
    { intros x Hx. pose proof (nondecreasing_head _ _ _ Hus Hx). destruct (Req_EM_T u x); [subst; contradiction | lra]. }
    assert (Hmem : forall x, In x us -> In x kv1).
    { intros x Hx. pose proof (Hin x (or_intror Hx)) as Hxk. apply (Permutation_in x Hp1) in Hxk.
      destruct Hxk as [->|]; auto. contradiction. }
    assert (Hsub : forall x, In x kv1 -> In x kv).
    { intros x Hx. apply (Permutation_in x (Permutation_sym Hp1)). now right. }
    destruct (IH (upd knots d kv1) degs d kv1 p) as (kv' & E' & Hn' & Hp'); auto.
    + eapply nth_error_upd_same; eauto.
    + eapply lens_ok_upd; eauto. zl.
    + intros i j Hi Hj Hlt.
      assert (A : In (knot kv1 i) kv) by (apply Hsub, nth_In; auto).
      assert (A2 : In (knot kv1 j) kv) by (apply Hsub, nth_In; auto).
      apply (In_nth _ _ 0%R) in A as (i' & Hi' & Ei). apply (In_nth _ _ 0%R) in A2 as (j' & Hj' & Ej).
      rewrite <- Ei, <- Ej in *. apply Hs; auto.
    + now apply nondecreasing_tail in Hus.
    + intros Hne. assert (Hf : In (final_knot kv) us).
      { destruct (Hfin ltac:(discriminate)) as [->|]; auto.
        destruct us as [|y us]; [contradiction|]. exfalso.
        pose proof (Hgt y (or_introl eq_refl)). pose proof (Hin y (or_intror (or_introl eq_refl))) as Hy.
        apply (In_nth _ _ 0%R) in Hy as (m & Hm & <-). pose proof (final_knot_ge kv m Hn Hm). unfold knot in *. lra. }
      replace (final_knot kv1) with (final_knot kv); auto.
      pose proof (Hmem _ Hf) as Hfk. apply (In_nth _ _ 0%R) in Hfk as (m & Hm & Em).
      pose proof (final_knot_ge kv1 m Hn1 Hm) as H5.
      assert (H6 : In (final_knot kv1) kv) by (apply Hsub, nth_In; lia).
      apply (In_nth _ _ 0%R) in H6 as (m' & Hm' & Em'). pose proof (final_knot_ge kv m' Hn Hm') as H7.
      unfold knot in *. lra.
    + zl.
    + exists kv'. rewrite upd_upd in E'. split; auto. split; auto.
      rewrite Hp1, Hp'. reflexivity.
Qed.

Lemma occurrences_perm l1 l2 x : Permutation l1 l2 -> occurrences l1 x = occurrences l2 x.
Proof. intros H. unfold occurrences. apply (Permutation_count_occ Req_EM_T). exact H. Qed.

Lemma occurrences_app l1 l2 x : occurrences (l1 ++ l2) x = (occurrences l1 x + occurrences l2 x)%nat.
Proof. apply count_occ_app. Qed.

Lemma occurrences_unique kv x : nondecreasing kv ->
  occurrences (unique_copy (F := F) kv) x = if in_dec Req_EM_T x kv then 1%nat else 0%nat.
Proof.
  intros Hn. pose proof (unique_copy_NoDup dz kv Hn) as Hnd. pose proof (unique_copy_In dz kv x) as Hin.
  unfold occurrences. destruct (in_dec Req_EM_T x kv) as [H|H].
  - apply (NoDup_count_occ' Req_EM_T); tauto.
  - apply count_occ_not_In. tauto.
Qed.

Lemma increment_all knots degs d kv p : nth_error knots d = Some kv -> nth_error degs d = Some p ->
  lens_ok knots degs -> nondecreasing kv ->
  exists kv', ps_increment_all (mkps knots degs) d = Ok (mkps (upd knots d kv') degs) /\ nondecreasing kv' /\
    forall x, occurrences kv' x = (occurrences kv x + if in_dec Req_EM_T x kv then 1 else 0)%nat.
Proof.
  intros Hk Hd Hl Hn. unfold ps_increment_all, dget. cbn [ps_knots mkps]. rnorm. rewrite Hk. cbn [bind].
  destruct (lens_ok_nth _ _ _ _ _ Hl Hk Hd) as [Hp Hlen].
  assert (Hne : kv <> []) by (intros ->; cbn in Hlen; lia).
  pose proof (num_different_distinct dz kv Hn Hne) as E1. pose proof (unique_copy_length dz kv Hn) as E2.
  unfold zlen; rnorm. rewrite E1, E2. rewrite Z.ltb_irrefl.
  destruct (insert_many (unique_copy (F := F) kv) knots degs d kv p Hk Hd Hl Hn) as (kv' & E & Hn' & Hp').
  exists kv'. split; auto. split; auto. intros x.
  rewrite (occurrences_perm _ _ x Hp'), occurrences_app, occurrences_unique by auto. lia.
Qed.

Lemma decrement_all knots degs d kv p : nth_error knots d = Some kv -> nth_error degs d = Some p ->
  lens_ok knots degs -> nondecreasing kv -> separated kv ->
  p + 1 + Z.of_nat (distinct_values kv) <= zlen kv ->
  exists kv', ps_decrement_all (mkps knots degs) d = Ok (mkps (upd knots d kv') degs) /\ nondecreasing kv' /\
    forall x, occurrences kv x = (occurrences kv' x + if in_dec Req_EM_T x kv then 1 else 0)%nat.
Proof.
  intros Hk Hd Hl Hn Hs Hcnt. unfold ps_decrement_all, dget. cbn [ps_knots mkps]. rnorm. rewrite Hk. cbn [bind].
  destruct (lens_ok_nth _ _ _ _ _ Hl Hk Hd) as [Hp Hlen].
  assert (Hne : kv <> []) by (intros ->; cbn in Hlen; lia).
  pose proof (num_different_distinct dz kv Hn Hne) as E1. pose proof (unique_copy_length dz kv Hn) as E2.
  unfold zlen; rnorm. rewrite E1, E2. rewrite Z.ltb_irrefl.
  destruct (remove_many (unique_copy (F := F) kv) knots degs d kv p Hk Hd Hl Hn Hs) as (kv' & E & Hn' & Hp').
  - now apply unique_copy_nondecreasing.
  - now apply unique_copy_NoDup.
  - intros x. apply unique_copy_In.
  - intros _. apply unique_copy_In. apply nth_In. unfold zlen in Hlen. lia.
  - unfold zlen in *. rnorm. rewrite E2. auto.
  - exists kv'. split; auto. split; auto. intros x.
    rewrite (occurrences_perm _ _ x Hp'), occurrences_app, occurrences_unique by auto. lia.
Qed.

End PS.
