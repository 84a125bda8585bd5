(* Construction of a spline in real arithmetic. *)
From Coq Require Import ZArith List Bool Lia Reals Lra.
From Verif Require Import Base BaseFacts RSum MultiIndex MultiIndexSpec MultiIndexFacts
  KnotVec KnotVecSpec KnotVecFacts Basis BasisSpec BasisFacts
  Spaces SpacesSpec SpacesFacts SplineEval SplineSpec.
Import ListNotations.
Open Scope Z_scope.

Section New.
Variable dz : R -> R.
Local Notation F := (Rops dz).

Lemma good_checked knots degs : Forall2 good_direction knots degs -> Forall2 (fun kv p => 0 <= p /\ clamped kv p) knots degs.
Proof. induction 1 as [|kv p l1 l2 (H1 & H2 & _) H IH]; constructor; auto. Qed.

Lemma good_lens knots degs : Forall2 good_direction knots degs -> lens_ok knots degs.
Proof. unfold lens_ok. induction 1 as [|kv p l1 l2 (A & (B & _) & _) _ IH]; constructor; auto. zl. Qed.

Lemma good_npts_pos knots degs : Forall2 good_direction knots degs ->
  pos_lens (map2 (fun kv p => zlen kv - p - 1) knots degs).
Proof. unfold pos_lens. induction 1 as [|kv p l1 l2 (A & (B & _) & _) _ IH]; cbn [map2]; constructor; auto. zl. Qed.

Lemma map_combine {A B C} (f : A -> B -> C) l1 l2 : map (fun p => f (fst p) (snd p)) (combine l1 l2) = map2 f l1 l2.
Proof. revert l2; induction l1 as [|a l1 IH]; intros [|b l2]; cbn; auto. now rewrite IH. Qed.

Lemma flatten_ok (cps : list (list R)) dim acc : Forall (fun cp => zlen cp = dim) cps ->
  foldM (fun acc cp => if zlen cp =? dim then Ok (acc ++ cp) else Throw RuntimeError) cps acc = Ok (acc ++ concat cps).
Proof.
  intros H. revert acc; induction H as [|cp cps Hc H IH]; intros acc; cbn [foldM concat]; [now rewrite app_nil_r|].
  rewrite Hc, Z.eqb_refl. cbn [bind]. rewrite IH, app_assoc. reflexivity.
Qed.

Lemma concat_zlen (cps : list (list R)) dim : Forall (fun cp => zlen cp = dim) cps -> zlen (concat cps) = dim * zlen cps.
Proof.
  induction 1 as [|cp cps Hc H IH]; [cbn; lia|]. cbn [concat]. unfold zlen in *. rewrite app_length. cbn [length]. lia.
Qed.

Lemma phys_new_ok (cps : list (list R)) npts dim : Forall (fun cp => zlen cp = dim) cps -> cps <> [] ->
  zlen cps = total npts -> total npts < 2 ^ 64 ->
  phys_new (F := F) cps npts = Ok (mkPhys (F := F) dim npts (concat cps) None).
Proof.
  intros Hd Hne Hn Hb. unfold phys_new. destruct cps as [|cp cps]; [congruence|].
  assert (E0 : vget (cp :: cps) 0 = Ok cp) by reflexivity. rnorm. rewrite E0. cbn [bind].
  assert (Ec : zlen cp = dim) by (now inversion Hd). rewrite Ec.
  unfold u64. rewrite Z.mod_small by (split; [unfold zlen in Hn; lia | auto]).
  replace (total npts =? zlen (cp :: cps)) with true by (symmetry; apply Z.eqb_eq; auto). cbn [negb].
  rewrite (flatten_ok (cp :: cps) dim []) by auto. reflexivity.
Qed.

Lemma spline_new_ok (knots : list (list R)) degs (cps : list (list R)) (wts : option (list R)) dim :
  Forall2 good_direction knots degs ->
  1 <= dim -> Forall (fun cp => zlen cp = dim) cps ->
  zlen cps = total (map2 (fun kv p => zlen kv - p - 1) knots degs) -> zlen cps < 2 ^ 64 ->
  (forall w, wts = Some w -> zlen w = zlen cps) ->
  let s := mkSpline (F := F) (mkps dz knots degs)
             (mkPhys (F := F) dim (map2 (fun kv p => zlen kv - p - 1) knots degs) (concat cps) wts) in
  spline_new (F := F) knots degs cps wts = Ok s /\ well_formed s.
Proof.
  intros Hg Hdim Hc Hn Hb Hw s. pose proof (total_pos _ (good_npts_pos knots degs Hg)) as Ht.
  assert (Hne : cps <> []) by (intros ->; change (zlen (@nil (list R))) with 0 in Hn; lia).
  split.
  - unfold spline_new. rewrite ps_new_ok by now apply good_checked. cbn [bind].
    rewrite (map_combine (fun kv p => zlen kv - p - 1)). rnorm.
    destruct wts as [w|].
    + unfold wphys_new. rewrite (phys_new_ok cps _ dim) by (auto; lia). cbn [bind ph_dim ph_npts ph_cps].
      rnorm. rewrite (Hw w eq_refl), Z.eqb_refl. reflexivity.
    + rewrite (phys_new_ok cps _ dim) by (auto; lia). reflexivity.
  - split; cbn; auto.
    + apply create_bases_ok. now apply good_lens.
    + rnorm. rewrite (concat_zlen cps dim) by auto. now rewrite Hn.
    + intros w E. rewrite (Hw w E). auto.
Qed.

(* the control point of a flat list of points *)
Lemma concat_nth (cps : list (list R)) dim k c : Forall (fun cp => zlen cp = dim) cps ->
  0 <= k < zlen cps -> 0 <= c < dim ->
  nth (Z.to_nat (dim * k + c)) (concat cps) 0%R = nth (Z.to_nat c) (nth (Z.to_nat k) cps []) 0%R.
Proof.
  intros H Hk Hc. revert k Hk; induction H as [|cp cps Hcp H IH]; intros k Hk; [unfold zlen in Hk; cbn in Hk; lia|].
  cbn [concat]. destruct (Z.eq_dec k 0) as [->|Hk0].
  - cbn [Z.to_nat nth]. rewrite app_nth1 by zl. f_equal. lia.
  - rewrite app_nth2 by (unfold zlen in *; nia).
    replace (Z.to_nat (dim * k + c) - length cp)%nat with (Z.to_nat (dim * (k - 1) + c)) by (unfold zlen in *; nia).
    rewrite IH by (unfold zlen in *; cbn [length] in *; lia).
    replace (Z.to_nat k) with (S (Z.to_nat (k - 1))) by lia. reflexivity.
Qed.
End New.
