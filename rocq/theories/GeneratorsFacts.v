(* Proofs about the generated surfaces: control points, sums over them, knots of the square. *)
From Coq Require Import ZArith List Lia Bool Reals Lra.
From Verif Require Import Base BaseFacts RSum MultiIndex MultiIndexSpec MultiIndexFacts KnotVec KnotVecSpec KnotVecFacts
  Basis BasisSpec BasisFacts Spaces SpacesSpec SpacesFacts SplineEval SplineSpec SplineNew EvalFacts EvalThms
  ConvertFacts VtkSpec VtkFacts Generators.
Import ListNotations.
Open Scope Z_scope.

(* ---- loops over a grid ---- *)
Lemma foldM_flat_map {A B S} (f : S -> B -> Res S) (g : A -> list B) l s :
  foldM f (flat_map g l) s = foldM (fun s x => foldM f (g x) s) l s.
Proof.
  revert s. induction l as [|x l IH]; intros s; cbn [flat_map foldM]; [reflexivity|].
  rewrite foldM_app. destruct (foldM f (g x) s); cbn [bind]; auto.
Qed.
Lemma foldM_map {A B S} (f : S -> B -> Res S) (g : A -> B) l s :
  foldM f (map g l) s = foldM (fun s x => f s (g x)) l s.
Proof.
  revert s. induction l as [|x l IH]; intros s; cbn [map foldM]; [reflexivity|].
  destruct (f s (g x)); cbn [bind]; auto.
Qed.
Lemma foldM_ext {A S} (f g : S -> A -> Res S) l s : (forall s x, In x l -> f s x = g s x) -> foldM f l s = foldM g l s.
Proof.
  revert s. induction l as [|x l IH]; intros s H; cbn [foldM]; [reflexivity|].
  rewrite H by now left. destruct (g s x); cbn [bind]; auto. apply IH. intros; apply H; now right.
Qed.

Lemma for_grid {S} (f : list Z -> S -> Res S) nt nc s :
  for_up 0 nc (fun i acc => for_up 0 nt (fun j acc => f [j; i] acc) acc) s =
  foldM (fun acc idx => f idx acc) (grid [nt; nc]) s.
Proof.
  cbn [grid]. rewrite foldM_flat_map, foldM_flat_map. cbn [foldM]. rewrite for_up_foldM, Z.sub_0_r, foldM_map.
  assert (G : foldM (fun acc i => for_up 0 nt (fun j acc => f [j; i] acc) acc) (zseq 0 (Z.to_nat nc)) s =
              foldM (fun s0 x => foldM (fun acc idx => f idx acc) (map (fun i => [i; x]) (zseq 0 (Z.to_nat nt))) s0) (zseq 0 (Z.to_nat nc)) s).
  { apply foldM_ext. intros acc i _. rewrite for_up_foldM, Z.sub_0_r, foldM_map. reflexivity. }
  rewrite G. match goal with |- ?x = _ => destruct x; reflexivity end.
Qed.

(* control points listed along the grid *)
Lemma grid_points (f : list Z -> list R) npts dim idx c : (forall i, In i (grid npts) -> zlen (f i) = dim) ->
  in_box npts idx -> 0 <= c < dim ->
  nth (Z.to_nat (dim * position npts idx + c)) (concat (map f (grid npts))) 0%R = nth (Z.to_nat c) (f idx) 0%R.
Proof.
  intros Hd Hb Hc. pose proof (get1d_range _ _ Hb) as Hr. rewrite <- position_get1d in Hr.
  pose proof (grid_nth _ _ Hb) as Hg.
  rewrite concat_nth; auto.
  - f_equal. apply nth_error_nth. rewrite nth_error_map, Hg. reflexivity.
  - apply Forall_forall. intros x Hx. apply in_map_iff in Hx. destruct Hx as (i & <- & Hi). now apply Hd.
  - split; [lia|]. unfold zlen. rewrite map_length.
    assert (Z.to_nat (position npts idx) < length (grid npts))%nat by (apply nth_error_Some; congruence). lia.
Qed.
Lemma grid_values (f : list Z -> R) npts idx : in_box npts idx ->
  nth (Z.to_nat (position npts idx)) (map f (grid npts)) 0%R = f idx.
Proof. intros Hb. apply nth_error_nth. rewrite nth_error_map, (grid_nth _ _ Hb). reflexivity. Qed.

Lemma lsum_indices_1 f n : lsum f (all_indices [n]) = lsum (fun i => f [i]) (zseq 0 (Z.to_nat n)).
Proof.
  cbn [all_indices map]. rewrite lsum_flat_map. apply lsum_ext. intros i _. cbn [lsum]. lra.
Qed.
Lemma lsum_indices_2 f n m : lsum f (all_indices [n; m]) =
  lsum (fun i => lsum (fun j => f [i; j]) (zseq 0 (Z.to_nat m))) (zseq 0 (Z.to_nat n)).
Proof.
  change (all_indices [n; m]) with (flat_map (fun i => map (cons i) (all_indices [m])) (zseq 0 (Z.to_nat n))).
  rewrite lsum_flat_map. apply lsum_ext. intros i _. rewrite lsum_map. apply lsum_indices_1.
Qed.

(* ---- translational surface ---- *)
Section Translational.
Context {dz : R -> R}.
Notation F := (Rops dz).
Implicit Types t c s : spline F.

Lemma points_ok (ph : phys F) : 1 <= ph_dim ph -> zlen (ph_cps ph) = ph_dim ph * total (ph_npts ph) ->
  num_control_points ph = Ok (total (ph_npts ph)).
Proof.
  intros Hd Hc. unfold num_control_points, idiv. destruct (Z.eqb_spec (ph_dim ph) 0); [lia|].
  f_equal. rnorm. rewrite Hc, Z.mul_comm. apply Z.quot_mul. lia.
Qed.

Lemma get_cp_nth s idx : well_formed s -> in_box (npts_of s) idx ->
  get_control_point (sp_ph s) idx = Ok (map (coordinate s idx) (zseq 0 (Z.to_nat (ph_dim (sp_ph s))))).
Proof. intros Hwf Hb. apply (cp_ok dz); auto; [pose proof (wf_dim _ Hwf); lia | apply (wf_cps _ Hwf)]. Qed.

Lemma cp_plus_ok (a b : list R) : (length a <= length b)%nat ->
  cp_plus (F := F) a b = Ok (map (fun i => nth (Z.to_nat i) a 0 + nth (Z.to_nat i) b 0)%R (zseq 0 (length a))).
Proof.
  intros H. unfold cp_plus. apply mapM_ok. intros i Hi. apply zseq_In in Hi.
  pose proof (vget_nth (A := R) a i 0%R ltac:(zl)) as E1. pose proof (vget_nth (A := R) b i 0%R ltac:(zl)) as E2.
  rnorm. rewrite E1, E2. reflexivity.
Qed.
Lemma cp_plus_short (a b : list R) : (length b < length a)%nat -> cp_plus (F := F) a b = UB.
Proof.
  intros H. unfold cp_plus.
  assert (G : forall n, (length b < n <= length a)%nat -> mapM (fun i => x <- vget a i ;; y <- vget b i ;; Ok (nadd (n := F) x y)) (zseq 0 n) = UB).
  { intros n Hn. replace n with (length b + S (n - length b - 1))%nat by lia.
    assert (A : forall k lo, mapM (fun i => x <- vget a i ;; y <- vget b i ;; Ok (nadd (n := F) x y)) (zseq lo (k + S (n - length b - 1))) = UB
                \/ lo + Z.of_nat k <> zlen b \/ lo < 0).
    { induction k as [|k IH]; intros lo.
      - destruct (Z.eq_dec lo (zlen b)) as [E|E]; [|right; left; lia]. left. cbn [Nat.add zseq mapM].
        pose proof (vget_nth (A := R) a lo 0%R ltac:(zl)) as E1. rnorm. rewrite E1. cbn [bind].
        unfold vget at 1. replace ((0 <=? lo) && (lo <? Z.of_nat (length b))) with false; [reflexivity|].
        symmetry. apply andb_false_iff. right. apply Z.ltb_ge. unfold zlen in E. lia.
      - destruct (Z.lt_ge_cases lo 0) as [L|L]; [right; now right|].
        destruct (IH (lo + 1)) as [E|[E|E]]; [|right; left; lia | right; lia].
        destruct (Z.eq_dec (lo + Z.of_nat (S k)) (zlen b)) as [E'|E']; [|right; left; lia]. left.
        cbn [Nat.add zseq mapM]. 
        pose proof (vget_nth (A := R) a lo 0%R ltac:(zl)) as E1. pose proof (vget_nth (A := R) b lo 0%R ltac:(zl)) as E2.
        rnorm. rewrite E1, E2. cbn [bind]. rewrite E. reflexivity. }
    destruct (A (length b) 0) as [E|[E|E]]; [exact E | unfold zlen in E; lia | lia]. }
  apply G. split; [exact H | apply le_n].
Qed.

(* the control point and weight of the surface *)
Definition sum_point t c (idx : list Z) : list R :=
  match idx with
  | [j; i] => map (fun k => coordinate t [j] k + coordinate c [i] k)%R (zseq 0 (Z.to_nat (ph_dim (sp_ph t))))
  | _ => []
  end.
Definition product_weight t c (idx : list Z) : R :=
  match idx with [j; i] => (weight t [j] * weight c [i])%R | _ => 0%R end.

Lemma curve_box n i : 0 <= i < n -> in_box [n] [i].
Proof. intros. constructor; [lia | constructor]. Qed.

Lemma join_loop t c nt nc : well_formed t -> well_formed c -> npts_of t = [nt] -> npts_of c = [nc] ->
  ph_dim (sp_ph t) <= ph_dim (sp_ph c) ->
  for_up 0 nc (fun i acc => for_up 0 nt (fun j (acc : list (list F) * list F) =>
               a <- get_control_point (sp_ph t) [j] ;; b <- get_control_point (sp_ph c) [i] ;;
               x <- cp_plus a b ;;
               wa <- get_weight (sp_ph t) [j] ;; wb <- get_weight (sp_ph c) [i] ;;
               Ok (fst acc ++ [x], snd acc ++ [nmul (n := F) wa wb])) acc) ([], []) =
  Ok (map (sum_point t c) (grid [nt; nc]), map (product_weight t c) (grid [nt; nc])).
Proof.
  intros Wt Wc Et Ec Hd.
  pose (f := fun (idx : list Z) (acc : list (list F) * list F) =>
     match idx with
     | [j; i] => a <- get_control_point (sp_ph t) [j] ;; b <- get_control_point (sp_ph c) [i] ;;
               x <- cp_plus a b ;;
               wa <- get_weight (sp_ph t) [j] ;; wb <- get_weight (sp_ph c) [i] ;;
               Ok (fst acc ++ [x], snd acc ++ [nmul (n := F) wa wb])
     | _ => UB
     end).
  refine (eq_trans (for_grid f nt nc _) _).
  rewrite (foldM_ok _ (fun acc idx => (fst acc ++ [sum_point t c idx], snd acc ++ [product_weight t c idx]))).
  - f_equal. assert (G : forall l (acc : list (list F) * list F), fold_left (fun acc idx => (fst acc ++ [sum_point t c idx], snd acc ++ [product_weight t c idx])) l acc
              = (fst acc ++ map (sum_point t c) l, snd acc ++ map (product_weight t c) l)).
    { induction l as [|x l IH]; intros [a b]; cbn [fold_left map fst snd]; [now rewrite !app_nil_r|].
      rewrite IH. cbn [fst snd]. now rewrite <- !app_assoc. }
    exact (G _ ([], [])).
  - intros acc idx Hi. apply grid_In in Hi. inversion Hi as [|? j ? ? Hj Hr]; subst. inversion Hr as [|? i ? ? Hi' Hn]; subst.
    inversion Hn; subst. unfold f.
    rewrite (get_cp_nth t [j]) by (auto; rewrite Et; now apply curve_box).
    rewrite (get_cp_nth c [i]) by (auto; rewrite Ec; now apply curve_box). cbn [bind].
    rewrite cp_plus_ok by (rewrite !map_length, !zseq_length; lia). cbn [bind].
    rewrite (weight_ok dz t [j]) by (try (rewrite Et; now apply curve_box); apply (wf_wts _ Wt)).
    rewrite (weight_ok dz c [i]) by (try (rewrite Ec; now apply curve_box); apply (wf_wts _ Wc)). cbn [bind].
    f_equal. f_equal. f_equal. f_equal. cbn [sum_point]. rewrite map_length, zseq_length. apply map_ext_in.
    intros k Hk. apply zseq_In in Hk.
    rewrite !(nth_map_in _ _ _ 0) by (rewrite zseq_length; lia). rewrite !zseq_nth by lia.
    rewrite Z2Nat.id by lia. reflexivity.
Qed.
End Translational.

Section TranslationalSums.
Context {dz : R -> R}.
Notation F := (Rops dz).
Implicit Types t c s : spline F.

Lemma one_direction s : well_formed s -> length (knots_of s) = 1%nat ->
  exists kv p, knots_of s = [kv] /\ degs_of s = [p] /\ good_direction kv p /\ npts_of s = [zlen kv - p - 1].
Proof.
  intros Hwf Hl. pose proof (wf_directions s Hwf) as Hd. pose proof (wf_npts s Hwf) as Hn.
  destruct (knots_of s) as [|kv [|]]; cbn in Hl; try discriminate. inversion Hd as [|? p ? ? Hg Hr]; subst. inversion Hr; subst.
  exists kv, p. split; auto. split; auto. split; auto. rewrite Hn. replace (degs_of s) with [p] by congruence. reflexivity.
Qed.

Lemma sum_point_len t c j i : zlen (sum_point t c [j; i]) = Z.of_nat (Z.to_nat (ph_dim (sp_ph t))).
Proof. unfold zlen. cbn [sum_point]. now rewrite map_length, zseq_length. Qed.

Lemma join_ok t c : well_formed t -> well_formed c -> length (knots_of t) = 1%nat -> length (knots_of c) = 1%nat ->
  ph_dim (sp_ph t) <= ph_dim (sp_ph c) -> total (npts_of t) * total (npts_of c) < 2 ^ 64 ->
  let s := mkSpline (F := F) (mkps dz (knots_of t ++ knots_of c) (degs_of t ++ degs_of c))
     (mkPhys (F := F) (ph_dim (sp_ph t)) (npts_of t ++ npts_of c) (concat (map (sum_point t c) (grid (npts_of t ++ npts_of c))))
             (Some (map (product_weight t c) (grid (npts_of t ++ npts_of c))))) in
  translational_surface t c = Ok s /\ well_formed s.
Proof.
  intros Wt Wc Lt Lc Hd Hb s.
  destruct (one_direction t Wt Lt) as (kt & pt & Ekt & Ept & Gt & Ent).
  destruct (one_direction c Wc Lc) as (kc & pc & Ekc & Epc & Gc & Enc).
  pose proof (wf_dim _ Wt) as Dt. pose proof (wf_dim _ Wc) as Dc.
  assert (Pt : 1 <= zlen kt - pt - 1). { destruct Gt as (? & (? & _) & _). zl. }
  assert (Pc : 1 <= zlen kc - pc - 1). { destruct Gc as (? & (? & _) & _). zl. }
  subst s. rewrite Ent, Enc, Ekt, Ekc, Ept, Epc in *. cbn [app total fold_right] in *.
  set (nt := zlen kt - pt - 1) in *. set (nc := zlen kc - pc - 1) in *.
  assert (Hgl : Forall (fun l => 0 <= l) [nt; nc]) by (repeat constructor; lia).
  pose proof (spline_new_ok dz [kt; kc] [pt; pc] (map (sum_point t c) (grid [nt; nc])) (Some (map (product_weight t c) (grid [nt; nc]))) (ph_dim (sp_ph t))) as N.
  assert (Hpts : Forall (fun cp => zlen cp = ph_dim (sp_ph t)) (map (sum_point t c) (grid [nt; nc]))).
  { apply Forall_forall. intros x Hx. apply in_map_iff in Hx. destruct Hx as (idx & <- & Hi). apply grid_In in Hi.
    inversion Hi as [|? j ? ? Hj Hr]; subst. inversion Hr as [|? i ? ? Hi' Hn]; subst. inversion Hn; subst.
    rewrite sum_point_len. lia. }
  assert (Hlen : zlen (map (sum_point t c) (grid [nt; nc])) = nt * nc).
  { unfold zlen. rewrite map_length, grid_length by auto. unfold size. cbn [fold_right]. nia. }
  destruct N as (N1 & N2); auto.
  - rewrite Hlen. cbn [map2]. fold nt nc. unfold total. cbn. lia.
  - rewrite Hlen. unfold total in Hb; cbn in Hb. nia.
  - intros w E. injection E as <-. unfold zlen. now rewrite !map_length.
  - split; [|exact N2]. unfold translational_surface, join_pspaces, join_phys.
    unfold knots_of in Ekt, Ekc. unfold degs_of in Ept, Epc. rewrite Ekt, Ekc, Ept, Epc. cbn [dget nth_error bind].
    rewrite ps_new_ok by (apply good_checked; auto). cbn [bind].
    rewrite (points_ok (sp_ph t)) by (auto; apply (wf_cps _ Wt)). rewrite (points_ok (sp_ph c)) by (auto; apply (wf_cps _ Wc)).
    cbn [bind]. fold (npts_of t). fold (npts_of c). rewrite Ent, Enc.
    replace (total [nt]) with nt by (unfold total; cbn; lia). replace (total [nc]) with nc by (unfold total; cbn; lia).
    rewrite (join_loop t c nt nc) by auto. cbn [bind fst snd].
    unfold wphys_new. rewrite (phys_new_ok dz _ [nt; nc] (ph_dim (sp_ph t))).
    + cbn [bind ph_dim ph_npts ph_cps]. rnorm. replace (zlen (map (sum_point t c) (grid [nt; nc])) =? zlen (map (product_weight t c) (grid [nt; nc]))) with true; [reflexivity|].
      symmetry. apply Z.eqb_eq. unfold zlen. now rewrite !map_length.
    + exact Hpts.
    + intros E. rewrite E in Hlen. unfold zlen in Hlen; cbn in Hlen. nia.
    + rewrite Hlen. unfold total. cbn. lia.
    + unfold total in *; cbn in *. nia.
Qed.

Lemma product_sum (N1 N2 a1 a2 w1 w2 : Z -> R) l1 l2 :
  lsum (fun j => lsum (fun i => N1 j * (N2 i * 1) * (w1 j * w2 i * (a1 j + a2 i))) l2)%R l1 =
  (lsum (fun j => N1 j * 1 * (w1 j * a1 j)) l1 * lsum (fun i => N2 i * 1 * w2 i) l2
   + lsum (fun j => N1 j * 1 * w1 j) l1 * lsum (fun i => N2 i * 1 * (w2 i * a2 i)) l2)%R.
Proof.
  rewrite <- !lsum_scal_r, <- lsum_plus. apply lsum_ext. intros j _. rewrite <- !lsum_scal, <- lsum_plus.
  apply lsum_ext. intros i _. ring.
Qed.
Lemma product_weights (N1 N2 w1 w2 : Z -> R) l1 l2 :
  lsum (fun j => lsum (fun i => N1 j * (N2 i * 1) * (w1 j * w2 i)) l2)%R l1 =
  (lsum (fun j => N1 j * 1 * w1 j) l1 * lsum (fun i => N2 i * 1 * w2 i) l2)%R.
Proof.
  rewrite <- !lsum_scal_r. apply lsum_ext. intros j _. rewrite <- !lsum_scal. apply lsum_ext. intros i _. ring.
Qed.

Lemma surface_sums t c s : well_formed t -> well_formed c -> length (knots_of t) = 1%nat -> length (knots_of c) = 1%nat ->
  ph_dim (sp_ph t) <= ph_dim (sp_ph c) ->
  s = mkSpline (F := F) (mkps dz (knots_of t ++ knots_of c) (degs_of t ++ degs_of c))
     (mkPhys (F := F) (ph_dim (sp_ph t)) (npts_of t ++ npts_of c) (concat (map (sum_point t c) (grid (npts_of t ++ npts_of c))))
             (Some (map (product_weight t c) (grid (npts_of t ++ npts_of c))))) ->
  forall u v, weight_function s [u; v] = (weight_function t [u] * weight_function c [v])%R /\
    forall k, 0 <= k < ph_dim (sp_ph t) ->
      weighted_sum s [u; v] k = (weighted_sum t [u] k * weight_function c [v] + weight_function t [u] * weighted_sum c [v] k)%R.
Proof.
  intros Wt Wc Lt Lc Hd Es u v.
  destruct (one_direction t Wt Lt) as (kt & pt & Ekt & Ept & Gt & Ent).
  destruct (one_direction c Wc Lc) as (kc & pc & Ekc & Epc & Gc & Enc).
  assert (Pt : 1 <= zlen kt - pt - 1). { destruct Gt as (? & (? & _) & _). zl. }
  assert (Pc : 1 <= zlen kc - pc - 1). { destruct Gc as (? & (? & _) & _). zl. }
  set (nt := zlen kt - pt - 1) in *. set (nc := zlen kc - pc - 1) in *.
  assert (Ens : npts_of s = [nt; nc]) by (subst s; cbn [npts_of sp_ph ph_npts]; now rewrite Ent, Enc).
  assert (Eks : knots_of s = [kt; kc]) by (rewrite Es; change ((knots_of t ++ knots_of c) = [kt; kc]); now rewrite Ekt, Ekc).
  assert (Eds : degs_of s = [pt; pc]) by (rewrite Es; change ((degs_of t ++ degs_of c) = [pt; pc]); now rewrite Ept, Epc).
  assert (Ew : forall j i, 0 <= j < nt -> 0 <= i < nc -> weight s [j; i] = (weight t [j] * weight c [i])%R).
  { intros j i Hj Hi. subst s. unfold weight at 1. cbn [sp_ph ph_wts npts_of ph_npts]. rewrite Ent, Enc. cbn [app].
    rewrite grid_values by (constructor; [lia | constructor; [lia | constructor]]). reflexivity. }
  assert (Ex : forall j i k, 0 <= j < nt -> 0 <= i < nc -> 0 <= k < ph_dim (sp_ph t) ->
            coordinate s [j; i] k = (coordinate t [j] k + coordinate c [i] k)%R).
  { intros j i k Hj Hi Hk. subst s. unfold coordinate at 1. cbn [sp_ph ph_cps ph_dim npts_of ph_npts]. rewrite Ent, Enc. cbn [app].
    rewrite grid_points; auto.
    - cbn [sum_point]. rewrite (nth_map_in _ _ _ 0) by (rewrite zseq_length; lia). rewrite zseq_nth by lia.
      now rewrite Z2Nat.id by lia.
    - intros idx Hx. apply grid_In in Hx. inversion Hx as [|? j' ? ? Hj' Hr]; subst. inversion Hr as [|? i' ? ? Hi' Hn]; subst. inversion Hn; subst.
      rewrite sum_point_len. lia.
    - constructor; [lia | constructor; [lia | constructor]]. }
  split.
  - unfold weight_function. rewrite Ens, Ent, Enc, Eks, Ekt, Ekc, Eds, Ept, Epc, lsum_indices_2, !lsum_indices_1.
    cbn [basis_product]. rewrite <- product_weights. apply lsum_ext. intros j Hj. apply lsum_ext. intros i Hi.
    apply zseq_In in Hj, Hi. rewrite Ew by lia. reflexivity.
  - intros k Hk. unfold weight_function, weighted_sum. rewrite Ens, Ent, Enc, Eks, Ekt, Ekc, Eds, Ept, Epc, lsum_indices_2, !lsum_indices_1.
    cbn [basis_product]. rewrite <- product_sum. apply lsum_ext. intros j Hj. apply lsum_ext. intros i Hi.
    apply zseq_In in Hj, Hi. rewrite Ew, Ex by lia. reflexivity.
Qed.

Lemma translational t c : well_formed t -> well_formed c -> length (knots_of t) = 1%nat -> length (knots_of c) = 1%nat ->
  positive_weights t -> positive_weights c ->
  ph_dim (sp_ph t) <= ph_dim (sp_ph c) -> total (npts_of t) * total (npts_of c) < 2 ^ 64 ->
  exists s, translational_surface t c = Ok s /\ well_formed s /\ positive_weights s /\
    knots_of s = knots_of t ++ knots_of c /\ degs_of s = degs_of t ++ degs_of c /\ ph_dim (sp_ph s) = ph_dim (sp_ph t) /\
    forall u v dims, in_domain t [u] -> in_domain c [v] -> valid_dims t dims ->
      exists a b, evaluate t [u] dims = Ok a /\ evaluate c [v] dims = Ok b /\ evaluate s [u; v] dims = Ok (map2 Rplus a b).
Proof.
  intros Wt Wc Lt Lc Pt Pc Hd Hb. destruct (join_ok t c Wt Wc Lt Lc Hd Hb) as (E & Ws).
  eexists. split; [exact E|]. split; [exact Ws|].
  match type of Ws with well_formed ?x => set (s := x) in * end.
  assert (Hps : positive_weights s).
  { exists (map (product_weight t c) (grid (npts_of t ++ npts_of c))). split; [reflexivity|].
    apply Forall_forall. intros x Hx. apply in_map_iff in Hx. destruct Hx as (idx & <- & Hi). apply grid_In in Hi.
    destruct (one_direction t Wt Lt) as (kt & pt & Ekt & Ept & Gt & Ent).
    destruct (one_direction c Wc Lc) as (kc & pc & Ekc & Epc & Gc & Enc). rewrite Ent, Enc in Hi. cbn [app] in Hi.
    inversion Hi as [|? j ? ? Hj Hr]; subst. inversion Hr as [|? i ? ? Hi' Hn]; subst. inversion Hn; subst. cbn [product_weight].
    assert (G : forall (r : spline F) n k, well_formed r -> positive_weights r -> npts_of r = [n] -> 0 <= k < n -> (0 < weight r [k])%R).
    { intros r n k Wr (w & Ew & Hw) En Hk. unfold weight. rewrite Ew. rewrite Forall_forall in Hw. apply Hw. apply nth_In.
      pose proof (wf_wts _ Wr w Ew) as Hl. rewrite En in *. cbn [position]. replace (total [n]) with n in Hl by (unfold total; cbn; lia). zl. }
    apply Rmult_lt_0_compat; [eapply G; eauto | eapply G; eauto]. }
  split; [exact Hps|]. split; [reflexivity|]. split; [reflexivity|]. split; [reflexivity|].
  intros u v dims Hu Hv Hdims.
  assert (Hvc : valid_dims c dims) by (eapply Forall_impl; [|exact Hdims]; cbv beta; intros; lia).
  assert (Hvs : valid_dims s dims) by exact Hdims.
  assert (Huv : in_domain s [u; v]).
  { unfold in_domain. change (knots_of s) with (knots_of t ++ knots_of c). change [u; v] with ([u] ++ [v]). now apply Forall2_app. }
  pose proof (weight_function_positive dz t [u] Wt Pt Hu) as Qt. pose proof (weight_function_positive dz c [v] Wc Pc Hv) as Qc.
  pose proof (weight_function_positive dz s [u; v] Ws Hps Huv) as Qs.
  exists (map (fun k => weighted_sum t [u] k / weight_function t [u])%R dims), (map (fun k => weighted_sum c [v] k / weight_function c [v])%R dims).
  split; [apply (eval_quotient dz); auto; lra|]. split; [apply (eval_quotient dz); auto; lra|].
  rewrite (eval_quotient dz) by (auto; lra). f_equal.
  destruct (surface_sums t c s Wt Wc Lt Lc Hd eq_refl u v) as (E1 & E2).
  assert (M : forall (f g h : Z -> R) l, (forall k, In k l -> f k = g k + h k)%R -> map f l = map2 Rplus (map g l) (map h l)).
  { intros f g h. induction l as [|k l IH]; intros H; cbn [map map2]; [reflexivity|]. rewrite (H k) by now left. f_equal. apply IH. intros; apply H; now right. }
  apply M. intros k Hk. unfold valid_dims in Hdims. rewrite Forall_forall in Hdims. rewrite E1, E2 by auto. field. lra.
Qed.

Lemma translational_short t c : well_formed t -> well_formed c -> length (knots_of t) = 1%nat -> length (knots_of c) = 1%nat ->
  ph_dim (sp_ph c) < ph_dim (sp_ph t) -> translational_surface t c = UB.
Proof.
  intros Wt Wc Lt Lc Hd.
  destruct (one_direction t Wt Lt) as (kt & pt & Ekt & Ept & Gt & Ent).
  destruct (one_direction c Wc Lc) as (kc & pc & Ekc & Epc & Gc & Enc).
  pose proof (wf_dim _ Wt) as Dt. pose proof (wf_dim _ Wc) as Dc.
  assert (Pt : 1 <= zlen kt - pt - 1). { destruct Gt as (? & (? & _) & _). zl. }
  assert (Pc : 1 <= zlen kc - pc - 1). { destruct Gc as (? & (? & _) & _). zl. }
  unfold translational_surface, join_pspaces, join_phys.
  unfold knots_of in Ekt, Ekc. unfold degs_of in Ept, Epc. rewrite Ekt, Ekc, Ept, Epc. cbn [dget nth_error bind].
  rewrite ps_new_ok by (apply good_checked; auto). cbn [bind].
  rewrite (points_ok (sp_ph t)) by (auto; apply (wf_cps _ Wt)). rewrite (points_ok (sp_ph c)) by (auto; apply (wf_cps _ Wc)).
  cbn [bind]. fold (npts_of t). fold (npts_of c). rewrite Ent, Enc.
  set (nt := zlen kt - pt - 1) in *. set (nc := zlen kc - pc - 1) in *.
  replace (total [nt]) with nt by (unfold total; cbn; lia). replace (total [nc]) with nc by (unfold total; cbn; lia).
  unfold for_up. replace (Z.to_nat (nc - 0)) with (S (Z.to_nat (nc - 1))) by lia. cbn [for_n].
  replace (Z.to_nat (nt - 0)) with (S (Z.to_nat (nt - 1))) by lia. cbn [for_n].
  rewrite (get_cp_nth t [0]) by (auto; rewrite Ent; apply curve_box; lia).
  rewrite (get_cp_nth c [0]) by (auto; rewrite Enc; apply curve_box; lia). cbn [bind].
  rewrite cp_plus_short by (rewrite !map_length, !zseq_length; lia). reflexivity.
Qed.
End TranslationalSums.
