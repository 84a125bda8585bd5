(* The NURBS basis functions and derivatives computed by the basis function handler. *)
From Coq Require Import ZArith List Bool Reals Lra Lia.
From Verif Require Import Base BaseFacts RSum MultiIndex MultiIndexSpec MultiIndexFacts TensorSum
  KnotVec KnotVecSpec KnotVecFacts Basis BasisSpec BSplineTheory BasisFacts
  Spaces SpacesSpec SpacesFacts SplineEval SplineSpec EvalFacts RationalDeriv EvalDeriv EvalThms
  IgaSpec Iga IgaFacts IgaThms.
Import ListNotations.
Open Scope Z_scope.

Lemma mapM_combine_seq {A B C} (f : nat * B -> Res C) (g : A -> B) (h : A -> C) (L : list A) :
  (forall i d, nth_error L i = Some d -> f (i, g d) = Ok (h d)) ->
  mapM f (combine (seq 0 (length L)) (map g L)) = Ok (map h L).
Proof.
  assert (G : forall a, (forall i d, nth_error L i = Some d -> f ((a + i)%nat, g d) = Ok (h d)) ->
    mapM f (combine (seq a (length L)) (map g L)) = Ok (map h L)); [|apply (G 0%nat)].
  induction L as [|d L IH]; intros a H; [reflexivity|].
  cbn [length seq map combine mapM]. pose proof (H 0%nat d eq_refl) as H0. rewrite Nat.add_0_r in H0. rewrite H0. cbn [bind].
  rewrite IH; [reflexivity|]. intros i x Hi. specialize (H (S i) x Hi). now rewrite Nat.add_succ_r in H.
Qed.

Lemma prodf_seq fs idx : length fs = length idx ->
  prodf fs idx = fold_right Rmult 1%R (map (fun j => nth j fs (fun _ => 0%R) (nth j idx 0%Z)) (seq 0 (length fs))).
Proof.
  revert idx; induction fs as [|f fs IH]; intros [|i idx] H; cbn [length] in H; try lia; [reflexivity|].
  cbn [prodf length seq map fold_right nth]. rewrite (IH idx) by lia. rewrite <- seq_shift, map_map. reflexivity.
Qed.

Section Basis.
Variable dz : R -> R.
Local Notation F := (Rops dz).

Definition bvals (m : Z) (d : dir) : list R :=
  map (fun i => dfun d m (du d) (dsp d - dp d + i)) (zseq 0 (Z.to_nat (dp d + 1))).

Lemma bvals_get m d c : 0 <= c < dp d + 1 -> vget (bvals m d) c = Ok (dfun d m (du d) (dsp d - dp d + c)).
Proof.
  intros H. unfold bvals. rewrite (vget_nth _ c 0%R) by (unfold zlen; rewrite map_length, zseq_length; lia).
  f_equal. rewrite (nth_indep _ _ (dfun d m (du d) (dsp d - dp d + 0)%Z)) by (rewrite map_length, zseq_length; lia).
  rewrite (map_nth (fun i => dfun d m (du d) (dsp d - dp d + i)%Z)). rewrite zseq_nth by lia. f_equal. lia.
Qed.
Lemma bvals_len m d : 0 <= dp d -> zlen (bvals m d) = dp d + 1.
Proof. intros H. unfold zlen, bvals. rewrite map_length, zseq_length. lia. Qed.

Lemma dir_get L i d : nth_error L i = Some d ->
  dget (map dk L) i = Ok (dk d) /\ dget (map dp L) i = Ok (dp d) /\
  dget (map2 (mkbfs dz) (map dk L) (map dp L)) i = Ok (mkbfs dz (dk d) (dp d)).
Proof.
  intros H. unfold dget. rewrite map2_map, !nth_error_map, H. auto.
Qed.

Lemma bs_ok L : Forall (good_dir dz) L ->
  mapM (fun x => eval_all_nonzero (F := F) (psL dz L) (fst x) (snd x)) (combine (seq 0 (length L)) (map du L)) = Ok (map (bvals 0) L).
Proof.
  intros HL. apply (mapM_combine_seq (fun x => eval_all_nonzero (F := F) (psL dz L) (fst x) (snd x))). intros i d Hi.
  pose proof (nth_error_In _ _ Hi) as Hin. rewrite Forall_forall in HL. destruct (HL d Hin) as (Hg & Hsp & Hk & Ek & Hm).
  destruct (dir_get L i d Hi) as (E1 & E2 & E3). unfold eval_all_nonzero, psL. cbn [ps_knots ps_degs ps_bfs mkps fst snd].
  rnorm. rewrite E1, E2, E3. cbn [bind]. rewrite Ek. cbn [bind].
  apply (mapM_ok (B := R)). intros j Hj. apply zseq_In in Hj. pose proof Hg as (Hp & Hc & Hn & Hs & Hne).
  rewrite mkbfs_get by lia. cbn [bind]. f_equal. unfold dfun. cbn [DB].
  apply bf_eval_piece; auto; try lia. apply (tk_nondeg (dk d) (dp d) _ (dsp d) (du d)); auto. lia.
Qed.

Lemma ds_ok L : Forall (good_dir dz) L ->
  mapM (fun x => eval_all_nonzero_derivs (F := F) (psL dz L) (fst x) (snd x) 1) (combine (seq 0 (length L)) (map du L)) = Ok (map (bvals 1) L).
Proof.
  intros HL. apply (mapM_combine_seq (fun x => eval_all_nonzero_derivs (F := F) (psL dz L) (fst x) (snd x) 1)). intros i d Hi.
  pose proof (nth_error_In _ _ Hi) as Hin. rewrite Forall_forall in HL. destruct (HL d Hin) as (Hg & Hsp & Hk & Ek & Hm).
  destruct (dir_get L i d Hi) as (E1 & E2 & E3). unfold eval_all_nonzero_derivs, psL. cbn [ps_knots ps_degs ps_bfs mkps fst snd].
  rnorm. rewrite E1, E2, E3. cbn [bind]. rewrite Ek. cbn [bind].
  apply (mapM_ok (B := R)). intros j Hj. apply zseq_In in Hj. pose proof Hg as (Hp & Hc & Hn & Hs & Hne).
  rewrite mkbfs_get by lia. cbn [bind]. f_equal. unfold dfun.
  apply (bf_deriv_piece dz (dk d) (dsp d) 1); auto; try lia. 
Qed.

Lemma temp_loop L cur : in_box (map (fun q => q + 1) (map dp L)) cur -> forall a,
  foldM (fun t x => b <- vget (fst x) (snd x) ;; Ok (t * b)%R) (combine (map (bvals 0) L) cur) a =
  Ok (a * prodf (facs L (zeros (length L))) (Eidx L cur))%R.
Proof.
  unfold in_box, Eidx, facs, zeros, withm. revert cur; induction L as [|d L IH]; intros cur Hb a; cbn [map] in Hb; inversion Hb as [|? c ? cur' Hc Hb']; subst.
  - cbn. f_equal. ring.
  - cbn [map combine foldM fst snd]. rewrite bvals_get by lia. cbn [bind]. rewrite (IH cur' Hb').
    cbn [length repeat map2 map prodf]. f_equal. unfold dfactor at 2. cbn [setm dm dk dsp dp du]. unfold dfun.
    replace (c + (dsp d - dp d)) with (dsp d - dp d + c) by lia. ring.
Qed.

Definition unit_order (n j : nat) : list Z := addone j (zeros n).
Lemma unit_order_length n j : length (unit_order n j) = n.
Proof. unfold unit_order, addone. rewrite upd_length. apply zeros_length. Qed.
Lemma unit_order_nonneg n j : nonneg_orders (unit_order n j).
Proof.
  unfold unit_order, addone, nonneg_orders. rewrite Forall_forall. intros x Hx.
  apply In_nth with (d := 0) in Hx as (i & Hi & <-). rewrite upd_length, zeros_length in Hi.
  assert (E : forall i, nth i (zeros n) 0 = 0) by (intros k; unfold zeros; apply nth_repeat).
  destruct (Nat.eq_dec i j) as [->|Hne].
  - rewrite nth_upd_same by (now rewrite zeros_length). rewrite E. lia.
  - rewrite nth_upd_other by auto. rewrite E. lia.
Qed.
Lemma unit_order_nth n i j : (i < n)%nat -> (j < n)%nat -> nth j (unit_order n i) 0 = if Nat.eqb i j then 1 else 0.
Proof.
  intros Hi Hj. unfold unit_order, addone. assert (E : forall i, nth i (zeros n) 0 = 0) by (intros k; unfold zeros; apply nth_repeat).
  destruct (Nat.eqb_spec i j) as [->|Hne].
  - rewrite nth_upd_same by (now rewrite zeros_length). rewrite E. lia.
  - rewrite nth_upd_other by auto. apply E.
Qed.

Lemma temp_deriv_ok L cur i : in_box (map (fun q => q + 1) (map dp L)) cur -> (i < length L)%nat ->
  temp_deriv (F := F) (map (bvals 0) L) (map (bvals 1) L) cur i = Ok (prodf (facs L (unit_order (length L) i)) (Eidx L cur)).
Proof.
  intros Hb Hi. unfold temp_deriv. rewrite map_length.
  pose proof (in_box_length _ _ Hb) as Hlc. rewrite !map_length in Hlc.
  assert (Hle : length (Eidx L cur) = length L) by (unfold Eidx; rewrite map2_length; rewrite ?map_length; lia).
  assert (Hlf : length (facs L (unit_order (length L) i)) = length L) by (apply facs_length, unit_order_length).
  rewrite prodf_seq by congruence. rewrite Hlf.
  pose proof (foldM_prod (fun j => f <- dget (if Nat.eqb i j then map (bvals 1) L else map (bvals 0) L) j ;; c <- dget cur j ;; vget f c)
     (fun j => nth j (facs L (unit_order (length L) i)) (fun _ => 0%R) (nth j (Eidx L cur) 0)) (seq 0 (length L)) 1%R) as G.
  rewrite Rmult_1_l in G. rewrite <- G.
  - rnorm. match goal with |- foldM ?f _ _ = foldM ?g _ _ => assert (Hfg : forall v a, f v a = g v a) end.
    { intros v a. destruct (dget _ a) as [f| |]; cbn [bind]; auto. destruct (dget cur a); cbn [bind]; auto. }
    generalize 1%R. generalize (seq 0 (length L)). induction l as [|a l IH]; intros r; cbn [foldM]; auto.
    rewrite Hfg. match goal with |- bind ?m _ = _ => destruct m; cbn [bind]; auto end.
  - intros j Hj. apply in_seq in Hj.
    destruct (nth_error L j) as [d|] eqn:Ed; [|apply nth_error_None in Ed; lia].
    assert (Ec : nth_error cur j = Some (nth j cur 0)) by (apply nth_error_nth'; lia).
    unfold dget at 2. rewrite Ec.
    assert (Hc : 0 <= nth j cur 0 < dp d + 1).
    { clear - Hb Ed Ec. revert j cur Hb Ed Ec. induction L as [|x L IH]; intros [|j] cur Hb Ed Ec; cbn in *; try discriminate;
        inversion Hb; subst; cbn in *; [inversion Ed; subst; lia | eapply IH; eauto]. }
    assert (En : nth j (facs L (unit_order (length L) i)) (fun _ => 0%R) = dfun d (if Nat.eqb i j then 1 else 0) (du d)).
    { unfold facs, withm. assert (X : nth_error (map dfactor (map2 setm L (unit_order (length L) i))) j = Some (dfun d (if Nat.eqb i j then 1 else 0) (du d))).
      { rewrite nth_error_map. rewrite <- unit_order_nth with (n := length L) by lia.
        assert (Eo : nth_error (unit_order (length L) i) j = Some (nth j (unit_order (length L) i) 0)) by (apply nth_error_nth'; rewrite unit_order_length; lia).
        clear - Ed Eo. revert Ed Eo. generalize (unit_order (length L) i). intros m. revert j m.
        induction L as [|x L IH]; intros [|j] [|k m] Ed Eo; cbn in *; try discriminate; [inversion Ed; subst; reflexivity | apply IH; auto]. }
      exact (nth_error_nth _ _ _ X). }
    assert (Ei : nth j (Eidx L cur) 0 = dsp d - dp d + nth j cur 0).
    { unfold Eidx. clear - Ed Ec. revert j cur Ed Ec. induction L as [|x L IH]; intros [|j] [|k m] Ed Ec; cbn in *; try discriminate; [inversion Ed; subst; lia | apply IH; auto]. }
    rewrite En, Ei. cbn [bind].
    destruct (Nat.eqb i j); unfold dget; rewrite nth_error_map, Ed; cbn [option_map bind]; apply bvals_get; lia.
Qed.

Lemma get1d_axis n lens x : get1d (n :: lens) (x :: repeat 0 (length lens)) = x.
Proof.
  unfold get1d. cbn [get1d_from]. assert (G : forall ls m, get1d_from m ls (repeat 0 (length ls)) = 0).
  { induction ls as [|a ls IH]; intros m; cbn [length repeat get1d_from]; auto. rewrite IH. lia. }
  rewrite G. lia.
Qed.

Lemma spans_dirs L ks : Forall (good_dir dz) L ->
  mapM (fun x => knot_span (F := F) (fst x) (snd x)) (combine (map dk L) (map du L)) = Ok ks -> ks = map dsp L.
Proof.
  intros HL. revert ks; induction HL as [|d L Hd HL IH]; intros ks H; cbn [map combine mapM fst snd] in H.
  - now inversion H.
  - destruct Hd as (_ & _ & _ & Ek & _). rnorm. rewrite Ek in H. cbn [bind] in H.
    destruct (mapM _ _) as [l| |] eqn:E; try discriminate. cbn [bind] in H. inversion H; subst. cbn [map]. f_equal. now apply IH.
Qed.

Lemma Eidx_alt L ls : length ls = length L -> map2 Z.add (map2 Z.sub (map dsp L) (map dp L)) ls = Eidx L ls.
Proof.
  unfold Eidx. revert ls; induction L as [|d L IH]; intros [|l ls] H; cbn in *; try discriminate; auto.
  rewrite IH by lia. f_equal. lia.
Qed.

Lemma local_weight_ok (s : spline F) L cur : well_formed s -> in_domain s (map du L) -> wfL dz s L ->
  in_box (map (fun q => q + 1) (map dp L)) cur ->
  local_weight s (map du L) (get1d (map (fun q => q + 1) (map dp L)) cur) = Ok (weight s (Eidx L cur)).
Proof.
  intros Hwf Hu HwfL Hb. pose proof HwfL as (HL & Eps & En & Hdim & Hcps & Hw).
  destruct (wfL_of dz s L HwfL) as (Ek & Ed & _).
  destruct (element_at_dirs (dz := dz) _ _ (wf_directions s Hwf) _ Hu) as (es & ks & H1 & H2 & H3 & H4 & H5 & H6).
  rewrite Ek in H5. apply spans_dirs in H5; auto. subst ks.
  set (ne := map zlen (dlists (knots_of s) (degs_of s))) in *.
  assert (En1 : element_at s (map du L) = Ok (get1d ne es)).
  { unfold element_at. fold (knots_of s) (degs_of s).
    refine (eq_trans (f_equal (fun r => bind r (element_number s)) H1) _). cbn [bind].
    unfold element_number. rewrite num_elements_ok by auto. reflexivity. }
  assert (Ee : element_indices s (get1d ne es) = Ok es).
  { unfold element_indices. rewrite num_elements_ok by auto. cbn [bind]. rewrite mih_plus_nth. fold ne. now rewrite nth_index_of_get1d. }
  assert (Eg : global_index s (get1d ne es) (get1d (map (fun q => q + 1) (map dp L)) cur) = Ok (position (npts_of s) (Eidx L cur) + 1)).
  { unfold global_index, global_indices. rewrite num_elements_ok by auto. cbn [bind]. fold ne.
    assert (Es : index_shifts s (get1d ne es) = Ok (map2 Z.sub (map2 Z.sub (map dsp L) (degs_of s)) es)).
    { unfold index_shifts. rewrite Ee. exact H6. }
    rewrite Es. cbn [bind]. rewrite !mih_plus_nth. rewrite (nth_index_of_get1d ne) by auto. fold (degs_of s). rewrite Ed.
    rewrite nth_index_of_get1d by auto.
    unfold mih_get1d, mih_set_indices. cbn [mlen mcur mih_new]. rewrite <- position_get1d. fold (npts_of s). do 3 f_equal.
    pose proof (in_box_length _ _ Hb) as Hl. rewrite !map_length in Hl.
    assert (Hl2 : length es = length L). { destruct (spans_length _ _ _ _ _ H3) as (X1 & X2 & X3 & X4). rewrite Ed in *. rewrite !map_length in *. congruence. }
    rewrite <- Eidx_alt by auto. apply shift_cancel; rewrite !map_length; auto. }
  assert (Ha : active L (Eidx L cur)).
  { unfold Eidx. apply (visited_active dz); auto. apply visited_In; auto. now apply (pos_lens_degs dz). }
  assert (Hbx : in_box (npts_of s) (Eidx L cur)) by (rewrite En; apply (active_box dz); auto).
  unfold local_weight. rewrite En1. cbn [bind]. rewrite Eg. cbn [bind].
  rewrite <- (weight_ok dz s (Eidx L cur)) by auto. unfold get_weight.
  destruct (ph_wts (sp_ph s)) as [w|]; auto. f_equal. rewrite position_get1d.
  replace (get1d (npts_of s) (Eidx L cur) + 1 - 1) with (get1d (npts_of s) (Eidx L cur)) by lia.
  fold (npts_of s) (degs_of s). rewrite En, Ed, map_length. unfold lensL. destruct L as [|d L]; [reflexivity|].
  cbn [map length pred]. replace (length L) with (length (map dlen L)) by apply map_length. apply get1d_axis.
Qed.

(* C37 (a) *)
Lemma foldM_values {A} (l : list A) (f : A -> R) (step : list R * R -> A -> Res (list R * R)) :
  (forall a st, In a l -> step st a = Ok (fst st ++ [f a], (snd st + f a)%R)) -> forall st,
  foldM step l st = Ok (fst st ++ map f l, (snd st + lsum f l)%R).
Proof.
  induction l as [|a l IH]; intros H st; cbn [foldM map].
  - unfold lsum. cbn. rewrite app_nil_r. destruct st; cbn; do 2 f_equal. ring.
  - rewrite H by (now left). cbn [bind]. rewrite IH by (intros; apply H; now right). cbn [fst snd].
    cbn [lsum map fold_right]; rewrite <- app_assoc. cbn [app]. do 2 f_equal. ring.
Qed.

Lemma bvals_lens m L : Forall (good_dir dz) L -> map zlen (map (bvals m) L) = map (fun q => q + 1) (map dp L).
Proof.
  induction 1 as [|d L Hd HL IH]; cbn [map]; auto. rewrite IH. f_equal. apply bvals_len. destruct Hd as ((Hp & _) & _). exact Hp.
Qed.

Lemma Wval_visited (s : spline F) L m : Forall (good_dir dz) L -> nonneg_orders m -> length m = length L ->
  lsum (fun cur => Aval dz s L (Eidx L cur) m) (Evis L) = Wval dz s L m.
Proof.
  intros HL Hm Hl. pose proof (visited_sum dz (withm L m) (weight s) (withm_good dz L m HL Hm Hl)) as E.
  rewrite (withm_map drange), (withm_map dp), (withm_map (fun d => dsp d - dp d)) in E by auto. exact E.
Qed.

Lemma nonzero_nurbs_dirs (s : spline F) L : well_formed s -> in_domain s (map du L) -> wfL dz s L ->
  nonzero_nurbs s (map du L) =
  Ok (map (fun cur => ndiv (n := F) (Aval dz s L (Eidx L cur) (zeros (length L))) (Wval dz s L (zeros (length L)))) (Evis L)).
Proof.
  intros Hwf Hu HwfL. pose proof HwfL as (HL & Eps & En & Hdim & Hcps & Hw).
  unfold nonzero_nurbs. rewrite map_length, Eps. refine (eq_trans (f_equal (fun r => bind r _) (bs_ok L HL)) _). cbn [bind].
  rewrite mih_loop_visited, bvals_lens by auto. fold (Evis L).
  rewrite (foldM_values (Evis L) (fun cur => Aval dz s L (Eidx L cur) (zeros (length L)))).
  - cbn [bind fst snd app]. rewrite map_map. f_equal. apply map_ext. intros cur. f_equal.
    rnorm. rewrite (Wval_visited s L) by (auto; apply zeros_nonneg || apply zeros_length). ring.
  - intros cur st Hin. unfold Evis in Hin. apply visited_In in Hin; [|now apply (pos_lens_degs dz)].
    cbn [mcur mlen mih_get1d]. unfold mih_get1d. cbn [mcur mlen].
    refine (eq_trans (f_equal (fun r => bind r _) (temp_loop L cur Hin 1%R)) _). cbn [bind].
    refine (eq_trans (f_equal (fun r => bind r _) (local_weight_ok s L cur Hwf Hu HwfL Hin)) _). cbn [bind].
    unfold Aval. rnorm. repeat f_equal; ring.
Qed.

(* the loop collecting values and derivatives *)
Lemma map2_map_both {A B C D} (h : B -> C -> D) (f : A -> B) (g : A -> C) l : map2 h (map f l) (map g l) = map (fun a => h (f a) (g a)) l.
Proof. induction l as [|a l IH]; cbn [map map2]; auto. now rewrite IH. Qed.

Lemma foldM_derivs {A} (l : list A) (dims : list nat) (f : A -> R) (g : nat -> A -> R)
  (step : deriv_state (F := F) -> A -> Res (deriv_state (F := F))) :
  (forall a vals sum dvals dsums, In a l -> step (vals, sum, dvals, dsums) a =
     Ok (vals ++ [f a], (sum + f a)%R, map2 (fun x t => x ++ [t]) dvals (map (fun j => g j a) dims),
         map2 (fun x t => x + t)%R dsums (map (fun j => g j a) dims))) -> forall vals sum D S,
  foldM step l (vals, sum, map D dims, map S dims) =
  Ok (vals ++ map f l, (sum + lsum f l)%R, map (fun j => D j ++ map (g j) l) dims, map (fun j => S j + lsum (g j) l)%R dims).
Proof.
  induction l as [|a l IH]; intros H vals sum D S; cbn [foldM map].
  - cbn [lsum]. rewrite app_nil_r. rnorm. rewrite Rplus_0_r. do 2 f_equal; [f_equal|]; apply map_ext; intros j; [now rewrite app_nil_r | symmetry; apply Rplus_0_r].
  - rewrite H by (now left). cbn [bind]. rnorm. rewrite (map2_map_both (B := list R) (C := R)), (map2_map_both (B := R) (C := R)).
    refine (eq_trans (IH (fun b v s' dv ds Hb => H b v s' dv ds (or_intror Hb)) _ _ (fun j => D j ++ [g j a]) (fun j => (S j + g j a)%R)) _).
    cbn [lsum]. f_equal. f_equal; [f_equal; [f_equal|]|].
    + now rewrite <- app_assoc.
    + ring.
    + apply map_ext. intros j. now rewrite <- app_assoc.
    + apply map_ext. intros j. ring.
Qed.

Lemma deriv_loop_dirs (s : spline F) L : well_formed s -> in_domain s (map du L) -> wfL dz s L ->
  deriv_loop s (map du L) (map (bvals 0) L) (map (bvals 1) L) =
  Ok (map (fun cur => Aval dz s L (Eidx L cur) (zeros (length L))) (Evis L), Wval dz s L (zeros (length L)),
      map (fun j => map (fun cur => Aval dz s L (Eidx L cur) (unit_order (length L) j)) (Evis L)) (seq 0 (length L)),
      map (fun j => Wval dz s L (unit_order (length L) j)) (seq 0 (length L))).
Proof.
  intros Hwf Hu HwfL. pose proof HwfL as (HL & Eps & En & Hdim & Hcps & Hw).
  unfold deriv_loop. rewrite map_length, mih_loop_visited, bvals_lens by auto. fold (Evis L).
  assert (R1 : repeat (@nil R) (length L) = map (fun _ => []) (seq 0 (length L))).
  { generalize 0%nat. induction L as [|d L' IH]; intros a; cbn; auto. f_equal. clear - dz. revert a. generalize (length L').
    induction n as [|n IH]; intros a; cbn; auto. now rewrite <- IH. }
  assert (R2 : repeat 0%R (length L) = map (fun _ => 0%R) (seq 0 (length L))).
  { clear. generalize 0%nat. generalize (length L). induction n as [|n IH]; intros a; cbn; auto. now rewrite <- IH. }
  rnorm. rewrite R1, R2.
  refine (eq_trans (foldM_derivs (Evis L) (seq 0 (length L)) (fun cur => Aval dz s L (Eidx L cur) (zeros (length L)))
     (fun j cur => Aval dz s L (Eidx L cur) (unit_order (length L) j)) _ _ [] 0%R (fun _ => []) (fun _ => 0%R)) _).
  - intros cur vals sum dvals dsums Hin. unfold Evis in Hin. apply visited_In in Hin; [|now apply (pos_lens_degs dz)].
    unfold mih_get1d. cbn [mcur mlen].
    refine (eq_trans (f_equal (fun r => bind r _) (temp_loop L cur Hin 1%R)) _). cbn [bind].
    rewrite (mapM_ok (B := R) _ (fun j => prodf (facs L (unit_order (length L) j)) (Eidx L cur))).
    2: { intros j Hj. apply in_seq in Hj. apply temp_deriv_ok; auto. lia. }
    cbn [bind].
    refine (eq_trans (f_equal (fun r => bind r _) (local_weight_ok s L cur Hwf Hu HwfL Hin)) _). cbn [bind].
    unfold Aval. rnorm. f_equal. f_equal; [f_equal; [f_equal|]|].
    + f_equal. f_equal. ring.
    + ring.
    + clear. revert dvals. generalize (seq 0 (length L)). induction l as [|j l IH]; intros [|x dvals]; cbn; auto. now rewrite IH.
    + clear. revert dsums. generalize (seq 0 (length L)). induction l as [|j l IH]; intros [|x dsums]; cbn; auto. now rewrite IH.
  - cbn [app]. f_equal. f_equal; [f_equal|].
    + rewrite (Wval_visited s L) by (auto; apply zeros_nonneg || apply zeros_length). f_equal. ring.
    + apply map_ext. intros j. rewrite Wval_visited by (auto; apply unit_order_nonneg || apply unit_order_length). ring.
Qed.

(* the loop applying the quotient rule *)
Lemma tab_get (V : Z -> R) N i : 0 <= i < Z.of_nat N -> vget (map V (zseq 0 N)) i = Ok (V i).
Proof.
  intros H. rewrite (vget_nth _ i (V 0)) by (unfold zlen; rewrite map_length, zseq_length; lia).
  rewrite map_nth, zseq_nth by lia. do 2 f_equal. lia.
Qed.
Lemma tab_set (V : Z -> R) N i x : 0 <= i < Z.of_nat N ->
  vset (map V (zseq 0 N)) i x = Ok (map (fun a => if a =? i then x else V a) (zseq 0 N)).
Proof.
  intros H. rewrite vset_ok by (unfold zlen; rewrite map_length, zseq_length; lia). f_equal.
  apply (nth_ext _ _ 0%R 0%R); [now rewrite upd_length, !map_length|]. intros n Hn. rewrite upd_length, map_length, zseq_length in Hn.
  rewrite (nth_map_in _ _ _ 0) by (rewrite zseq_length; lia). rewrite zseq_nth by lia.
  destruct (Z.eqb_spec (0 + Z.of_nat n) i) as [E|E].
  - replace (Z.to_nat i) with n by lia. rewrite nth_upd_same; auto. rewrite map_length, zseq_length. lia.
  - rewrite nth_upd_other by lia. rewrite (nth_map_in _ _ _ 0) by (rewrite zseq_length; lia). now rewrite zseq_nth by lia.
Qed.

Lemma combine_map_both {A B C} (f : A -> B) (g : A -> C) l : combine (map f l) (map g l) = map (fun a => (f a, g a)) l.
Proof. induction l as [|a l IH]; cbn [map combine]; auto. now rewrite IH. Qed.
Lemma ok_pair {A B} (a a' : A) (b b' : B) : a = a' -> b = b' -> Ok (a, b) = Ok (a', b').
Proof. now intros -> ->. Qed.

Lemma quotients_ok (V : Z -> R) (W : R) (D : nat -> Z -> R) (T : nat -> R) N dims : (length dims <= N)%nat ->
  deriv_quotients (F := F) (map V (zseq 0 N), W, map (fun j => map (D j) (zseq 0 N)) dims, map T dims) =
  Ok (map (fun j => map (fun a => if a <? Z.of_nat (length dims)
        then ndiv (n := F) (D j a * W - ndiv (n := F) (V a) W * T j)%R (W * W)%R else D j a) (zseq 0 N)) dims).
Proof.
  intros HN. unfold deriv_quotients. rewrite map_length.
  match goal with |- context [foldM ?f (zseq 0 _) _] => set (step := f) end.
  assert (G : forall k, (k <= N)%nat -> foldM step (zseq 0 k) (map V (zseq 0 N), map (fun j => map (D j) (zseq 0 N)) dims) =
    Ok (map (fun a => if a <? Z.of_nat k then ndiv (n := F) (V a) W else V a) (zseq 0 N),
        map (fun j => map (fun a => if a <? Z.of_nat k
        then ndiv (n := F) (D j a * W - ndiv (n := F) (V a) W * T j)%R (W * W)%R else D j a) (zseq 0 N)) dims)).
  { induction k as [|k IH]; intros Hk.
    - cbn [zseq foldM]. apply ok_pair.
      + apply map_ext_in. intros a Ha. apply zseq_In in Ha. destruct (Z.ltb_spec a (Z.of_nat 0)); [lia|reflexivity].
      + apply map_ext. intros j. apply map_ext_in. intros a Ha. apply zseq_In in Ha. destruct (Z.ltb_spec a (Z.of_nat 0)); [lia|reflexivity].
    - replace (S k) with (k + 1)%nat by lia. rewrite zseq_app, foldM_app. rewrite IH by lia. cbn [bind foldM zseq].
      unfold step at 1. cbn [fst snd].
      refine (eq_trans (f_equal (fun r => bind (bind r _) _) (tab_get _ N (0 + Z.of_nat k) _)) _); [lia|]. cbn [bind].
      destruct (Z.ltb_spec (0 + Z.of_nat k) (Z.of_nat k)); [lia|].
      refine (eq_trans (f_equal (fun r => bind (bind r _) _) (tab_set _ N (0 + Z.of_nat k) _ _)) _); [lia|]. cbn [bind].
      rewrite (combine_map_both (B := list R) (C := R)).
      refine (eq_trans (f_equal (fun r => bind (bind r _) _) (eq_trans (mapM_map _ _ _) (mapM_ok (B := list R) _ _ dims _))) _).
      { intros j _. cbn [fst snd].
        refine (eq_trans (f_equal (fun r => bind r _) (tab_get _ N (0 + Z.of_nat k) _)) _); [lia|]. cbn [bind].
        destruct (Z.ltb_spec (0 + Z.of_nat k) (Z.of_nat k)); [lia|].
        refine (tab_set _ N (0 + Z.of_nat k) _ _). lia. }
      cbn [bind]. apply ok_pair.
      + apply map_ext_in. intros a Ha.
        destruct (Z.eqb_spec a (0 + Z.of_nat k)) as [Ea|]; destruct (Z.ltb_spec a (Z.of_nat (k + 1))); destruct (Z.ltb_spec a (Z.of_nat k)); try lia; try rewrite Ea; auto.
      + apply map_ext. intros j. apply map_ext_in. intros a Ha.
        destruct (Z.eqb_spec a (0 + Z.of_nat k)) as [Ea|]; destruct (Z.ltb_spec a (Z.of_nat (k + 1))); destruct (Z.ltb_spec a (Z.of_nat k)); try lia; try rewrite Ea; auto. }
  refine (eq_trans (f_equal (fun r => bind r _) (G (length dims) HN)) _). reflexivity.
Qed.
End Basis.
