(* Closing lemmas for swept surfaces (C60). *)
From Coq Require Import ZArith List Lia Bool Reals Lra.
From Verif Require Import Base BaseFacts RSum MultiIndex MultiIndexSpec MultiIndexFacts KnotVec KnotVecSpec KnotVecFacts
  Basis BasisSpec BasisFacts Spaces SpacesSpec SpacesFacts SplineEval SplineSpec SplineNew EvalFacts EvalDeriv EvalThms
  DegreeFacts VtkThms GeneratorsFacts TensorSum IgaSystemSpec IgaFaceFacts Swept SweptSpec SweptFacts.
Import ListNotations.
Open Scope Z_scope.

Section Sweep.
Context {dz : R -> R}.
Notation F := (Rops dz).
Implicit Types t c s : spline F.

(* the coordinates of a placed point are affine in those of the point *)
Lemma placed_affine o x y z f : exists (A : Z -> Z -> R) (b : Z -> R), forall q0 q1 q2,
  listed (placed o x y z f (q0, q1, q2)) = map (fun k => b k + (A k 0%Z * q0 + A k 1%Z * q1 + A k 2%Z * q2))%R [0; 1; 2].
Proof.
  destruct o as [[o0 o1] o2], x as [[x0 x1] x2], y as [[y0 y1] y2], z as [[z0 z1] z2], f as [[f0 f1] f2].
  pose (pick := fun (k : Z) (a0 a1 a2 : R) => match k with 0%Z => a0 | 1%Z => a1 | _ => a2 end).
  exists (fun k l => match l with 0%Z => f0 * pick k x0 x1 x2 | 1%Z => f1 * pick k y0 y1 y2 | _ => f2 * pick k z0 z1 z2 end)%R, (fun k => pick k o0 o1 o2).
  intros q0 q1 q2. cbn. f_equal; [ring|]. f_equal; [ring|]. f_equal. ring.
Qed.

(* an end of the first direction shows the first or last section *)
Lemma end_section c s kv kc pt pc n e o x y z f (W : R) : well_formed s -> well_formed c -> positive_weights s -> positive_weights c ->
  knots_of s = [kv; kc] -> degs_of s = [pt; pc] -> knots_of c = [kc] -> degs_of c = [pc] -> exact_ends kv pt -> 3 <= ph_dim (sp_ph s) -> 3 <= ph_dim (sp_ph c) ->
  n = zlen kv - pt - 1 -> W <> 0%R ->
  (forall j, 0 <= j < zlen kc - pc - 1 -> control_point s [end_index n e; j] = placed o x y z f (control_point c [j]) /\
     weight s [end_index n e; j] = (weight c [j] * W)%R) ->
  forall v, in_domain c [v] -> evaluate s [end_value kv e; v] [0; 1; 2] = Ok (listed (placed o x y z f (at_point c v))).
Proof.
  intros Ws Wc Ps Pc Ks Ds Kc Dc Hx D3 D3c En HW H v Hv.
  assert (Hs : in_domain s [end_value kv e; v]).
  { unfold in_domain in *. rewrite Ks. rewrite Kc in Hv. constructor; [|exact Hv]. pose proof (wf_directions s Ws) as G. rewrite Ks, Ds in G.
    inversion G as [|? ? ? ? (_ & _ & _ & _ & Hl) _]; subst. destruct e; cbn [end_value]; lra. }
  pose proof (weight_function_positive dz s _ Ws Ps Hs) as Qs. pose proof (weight_function_positive dz c _ Wc Pc Hv) as Qc.
  assert (Face : forall g, lsum (fun idx => basis_product (knots_of s) (degs_of s) [end_value kv e; v] idx * g idx)%R (all_indices (npts_of s)) =
                 lsum (fun js => basis_product (knots_of c) (degs_of c) [v] js * g (end_index n e :: js))%R (all_indices (npts_of c))).
  { intros g. assert (Gd : Forall2 good_direction [kv; kc] [pt; pc]) by (rewrite <- Ks, <- Ds; apply (wf_directions s Ws)).
    pose proof (face_sum (dz := dz) [kv; kc] [pt; pc] 0 kv pt e [v] [zlen kv - pt - 1; zlen kc - pc - 1] g Gd eq_refl eq_refl eq_refl Hx eq_refl) as Q.
    rewrite (wf_npts s Ws), (wf_npts c Wc), Ks, Ds, Kc, Dc. cbn [map2]. rewrite put_at_0 in Q. cbn [remove_at] in Q. rewrite Q, <- En. apply lsum_ext. intros js _. now rewrite put_at_0. }
  assert (EWs : weight_function s [end_value kv e; v] = (W * weight_function c [v])%R).
  { unfold weight_function at 1. rewrite Face. unfold weight_function. rewrite <- lsum_scal. apply lsum_ext. intros js Hj.
    rewrite (wf_npts c Wc), Kc, Dc in Hj. cbn [map2] in Hj. apply all_indices_box in Hj. inversion Hj as [|? j ? ? Hj' Hr]; subst. inversion Hr; subst.
    rewrite (proj2 (H j Hj')). ring. }
  destruct (placed_affine o x y z f) as (A & b & HA).
  assert (EA : forall k, In k [0; 1; 2] -> weighted_sum s [end_value kv e; v] k = (W * (b k * weight_function c [v] +
             (A k 0%Z * weighted_sum c [v] 0 + A k 1%Z * weighted_sum c [v] 1 + A k 2%Z * weighted_sum c [v] 2)))%R).
  { intros k Hk. unfold weighted_sum at 1. rewrite Face. unfold weight_function, weighted_sum. rewrite <- !lsum_scal, <- !lsum_plus, <- lsum_scal. apply lsum_ext. intros js Hj.
    rewrite (wf_npts c Wc), Kc, Dc in Hj. cbn [map2] in Hj. apply all_indices_box in Hj. inversion Hj as [|? j ? ? Hj' Hr]; subst. inversion Hr; subst.
    destruct (H j Hj') as (H1 & ->). assert (E : coordinate s [end_index (zlen kv - pt - 1) e; j] k = (b k + (A k 0%Z * coordinate c [j] 0 + A k 1%Z * coordinate c [j] 1 + A k 2%Z * coordinate c [j] 2))%R).
    { specialize (HA (coordinate c [j] 0) (coordinate c [j] 1) (coordinate c [j] 2)). change (coordinate c [j] 0, coordinate c [j] 1, coordinate c [j] 2) with (control_point c [j]) in HA.
      rewrite <- H1 in HA. cbn [listed control_point map] in HA. injection HA as A0 A1 A2. destruct Hk as [<-|[<-|[<-|[]]]]; assumption. }
    rewrite E. ring. }
  rewrite (eval_quotient dz) by (auto; try (repeat constructor; lia); lra). f_equal. unfold at_point.
  rewrite !(eval_quotient dz c) by (auto; try (repeat constructor; lia); lra). cbn [map only_value]. rewrite HA.
  refine (map_ext_in (fun k => weighted_sum s [end_value kv e; v] k / weight_function s [end_value kv e; v])%R _ [0; 1; 2] _). intros k Hk. rewrite (EA k Hk), EWs. field. lra.
Qed.

Lemma swept : forall t c kt pt n scaling z, well_formed t -> well_formed c -> knots_of t = [kt] -> degs_of t = [pt] -> length (knots_of c) = 1%nat ->
  positive_weights t -> positive_weights c -> ph_dim (sp_ph t) = 3 -> 3 <= ph_dim (sp_ph c) -> first_knot kt = 0%R ->
  1 <= pt -> pt + 1 <= n <= zlen scaling -> n * total (npts_of c) < 2 ^ 64 -> (tolerance * IZR (n - 1) <= final_knot kt)%R ->
  normals t (final_knot kt) n n z ->
  let last := final_knot kt in let f i := nth (Z.to_nat i) scaling origin in
  exists s kv, swept_surface t c n scaling = Ok s /\ well_formed s /\ positive_weights s /\
    knots_of s = kv :: knots_of c /\ degs_of s = pt :: degs_of c /\ npts_of s = n :: npts_of c /\ ph_dim (sp_ph s) = 3 /\
    (forall i, 0 <= i < n + pt + 1 -> knot kv (Z.to_nat i) = mean_knot pt n (last / IZR (n - 1)) i) /\
    (forall i, 0 <= i < n -> let x := unit_of (derivative_at t 1 (sample last n i)) in orthonormal x (outer (z i) x) (z i)) /\
    (forall i j, 0 <= i < n -> 0 <= j < total (npts_of c) ->
       control_point s [i; j] = section_at t last n z (f i) i (control_point c [j]) /\
       weight s [i; j] = (weight c [j] * weight_function t [sample last n i])%R) /\
    (forall v, in_domain c [v] ->
       evaluate s [0%R; v] [0; 1; 2] = Ok (listed (section_at t last n z (f 0) 0 (at_point c v))) /\
       evaluate s [last; v] [0; 1; 2] = Ok (listed (section_at t last n z (f (n - 1)) (n - 1) (at_point c v)))).
Proof.
  intros t c kt pt n scaling z Wt Wc Kt Gt Lc (wt & Hwt & Pwt) Pc D3 D3c H0 Hp (Hn & Hs) Hb Htol Hz last f.
  pose proof Pc as (wc & Hwc & Pwc).
  destruct (one_direction c Wc Lc) as (kc & pc & Kc & Gc & Good & Nc). set (m := zlen kc - pc - 1) in *.
  assert (Hm : 1 <= m) by (destruct Good as (? & (? & _) & _); unfold m; zl).
  assert (Ht : total (npts_of c) = m) by (rewrite Nc; unfold total; cbn; lia). rewrite Ht in Hb.
  assert (Pt : forall u, in_domain t [u] -> weight_function t [u] <> 0%R).
  { intros u Hu. pose proof (weight_function_positive dz t [u] Wt (ex_intro _ wt (conj Hwt Pwt)) Hu). lra. }
  assert (Hn1 : (0 < IZR (n - 1))%R) by (apply (IZR_lt 0); lia).
  set (h := (last / IZR (n - 1))%R).
  assert (Hh : (tolerance <= h)%R).
  { unfold h. apply Rmult_le_reg_r with (IZR (n - 1)); auto. replace (last / IZR (n - 1) * IZR (n - 1))%R with last by (field; lra). exact Htol. }
  set (cps0 := repeat [0; 0; 0]%R (Z.to_nat (n * m))). set (ws0 := repeat 0%R (Z.to_nat (n * m))).
  destruct (sweep_ok t c kt n m wt z scaling Wt Wc Kt Lc Hwt D3 D3c H0 ltac:(lia) Nc Hs Pt n ltac:(lia) Hz cps0 ws0) as (cps & ws & E & L1 & L2 & V).
  { unfold cps0, zlen. rewrite repeat_length. rewrite Z2Nat.id; nia. } { unfold ws0, zlen. rewrite repeat_length. rewrite Z2Nat.id; nia. }
  change (num F) with R in *.
  destruct (mean_knots dz pt n h Hp Hn) as (kv & Ek & Lk & Vk).
  destruct (mean_good pt n h kv Hp Hn Hh Lk Vk) as (Gk & Xk & Fk & Lastk).
  assert (Elast : (h * IZR (n - 1) = last)%R) by (unfold h; field; lra). rewrite Elast in Lastk.
  assert (Hc3 : Forall (fun cp => zlen cp = 3) cps).
  { apply Forall_forall. intros cp Hc. apply (In_nth _ _ []) in Hc. destruct Hc as (k & Hk & <-).
    pose proof (Z.mod_pos_bound (Z.of_nat k) n ltac:(lia)) as M1. pose proof (Z.div_mod (Z.of_nat k) n ltac:(lia)) as M2.
    assert (M3 : 0 <= Z.of_nat k / n < m).
    { split; [apply Z.div_pos; lia|]. apply Z.div_lt_upper_bound; [lia|]. unfold zlen in L1. lia. }
    destruct (V (Z.of_nat k mod n) (Z.of_nat k / n) M1 M3) as (A & _). replace (Z.of_nat k mod n + n * (Z.of_nat k / n)) with (Z.of_nat k) in A by lia.
    rewrite Nat2Z.id in A. rewrite A. match goal with |- zlen (listed ?p) = 3 => destruct p as [[? ?] ?]; reflexivity end. }
  assert (Tot : forall a b, total [a; b] = a * b) by (intros a b; unfold total; cbn [fold_right]; lia).
  destruct (spline_new_ok dz [kv; kc] [pt; pc] cps (Some ws) 3) as (_ & Wfs).
  { constructor; [exact Gk|constructor; [exact Good|constructor]]. } { lia. } { exact Hc3. } { transitivity (n * m); [exact L1|]. replace n with (zlen kv - pt - 1) by zl. cbn [map2]. symmetry. apply Tot. } { zl. }
  { intros w Ew. injection Ew as <-. lia. }
  cbn [map2] in Wfs. change (num F) with R in *. fold m in Wfs. assert (En : zlen kv - pt - 1 = n) by lia. rewrite En in Wfs.
  match type of Wfs with well_formed ?x => set (s := x) in * end.
  assert (Ew : forall i j, 0 <= i < n -> 0 <= j < m -> weight s [i; j] = (weight c [j] * weight_function t [sample last n i])%R).
  { intros i j Hi Hj. destruct (V i j Hi Hj) as (_ & B). unfold weight at 1. cbn [s sp_ph ph_wts npts_of ph_npts position].
    replace (i + n * (j + m * 0)) with (i + n * j) by lia. exact B. }
  assert (Ec : forall i j, 0 <= i < n -> 0 <= j < m -> control_point s [i; j] = section_at t last n z (f i) i (control_point c [j])).
  { intros i j Hi Hj. destruct (V i j Hi Hj) as (A & _).
    assert (Cn : forall k, 0 <= k < 3 -> coordinate s [i; j] k = nth (Z.to_nat k) (listed (section_at t last n z (f i) i (control_point c [j]))) 0%R).
    { intros k Hk. unfold coordinate at 1. cbn [s sp_ph ph_cps npts_of ph_npts ph_dim position]. replace (i + n * (j + m * 0)) with (i + n * j) by lia.
      rewrite concat_nth; auto; [|rewrite L1; nia]. f_equal. exact A. }
    unfold control_point at 1. rewrite !Cn by lia. destruct (section_at t last n z (f i) i (control_point c [j])) as [[a0 a1] a2]. reflexivity. }
  assert (Hpos : positive_weights s).
  { exists ws. split; [reflexivity|]. apply Forall_forall. intros x Hx. apply (In_nth _ _ 0%R) in Hx. destruct Hx as (k & Hk & <-).
    pose proof (Z.mod_pos_bound (Z.of_nat k) n ltac:(lia)) as M1. pose proof (Z.div_mod (Z.of_nat k) n ltac:(lia)) as M2.
    assert (M3 : 0 <= Z.of_nat k / n < m).
    { split; [apply Z.div_pos; lia|]. apply Z.div_lt_upper_bound; [lia|]. unfold zlen in L2. lia. }
    destruct (V (Z.of_nat k mod n) (Z.of_nat k / n) M1 M3) as (_ & B). replace (Z.of_nat k mod n + n * (Z.of_nat k / n)) with (Z.of_nat k) in B by lia.
    rewrite Nat2Z.id in B. change (num F) with R in *. rewrite B. apply Rmult_lt_0_compat.
    - apply (weight_positive dz c); auto. rewrite Nc. now apply curve_box.
    - apply (weight_function_positive dz t); auto; [exists wt; auto|]. eapply sample_domain; eauto; lia. }
  exists s, kv. split; [|split; [exact Wfs|split; [exact Hpos|split; [unfold s; rewrite Kc; reflexivity|split; [unfold s; rewrite Gc; reflexivity|split; [unfold s; rewrite Nc; reflexivity|split; [reflexivity|split; [exact Vk|]]]]]]]].
  - unfold swept_surface, knot_vector_range. unfold knots_of in Kt, Kc. unfold degs_of in Gt, Gc. rewrite Kt, Kc, Gt, Gc. cbn [dget nth_error bind].
    assert (Hkt : 1 <= zlen kt).
    { destruct (one_direction t Wt) as (k' & p' & E' & _ & (? & (? & _) & _) & _); [unfold knots_of; now rewrite Kt|]. unfold knots_of in E'. rewrite Kt in E'. injection E' as <-. zl. }
    assert (E1 : last_knot (F := F) kt = Ok last). { unfold last_knot, last, final_knot. rewrite (vget_nth (A := R) _ _ 0%R) by zl. repeat f_equal. zl. }
    assert (E2 : get_knot (F := F) kt 0 = Ok 0%R). { unfold get_knot. rewrite (vget_nth (A := R) _ _ 0%R) by zl. f_equal. exact H0. }
    rewrite E1. cbn [bind]. rewrite E2. cbn [bind]. rewrite (points_ok (sp_ph c)) by (try lia; apply (wf_cps _ Wc)). cbn [bind]. fold (npts_of c). rewrite Ht.
    unfold vmake. destruct (Z.ltb_spec (n * m) 0); [nia|]. cbn [bind].
    assert (Eh : ndiv (n := F) (nsub (n := F) last 0%R) (nofZ (n - 1)) = h).
    { rewrite (ndiv_R dz) by (rnorm; lra). rnorm. unfold h. f_equal. ring. }
    rewrite Eh. etransitivity; [exact (f_equal (fun r => bind r _) E)|]. cbn [bind].
    etransitivity; [exact (f_equal (fun r => bind r _) Ek)|]. cbn [bind].
    rewrite ps_new_ok by (apply good_checked; constructor; [exact Gk|constructor; [exact Good|constructor]]). cbn [bind].
    unfold wphys_new. rewrite (phys_new_ok dz cps [n; m] 3); auto; try (unfold total; cbn; lia).
    + cbn [bind ph_dim ph_npts ph_cps]. change (num F) with R in *. replace (zlen cps =? zlen ws) with true by (symmetry; apply Z.eqb_eq; lia). reflexivity.
    + intros ->. unfold zlen in L1. cbn in L1. nia.
  - split; [|split].
    + intros i Hi. eapply section_orthonormal; eauto; lia.
    + intros i j Hi Hj. rewrite Ht in Hj. split; [now apply Ec|now apply Ew].
    + assert (Q : forall e i, end_index n e = i -> 0 <= i < n -> forall v, in_domain c [v] -> evaluate s [end_value kv e; v] [0; 1; 2] = Ok (listed (section_at t last n z (f i) i (at_point c v)))).
      { intros e i Ei Hi v Hv. assert (Hd : in_domain t [sample last n i]) by (eapply sample_domain; eauto; lia). pose proof (weight_function_positive dz t _ Wt (ex_intro _ wt (conj Hwt Pwt)) Hd).
        apply (end_section c s kv kc pt pc n e _ _ _ _ _ (weight_function t [sample last n i])); auto; try reflexivity; try lia; try lra; try (cbn; lia).
        intros j Hj. rewrite Ei. split; [now apply Ec|now apply Ew]. }
      intros v Hv. split; [rewrite <- Fk; apply (Q false); auto; cbn [end_index]; lia|pose proof (Q true (n - 1) eq_refl ltac:(lia) v Hv) as Q1; cbn [end_value] in Q1; rewrite Lastk in Q1; exact Q1].
Qed.

(* the normals of neighbouring bends are orthogonal *)
Lemma swept_jump : forall t c kt n scaling z k, well_formed t -> well_formed c -> knots_of t = [kt] -> length (knots_of c) = 1%nat ->
  positive_weights t -> positive_weights c -> ph_dim (sp_ph t) = 3 -> 3 <= ph_dim (sp_ph c) -> first_knot kt = 0%R -> n <= zlen scaling ->
  1 <= k < n -> normals t (final_knot kt) n k z ->
  let u := sample (final_knot kt) n k in let b := outer (derivative_at t 1 u) (derivative_at t 2 u) in
  b <> origin -> inner (unit_of b) (z (k - 1)) = 0%R ->
  swept_surface t c n scaling = Throw RuntimeError.
Proof.
  intros t c kt n scaling z k Wt Wc Kt Lc (wt & Hwt & Pwt) (wc & Hwc & Pwc) D3 D3c H0 Hs Hk Hz u b Hb Hi.
  destruct (one_direction c Wc Lc) as (kc & pc & Kc & Gc & Good & Nc). set (m := zlen kc - pc - 1) in *.
  assert (Hm : 1 <= m) by (destruct Good as (? & (? & _) & _); unfold m; zl).
  assert (Ht : total (npts_of c) = m) by (rewrite Nc; unfold total; cbn; lia).
  assert (Pt : forall u, in_domain t [u] -> weight_function t [u] <> 0%R).
  { intros v Hv. pose proof (weight_function_positive dz t [v] Wt (ex_intro _ wt (conj Hwt Pwt)) Hv). lra. }
  assert (Hn1 : (0 < IZR (n - 1))%R) by (apply (IZR_lt 0); lia).
  set (last := final_knot kt) in *. set (h := (last / IZR (n - 1))%R).
  set (cps0 := repeat [0; 0; 0]%R (Z.to_nat (n * m))). set (ws0 := repeat 0%R (Z.to_nat (n * m))).
  destruct (sweep_ok t c kt n m wt z scaling Wt Wc Kt Lc Hwt D3 D3c H0 ltac:(lia) Nc Hs Pt k ltac:(lia) Hz cps0 ws0) as (cps & ws & E & L1 & L2 & V).
  { unfold cps0, zlen. rewrite repeat_length. rewrite Z2Nat.id; nia. } { unfold ws0, zlen. rewrite repeat_length. rewrite Z2Nat.id; nia. }
  assert (Ef : section_frame (F := F) t h (z (k - 1)) k = (m <- get_transformation (F := F) (at_point t u) (derivative_at t 1 u) (derivative_at t 2 u) (z (k - 1)) k ;; Ok (u, weight_function t [u], m)))
    by (eapply section_frame_ok; eauto; lia).
  unfold get_transformation in Ef. rewrite (normal_jump (at_point t u)) in Ef by (auto; lia). cbn [bind] in Ef.
  change (num F) with R in *.
  unfold swept_surface, knot_vector_range. unfold knots_of in Kt, Kc. rewrite Kt. cbn [dget nth_error bind].
  assert (Hkt : 1 <= zlen kt).
  { destruct (one_direction t Wt) as (k' & p' & E' & _ & (? & (? & _) & _) & _); [unfold knots_of; now rewrite Kt|]. unfold knots_of in E'. rewrite Kt in E'. injection E' as <-. zl. }
  assert (E1 : last_knot (F := F) kt = Ok last). { unfold last_knot, last, final_knot. rewrite (vget_nth (A := R) _ _ 0%R) by zl. repeat f_equal. zl. }
  assert (E2 : get_knot (F := F) kt 0 = Ok 0%R). { unfold get_knot. rewrite (vget_nth (A := R) _ _ 0%R) by zl. f_equal. exact H0. }
  rewrite E1. cbn [bind]. rewrite E2. cbn [bind]. rewrite (points_ok (sp_ph c)) by (try lia; apply (wf_cps _ Wc)). cbn [bind]. fold (npts_of c). rewrite Ht.
  unfold vmake. destruct (Z.ltb_spec (n * m) 0); [nia|]. cbn [bind].
  assert (Eh : ndiv (n := F) (nsub (n := F) last 0%R) (nofZ (n - 1)) = h).
  { rewrite (ndiv_R dz) by (rnorm; lra). rnorm. unfold h. f_equal. ring. }
  rewrite Eh. unfold for_up in *. replace (Z.to_nat (n - 0)) with (Z.to_nat (k - 0) + S (Z.to_nat (n - k - 1)))%nat by lia. rewrite for_n_app.
  match goal with |- bind (bind ?X ?K1) ?K2 = _ => etransitivity; [exact (f_equal (fun r => bind (bind r K1) K2) E)|] end. cbn [bind for_n].
  replace (0 + Z.of_nat (Z.to_nat (k - 0))) with k by lia.
  match goal with |- bind (bind (bind (section_frame _ _ _ _) ?K0) ?K1) ?K2 = _ => etransitivity; [exact (f_equal (fun r => bind (bind (bind r K0) K1) K2) Ef)|] end. reflexivity.
Qed.

(* the first parameter is 0 whatever the first knot is *)
Lemma swept_late : forall t c kt n scaling, well_formed t -> well_formed c -> knots_of t = [kt] -> length (knots_of c) = 1%nat ->
  3 <= ph_dim (sp_ph t) -> (0 < first_knot kt)%R -> 1 <= n -> swept_surface t c n scaling = Throw RangeError.
Proof.
  intros t c kt n scaling Wt Wc Kt Lc D3 H0 Hn.
  destruct (one_direction c Wc Lc) as (kc & pc & Kc & Gc & Good & Nc). set (m := zlen kc - pc - 1) in *.
  assert (Hm : 1 <= m) by (destruct Good as (? & (? & _) & _); unfold m; zl).
  assert (Ht : total (npts_of c) = m) by (rewrite Nc; unfold total; cbn; lia).
  assert (Hkt : 1 <= zlen kt).
  { destruct (one_direction t Wt) as (k' & p' & E' & _ & (? & (? & _) & _) & _); [now rewrite Kt|]. rewrite Kt in E'. injection E' as <-. zl. }
  assert (Eo : evaluate t [0%R] [0; 1; 2] = Throw RangeError).
  { refine (proj1 (proj2 (eval_safe dz t [0%R] [0; 1; 2] [0] Wt _ _ _ _) _)).
    - now rewrite Kt.
    - repeat constructor; lia.
    - destruct (one_direction t Wt) as (? & ? & _ & E' & _); [now rewrite Kt|]. now rewrite E'.
    - repeat constructor; lia.
    - unfold in_domain. rewrite Kt. intros Hd. inversion Hd as [|? ? ? ? Hd' _]; subst. lra. }
  unfold swept_surface, knot_vector_range. unfold knots_of in Kt, Kc. rewrite Kt. cbn [dget nth_error bind].
  assert (E1 : last_knot (F := F) kt = Ok (final_knot kt)). { unfold last_knot, final_knot. rewrite (vget_nth (A := R) _ _ 0%R) by zl. repeat f_equal. zl. }
  assert (E2 : get_knot (F := F) kt 0 = Ok (first_knot kt)). { unfold get_knot. rewrite (vget_nth (A := R) _ _ 0%R) by zl. reflexivity. }
  rewrite E1. cbn [bind]. rewrite E2. cbn [bind]. rewrite (points_ok (sp_ph c)) by (first [apply (wf_cps _ Wc) | apply (wf_dim _ Wc)]). cbn [bind]. fold (npts_of c). rewrite Ht.
  unfold vmake. destruct (Z.ltb_spec (n * m) 0); [nia|]. cbn [bind].
  unfold for_up. replace (Z.to_nat (n - 0)) with (S (Z.to_nat (n - 1))) by lia. cbn [for_n]. unfold section_frame.
  cbv zeta. match goal with |- context [evaluate t [?x] [0; 1; 2]] => assert (Ex : x = 0%R) by (rnorm; ring) end.
  match goal with |- context [evaluate t [?x] [0; 1; 2]] => assert (Ey : evaluate t [x] [0; 1; 2] = Throw RangeError) by (rewrite Ex; exact Eo) end.
  rewrite Ey. reflexivity.
Qed.
End Sweep.

(* the constructor from averages on any parameters *)
Lemma averages : forall dz (coords : list R) p n, 1 <= p -> p + 1 <= n -> n = zlen coords ->
  exists kv, averaged_knots (F := Rops dz) coords p n = Ok kv /\ zlen kv = n + p + 1 /\
    forall i, 0 <= i < n + p + 1 -> knot kv (Z.to_nat i) =
      if i <=? p then 0%R else if i <? n then (lsum (fun j => nth (Z.to_nat j) coords 0%R) (zseq (i - p) (Z.to_nat p)) / IZR p)%R else last coords 0%R.
Proof.
  intros dz coords p n Hp Hn Hl. eexists. split; [apply averaged_ok; lia|]. set (mid := map _ (zseq 1 _)).
  assert (Lm : length mid = Z.to_nat (n - 1 - p)) by (unfold mid; now rewrite map_length, zseq_length).
  split; [unfold zlen; rewrite !app_length, !repeat_length, Lm; lia|].
  intros i Hi. unfold knot. destruct (Z.leb_spec i p).
  - rewrite app_nth1 by (rewrite repeat_length; lia). apply nth_repeat.
  - rewrite app_nth2, repeat_length by (rewrite repeat_length; lia). destruct (Z.ltb_spec i n).
    + rewrite app_nth1 by lia. unfold mid. rewrite (nth_map_in _ _ _ 0) by (rewrite zseq_length; lia). rewrite zseq_nth by lia.
      replace (1 + Z.of_nat (Z.to_nat i - Z.to_nat (p + 1))) with (i - p) by lia. reflexivity.
    + rewrite app_nth2 by lia. rewrite (nth_indep _ 0%R (last coords 0%R)) by (rewrite repeat_length; lia). apply nth_repeat.
Qed.
