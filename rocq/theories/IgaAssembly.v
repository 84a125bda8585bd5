(* Assembly of mass matrix, load vector and stiffness matrix: the entries as sums over the integration points. *)
From Coq Require Import ZArith List Bool Reals Lra Lia Permutation.
From Verif Require Import Base BaseFacts RSum MultiIndex MultiIndexSpec MultiIndexFacts TensorSum
  KnotVec KnotVecSpec KnotVecFacts Basis BasisSpec BSplineTheory BasisFacts
  Spaces SpacesSpec SpacesFacts SplineEval SplineSpec EvalFacts EvalThms
  IgaSpec Iga IgaFacts IgaThms IgaBasis IgaBasisThms IgaSystem IgaSystemSpec Scatter IgaSystemFacts.
Import ListNotations.
Open Scope Z_scope.

Section Assembly.
Context {dz : R -> R}.
Local Notation F := (Rops dz).
Implicit Types s : spline F.

Lemma ref_dirs (lists : list (list (R * R))) : forall es xs, in_box (map zlen lists) es -> length xs = length lists ->
  mapM (fun x => e <- vget (fst x) (fst (snd x)) ;;
                 Ok (ndiv (n := F) (nadd (nmul (nsub (snd e) (fst e)) (snd (snd x))) (nadd (snd e) (fst e))) (nofZ 2)))
       (combine lists (combine es xs)) = Ok (element_point lists es xs).
Proof.
  induction lists as [|l lists IH]; intros es xs Hb Hl; inversion Hb as [|? e ? es' He Hb']; subst; auto.
  destruct xs as [|x xs]; [discriminate|]. cbn [combine mapM fst snd element_point].
  change (num F) with R in *. rewrite (vget_nth l e (0, 0)%R) by auto. cbn [bind]. destruct (nth (Z.to_nat e) l (0, 0)%R) as (lo, hi) eqn:E. cbn [fst snd].
  rewrite IH by (auto; cbn in Hl; lia). cbn [bind]. rewrite ndiv_R by (cbn; lra). do 2 f_equal. cbn. field.
Qed.

Lemma reference_ok s es xs : well_formed s -> in_box (map zlen (dlists (knots_of s) (degs_of s))) es ->
  length xs = length (degs_of s) ->
  reference_to_parameter s (position (map zlen (dlists (knots_of s) (degs_of s))) es) xs =
  Ok (element_point (dlists (knots_of s) (degs_of s)) es xs).
Proof.
  intros Hwf He Hl. unfold reference_to_parameter, element_indices.
  rewrite element_lists_ok, num_elements_ok by auto. cbn [bind]. rewrite mih_plus_nth, number_box by auto.
  apply ref_dirs; auto. rewrite dlists_length; auto. now apply wf_directions.
Qed.

Lemma element_point_strict knots degs : Forall2 good_direction knots degs -> forall es xs,
  in_box (map zlen (dlists knots degs)) es -> length xs = length degs -> Forall (fun x => -1 < x < 1)%R xs ->
  strictly_inside (dlists knots degs) es (element_point (dlists knots degs) es xs).
Proof.
  induction 1 as [|kv p knots degs Hg H IH]; intros es xs Hb Hl Hx; inversion Hb as [|? e ? es' He Hb']; subst.
  - constructor.
  - destruct xs as [|x xs]; [discriminate|]. inversion Hx as [|? ? Hx1 Hx2]; subst. cbn [dlists map2 element_point].
    pose proof (tiles_from _ _ _ (Z.to_nat e) (pairs_tiles (inner kv p) (inner_nondec kv p Hg) (inner_ne kv p Hg)) ltac:(unfold zlen in He; lia)) as (_ & Hlt).
    destruct (nth (Z.to_nat e) (pairs (inner kv p)) (0, 0)%R) as (lo, hi) eqn:E. cbn [fst snd] in Hlt.
    cbn [strictly_inside]. rewrite E. cbn [fst snd]. split; [|apply IH; auto; cbn in Hl; lia].
    split; [pose proof (Rmult_lt_0_compat (hi - lo) ((x + 1) / 2) ltac:(lra) ltac:(lra)); lra|].
    pose proof (Rmult_lt_0_compat (hi - lo) ((1 - x) / 2) ltac:(lra) ltac:(lra)). lra.
Qed.

(* tables *)
Lemma dot_map {A} (f g : A -> R) l : dot (F := F) (map f l) (map g l) = lsum (fun x => f x * g x)%R l.
Proof.
  unfold dot. assert (G : forall a, fold_left (nadd (n := F)) (map2 (nmul (n := F)) (map f l) (map g l)) a = (a + lsum (fun x => f x * g x) l)%R).
  { induction l as [|x l IH]; intros a; cbn [map map2 fold_left lsum]; [lra|]. rewrite IH. cbn. lra. }
  rewrite G. cbn. lra.
Qed.

Lemma mat_mul_table {A B} (f : A -> B -> R) (g : B -> nat -> R) n li lk :
  mat_mul (F := F) n (map (fun i => map (f i) lk) li) (map (fun k => map (g k) (seq 0 n)) lk) =
  map (fun i => map (fun j => lsum (fun k => f i k * g k j)%R lk) (seq 0 n)) li.
Proof.
  unfold mat_mul. rewrite map_map. apply map_ext. intros i. apply map_ext_in. intros j Hj. apply in_seq in Hj.
  unfold mat_col. rewrite map_map. rewrite <- dot_map. f_equal. apply map_ext. intros k.
  rewrite (nth_map_in (g k) (seq 0 n) j 0%nat) by (rewrite seq_length; lia). now rewrite seq_nth by lia.
Qed.

Lemma mat_t_table {A} (f : A -> nat -> R) n li :
  mat_t (F := F) n (map (fun i => map (f i) (seq 0 n)) li) = map (fun j => map (fun i => f i j) li) (seq 0 n).
Proof.
  unfold mat_t. apply map_ext_in. intros j Hj. apply in_seq in Hj. unfold mat_col. rewrite map_map. apply map_ext. intros i.
  rewrite (nth_map_in (f i) (seq 0 n) j 0%nat) by (rewrite seq_length; lia). now rewrite seq_nth by lia.
Qed.

(* the derivatives of the geometry *)
Definition dpart s (us : list R) (c : Z) (d : nat) : R := only_value (evaluate_derivative s us [c] (unit_at (length us) d)).

Lemma forall2_length {A B} (P : A -> B -> Prop) l1 l2 : Forall2 P l1 l2 -> length l1 = length l2.
Proof. induction 1; cbn; congruence. Qed.
Lemma domain_length s us : in_domain s us -> length us = length (knots_of s).
Proof. intros H. symmetry. exact (forall2_length _ _ _ H). Qed.
Lemma degs_length s : well_formed s -> length (degs_of s) = length (knots_of s).
Proof. intros H. symmetry. exact (forall2_length _ _ _ (wf_directions s H)). Qed.

Lemma unit_at_step n d : (d < n)%nat -> unit_at n d = upd (repeat 0 n) d (nth d (repeat 0 n) 0 + 1).
Proof. intros H. unfold unit_at. now rewrite nth_repeat. Qed.

Lemma upd_nonneg l d x : Forall (fun m => 0 <= m) l -> 0 <= x -> Forall (fun m => 0 <= m) (upd l d x).
Proof. intros H Hx. revert d. induction H; intros [|d]; cbn; auto. Qed.

Lemma dpart_ok s us c d : well_formed s -> in_domain s us -> 0 <= c < ph_dim (sp_ph s) ->
  evaluate_derivative s us [c] (unit_at (length us) d) = Ok [dpart s us c d].
Proof.
  intros Hwf Hu Hc.
  assert (Hz : Forall (fun m => 0 <= m) (repeat 0 (length us))) by (apply Forall_forall; intros x Hx; apply repeat_spec in Hx; lia).
  destruct (eval_safe dz s us [c] (unit_at (length us) d) Hwf (domain_length s us Hu)) as (H & _).
  - repeat constructor; lia.
  - unfold unit_at. rewrite upd_length, repeat_length, degs_length by auto. now apply domain_length.
  - unfold unit_at. apply upd_nonneg; auto. lia.
  - destruct (H Hu) as (_ & vs & E & Hl). unfold dpart. rewrite E.
    destruct vs as [|v [|v' vs]]; try discriminate. reflexivity.
Qed.

Lemma strict_not_knot knots degs : Forall2 good_direction knots degs -> forall ks lists es us,
  element_spans knots degs ks lists es -> strictly_inside lists es us ->
  Forall2 (fun kv u => ~ In u kv) knots us.
Proof.
  induction 1 as [|kv p knots degs Hg H IH]; intros [|k ks] [|l lists] [|e es] us S I; cbn [element_spans] in S; try contradiction.
  - destruct us; cbn in I; [constructor|contradiction].
  - destruct us as [|u us]; cbn [strictly_inside] in I; [contradiction|]. destruct S as ((Hk & E & _) & S). destruct I as (Iu & I).
    constructor; [|eapply IH; eauto]. rewrite E in Iu. cbn [fst snd] in Iu. destruct Hg as (Hp & _ & Hn & _).
    intros C. apply (In_nth _ _ 0%R) in C as (j & Hj & Ej).
    destruct (Nat.le_gt_cases j (Z.to_nat k)) as [C|C].
    + pose proof (Hn j (Z.to_nat k) C ltac:(lia)). unfold knot in *. lra.
    + pose proof (Hn (Z.to_nat (k + 1)) j ltac:(lia) ltac:(lia)). unfold knot in *. lra.
Qed.

Lemma derivable_near (f g : R -> R) u l (eps : posreal) : (forall h, Rabs h < eps -> f (u + h)%R = g (u + h)%R)%R ->
  derivable_pt_lim f u l -> derivable_pt_lim g u l.
Proof.
  intros E H e He. destruct (H e He) as (d & Hd). assert (Hm : (0 < Rmin d eps)%R) by (apply Rmin_pos; apply cond_pos).
  exists (mkposreal _ Hm). intros h Hh Hl. cbn in Hl.
  assert (H1 : (Rabs h < d)%R) by (eapply Rlt_le_trans; [exact Hl|apply Rmin_l]).
  assert (H2 : (Rabs h < eps)%R) by (eapply Rlt_le_trans; [exact Hl|apply Rmin_r]).
  rewrite <- E by auto. replace (g u) with (f u); [now apply Hd|].
  rewrite <- (Rplus_0_r u). apply E. rewrite Rabs_R0. apply cond_pos.
Qed.

Lemma domain_upd s us d v kv : in_domain s us -> nth_error (knots_of s) d = Some kv -> (first_knot kv <= v <= final_knot kv)%R ->
  in_domain s (upd us d v).
Proof.
  unfold in_domain. intros H. revert d. induction H as [|kv0 u knots us H1 H IH]; intros [|d] E Hv; cbn in *; try discriminate.
  - inversion E; subst. now constructor.
  - constructor; auto.
Qed.

Lemma dpart_partials s us : well_formed s -> regular s -> Forall2 (fun kv u => first_knot kv < u < final_knot kv)%R (knots_of s) us ->
  Forall2 (fun kv u => ~ In u kv) (knots_of s) us -> partials s us (dpart s us).
Proof.
  intros Hwf Hreg Hin Hnot c d Hc Hd.
  assert (Hu : in_domain s us) by (unfold in_domain; clear - Hin; induction Hin; constructor; auto; lra).
  pose proof (domain_length s us Hu) as Hl. pose proof (degs_length s Hwf) as Hl2.
  destruct (nth_error (knots_of s) d) as [kv|] eqn:Ek; [|apply nth_error_None in Ek; lia].
  destruct (nth_error us d) as [u|] eqn:Eu; [|apply nth_error_None in Eu; lia].
  assert (En : nth d us 0%R = u) by (now apply nth_error_nth).
  assert (H1 : (first_knot kv < u < final_knot kv)%R /\ ~ In u kv).
  { clear - Hin Hnot Ek Eu. revert d Ek Eu. induction Hin as [|kv0 u0 knots us H1 H IH]; intros [|d] E1 E2; cbn in *; try discriminate;
    inversion Hnot; subst; [inversion E1; inversion E2; subst; auto|eauto]. }
  destruct H1 as (H1 & H2).
  destruct (nurbs_derivative_step dz s us (repeat 0 (length us)) d kv u c Hwf Hu (Hreg us Hu)) as (l & E & Hlim); auto.
  { rewrite repeat_length. congruence. }
  { apply Forall_forall. intros x Hx. apply repeat_spec in Hx. lia. }
  rewrite <- unit_at_step in E by auto. rewrite dpart_ok in E by auto. inversion E; subst l. rewrite En.
  assert (He : (0 < Rmin (u - first_knot kv) (final_knot kv - u))%R) by (apply Rmin_pos; lra).
  eapply (derivable_near _ _ _ _ (mkposreal _ He)); [|exact Hlim]. intros h Hh. cbn in Hh.
  pose proof (Rmin_l (u - first_knot kv) (final_knot kv - u)). pose proof (Rmin_r (u - first_knot kv) (final_knot kv - u)).
  apply Rabs_def2 in Hh.
  assert (Hd' : in_domain s (upd us d (u + h)%R)) by (eapply domain_upd; eauto; lra).
  assert (Ez : repeat 0 (length us) = map (fun _ => 0) (degs_of s)).
  { rewrite Hl, <- Hl2. clear. induction (degs_of s); cbn; congruence. }
  assert (Hv : valid_dims s [c]) by (repeat constructor; lia).
  rewrite Ez, (derivative_order_zero dz) by auto. rewrite (nurbs_quotient dz) by auto. reflexivity.
Qed.

Lemma dx_dxi_ok s us : well_formed s -> in_domain s us ->
  dx_dxi s us = Ok (map (fun c => map (dpart s us c) (seq 0 (length us))) (zseq 0 (Z.to_nat (ph_dim (sp_ph s))))).
Proof.
  intros Hwf Hu. unfold dx_dxi, sp_pdim. apply mapM_ok. intros c Hc. apply zseq_In in Hc. pose proof (wf_dim s Hwf).
  apply mapM_ok. intros d Hd. rewrite dpart_ok by (auto; lia). reflexivity.
Qed.

Lemma half_span_dirs knots degs : Forall2 good_direction knots degs -> forall ks lists es us,
  element_spans knots degs ks lists es -> length us = length knots ->
  mapM (fun x => knot_span (F := F) (fst x) (snd x)) (combine knots us) = Ok ks ->
  mapM (fun x => half_span (F := F) (fst x) (snd x)) (combine knots us) = Ok (half_widths lists es).
Proof.
  induction 1 as [|kv p knots degs Hg H IH]; intros [|k ks] [|l lists] [|e es] us S Hl E; cbn [element_spans] in S; try contradiction.
  - reflexivity.
  - destruct us as [|u us]; [discriminate|]. cbn [combine mapM fst snd] in *. destruct S as ((Hk & Ee & _) & S).
    destruct (knot_span (F := F) kv u) as [k0| |] eqn:Ek; try discriminate. cbn [bind] in E.
    destruct (mapM (fun x => knot_span (F := F) (fst x) (snd x)) (combine knots us)) as [ks0| |] eqn:Em; try discriminate.
    cbn [bind] in E. inversion E; subst k0 ks0. rewrite (IH ks lists es us S) by (auto; cbn in Hl; lia).
    unfold half_span. rewrite Ek. cbn [bind]. unfold get_knot. destruct Hg as (Hp & _).
    change (num F) with R in *. rewrite (vget_nth kv (k + 1) 0%R), (vget_nth kv k 0%R) by (unfold zlen; lia). cbn [bind].
    rewrite ndiv_R by (cbn; lra). cbn [half_widths]. rewrite Ee. reflexivity.
Qed.

Lemma lsum_diag (f h : nat -> R) n j : (j < n)%nat -> lsum (fun k => f k * (if Nat.eqb k j then h k else 0))%R (seq 0 n) = (f j * h j)%R.
Proof.
  intros Hj. rewrite (lsum_single _ _ j).
  - now rewrite Nat.eqb_refl.
  - apply seq_NoDup.
  - apply in_seq. lia.
  - intros b _ Hb. apply Nat.eqb_neq in Hb. rewrite Hb. ring.
Qed.

Definition gram s (lists : list (list (R * R))) (es : list Z) (D : Z -> nat -> R) (a b : nat) : R :=
  (nth a (half_widths lists es) 0 * nth b (half_widths lists es) 0 *
   lsum (fun c => D c a * D c b) (zseq 0 (Z.to_nat (ph_dim (sp_ph s)))))%R.

Lemma nsqrt_abs (x : R) : nsqrt (n := F) (Rabs x) = sqrt (Rabs x).
Proof. cbn. pose proof (Rabs_pos x) as H. destruct (Rlt_dec (Rabs x) 0) as [C|C]; auto. lra. Qed.

Lemma jacobian_ok (mdet : list (list R) -> R) s es us ks : well_formed s -> located s es us ks ->
  jacobian_determinant (F := F) mdet s us =
  Ok (sqrt (Rabs (mdet (table (length us) (gram s (dlists (knots_of s) (degs_of s)) es (dpart s us)))))).
Proof.
  intros Hwf Hl. pose proof (loc_domain _ _ _ _ Hl) as Hu. unfold jacobian_determinant, dx_dxitilde, dxi_dxitilde.
  rewrite dx_dxi_ok by auto. cbn [bind]. fold (knots_of s).
  pose proof (half_span_dirs _ _ (wf_directions s Hwf) _ _ _ us (loc_spans _ _ _ _ Hl) (domain_length s us Hu) (loc_knots _ _ _ _ Hl)) as Eh.
  change (num F) with R in *. rewrite Eh. cbn [bind]. set (hw := half_widths _ _).
  rewrite (mat_mul_table (dpart s us) (fun k j => if Nat.eqb k j then nth k hw 0%R else 0%R)).
  rewrite mat_t_table, mat_mul_table. cbn [nabs Rops]. rewrite nsqrt_abs.
  apply (f_equal (fun m => Ok (sqrt (Rabs (mdet m))))). unfold table. apply map_ext_in. intros a Ha. apply in_seq in Ha.
  apply map_ext_in. intros b Hb. apply in_seq in Hb. unfold gram. fold hw. rewrite <- lsum_scal. apply lsum_ext. intros c _.
  rewrite !(lsum_diag (dpart s us c) (fun k => nth k hw 0%R)) by lia. ring.
Qed.

(* the integration points of an element *)
Lemma foldM_snoc {A B} (l : list A) (g : A -> B) (step : list B -> A -> Res (list B)) :
  (forall a acc, In a l -> step acc a = Ok (acc ++ [g a])) -> forall acc, foldM step l acc = Ok (acc ++ map g l).
Proof.
  induction l as [|a l IH]; intros H acc; cbn [foldM map]; [now rewrite app_nil_r|].
  rewrite H by (now left). cbn [bind]. rewrite IH by (intros; apply H; now right). now rewrite <- app_assoc.
Qed.

Lemma fold_mul (l : list R) : forall a, fold_left (nmul (n := F)) l a = (a * fold_right Rmult 1 l)%R.
Proof.
  induction l as [|x l IH]; intros a; cbn [fold_left fold_right]; [change (num F) with R in *; ring|].
  rewrite IH. cbn [nmul Rops]. change (num F) with R in *. ring.
Qed.

Lemma box_repeat n d qs : in_box (repeat n d) qs -> length qs = d /\ Forall (fun q => 0 <= q < n) qs.
Proof.
  revert qs; induction d as [|d IH]; intros qs H; inversion H as [|? q ? qs' Hq H']; subst; [split; constructor|].
  destruct (IH qs' H') as (<- & Hf). split; auto.
Qed.

Section Element.
Variables (mdet : list (list R) -> R) (s : spline F) (rl : list (R * R)) (es : list Z).
Hypothesis Hwf : well_formed s.
Hypothesis Hrl : inner_rule rl.
Let lists := dlists (knots_of s) (degs_of s).
Hypothesis Hes : in_box (map zlen lists) es.
Let lens := repeat (Z.of_nat (length rl)) (length lists).
Definition qpoint (qs : list Z) : list R := element_point lists es (grid_point rl qs).

Lemma lens_pos : pos_lens lens.
Proof.
  destruct Hrl as (Hne & _). apply Forall_forall. intros x Hx. apply repeat_spec in Hx. subst. destruct rl; [contradiction|cbn; lia].
Qed.

Lemma qpoint_inside qs : in_box lens qs -> strictly_inside lists es (qpoint qs).
Proof.
  intros H. apply box_repeat in H as (Hl & Hq). pose proof (wf_directions s Hwf) as Hd. unfold qpoint.
  apply element_point_strict; auto.
  - unfold grid_point. rewrite map_length, Hl. unfold lists. now apply dlists_length.
  - destruct Hrl as (_ & Hr). rewrite Forall_forall in *. intros x Hx. apply in_map_iff in Hx as (q & <- & Hx).
    apply Hr, nth_In. specialize (Hq q Hx). cbn in Hq. lia.
Qed.

Lemma element_points_ok {A} (f : list R -> Res A) (fv : list R -> A) (jac : list R -> R) :
  (forall us, strictly_inside lists es us -> f us = Ok (fv us)) ->
  (forall us, strictly_inside lists es us -> jacobian_determinant (F := F) mdet s us = Ok (jac us)) ->
  element_points (F := F) mdet s rl (position (map zlen lists) es) f =
  Ok (map (fun qs => (fv (qpoint qs), grid_weight rl qs, jac (qpoint qs))) (visited lens)).
Proof.
  intros Hf Hj. unfold element_points. destruct Hrl as (Hne & _).
  change (num F) with R in *. destruct (Z.eqb_spec (zlen rl) 0) as [C|C]; [destruct rl; [contradiction|discriminate]|].
  assert (Elen : repeat (zlen rl) (length (ps_degs (sp_ps s))) = lens).
  { unfold lens, zlen. f_equal. symmetry. apply dlists_length. now apply wf_directions. }
  change (num F) with R in *. rewrite Elen, mih_loop_visited.
  apply (foldM_snoc (visited lens) (fun qs => (fv (qpoint qs), grid_weight rl qs, jac (qpoint qs))) _) with (acc := []).
  intros qs acc Hq. apply visited_In in Hq; [|exact lens_pos]. cbn [mcur].
  destruct (box_repeat _ _ _ Hq) as (Hl & Hr).
  assert (Em : mapM (vget rl) qs = Ok (map (fun q => nth (Z.to_nat q) rl (0, 0)%R) qs)).
  { apply mapM_ok. intros q Hqq. rewrite Forall_forall in Hr. apply vget_nth. exact (Hr q Hqq). }
  rewrite Em. cbn [bind]. rewrite map_map. change (map _ qs) with (grid_point rl qs) at 1.
  unfold lists. rewrite reference_ok; auto.
  2:{ unfold grid_point. rewrite map_length, Hl. unfold lists. apply dlists_length. now apply wf_directions. }
  cbn [bind]. fold lists. change (element_point lists es (grid_point rl qs)) with (qpoint qs).
  pose proof (qpoint_inside qs Hq) as Hin. rewrite (Hf _ Hin). cbn [bind]. rewrite (Hj _ Hin). cbn [bind].
  do 5 f_equal. rewrite map_map. rewrite fold_mul. cbn. unfold grid_weight. ring.
Qed.
End Element.

(* adding at the entries of the functions of an element *)
Section Scatter.
Variables (s : spline F) (es : list Z) (us : list R) (ks : list Z).
Hypothesis Hwf : well_formed s.
Hypothesis Hloc : located s es us ks.
Let nb := local_sizes (degs_of s).
Let npts := npts_of s.
Let N := total npts.
Let gp := gpoint s ks.

Lemma gp_range l : 0 <= l < total nb -> 0 <= position npts (gp l) < N.
Proof. intros H. apply position_range. exact (proj1 (gpoint_box s es us ks Hwf Hloc l H)). Qed.

Lemma npts_box i : 0 <= i < N -> in_box npts (nth_index npts (Z.to_nat i)) /\ position npts (nth_index npts (Z.to_nat i)) = i.
Proof. intros H. apply box_number; auto. exact (npts_pos s Hwf). Qed.

Lemma scatter_vector (X : list Z -> R) (body : Z -> list R -> Res (list R)) : vanishing s ks X ->
  (forall l v, 0 <= l < total nb -> vlen N v -> body l v = vec_add_at (F := F) v (position npts (gp l)) (X (gp l))) ->
  adds (vlen N) (in_range N) component (for_up 0 (total nb) body) (fun i => X (nth_index npts (Z.to_nat i))).
Proof.
  intros HX Hb. eapply adds_ext; [intros m _; reflexivity| |].
  2:{ apply adds_for_up with (c := fun l i => if i =? position npts (gp l) then X (gp l) else 0%R). intros l Hl.
      eapply adds_ext; [intros m Hm; symmetry; apply Hb; auto | intros i _; reflexivity | apply vec_add_adds; now apply gp_range]. }
  intros i Hi. cbn. destruct (npts_box i Hi) as (Hbx & Ep). rewrite Z.sub_0_r.
  etransitivity; [|exact (local_pick s es us ks Hwf Hloc X _ HX Hbx)]. apply lsum_ext. intros l _. fold npts gp. rewrite Ep. reflexivity.
Qed.

Lemma scatter_matrix (X : list Z -> list Z -> R) (body : Z -> Z -> list (list R) -> Res (list (list R))) :
  (forall a, in_box npts a -> vanishing s ks (X a)) -> (forall b, in_box npts b -> vanishing s ks (fun a => X a b)) ->
  (forall l k m, 0 <= l < total nb -> 0 <= k < total nb -> square N m ->
     body l k m = mat_add_at (F := F) m (position npts (gp l)) (position npts (gp k)) (X (gp l) (gp k))) ->
  adds (square N) (in_range2 N) pentry (for_up 0 (total nb) (fun l => for_up 0 (total nb) (body l)))
       (fun ij => X (nth_index npts (Z.to_nat (fst ij))) (nth_index npts (Z.to_nat (snd ij)))).
Proof.
  intros HX HX' Hb. eapply adds_ext; [intros m _; reflexivity| |].
  2:{ apply adds_for_up with (c := fun l ij => lsum (fun k =>
        if (fst ij =? position npts (gp l)) && (snd ij =? position npts (gp k)) then X (gp l) (gp k) else 0%R) (zseq 0 (Z.to_nat (total nb - 0)))).
      intros l Hl. apply adds_for_up. intros k Hk.
      eapply adds_ext; [intros m Hm; symmetry; apply Hb; auto | intros i _; reflexivity | apply mat_add_adds; now apply gp_range]. }
  intros (i, j) (Hi & Hj). cbn [fst snd] in *. destruct (npts_box i Hi) as (Hbi & Epi). destruct (npts_box j Hj) as (Hbj & Epj).
  rewrite Z.sub_0_r. set (a := nth_index npts (Z.to_nat i)) in *. set (b := nth_index npts (Z.to_nat j)) in *.
  rewrite <- (local_pick s es us ks Hwf Hloc (fun a => X a b) a (HX' b Hbj) Hbi).
  apply lsum_ext. intros l Hl. apply zseq_In in Hl. pose proof (total_pos _ (nb_pos s Hwf)) as Ht. fold nb in Hl, Ht. fold gp npts.
  assert (Hlr : 0 <= l < total nb) by lia.
  rewrite Epi. destruct (i =? position npts (gp l)); cbn [andb].
  - assert (Hbl : in_box npts (gp l)) by (exact (proj1 (gpoint_box s es us ks Hwf Hloc l Hlr))).
    rewrite <- (local_pick s es us ks Hwf Hloc (X (gp l)) b (HX _ Hbl) Hbj). fold nb gp npts. rewrite Epj. reflexivity.
  - apply lsum_zero. auto.
Qed.
End Scatter.

Lemma vget_vals (vals : list R) l : 0 <= l < zlen vals -> vget vals l = Ok (nth (Z.to_nat l) vals 0%R).
Proof. apply vget_nth. Qed.

Lemma vanishing_mult s ks (f g : list Z -> R) : vanishing s ks g -> vanishing s ks (fun a => f a * g a)%R.
Proof. intros H a Hb Ha. rewrite (H a Hb Ha). ring. Qed.

(* mass matrix and load vector of one element *)
Section Elements.
Variables (mdet : list (list R) -> R) (s : spline F) (rl : list (R * R)) (es : list Z) (jac : list R -> R).
Hypothesis Hwf : well_formed s.
Hypothesis Hreg : regular s.
Hypothesis Hrl : inner_rule rl.
Let lists := dlists (knots_of s) (degs_of s).
Hypothesis Hes : in_box (map zlen lists) es.
Hypothesis Hjac : forall us, strictly_inside lists es us -> jacobian_determinant (F := F) mdet s us = Ok (jac us).
Let lens := repeat (Z.of_nat (length rl)) (length lists).
Let npts := npts_of s.
Let N := total npts.
Definition rn (us : list R) (i : Z) : R := nurbs_basis s us (nth_index npts (Z.to_nat i)).
Definition nvals (us : list R) : list R := match nonzero_nurbs s us with Ok v => v | _ => [] end.

Lemma nvals_at us : strictly_inside lists es us -> exists ks, located s es us ks /\ nonzero_nurbs s us = Ok (nvals us) /\
  zlen (nvals us) = total (local_sizes (degs_of s)) /\
  forall l, 0 <= l < total (local_sizes (degs_of s)) -> vget (nvals us) l = Ok (nurbs_basis s us (gpoint s ks l)).
Proof.
  intros Hin. destruct (located_at s es us Hwf Hes Hin) as (ks & Hl). exists ks. split; auto.
  destruct (values_at s es us ks Hwf Hl (Hreg us (loc_domain _ _ _ _ Hl))) as (vals & E & El & H).
  unfold nvals. rewrite E. split; auto. split; auto. intros l Hll. change (num F) with R in *. rewrite vget_vals by (rewrite El; exact Hll). f_equal. now apply H.
Qed.

Lemma mass_element_adds : adds (square N) (in_range2 N) pentry (mass_element (F := F) mdet s rl (position (map zlen lists) es))
  (fun ij => lsum (fun qs => grid_weight rl qs * (jac (qpoint s rl es qs) * (rn (qpoint s rl es qs) (fst ij) * rn (qpoint s rl es qs) (snd ij))))
                  (all_indices lens))%R.
Proof.
  unfold mass_element. rewrite (element_points_ok mdet s rl es Hwf Hrl Hes _ nvals jac); auto.
  2:{ intros us Hin. destruct (nvals_at us Hin) as (ks & _ & H & _). exact H. }
  cbn [bind]. eapply adds_ext; [intros m _; symmetry; apply foldM_map|intros i _; apply lsum_visited; exact (lens_pos s rl Hrl)|].
  apply adds_foldM. intros qs Hqs. apply visited_In in Hqs; [|exact (lens_pos s rl Hrl)].
  pose proof (qpoint_inside s rl es Hwf Hrl Hes qs Hqs) as Hin. set (us := qpoint s rl es qs) in *.
  destruct (nvals_at us Hin) as (ks & Hl & _ & El & Hv). cbv beta iota. change (num F) with R in *. rewrite El. clear El.
  assert (Hvan : vanishing s ks (nurbs_basis s us)) by (eapply nurbs_basis_vanishing; eauto).
  eapply adds_ext; [intros m _; reflexivity | | apply (scatter_matrix s es us ks Hwf Hl
    (fun a b => nurbs_basis s us a * nurbs_basis s us b * grid_weight rl qs * jac us)%R)].
  - intros ij _. cbn. unfold rn. fold npts. ring.
  - intros a _ b Hb Hb'. rewrite (Hvan b Hb Hb'). ring.
  - intros b _ a Ha Ha'. rewrite (Hvan a Ha Ha'). ring.
  - intros l k m H1 H2 _. rewrite (Hv l H1), (Hv k H2). cbn [bind].
    destruct (gpoint_box s es us ks Hwf Hl l H1) as (_ & G1). destruct (gpoint_box s es us ks Hwf Hl k H2) as (_ & G2).
    fold lists in G1, G2. rewrite G1, G2. cbn [bind]. rewrite !Z.add_simpl_r. reflexivity.
Qed.

Lemma point_value_ok us ks (c : list R) : located s es us ks -> strictly_inside lists es us -> vlen N c ->
  point_value (F := F) (nvals us) (fun j => g <- global_index s (position (map zlen lists) es) j ;; vget c (g - 1)) = Ok (combination s c us).
Proof.
  intros Hl Hin Hc. destruct (nvals_at us Hin) as (ks' & Hl' & _ & El & Hv).
  assert (ks' = ks) by (pose proof (loc_knots _ _ _ _ Hl) as E1; rewrite (loc_knots _ _ _ _ Hl') in E1; congruence). subst ks'. clear Hl'.
  unfold point_value. change (num F) with R in *. rewrite El, for_up_foldM, Z.sub_0_r.
  assert (G : forall L (a : R), (forall l, In l L -> 0 <= l < total (local_sizes (degs_of s))) ->
    foldM (fun (t : R) j => v <- vget (nvals us) j ;; c0 <- (g <- global_index s (position (map zlen lists) es) j ;; vget c (g - 1)) ;;
                            Ok (t + v * c0)%R) L a =
    Ok (a + lsum (fun l => nurbs_basis s us (gpoint s ks l) * component c (position npts (gpoint s ks l))) L)%R).
  { induction L as [|l L IH]; intros a HL; cbn [foldM lsum]; [f_equal; lra|].
    assert (H1 : 0 <= l < total (local_sizes (degs_of s))) by (apply HL; now left).
    rewrite (Hv l H1). cbn [bind]. destruct (gpoint_box s es us ks Hwf Hl l H1) as (B1 & G1). fold lists in G1. rewrite G1. cbn [bind].
    rewrite Z.add_simpl_r. pose proof (position_range _ _ B1) as HB. fold npts. fold npts in HB. unfold vlen in Hc.
    rewrite (vget_nth c _ 0%R) by (unfold zlen; rewrite Hc; exact HB). cbn [bind]. rewrite IH by (intros; apply HL; now right).
    f_equal. cbn. unfold component. lra. }
  etransitivity; [apply (G _ 0%R)|].
  - intros l Hl'. apply zseq_In in Hl'. lia.
  - f_equal. rewrite Rplus_0_l. apply (local_sum s es us ks Hwf Hl (fun a => nurbs_basis s us a * component c (position npts a))%R).
    intros a Ha Ha'. rewrite (nurbs_basis_vanishing s es us ks Hl a Ha Ha'). ring.
Qed.

Lemma load_vector_adds src : vlen N src -> adds (vlen N) (in_range N) component (load_vector (F := F) mdet s rl src (position (map zlen lists) es))
  (fun i => lsum (fun qs => grid_weight rl qs * (jac (qpoint s rl es qs) * (rn (qpoint s rl es qs) i * combination s src (qpoint s rl es qs))))
                 (all_indices lens))%R.
Proof.
  intros Hsrc. unfold load_vector. rewrite (element_points_ok mdet s rl es Hwf Hrl Hes _ nvals jac); auto.
  2:{ intros us Hin. destruct (nvals_at us Hin) as (ks & _ & H & _). exact H. }
  cbn [bind]. eapply adds_ext; [intros m _; symmetry; apply foldM_map|intros i _; apply lsum_visited; exact (lens_pos s rl Hrl)|].
  apply adds_foldM. intros qs Hqs. apply visited_In in Hqs; [|exact (lens_pos s rl Hrl)].
  pose proof (qpoint_inside s rl es Hwf Hrl Hes qs Hqs) as Hin. set (us := qpoint s rl es qs) in *.
  destruct (nvals_at us Hin) as (ks & Hl & _ & El & Hv).
  cbv beta iota. change (num F) with R in *. rewrite (point_value_ok us ks src Hl Hin Hsrc). cbn [bind]. rewrite El. clear El.
  assert (Hvan : vanishing s ks (nurbs_basis s us)) by (eapply nurbs_basis_vanishing; eauto).
  eapply adds_ext; [intros m _; reflexivity | | apply (scatter_vector s es us ks Hwf Hl
    (fun a => nurbs_basis s us a * combination s src us * grid_weight rl qs * jac us)%R)].
  - intros i _. cbn. unfold rn. fold npts. ring.
  - intros a Ha Ha'. rewrite (Hvan a Ha Ha'). ring.
  - intros l v H1 _. rewrite (Hv l H1). cbn [bind].
    destruct (gpoint_box s es us ks Hwf Hl l H1) as (_ & G1). fold lists in G1. rewrite G1. cbn [bind]. rewrite Z.add_simpl_r. reflexivity.
Qed.
End Elements.
End Assembly.
