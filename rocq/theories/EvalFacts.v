(* Evaluation of a well-formed spline in real arithmetic. *)
From Coq Require Import ZArith List Bool Lia Reals Lra Permutation.
From Verif Require Import Base BaseFacts RSum MultiIndex MultiIndexSpec MultiIndexFacts TensorSum
  KnotVec KnotVecSpec KnotVecFacts Basis BasisSpec BSplineTheory BasisFacts
  Spaces SpacesSpec SpacesFacts SplineEval SplineSpec.
Import ListNotations.
Open Scope Z_scope.

(* ---- pure facts ---- *)
Lemma all_indices_boxl npts : all_indices npts = boxl (map (fun n => zseq 0 (Z.to_nat n)) npts).
Proof. induction npts as [|n npts IH]; cbn; auto. now rewrite IH. Qed.

Lemma all_indices_box npts idx : In idx (all_indices npts) <-> in_box npts idx.
Proof.
  rewrite all_indices_boxl, boxl_In. unfold in_box. revert idx.
  induction npts as [|n npts IH]; intros idx; cbn [map].
  - split; intros H; inversion H; constructor.
  - split; intros H; inversion H; subst; constructor; try (now apply IH).
    + apply zseq_In in H2. lia.
    + apply zseq_In. lia.
Qed.

Lemma position_get1d npts idx : position npts idx = get1d npts idx.
Proof.
  revert idx; induction npts as [|n npts IH]; intros [|i idx]; cbn [position].
  - reflexivity. - reflexivity. - now rewrite get1d_nil_r. - now rewrite get1d_cons, IH.
Qed.

Lemma position_range npts idx : in_box npts idx -> 0 <= position npts idx < total npts.
Proof. rewrite position_get1d. apply get1d_range. Qed.

(* the Cox-de Boor functions on a span are the pieces *)
Lemma cox_piece kv k p i u : nondecreasing kv -> in_span kv k u ->
  0 <= i -> i + Z.of_nat p + 1 < zlen kv -> cox_de_boor kv p (Z.to_nat i) u = B (tk kv) k p i u.
Proof.
  intros Hn Hsp. revert i; induction p as [|q IH]; intros i H0 H1.
  - cbn [cox_de_boor B]. destruct Hsp as (A1 & A2 & A3 & A4 & A5).
    assert (Ek : knot kv (Z.to_nat i) = tk kv i) by (rewrite tk_knot'; auto; lia).
    assert (Ek1 : knot kv (S (Z.to_nat i)) = tk kv (i + 1)).
    { rewrite tk_knot' by lia. f_equal. lia. }
    destruct (in_piece_dec kv (Z.to_nat i) u) as [H|H]; destruct (Z.eq_dec i k) as [E|E]; auto; exfalso.
    + apply E. apply (in_span_unique kv i k u Hn); [|repeat split; auto].
      unfold in_piece in H. rewrite Ek, Ek1 in H.
      split; [lia|]. split; [lia|]. destruct H as [H|(H & H' & H'')]; repeat split; auto; try lra.
    + apply H. unfold in_piece. rewrite Ek, Ek1. subst i. destruct A5 as [A5|[A5 A6]]; [left; lra | right; repeat split; auto; lra].
  - cbn [cox_de_boor B].
    rewrite IH by lia. replace (Z.to_nat i + 1)%nat with (Z.to_nat (i + 1)) by lia. rewrite IH by lia.
    rewrite (tk_knot' kv i) by lia. rewrite (tk_knot' kv (i + 1)) by lia.
    rewrite (tk_knot' kv (i + Z.of_nat (S q))) by lia. rewrite (tk_knot' kv (i + Z.of_nat (S q) + 1)) by lia.
    change quotient with quot0.
    replace (Z.to_nat (i + Z.of_nat (S q))) with (Z.to_nat i + S q)%nat by lia.
    replace (Z.to_nat (i + Z.of_nat (S q) + 1)) with (Z.to_nat i + S q + 1)%nat by lia.
    reflexivity.
Qed.

(* ---- one direction of an evaluation ---- *)
Record dir := mkDir { dk : list R; dp : Z; du : R; dsp : Z; dm : Z }.

Definition dfactor (d : dir) (i : Z) : R := DB (tk (dk d)) (dsp d) (Z.to_nat (dm d)) (Z.to_nat (dp d)) i (du d).
Definition dlen (d : dir) : Z := zlen (dk d) - dp d - 1.
Definition drange (d : dir) : list Z := zseq 0 (Z.to_nat (dlen d)).

Section Eval.
Variable dz : R -> R.
Local Notation F := (Rops dz).

Definition good_dir (d : dir) : Prop :=
  good_direction (dk d) (dp d) /\ in_span (dk d) (dsp d) (du d) /\ dp d <= dsp d < zlen (dk d) - dp d - 1 /\
  knot_span (F := F) (dk d) (du d) = Ok (dsp d) /\ 0 <= dm d.

Lemma combine_map {A B C} (f : A -> B) (g : A -> C) l : combine (map f l) (map g l) = map (fun a => (f a, g a)) l.
Proof. induction l; cbn; congruence. Qed.
Lemma map2_map {A B C D} (h : B -> C -> D) (f : A -> B) (g : A -> C) l : map2 h (map f l) (map g l) = map (fun a => h (f a) (g a)) l.
Proof. induction l; cbn; congruence. Qed.
Lemma mapM_map {A B C} (f : B -> Res C) (g : A -> B) l : mapM f (map g l) = mapM (fun a => f (g a)) l.
Proof. induction l as [|a l IH]; cbn; auto. now rewrite IH. Qed.

(* every evaluation has its list of directions *)
Lemma directions knots degs us ders :
  Forall2 good_direction knots degs ->
  Forall2 (fun kv u => (first_knot kv <= u <= final_knot kv)%R) knots us ->
  length ders = length degs -> Forall (fun m => 0 <= m) ders ->
  exists L, Forall good_dir L /\ knots = map dk L /\ degs = map dp L /\ us = map du L /\ ders = map dm L.
Proof.
  intros H. revert us ders. induction H as [|kv p knots degs Hg H IH]; intros us ders Hu Hd Hm.
  - inversion Hu; subst. destruct ders; [|discriminate]. exists []. repeat split; constructor.
  - inversion Hu as [|? u ? us' H3 H4]; subst. destruct ders as [|m ders]; [discriminate|]. inversion Hm; subst.
    destruct (IH us' ders H4 ltac:(now inversion Hd) H5) as (L & HL & E1 & E2 & E3 & E4).
    destruct (eval_direction dz kv p u Hg H3) as (k & Ek & Hsp & Hk1 & Hk2).
    exists (mkDir kv p u k m :: L). cbn [map dk dp du dm]. rewrite <- E1, <- E2, <- E3, <- E4.
    split; [|auto]. constructor; auto. exact (conj Hg (conj Hsp (conj (conj Hk1 Hk2) (conj Ek H2)))). 
Qed.

Definition psL (L : list dir) : pspace F := mkps dz (map dk L) (map dp L).
Definition lensL (L : list dir) : list Z := map dlen L.

Lemma throw_ok L : Forall good_dir L -> throw_if_outside (psL L) (map du L) = Ok tt.
Proof.
  unfold throw_if_outside, psL. cbn [ps_knots mkps]. rnorm. rewrite combine_map.
  induction 1 as [|d L Hd H IH]; cbn [map foldM]; auto.
  cbn [fst snd]. destruct Hd as (Hg & Hsp & _). destruct Hg as (Hp & Hc & Hn & Hs & Hlt). destruct Hsp as (A1 & A2 & A3 & A4 & A5).
  unfold in_range. rnorm. rewrite (vget_nth (dk d) 0 0%R) by zl. cbn [bind nleb Rops].
  assert (Hu : (first_knot (dk d) <= du d <= final_knot (dk d))%R).
  { pose proof (tk_ge_first (dk d) (dsp d) Hn). pose proof (tk_le_final (dk d) (dsp d + 1) Hn). destruct A5; lra. }
  destruct (Rleb_spec (nth (Z.to_nat 0) (dk d) 0%R) (du d)) as [H1|H1].
  2:{ exfalso; apply H1; apply Hu. }
  rewrite last_knot_ok by zl. cbn [bind]. destruct (Rleb_spec (du d) (final_knot (dk d))) as [H2|H2]; [|exfalso; apply H2, Hu].
  cbn [bind]. exact IH.
Qed.

Lemma throw_out knots degs us : length us = length knots -> Forall (fun kv => kv <> []) knots ->
  ~ Forall2 (fun kv u => (first_knot kv <= u <= final_knot kv)%R) knots us ->
  throw_if_outside (mkps dz knots degs) us = Throw RangeError.
Proof.
  unfold throw_if_outside. cbn [ps_knots mkps]. rnorm. revert us.
  induction knots as [|kv knots IH]; intros [|u us] Hl Hne H; try discriminate.
  - exfalso; apply H; constructor.
  - inversion Hne; subst. cbn [combine foldM fst snd]. unfold in_range. rnorm.
    assert (Hlen : 0 < zlen kv) by (destruct kv; [contradiction | unfold zlen; cbn [length]; lia]).
    rewrite (vget_nth kv 0 0%R) by zl. cbn [bind nleb Rops].
    destruct (Rleb_spec (nth (Z.to_nat 0) kv 0%R) u) as [H1|H1]; [|reflexivity].
    rewrite last_knot_ok by zl. cbn [bind].
    destruct (Rleb_spec u (final_knot kv)) as [H4|H4]; [|reflexivity]. cbn [bind].
    apply IH; [now inversion Hl | auto | intros C; apply H; constructor; auto].
Qed.

Lemma first_non_zero_ok L : Forall good_dir L -> first_non_zero (psL L) (map du L) = Ok (map (fun d => dsp d - dp d)%Z L).
Proof.
  intros H. unfold first_non_zero, psL. cbn [ps_knots ps_degs mkps]. rnorm. rewrite !combine_map, mapM_map.
  apply mapM_ok. intros d Hd. rewrite Forall_forall in H. destruct (H d Hd) as (_ & _ & _ & E & _).
  cbn [fst snd]. rewrite E. reflexivity.
Qed.

(* indices reached by an evaluation *)
Definition active (L : list dir) (idx : list Z) : Prop := Forall2 (fun d i => dsp d - dp d <= i <= dsp d) L idx.

Lemma active_box L idx : Forall good_dir L -> active L idx -> in_box (lensL L) idx.
Proof.
  intros H Ha. unfold in_box, lensL. induction Ha as [|d i L idx Hi Ha IH]; cbn [map]; [constructor|].
  inversion H as [|? ? (Hg & Hsp & Hk & _) HL]; subst. destruct Hg as (Hp & _). constructor; auto. unfold dlen. lia.
Qed.

Lemma foldM_prod {A} (f : A -> Res R) (g : A -> R) l v : (forall a, In a l -> f a = Ok (g a)) ->
  foldM (fun v a => (b <- f a ;; Ok (v * b)%R)) l v = Ok (v * fold_right Rmult 1 (map g l))%R.
Proof.
  revert v; induction l as [|a l IH]; intros v H; cbn [foldM map fold_right]; [f_equal; ring|].
  rewrite H by now left. cbn [bind]. rewrite IH by (intros; apply H; now right). f_equal. ring.
Qed.

Lemma basis_derivs_ok L idx : Forall good_dir L -> active L idx ->
  get_basis_function_derivs (psL L) idx (map du L) (map dm L) = Ok (prodf (map dfactor L) idx).
Proof.
  intros H Ha. unfold get_basis_function_derivs, psL. cbn [ps_bfs mkps]. rewrite map2_map. rnorm.
  assert (G : forall v, foldM (fun v x => b <- vget (fst x) (fst (snd x)) ;;
                    Ok (v * bf_deriv (F := F) b (fst (snd (snd x))) (snd (snd (snd x))))%R)
        (combine (map (fun a => mkbfs dz (dk a) (dp a)) L) (combine idx (combine (map du L) (map dm L)))) v
        = Ok (v * prodf (map dfactor L) idx)%R).
  { induction Ha as [|d i L idx Hi Ha IH]; intros v; cbn [map combine foldM prodf]; [f_equal; ring|].
    inversion H as [|? ? Hd HL]; subst. cbn [fst snd].
    destruct Hd as (Hg & Hsp & Hk & E & Hm). pose proof Hg as (Hp & Hc & Hn & Hs & Hlt).
    rewrite mkbfs_get by lia. cbn [bind].
    assert (Eb : bf_deriv (mkbf dz (dk d) i (Z.to_nat (dp d))) (du d) (dm d) = dfactor d i).
    { unfold dfactor. rewrite <- (bf_deriv_piece dz) by (auto; try lia;
        destruct (tk_nondeg (dk d) (dp d) i (dsp d) (du d) Hg Hsp ltac:(lia)); auto).
      now rewrite Z2Nat.id by lia. }
    rewrite Eb. rewrite IH by auto. f_equal. ring. }
  specialize (G 1%R). rewrite Rmult_1_l in G. exact G.
Qed.

Lemma basis_ok L idx : Forall good_dir L -> active L idx -> Forall (fun d => dm d = 0) L ->
  get_basis_functions (psL L) idx (map du L) = Ok (prodf (map dfactor L) idx).
Proof.
  intros H Ha H0. rewrite <- basis_derivs_ok by auto. unfold get_basis_functions, get_basis_function_derivs.
  generalize (n1 : F). cbn [ps_bfs psL mkps]. clear H. rewrite map2_map.
  induction Ha as [|d i L idx Hi Ha IH]; intros v; cbn [map combine foldM]; auto.
  inversion H0 as [|? ? Hm0 HL0]; subst. cbn [fst snd]. destruct (vget _ i); cbn [bind]; auto.
  rewrite Hm0. rewrite bf_deriv_0. apply IH; auto.
Qed.

(* the indices visited by the loop *)
Lemma visited_active L cur : Forall good_dir L -> In cur (visited (map (fun q => q + 1) (map dp L))) ->
  active L (map2 Z.add cur (map (fun d => dsp d - dp d)%Z L)).
Proof.
  intros H Hin.
  assert (Hp : pos_lens (map (fun q => q + 1) (map dp L))).
  { unfold pos_lens. rewrite map_map. apply Forall_forall. intros x Hx. apply in_map_iff in Hx as (d & <- & Hd).
    rewrite Forall_forall in H. destruct (H d Hd) as ((Hp & _) & _). lia. }
  apply visited_In in Hin; auto. clear Hp. unfold in_box in Hin. rewrite map_map in Hin. unfold active.
  revert cur Hin; induction L as [|d L IH]; intros cur Hin; inversion Hin; subst; cbn [map map2]; constructor.
  - lia.
  - inversion H; subst. apply IH; auto.
Qed.

Lemma pos_lens_degs L : Forall good_dir L -> pos_lens (map (fun q => q + 1) (map dp L)).
Proof.
  intros H. unfold pos_lens. rewrite map_map. apply Forall_forall. intros x Hx. apply in_map_iff in Hx as (d & <- & Hd).
  rewrite Forall_forall in H. destruct (H d Hd) as ((Hp & _) & _). lia.
Qed.

(* sum over the visited indices = full tensor sum *)
Lemma tsum_shift (fs : list (Z -> R)) L c :
  length fs = length L ->
  tsum (map (fun fd => fun i => fst fd (i + (dsp (snd fd) - dp (snd fd)))%Z) (combine fs L))
       (map (fun n => zseq 0 (Z.to_nat n)) (map (fun q => q + 1) (map dp L)))
       (fun cur => c (map2 Z.add cur (map (fun d => dsp d - dp d)%Z L))) =
  tsum fs (map (fun d => zseq (dsp d - dp d) (Z.to_nat (dp d + 1))) L) c.
Proof.
  revert fs c; induction L as [|d L IH]; intros [|f fs] c Hl; try discriminate; cbn [combine map tsum map2]; auto.
  set (g := fun j => (f j * tsum fs (map (fun d => zseq (dsp d - dp d) (Z.to_nat (dp d + 1))) L) (fun r => c (j :: r)))%R).
  transitivity (lsum (fun i => g (i + (dsp d - dp d))) (zseq 0 (Z.to_nat (dp d + 1)))).
  - apply lsum_ext. intros i _. cbn [fst snd]. unfold g. f_equal.
    apply (IH fs (fun r => c (i + (dsp d - dp d) :: r))). cbn in Hl; lia.
  - rewrite <- lsum_zseq_shift. now rewrite Z.add_0_l.
Qed.

Lemma prodf_shift (fs : list (Z -> R)) L cur : length fs = length L -> length cur = length L ->
  prodf (map (fun fd => fun i => fst fd (i + (dsp (snd fd) - dp (snd fd)))%Z) (combine fs L)) cur =
  prodf fs (map2 Z.add cur (map (fun d => dsp d - dp d)%Z L)).
Proof.
  revert fs cur; induction L as [|d L IH]; intros [|f fs] [|i cur] H1 H2; try discriminate; cbn [combine map prodf map2]; auto.
  cbn [fst snd]. rewrite IH by (cbn in *; lia). reflexivity.
Qed.

Lemma dfactor_out d i : good_dir d -> ~ (dsp d - dp d <= i <= dsp d) -> dfactor d i = 0%R.
Proof. intros ((Hp & _) & _) H. unfold dfactor. apply DB_outside. lia. Qed.

(* the parameter does not matter here *)
Definition fits (d : dir) : Prop := 0 <= dp d <= dsp d /\ dsp d < zlen (dk d) - dp d - 1.

Lemma pos_lens_fits L : Forall fits L -> pos_lens (map (fun q => q + 1) (map dp L)).
Proof.
  intros H. unfold pos_lens. rewrite map_map. apply Forall_forall. intros x Hx. apply in_map_iff in Hx as (d & <- & Hd).
  rewrite Forall_forall in H. destruct (H d Hd). lia.
Qed.

Lemma visited_sum_fits L c : Forall fits L ->
  lsum (fun cur => let idx := map2 Z.add cur (map (fun d => dsp d - dp d)%Z L) in prodf (map dfactor L) idx * c idx)%R
       (visited (map (fun q => q + 1) (map dp L))) =
  tsum (map dfactor L) (map drange L) c.
Proof.
  intros H. rewrite (lsum_perm _ _ _ (visited_perm _ (pos_lens_fits L H))).
  transitivity (lsum (fun cur => prodf (map (fun fd => fun i => fst fd (i + (dsp (snd fd) - dp (snd fd)))%Z) (combine (map dfactor L) L)) cur *
        c (map2 Z.add cur (map (fun d => dsp d - dp d)%Z L)))%R
        (boxl (map (fun n => zseq 0 (Z.to_nat n)) (map (fun q => q + 1) (map dp L))))).
  { apply lsum_ext. intros cur Hc. cbv zeta. rewrite prodf_shift; auto.
    - now rewrite map_length.
    - apply boxl_length in Hc. rewrite Hc. now rewrite !map_length. }
  rewrite (tsum_boxl _ _ (fun cur => c (map2 Z.add cur (map (fun d => dsp d - dp d)%Z L)))).
  2:{ rewrite !map_length, combine_length, map_length. lia. }
  rewrite tsum_shift by now rewrite map_length.
  apply tsum_range; rewrite ?map_length; auto.
  rewrite combine_map. clear c. induction H as [|d L Hd H IH]; cbn [map]; constructor; auto.
  intros g. cbn [fst snd]. symmetry. unfold drange, dlen. destruct Hd as (Hp & Hk).
  apply lsum_zseq_extend; try lia.
  intros i _ Hi. unfold dfactor. rewrite DB_outside by lia. ring.
Qed.

Lemma good_fits L : Forall good_dir L -> Forall fits L.
Proof. apply Forall_impl. intros d ((Hp & _) & _ & Hk & _). unfold fits. lia. Qed.

Lemma visited_sum L c : Forall good_dir L ->
  lsum (fun cur => let idx := map2 Z.add cur (map (fun d => dsp d - dp d)%Z L) in prodf (map dfactor L) idx * c idx)%R
       (visited (map (fun q => q + 1) (map dp L))) =
  tsum (map dfactor L) (map drange L) c.
Proof. intros H. apply visited_sum_fits. now apply good_fits. Qed.

(* the point accumulator of Evaluate *)
Lemma point_loop {I} (f : I -> Z -> Res R) (g : I -> Z -> R) (l : list I) (dims : list Z) (pt : list R) :
  length pt = length dims -> (forall idx c, In idx l -> In c dims -> f idx c = Ok (g idx c)) ->
  foldM (fun pt idx => mapM (fun x : R * Z => e <- f idx (snd x) ;; Ok (fst x + e)%R) (combine pt dims)) l pt =
  Ok (map2 (fun a c => a + lsum (fun idx => g idx c) l)%R pt dims).
Proof.
  revert pt; induction l as [|idx l IH]; intros pt Hl H; cbn [foldM lsum].
  - f_equal. clear H. revert dims Hl; induction pt as [|a pt IH]; intros [|c dims] Hl; cbn in *; try discriminate; auto.
    rewrite <- IH by lia. f_equal. ring.
  - rewrite (mapM_ok _ (fun x => (fst x + g idx (snd x))%R)).
    2:{ intros [a c] Hx. cbn [fst snd]. rewrite H; [reflexivity | now left | now apply in_combine_r in Hx]. }
    cbn [bind]. rewrite IH.
    + f_equal. clear - Hl. revert dims Hl; induction pt as [|a pt IH]; intros [|c dims] Hl; cbn in *; try discriminate; auto.
      rewrite <- IH by lia. f_equal. ring.
    + rewrite map_length, combine_length. lia.
    + intros; apply H; auto; now right.
Qed.

Lemma map2_repeat_0 (f : Z -> R) dims : map2 (fun a c => a + f c)%R (repeat 0%R (length dims)) dims = map f dims.
Proof. induction dims as [|c dims IH]; cbn; auto. rewrite IH. f_equal. ring. Qed.

Lemma foldM_sum {I} (f : I -> Res R) (g : I -> R) l v : (forall a, In a l -> f a = Ok (g a)) ->
  foldM (fun v a => x <- f a ;; Ok (v + x)%R) l v = Ok (v + lsum g l)%R.
Proof.
  revert v; induction l as [|a l IH]; intros v H; cbn [foldM lsum]; [f_equal; ring|].
  rewrite H by now left. cbn [bind]. rewrite IH by (intros; apply H; now right). f_equal. ring.
Qed.

(* ---- control points and weights of the spline ---- *)
Lemma cp_ok (ph : phys F) idx : 0 <= ph_dim ph -> in_box (ph_npts ph) idx ->
  zlen (ph_cps ph) = ph_dim ph * total (ph_npts ph) ->
  get_control_point ph idx = Ok (map (fun c => nth (Z.to_nat (ph_dim ph * position (ph_npts ph) idx + c)) (ph_cps ph) 0%R)
                                     (zseq 0 (Z.to_nat (ph_dim ph)))).
Proof.
  intros Hd Hb Hl. unfold get_control_point. rewrite position_get1d. apply mapM_ok. intros c Hc. apply zseq_In in Hc.
  pose proof (get1d_range _ _ Hb). apply (vget_nth (A := R)). rnorm. rewrite Hl. nia.
Qed.

Lemma cp_value_ok (s : spline F) idx c : 1 <= ph_dim (sp_ph s) -> in_box (npts_of s) idx ->
  zlen (ph_cps (sp_ph s)) = ph_dim (sp_ph s) * total (npts_of s) -> 0 <= c < ph_dim (sp_ph s) ->
  cp_value s idx c = Ok (coordinate s idx c).
Proof.
  intros Hd Hb Hl Hc. unfold cp_value. rewrite cp_ok by (auto; lia). cbn [bind].
  rewrite (vget_nth (A := R) _ c 0%R) by (unfold zlen; rewrite map_length, zseq_length; lia).
  rewrite (nth_map_in _ _ _ 0) by (rewrite zseq_length; lia). rewrite zseq_nth by lia. unfold coordinate, npts_of.
  rewrite Z2Nat.id by lia. repeat f_equal; lia.
Qed.

Lemma weight_ok (s : spline F) idx : in_box (npts_of s) idx ->
  (forall w, ph_wts (sp_ph s) = Some w -> zlen w = total (npts_of s)) ->
  get_weight (sp_ph s) idx = Ok (weight s idx).
Proof.
  intros Hb Hw. unfold get_weight, weight. destruct (ph_wts (sp_ph s)) as [w|]; [|reflexivity].
  rewrite position_get1d. apply (vget_nth (A := R)). pose proof (Hw w eq_refl) as E; rnorm; rewrite E. apply get1d_range. exact Hb.
Qed.

Lemma homogeneous_ok (s : spline F) idx w c : 1 <= ph_dim (sp_ph s) -> in_box (npts_of s) idx ->
  zlen (ph_cps (sp_ph s)) = ph_dim (sp_ph s) * total (npts_of s) -> ph_wts (sp_ph s) = Some w ->
  zlen w = total (npts_of s) -> 0 <= c <= ph_dim (sp_ph s) ->
  (hcp <- get_homogeneous (sp_ph s) idx ;; vget hcp c) =
  Ok (if Z.eqb c (ph_dim (sp_ph s)) then weight s idx else (coordinate s idx c * weight s idx)%R).
Proof.
  intros Hd Hb Hl Hw Hwl Hc. unfold get_homogeneous. rewrite Hw.
  pose proof (get1d_range _ _ Hb) as Hr. unfold npts_of in *.
  rewrite (mapM_ok _ (fun c => (nth (Z.to_nat (ph_dim (sp_ph s) * get1d (ph_npts (sp_ph s)) idx + c)) (ph_cps (sp_ph s)) 0 *
                               nth (Z.to_nat (get1d (ph_npts (sp_ph s)) idx)) w 0)%R)).
  - cbn [bind]. rewrite (vget_nth (A := R) w _ 0%R) by (rnorm; rewrite Hwl; lia). cbn [bind].
    rewrite (vget_nth (A := R) _ c 0%R) by (unfold zlen; rewrite app_length, map_length, zseq_length; cbn; lia).
    unfold coordinate, weight, npts_of. rewrite Hw, position_get1d. f_equal.
    destruct (Z.eqb_spec c (ph_dim (sp_ph s))) as [E|E].
    + rewrite app_nth2; rewrite map_length, zseq_length; [|lia]. replace (Z.to_nat c - _)%nat with 0%nat by lia. reflexivity.
    + rewrite app_nth1 by (rewrite map_length, zseq_length; lia).
      rewrite (nth_map_in _ _ _ 0) by (rewrite zseq_length; lia). rewrite zseq_nth by lia.
      repeat f_equal; lia.
  - intros c' Hc'. apply zseq_In in Hc'.
    rewrite (vget_nth (A := R) _ _ 0%R) by (rnorm; rewrite Hl; nia). cbn [bind].
    unfold idiv. destruct (Z.eqb_spec (ph_dim (sp_ph s)) 0) as [E|E]; [lia|].
    rewrite Z.mul_comm, Z.quot_mul by lia. cbn [bind].
    rewrite (vget_nth (A := R) w _ 0%R) by (rnorm; rewrite Hwl; lia). cbn [bind nmul Rops]. rewrite (Z.mul_comm (get1d _ _)). reflexivity.
Qed.

(* ---- evaluation ---- *)
Definition wfL (s : spline F) (L : list dir) : Prop :=
  Forall good_dir L /\ sp_ps s = psL L /\ npts_of s = lensL L /\ 1 <= ph_dim (sp_ph s) /\
  zlen (ph_cps (sp_ph s)) = ph_dim (sp_ph s) * total (npts_of s) /\
  (forall w, ph_wts (sp_ph s) = Some w -> zlen w = total (npts_of s)).

Lemma wf_wfL s us ders : well_formed s -> in_domain s us -> length ders = length (degs_of s) ->
  Forall (fun m => 0 <= m) ders ->
  exists L, wfL s L /\ us = map du L /\ ders = map dm L.
Proof.
  intros [H1 H2 H3 H4 H5 H6] Hu Hd Hm.
  destruct (directions _ _ us ders H1 Hu Hd Hm) as (L & HL & E1 & E2 & E3 & E4).
  exists L. split; [|auto]. split; auto. split.
  - unfold psL, mkps. destruct s as [[kn dg bs] ph]. cbn in *. unfold knots_of, degs_of in *. cbn in *. rewrite <- E1, <- E2. f_equal.
    assert (Hlens : lens_ok kn dg).
    { unfold lens_ok. clear - H1. induction H1 as [|kv p l1 l2 (A & (B & _) & _) _ IH]; constructor; auto. zl. }
    pose proof (create_bases_ok dz kn dg Hlens) as E. assert (E5 : Ok bs = Ok (map2 (mkbfs dz) kn dg)) by (rewrite <- E; symmetry; exact H2). now inversion E5.
  - split; auto. rewrite H3, E1, E2, map2_map. reflexivity.
Qed.

Lemma weight_sum_ok s L : wfL s L -> Forall (fun d => dm d = 0) L ->
  weight_sum s (map du L) = Ok (tsum (map dfactor L) (map drange L) (weight s)).
Proof.
  intros (HL & Eps & En & Hd & Hcps & Hw) H0. unfold weight_sum. rewrite Eps, first_non_zero_ok by auto. cbn [bind].
  rewrite mih_loop_visited. cbn [mcur]. unfold num_to_evaluate. rewrite Eps. cbn [psL mkps ps_degs].
  erewrite (foldM_sum (fun idx => evaluated_weight s (map du L) (map2 Z.add idx (map (fun d => dsp d - dp d)%Z L)))).
  2:{ intros cur Hc. pose proof (visited_active L cur HL Hc) as Ha.
      unfold evaluated_weight. rewrite Eps, basis_ok by auto. cbn [bind]. rewrite weight_ok.
      - cbn [bind nmul Rops]. reflexivity.
      - rewrite En. now apply active_box.
      - auto. }
  cbn [n0 Rops]. rewrite Rplus_0_l. f_equal. apply (visited_sum L (weight s) HL).
Qed.

Lemma deriv_weight_sum_ok s L : wfL s L ->
  deriv_weight_sum s (map du L) (map dm L) = Ok (tsum (map dfactor L) (map drange L) (weight s)).
Proof.
  intros (HL & Eps & En & Hd & Hcps & Hw). unfold deriv_weight_sum. rewrite Eps, first_non_zero_ok by auto. cbn [bind].
  rewrite mih_loop_visited. cbn [mcur]. unfold num_to_evaluate. rewrite Eps. cbn [psL mkps ps_degs].
  erewrite (foldM_sum (fun idx => evaluated_deriv_weight s (map du L) (map dm L) (map2 Z.add idx (map (fun d => dsp d - dp d)%Z L)))).
  2:{ intros cur Hc. pose proof (visited_active L cur HL Hc) as Ha.
      unfold evaluated_deriv_weight. rewrite Eps, basis_derivs_ok by auto. cbn [bind]. rewrite weight_ok.
      - cbn [bind nmul Rops]. reflexivity.
      - rewrite En. now apply active_box.
      - auto. }
  cbn [n0 Rops]. rewrite Rplus_0_l. f_equal. apply (visited_sum L (weight s) HL).
Qed.

Definition Wsum s L : R := tsum (map dfactor L) (map drange L) (weight (dz := dz) s).
Definition Asum s L (c : Z) : R := tsum (map dfactor L) (map drange L) (fun idx => weight (dz := dz) s idx * coordinate s idx c)%R.

Lemma evaluate_bspline_ok s L dims : wfL s L -> is_bspline s -> Forall (fun d => dm d = 0) L -> valid_dims s dims ->
  evaluate s (map du L) dims = Ok (map (Asum s L) dims).
Proof.
  intros (HL & Eps & En & Hd & Hcps & Hw) Hb H0 Hv. unfold evaluate. rewrite Eps, throw_ok by auto. cbn [bind].
  rewrite first_non_zero_ok by auto. cbn [bind].
  rewrite mih_loop_visited. cbn [mcur]. unfold num_to_evaluate. rewrite Eps. cbn [psL mkps ps_degs].
  rnorm. rewrite (point_loop (fun idx c => evaluated_control_point s (map du L) (map2 Z.add idx (map (fun d => dsp d - dp d)%Z L)) c)
                      (fun cur c => let idx := map2 Z.add cur (map (fun d => dsp d - dp d)%Z L) in
                         (prodf (map dfactor L) idx * (weight s idx * coordinate s idx c))%R)).
  - f_equal. rewrite map2_repeat_0. apply map_ext. intros c. unfold Asum.
    apply (visited_sum L (fun idx => weight s idx * coordinate s idx c)%R HL).
  - now rewrite repeat_length.
  - intros cur c Hc Hin. pose proof (visited_active L cur HL Hc) as Ha.
    unfold evaluated_control_point. rewrite Eps, basis_ok by auto. cbn [bind]. rewrite Hb.
    rewrite cp_value_ok; auto.
    + cbn [bind nmul Rops]. f_equal. unfold weight. rewrite Hb. cbv zeta. ring.
    + rewrite En. now apply active_box.
    + unfold valid_dims in Hv; rewrite Forall_forall in Hv. auto.
Qed.

Lemma evaluate_nurbs_ok s L dims w : wfL s L -> ph_wts (sp_ph s) = Some w -> Forall (fun d => dm d = 0) L -> valid_dims s dims ->
  Wsum s L <> 0%R ->
  evaluate s (map du L) dims = Ok (map (fun c => Asum s L c / Wsum s L)%R dims).
Proof.
  intros HwfL Hb H0 Hv HW. pose proof HwfL as (HL & Eps & En & Hd & Hcps & Hw).
  unfold evaluate. rewrite Eps, throw_ok by auto. cbn [bind].
  rewrite first_non_zero_ok by auto. cbn [bind].
  rewrite mih_loop_visited. cbn [mcur]. unfold num_to_evaluate. rewrite Eps. cbn [psL mkps ps_degs].
  rnorm. rewrite (point_loop (fun idx c => evaluated_control_point s (map du L) (map2 Z.add idx (map (fun d => dsp d - dp d)%Z L)) c)
                      (fun cur c => let idx := map2 Z.add cur (map (fun d => dsp d - dp d)%Z L) in
                         (prodf (map dfactor L) idx * (/ Wsum s L * (weight s idx * coordinate s idx c)))%R)).
  - f_equal. rewrite map2_repeat_0. apply map_ext. intros c.
    rewrite (visited_sum L (fun idx => / Wsum s L * (weight s idx * coordinate s idx c))%R HL).
    rewrite tsum_scal. unfold Asum, Rdiv. ring.
  - now rewrite repeat_length.
  - intros cur c Hc Hin. pose proof (visited_active L cur HL Hc) as Ha.
    unfold evaluated_control_point. rewrite Eps, basis_ok by auto. cbn [bind]. rewrite Hb.
    assert (Hc' : 0 <= c < ph_dim (sp_ph s)) by (unfold valid_dims in Hv; rewrite Forall_forall in Hv; auto).
    pose proof (homogeneous_ok s (map2 Z.add cur (map (fun d => dsp d - dp d)%Z L)) w c Hd) as Hh.
    rewrite En in Hh at 1. specialize (Hh (active_box L _ HL Ha) Hcps Hb (Hw w Hb) ltac:(lia)).
    destruct (get_homogeneous (sp_ph s) _) as [hcp| |]; cbn [bind] in *; try discriminate.
    rewrite Hh. cbn [bind]. unfold sp_pdim. rewrite Z.eqb_sym.
    destruct (Z.eqb_spec c (ph_dim (sp_ph s))) as [E|E]; [lia|].
    rewrite weight_sum_ok by auto. cbn [bind]. fold (Wsum s L). rewrite ndiv_R by auto. cbn [nmul Rops]. f_equal.
    cbv zeta. field. auto.
Qed.

End Eval.
