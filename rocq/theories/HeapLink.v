(* The member functions as programs compute what the functions of the value model compute. *)
From Coq Require Import ZArith List Bool Lia.
From Verif Require Import Base MultiIndex KnotVec Basis Spaces SplineEval SplineEdit SplineDegree Heap HeapSpec.
Import ListNotations.
Open Scope Z_scope.

Section HeapLink.
Context {F : NumOps}.
Implicit Types (s : spline F).

Definition outcome {A} (r : Res A * spline F) : Res (A * spline F) :=
  match fst r with Ok a => Ok (a, snd r) | Throw e => Throw e | UB => UB end.

Lemma bind_assoc : forall A B C (m : Res A) (f : A -> Res B) (g : B -> Res C),
  bind (bind m f) g = bind m (fun a => bind (f a) g).
Proof. intros; destruct m; reflexivity. Qed.
Lemma bind_ext : forall A B (m : Res A) (f g : A -> Res B), (forall a, f a = g a) -> bind m f = bind m g.
Proof. intros; destruct m; simpl; auto. Qed.
Lemma outcome_bind : forall A B (m : prog F A) (f : A -> prog F B) s,
  outcome (run_v (pbind m f) s) = bind (outcome (run_v m s)) (fun x => outcome (run_v (f (fst x)) (snd x))).
Proof.
  induction m as [r|k IH|u d k IH|u d k IH|d delta k IH|ph k IH]; intros f s; simpl; auto.
  - destruct r; reflexivity.
  - destruct (ps_insert (sp_ps s) u d); simpl; auto.
  - destruct (ps_remove (sp_ps s) u d); simpl; auto.
  - destruct (ps_change_degree (sp_ps s) d delta); simpl; auto.
Qed.
Lemma outcome_see : forall B (f : spline F -> prog F B) s, outcome (run_v (pbind see f) s) = outcome (run_v (f s) s).
Proof. reflexivity. Qed.
Lemma outcome_res : forall A B (r : Res A) (f : A -> prog F B) s,
  outcome (run_v (pbind (PRes r) f) s) = bind r (fun a => outcome (run_v (f a) s)).
Proof. intros; destruct r; reflexivity. Qed.
Lemma outcome_phys : forall A ph (k : prog F A) s, outcome (run_v (PPhys ph k) s) = outcome (run_v k (with_ph s ph)).
Proof. reflexivity. Qed.
Lemma outcome_ins : forall A u d (k : prog F A) s,
  outcome (run_v (PIns u d k) s) = bind (ps_insert (sp_ps s) u d) (fun ps => outcome (run_v k (with_ps s ps))).
Proof. intros; simpl. destruct (ps_insert (sp_ps s) u d); reflexivity. Qed.
Lemma outcome_rem : forall A u d (k : prog F A) s,
  outcome (run_v (PRem u d k) s) = bind (ps_remove (sp_ps s) u d) (fun ps => outcome (run_v k (with_ps s ps))).
Proof. intros; simpl. destruct (ps_remove (sp_ps s) u d); reflexivity. Qed.
Lemma outcome_deg : forall A d delta (k : prog F A) s,
  outcome (run_v (PDeg d delta k) s) = bind (ps_change_degree (sp_ps s) d delta) (fun ps => outcome (run_v k (with_ps s ps))).
Proof. intros; simpl. destruct (ps_change_degree (sp_ps s) d delta); reflexivity. Qed.
Lemma outcome_ret : forall A (r : Res A) s, outcome (run_v (PRes r) s) = bind r (fun a => Ok (a, s)).
Proof. intros; destruct r; reflexivity. Qed.

Lemma inserts_link : forall n i u d s,
  outcome (run_v (pfor n i (fun _ _ => PIns u d (PRes (Ok tt))) tt) s) =
  bind (for_n n i (fun _ p => ps_insert p u d) (sp_ps s)) (fun ps => Ok (tt, with_ps s ps)).
Proof.
  induction n as [|n IH]; intros i u d s; simpl.
  - unfold outcome. simpl. destruct s; reflexivity.
  - destruct (ps_insert (sp_ps s) u d) as [ps|e|]; simpl; auto. rewrite IH. simpl. reflexivity.
Qed.
Lemma insert_link : forall s u d mult,
  outcome (run_v (insert_p u d mult) s) = bind (insert_knot s u d mult) (fun s' => Ok (tt, s')).
Proof.
  intros s u d mult. unfold insert_p, insert_knot. rewrite outcome_see, outcome_res.
  rewrite !bind_assoc. apply bind_ext; intros kv. rewrite !bind_assoc. apply bind_ext; intros k.
  rewrite !bind_assoc. apply bind_ext; intros deg. rewrite !bind_assoc. apply bind_ext; intros st.
  cbn [bind]. rewrite outcome_phys, inserts_link. unfold for_up. rewrite bind_assoc. simpl sp_ps.
  apply bind_ext; intros ps. reflexivity.
Qed.
Lemma refine_link : forall us s d,
  outcome (run_v (refine_p us d) s) = bind (refine_knots s us d) (fun s' => Ok (tt, s')).
Proof.
  induction us as [|u us IH]; intros s d.
  - reflexivity.
  - cbn [refine_p]. rewrite outcome_bind, insert_link. unfold refine_knots. cbn [foldM]. rewrite !bind_assoc.
    apply bind_ext; intros s'. cbn [bind fst snd]. apply IH.
Qed.
Lemma remove_loop_link : forall n s u d tol,
  outcome (run_v (remove_loop_p n u d tol) s) = remove_knot_loop n s u d tol.
Proof.
  induction n as [|n IH]; intros s u d tol; [reflexivity|].
  cbn [remove_loop_p remove_knot_loop]. rewrite outcome_see, outcome_res. unfold remove_knot_once.
  rewrite !bind_assoc. apply bind_ext; intros kv. rewrite !bind_assoc. apply bind_ext; intros k.
  rewrite !bind_assoc. apply bind_ext; intros deg. cbv zeta. rewrite !bind_assoc. apply bind_ext; intros sc.
  rewrite !bind_assoc. apply bind_ext; intros r. destruct r as [ph|]; [|reflexivity].
  rewrite outcome_phys, outcome_rem, bind_assoc. simpl sp_ps. apply bind_ext; intros ps.
  rewrite outcome_bind, IH. cbn [bind]. apply bind_ext; intros [c s']. reflexivity.
Qed.
Lemma remove_link : forall s u d tol mult,
  outcome (run_v (remove_p u d tol mult) s) = remove_knot s u d tol mult.
Proof. intros; apply remove_loop_link. Qed.

Lemma produce_loop_link : forall d n i c diff s,
  outcome (run_v (pfor n i (fun i '(c, diff) =>
    pbind see (fun s' =>
    pbind (PRes (kv' <- sp_knots s' d ;; r <- run_length (S (length kv')) kv' c ;;
                 di <- vget diff i ;; diff' <- vset diff i (di - r) ;; u <- get_knot kv' (c + r) ;;
                 Ok (r, di, diff', u))) (fun '(r, di, diff', u) =>
    pbind (insert_p u d (u64 (di - r))) (fun _ => PRes (Ok (c + r + (di - r) + 1, diff')))))) (c, diff)) s) =
  bind (for_n n i (fun i st =>
          let '(c, diff, s') := st in
          kv' <- sp_knots s' d ;;
          r <- run_length (S (length kv')) kv' c ;;
          let c1 := c + r in
          di <- vget diff i ;;
          diff' <- vset diff i (di - r) ;;
          u <- get_knot kv' c1 ;;
          s'' <- insert_knot s' u d (u64 (di - r)) ;;
          Ok (c1 + (di - r) + 1, diff', s'')) (c, diff, s)) (fun st => Ok (fst st, snd st)).
Proof.
  intros d n. induction n as [|n IH]; intros i c diff s; [reflexivity|].
  cbn [pfor for_n]. rewrite outcome_bind, outcome_see, outcome_res, !bind_assoc.
  apply bind_ext; intros kv'. rewrite !bind_assoc. apply bind_ext; intros r. cbv zeta.
  rewrite !bind_assoc. apply bind_ext; intros di. rewrite !bind_assoc. apply bind_ext; intros diff'.
  rewrite !bind_assoc. apply bind_ext; intros u. cbn [bind].
  rewrite outcome_bind, insert_link, !bind_assoc. apply bind_ext; intros s''.
  cbn [bind]. rewrite outcome_ret. cbn [bind fst snd]. apply IH.
Qed.
Lemma produce_link : forall s d, outcome (run_v (produce_p d) s) = produce_bezier s d.
Proof.
  intros s d. unfold produce_p, produce_bezier. rewrite outcome_see, outcome_res, !bind_assoc.
  apply bind_ext; intros deg. rewrite !bind_assoc. apply bind_ext; intros kv. rewrite !bind_assoc.
  apply bind_ext; intros diff0. cbn [bind]. rewrite outcome_bind, produce_loop_link, bind_assoc.
  unfold for_up. apply bind_ext; intros [[c diff] s']. reflexivity.
Qed.
Lemma remove_bezier_loop_link : forall fuel s d diff i c,
  outcome (run_v (remove_bezier_loop_p fuel d diff i c) s) =
  bind (remove_bezier_loop fuel s d diff i c) (fun s' => Ok (tt, s')).
Proof.
  induction fuel as [|fuel IH]; intros s d diff i c; cbn [remove_bezier_loop_p remove_bezier_loop];
    rewrite outcome_see, outcome_res, !bind_assoc; apply bind_ext; intros kv;
    destruct (i <? num_different kv - 2); try reflexivity.
  rewrite outcome_res, !bind_assoc. apply bind_ext; intros u. rewrite !bind_assoc. apply bind_ext; intros di.
  cbn [bind]. rewrite outcome_bind, remove_link, !bind_assoc. apply bind_ext; intros [cnt s'].
  cbn [fst snd]. rewrite outcome_see, outcome_res, !bind_assoc. apply bind_ext; intros kv'.
  rewrite !bind_assoc. apply bind_ext; intros r. apply IH.
Qed.
Lemma remove_bezier_link : forall s d diff,
  outcome (run_v (remove_bezier_p d diff) s) = bind (remove_bezier s d diff) (fun s' => Ok (tt, s')).
Proof.
  intros s d diff. unfold remove_bezier_p, remove_bezier. rewrite outcome_see, outcome_res, !bind_assoc.
  apply bind_ext; intros deg. rewrite !bind_assoc. apply bind_ext; intros kv. cbn [bind].
  apply remove_bezier_loop_link.
Qed.
Lemma set_segments_link : forall s d segs,
  outcome (run_v (set_segments_p d segs) s) = bind (set_segments s d segs) (fun s' => Ok (tt, s')).
Proof.
  intros s d segs. unfold set_segments_p. rewrite outcome_see, outcome_res. unfold set_segments.
  rewrite !bind_assoc. apply bind_ext; intros deg. cbv zeta. rewrite !bind_assoc. apply bind_ext; intros ph'.
  reflexivity.
Qed.
Lemma fold_ins_link : forall uk d s,
  outcome (run_v (fold_right (fun u k => PIns u d k) (PRes (Ok tt)) uk) s) =
  bind (foldM (fun p u => ps_insert p u d) uk (sp_ps s)) (fun ps => Ok (tt, with_ps s ps)).
Proof.
  induction uk as [|u uk IH]; intros d s.
  - destruct s; reflexivity.
  - cbn [fold_right foldM]. rewrite outcome_ins, bind_assoc. apply bind_ext; intros ps. rewrite IH. reflexivity.
Qed.
Lemma fold_rem_link : forall uk d s,
  outcome (run_v (fold_right (fun u k => PRem u d k) (PRes (Ok tt)) uk) s) =
  bind (foldM (fun p u => ps_remove p u d) uk (sp_ps s)) (fun ps => Ok (tt, with_ps s ps)).
Proof.
  induction uk as [|u uk IH]; intros d s.
  - destruct s; reflexivity.
  - cbn [fold_right foldM]. rewrite outcome_rem, bind_assoc. apply bind_ext; intros ps. rewrite IH. reflexivity.
Qed.
Lemma increment_link : forall d s,
  outcome (run_v (all_knots_p PIns d) s) = bind (ps_increment_all (sp_ps s) d) (fun ps => Ok (tt, with_ps s ps)).
Proof.
  intros d s. unfold all_knots_p, ps_increment_all, sp_knots. rewrite outcome_see, outcome_res, !bind_assoc.
  apply bind_ext; intros kv. cbv zeta. destruct (num_different kv <? zlen (unique_copy kv)); [reflexivity|].
  cbn [bind]. apply fold_ins_link.
Qed.
Lemma decrement_link : forall d s,
  outcome (run_v (all_knots_p PRem d) s) = bind (ps_decrement_all (sp_ps s) d) (fun ps => Ok (tt, with_ps s ps)).
Proof.
  intros d s. unfold all_knots_p, ps_decrement_all, sp_knots. rewrite outcome_see, outcome_res, !bind_assoc.
  apply bind_ext; intros kv. cbv zeta. destruct (num_different kv <? zlen (unique_copy kv)); [reflexivity|].
  cbn [bind]. apply fold_rem_link.
Qed.
Lemma elevate_link : forall s d,
  outcome (run_v (elevate_p d) s) = bind (elevate_degree s d) (fun s' => Ok (tt, s')).
Proof.
  intros s d. unfold elevate_p, elevate_degree. rewrite outcome_see, outcome_res, !bind_assoc.
  apply bind_ext; intros kv0. rewrite !bind_assoc. apply bind_ext; intros deg. cbn [bind]. cbv zeta.
  rewrite outcome_bind, produce_link, bind_assoc. apply bind_ext; intros [diff s1]. cbn [fst snd].
  rewrite outcome_see, outcome_res, !bind_assoc. apply bind_ext; intros lines.
  rewrite !bind_assoc. apply bind_ext; intros segs. rewrite !bind_assoc. apply bind_ext; intros kv1.
  rewrite !bind_assoc. apply bind_ext; intros lens. rewrite !bind_assoc. apply bind_ext; intros n. cbn [bind].
  rewrite outcome_phys, outcome_deg, bind_assoc. simpl sp_ps. apply bind_ext; intros ps2.
  rewrite outcome_bind, increment_link, !bind_assoc. simpl sp_ps. apply bind_ext; intros ps3. cbn [bind fst snd].
  rewrite outcome_bind, set_segments_link, !bind_assoc. apply bind_ext; intros s4. cbn [bind fst snd].
  apply remove_bezier_link.
Qed.
Lemma reduce_link : forall s d tol, outcome (run_v (reduce_p d tol) s) = reduce_degree s d tol.
Proof.
  intros s d tol. unfold reduce_p, reduce_degree. rewrite outcome_see, outcome_res.
  apply bind_ext; intros deg. rewrite outcome_bind, produce_link. apply bind_ext; intros [diff s1]. cbn [fst snd].
  rewrite outcome_see, outcome_res, !bind_assoc. apply bind_ext; intros kv1. cbv zeta.
  rewrite !bind_assoc. apply bind_ext; intros lines. rewrite !bind_assoc. apply bind_ext; intros r. cbn [bind].
  destruct r as [segs|].
  - rewrite outcome_res, !bind_assoc. apply bind_ext; intros lens. rewrite !bind_assoc. apply bind_ext; intros n.
    apply bind_ext; intros ph3. rewrite outcome_phys, outcome_deg. simpl sp_ps. apply bind_ext; intros ps2.
    rewrite outcome_bind, decrement_link, !bind_assoc. simpl sp_ps. apply bind_ext; intros ps3. cbn [bind fst snd].
    rewrite outcome_bind, set_segments_link, !bind_assoc. apply bind_ext; intros s4. cbn [bind fst snd].
    rewrite outcome_bind, remove_bezier_link, !bind_assoc. apply bind_ext; intros s5. reflexivity.
  - rewrite outcome_bind, remove_bezier_link, !bind_assoc. apply bind_ext; intros s5. reflexivity.
Qed.
End HeapLink.
