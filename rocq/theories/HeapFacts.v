From Coq Require Import ZArith List Bool Lia.
From Verif Require Import Base MultiIndex KnotVec Basis Spaces SplineEval SplineEdit SplineDegree Heap HeapSpec.
Import ListNotations.

Section Lists.
Context {A : Type}.
Lemma upd_same : forall (l : list A) n a, (n < length l)%nat -> nth_error (upd l n a) n = Some a.
Proof. induction l; intros [|n] x H; simpl in *; try lia; auto; apply IHl; lia. Qed.
Lemma upd_other : forall (l : list A) n m a, n <> m -> nth_error (upd l n a) m = nth_error l m.
Proof. induction l; intros [|n] [|m] x H; simpl; auto; try congruence; apply IHl; congruence. Qed.
Lemma upd_len : forall (l : list A) n a, length (upd l n a) = length l.
Proof. induction l; intros [|n] x; simpl; auto. Qed.
Lemma dget_some : forall (l : list A) n a, dget l n = Ok a <-> nth_error l n = Some a.
Proof. unfold dget; intros; destruct (nth_error l n); split; congruence. Qed.
Lemma dget_cong : forall (l l' : list A) n, nth_error l n = nth_error l' n -> dget l n = dget l' n.
Proof. unfold dget; intros; rewrite H; reflexivity. Qed.
End Lists.

Lemma mapM_dget_cong : forall {A} (l l' : list A) ks,
  (forall k, In k ks -> nth_error l k = nth_error l' k) -> mapM (dget l) ks = mapM (dget l') ks.
Proof.
  induction ks as [|k ks IH]; intros H; simpl; auto.
  rewrite (dget_cong l l' k) by (apply H; simpl; auto). rewrite IH; auto. intros; apply H; simpl; auto.
Qed.
Lemma mapM_dget_upd : forall {A} (l : list A) ks vs d k v,
  NoDup ks -> mapM (dget l) ks = Ok vs -> nth_error ks d = Some k ->
  mapM (dget (upd l k v)) ks = Ok (upd vs d v).
Proof.
  induction ks as [|k0 ks IH]; intros vs d k v ND E N; [destruct d; discriminate|].
  inversion ND as [|? ? NI ND']; subst. simpl in E.
  destruct (dget l k0) as [a|e|] eqn:D; simpl in E; try discriminate.
  destruct (mapM (dget l) ks) as [r|e|] eqn:M; simpl in E; try discriminate. inversion E; subst; clear E.
  destruct d as [|d]; simpl in N.
  - inversion N; subst. simpl. assert (L : dget (upd l k v) k = Ok v).
    { apply dget_some, upd_same. apply dget_some in D. apply nth_error_Some. congruence. }
    rewrite L. simpl. rewrite (mapM_dget_cong (upd l k v) l ks); [rewrite M; reflexivity|].
    intros x Hx. apply upd_other. intros ->. contradiction.
  - simpl. rewrite (dget_cong (upd l k v) l k0).
    + rewrite D. simpl. rewrite (IH r d k v ND' eq_refl N). reflexivity.
    + apply upd_other. intros ->. apply NI. eapply nth_error_In; eauto.
Qed.
Lemma mapM_dget_nth : forall {A} (l : list A) ks vs d, mapM (dget l) ks = Ok vs ->
  dget vs d = match nth_error ks d with Some k => dget l k | None => UB end.
Proof.
  induction ks as [|k0 ks IH]; intros vs d E; simpl in E.
  - inversion E; subst. destruct d; reflexivity.
  - destruct (dget l k0) as [a|e|] eqn:D; simpl in E; try discriminate.
    destruct (mapM (dget l) ks) as [r|e|] eqn:M; simpl in E; try discriminate. inversion E; subst.
    destruct d; simpl; [unfold dget at 1; simpl; auto|]. apply (IH r d eq_refl).
Qed.

Section HeapFacts.
Context {F : NumOps}.
Implicit Types (h : heap F) (o a b : obj).

(* what a call on [o] may touch *)
Definition touches h o h' : Prop :=
  (forall l, l <> o_ps o -> nth_error (h_ps h') l = nth_error (h_ps h) l) /\
  (forall l, option_map (@pc_knots F) (nth_error (h_ps h') l) = option_map (@pc_knots F) (nth_error (h_ps h) l)) /\
  (forall k, ~ In k (knots_at h o) -> nth_error (h_kv h') k = nth_error (h_kv h) k) /\
  (forall q, q <> o_ph o -> nth_error (h_ph h') q = nth_error (h_ph h) q).

Lemma knots_at_touches : forall h o h' b, touches h o h' -> knots_at h' b = knots_at h b.
Proof.
  intros h o h' b (_ & K & _). specialize (K (o_ps b)). unfold knots_at.
  destruct (nth_error (h_ps h') (o_ps b)), (nth_error (h_ps h) (o_ps b)); simpl in K; congruence.
Qed.
Lemma touches_refl : forall h o, touches h o h.
Proof. intros; repeat split; auto. Qed.
Lemma touches_trans : forall h o h1 h2, touches h o h1 -> touches h1 o h2 -> touches h o h2.
Proof.
  intros h o h1 h2 T1 T2. pose proof (knots_at_touches _ _ _ o T1) as K.
  destruct T1 as (A1 & B1 & C1 & D1), T2 as (A2 & B2 & C2 & D2).
  repeat split; intros.
  - rewrite A2, A1; auto.
  - rewrite B2, B1; auto.
  - rewrite C2, C1; auto. rewrite K; auto.
  - rewrite D2, D1; auto.
Qed.
Lemma cell_touches : forall h o c kvs degs bs phs,
  nth_error (h_ps h) (o_ps o) = Some c ->
  (forall k, ~ In k (pc_knots c) -> nth_error kvs k = nth_error (h_kv h) k) ->
  (forall q, q <> o_ph o -> nth_error phs q = nth_error (h_ph h) q) ->
  touches h o (mkHeap kvs (upd (h_ps h) (o_ps o) (mkPC (pc_knots c) degs bs)) phs).
Proof.
  intros h o c kvs degs bs phs E K Q. repeat split; simpl; auto.
  - intros l N. apply upd_other. auto.
  - intros l. destruct (Nat.eq_dec (o_ps o) l) as [<-|N].
    + rewrite upd_same, E; auto. apply nth_error_Some. congruence.
    + rewrite upd_other; auto.
  - unfold knots_at. rewrite E. auto.
Qed.
Lemma edit_touches : forall f h o d h', h_edit f h (o_ps o) d = Ok h' -> touches h o h'.
Proof.
  unfold h_edit; intros f h o d h' E.
  destruct (dget (h_ps h) (o_ps o)) as [c|e|] eqn:C; simpl in E; try discriminate.
  destruct (dget (pc_knots c) d) as [k|e|] eqn:K; simpl in E; try discriminate.
  destruct (dget (h_kv h) k) as [kv|e|] eqn:V; simpl in E; try discriminate.
  destruct (f kv) as [kv'|e|]; simpl in E; try discriminate.
  destruct (mapM (dget (upd (h_kv h) k kv')) (pc_knots c)) as [ks|e|]; simpl in E; try discriminate.
  destruct (create_bases ks (pc_degs c)) as [bs|e|]; simpl in E; try discriminate.
  inversion E; subst. apply dget_some in C, K. apply cell_touches; auto.
  intros x Hx. apply upd_other. intros ->. apply Hx. eapply nth_error_In; eauto.
Qed.
Lemma degree_touches : forall h o d delta h', h_degree h (o_ps o) d delta = Ok h' -> touches h o h'.
Proof.
  unfold h_degree; intros h o d delta h' E.
  destruct (dget (h_ps h) (o_ps o)) as [c|e|] eqn:C; simpl in E; try discriminate.
  destruct (dget (pc_degs c) d) as [q|e|]; simpl in E; try discriminate.
  destruct (mapM (dget (h_kv h)) (pc_knots c)) as [ks|e|]; simpl in E; try discriminate.
  destruct (create_bases ks _) as [bs|e|]; simpl in E; try discriminate.
  inversion E; subst. apply dget_some in C. apply cell_touches; auto.
Qed.
Lemma phys_touches : forall h o ph h', h_set_ph h (o_ph o) ph = Ok h' -> touches h o h'.
Proof.
  unfold h_set_ph; intros h o ph h' E.
  destruct (dget (h_ph h) (o_ph o)) as [x|e|]; simpl in E; try discriminate. inversion E; subst.
  repeat split; simpl; auto. intros q N. apply upd_other. auto.
Qed.
Lemma run_touches : forall A (p : prog F A) h o, touches h o (snd (run_h p h o)).
Proof.
  induction p as [r|k IH|u d k IH|u d k IH|d delta k IH|ph k IH]; intros h o; simpl.
  - apply touches_refl.
  - destruct (view h o); simpl; auto using touches_refl.
  - destruct (h_insert h (o_ps o) u d) as [h'|e|] eqn:E; simpl; auto using touches_refl.
    eapply touches_trans; [eapply edit_touches; exact E|apply IH].
  - destruct (h_remove h (o_ps o) u d) as [h'|e|] eqn:E; simpl; auto using touches_refl.
    eapply touches_trans; [eapply edit_touches; exact E|apply IH].
  - destruct (h_degree h (o_ps o) d delta) as [h'|e|] eqn:E; simpl; auto using touches_refl.
    eapply touches_trans; [eapply degree_touches; exact E|apply IH].
  - destruct (h_set_ph h (o_ph o) ph) as [h'|e|] eqn:E; simpl; auto using touches_refl.
    eapply touches_trans; [eapply phys_touches; exact E|apply IH].
Qed.

(* the view of an object depends on its own cells only *)
Lemma view_cong : forall h h' b,
  nth_error (h_ps h') (o_ps b) = nth_error (h_ps h) (o_ps b) ->
  nth_error (h_ph h') (o_ph b) = nth_error (h_ph h) (o_ph b) ->
  (forall k, In k (knots_at h b) -> nth_error (h_kv h') k = nth_error (h_kv h) k) ->
  view h' b = view h b.
Proof.
  intros h h' b A B C. unfold view, view_ps. rewrite (dget_cong _ _ _ A), (dget_cong _ _ _ B).
  unfold knots_at in C. destruct (dget (h_ps h) (o_ps b)) as [c|e|] eqn:D; simpl; auto.
  apply dget_some in D. rewrite D in C. rewrite (mapM_dget_cong (h_kv h') (h_kv h)); auto.
Qed.
Lemma frame : forall A (p : prog F A) h a b, separate h a b ->
  view (snd (run_h p h a)) b = view h b.
Proof.
  intros A p h a b (P & Q & K). destruct (run_touches A p h a) as (T1 & _ & T3 & T4).
  apply view_cong; auto. intros k I. apply T3. intros J. apply (K k J I).
Qed.
Lemma separate_touches : forall h h' o a b, touches h o h' -> separate h a b -> separate h' a b.
Proof.
  intros h h' o a b T (P & Q & K). repeat split; auto.
  intros k. rewrite !(knots_at_touches _ _ _ _ T). apply K.
Qed.
Lemma separate_sym : forall h a b, separate h a b -> separate h b a.
Proof. intros h a b (P & Q & K). repeat split; auto. intros k I J. apply (K k J I). Qed.

(* the primitives agree with those of the value model *)
Lemma view_inv : forall h o s, view h o = Ok s -> exists c ph ks,
  nth_error (h_ps h) (o_ps o) = Some c /\ nth_error (h_ph h) (o_ph o) = Some ph /\
  mapM (dget (h_kv h)) (pc_knots c) = Ok ks /\ s = mkSpline (F := F) (mkPS (F := F) ks (pc_degs c) (pc_bfs c)) ph.
Proof.
  unfold view, view_ps; intros h o s E.
  destruct (dget (h_ps h) (o_ps o)) as [c|e|] eqn:C; simpl in E; try discriminate.
  destruct (mapM (dget (h_kv h)) (pc_knots c)) as [ks|e|] eqn:M; simpl in E; try discriminate.
  destruct (dget (h_ph h) (o_ph o)) as [ph|e|] eqn:Q; simpl in E; try discriminate.
  inversion E; subst. apply dget_some in C, Q. exists c, ph, ks. auto.
Qed.
Lemma view_intro : forall h o c ph ks,
  nth_error (h_ps h) (o_ps o) = Some c -> nth_error (h_ph h) (o_ph o) = Some ph ->
  mapM (dget (h_kv h)) (pc_knots c) = Ok ks ->
  view h o = Ok (mkSpline (F := F) (mkPS (F := F) ks (pc_degs c) (pc_bfs c)) ph).
Proof.
  intros h o c ph ks C Q M. apply dget_some in C, Q. unfold view, view_ps. rewrite C. simpl. rewrite M. simpl.
  rewrite Q. reflexivity.
Qed.

Definition ps_edit (f : list F -> Res (list F)) (p : pspace F) (d : nat) : Res (pspace F) :=
  kv <- dget (ps_knots p) d ;; kv' <- f kv ;;
  b <- create_bases (upd (ps_knots p) d kv') (ps_degs p) ;; Ok (mkPS (upd (ps_knots p) d kv') (ps_degs p) b).
Definition agree {T} h o (m : Res (heap F)) (v : Res T) (g : T -> spline F) : Prop :=
  match v with
  | Ok x => exists h', m = Ok h' /\ view h' o = Ok (g x) /\ own_knots h' o
  | Throw e => m = Throw e
  | UB => m = UB
  end.
Lemma edit_agree : forall f h o s d, view h o = Ok s -> own_knots h o ->
  agree h o (h_edit f h (o_ps o) d) (ps_edit f (sp_ps s) d) (with_ps s).
Proof.
  intros f h o s d V N. destruct (view_inv _ _ _ V) as (c & ph & ks & C & Q & M & ->).
  unfold own_knots, knots_at in N. rewrite C in N.
  unfold agree, ps_edit, h_edit. simpl. rewrite (mapM_dget_nth _ _ _ d M).
  pose proof C as C'. apply dget_some in C'. rewrite C'. simpl.
  replace (dget (pc_knots c) d) with (match nth_error (pc_knots c) d with Some k => Ok k | None => UB end) by reflexivity.
  destruct (nth_error (pc_knots c) d) as [k|] eqn:K; simpl; auto.
  destruct (dget (h_kv h) k) as [kv|e|]; simpl; auto.
  destruct (f kv) as [kv'|e|]; simpl; auto.
  rewrite (mapM_dget_upd _ _ _ _ _ kv' N M K). simpl.
  destruct (create_bases (upd ks d kv') (pc_degs c)) as [bs|e|]; simpl; auto.
  eexists. split; [reflexivity|]. split.
  - apply (view_intro _ o (mkPC (pc_knots c) (pc_degs c) bs) ph (upd ks d kv')); simpl; auto.
    + apply upd_same. apply nth_error_Some. congruence.
    + apply mapM_dget_upd; auto.
  - unfold own_knots, knots_at; simpl. rewrite upd_same; auto. apply nth_error_Some. congruence.
Qed.
Lemma degree_agree : forall h o s d delta, view h o = Ok s -> own_knots h o ->
  agree h o (h_degree h (o_ps o) d delta) (ps_change_degree (sp_ps s) d delta) (with_ps s).
Proof.
  intros h o s d delta V N. destruct (view_inv _ _ _ V) as (c & ph & ks & C & Q & M & ->).
  unfold own_knots, knots_at in N. rewrite C in N.
  unfold agree, ps_change_degree, h_degree. simpl.
  pose proof C as C'. apply dget_some in C'. rewrite C'. simpl.
  destruct (dget (pc_degs c) d) as [q|e|]; simpl; auto. rewrite M. simpl.
  destruct (create_bases ks (upd (pc_degs c) d (q + delta)%Z)) as [bs|e|]; simpl; auto.
  eexists; split; [reflexivity|]. split.
  - apply (view_intro _ o (mkPC (pc_knots c) (upd (pc_degs c) d (q + delta)%Z) bs) ph ks); simpl; auto.
    apply upd_same. apply nth_error_Some. congruence.
  - unfold own_knots, knots_at; simpl. rewrite upd_same; auto. apply nth_error_Some. congruence.
Qed.
Lemma phys_agree : forall h o s ph, view h o = Ok s -> own_knots h o ->
  exists h', h_set_ph h (o_ph o) ph = Ok h' /\ view h' o = Ok (with_ph s ph) /\ own_knots h' o.
Proof.
  intros h o s ph V N. destruct (view_inv _ _ _ V) as (c & ph0 & ks & C & Q & M & ->).
  unfold h_set_ph. pose proof Q as Q'. apply dget_some in Q'. rewrite Q'. simpl.
  eexists; split; [reflexivity|]. split; auto.
  apply (view_intro _ o c ph ks); simpl; auto. apply upd_same. apply nth_error_Some. congruence.
Qed.

(* an object with knot vectors of its own behaves like a value *)
Lemma faithful : forall A (p : prog F A) h o s, view h o = Ok s -> own_knots h o ->
  fst (run_h p h o) = fst (run_v p s) /\ view (snd (run_h p h o)) o = Ok (snd (run_v p s)) /\
  own_knots (snd (run_h p h o)) o.
Proof.
  induction p as [r|k IH|u d k IH|u d k IH|d delta k IH|ph k IH]; intros h o s V N; simpl; auto.
  - rewrite V. simpl. auto.
  - pose proof (edit_agree (fun kv => kv_insert kv u) h o s d V N) as E. unfold h_insert.
    change (ps_insert (sp_ps s) u d) with (ps_edit (fun kv => kv_insert kv u) (sp_ps s) d).
    unfold agree in E. destruct (ps_edit _ _ d) as [x|e|]; simpl.
    + destruct E as (h' & -> & V' & N'). simpl. auto.
    + rewrite E. simpl. auto.
    + rewrite E. simpl. auto.
  - pose proof (edit_agree (fun kv => kv_remove kv u) h o s d V N) as E. unfold h_remove.
    change (ps_remove (sp_ps s) u d) with (ps_edit (fun kv => kv_remove kv u) (sp_ps s) d).
    unfold agree in E. destruct (ps_edit _ _ d) as [x|e|]; simpl.
    + destruct E as (h' & -> & V' & N'). simpl. auto.
    + rewrite E. simpl. auto.
    + rewrite E. simpl. auto.
  - pose proof (degree_agree h o s d delta V N) as E.
    unfold agree in E. destruct (ps_change_degree _ d delta) as [x|e|]; simpl.
    + destruct E as (h' & -> & V' & N'). simpl. auto.
    + rewrite E. simpl. auto.
    + rewrite E. simpl. auto.
  - destruct (phys_agree h o s ph V N) as (h' & -> & V' & N'). simpl. auto.
Qed.
End HeapFacts.
