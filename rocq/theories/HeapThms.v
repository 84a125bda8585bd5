From Coq Require Import ZArith List Bool Lia PrimFloat.
From Verif Require Import Base MultiIndex KnotVec Basis Spaces SplineEval SplineSpec SplineEdit SplineDegree Heap HeapSpec HeapFacts HeapLink.
Import ListNotations.
Open Scope Z_scope.

Section HeapThms.
Context {F : NumOps}.
Implicit Types (h : heap F) (o a b : obj) (s : spline F).

Lemma obj_eqb_true : forall a b, obj_eqb a b = true <-> a = b.
Proof.
  intros [p q] [p' q']. unfold obj_eqb; simpl. rewrite andb_true_iff, !Nat.eqb_eq.
  split; [intros [-> ->]; reflexivity|inversion 1; auto].
Qed.
Lemma view_exists : forall h o s, view h o = Ok s ->
  (o_ps o < length (h_ps h))%nat /\ (o_ph o < length (h_ph h))%nat /\
  forall k, In k (knots_at h o) -> (k < length (h_kv h))%nat.
Proof.
  intros h o s V. destruct (view_inv _ _ _ V) as (c & ph & ks & C & Q & M & _). repeat split.
  - apply nth_error_Some. congruence.
  - apply nth_error_Some. congruence.
  - unfold knots_at. rewrite C. clear - M. revert ks M.
    induction (pc_knots c) as [|k l IH]; intros ks M x I; [destruct I|]. simpl in M.
    destruct (dget (h_kv h) k) as [v|e|] eqn:D; simpl in M; try discriminate.
    destruct (mapM (dget (h_kv h)) l) as [r|e|] eqn:E; simpl in M; try discriminate.
    destruct I as [<-|I]; [|eapply IH; eauto]. apply dget_some in D. apply nth_error_Some. congruence.
Qed.

(* new cells do not matter for an object that exists *)
Lemma create_knots : forall h o s kvs cs phs, view h o = Ok s ->
  knots_at (happen h (Create kvs cs phs)) o = knots_at h o.
Proof.
  intros h o s kvs cs phs V. destruct (view_exists _ _ _ V) as (L & _). unfold knots_at; simpl.
  rewrite nth_error_app1; auto.
Qed.
Lemma create_view : forall h o s kvs cs phs, view h o = Ok s -> view (happen h (Create kvs cs phs)) o = Ok s.
Proof.
  intros h o s kvs cs phs V. destruct (view_exists _ _ _ V) as (L1 & L2 & L3). rewrite <- V.
  apply view_cong; simpl; intros; apply nth_error_app1; auto.
Qed.

(* one event *)
Lemma event_step : forall h a b s s' e, view h a = Ok s -> view h b = Ok s' -> own_knots h a -> own_knots h b ->
  separate h a b -> fair h a b e ->
  view (happen h e) a = Ok (own_history a [e] s) /\ view (happen h e) b = Ok (own_history b [e] s') /\
  own_knots (happen h e) a /\ own_knots (happen h e) b /\ separate (happen h e) a b.
Proof.
  intros h a b s s' e Va Vb Na Nb S C.
  assert (NE : forall x y, o_ps x <> o_ps y -> obj_eqb x y = false).
  { intros x y N. unfold obj_eqb. apply Nat.eqb_neq in N. rewrite N. reflexivity. }
  assert (EQ : forall x, obj_eqb x x = true) by (intros; apply obj_eqb_true; auto).
  destruct e as [A x p|k kv|kvs cs phs].
  - pose proof (run_touches _ p h x) as T.
    pose proof (knots_at_touches _ _ _ a T) as Ka. pose proof (knots_at_touches _ _ _ b T) as Kb.
    pose proof (separate_touches _ _ _ _ _ T S) as S'.
    unfold own_history; simpl. unfold own_knots in *. rewrite Ka, Kb.
    destruct C as [-> | [-> | [Xa Xb]]].
    + rewrite EQ. rewrite (NE a b) by apply S.
      destruct (faithful _ p h a s Va Na) as (_ & V' & _). rewrite (frame _ p h a b S). auto 10.
    + rewrite EQ. rewrite (NE b a) by (apply not_eq_sym, S).
      destruct (faithful _ p h b s' Vb Nb) as (_ & V' & _). rewrite (frame _ p h b a (separate_sym _ _ _ S)). auto 10.
    + rewrite (NE x a) by apply Xa. rewrite (NE x b) by apply Xb. rewrite (frame _ p h x a Xa), (frame _ p h x b Xb).
      auto 10.
  - destruct C as [Ca Cb]. unfold own_history; simpl.
    assert (V : forall o t, ~ In k (knots_at h o) -> view h o = Ok t ->
              view (mkHeap (upd (h_kv h) k kv) (h_ps h) (h_ph h)) o = Ok t).
    { intros o t N V. rewrite <- V. apply view_cong; simpl; auto. intros j J. apply upd_other. intros ->. auto. }
    repeat split; auto; apply S.
  - assert (Ka := create_knots _ _ _ kvs cs phs Va). assert (Kb := create_knots _ _ _ kvs cs phs Vb).
    unfold own_knots, separate. rewrite Ka, Kb. unfold own_history. simpl fold_left.
    repeat split; auto using create_view; apply S.
Qed.
Lemma history : forall es h a b s s', view h a = Ok s -> view h b = Ok s' -> own_knots h a -> own_knots h b ->
  separate h a b -> fair_history h a b es ->
  view (happens h es) a = Ok (own_history a es s) /\ view (happens h es) b = Ok (own_history b es s').
Proof.
  induction es as [|e es IH]; intros h a b s s' Va Vb Na Nb S C; [auto|]. destruct C as [Ce Ces].
  destruct (event_step _ _ _ _ _ _ Va Vb Na Nb S Ce) as (Va' & Vb' & Na' & Nb' & S').
  exact (IH (happen h e) a b _ _ Va' Vb' Na' Nb' S' Ces).
Qed.

(* a new object *)
Lemma mapM_dget_seq : forall A (l r : list A), mapM (dget (l ++ r)) (seq (length l) (length r)) = Ok r.
Proof.
  intros A l r. revert l. induction r as [|x r IH]; intros l; simpl; auto.
  assert (D : dget (l ++ x :: r) (length l) = Ok x).
  { apply dget_some. rewrite nth_error_app2, Nat.sub_diag; auto. }
  rewrite D. simpl. replace (l ++ x :: r) with ((l ++ [x]) ++ r) by (rewrite <- app_assoc; reflexivity).
  replace (S (length l)) with (length (l ++ [x])) by (rewrite app_length; simpl; lia).
  rewrite IH. reflexivity.
Qed.
Lemma alloc_new : forall h s o h', alloc h s = (o, h') ->
  view h' o = Ok s /\ own_knots h' o /\
  (forall k, In k (knots_at h' o) -> (length (h_kv h) <= k)%nat) /\
  (forall x t, view h x = Ok t -> view h' x = Ok t /\ knots_at h' x = knots_at h x /\ separate h' x o).
Proof.
  intros h s o h' E. destruct s as [[ks degs bs] ph]. unfold alloc, alloc_ps, alloc_ph in E. simpl in E.
  inversion E; subst o h'; clear E.
  set (c := mkPC (seq (length (h_kv h)) (length ks)) degs bs : pcell F).
  set (o := mkObj (length (h_ps h)) (length (h_ph h))).
  set (h' := mkHeap (h_kv h ++ ks) (h_ps h ++ [c]) (h_ph h ++ [ph])).
  assert (C : nth_error (h_ps h') (o_ps o) = Some c).
  { unfold h', o. cbn. rewrite nth_error_app2, Nat.sub_diag; auto. }
  assert (K : knots_at h' o = seq (length (h_kv h)) (length ks)) by (unfold knots_at; rewrite C; reflexivity).
  assert (G : forall k, In k (knots_at h' o) -> (length (h_kv h) <= k)%nat).
  { rewrite K. intros k I. apply in_seq in I. lia. }
  split; [|split; [|split; auto]].
  - apply (view_intro h' o c ph ks C).
    + unfold h', o. cbn. rewrite nth_error_app2, Nat.sub_diag; auto.
    + apply mapM_dget_seq.
  - unfold own_knots. rewrite K. apply seq_NoDup.
  - intros x t V. pose proof (create_view h x t ks [c] [ph] V) as V'. pose proof (create_knots h x t ks [c] [ph] V) as K'.
    destruct (view_exists _ _ _ V) as (L1 & L2 & L3). split; [exact V'|split; [exact K'|]].
    unfold separate, o; cbn. repeat split; try lia.
    intros k I J. specialize (G k J). specialize (L3 k). change (In k (knots_at (happen h (Create ks [c] [ph])) x)) in I.
    rewrite K' in I. specialize (L3 I). lia.
Qed.

(* C32: copies *)
Lemma copies_independent : forall h o s c h1 es,
  view h o = Ok s -> own_knots h o -> copy_h h o = Ok (c, h1) -> fair_history h1 o c es ->
  exists s', spline_copy s = Ok s' /\
    view (happens h1 es) o = Ok (own_history o es s) /\ view (happens h1 es) c = Ok (own_history c es s').
Proof.
  intros h o s c h1 es V N E C. unfold copy_h in E. rewrite V in E. simpl in E.
  destruct (spline_copy s) as [s'|e|] eqn:Q; simpl in E; try discriminate. assert (E' : alloc h s' = (c, h1)) by congruence.
  destruct (alloc_new _ _ _ _ E') as (Vc & Nc & _ & O). destruct (O o s V) as (Vo & Ko & S).
  exists s'. split; auto. apply history; auto. unfold own_knots. rewrite Ko. exact N.
Qed.

(* C32: constructors given KnotVector objects make their own *)
Lemma constructor_copies : forall h kvs degs cps wts o h1,
  new_h h kvs degs cps wts = Ok (o, h1) ->
  (forall k, In k (knots_at h1 o) -> (length (h_kv h) <= k)%nat) /\ own_knots h1 o /\
  (forall x t, view h x = Ok t -> view h1 x = Ok t /\ separate h1 x o) /\
  forall k kv s, (k < length (h_kv h))%nat -> view h1 o = Ok s -> view (happen h1 (SetKnots k kv)) o = Ok s.
Proof.
  intros h kvs degs cps wts o h1 E. unfold new_h in E.
  destruct (mapM (dget (h_kv h)) kvs) as [ks|e|]; simpl in E; try discriminate.
  destruct (spline_new ks degs cps wts) as [s|e|]; simpl in E; try discriminate.
  destruct (spline_copy s) as [s'|e|]; simpl in E; try discriminate. assert (E' : alloc h s' = (o, h1)) by congruence.
  destruct (alloc_new _ _ _ _ E') as (V & N & G & O). split; [auto|split; [auto|split]].
  - intros x t Vx. destruct (O x t Vx) as (A & _ & B). auto.
  - intros k kv t L W. rewrite <- W. apply view_cong; simpl; auto.
    intros j J. apply upd_other. specialize (G j J). lia.
Qed.

(* C32: subdivision gives two objects of their own *)
Lemma outcome_ok : forall A (r : Res A * spline F) (x : A) s, outcome r = Ok (x, s) -> r = (Ok x, s).
Proof. intros A [[y|e|] t] x s E; unfold outcome in E; simpl in E; congruence. Qed.
Lemma subdivide_objects : forall h o s u d p1 p2 s1,
  view h o = Ok s -> own_knots h o -> subdivide s u d = Ok (p1, p2, s1) ->
  exists a b h3, subdivide_h h o u d = Ok (a, b, h3) /\
    view h3 o = Ok s1 /\ view h3 a = Ok p1 /\ view h3 b = Ok p2 /\
    separate h3 o a /\ separate h3 o b /\ separate h3 a b /\ own_knots h3 o /\ own_knots h3 a /\ own_knots h3 b.
Proof.
  intros h o s u d p1 p2 s1 V N E. unfold subdivide in E. unfold subdivide_h. rewrite V. cbn [bind].
  destruct (sp_deg s d) as [deg|e|]; cbn [bind] in *; try discriminate.
  destruct (sp_knots s d) as [kv|e|]; cbn [bind] in *; try discriminate.
  set (m := u64 (deg + 1 - multiplicity kv u)) in *.
  destruct (insert_knot s u d m) as [t|e|] eqn:I; cbn [bind] in E; try discriminate.
  assert (R : run_v (insert_p u d m) s = (Ok tt, t)) by (apply outcome_ok; rewrite insert_link, I; reflexivity).
  destruct (faithful _ (insert_p u d m) h o s V N) as (Rf & Vf & Nf). rewrite R in Rf, Vf. cbn [fst snd] in Rf, Vf.
  destruct (run_h (insert_p u d m) h o) as [r h1]. cbn [fst snd] in Rf, Vf, Nf. subst r. cbn [bind]. rewrite Vf. cbn [bind].
  destruct (divided_knot_vectors (sp_ps t) u d) as [ks|e|]; cbn [bind] in *; try discriminate.
  destruct (make_piece t (fst ks) 0 d) as [q1|e|]; cbn [bind] in *; try discriminate.
  destruct (make_piece t (snd ks) (fst q1) d) as [q2|e|]; cbn [bind] in *; try discriminate.
  inversion E; subst p1 p2 s1; clear E.
  destruct (alloc h1 (snd q1)) as [a h2] eqn:A1. destruct (alloc h2 (snd q2)) as [b h3] eqn:A2.
  destruct (alloc_new _ _ _ _ A1) as (Va & Na & _ & Oa). destruct (alloc_new _ _ _ _ A2) as (Vb & Nb & _ & Ob).
  destruct (Oa o t Vf) as (Vo2 & Ko2 & Soa). destruct (Ob o t Vo2) as (Vo3 & Ko3 & Sob).
  destruct (Ob a _ Va) as (Va3 & Ka3 & Sab).
  exists a, b, h3. unfold own_knots in *. rewrite Ko3, Ka3, Ko2. destruct Soa as (X & Y & Z).
  assert (S : separate h3 o a) by (unfold separate; rewrite Ko3, Ka3; auto).
  repeat split; auto; solve [apply S|apply Sob|apply Sab].
Qed.

(* C32: splines made from one generator *)
Lemma generator_shares : forall h kvs degs cps g h1 s u d mult s',
  b_generator_h h kvs degs cps = Ok (g, h1) -> view h1 g = Ok s -> insert_knot s u d mult = Ok s' ->
  view (happen h1 (Call (from_generator g) (insert_p u d mult))) (from_generator g) = Ok s' /\
  view (happen h1 (Call (from_generator g) (insert_p u d mult))) g = Ok s'.
Proof.
  intros h kvs degs cps g h1 s u d mult s' G V I.
  destruct (constructor_copies h kvs degs cps None g h1 G) as (_ & N & _).
  assert (R : run_v (insert_p u d mult) s = (Ok tt, s')) by (apply outcome_ok; rewrite insert_link, I; reflexivity).
  destruct g as [p q]. unfold from_generator. simpl.
  destruct (faithful _ (insert_p u d mult) h1 (mkObj p q) s V N) as (_ & Vf & _). rewrite R in Vf. auto.
Qed.

(* C32: two NURBS generators given the same KnotVector objects *)
Lemma nurbs_generators_share : forall h kvs degs cps wts degs2 cps2 wts2 g1 h1 g2 h2 s1 s2 u d mult s1',
  NoDup kvs ->
  n_generator_h h kvs degs cps wts = Ok (g1, h1) -> n_generator_h h1 kvs degs2 cps2 wts2 = Ok (g2, h2) ->
  view h2 g1 = Ok s1 -> view h2 g2 = Ok s2 -> insert_knot s1 u d mult = Ok s1' ->
  let h3 := happen h2 (Call g1 (insert_p u d mult)) in
  view h3 g1 = Ok s1' /\
  view h3 g2 = Ok (mkSpline (F := F) (mkPS (F := F) (ps_knots (sp_ps s1')) (ps_degs (sp_ps s2)) (ps_bfs (sp_ps s2))) (sp_ph s2)).
Proof.
  intros h kvs degs cps wts degs2 cps2 wts2 g1 h1 g2 h2 s1 s2 u d mult s1' ND G1 G2 V1 V2 I h3.
  assert (K : forall h ds cs ws g h', n_generator_h h kvs ds cs ws = Ok (g, h') ->
     o_ps g = length (h_ps h) /\ o_ph g = length (h_ph h) /\ knots_at h' g = kvs /\
     exists c ph, h' = happen h (Create [] [c] [ph])).
  { clear. intros h ds cs ws g h' E. unfold n_generator_h in E.
    destruct (mapM (dget (h_kv h)) kvs) as [ks|e|]; simpl in E; try discriminate.
    destruct (wphys_new _ _ _) as [ph|e|]; simpl in E; try discriminate.
    destruct (ps_new ks ds) as [p|e|]; simpl in E; try discriminate. inversion E; subst. simpl.
    repeat split.
    - unfold knots_at; simpl. rewrite nth_error_app2, Nat.sub_diag; auto.
    - eexists; eexists. rewrite app_nil_r. reflexivity. }
  destruct (K _ _ _ _ _ _ G1) as (P1 & Q1 & K1 & c1 & ph1 & E1).
  destruct (K _ _ _ _ _ _ G2) as (P2 & Q2 & K2 & c2 & ph2 & E2).
  assert (L : length (h_ps h1) = S (length (h_ps h)) /\ length (h_ph h1) = S (length (h_ph h))).
  { rewrite E1. simpl. rewrite !app_length. simpl. lia. }
  assert (D : o_ps g2 <> o_ps g1 /\ o_ph g2 <> o_ph g1) by lia.
  assert (K1' : knots_at h2 g1 = kvs).
  { rewrite <- K1, E2. unfold knots_at at 1; simpl. rewrite nth_error_app1; auto. lia. }
  assert (N : own_knots h2 g1) by (unfold own_knots; rewrite K1'; auto).
  assert (R : run_v (insert_p u d mult) s1 = (Ok tt, s1')) by (apply outcome_ok; rewrite insert_link, I; reflexivity).
  destruct (faithful _ (insert_p u d mult) h2 g1 s1 V1 N) as (_ & Vf & _). rewrite R in Vf. cbn [fst snd] in Vf.
  split; [exact Vf|]. pose proof (run_touches _ (insert_p u d mult) h2 g1) as T.
  pose proof (knots_at_touches _ _ _ g1 T) as T1. destruct T as (Tp & _ & _ & Tq).
  destruct (view_inv _ _ _ V2) as (c & ph & ks & C & Q & M & ->). simpl.
  destruct (view_inv _ _ _ Vf) as (c' & ph' & ks' & C' & Q' & M' & ->). simpl.
  assert (Ec : pc_knots c = kvs) by (unfold knots_at in K2; rewrite C in K2; exact K2).
  assert (Ec' : pc_knots c' = kvs).
  { rewrite K1' in T1. unfold knots_at in T1. rewrite C' in T1. exact T1. }
  apply (view_intro h3 g2 c ph ks').
  - unfold h3. simpl. rewrite Tp; auto. apply D.
  - unfold h3. simpl. rewrite Tq; auto. apply D.
  - rewrite Ec, <- Ec'. exact M'.
Qed.
End HeapThms.

(* the member functions on the heap and on values *)
Section Members.
Context {F : NumOps}.
Lemma member : forall A (p : prog F A) h o (s : spline F) x s',
  view h o = Ok s -> own_knots h o -> outcome (run_v p s) = Ok (x, s') ->
  fst (run_h p h o) = Ok x /\ view (happen h (Call o p)) o = Ok s' /\
  forall b t, view h b = Ok t -> separate h o b -> view (happen h (Call o p)) b = Ok t.
Proof.
  intros A p h o s x s' V N E. apply outcome_ok in E. destruct (faithful _ p h o s V N) as (R & W & _).
  rewrite E in R, W. repeat split; auto. intros b t Vb S. simpl. rewrite (frame _ p h o b S). exact Vb.
Qed.
Lemma members : forall h o (s : spline F), view h o = Ok s -> own_knots h o ->
  let does A (p : prog F A) (x : A) (s' : spline F) :=
    fst (run_h p h o) = Ok x /\ view (happen h (Call o p)) o = Ok s' /\
    forall b t, view h b = Ok t -> separate h o b -> view (happen h (Call o p)) b = Ok t in
  (forall u d m s', insert_knot s u d m = Ok s' -> does _ (insert_p u d m) tt s') /\
  (forall us d s', refine_knots s us d = Ok s' -> does _ (refine_p us d) tt s') /\
  (forall u d tol m r s', remove_knot s u d tol m = Ok (r, s') -> does _ (remove_p u d tol m) r s') /\
  (forall d s', elevate_degree s d = Ok s' -> does _ (elevate_p d) tt s') /\
  (forall d tol r s', reduce_degree s d tol = Ok (r, s') -> does _ (reduce_p d tol) r s').
Proof.
  intros h o s V N does. split; [|split; [|split; [|split]]].
  - intros u d m s' E. apply (member _ _ h o s tt s' V N). rewrite insert_link, E. reflexivity.
  - intros us d s' E. apply (member _ _ h o s tt s' V N). rewrite refine_link, E. reflexivity.
  - intros u d tol m r s' E. apply (member _ _ h o s r s' V N). rewrite remove_link. exact E.
  - intros d s' E. apply (member _ _ h o s tt s' V N). rewrite elevate_link, E. reflexivity.
  - intros d tol r s' E. apply (member _ _ h o s r s' V N). rewrite reduce_link. exact E.
Qed.
Lemma assigned_same : forall a b, assigned a b = b.
Proof. intros a [p q]. reflexivity. Qed.
(* C32: a spline that was assigned another is that spline *)
Lemma assignment_shares : forall A (p : prog F A) h a b (s : spline F) x s',
  view h b = Ok s -> own_knots h b -> outcome (run_v p s) = Ok (x, s') ->
  view h (assigned a b) = Ok s /\
  view (happen h (Call (assigned a b) p)) b = Ok s' /\ view (happen h (Call b p)) (assigned a b) = Ok s'.
Proof.
  intros A p h a b s x s' V N E. rewrite assigned_same.
  destruct (member A p h b s x s' V N E) as (_ & W & _). auto.
Qed.
Lemma assignment_insert : forall h a b (s : spline F) u d mult s',
  view h b = Ok s -> own_knots h b -> insert_knot s u d mult = Ok s' ->
  view h (assigned a b) = Ok s /\
  view (happen h (Call (assigned a b) (insert_p u d mult))) b = Ok s' /\
  view (happen h (Call b (insert_p u d mult))) (assigned a b) = Ok s'.
Proof.
  intros h a b s u d mult s' V N E. apply (assignment_shares _ _ h a b s tt s' V N).
  rewrite insert_link, E. reflexivity.
Qed.
End Members.

(* examples in doubles: one KnotVector object, a copy, and a client holding a pointer to the object.
   They are computed as booleans: the types mention Fops, which must not be normalised *)
Definition hx_kv : list float := [0; 0; 1; 1]%float.
Definition hx_heap : heap Fops := mkHeap (F := Fops) [hx_kv] [] [].
Definition hx_value (h : heap Fops) (o : obj) (u : float) : Res (list float) :=
  bind (view h o) (fun s => evaluate (F := Fops) s [u] [0]).
Definition hx_history (o c : obj) : list (event Fops) :=
  [Call o (insert_p (F := Fops) 0.5%float 0 1); SetKnots (F := Fops) 0%nat [7; 8]%float; Call c (elevate_p (F := Fops) 0);
   Create (F := Fops) [[0; 0; 1; 1]%float] [] []; Call c (reduce_p (F := Fops) 0 0x1p-10%float);
   Call c (remove_p (F := Fops) 0.5%float 0 0x1p-10%float 1)].
Definition hx_new := new_h hx_heap [0%nat] [1] [[0]; [1]]%float None.
Definition hx_knots (s : spline Fops) : list (list float) := ps_knots (sp_ps s).

Definition hx_copies_b : bool :=
  match hx_new with
  | Ok (o, h) =>
      match view h o, copy_h h o with
      | Ok s, Ok (c, h1) =>
          let is_one (l : list loc) := match l with [1%nat] => true | _ => false end in
          let is_two (l : list loc) := match l with [2%nat] => true | _ => false end in
          let h2 := happen h1 (Call o (insert_p (F := Fops) 0.5%float 0 1)) in
          is_one (knots_at h o) && is_one (knots_at h2 o) && is_two (knots_at h2 c) &&
          (length (nth 0 (hx_knots (own_history o (hx_history o c) s)) []) =? 5)%nat &&
          (length (nth 0 (hx_knots (own_history c (hx_history o c) s)) []) =? 4)%nat
      | _, _ => false
      end
  | _ => false
  end.
Lemma hx_copies_true : hx_copies_b = true.
Proof. vm_compute. reflexivity. Qed.
Lemma hx_copies : exists o h s c h1,
  new_h hx_heap [0%nat] [1] [[0]; [1]]%float None = Ok (o, h) /\ view h o = Ok s /\ own_knots h o /\
  copy_h h o = Ok (c, h1) /\ fair_history h1 o c (hx_history o c) /\
  length (nth 0 (hx_knots (own_history o (hx_history o c) s)) []) = 5%nat /\
  length (nth 0 (hx_knots (own_history c (hx_history o c) s)) []) = 4%nat.
Proof.
  pose proof hx_copies_true as T. unfold hx_copies_b, hx_new in T.
  destruct (new_h _ _ _ _ _) as [[o h]|e|]; try discriminate.
  destruct (view h o) as [s|e|] eqn:V; try discriminate.
  destruct (copy_h h o) as [[c h1]|e|] eqn:C; try discriminate.
  exists o, h, s, c, h1. cbv zeta in T. rewrite !andb_true_iff in T. destruct T as ((((T1 & T2) & T3) & T4) & T5).
  assert (K1 : knots_at h o = [1%nat]) by (clear - T1; destruct (knots_at h o) as [|[|[|k]] [|]]; congruence).
  split; [reflexivity|]. split; [exact V|]. split; [unfold own_knots; rewrite K1; constructor; [intros []|constructor]|].
  split; [exact C|]. split; [|split].
  - unfold hx_history. cbn [fair_history fair]. split; [left; reflexivity|]. split.
    + revert T2 T3. generalize (happen h1 (Call o (insert_p (F := Fops) 0.5%float 0 1))). intros h2 T2 T3.
      assert (K2 : knots_at h2 o = [1%nat]) by (clear - T2; destruct (knots_at h2 o) as [|[|[|k]] [|]]; congruence).
      assert (K3 : knots_at h2 c = [2%nat]) by (clear - T3; destruct (knots_at h2 c) as [|[|[|[|k]]] [|]]; congruence).
      rewrite K2, K3. split; intros [E|[]]; discriminate.
    + split; [right; left; reflexivity|]. split; [exact I|]. split; [right; left; reflexivity|].
      split; [right; left; reflexivity|exact I].
  - apply Nat.eqb_eq. exact T4.
  - apply Nat.eqb_eq. exact T5.
Qed.

Definition hx_pieces_b : bool :=
  match hx_new with
  | Ok (o, h) =>
      match view h o with
      | Ok s => match knots_at h o, subdivide (F := Fops) s 0.5%float 0 with
                | [1%nat], Ok (p1, p2, _) =>
                    match hx_knots p1, hx_knots p2 with
                    | [[_; _; x; y]], [[_; z; _; _]] => (x =? 0.5)%float && (y =? 0.5)%float && (z =? 0.5)%float
                    | _, _ => false
                    end
                | _, _ => false
                end
      | _ => false
      end
  | _ => false
  end.
Lemma hx_pieces_true : hx_pieces_b = true.
Proof. vm_compute. reflexivity. Qed.
Lemma hx_pieces : exists o h s p1 p2 s1,
  new_h hx_heap [0%nat] [1] [[0]; [1]]%float None = Ok (o, h) /\ view h o = Ok s /\ own_knots h o /\
  subdivide (F := Fops) s 0.5%float 0 = Ok (p1, p2, s1).
Proof.
  pose proof hx_pieces_true as T. unfold hx_pieces_b, hx_new in T.
  destruct (new_h _ _ _ _ _) as [[o h]|e|]; try discriminate.
  destruct (view h o) as [s|e|] eqn:V; try discriminate.
  assert (K : knots_at h o = [1%nat]) by (destruct (knots_at h o) as [|[|[|k]] [|]]; congruence). rewrite K in T.
  destruct (subdivide (F := Fops) s 0.5%float 0) as [[[p1 p2] s1]|e|] eqn:D; try discriminate.
  exists o, h, s, p1, p2, s1. repeat split; auto. unfold own_knots; rewrite K; constructor; [intros []|constructor].
Qed.

Definition hx_generator_b : bool :=
  match b_generator_h hx_heap [0%nat] [1] [[0]; [1]]%float with
  | Ok (g, h) => match view h g with
                 | Ok s => match insert_knot (F := Fops) s 0.5%float 0 1, elevate_degree (F := Fops) s 0, knots_at h g with
                           | Ok s', Ok _, [1%nat] => (length (nth 0 (hx_knots s') []) =? 5)%nat
                           | _, _, _ => false
                           end
                 | _ => false
                 end
  | _ => false
  end.
Lemma hx_generator_true : hx_generator_b = true.
Proof. vm_compute. reflexivity. Qed.
Lemma hx_generator : exists g h s s' s'',
  b_generator_h hx_heap [0%nat] [1] [[0]; [1]]%float = Ok (g, h) /\ view h g = Ok s /\ own_knots h g /\
  insert_knot (F := Fops) s 0.5%float 0 1 = Ok s' /\ length (nth 0 (hx_knots s') []) = 5%nat /\
  elevate_degree (F := Fops) s 0 = Ok s''.
Proof.
  pose proof hx_generator_true as T. unfold hx_generator_b in T.
  destruct (b_generator_h _ _ _ _) as [[g h]|e|]; try discriminate.
  destruct (view h g) as [s|e|] eqn:V; try discriminate.
  destruct (insert_knot (F := Fops) s 0.5%float 0 1) as [s'|e|] eqn:D; try discriminate.
  destruct (elevate_degree (F := Fops) s 0) as [s''|e|] eqn:D2; try discriminate.
  assert (K : knots_at h g = [1%nat]) by (destruct (knots_at h g) as [|[|[|k]] [|]]; congruence). rewrite K in T.
  apply Nat.eqb_eq in T. exists g, h, s, s', s''. repeat split; auto. unfold own_knots; rewrite K; constructor; [intros []|constructor].
Qed.

(* two NURBS of one KnotVector object: an insertion into the first breaks the second *)
Definition hx_shared_b : bool :=
  match n_generator_h hx_heap [0%nat] [1] [[0]; [1]]%float [1; 1]%float with
  | Ok (g1, h1) =>
      match n_generator_h h1 [0%nat] [1] [[3]; [5]]%float [1; 1]%float with
      | Ok (g2, h2) =>
          match view h2 g1, view h2 g2 with
          | Ok s1, Ok s2 =>
            match insert_knot (F := Fops) s1 0.5%float 0 1, hx_value h2 g2 0.75%float,
                  hx_value (happen h2 (Call g1 (insert_p (F := Fops) 0.5%float 0 1))) g2 0.75%float with
            | Ok _, Ok [v], UB => (v =? 4.5)%float
            | _, _, _ => false
            end
          | _, _ => false
          end
      | _ => false
      end
  | _ => false
  end.
Lemma hx_shared_true : hx_shared_b = true.
Proof. vm_compute. reflexivity. Qed.
Lemma hx_shared : exists g1 h1 g2 h2 s1 s2 s1' v,
  n_generator_h hx_heap [0%nat] [1] [[0]; [1]]%float [1; 1]%float = Ok (g1, h1) /\
  n_generator_h h1 [0%nat] [1] [[3]; [5]]%float [1; 1]%float = Ok (g2, h2) /\
  view h2 g1 = Ok s1 /\ view h2 g2 = Ok s2 /\ insert_knot (F := Fops) s1 0.5%float 0 1 = Ok s1' /\
  hx_value h2 g2 0.75%float = Ok [v] /\ (v =? 4.5)%float = true /\
  hx_value (happen h2 (Call g1 (insert_p (F := Fops) 0.5%float 0 1))) g2 0.75%float = UB.
Proof.
  pose proof hx_shared_true as T. unfold hx_shared_b in T.
  destruct (n_generator_h hx_heap _ _ _ _) as [[g1 h1]|e|]; try discriminate.
  destruct (n_generator_h h1 _ _ _ _) as [[g2 h2]|e|] eqn:G; try discriminate.
  destruct (view h2 g1) as [s1|e|] eqn:V1; try discriminate. destruct (view h2 g2) as [s2|e|] eqn:V2; try discriminate.
  destruct (insert_knot (F := Fops) s1 0.5%float 0 1) as [s1'|e|] eqn:D; try discriminate.
  destruct (hx_value h2 g2 0.75%float) as [[|v [|]]|e|] eqn:E1; try discriminate.
  destruct (hx_value (happen h2 _) g2 0.75%float) as [r|e|] eqn:E2; try discriminate.
  exists g1, h1, g2, h2, s1, s2, s1', v. repeat split; auto.
Qed.

(* a copy has the value of the original *)
Lemma copy_value : forall dz (s : spline (Rops dz)), well_formed s -> spline_copy s = Ok s.
Proof.
  intros dz s W. pose proof (wf_bases s W) as Eb. unfold knots_of, degs_of in Eb. destruct s as [[ks degs bs] ph].
  unfold spline_copy, ps_copy. cbn [sp_ps ps_knots ps_degs ps_bfs] in *. rewrite Eb. reflexivity.
Qed.
