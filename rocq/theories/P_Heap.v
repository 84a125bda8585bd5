(* C32: which objects share state.  The heap holds the KnotVector, ParameterSpace and PhysicalSpace objects,
   an object (a spline or a generator) is its two shared pointers, [view] its value (Heap.v). *)
From Coq Require Import ZArith List Reals PrimFloat.
From Verif Require Import Base KnotVec Basis Spaces SplineEval SplineSpec SplineEdit SplineDegree Heap HeapSpec HeapThms IritThms.
Import ListNotations.
Open Scope Z_scope.

(* The mutating members change the object they are called on as the functions on values say, and nothing
   of an object it shares no state with. *)
Theorem C32_members : forall (F : NumOps) h o (s : spline F), view h o = Ok s -> own_knots h o ->
  let does A (p : prog F A) (x : A) (s' : spline F) :=
    fst (run_h p h o) = Ok x /\ view (happen h (Call o p)) o = Ok s' /\
    forall b t, view h b = Ok t -> separate h o b -> view (happen h (Call o p)) b = Ok t in
  (forall u d m s', insert_knot s u d m = Ok s' -> does _ (insert_p u d m) tt s') /\
  (forall us d s', refine_knots s us d = Ok s' -> does _ (refine_p us d) tt s') /\
  (forall u d tol m r s', remove_knot s u d tol m = Ok (r, s') -> does _ (remove_p u d tol m) r s') /\
  (forall d s', elevate_degree s d = Ok s' -> does _ (elevate_p d) tt s') /\
  (forall d tol r s', reduce_degree s d tol = Ok (r, s') -> does _ (reduce_p d tol) r s').
Proof. exact @members. Qed.
Print Assumptions C32_members.

Example C32_members_example : exists g h s s' s'',
  b_generator_h hx_heap [0%nat] [1] [[0]; [1]]%float = Ok (g, h) /\ view h g = Ok s /\ own_knots h g /\
  insert_knot (F := Fops) s 0.5%float 0 1 = Ok s' /\ length (nth 0 (hx_knots s') []) = 5%nat /\
  elevate_degree (F := Fops) s 0 = Ok s''.
Proof. exact hx_generator. Qed.

(* Two objects without common state go their own ways: after any sequence of calls on either of them or on
   objects separate from both, of changes to other KnotVector objects and of creations, each has the value
   its own calls give it.  Calls may throw or be undefined at any point. *)
Theorem C32_separate_histories : forall (F : NumOps) (es : list (event F)) h a b s s',
  view h a = Ok s -> view h b = Ok s' -> own_knots h a -> own_knots h b -> separate h a b -> fair_history h a b es ->
  view (happens h es) a = Ok (own_history a es s) /\ view (happens h es) b = Ok (own_history b es s').
Proof. exact @history. Qed.
Print Assumptions C32_separate_histories.

(* A copy-constructed spline and its original are such objects. *)
Theorem C32_copies_independent : forall (F : NumOps) h o (s : spline F) c h1 es,
  view h o = Ok s -> own_knots h o -> copy_h h o = Ok (c, h1) -> fair_history h1 o c es ->
  exists s', spline_copy s = Ok s' /\
    view (happens h1 es) o = Ok (own_history o es s) /\ view (happens h1 es) c = Ok (own_history c es s').
Proof. exact @copies_independent. Qed.
Print Assumptions C32_copies_independent.

Example C32_copies_example : exists o h s c h1,
  new_h hx_heap [0%nat] [1] [[0]; [1]]%float None = Ok (o, h) /\ view h o = Ok s /\ own_knots h o /\
  copy_h h o = Ok (c, h1) /\ fair_history h1 o c (hx_history o c) /\
  length (nth 0 (hx_knots (own_history o (hx_history o c) s)) []) = 5%nat /\
  length (nth 0 (hx_knots (own_history c (hx_history o c) s)) []) = 4%nat.
Proof. exact hx_copies. Qed.

(* The copy starts with the value of the original. *)
Theorem C32_copy_value : forall dz (s : spline (Rops dz)), well_formed s -> spline_copy s = Ok s.
Proof. exact copy_value. Qed.
Print Assumptions C32_copy_value.

Example C32_copy_value_example : forall dz, well_formed (dz := dz) (irit_ex_line (Some (1/3)%R)) /\ well_formed (dz := dz) (irit_ex_line None).
Proof. exact (fun dz => conj (irit_ex_ok dz (Some (1/3)%R)) (irit_ex_ok dz None)). Qed.

(* The constructors of Spline and BSplineGenerator given KnotVector objects copy them: the new object shares
   nothing with anything that existed, and later changes of the given KnotVector objects do not reach it. *)
Theorem C32_constructors_copy : forall (F : NumOps) h kvs degs cps wts o (h1 : heap F),
  new_h h kvs degs cps wts = Ok (o, h1) ->
  (forall k, In k (knots_at h1 o) -> (length (h_kv h) <= k)%nat) /\ own_knots h1 o /\
  (forall x t, view h x = Ok t -> view h1 x = Ok t /\ separate h1 x o) /\
  forall k kv s, (k < length (h_kv h))%nat -> view h1 o = Ok s -> view (happen h1 (SetKnots k kv)) o = Ok s.
Proof. exact @constructor_copies. Qed.
Print Assumptions C32_constructors_copy.

(* Subdivision returns two objects that share nothing with each other or with the split spline. *)
Theorem C32_pieces_independent : forall (F : NumOps) h o (s : spline F) u d p1 p2 s1,
  view h o = Ok s -> own_knots h o -> subdivide s u d = Ok (p1, p2, s1) ->
  exists a b h3, subdivide_h h o u d = Ok (a, b, h3) /\
    view h3 o = Ok s1 /\ view h3 a = Ok p1 /\ view h3 b = Ok p2 /\
    separate h3 o a /\ separate h3 o b /\ separate h3 a b /\ own_knots h3 o /\ own_knots h3 a /\ own_knots h3 b.
Proof. exact @subdivide_objects. Qed.
Print Assumptions C32_pieces_independent.

Example C32_pieces_example : exists o h s p1 p2 s1,
  new_h hx_heap [0%nat] [1] [[0]; [1]]%float None = Ok (o, h) /\ view h o = Ok s /\ own_knots h o /\
  subdivide (F := Fops) s 0.5%float 0 = Ok (p1, p2, s1).
Proof. exact hx_pieces. Qed.

(* Splines built from one generator are one state: an insertion through one of them is seen through the
   other and through the generator. *)
Theorem C32_generator_shares : forall (F : NumOps) (h : heap F) kvs degs cps g h1 s u d mult s',
  b_generator_h h kvs degs cps = Ok (g, h1) -> view h1 g = Ok s -> insert_knot s u d mult = Ok s' ->
  view (happen h1 (Call (from_generator g) (insert_p u d mult))) (from_generator g) = Ok s' /\
  view (happen h1 (Call (from_generator g) (insert_p u d mult))) g = Ok s'.
Proof. exact @generator_shares. Qed.
Print Assumptions C32_generator_shares.

(* No copy assignment is declared, so after [a = b] the two splines are one state: an insertion through either
   is seen through the other.  A copy-constructed spline is independent (above). *)
Theorem C32_assignment_shares : forall (F : NumOps) (h : heap F) a b (s : spline F) u d mult s',
  view h b = Ok s -> own_knots h b -> insert_knot s u d mult = Ok s' ->
  view h (assigned a b) = Ok s /\
  view (happen h (Call (assigned a b) (insert_p u d mult))) b = Ok s' /\
  view (happen h (Call b (insert_p u d mult))) (assigned a b) = Ok s'.
Proof. exact @assignment_insert. Qed.
Print Assumptions C32_assignment_shares.

Example C32_assignment_example : exists g h s s' s'',
  b_generator_h hx_heap [0%nat] [1] [[0]; [1]]%float = Ok (g, h) /\ view h g = Ok s /\ own_knots h g /\
  insert_knot (F := Fops) s 0.5%float 0 1 = Ok s' /\ length (nth 0 (hx_knots s') []) = 5%nat /\
  elevate_degree (F := Fops) s 0 = Ok s''.
Proof. exact hx_generator. Qed.

(* NURBSGenerator keeps the KnotVector objects it is given.  Of two generators given the same objects, an
   insertion into the spline of the first changes the knots of the second, whose degrees, basis functions and
   control points stay. *)
Theorem C32_nurbs_generators_share : forall (F : NumOps) (h : heap F) kvs degs cps wts degs2 cps2 wts2 g1 h1 g2 h2 s1 s2 u d mult s1',
  NoDup kvs ->
  n_generator_h h kvs degs cps wts = Ok (g1, h1) -> n_generator_h h1 kvs degs2 cps2 wts2 = Ok (g2, h2) ->
  view h2 g1 = Ok s1 -> view h2 g2 = Ok s2 -> insert_knot s1 u d mult = Ok s1' ->
  let h3 := happen h2 (Call g1 (insert_p u d mult)) in
  view h3 g1 = Ok s1' /\
  view h3 g2 = Ok (mkSpline (F := F) (mkPS (F := F) (ps_knots (sp_ps s1')) (ps_degs (sp_ps s2)) (ps_bfs (sp_ps s2))) (sp_ph s2)).
Proof. exact @nurbs_generators_share. Qed.
Print Assumptions C32_nurbs_generators_share.

(* That spline may then no longer be evaluated: a straight line on one KnotVector object with another spline,
   4.5 at 0.75 before, an access out of range after the insertion of 0.5 into the other. *)
Theorem C32_shared_knots_refuted : exists g1 h1 g2 h2 s1 s2 s1' v,
  n_generator_h hx_heap [0%nat] [1] [[0]; [1]]%float [1; 1]%float = Ok (g1, h1) /\
  n_generator_h h1 [0%nat] [1] [[3]; [5]]%float [1; 1]%float = Ok (g2, h2) /\
  view h2 g1 = Ok s1 /\ view h2 g2 = Ok s2 /\ insert_knot (F := Fops) s1 0.5%float 0 1 = Ok s1' /\
  hx_value h2 g2 0.75%float = Ok [v] /\ (v =? 4.5)%float = true /\
  hx_value (happen h2 (Call g1 (insert_p (F := Fops) 0.5%float 0 1))) g2 0.75%float = UB.
Proof. exact hx_shared. Qed.
Print Assumptions C32_shared_knots_refuted.
