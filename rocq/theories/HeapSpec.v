(* Vocabulary for the sharing of objects (C32). *)
From Coq Require Import ZArith List Bool.
From Verif Require Import Base Basis Spaces SplineEval Heap.
Import ListNotations.

Section HeapSpec.
Context {F : NumOps}.
(* the KnotVector objects an object points to *)
Definition knots_at (h : heap F) (o : obj) : list loc :=
  match nth_error (h_ps h) (o_ps o) with Some c => pc_knots c | None => [] end.
(* nothing is reachable from both *)
Definition separate (h : heap F) (a b : obj) : Prop :=
  o_ps a <> o_ps b /\ o_ph a <> o_ph b /\ (forall k, In k (knots_at h a) -> ~ In k (knots_at h b)).
(* one KnotVector object per direction *)
Definition own_knots (h : heap F) (o : obj) : Prop := NoDup (knots_at h o).

Definition obj_eqb (a b : obj) : bool := Nat.eqb (o_ps a) (o_ps b) && Nat.eqb (o_ph a) (o_ph b).
(* what the calls on [o] in a history make of its value, computed without a heap *)
Definition own_history (o : obj) (es : list (event F)) (s : spline F) : spline F :=
  fold_left (fun s e => match e with Call x p => if obj_eqb x o then snd (run_v p s) else s | _ => s end) es s.
(* an event which, in heap [h], leaves both objects to themselves: a call on one of them or on an object
   that shares nothing with them, a change of a KnotVector object neither points to, new objects *)
Definition fair (h : heap F) (a b : obj) (e : event F) : Prop :=
  match e with
  | Call x _ => x = a \/ x = b \/ (separate h x a /\ separate h x b)
  | SetKnots k _ => ~ In k (knots_at h a) /\ ~ In k (knots_at h b)
  | Create _ _ _ => True
  end.
Fixpoint fair_history (h : heap F) (a b : obj) (es : list (event F)) : Prop :=
  match es with
  | [] => True
  | e :: es' => fair h a b e /\ fair_history (happen h e) a b es'
  end.
End HeapSpec.
