(* Vocabulary for statements about elements and connectivity. *)
From Coq Require Import ZArith List Reals.
From Verif Require Import Base KnotVecSpec SplineSpec SplineEval.
Import ListNotations.
Open Scope R_scope.

(* the intervals of the list follow each other without gap or overlap from a to b *)
Fixpoint tiles (a b : R) (l : list (R * R)) : Prop :=
  match l with
  | [] => a = b
  | (x, y) :: t => a = x /\ x < y /\ tiles y b t
  end.

(* e is the non-empty interval between knots number k and k+1, inside the domain *)
Definition knot_interval (kv : list R) (p k : Z) (e : R * R) : Prop :=
  (p <= k < Z.of_nat (length kv) - p - 1)%Z /\
  e = (knot kv (Z.to_nat k), knot kv (Z.to_nat (k + 1))) /\ fst e < snd e.

(* element es of the given element lists: in direction d it is interval number es_d of list d, which
   lies between knots k_d and k_d + 1 *)
Fixpoint element_spans (knots : list (list R)) (degs ks : list Z) (lists : list (list (R * R))) (es : list Z) : Prop :=
  match knots, degs, ks, lists, es with
  | kv :: knots', p :: degs', k :: ks', l :: lists', e :: es' =>
      knot_interval kv p k (nth (Z.to_nat e) l (0, 0)) /\ element_spans knots' degs' ks' lists' es'
  | [], [], [], [], [] => True
  | _, _, _, _, _ => False
  end.

(* us lies inside element es: strictly, or including its boundary *)
Fixpoint strictly_inside (lists : list (list (R * R))) (es : list Z) (us : list R) : Prop :=
  match lists, es, us with
  | l :: lists', e :: es', u :: us' =>
      (fst (nth (Z.to_nat e) l (0, 0)) < u < snd (nth (Z.to_nat e) l (0, 0))) /\ strictly_inside lists' es' us'
  | [], [], [] => True
  | _, _, _ => False
  end.
Fixpoint inside (lists : list (list (R * R))) (es : list Z) (us : list R) : Prop :=
  match lists, es, us with
  | l :: lists', e :: es', u :: us' =>
      (fst (nth (Z.to_nat e) l (0, 0)) <= u <= snd (nth (Z.to_nat e) l (0, 0))) /\ inside lists' es' us'
  | [], [], [] => True
  | _, _, _ => False
  end.

(* the rational basis function of control point idx *)
Definition nurbs_basis {dz} (s : spline (Rops dz)) (us : list R) (idx : list Z) : R :=
  basis_product (knots_of s) (degs_of s) us idx * weight s idx / weight_function s us.

(* numbers of basis functions per direction that do not vanish on an element *)
Definition local_sizes (degs : list Z) : list Z := map (fun p => (p + 1)%Z) degs.
(* control point of local function ls on the element in the spans ks *)
Definition local_point (degs ks ls : list Z) : list Z := map2 Z.add (map2 Z.sub ks degs) ls.
