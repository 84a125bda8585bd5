(* Vocabulary for statements about sequences of edits. *)
From Coq Require Import ZArith List Reals.
From Verif Require Import Base MultiIndex KnotVecSpec Spaces SpacesSpec SplineEval SplineEdit SplineSpec EditSpec.
Import ListNotations.
Open Scope Z_scope.

(* which of the three splines goes on after a subdivision: one of the pieces or the split spline itself *)
Inductive part := LeftPiece | RightPiece | WholeSpline.

(* one call on a spline *)
Inductive edit :=
| Insert (d : nat) (u : R) (times : Z)
| Refine (d : nat) (new : list R)
| Remove (d : nat) (u tolerance : R) (times : Z)
| Split (d : nat) (u : R) (keep : part).

Definition pick {A} (keep : part) (r : A * A * A) : A :=
  match keep, r with
  | LeftPiece, (a, _, _) => a
  | RightPiece, (_, b, _) => b
  | WholeSpline, (_, _, c) => c
  end.

Section Spec.
Context {dz : R -> R}.
Implicit Types s : spline (Rops dz).

Definition apply_edit s (e : edit) : Res (spline (Rops dz)) :=
  match e with
  | Insert d u r => insert_knot s u d r
  | Refine d new => refine_knots s new d
  | Remove d u tol m => cs <- remove_knot s u d tol m ;; Ok (snd cs)
  | Split d u keep => r <- subdivide s u d ;; Ok (pick keep r)
  end.

(* calls that respect the preconditions: inserted knots lie inside, are equal to a knot or away from all
   knots and give at most p+1 copies; removed knots are inner knots of multiplicity at most p; splits are at
   inner parameters that could be inserted; sizes fit *)
Definition admissible s (e : edit) : Prop :=
  match e with
  | Insert d u r => exists kv p, direction s d kv p /\ insertable kv p u r /\ 0 <= r /\ zlen kv < 2 ^ 31
  | Refine d new => exists kv p, direction s d kv p /\ all_insertable kv p new /\ zlen kv + zlen new <= 2 ^ 31
  | Remove d u tol m => exists kv p, direction s d kv p /\ In u kv /\ (first_knot kv < u < final_knot kv)%R /\
      0 <= m <= Z.of_nat (occurrences kv u) /\ Z.of_nat (occurrences kv u) <= p /\ zlen kv < 2 ^ 31
  | Split d u _ => exists kv p, direction s d kv p /\ insertable kv p u 0 /\ zlen kv < 2 ^ 31 /\
      total (upd (npts_of s) d (nth d (npts_of s) 0 + p + 1)) < 2 ^ 64
  end.

(* calls that keep the domain *)
Definition keeps_domain (e : edit) : Prop :=
  match e with Split _ _ LeftPiece | Split _ _ RightPiece => False | _ => True end.

(* calls that keep the map: everything but removal *)
Definition keeps_map (e : edit) : Prop := match e with Remove _ _ _ _ => False | _ => True end.

(* no left piece is cut off at a knot of multiplicity p+1, where the spline may jump *)
Definition no_jump s (e : edit) : Prop :=
  match e with
  | Split d u LeftPiece => forall kv p, direction s d kv p -> Z.of_nat (occurrences kv u) <= p
  | _ => True
  end.

(* the domain without its upper ends *)
Definition below_ends s (us : list R) : Prop := Forall2 (fun kv u => (first_knot kv <= u < final_knot kv)%R) (knots_of s) us.

(* s is reached from s0 by the calls l, each of which was permitted by ok *)
Inductive history (ok : spline (Rops dz) -> edit -> Prop) s0 : list edit -> spline (Rops dz) -> Prop :=
| history_nil : history ok s0 [] s0
| history_step l s e s' : history ok s0 l s -> ok s e -> apply_edit s e = Ok s' -> history ok s0 (l ++ [e]) s'.
End Spec.
