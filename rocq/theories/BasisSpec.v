(* The B-spline basis functions as defined in the literature (Cox-de Boor recursion). *)
From Coq Require Import List Reals Lra.
From Verif Require Import KnotVecSpec.
Open Scope R_scope.

(* u lies in the half-open piece [t_i, t_{i+1}); the last non-empty piece is closed *)
Definition in_piece (kv : list R) (i : nat) (u : R) : Prop :=
  (knot kv i <= u < knot kv (S i)) \/
  (knot kv i < u /\ u = knot kv (S i) /\ u = final_knot kv).

Lemma in_piece_dec kv i u : {in_piece kv i u} + {~ in_piece kv i u}.
Proof.
  unfold in_piece.
  destruct (Rle_dec (knot kv i) u); [|right; lra].
  destruct (Rlt_dec u (knot kv (S i))); [left; lra|].
  destruct (Rlt_dec (knot kv i) u); [|right; lra].
  destruct (Req_EM_T u (knot kv (S i))); [|right; lra].
  destruct (Req_EM_T u (final_knot kv)); [left; lra | right; lra].
Defined.

(* x / y with 0 / 0 := 0 *)
Definition quotient (x y : R) : R := if Req_EM_T y 0 then 0 else x / y.

Fixpoint cox_de_boor (kv : list R) (p i : nat) (u : R) : R :=
  match p with
  | O => if in_piece_dec kv i u then 1 else 0
  | S q => quotient (u - knot kv i) (knot kv (i + p) - knot kv i) * cox_de_boor kv q i u
           + quotient (knot kv (i + p + 1) - u) (knot kv (i + p + 1) - knot kv (i + 1)) * cox_de_boor kv q (i + 1) u
  end.
