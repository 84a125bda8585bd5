(* Vocabulary for statements about degree elevation and reduction of Bezier segments. *)
From Coq Require Import ZArith List Reals.
From Verif Require Import Base RSum KnotVecSpec.
Import ListNotations.
Open Scope Z_scope.

(* a segment of degree p: [lines] consecutive runs of p+1 points with [dim] numbers each *)
Definition segment_shape (p lines dim : Z) (cps : list (list R)) : Prop :=
  zlen cps = lines * (p + 1) /\ Forall (fun pt => zlen pt = dim) cps.

(* number c of point j of line i *)
Definition value (cps : list (list R)) (p i j c : Z) : R :=
  nth (Z.to_nat c) (nth (Z.to_nat (i * (p + 1) + j)) cps []) 0%R.

(* the Bernstein polynomial binomial(p, j) u^j (1-u)^(p-j) *)
Definition bernstein (p j : Z) (u : R) : R :=
  (C (Z.to_nat p) (Z.to_nat j) * u ^ Z.to_nat j * (1 - u) ^ Z.to_nat (p - j))%R.

(* the Bezier curve with the points f 0, ..., f p *)
Definition bezier (p : Z) (f : Z -> R) (u : R) : R :=
  lsum (fun j => bernstein p j u * f j)%R (zseq 0 (Z.to_nat (p + 1))).

(* point j of the degree elevation of the points f 0, ..., f (p-1), which have degree p-1 *)
Definition elevated (p : Z) (f : Z -> R) (j : Z) : R :=
  ((1 - IZR j / IZR p) * f j + IZR j / IZR p * f (j - 1)%Z)%R.

(* Q, of degree p, is the exact degree elevation of P, of degree p-1 *)
Definition elevation_of (p lines dim : Z) (P Q : list (list R)) : Prop :=
  forall i j c, 0 <= i < lines -> 0 <= j <= p -> 0 <= c < dim ->
    value Q p i j c = elevated p (fun j => value P (p - 1) i j c) j.

(* ---- comparison on a grid of samples ---- *)
(* Euclidean distance of two points *)
Definition euclid (a b : list R) : R :=
  R_sqrt.sqrt (lsum (fun xy => (fst xy - snd xy) * (fst xy - snd xy))%R (combine a b)).

(* sample idx of a grid with [number] intervals per direction over [0, length of the domain] *)
Definition sample (knots : list (list R)) (number : Z) (idx : list Z) : list R :=
  map2 (fun kv i => ((final_knot kv - first_knot kv) / IZR number * IZR i)%R) knots idx.
