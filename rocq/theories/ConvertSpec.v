(* Vocabulary for statements about the converter. *)
From Coq Require Import ZArith Ascii String List.
From Verif Require Import Base StrSpec StrOps Convert.
Import ListNotations.
Open Scope Z_scope.

Definition spline_dim {A} (s : any A) (d : Z) : Prop := exists a, s = AnyB d a \/ s = AnyN d a.
Definition is_spline {A} (s : any A) : Prop := exists d, spline_dim s d /\ 1 <= d <= 4.

(* l' is l without the entries that do not satisfy P *)
Inductive kept {B} (P : B -> Prop) : list B -> list B -> Prop :=
| kept_nil : kept P [] []
| kept_in x l l' : P x -> kept P l l' -> kept P (x :: l) (x :: l')
| kept_out x l l' : ~ P x -> kept P l l' -> kept P (x :: l) l'.

(* the parametric dimensions a format can hold *)
Definition holds (f : format) (d : Z) : Prop :=
  match f with FIges => d <= 2 | FIrit | FVtk => d <= 3 | FXml => d <= 4 | FError => False end.
(* x is entry number p of l *)
Definition entry_at {B} (l : list B) (p : Z) (x : B) : Prop := 0 <= p /\ nth_error l (Z.to_nat p) = Some x.
Definition writable {A} (f : format) (splines : list (any A)) (p : Z) : Prop :=
  exists s d, entry_at splines p s /\ spline_dim s d /\ holds f d.
(* the positions asked for: all of them when the request is empty *)
Definition requested {A} (splines : list (any A)) (positions : list Z) : list Z :=
  match positions with [] => map Z.of_nat (seq 0 (List.length splines)) | _ => positions end.

(* the file name extensions *)
Definition extension (f : format) : list ascii :=
  match f with FIges => of_string ".iges" | FIrit => of_string ".itd" | FVtk => of_string ".vtk" | FXml => of_string ".xml" | FError => [] end.
(* t is at the end of s and nowhere else *)
Definition only_at_end (t s : list ascii) : Prop := suffix_of t s /\ forall n, (n < List.length s - List.length t)%nat -> ~ occurs_at t s n.
