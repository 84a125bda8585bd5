(* C70: IRIT files of any origin. *)
From Coq Require Import ZArith Ascii String List Reals.
From Verif Require Import Base StrSpec StrOps Spaces SplineEval SplineSpec Convert FormatSpec XmlReadSpec Irit IgesReadSpec IritDocSpec IritDocThms.
Import ListNotations.
Open Scope Z_scope.

(* The curves, surfaces and volumes of a file are read in their order, with the degrees, knots and weights
   written down; the coordinates are those written divided by the weight.  Everything else is left out. *)
Theorem C70_irit_document : forall dz text parts xs, words_of_file text (concat parts) -> Forall2 says_words parts xs ->
  exists os, read_irit (F := Rops dz) toward_zero text = Ok os /\
    Forall2 (fun x o => exists s, holds (zlen (so_degs x)) o s /\ described_homogeneous x s) (sources xs) os.
Proof. exact irit_document. Qed.
Print Assumptions C70_irit_document.

Example C70_irit_document_example : words_of_file ex_irit_text (concat ex_irit_parts) /\ Forall2 says_words ex_irit_parts [None; None; None; Some ex_irit_source; None].
Proof. exact (conj ex_irit_words ex_irit_says). Qed.
Example C70_irit_point_example : forall dz (s : spline (Rops dz)), described_homogeneous ex_irit_source s -> coordinate s [1] 0 = 2%R /\ ph_wts (sp_ph s) = Some [1%R; 2%R].
Proof. exact ex_irit_point. Qed.

(* Lines are put together without anything between them.  An object of type BSPLINE behind which no word
   begins with [KV makes the reader run past the end. *)
Theorem C70_irit_no_knots : forall dz text parts xs kind d rest,
  words_of_file text (concat parts ++ kind :: of_string "BSPLINE" :: rest) -> Forall2 says_words parts xs -> kind_of d kind ->
  Forall (fun t => forall r, t <> of_string "[KV" ++ r) rest -> read_irit (F := Rops dz) toward_zero text = UB.
Proof. exact irit_without_knots. Qed.
Print Assumptions C70_irit_no_knots.

(* for example a complete curve whose lines begin in the first column *)
Example C70_irit_no_knots_example : words_of_file ex_left_text (concat [] ++ of_string "[CURVE" :: of_string "BSPLINE" :: ex_left_rest) /\
  kind_of 1 (of_string "[CURVE") /\ Forall (fun t => forall r, t <> of_string "[KV" ++ r) ex_left_rest.
Proof. exact ex_left_words. Qed.
