(* Example for C98: the surface of EvalThms.v, whose second coordinate rises and falls along the first direction. *)
From Coq Require Import ZArith List Bool Lia Reals Lra Sorted.
From Verif Require Import Base MultiIndexSpec KnotVecSpec Spaces SpacesSpec SpacesThms SplineEval SplineSpec EvalThms EditSpec InsertThms VariesSpec.
Import ListNotations.
Open Scope Z_scope.

Lemma ex_varies : exists s : spline (Rops (fun x => x)), well_formed s /\ is_bspline s /\ in_domain s [(1/2)%R; (1/4)%R] /\
  Forall (fun v => in_domain s (upd [(1/2)%R; (1/4)%R] 0 v)) [0; 1/2; 1; 3/2; 2]%R /\ Sorted Rle [0; 1/2; 1; 3/2; 2]%R /\ 0 <= 1 < ph_dim (sp_ph s) /\
  rows_within s 0 1 4%R /\ rows_within s 1 1 3%R /\ direction s 0 [0; 0; 0; 1; 2; 2; 2]%R 2 /\ all_insertable [0; 0; 0; 1; 2; 2; 2]%R 2 [1; 1/2; 1]%R /\ length (npts_of s) = 2%nat.
Proof.
  destruct (ex_spline None) as (s & _ & W & Ew & Hu & _ & Ek & Ed & Em & Ec & En & _); [auto|].
  exists s. split; [exact W|]. split; [exact Ew|]. split; [exact Hu|].
  split; [unfold in_domain; rewrite Ek; unfold ex_knots; cbn [upd]; repeat (apply Forall_cons || apply Forall_nil || apply Forall2_cons || apply Forall2_nil); unfold first_knot, final_knot, knot; cbn; lra|].
  split; [repeat (apply Sorted_cons || apply Sorted_nil || apply HdRel_cons || apply HdRel_nil); lra|]. split; [rewrite Em; lia|].
  assert (P : forall idx, in_box [4; 2] idx -> exists i j, idx = [i; j] /\ (i = 0 \/ i = 1 \/ i = 2 \/ i = 3) /\ (j = 0 \/ j = 1)).
  { intros idx H. inversion H as [|? i ? r H1 H2]; subst. inversion H2 as [|? j ? r' H3 H4]; subst. inversion H4; subst. exists i, j. repeat split; lia. }
  assert (C : forall idx c, coordinate s idx c = nth (Z.to_nat (2 * position [4; 2] idx + c)) (concat ex_points) 0%R) by (intros; unfold coordinate; now rewrite Em, Ec, En).
  split; [|split; [|split; [unfold direction; rewrite Ek, Ed; split; reflexivity|]; split; [apply ex_all_insertable | now rewrite En]]].
  - intros idx H1. rewrite En in H1. destruct (P idx H1) as (i & j & -> & _ & Hj). unfold row_of. rewrite En. change (Z.to_nat (nth 0 [4; 2] 0)) with 4%nat. cbn [seq map upd variation].
    rewrite !C. destruct Hj as [->| ->];
      repeat match goal with |- context [Z.to_nat ?e] => let v := eval vm_compute in (Z.to_nat e) in change (Z.to_nat e) with v end; cbn [nth ex_points concat app];
      unfold Rabs; repeat destruct (Rcase_abs _); lra.
  - intros idx H1. rewrite En in H1. destruct (P idx H1) as (i & j & -> & Hi & _). unfold row_of. rewrite En. change (Z.to_nat (nth 1 [4; 2] 0)) with 2%nat. cbn [seq map upd variation].
    rewrite !C. destruct Hi as [->|[->|[->| ->]]];
      repeat match goal with |- context [Z.to_nat ?e] => let v := eval vm_compute in (Z.to_nat e) in change (Z.to_nat e) with v end; cbn [nth ex_points concat app];
      unfold Rabs; repeat destruct (Rcase_abs _); lra.
Qed.
