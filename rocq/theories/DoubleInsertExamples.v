(* Concrete cases for the theorems about knot insertion in double arithmetic. *)
From Coq Require Import ZArith List Bool Lia Reals Floats Lra.
From Verif Require Import Base MultiIndex KnotVec KnotVecSpec SpacesSpec SplineSpec EditSpec DoubleSpec DoubleFacts DoubleExamples.
Import ListNotations.
Open Scope Z_scope.

Definition tenth : float := 0x1.999999999999ap-4%float.

Lemma kq_insertable : insertable (map dval kq) 2 (dval tenth) 2.
Proof.
  unfold tenth. rewrite kq_val, (proj2 tenth_exact). split; [cbn; lra|]. split.
  - intros i j Hi Hj. cbn [length] in Hi, Hj. unfold tolerance.
    do 8 (destruct i as [|i]; [do 8 (destruct j as [|j]; [cbn; intros; lra|]); lia|]). lia.
  - unfold occurrences. cbn [count_occ]. repeat (destruct (Req_EM_T _ _); [exfalso; lra|]). cbn. lia.
Qed.

Lemma kq_all_insertable : all_insertable (map dval kq) 2 (map dval [tenth; 0.5; tenth]%float).
Proof.
  cbn [map]. unfold tenth. rewrite (proj2 half_exact), (proj2 tenth_exact), kq_val. split; [|split].
  - repeat (apply Forall_cons; [cbn; lra|]). apply Forall_nil.
  - intros i j Hi Hj. cbn [length app] in Hi, Hj. unfold tolerance.
    do 10 (destruct i as [|i]; [do 10 (destruct j as [|j]; [cbn; intros; lra|]); lia|]). lia.
  - intros v [<-|[<-|[<-|[]]]]; unfold occurrences; cbn [count_occ app];
      repeat (destruct (Req_EM_T _ _); [try (exfalso; lra)|try (exfalso; lra)]); cbn; lia.
Qed.

Lemma dpts_bounded : Forall (Forall (fun x => finite x /\ (Rabs (dval x) <= 1)%R)) dpts.
Proof.
  destruct dpts_ok as (_ & _ & _ & H4 & H5 & _). rewrite Forall_forall in *. intros l Hl. specialize (H4 l Hl). specialize (H5 l Hl).
  rewrite Forall_forall in *. intros x Hx. split; [apply (H4 x Hx) | apply (H5 x Hx)].
Qed.

Lemma double_ex_insert : Forall2 double_direction [kq; kl] [2; 1] /\ finite tenth /\ insertable (map dval kq) 2 (dval tenth) 2 /\
  zlen kq < 2 ^ 31 /\ Forall (fun cp => zlen cp = 2) dpts /\ zlen dpts = total (point_counts [kq; kl] [2; 1]) /\ zlen dpts * (1 + 2) < 2 ^ 64 /\
  Forall (Forall (fun x => finite x /\ (Rabs (dval x) <= 1)%R)) dpts /\ (1 <= 2 ^ 499)%R /\
  Forall2 double_parameter [kq; kl] [tenth; 1]%float /\ degree_cost [2; 1] + summands [2; 1] + 1 = 27 /\ depth [2; 1] = 8.
Proof.
  pose proof double_ex as H. destruct dpts_ok as (H1 & H2 & _).
  split; [apply H|]. split; [exact (proj1 tenth_exact)|]. split; [exact kq_insertable|]. split; [reflexivity|].
  split; [exact H1|]. split; [exact H2|]. split; [reflexivity|]. split; [exact dpts_bounded|].
  split; [apply pow_R1_Rle; lra|]. split; [apply H|]. split; reflexivity.
Qed.

Lemma double_ex_refine : Forall2 double_direction [kq; kl] [2; 1] /\ Forall finite [tenth; 0.5; tenth]%float /\
  all_insertable (map dval kq) 2 (map dval [tenth; 0.5; tenth]%float) /\
  zlen kq + 3 <= 2 ^ 31 /\ Forall (fun cp => zlen cp = 2) dpts /\ zlen dpts = total (point_counts [kq; kl] [2; 1]) /\ zlen dpts * (1 + 3) < 2 ^ 64 /\
  Forall (Forall (fun x => finite x /\ (Rabs (dval x) <= 1)%R)) dpts /\ (1 <= 2 ^ 498)%R.
Proof.
  pose proof double_ex as H. destruct dpts_ok as (H1 & H2 & _).
  split; [apply H|]. split; [|split; [exact kq_all_insertable|]].
  - repeat (apply Forall_cons; [first [exact (proj1 tenth_exact) | exact (proj1 half_exact)]|]). apply Forall_nil.
  - split; [vm_compute; discriminate|]. split; [exact H1|]. split; [exact H2|]. split; [reflexivity|]. split; [exact dpts_bounded|]. apply pow_R1_Rle; lra.
Qed.
