(* Concrete cases for NURBS in doubles, and what rounding breaks. *)
From Coq Require Import ZArith List Bool Lia Reals Floats Lra.
From Verif Require Import Base RSum MultiIndex KnotVec KnotVecSpec SpacesSpec SplineSpec SplineEval DoubleSpec DoubleFacts DoubleExamples DoubleRationalSpec.
Import ListNotations.
Open Scope Z_scope.

Definition dwts : list float := [1; 0.5; 1; 0x1.999999999999ap-4; 0.5; 1; 1; 0.5]%float.
Lemma w_range x (r : R) : finite x /\ dval x = r -> (/ 16 <= r <= 1)%R -> double_weight x.
Proof.
  intros [F E] H. split; [exact F|]. rewrite E. assert (1 <= 2 ^ 96)%R by (apply pow_R1_Rle; lra).
  assert (/ 2 ^ 100 <= / 16)%R.
  { apply Rinv_le_contravar; [lra|]. replace 16%R with (2 ^ 4)%R by ring. apply Rle_pow; [lra | lia]. }
  assert (1 <= 2 ^ 100)%R by (apply pow_R1_Rle; lra). lra.
Qed.
Lemma rational_ex : Forall2 double_direction [kq; kl] [2; 1] /\
  Forall2 double_parameter [kq; kl] [0x1.999999999999ap-4; 1]%float /\
  Forall (fun cp => zlen cp = 2) dpts /\ zlen dpts = total (point_counts [kq; kl] [2; 1]) /\ zlen dpts < 2 ^ 64 /\
  zlen dwts = zlen dpts /\ Forall double_weight dwts /\
  Forall (Forall moderate) dpts /\ Forall (Forall (fun x => Rabs (dval x) <= 1)%R) dpts /\ (1 <= 2 ^ 500)%R /\
  3 * (degree_cost [2; 1] + summands [2; 1]) + 7 = 85 /\ depth [2; 1] = 8.
Proof.
  destruct double_ex as (A1 & A2 & _ & _ & A3 & A4 & A5 & A6 & A7 & A8 & _).
  assert (W1 : double_weight 1%float) by (apply (w_range _ 1 one_exact); lra).
  assert (Wh : double_weight 0.5%float) by (apply (w_range _ _ half_exact); lra).
  assert (Wt : double_weight 0x1.999999999999ap-4%float) by (apply (w_range _ _ tenth_exact); lra).
  split; [exact A1|]. split; [exact A2|]. split; [exact A3|]. split; [exact A4|]. split; [exact A5|]. split; [reflexivity|].
  split; [|split; [exact A6|]; split; [exact A7|]; split; [exact A8|]; split; reflexivity].
  repeat (apply Forall_cons; [first [exact W1 | exact Wh | exact Wt]|]). apply Forall_nil.
Qed.

(* 49 * (1 / 49) is not 1 in doubles: a line over [0, 49] misses its own end points *)
Definition line49 : bool :=
  match spline_new (F := Fops) [[0; 0; 49; 49]%float] [1] [[1]; [1]]%float None with
  | Ok s => match evaluate s [0%float] [0], evaluate s [49%float] [0] with
            | Ok [v], Ok [w] => PrimFloat.ltb v 1 && PrimFloat.ltb w 1
            | _, _ => false
            end
  | _ => false
  end.
Lemma line49_true : line49 = true.
Proof. vm_compute. reflexivity. Qed.
Lemma end_missed : exists (kv : list float) s v w, spline_new (F := Fops) [kv] [1] [[1]; [1]]%float None = Ok s /\
  evaluate s [nth 0 kv 0%float] [0] = Ok [v] /\ evaluate s [last kv 0%float] [0] = Ok [w] /\
  v <> 1%float /\ w <> 1%float.
Proof.
  exists [0; 0; 49; 49]%float. pose proof line49_true as H. unfold line49 in H.
  destruct (spline_new _ _ _ _) as [s| |]; try discriminate. exists s.
  change (nth 0 [0; 0; 49; 49]%float 0%float) with 0%float. change (last [0; 0; 49; 49]%float 0%float) with 49%float.
  destruct (evaluate s [0%float] [0]) as [[|v [|]]| |]; try discriminate.
  destruct (evaluate s [49%float] [0]) as [[|w [|]]| |]; try discriminate.
  exists v, w. apply andb_prop in H. destruct H as [H1 H2].
  assert (I : PrimFloat.ltb 1 1 = false) by reflexivity.
  repeat split; intros ->; congruence.
Qed.
