(* Properties C01, C02, C03: multi-index handler. *)
From Coq Require Import ZArith List Lia.
From Verif Require Import Base MultiIndex MultiIndexSpec MultiIndexFacts.
Import ListNotations.
Open Scope Z_scope.

(* C01 *)
Theorem C01_enumeration : forall lens, pos_lens lens ->
  NoDup (visited lens) /\
  (forall idx, In idx (visited lens) <-> in_box lens idx) /\
  (forall k, 0 <= k < total lens -> get1d lens (nth_index lens (Z.to_nat k)) = k) /\
  nth_index lens (Z.to_nat (total lens)) = origin lens.
Proof. exact enumeration. Qed.
Print Assumptions C01_enumeration.

Example C01_enumeration_example :
  pos_lens [2; 1; 3] /\ nth_index [2; 1; 3] 5 = [1; 0; 2].
Proof. split; [repeat constructor; lia | reflexivity]. Qed.

(* C02 *)
Theorem C02_stepping_reversible : forall h n, in_box (mlen h) (mcur h) ->
  mih_minus (mih_plus h n) n = h /\ mih_plus (mih_minus h n) n = h /\
  mih_decr (mih_incr h) = h /\ mih_incr (mih_decr h) = h.
Proof. exact plus_minus_inverse. Qed.
Print Assumptions C02_stepping_reversible.

Example C02_stepping_reversible_example :
  in_box [2; 3] [1; 2] /\ mcur (mih_plus (mkMih [2; 3] [1; 2]) 3) = [0; 1].
Proof. split; [repeat constructor; lia | reflexivity]. Qed.

(* C03 *)
Theorem C03_linear_index_bijective : forall lens, pos_lens lens ->
  (forall i1 i2, in_box lens i1 -> in_box lens i2 -> get1d lens i1 = get1d lens i2 -> i1 = i2) /\
  (forall idx, in_box lens idx -> 0 <= get1d lens idx < total lens) /\
  (forall k, 0 <= k < total lens -> exists idx, in_box lens idx /\ get1d lens idx = k).
Proof. exact get1d_bijective. Qed.
Print Assumptions C03_linear_index_bijective.

Theorem C03_set1d_terminates_iff : forall h i, in_box (mlen h) (mcur h) ->
  (0 <= i < total (mlen h) ->
     exists n h', set1d n h i = Some h' /\ in_box (mlen h) (mcur h') /\ mlen h' = mlen h /\
                  get1d (mlen h) (mcur h') = i) /\
  (~ (0 <= i < total (mlen h)) -> forall n, set1d n h i = None).
Proof. exact set1d_spec. Qed.
Print Assumptions C03_set1d_terminates_iff.

Example C03_set1d_example :
  in_box [2; 3] [1; 2] /\ set1d 10 (mkMih [2; 3] [1; 2]) 4 = Some (mkMih [2; 3] [0; 2]).
Proof. split; [repeat constructor; lia | reflexivity]. Qed.

Theorem C03_slice_number : forall lens i1 i2 d,
  in_box lens i1 -> in_box lens i2 -> (d < length lens)%nat ->
  let e i := extract_dimension (mkMih lens i) d in
  0 <= e i1 /\ nth d lens 0 * e i1 < total lens /\
  ((forall m, m <> d -> nth m i1 0 = nth m i2 0) <-> e i1 = e i2).
Proof. exact extract_dimension_spec. Qed.
Print Assumptions C03_slice_number.

Example C03_slice_number_example :
  in_box [2; 3; 2] [1; 2; 1] /\ extract_dimension (mkMih [2; 3; 2] [1; 2; 1]) 1 = 3.
Proof. split; [repeat constructor; lia | reflexivity]. Qed.
