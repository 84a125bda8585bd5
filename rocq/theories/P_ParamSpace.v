(* Properties of parameter spaces: C06 (multiplicities of all knots), C09, C11, C12. *)
From Coq Require Import ZArith List Reals Floats.
From Verif Require Import Base KnotVec KnotVecSpec Basis Spaces SpacesSpec SpacesThms.
Import ListNotations.
Open Scope Z_scope.

Theorem C06_increment_all_multiplicities : forall dz knots degs ps d kv,
  length knots = length degs -> Forall (fun kv => kv <> []) knots ->
  ps_new (F := Rops dz) knots degs = Ok ps -> nth_error knots d = Some kv -> nondecreasing kv ->
  exists ps' kv', ps_increment_all ps d = Ok ps' /\
    ps_knots ps' = upd knots d kv' /\ ps_degs ps' = degs /\
    create_bases (ps_knots ps') degs = Ok (ps_bfs ps') /\ nondecreasing kv' /\
    forall x, occurrences kv' x = (occurrences kv x + if in_dec Req_EM_T x kv then 1 else 0)%nat.
Proof. exact increment_all_thm. Qed.
Print Assumptions C06_increment_all_multiplicities.

Theorem C06_decrement_all_multiplicities : forall dz knots degs ps d kv p,
  length knots = length degs -> Forall (fun kv => kv <> []) knots ->
  ps_new (F := Rops dz) knots degs = Ok ps -> nth_error knots d = Some kv -> nth_error degs d = Some p ->
  nondecreasing kv -> separated kv -> p + 1 + Z.of_nat (distinct_values kv) <= Z.of_nat (length kv) ->
  exists ps' kv', ps_decrement_all ps d = Ok ps' /\
    ps_knots ps' = upd knots d kv' /\ ps_degs ps' = degs /\ nondecreasing kv' /\
    forall x, occurrences kv x = (occurrences kv' x + if in_dec Req_EM_T x kv then 1 else 0)%nat.
Proof. exact decrement_all_thm. Qed.
Print Assumptions C06_decrement_all_multiplicities.

Theorem C09_partition_of_unity : forall dz knots degs ps d u kv p,
  length knots = length degs -> Forall (fun kv => kv <> []) knots ->
  ps_new (F := Rops dz) knots degs = Ok ps ->
  nth_error knots d = Some kv -> nth_error degs d = Some p ->
  nondecreasing kv -> separated kv -> (first_knot kv < final_knot kv)%R ->
  (first_knot kv <= u <= final_knot kv)%R ->
  exists vs, eval_all_nonzero ps d u = Ok vs /\ zlen vs = p + 1 /\ fold_right Rplus 0%R vs = 1%R.
Proof. exact partition_unity_thm. Qed.
Print Assumptions C09_partition_of_unity.

Example C06_C09_example : exists ps, ps_new (F := Rops (fun x => x)) ex_knots ex_degs = Ok ps /\
  nth_error ex_knots 0 = Some [0; 0; 0; 1; 2; 2; 2]%R /\ nth_error ex_degs 0 = Some 2 /\
  nondecreasing [0; 0; 0; 1; 2; 2; 2]%R /\ separated [0; 0; 0; 1; 2; 2; 2]%R /\
  (first_knot [0; 0; 0; 1; 2; 2; 2] < final_knot [0; 0; 0; 1; 2; 2; 2])%R /\
  (first_knot [0; 0; 0; 1; 2; 2; 2] <= 1.5 <= final_knot [0; 0; 0; 1; 2; 2; 2])%R /\
  2 + 1 + Z.of_nat (distinct_values [0; 0; 0; 1; 2; 2; 2]%R) <= 7.
Proof. exact ex_pou. Qed.

(* Partition of unity without the separation hypothesis fails. *)
Theorem C11_close_knots_refuted : exists (kv : list float) (u : float) ps vs,
  (forall i a b, nth_error kv i = Some a -> nth_error kv (S i) = Some b -> PrimFloat.leb a b = true) /\
  (PrimFloat.leb 0 u = true /\ PrimFloat.leb u 1 = true) /\
  kv = [0; 0; 0x1p-52; 1; 1]%float /\
  ps_new (F := Fops) [kv] [1] = Ok ps /\
  throw_if_outside ps [u] = Ok tt /\
  eval_all_nonzero ps 0 u = Ok vs /\ PrimFloat.eqb (fold_right PrimFloat.add 0%float vs) 0 = true.
Proof. exact close_knots. Qed.
Print Assumptions C11_close_knots_refuted.

Theorem C12_constructor_accepts_exactly_clamped : forall dz knots degs,
  length knots = length degs -> Forall (fun kv => kv <> []) knots ->
  (Forall2 (fun kv p => 0 <= p /\ clamped kv p) knots degs ->
     exists ps, ps_new (F := Rops dz) knots degs = Ok ps /\ ps_knots ps = knots /\ ps_degs ps = degs /\
       Forall2 (fun fs kp => zlen fs = zlen (fst kp) - snd kp - 1 /\
                  forall i, 0 <= i < zlen fs ->
                    vget fs i = create_dynamic (F := Rops dz) (fst kp) i (snd kp)) (ps_bfs ps) (combine knots degs)) /\
  (~ Forall2 (fun kv p => 0 <= p /\ clamped kv p) knots degs ->
     ps_new (F := Rops dz) knots degs = Throw RuntimeError).
Proof. exact constructor_iff. Qed.
Print Assumptions C12_constructor_accepts_exactly_clamped.

Example C12_accepted_example : length ex_knots = length ex_degs /\ Forall (fun kv => kv <> []) ex_knots /\
  Forall2 (fun kv p => 0 <= p /\ clamped kv p) ex_knots ex_degs.
Proof. exact ex_ctor. Qed.

Example C12_rejected_example : length [[0; 0; 1; 2]%R] = length [1] /\
  ~ Forall2 (fun kv p => 0 <= p /\ clamped kv p) [[0; 0; 1; 2]%R] [1].
Proof. exact ex_ctor_bad. Qed.
