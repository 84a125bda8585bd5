(* Lemmas closing the theorems of P_Basis.v. *)
From Coq Require Import ZArith List Bool Lia Reals Lra.
From Verif Require Import Base BaseFacts KnotVec KnotVecSpec KnotVecFacts KnotVecThms Basis BasisSpec
  RSum BSplineTheory BasisFacts Spaces.
Import ListNotations.
Open Scope Z_scope.

Lemma create_ok dz kv p i : (i + p + 1 < length kv)%nat ->
  create_dynamic (F := Rops dz) kv (Z.of_nat i) (Z.of_nat p) = Ok (mkbf dz kv (Z.of_nat i) p).
Proof. intros H. rewrite create_dynamic_ok by (unfold zlen; lia). now rewrite Nat2Z.id. Qed.

Lemma basis_is_cox : forall dz kv p i, nondecreasing kv -> separated kv -> (i + p + 1 < length kv)%nat ->
  exists b, create_dynamic (F := Rops dz) kv (Z.of_nat i) (Z.of_nat p) = Ok b /\
    forall u, (1 <= p)%nat \/ (knot kv i < knot kv (S i))%R \/ u <> final_knot kv ->
              bf_eval b u = cox_de_boor kv p i u.
Proof.
  intros dz kv p i Hn Hs Hl. eexists; split; [now apply create_ok|].
  intros u Hu. now apply bf_eval_cox.
Qed.

Lemma basis_nonneg_local : forall dz kv p i, nondecreasing kv -> (i + p + 1 < length kv)%nat ->
  exists b, create_dynamic (F := Rops dz) kv (Z.of_nat i) (Z.of_nat p) = Ok b /\
    (forall u, (0 <= bf_eval b u)%R) /\
    (forall u, (u < knot kv i)%R \/ (knot kv (i + p + 1) < u)%R -> bf_eval b u = 0%R).
Proof.
  intros dz kv p i Hn Hl. eexists; split; [now apply create_ok|]. split.
  - intros u. now apply bf_nonneg.
  - intros u Hu. destruct (Req_EM_T (bf_eval (mkbf dz kv (Z.of_nat i) p) u) 0) as [E|E]; auto. exfalso.
    apply bf_support in E; auto.
    replace (Z.of_nat i + Z.of_nat p + 1) with (Z.of_nat (i + p + 1)) in E by lia.
    rewrite !tk_knot in E by lia. lra.
Qed.

Lemma basis_only_span : forall dz kv p u,
  nondecreasing kv -> separated kv -> (first_knot kv < final_knot kv)%R ->
  (first_knot kv <= u <= final_knot kv)%R ->
  exists k, knot_span (F := Rops dz) kv u = Ok k /\
    forall i b, (i + p + 1 < length kv)%nat -> (1 <= p)%nat \/ (knot kv i < knot kv (S i))%R ->
      create_dynamic (F := Rops dz) kv (Z.of_nat i) (Z.of_nat p) = Ok b ->
      ~ (k - Z.of_nat p <= Z.of_nat i <= k) -> bf_eval b u = 0%R.
Proof.
  intros dz kv p u Hn Hs Hne Hu.
  destruct (knot_span_in_span dz kv u Hn Hs Hne Hu) as (k & E & Hk).
  exists k; split; auto. intros i b Hl Hp Hb Hi.
  rewrite create_ok in Hb by auto. inversion Hb; subst b.
  rewrite (bf_eval_piece dz kv k p (Z.of_nat i) u); auto; try (unfold zlen; lia).
  - apply B_outside. lia.
  - replace (Z.of_nat i + 1) with (Z.of_nat (S i)) by lia. rewrite !tk_knot by lia. exact Hp.
Qed.

Lemma between_knots kv u : nondecreasing kv -> ~ In u kv ->
  (first_knot kv < u < final_knot kv)%R -> exists k, 0 <= k /\ k + 1 < zlen kv /\ (tk kv k < u < tk kv (k + 1))%R.
Proof.
  intros Hn Hni [H1 H2].
  assert (H : forall n, (n < length kv)%nat -> (u < knot kv n)%R ->
     exists k, (S k < length kv)%nat /\ (knot kv k < u < knot kv (S k))%R).
  { induction n as [|n IH]; intros Hl Hlt.
    - unfold first_knot, knot in *. lra.
    - destruct (Rlt_dec u (knot kv n)) as [C|C]; [apply IH; auto; lia|].
      exists n. split; auto. split; auto.
      destruct (Req_EM_T (knot kv n) u) as [E|E]; [|lra].
      exfalso. apply Hni. rewrite <- E. apply nth_In. lia. }
  destruct (H (length kv - 1)%nat) as (k & Hk & Hk1).
  - destruct kv; cbn; [|lia]. unfold first_knot, final_knot in *; cbn in *; lra.
  - exact H2.
  - exists (Z.of_nat k). replace (Z.of_nat k + 1) with (Z.of_nat (S k)) by lia. rewrite !tk_knot by lia.
    unfold zlen. repeat split; try lia; lra.
Qed.

(* near a parameter that is not a knot the basis function derivatives are one polynomial piece *)
Lemma open_span kv k u v : (0 <= k) -> k + 1 < zlen kv -> (tk kv k < u < tk kv (k + 1))%R ->
  (Rabs (v - u) < Rmin (u - tk kv k) (tk kv (k + 1) - u))%R -> in_span kv k v.
Proof.
  intros H0 H1 H2 Hv.
  assert (A : (Rabs (v - u) < u - tk kv k)%R) by (eapply Rlt_le_trans; [exact Hv | apply Rmin_l]).
  assert (A2 : (Rabs (v - u) < tk kv (k + 1) - u)%R) by (eapply Rlt_le_trans; [exact Hv | apply Rmin_r]).
  apply Rabs_def2 in A. apply Rabs_def2 in A2. unfold in_span. repeat split; auto; try lra. 
Qed.

Lemma basis_derivative : forall dz kv p i, nondecreasing kv -> separated kv -> (i + p + 1 < length kv)%nat ->
  exists b, create_dynamic (F := Rops dz) kv (Z.of_nat i) (Z.of_nat p) = Ok b /\
    (forall u, bf_deriv b u 0 = bf_eval b u) /\
    (forall u m, ~ In u kv ->
       derivable_pt_lim (fun v => bf_deriv b v (Z.of_nat m)) u (bf_deriv b u (Z.of_nat (S m)))) /\
    (forall u m, (p < m)%nat -> bf_deriv b u (Z.of_nat m) = 0%R).
Proof.
  intros dz kv p i Hn Hs Hl. eexists; split; [now apply create_ok|]. split; [|split].
  - intros u. apply bf_deriv_0.
  - intros u m Hni.
    assert (Hlz : Z.of_nat i + Z.of_nat p + 1 < zlen kv) by (unfold zlen; lia).
    assert (Hfl : (first_knot kv <= final_knot kv)%R).
    { unfold first_knot, final_knot. apply (Hn 0%nat (length kv - 1)%nat); lia. }
    assert (Hout : (u < first_knot kv)%R \/ (final_knot kv < u)%R \/ (first_knot kv < u < final_knot kv)%R).
    { assert (u <> first_knot kv) by (intros ->; apply Hni, nth_In; lia).
      assert (u <> final_knot kv) by (intros ->; apply Hni, nth_In; lia). lra. }
    destruct Hout as [Ho|[Ho|Ho]].
    + rewrite bf_deriv_out by (auto; lia).
      apply (derivable_local (fun _ => 0%R) _ u 0 (first_knot kv - u)); [lra| |apply derivable_pt_lim_const].
      intros v Hv. apply Rabs_def2 in Hv. symmetry. apply bf_deriv_out; auto; try lia. left; lra.
    + rewrite bf_deriv_out by (auto; lia).
      apply (derivable_local (fun _ => 0%R) _ u 0 (u - final_knot kv)); [lra| |apply derivable_pt_lim_const].
      intros v Hv. apply Rabs_def2 in Hv. symmetry. apply bf_deriv_out; auto; try lia. right; lra.
    + destruct (between_knots kv u Hn Hni Ho) as (k & Hk0 & Hk1 & Hku).
      assert (Hpos : (0 < Rmin (u - tk kv k) (tk kv (k + 1) - u))%R) by (apply Rmin_pos; lra).
      assert (Hin : in_span kv k u).
      { apply (open_span kv k u u); auto. rewrite Rminus_diag_eq by reflexivity. rewrite Rabs_R0. auto. }
      destruct (Nat.eq_dec p 0) as [->|Hp0].
      * (* degree 0 *)
        assert (Hz : forall v, in_span kv k v -> v <> final_knot kv ->
                  bf_deriv (mkbf dz kv (Z.of_nat i) 0) v (Z.of_nat m) = DB (tk kv) k m 0 (Z.of_nat i) v).
        { intros v Hv Hvf. destruct m as [|m]; [|reflexivity].
          rewrite bf_deriv_0. destruct (Rlt_dec (tk kv (Z.of_nat i)) (tk kv (Z.of_nat i + 1))) as [C|C].
          - apply bf_eval_piece; auto; try lia.
          - cbn [mkbf bf_eval]. replace (Z.of_nat i + Z.of_nat 0 + 1) with (Z.of_nat i + 1) by lia.
            pose proof (in_support_mk dz kv (Z.of_nat i) (Z.of_nat i + 1) v Hs Hn) as Hiff.
            destruct (in_support _ _ _ _).
            + exfalso. destruct (proj1 Hiff eq_refl) as [?|[? ?]]; [lra | contradiction].
            + symmetry. cbn [DB]. apply B_outside. intros Ha. assert (Z.of_nat i = k) by lia. subst k. lra. }
        rewrite (bf_deriv_S dz _ u (Z.of_nat (S m))) by lia. cbn [mkbf].
        apply (derivable_local (DB (tk kv) k m 0 (Z.of_nat i)) _ u 0 _ Hpos).
        -- intros v Hv. symmetry. pose proof (open_span kv k u v Hk0 Hk1 Hku Hv) as Hsv.
           apply Hz; auto. apply Rlt_not_eq.
           assert (Hlt : (Rabs (v - u) < tk kv (k + 1) - u)%R) by (eapply Rlt_le_trans; [exact Hv | apply Rmin_r]).
           apply Rabs_def2 in Hlt. pose proof (tk_le_final kv (k + 1) Hn). lra.
        -- apply (DB_derivable (tk kv) (tk_monotone kv Hn) k ltac:(lra) m 0 (Z.of_nat i) u).
      * rewrite (bf_deriv_piece dz kv k (S m) p (Z.of_nat i) u); auto; try lia.
        apply (derivable_local (DB (tk kv) k m p (Z.of_nat i)) _ u _ _ Hpos).
        -- intros v Hv. symmetry. apply bf_deriv_piece; auto; try lia. eapply open_span; eauto.
        -- apply (DB_derivable (tk kv) (tk_monotone kv Hn) k ltac:(lra)).
  - clear. intros u m Hm. generalize (Z.of_nat i) as z. revert m Hm. induction p as [|q IH]; intros m Hm z.
    + rewrite bf_deriv_S by lia. reflexivity.
    + rewrite bf_deriv_S by lia. cbn [mkbf]. replace (Z.of_nat m - 1) with (Z.of_nat (m - 1)) by lia.
      rewrite !IH by lia. destruct (in_support _ _ _ _); lra.
Qed.

Lemma sep_by_list (l : list R) : (forall x y, In x l -> In y l -> (x < y)%R -> (x + / 100 <= y)%R) -> separated l.
Proof.
  intros H i j Hi Hj Hlt. pose proof tolerance_lt.
  pose proof (H (knot l i) (knot l j) ltac:(now apply nth_In) ltac:(now apply nth_In) Hlt). lra.
Qed.
Ltac sepsolve := apply sep_by_list; cbn [In]; intros x y Hx Hy Hxy;
  repeat (destruct Hx as [Hx|Hx]; [subst x|]); try contradiction;
  repeat (destruct Hy as [Hy|Hy]; [subst y|]); try contradiction; lra.

Definition ex_kv : list R := [0; 0; 0; 1; 2; 2; 2]%R.
Lemma ex_kv_nondec : nondecreasing ex_kv.
Proof. unfold ex_kv. nondec. Qed.
Lemma ex_kv_sep : separated ex_kv.
Proof. unfold ex_kv. sepsolve. Qed.
Lemma ex_kv_range : (first_knot ex_kv = 0 /\ final_knot ex_kv = 2)%R.
Proof. split; reflexivity. Qed.
Lemma ex_kv_notin : ~ In (1/2)%R ex_kv.
Proof. unfold ex_kv. intros H. repeat (destruct H as [H|H]; [lra|]). exact H. Qed.

Lemma basis_degenerate : forall dz, exists kv i u b,
  nondecreasing kv /\ separated kv /\ (i + 0 + 1 < length kv)%nat /\
  create_dynamic (F := Rops dz) kv (Z.of_nat i) 0 = Ok b /\
  bf_eval b u = 1%R /\ cox_de_boor kv 0 i u = 0%R.
Proof.
  intros dz. exists [0; 1; 1]%R, 1%nat, 1%R. eexists.
  split; [nondec|]. split; [sepsolve|]. split; [cbn; lia|].
  split; [exact (create_ok dz [0; 1; 1]%R 0 1 ltac:(cbn; lia))|]. split.
  - cbn [mkbf bf_eval].
    replace (in_support _ _ _ _) with true; [reflexivity|]. symmetry. apply in_support_spec. right.
    split; [|reflexivity]. apply near_are_equal. apply near_refl.
  - cbn [cox_de_boor]. destruct (in_piece_dec _ _ _) as [H|H]; auto. exfalso.
    unfold in_piece, knot, final_knot in H. cbn in H. lra.
Qed.
