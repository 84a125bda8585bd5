(* Inserted knots can be removed again in any order (C91). *)
From Coq Require Import ZArith List Bool Lia Reals Lra Permutation.
From Verif Require Import Base BaseFacts KnotVec KnotVecSpec KnotVecFacts KnotVecThms Spaces SpacesSpec SpacesFacts SplineEval SplineEdit SplineSpec
  InsertKnots InsertFacts EditSpec InsertThms InsertRepeat KnotRuns OrderSpec OrderThms UndoSpec.
Import ListNotations.
Open Scope Z_scope.

Definition put_back (e : removal) : insertion := match e with RemoveIt u d _ r => InsertIt u d r end.

Lemma asked_put_back rs d : asked_in (map put_back rs) d = removed_in rs d.
Proof. induction rs as [|[u d' tol r] rs IH]; cbn [map asked_in removed_in put_back direction_of asked]; auto. now rewrite IH. Qed.

Lemma asked_in_app es es' d : asked_in (es ++ es') d = asked_in es d ++ asked_in es' d.
Proof. induction es as [|e es IH]; cbn [app asked_in]; auto. now rewrite IH, app_assoc. Qed.

Lemma fewer_insertable kv p a b rest : Permutation a (rest ++ b) -> all_insertable kv p a -> all_insertable kv p b.
Proof.
  intros P (H1 & H2 & H3).
  assert (I : incl b a) by (intros x Hx; apply (Permutation_in x (Permutation_sym P)); apply in_app_iff; auto).
  split; [|split].
  - rewrite Forall_forall in *. auto.
  - apply (separated_incl _ (a ++ kv)); auto. intros x Hx. apply in_app_iff in Hx. apply in_app_iff. destruct Hx; auto.
  - intros u Hu. specialize (H3 u (I u Hu)). rewrite occurrences_app in *. rewrite (occurrences_perm _ _ u P), occurrences_app in H3. lia.
Qed.

Section Thms.
Variable dz : R -> R.
Notation F := (Rops dz).
Implicit Types s : spline F.

Definition named s (e : insertion) : Prop := (direction_of e < length (knots_of s))%nat /\ match e with InsertIt _ _ r => 1 <= r | _ => True end.

Lemma fewer_permitted s es es' : permitted s es -> Forall (named s) es' -> (forall d, exists rest, Permutation (asked_in es d) (rest ++ asked_in es' d)) -> permitted s es'.
Proof.
  intros [_ H] Hn P. split; [exact Hn|]. intros d kv p Hd. destruct (H d kv p Hd) as (A & B). destruct (P d) as (rest & Pd). split.
  - exact (fewer_insertable kv p _ _ rest Pd A).
  - pose proof (zlen_perm _ _ Pd) as E. rewrite zlen_app' in E. pose proof (zlen_nn rest). lia.
Qed.

Lemma undo_any_order : forall (s : spline F) es es2 rs,
  well_formed s -> regular s -> Forall2 at_most_full (knots_of s) (degs_of s) ->
  permitted s es -> permitted s es2 -> proper_removals s rs ->
  (forall d, Permutation (asked_in es d) (removed_in rs d ++ asked_in es2 d)) ->
  (forall d kv p, direction s d kv p -> zlen kv + zlen (asked_in es d) < 2 ^ 31 /\
     forall u, In u (removed_in rs d) -> Z.of_nat (occurrences (asked_in es d ++ kv) u) <= p) ->
  exists s' s2, calls s es = Ok s' /\ calls s es2 = Ok s2 /\ all_removed s' rs s2.
Proof.
  intros s es es2 rs Hwf Hreg Hfull. revert es. induction rs as [|[u d tol r] rs IH]; intros es Hes Hes2 Hrs HP Hm.
  - destruct (order_of_calls dz s es es2 Hwf Hreg Hfull Hes Hes2 HP) as (s' & E1 & E2 & _). exists s', s'. split; [exact E1|]. split; [exact E2|]. reflexivity.
  - inversion Hrs as [|e0 l0 He Hrs']; subst. destruct He as (Hd & Ht & Hr).
    set (es1 := es2 ++ map put_back rs).
    assert (A1 : forall d', asked_in es1 d' = asked_in es2 d' ++ removed_in rs d') by (intros d'; unfold es1; now rewrite asked_in_app, asked_put_back).
    assert (HPd : forall d', Permutation (asked_in es d') ((if Nat.eqb d d' then repeat u (Z.to_nat r) else []) ++ asked_in es1 d')).
    { intros d'. rewrite (HP d'), A1. cbn [removed_in]. rewrite <- app_assoc. apply Permutation_app_head. apply Permutation_app_comm. }
    assert (N1 : Forall (named s) es1).
    { unfold es1. apply Forall_app. split; [apply Hes2|]. clear - Hrs'. induction Hrs' as [|[u d tol r] rs He H IH]; cbn [map]; constructor; auto. destruct He as (H1 & H2 & H3). split; auto. }
    assert (P1 : permitted s es1) by (apply (fewer_permitted s es); auto; intros d'; eauto).
    assert (P2 : permitted s (es1 ++ [InsertIt u d r])).
    { apply (fewer_permitted s es); auto.
      - apply Forall_app. split; [exact N1|]. constructor; [split; [exact Hd | exact Hr] | constructor].
      - intros d'. exists []. cbn [app]. rewrite asked_in_app. cbn [asked_in direction_of asked]. rewrite app_nil_r. rewrite (HPd d'). apply Permutation_app_comm. }
    destruct (order_of_calls dz s es (es1 ++ [InsertIt u d r]) Hwf Hreg Hfull Hes P2) as (s' & E1 & E2 & _).
    { intros d'. rewrite asked_in_app. cbn [asked_in direction_of asked]. rewrite app_nil_r. rewrite (HPd d'). apply Permutation_app_comm. }
    destruct (calls_refined dz es1 s Hwf Hreg P1) as (s1 & C1 & R1).
    assert (Ins : insert_knot (F := F) s1 u d r = Ok s').
    { unfold calls in E2, C1. rewrite foldM_app, C1 in E2. cbn [bind foldM call] in E2. destruct (insert_knot (F := F) s1 u d r); cbn [bind] in E2; congruence. }
    destruct (wf_dir_exists dz s d Hwf Hd) as (kv & p & Hdir).
    destruct (direction_refined dz s s1 _ d kv p R1 Hdir) as (kv1 & Hdir1 & Pk & F1 & F2).
    destruct (Hm d kv p Hdir) as (Hz & Ho).
    assert (HPd' := HPd d). rewrite Nat.eqb_refl in HPd'.
    assert (Ink : insertable kv1 p u r).
    { replace r with (Z.of_nat (Z.to_nat r)) by lia. apply repeat_insertable with (b := []); [lia|]. rewrite app_nil_r.
      apply (rest_insertable kv kv1 p (asked_in es1 d)); auto.
      apply (fewer_insertable kv p (asked_in es d) _ []); [cbn [app]; rewrite HPd'; apply Permutation_app_comm|]. apply (proj2 Hes d kv p Hdir). }
    assert (Occ : Z.of_nat (occurrences kv1 u) + r <= p).
    { specialize (Ho u). cbn [removed_in] in Ho. rewrite Nat.eqb_refl in Ho.
      assert (I : In u (repeat u (Z.to_nat r) ++ removed_in rs d)) by (apply in_app_iff; left; destruct (Z.to_nat r) eqn:Er; [lia | now left]).
      specialize (Ho I). rewrite occurrences_app, (occurrences_perm _ _ u HPd'), occurrences_app in Ho.
      rewrite (occurrences_perm _ _ u Pk), occurrences_app. rewrite occ_repeat in Ho. destruct (Req_EM_T u u); [lia | contradiction]. }
    assert (Zk : zlen kv1 + r < 2 ^ 31).
    { pose proof (zlen_perm _ _ Pk) as L1. pose proof (zlen_perm _ _ HPd') as L2. rewrite zlen_app' in L1, L2. unfold zlen at 2 in L2. rewrite repeat_length in L2. lia. }
    destruct (insert_remove_many dz s1 d kv1 p u tol r (rf_wf _ _ _ _ R1) (rf_reg _ _ _ _ R1) Hdir1 Ink ltac:(lia) Occ Ht Zk) as (s'' & I1 & I2).
    rewrite Ins in I1. injection I1 as <-.
    destruct (IH es1 P1 Hes2 Hrs') as (t & s2 & T1 & T2 & T3).
    + intros d'. rewrite A1. apply Permutation_app_comm.
    + intros d' kv' p' Hdir'. destruct (Hm d' kv' p' Hdir') as (Hz' & Ho'). pose proof (zlen_perm _ _ (HPd d')) as L. rewrite zlen_app' in L.
      pose proof (zlen_nn (if Nat.eqb d d' then repeat u (Z.to_nat r) else [])). split; [lia|]. intros x Hx.
      specialize (Ho' x). cbn [removed_in] in Ho'. specialize (Ho' ltac:(apply in_app_iff; auto)).
      rewrite occurrences_app, (occurrences_perm _ _ x (HPd d')), occurrences_app in Ho'. rewrite occurrences_app. lia.
    + rewrite C1 in T1. injection T1 as <-. exists s', s2. split; [exact E1|]. split; [exact T2|]. exists s1. split; [exact I2 | exact T3].
Qed.
End Thms.
