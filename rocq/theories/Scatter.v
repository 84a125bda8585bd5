(* Loops that add contributions to the entries of a vector or matrix. *)
From Coq Require Import ZArith List Bool Reals Lra Lia.
From Verif Require Import Base BaseFacts RSum MultiIndex MultiIndexSpec MultiIndexFacts TensorSum SplineSpec IgaSystem IgaSystemSpec.
Import ListNotations.
Open Scope Z_scope.

Section Adds.
Context {St Ix : Type} (valid : St -> Prop) (rng : Ix -> Prop) (obs : St -> Ix -> R).

(* every entry grows by the contribution c *)
Definition adds (step : St -> Res St) (c : Ix -> R) : Prop :=
  forall m, valid m -> exists m', step m = Ok m' /\ valid m' /\ forall i, rng i -> obs m' i = (obs m i + c i)%R.

Lemma adds_ext step step' c c' : (forall m, valid m -> step m = step' m) -> (forall i, rng i -> c i = c' i) ->
  adds step c -> adds step' c'.
Proof.
  intros E Ec H m Hm. destruct (H m Hm) as (m' & E' & Hv & Ho). exists m'. rewrite <- E by auto.
  split; auto. split; auto. intros i Hi. rewrite Ho, Ec; auto.
Qed.

Lemma adds_foldM {A} (step : St -> A -> Res St) (c : A -> Ix -> R) l :
  (forall a, In a l -> adds (fun m => step m a) (c a)) -> adds (foldM step l) (fun i => lsum (fun a => c a i) l).
Proof.
  induction l as [|a l IH]; intros H m Hm; cbn [foldM].
  - exists m. split; auto. split; auto. intros i _. unfold lsum. cbn. lra.
  - destruct (H a (or_introl eq_refl) m Hm) as (m1 & E1 & V1 & O1). rewrite E1. cbn [bind].
    destruct (IH (fun b Hb => H b (or_intror Hb)) m1 V1) as (m2 & E2 & V2 & O2).
    exists m2. split; auto. split; auto. intros i Hi. rewrite O2, O1 by auto. unfold lsum. cbn. lra.
Qed.

Lemma adds_for_up lo hi (body : Z -> St -> Res St) (c : Z -> Ix -> R) :
  (forall k, lo <= k < hi -> adds (body k) (c k)) ->
  adds (for_up lo hi body) (fun i => lsum (fun k => c k i) (zseq lo (Z.to_nat (hi - lo)))).
Proof.
  intros H. eapply adds_ext; [| |apply (adds_foldM (fun m k => body k m) c)].
  - intros m _. symmetry. apply for_up_foldM.
  - auto.
  - intros k Hk. apply H. apply zseq_In in Hk. lia.
Qed.
End Adds.

Section Add.
Context {dz : R -> R}.
Local Notation F := (Rops dz).

Definition vlen (n : Z) (v : list R) : Prop := Z.of_nat (length v) = n.
Definition in_range (n i : Z) : Prop := 0 <= i < n.
Definition in_range2 (n : Z) (ij : Z * Z) : Prop := 0 <= fst ij < n /\ 0 <= snd ij < n.
Definition pentry (m : list (list R)) (ij : Z * Z) : R := entry m (fst ij) (snd ij).

Lemma vec_add_adds n i (x : R) : 0 <= i < n ->
  adds (vlen n) (in_range n) component (fun v => vec_add_at (F := F) v i x) (fun k => if k =? i then x else 0%R).
Proof.
  intros Hi v Hv. unfold vlen in Hv. unfold vec_add_at. change (num F) with R. rewrite (vget_nth v i 0%R) by (unfold zlen; lia). cbn [bind].
  rewrite vset_ok by (unfold zlen; lia). eexists. split; [reflexivity|]. split; [unfold vlen; now rewrite upd_length|].
  intros k Hk. unfold in_range in Hk. unfold component. rewrite nth_upd by lia.
  destruct (Z.eqb_spec k i) as [->|Hne].
  - rewrite Nat.eqb_refl. reflexivity.
  - destruct (Nat.eqb_spec (Z.to_nat k) (Z.to_nat i)) as [H|H]; [lia|]. lra.
Qed.

Lemma square_row n m i : square n m -> 0 <= i < n -> vlen n (nth (Z.to_nat i) m []).
Proof. intros (Hl & Hr) Hi. rewrite Forall_forall in Hr. apply Hr, nth_In. lia. Qed.

Lemma square_upd n m i r : square n m -> vlen n r -> square n (upd m i r).
Proof.
  intros (Hl & Hr) Hv. split; [now rewrite upd_length|]. clear Hl. revert i. induction Hr as [|a m Ha Hm IH]; intros [|i]; cbn; auto.
Qed.

Lemma entry_upd n m i r a b : square n m -> 0 <= i < n -> 0 <= a ->
  entry (upd m (Z.to_nat i) r) a b = if a =? i then component r b else entry m a b.
Proof.
  intros (Hl & _) Hi Ha. unfold entry. rewrite nth_upd by lia. destruct (Z.eqb_spec a i) as [->|Hne].
  - rewrite Nat.eqb_refl. reflexivity.
  - destruct (Nat.eqb_spec (Z.to_nat a) (Z.to_nat i)) as [H|H]; [lia|]. reflexivity.
Qed.

Lemma mat_add_adds n i j (x : R) : 0 <= i < n -> 0 <= j < n ->
  adds (square n) (in_range2 n) pentry (fun m => mat_add_at (F := F) m i j x)
       (fun ab => if (fst ab =? i) && (snd ab =? j) then x else 0%R).
Proof.
  intros Hi Hj m Hm. unfold mat_add_at. change (num F) with R. rewrite (vget_nth m i []) by (destruct Hm; unfold zlen; lia). cbn [bind].
  destruct (vec_add_adds n j x Hj _ (square_row n m i Hm Hi)) as (r & Er & Vr & Or).
  change (num F) with R in *. rewrite Er. cbn [bind]. rewrite vset_ok by (destruct Hm; unfold zlen; lia).
  eexists. split; [reflexivity|]. split; [now apply square_upd|]. intros (a, b) (Ha & Hb). cbn [fst snd] in *. unfold pentry. cbn [fst snd].
  rewrite (entry_upd n) by (auto; lia). destruct (Z.eqb_spec a i) as [->|Hne]; cbn [andb].
  - rewrite Or by auto. reflexivity.
  - lra.
Qed.
End Add.
