(* Lemmas about the faces of a spline: control points with an extreme index in one direction (C57). *)
From Coq Require Import ZArith List Bool Reals Lra Lia Permutation Sorted.
From Verif Require Import Base BaseFacts RSum MultiIndex MultiIndexSpec MultiIndexFacts TensorSum KnotVecSpec KnotVecFacts BasisSpec BasisFacts
  Spaces SpacesSpec SpacesFacts SplineEval SplineSpec SplineNew EvalFacts EvalThms ConstructSpec ConstructThms
  IgaSpec Iga IgaSystem IgaSystemSpec Scatter IgaSystemFacts IgaBoundaryFacts.
Import ListNotations.
Open Scope Z_scope.

(* ---- put_at and remove_at ---- *)
Lemma put_at_0 {A} (a : A) l : put_at 0 a l = a :: l.
Proof. reflexivity. Qed.
Lemma put_at_S {A} d (a x : A) l : put_at (S d) a (x :: l) = x :: put_at d a l.
Proof. reflexivity. Qed.
Lemma put_at_length {A} d (a : A) l : length (put_at d a l) = S (length l).
Proof. unfold put_at. rewrite app_length. cbn [length]. rewrite firstn_length, skipn_length. lia. Qed.
Lemma remove_put {A} d (a : A) l : (d <= length l)%nat -> remove_at d (put_at d a l) = l.
Proof.
  revert l; induction d as [|d IH]; intros l H; [reflexivity|]. destruct l as [|x l]; cbn [length] in H; [lia|].
  rewrite put_at_S. cbn [remove_at]. f_equal. apply IH. lia.
Qed.
Lemma put_remove {A} d (a b : A) l : (d < length l)%nat -> nth d l b = a -> put_at d a (remove_at d l) = l.
Proof.
  revert l; induction d as [|d IH]; intros [|x l] H E; cbn [length nth] in *; try lia.
  - cbn [remove_at]. now rewrite put_at_0, E.
  - cbn [remove_at]. rewrite put_at_S. f_equal. apply IH; auto. lia.
Qed.
Lemma nth_put {A} d (a b : A) l : (d <= length l)%nat -> nth d (put_at d a l) b = a.
Proof.
  revert l; induction d as [|d IH]; intros l H; [reflexivity|]. destruct l as [|x l]; cbn [length] in H; [lia|].
  rewrite put_at_S. cbn [nth]. apply IH. lia.
Qed.
Lemma put_in_box d c : forall npts n js, nth_error npts d = Some n -> 0 <= c < n -> in_box (remove_at d npts) js -> in_box npts (put_at d c js).
Proof.
  induction d as [|d IH]; intros [|l npts] n js E Hc H; cbn [nth_error remove_at] in *; try discriminate.
  - injection E as ->. rewrite put_at_0. constructor; auto.
  - inversion H as [|? j ? js' Hj H']; subst. rewrite put_at_S. constructor; auto. eapply IH; eauto.
Qed.
Lemma remove_pos d npts : pos_lens npts -> pos_lens (remove_at d npts).
Proof. intros H. revert d. induction H; intros [|d]; cbn [remove_at]; auto; constructor; auto. apply IHForall. Qed.

(* ---- GetBoundarySplineConnectivity ---- *)
Definition face_numbers (npts : list Z) (d : nat) (c : Z) : list Z :=
  map (fun js => position npts (put_at d c js)) (visited (remove_at d npts)).
Lemma dget_nth {A} (l : list A) d (a b : A) : nth_error l d = Some a -> dget l d = Ok a.
Proof. intros E. unfold dget. now rewrite E. Qed.

Lemma connectivity_ok npts d n : pos_lens npts -> nth_error npts d = Some n ->
  boundary_connectivity npts d = Ok (face_numbers npts d 0, face_numbers npts d (n - 1)).
Proof.
  intros Hp Hn. assert (Hn1 : 1 <= n) by (apply nth_error_In in Hn; unfold pos_lens in Hp; rewrite Forall_forall in Hp; now apply Hp).
  unfold boundary_connectivity. rewrite mih_loop_visited, (dget_nth npts d n 0 Hn). cbn [bind].
  assert (G : forall L lo hi, Forall (in_box npts) L ->
    foldM (fun (st : list Z * list Z) idx => i <- dget (mcur (mkMih npts idx)) d ;;
      Ok (if i =? 0 then fst st ++ [mih_get1d (mkMih npts idx)] else fst st,
          if i =? n - 1 then snd st ++ [mih_get1d (mkMih npts idx)] else snd st)) L (lo, hi) =
    Ok (lo ++ map (position npts) (filter (fun idx => nth d idx 0 =? 0) L), hi ++ map (position npts) (filter (fun idx => nth d idx 0 =? n - 1) L))).
  { induction L as [|idx L IH]; intros lo hi HL; cbn [foldM]; [now rewrite !app_nil_r|].
    inversion HL as [|? ? Hb HL']; subst. change (mcur (mkMih npts idx)) with idx.
    assert (El : length idx = length npts) by (clear - Hb; unfold in_box in Hb; induction Hb; cbn; congruence).
    assert (Hd : (d < length npts)%nat) by (apply nth_error_Some; congruence).
    rewrite (dget_nth idx d (nth d idx 0) 0) by (apply nth_error_nth'; lia). cbn [bind fst snd].
    rewrite IH by auto. cbn [filter]. change (mih_get1d (mkMih npts idx)) with (get1d npts idx). rewrite <- position_get1d.
    f_equal. f_equal; destruct (nth d idx 0 =? _); cbn [map]; rewrite <- ?app_assoc; reflexivity. }
  rewrite G.
  - cbn [app]. unfold face_numbers. rewrite !(visited_slice d npts _ n) by (auto; lia). now rewrite !map_map.
  - apply Forall_forall. intros idx Hi. now apply visited_In in Hi.
Qed.

Lemma face_numbers_length npts d c : pos_lens npts -> Z.of_nat (length (face_numbers npts d c)) = total (remove_at d npts).
Proof.
  intros Hp. unfold face_numbers, visited. rewrite !map_length, seq_length. pose proof (total_pos _ (remove_pos d npts Hp)). lia.
Qed.
Lemma face_numbers_nth npts d c js : pos_lens npts -> in_box (remove_at d npts) js ->
  nth_error (face_numbers npts d c) (Z.to_nat (position (remove_at d npts) js)) = Some (position npts (put_at d c js)).
Proof.
  intros Hp Hb. unfold face_numbers, visited. pose proof (position_range _ _ Hb). rewrite map_map.
  rewrite (map_nth_error _ _ _ (d := Z.to_nat (position (remove_at d npts) js))).
  - now rewrite number_box by auto.
  - rewrite (nth_error_nth' _ 0%nat) by (rewrite seq_length; lia). rewrite seq_nth by lia. reflexivity.
Qed.

Section Face.
Context {dz : R -> R}.
Local Notation F := (Rops dz).
Implicit Types s : spline F.

(* ---- knot vectors and degrees used for the boundary splines ---- *)
Lemma directions_ok s i : length (knots_of s) = length (degs_of s) -> (i < length (degs_of s))%nat ->
  boundary_directions s i = Ok (firstn (pred (length (degs_of s))) (knots_of s), firstn (pred (length (degs_of s))) (degs_of s)).
Proof.
  intros Hl Hi. unfold boundary_directions. fold (knots_of s) (degs_of s). set (D := length (degs_of s)) in *. change (num F) with R in *.
  assert (G : forall k j0 m, (m + k <= D)%nat -> (i < j0 \/ i >= j0 + k)%nat ->
    foldM (fun (st : list (list R) * list Z) j => if Nat.eqb j i then Ok st
      else kv <- dget (knots_of s) (length (fst st)) ;; p <- dget (degs_of s) (length (fst st)) ;; Ok (fst st ++ [kv], snd st ++ [p]))
      (seq j0 k) (firstn m (knots_of s), firstn m (degs_of s)) = Ok (firstn (m + k) (knots_of s), firstn (m + k) (degs_of s))).
  { induction k as [|k IH]; intros j0 m H1 H2; cbn [seq foldM]; [now rewrite Nat.add_0_r|].
    destruct (Nat.eqb_spec j0 i) as [->|_]; [lia|]. cbn [fst snd]. rewrite firstn_length. replace (Nat.min m (length (knots_of s))) with m by lia.
    rewrite (dget_nth (knots_of s) m (nth m (knots_of s) []) []) by (apply nth_error_nth'; lia). cbn [bind].
    rewrite (dget_nth (degs_of s) m (nth m (degs_of s) 0) 0) by (apply nth_error_nth'; lia). cbn [bind].
    assert (S1 : forall A (l : list A) a, (m < length l)%nat -> firstn m l ++ [nth m l a] = firstn (S m) l).
    { clear. induction m as [|m IH]; intros A [|x l] a H; cbn [length] in H; try lia; cbn [firstn nth app]; auto. f_equal. apply IH. lia. }
    rewrite !S1 by lia. rewrite IH by lia. f_equal. f_equal; f_equal; lia. }
  assert (Es : seq 0 D = seq 0 i ++ i :: seq (S i) (D - S i)).
  { replace D with (i + S (D - S i))%nat at 1 by lia. rewrite seq_app. reflexivity. }
  rewrite Es, foldM_app. pose proof (G i 0%nat 0%nat ltac:(lia) ltac:(lia)) as G0. cbn [firstn Nat.add] in G0. change (num F) with R in *. setoid_rewrite G0. cbn [bind]. cbn [foldM]. rewrite Nat.eqb_refl. cbn [bind Nat.add].
  pose proof (G (D - S i)%nat (S i) i ltac:(lia) ltac:(lia)) as G1. change (num F) with R in *. etransitivity; [exact G1|]. repeat f_equal; lia.
Qed.

(* ---- basis functions at the ends ---- *)
Lemma basis_end kv p e i : good_direction kv p -> exact_ends kv p -> 0 <= i < zlen kv - p - 1 ->
  cox_de_boor kv (Z.to_nat p) (Z.to_nat i) (end_value kv e) = if i =? end_index (zlen kv - p - 1) e then 1%R else 0%R.
Proof.
  intros Hg He Hi. pose proof Hg as (Hp & (Hlen & _) & Hn & _ & Hlt).
  assert (Hu : (first_knot kv <= end_value kv e <= final_knot kv)%R) by (destruct e; cbn [end_value]; lra).
  destruct (eval_direction dz kv p _ Hg Hu) as (k & Ek & Hsp & Hk1 & Hk2).
  set (x := mkDir kv p (end_value kv e) k 0).
  assert (Hx : good_dir dz x) by (exact (conj Hg (conj Hsp (conj (conj Hk1 Hk2) (conj Ek (Z.le_refl 0)))))).
  assert (E : forall j, 0 <= j < zlen kv - p - 1 -> cox_de_boor kv (Z.to_nat p) (Z.to_nat j) (end_value kv e) = dfactor x j).
  { intros j Hj. rewrite dfactor_0 by reflexivity. apply (cox_piece kv k (Z.to_nat p) j); auto; lia. }
  assert (Z0 : forall j, j <> end_index (zlen kv - p - 1) e -> dfactor x j = 0%R) by (intros j Hj; apply (dfactor_end dz x e); auto).
  rewrite E by auto. destruct (Z.eqb_spec i (end_index (zlen kv - p - 1) e)) as [Ei|Hne]; [|auto].
  pose proof (dfactor_sum dz x Hx eq_refl) as S1. rewrite (lsum_single _ _ i) in S1; auto.
  - apply zseq_NoDup.
  - apply zseq_In. unfold dlen. cbn [dk dp x]. lia.
  - intros b _ Hb. apply Z0. congruence.
Qed.

Lemma basis_product_put d : forall knots degs us idx kv p u i, length degs = length knots -> length us = pred (length knots) -> length idx = pred (length knots) ->
  nth_error knots d = Some kv -> nth_error degs d = Some p ->
  basis_product knots degs (put_at d u us) (put_at d i idx) =
  (cox_de_boor kv (Z.to_nat p) (Z.to_nat i) u * basis_product (remove_at d knots) (remove_at d degs) us idx)%R.
Proof.
  induction d as [|d IH]; intros [|k0 knots] [|p0 degs] us idx kv p u i H1 H2 H3 E1 E2; cbn [nth_error length pred] in *; try discriminate.
  - injection E1 as ->. injection E2 as ->. reflexivity.
  - assert (Hd : (d < length knots)%nat) by (apply nth_error_Some; congruence).
    destruct us as [|u0 us]; cbn [length] in H2; [lia|]. destruct idx as [|i0 idx]; cbn [length] in H3; [lia|].
    rewrite !put_at_S. cbn [basis_product remove_at].
    rewrite (IH knots degs us idx kv p u i) by (auto; lia). ring.
Qed.

(* a sum over all control points at an end of direction d is a sum over those of the face *)
Lemma face_sum knots degs d kv p e us npts (f : list Z -> R) : Forall2 good_direction knots degs ->
  npts = map2 (fun kv p => zlen kv - p - 1) knots degs -> nth_error knots d = Some kv -> nth_error degs d = Some p -> exact_ends kv p ->
  length us = pred (length knots) ->
  lsum (fun idx => basis_product knots degs (put_at d (end_value kv e) us) idx * f idx)%R (all_indices npts) =
  lsum (fun js => basis_product (remove_at d knots) (remove_at d degs) us js * f (put_at d (end_index (zlen kv - p - 1) e) js))%R
       (all_indices (remove_at d npts)).
Proof.
  intros Hg En Ek Ep He Hu. assert (Hl : length degs = length knots) by (clear - Hg; induction Hg; cbn; congruence).
  assert (Hp : pos_lens npts) by (subst npts; now apply good_npts_pos).
  set (n := zlen kv - p - 1) in *.
  assert (Gd : good_direction kv p).
  { clear - Hg Ek Ep. revert d Ek Ep. induction Hg as [|k q K Q H Hg IH]; intros [|d] Ek Ep; cbn [nth_error] in *; try discriminate.
    - injection Ek as <-. now injection Ep as <-.
    - eapply IH; eauto. }
  assert (Hn : nth_error npts d = Some n).
  { subst npts. clear - Ek Ep. revert degs d Ek Ep. induction knots as [|k K IH]; intros [|q Q] [|d] Ek Ep; cbn [nth_error map2] in *; try discriminate.
    - injection Ek as <-. now injection Ep as <-.
    - eapply IH; eauto. }
  assert (Hln : length npts = length knots).
  { subst npts. clear - Hl. revert degs Hl. induction knots as [|k K IH]; intros [|q Q] H; cbn in *; try discriminate; auto. }
  assert (Hd : (d < length npts)%nat) by (apply nth_error_Some; congruence).
  assert (Hn1 : 1 <= n) by (apply nth_error_In in Hn; unfold pos_lens in Hp; rewrite Forall_forall in Hp; now apply Hp).
  assert (Hc : 0 <= end_index n e < n) by (destruct e; cbn [end_index]; lia). set (c := end_index n e) in *.
  rewrite <- (lsum_visited _ npts Hp).
  assert (S1 : forall L g, (forall idx : list Z, In idx L -> nth d idx 0 <> c -> g idx = 0%R) ->
    lsum g L = lsum g (filter (fun idx => nth d idx 0 =? c) L)).
  { clearbody c. clear. induction L as [|a L IH]; intros g H; cbn [filter lsum]; auto. destruct (Z.eqb_spec (nth d a 0) c) as [E|E]; cbn [lsum].
    - rewrite (IH g); auto. intros; apply H; auto. now right.
    - rewrite (H a) by (auto; now left). rewrite Rplus_0_l. apply IH. intros; apply H; auto. now right. }
  assert (S2 : forall idx i js, in_box npts idx -> idx = put_at d i js -> length js = pred (length knots) ->
    basis_product knots degs (put_at d (end_value kv e) us) idx = ((if i =? c then 1 else 0) * basis_product (remove_at d knots) (remove_at d degs) us js)%R).
  { intros idx i js Hb -> Hj. rewrite (basis_product_put d knots degs us js kv p) by auto. f_equal. apply basis_end; auto.
    assert (Hi : 0 <= nth d (put_at d i js) 0 < n).
    { clearbody n. clear - Hb Hn. revert Hb. generalize (put_at d i js). intros idx Hb. revert d Hn. unfold in_box in Hb.
      induction Hb as [|l j ls is Hj Hb IH]; intros [|d] E; cbn [nth_error nth] in *; try discriminate.
      - injection E as <-. exact Hj.
      - now apply IH. }
    rewrite nth_put in Hi by (rewrite Hj; lia). exact Hi. }
  assert (Hlen : forall idx, in_box npts idx -> length idx = length npts) by (intros idx Hb; unfold in_box in Hb; clear - Hb; induction Hb; cbn; congruence).
  rewrite S1.
  - rewrite (visited_slice d npts c n Hp Hn Hc), lsum_map, <- (lsum_visited _ (remove_at d npts) (remove_pos d npts Hp)).
    apply lsum_ext. intros js Hj. apply visited_In in Hj; [|now apply remove_pos].
    assert (Hjl : length js = pred (length knots)).
    { rewrite <- Hln, <- (remove_at_length _ d npts Hd). unfold in_box in Hj. clear - Hj. induction Hj; cbn; congruence. }
    rewrite (S2 _ c js) by (auto; now apply (put_in_box d c npts n)). rewrite Z.eqb_refl. ring.
  - intros idx Hi Hne. apply visited_In in Hi; auto. pose proof (Hlen idx Hi) as E.
    rewrite (S2 idx (nth d idx 0) (remove_at d idx)); auto.
    + apply Z.eqb_neq in Hne. rewrite Hne. ring.
    + symmetry. apply (put_remove d _ 0); auto. lia.
    + rewrite remove_at_length by lia. lia.
Qed.

(* ---- Set1DIndex from the first index ---- *)
Lemma set1d_steps : forall m h i, in_box (mlen h) (mcur h) -> 0 <= i < total (mlen h) ->
  i - mih_get1d h = Z.of_nat (S m) \/ total (mlen h) + i - mih_get1d h = Z.of_nat (S m) ->
  forall fuel, (m < fuel)%nat -> exists h', set1d fuel h i = Some h'.
Proof.
  induction m as [m IH] using (well_founded_induction Wf_nat.lt_wf). intros h i Hb Hi D fuel Hf.
  destruct fuel as [|fuel]; [lia|]. cbn [set1d].
  destruct (Z.eqb_spec (mih_get1d (mih_incr h)) i) as [E|E]; [eauto|].
  assert (Hs : get1d (mlen h) (incr (mlen h) (mcur h)) = mih_get1d (mih_incr h)) by reflexivity.
  assert (exists m', (m' < m)%nat /\
     (i - mih_get1d (mih_incr h) = Z.of_nat (S m') \/ total (mlen h) + i - mih_get1d (mih_incr h) = Z.of_nat (S m'))) as (m' & Lm & D').
  { destruct (incr_get1d _ _ Hb) as [[A B]|[A B]].
    - rewrite Hs in B. change (get1d (mlen h) (mcur h)) with (mih_get1d h) in *.
      exists (pred m). destruct D as [D|D].
      + split; [|left]; lia.
      + split; [|right]; lia.
    - rewrite B, get1d_origin in Hs. change (get1d (mlen h) (mcur h)) with (mih_get1d h) in A.
      exists (Z.to_nat (i - 1)). split; [|left]; lia. }
  apply (IH m' Lm (mih_incr h) i); auto; [now apply incr_box | lia].
Qed.
Lemma set1d_from_start npts idx : pos_lens npts -> in_box npts idx ->
  set1d (Z.to_nat (total npts)) (mih_new npts) (position npts idx) = Some (mkMih npts idx).
Proof.
  intros Hp Hb. pose proof (position_range _ _ Hb) as Hr. pose proof (total_pos _ Hp) as Ht.
  assert (H0 : in_box (mlen (mih_new npts)) (mcur (mih_new npts))) by (cbn; apply in_box_origin; auto).
  assert (G0 : mih_get1d (mih_new npts) = 0) by (unfold mih_get1d; cbn; apply get1d_origin).
  change (mlen (mih_new npts)) with npts in *.
  destruct (set1d_steps (if position npts idx =? 0 then Z.to_nat (total npts - 1) else Z.to_nat (position npts idx - 1))
    (mih_new npts) (position npts idx) H0 Hr) with (fuel := Z.to_nat (total npts)) as (h' & E).
  - change (mlen (mih_new npts)) with npts. rewrite G0. destruct (Z.eqb_spec (position npts idx) 0); [right|left]; lia.
  - destruct (Z.eqb_spec (position npts idx) 0); lia.
  - rewrite E. f_equal. destruct (set1d_sound _ _ _ _ E) as (E1 & E2 & E3). specialize (E3 H0). change (mlen (mih_new npts)) with npts in *.
    destruct h' as [ln cur]. cbn [mlen mcur] in *. subst ln. f_equal.
    change (mih_get1d (mkMih npts cur)) with (get1d npts cur) in E1. rewrite <- position_get1d in E1.
    rewrite <- (number_box npts cur), <- (number_box npts idx) by auto. now rewrite E1.
Qed.

(* ---- one boundary spline ---- *)
Definition face_points s d c : list (list R) :=
  map (fun js => map (fun k => coordinate s (put_at d c js) k) (zseq 0 (Z.to_nat (ph_dim (sp_ph s))))) (visited (remove_at d (npts_of s))).
Definition face_weights s d c : list R := map (fun js => weight s (put_at d c js)) (visited (remove_at d (npts_of s))).

Lemma boundary_spline_new s d c n dirs : well_formed s -> nth_error (npts_of s) d = Some n -> 0 <= c < n ->
  boundary_spline s dirs (face_numbers (npts_of s) d c) = spline_new (F := F) (fst dirs) (snd dirs) (face_points s d c) (Some (face_weights s d c)).
Proof.
  intros Hwf Hn Hc. pose proof (npts_pos s Hwf) as Hp. pose proof (wf_dim s Hwf) as Hd.
  unfold boundary_spline. fold (npts_of s). unfold face_numbers.
  rewrite mapM_map. rewrite (mapM_ok _ (fun js => (map (fun k => coordinate s (put_at d c js) k) (zseq 0 (Z.to_nat (ph_dim (sp_ph s)))), weight s (put_at d c js)))).
  - cbn [bind]. unfold face_points, face_weights. rewrite !map_map. reflexivity.
  - intros js Hj. apply visited_In in Hj; [|now apply remove_pos].
    pose proof (put_in_box d c (npts_of s) n js Hn Hc Hj) as Hb. rewrite set1d_from_start by auto. cbn [mcur].
    rewrite (cp_ok dz (sp_ph s)) by (auto; try lia; exact (wf_cps s Hwf)). cbn [bind]. rewrite (weight_ok dz s) by (auto; exact (wf_wts s Hwf)). reflexivity.
Qed.
End Face.
