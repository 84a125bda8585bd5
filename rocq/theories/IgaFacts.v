(* Elements of one direction. *)
From Coq Require Import ZArith List Bool Reals Lra Lia.
From Verif Require Import Base BaseFacts KnotVecSpec KnotVec KnotVecFacts SpacesSpec BSplineTheory BasisFacts SpacesFacts RemoveCompact IgaSpec Iga.
Import ListNotations.
Open Scope Z_scope.

Fixpoint pairs (l : list R) : list (R * R) :=
  match l with
  | x :: ((y :: _) as t) => if Req_EM_T x y then pairs t else (x, y) :: pairs t
  | _ => []
  end.

Lemma pairs_same (x : R) l : pairs (x :: x :: l) = pairs (x :: l).
Proof. cbn [pairs]. destruct (Req_EM_T x x); [reflexivity|contradiction]. Qed.
Lemma pairs_step (x y : R) l : x <> y -> pairs (x :: y :: l) = (x, y) :: pairs (y :: l).
Proof. intros H. cbn [pairs]. destruct (Req_EM_T x y); [contradiction|reflexivity]. Qed.

Lemma pairs_tiles l : nondecreasing l -> l <> [] -> tiles (first_knot l) (final_knot l) (pairs l).
Proof.
  induction l as [|x l IH]; intros Hn Hne; [contradiction|].
  destruct l as [|y l]; [reflexivity|].
  specialize (IH (nondecreasing_tail _ _ Hn) ltac:(discriminate)).
  assert (Efin : final_knot (x :: y :: l) = final_knot (y :: l)) by (unfold final_knot; cbn; now rewrite Nat.sub_0_r).
  rewrite Efin. destruct (Req_EM_T x y) as [->|Hxy].
  - rewrite pairs_same. exact IH.
  - rewrite pairs_step by auto. cbn [tiles]. repeat split; auto.
    assert (x <= y)%R by (apply (nondecreasing_head x (y :: l)); auto; now left). cbn. lra.
Qed.

Section Facts.
Variable dz : R -> R.
Local Notation F := (Rops dz).

Lemma unique_same (x : R) l : unique_copy (F := F) (x :: x :: l) = unique_copy (F := F) (x :: l).
Proof.
  destruct (unique_copy_head dz x l) as (r & Er).
  cbn [unique_copy] in Er |- *. change (neqb (n := F) x x) with (Reqb x x). rnorm. rewrite Er.
  destruct (Reqb_spec x x); [reflexivity|contradiction].
Qed.
Lemma unique_step (x y : R) l : x <> y -> unique_copy (F := F) (x :: y :: l) = x :: unique_copy (F := F) (y :: l).
Proof.
  intros H. cbn [unique_copy]. change (neqb (n := F) x y) with (Reqb x y).
  destruct (Reqb_spec x y); [contradiction|reflexivity].
Qed.

Lemma unique_pairs l : l <> [] -> length (unique_copy (F := F) l) = S (length (pairs l)).
Proof.
  induction l as [|x l IH]; intros Hne; [contradiction|]. destruct l as [|y l]; [reflexivity|].
  specialize (IH ltac:(discriminate)). destruct (Req_EM_T x y) as [->|Hxy].
  - rewrite unique_same, pairs_same. exact IH.
  - rewrite unique_step, pairs_step by auto. cbn [length]. f_equal. exact IH.
Qed.

Lemma keep_cons (x y : R) (l : list R) : keep_to_last (F := F) x l <> [] ->
  keep_to_last (F := F) x (y :: l) = y :: keep_to_last (F := F) x l.
Proof. intros H. cbn [keep_to_last]. destruct (keep_to_last (F := F) x l); [contradiction|reflexivity]. Qed.
Lemma keep_none (x : R) (l : list R) : ~ In x l -> keep_to_last (F := F) x l = [].
Proof.
  induction l as [|y l IH]; intros H; [reflexivity|]. cbn [keep_to_last].
  rewrite IH by (intros C; apply H; now right).
  change (neqb (n := F) y x) with (Reqb y x). destruct (Reqb_spec y x) as [->|]; [|reflexivity].
  exfalso. apply H. now left.
Qed.
Lemma keep_here (x : R) (l : list R) : ~ In x l -> keep_to_last (F := F) x (x :: l) = [x].
Proof.
  intros H. cbn [keep_to_last]. rewrite keep_none by auto.
  change (neqb (n := F) x x) with (Reqb x x). destruct (Reqb_spec x x); [reflexivity|contradiction].
Qed.

Lemma pairs_at l : nondecreasing l -> forall e, (e < length (pairs l))%nat -> exists j,
  (S j < length l)%nat /\ nth e (pairs l) (0, 0)%R = (nth j l 0, nth (S j) l 0)%R /\ (nth j l 0 < nth (S j) l 0)%R /\
  nth e (unique_copy (F := F) l) 0%R = nth j l 0%R /\ nth (S e) (unique_copy (F := F) l) 0%R = nth (S j) l 0%R /\
  keep_to_last (F := F) (nth j l 0%R) l = firstn (S j) l /\
  keep_to_last (F := F) (nth j l 0%R) (unique_copy (F := F) l) = firstn (S e) (unique_copy (F := F) l).
Proof.
  induction l as [|x l IH]; intros Hn e He; [cbn in He; lia|]. destruct l as [|y l]; [cbn in He; lia|].
  specialize (IH (nondecreasing_tail _ _ Hn)).
  destruct (Req_EM_T x y) as [->|Hxy].
  - rewrite pairs_same in He |- *. rewrite unique_same.
    destruct (IH e He) as (j & H1 & H2 & H3 & H4 & H5 & H6 & H7). exists (S j).
    cbn [nth] in *. repeat split; auto; [cbn [length] in *; lia|].
    rewrite keep_cons by (rewrite H6; discriminate). rewrite H6. reflexivity.
  - assert (Hle : (x <= y)%R) by (apply (nondecreasing_head x (y :: l)); auto; now left).
    rewrite pairs_step in He |- * by auto. rewrite unique_step by auto.
    assert (Hnot : ~ In x (y :: l)).
    { intros C. assert (y <= x)%R; [|lra].
      destruct C as [->|C]; [lra|].
      apply (nondecreasing_head y l); [|exact C]. exact (nondecreasing_tail _ _ Hn). }
    destruct e as [|e].
    + exists 0%nat. destruct (unique_copy_head dz y l) as (r & Er).
      assert (Hnu : ~ In x (unique_copy (F := F) (y :: l))) by (now rewrite unique_copy_In).
      rewrite Er in *. cbn [nth]. repeat split; auto; [cbn; lia | lra | |].
      * now rewrite keep_here.
      * now rewrite keep_here.
    + cbn [length] in He. destruct (IH e ltac:(lia)) as (j & H1 & H2 & H3 & H4 & H5 & H6 & H7). exists (S j).
      cbn [nth] in *. repeat split; auto; [cbn [length] in *; lia| |].
      * rewrite keep_cons by (rewrite H6; discriminate). rewrite H6. reflexivity.
      * assert (Hne : unique_copy (F := F) (y :: l) <> []) by (destruct (unique_copy_head dz y l) as (r & ->); discriminate).
        rewrite keep_cons.
        -- rewrite H7. reflexivity.
        -- rewrite H7. destruct (unique_copy (F := F) (y :: l)); [contradiction|discriminate].
Qed.

(* ---- one direction ---- *)
Definition inner (kv : list R) (p : Z) : list R := firstn (Z.to_nat (zlen kv - 2 * p)) (skipn (Z.to_nat p) kv).

Lemma internal_ok kv p : 0 <= p -> 2 * p <= zlen kv -> internal_knots (F := F) kv p = Ok (inner kv p).
Proof.
  intros H0 H1. unfold internal_knots, sublist. rnorm.
  assert (E : (0 <=? p) && (0 <=? zlen kv - 2 * p) && (p + (zlen kv - 2 * p) <=? zlen kv) = true)
    by (apply andb_true_intro; split; [apply andb_true_intro; split|]; apply Z.leb_le; lia).
  rewrite E. reflexivity.
Qed.

Lemma elements_loop (kv : list R) : forall n lo (acc : list (R * R)), (lo + n < length kv)%nat ->
  foldM (fun acc j => a <- get_knot (F := F) kv j ;; b <- get_knot (F := F) kv (j + 1) ;;
                      Ok (if neqb (n := F) (nsub (n := F) a b) (n0 (n := F)) then acc else acc ++ [(a, b)]))
        (zseq (Z.of_nat lo) n) acc = Ok (acc ++ pairs (firstn (S n) (skipn lo kv))).
Proof.
  induction n as [|n IH]; intros lo acc H.
  - cbn [zseq foldM]. f_equal. destruct (skipn lo kv) as [|a [|b t]]; cbn; now rewrite app_nil_r.
  - cbn [zseq foldM]. unfold get_knot. rnorm.
    assert (Ha : skipn lo kv = nth lo kv 0%R :: skipn (S lo) kv) by (apply (skipn_nth kv); rnorm; lia).
    assert (Hb : skipn (S lo) kv = nth (S lo) kv 0%R :: skipn (S (S lo)) kv) by (apply (skipn_nth kv); rnorm; lia).
    rewrite (vget_nth kv (Z.of_nat lo) 0%R) by (zl; lia). cbn [bind]. rewrite (vget_nth kv (Z.of_nat lo + 1) 0%R) by (zl; lia). cbn [bind].
    replace (Z.of_nat lo + 1) with (Z.of_nat (S lo)) by lia. rewrite !Nat2Z.id. rewrite IH by lia.
    rewrite Ha. rewrite Hb. cbn [firstn]. f_equal.
    change (neqb (n := F) (nsub (n := F) (nth lo kv 0%R) (nth (S lo) kv 0%R)) (n0 (n := F)))
      with (Reqb (nth lo kv 0 - nth (S lo) kv 0)%R 0).
    destruct (Reqb_spec (nth lo kv 0 - nth (S lo) kv 0)%R 0%R) as [E|E].
    + replace (nth lo kv 0%R) with (nth (S lo) kv 0%R) by lra. rewrite pairs_same. reflexivity.
    + rewrite pairs_step by (intros C; apply E; lra). now rewrite <- app_assoc.
Qed.

Lemma pairs_skip (l : list R) : forall j, (j < length l)%nat -> (forall i, (i <= j)%nat -> nth i l 0%R = nth 0 l 0%R) ->
  pairs (skipn j l) = pairs l.
Proof.
  induction j as [|j IH]; intros Hj H; [reflexivity|].
  rewrite <- IH by (try lia; intros i Hi; apply H; lia).
  rewrite (skipn_nth l j) by lia. rewrite (skipn_nth l (S j)) by lia. unfold knot.
  rewrite (H (S j)) by lia. rewrite (H j) by lia. symmetry. apply pairs_same.
Qed.

Section Direction.
Variables (kv : list R) (p : Z).
Hypothesis Hg : good_direction kv p.

Lemma dir_sizes : 0 <= p /\ 2 * p + 2 <= zlen kv /\ length (inner kv p) = (length kv - 2 * Z.to_nat p)%nat.
Proof.
  destruct Hg as (Hp & (Hl & _) & _). unfold inner. repeat split; auto.
  rewrite firstn_length, skipn_length. zl.
Qed.

Lemma inner_nth j : (j < length (inner kv p))%nat -> nth j (inner kv p) 0%R = nth (Z.to_nat p + j) kv 0%R.
Proof.
  intros H. unfold inner in *. rewrite firstn_length in H. rewrite nth_firstn_lt by lia. apply nth_skipn_add.
Qed.

Lemma inner_nondec : nondecreasing (inner kv p).
Proof.
  intros i j Hij Hj. unfold knot. rewrite !inner_nth by lia. destruct dir_sizes as (H0 & H1 & H2).
  destruct Hg as (_ & _ & Hn & _). apply Hn; lia.
Qed.

Lemma inner_ne : inner kv p <> [].
Proof. destruct dir_sizes as (H0 & H1 & H2). intros C. rewrite C in H2. unfold zlen in H1. cbn in H2. lia. Qed.

Lemma inner_first : first_knot (inner kv p) = first_knot kv.
Proof.
  destruct dir_sizes as (H0 & H1 & H2). unfold first_knot at 1. unfold zlen in H1. rewrite inner_nth by lia.
  destruct Hg as (_ & (_ & Hc) & _). rewrite Nat.add_0_r. apply (Hc (Z.to_nat p)). lia.
Qed.

Lemma inner_final : final_knot (inner kv p) = final_knot kv.
Proof.
  destruct dir_sizes as (H0 & H1 & H2). unfold final_knot at 1. unfold zlen in H1. rewrite inner_nth by lia.
  destruct Hg as (_ & (_ & Hc) & _). destruct (Hc (Z.to_nat p) ltac:(lia)) as (_ & <-). unfold knot. f_equal. lia.
Qed.

Lemma elements_ok : elements (F := F) kv p = Ok (pairs (inner kv p)).
Proof.
  destruct dir_sizes as (H0 & H1 & H2). unfold elements. rnorm.
  destruct (Z.ltb_spec (zlen kv - p - 1) 0) as [C|_]; [exfalso; lia|].
  pose proof (elements_loop kv (Z.to_nat (zlen kv - p - 1)) 0 []) as E. cbn [app skipn] in E. rnorm.
  change (Z.of_nat 0) with 0 in E. refine (eq_trans (E _) _); [unfold zlen in *; lia|]. f_equal.
  set (l := firstn (S (Z.to_nat (zlen kv - p - 1))) kv).
  assert (Hll : length l = (length kv - Z.to_nat p)%nat) by (unfold l; rewrite firstn_length; unfold zlen in *; lia).
  assert (Ei : inner kv p = skipn (Z.to_nat p) l).
  { unfold inner, l. rewrite firstn_skipn_comm. do 2 f_equal. unfold zlen in *. lia. }
  rewrite Ei. symmetry. apply pairs_skip; [unfold zlen in *; lia|].
  intros i Hi. unfold l. rewrite !nth_firstn_lt by (unfold zlen in *; lia).
  destruct Hg as (_ & (_ & Hc) & _). apply (Hc i). lia.
Qed.

Lemma unique_ok : unique_knots (F := F) kv p = Ok (unique_copy (F := F) (inner kv p)).
Proof.
  destruct dir_sizes as (H0 & H1 & H2). unfold unique_knots. rewrite internal_ok by zl. reflexivity.
Qed.

Lemma element_dir e : 0 <= e < zlen (pairs (inner kv p)) -> exists k,
  knot_interval kv p k (nth (Z.to_nat e) (pairs (inner kv p)) (0, 0)%R) /\
  index_shift (F := F) kv p e = Ok (k - p - e) /\
  nth (Z.to_nat e) (unique_copy (F := F) (inner kv p)) 0%R = tk kv k /\
  nth (S (Z.to_nat e)) (unique_copy (F := F) (inner kv p)) 0%R = tk kv (k + 1).
Proof.
  intros He. destruct dir_sizes as (H0 & H1 & H2).
  destruct (pairs_at (inner kv p) inner_nondec (Z.to_nat e) ltac:(zl)) as (j & A1 & A2 & A3 & A4 & A5 & A6 & A7).
  rewrite !inner_nth in A2, A3 by lia. rewrite inner_nth in A4 by lia. rewrite inner_nth in A5 by lia.
  exists (p + Z.of_nat j).
  assert (K1 : Z.to_nat (p + Z.of_nat j) = (Z.to_nat p + j)%nat) by lia.
  assert (K2 : Z.to_nat (p + Z.of_nat j + 1) = (Z.to_nat p + S j)%nat) by lia.
  assert (Hlu : (length (unique_copy (F := F) (inner kv p)) = S (length (pairs (inner kv p))))%nat)
    by (apply unique_pairs, inner_ne).
  split; [|split; [|split]].
  - unfold knot_interval. rewrite A2, K1, K2. cbn [fst snd]. repeat split; auto; unfold zlen in *; lia.
  - unfold index_shift. rewrite internal_ok by zl. cbn [bind]. rewrite unique_ok. cbn [bind].
    rewrite (vget_nth (unique_copy (F := F) (inner kv p)) e 0%R) by (unfold zlen in *; rnorm; lia). cbn [bind].
    rewrite A4. rewrite <- inner_nth by lia. rewrite A6. rewrite A7. f_equal. unfold zlen in *.
    rewrite !firstn_length. rnorm. lia.
  - rewrite A4. rewrite tk_knot' by (unfold zlen in *; lia). now rewrite K1.
  - rewrite A5. rewrite tk_knot' by (unfold zlen in *; lia). now rewrite K2.
Qed.

Lemma unique_In x : In x (unique_copy (F := F) (inner kv p)) -> In x kv.
Proof.
  rewrite unique_copy_In. unfold inner. intros H. rewrite <- (firstn_skipn (Z.to_nat p) kv). apply in_or_app. right.
  rewrite <- (firstn_skipn (Z.to_nat (zlen kv - 2 * p)) (skipn (Z.to_nat p) kv)). apply in_or_app. now left.
Qed.

Lemma separated_incl (l l' : list R) : (forall x, In x l -> In x l') -> separated l' -> separated l.
Proof.
  intros H Hs i j Hi Hj Hlt.
  destruct (In_nth l' (knot l i) 0%R) as (a & Ha & Ea); [apply H, nth_In; auto|].
  destruct (In_nth l' (knot l j) 0%R) as (b & Hb & Eb); [apply H, nth_In; auto|].
  unfold separated, knot in *. rewrite <- Ea, <- Eb in *. now apply Hs.
Qed.

Lemma unique_first (l : list R) : first_knot (unique_copy (F := F) l) = first_knot l.
Proof. destruct l as [|x l]; [reflexivity|]. destruct (unique_copy_head dz x l) as (r & ->). reflexivity. Qed.

Lemma unique_final (l : list R) : final_knot (unique_copy (F := F) l) = final_knot l.
Proof.
  induction l as [|x l IH]; [reflexivity|]. destruct l as [|y l]; [reflexivity|].
  assert (E : forall (a b : R) t, final_knot (a :: b :: t) = final_knot (b :: t)) by (intros; unfold final_knot; cbn; now rewrite Nat.sub_0_r).
  rewrite E. destruct (Req_EM_T x y) as [->|Hxy].
  - rewrite unique_same. exact IH.
  - rewrite unique_step by auto. destruct (unique_copy_head dz y l) as (r & Er). rewrite Er in *. rewrite E. exact IH.
Qed.

Lemma element_at_dir u : (first_knot kv <= u <= final_knot kv)%R -> exists k e,
  knot_span (F := F) (unique_copy (F := F) (inner kv p)) u = Ok e /\ 0 <= e < zlen (pairs (inner kv p)) /\
  knot_span (F := F) kv u = Ok k /\ in_span kv k u /\
  knot_interval kv p k (nth (Z.to_nat e) (pairs (inner kv p)) (0, 0)%R) /\
  index_shift (F := F) kv p e = Ok (k - p - e).
Proof.
  intros Hu. pose proof Hg as (Hp & Hc & Hn & Hs & Hlt).
  set (U := unique_copy (F := F) (inner kv p)).
  assert (Hf : first_knot U = first_knot kv) by (unfold U; rewrite unique_first; apply inner_first).
  assert (Hl : final_knot U = final_knot kv) by (unfold U; rewrite unique_final; apply inner_final).
  assert (HlU : (length U = S (length (pairs (inner kv p))))%nat) by (apply unique_pairs, inner_ne).
  destruct (knot_span_in_span dz U u) as (e & Ee & He).
  - unfold U. apply unique_copy_nondecreasing, inner_nondec.
  - apply (separated_incl U kv); auto. apply unique_In.
  - now rewrite Hf, Hl.
  - now rewrite Hf, Hl.
  - pose proof He as (B1 & B2 & B3 & B4 & B5).
    assert (Her : 0 <= e < zlen (pairs (inner kv p))) by (unfold zlen in *; rnorm; lia).
    destruct (element_dir e Her) as (k & K1 & K2 & K3 & K4). fold U in K3, K4.
    assert (T1 : tk U e = tk kv k) by (rewrite <- K3; rewrite tk_knot' by (unfold zlen in *; lia); reflexivity).
    assert (T2 : tk U (e + 1) = tk kv (k + 1)).
    { rewrite <- K4. rewrite tk_knot' by (unfold zlen in *; lia). unfold knot. now replace (S (Z.to_nat e)) with (Z.to_nat (e + 1)) by lia. }
    rewrite T1, T2 in *. rewrite Hl in B5.
    assert (Hsp : in_span kv k u).
    { unfold in_span. destruct K1 as (K1 & _). fold (zlen kv) in K1. repeat split; auto; lia. }
    destruct (knot_span_in_span dz kv u Hn Hs Hlt Hu) as (k' & Ek' & Hk').
    rewrite (in_span_unique kv k k' u Hn Hsp Hk') in *. exists k', e. exact (conj Ee (conj Her (conj Ek' (conj Hk' (conj K1 K2))))). 
Qed.

End Direction.
End Facts.
