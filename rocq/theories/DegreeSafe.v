(* RemoveBezierKnots on splines that need not describe the same map (C84). *)
From Coq Require Import ZArith List Bool Lia Reals Lra Permutation.
From Verif Require Import Base BaseFacts RSum MultiIndex MultiIndexSpec MultiIndexFacts TensorSum
  KnotVec KnotVecSpec KnotVecFacts Basis BasisSpec BSplineTheory BasisFacts
  Spaces SpacesSpec SpacesFacts SplineEval SplineEdit SplineSpec EditSpec RemoveSpec EvalFacts EvalThms PhysFacts InsertKnots InsertFacts InsertThms InsertRepeat RemoveFacts RemoveThms UniqueSpec UniqueFacts
  SplineDegree DegreeSpec DegreeFacts DegreeReduce DegreeThms KnotRuns ReduceKnots ReduceSegments ReduceSpan ReduceSums ReduceFacts ReduceStage ReduceMain ReduceSpec ReduceThms DegreeSafeSpec.
Import ListNotations.
Open Scope Z_scope.

Lemma runs_end p a rs b : of_runs p a rs b = (repeat a (Z.to_nat p + 1) ++ expand rs) ++ repeat b (Z.to_nat p + 1).
Proof. unfold of_runs. now rewrite <- app_assoc. Qed.

Lemma runs_inner_new p a rs x b : chain a rs x -> (x < b)%R -> separated (x :: of_runs p a rs b) -> good_direction (of_runs p a rs b) p ->
  exists n, inner (of_runs p a rs b) p x n /\ forall r, insm (of_runs p a rs b) n x r = of_runs p a (rs ++ [(x, r)]) b.
Proof.
  intros C1 Hx Hs Hg. pose proof (chain_lt _ _ _ C1).
  set (l1 := repeat a (Z.to_nat p + 1) ++ expand rs). set (l2 := repeat b (Z.to_nat p + 1)).
  assert (E : of_runs p a rs b = l1 ++ l2) by apply runs_end.
  exists (length l1). split.
  - split; [auto|]. split; [auto|]. split; [|rewrite runs_first, runs_final; lra].
    rewrite E. apply at_pos_split.
    + unfold l1. rewrite Nat.add_comm. discriminate.
    + unfold l2. rewrite Nat.add_comm. discriminate.
    + unfold l1. apply Forall_app; split.
      * apply Forall_forall. intros y Hy. apply repeat_spec in Hy. subst. lra.
      * eapply Forall_impl; [|exact (chain_between _ _ _ C1)]. cbv beta. intros; lra.
    + unfold l2. apply Forall_forall. intros y Hy. apply repeat_spec in Hy. subst. lra.
  - intros r. rewrite E, insm_split. unfold of_runs, l1, l2. rewrite expand_app, expand_cons. cbn [expand flat_map]. rewrite <- !app_assoc. reflexivity.
Qed.

Lemma run_length_end dz (pre : list R) b k : forall fuel, run_length (F := Rops dz) fuel (pre ++ repeat b (S k)) (zlen pre) = UB.
Proof.
  revert pre. induction k as [|k IH]; intros pre [|fuel]; cbn [run_length]; try reflexivity.
  - replace (zlen pre) with (zlen pre + Z.of_nat 0) at 1 by lia. rewrite get_after by (cbn; lia). cbn [bind nth].
    assert (E : get_knot (F := Rops dz) (pre ++ repeat b 1) (zlen pre + 1) = UB); [|now rewrite E].
    unfold get_knot. apply vget_out. unfold zlen. rewrite app_length. cbn [length repeat]. lia.
  - replace (zlen pre) with (zlen pre + Z.of_nat 0) at 1 by lia. rewrite get_after by (cbn; lia). cbn [bind nth].
    replace (zlen pre + 1) with (zlen pre + Z.of_nat 1) at 1 by lia. rewrite get_after by (cbn; lia). cbn [bind nth repeat].
    assert (Eb : (neqb (n := Rops dz) b b) = true) by (change (Reqb b b = true); destruct (Reqb_spec b b); [reflexivity | contradiction]). rewrite Eb.
    specialize (IH (pre ++ [b]) fuel). rewrite <- app_assoc in IH. cbn [app] in IH.
    replace (zlen (pre ++ [b])) with (zlen pre + 1) in IH by (unfold zlen; rewrite app_length; cbn [length]; lia).
    cbn [repeat] in IH |- *. rewrite IH. reflexivity.
Qed.

Section Safe.
Variable dz : R -> R.
Local Notation F := (Rops dz).
Implicit Types s t q : spline F.

Lemma new_step s d p a rs x b r : well_formed s -> regular s -> direction s d (of_runs p a rs b) p ->
  chain a rs x -> (x < b)%R -> separated (x :: of_runs p a rs b) -> Z.of_nat r <= p -> zlen (of_runs p a rs b) + Z.of_nat r < 2 ^ 31 ->
  exists s', well_formed s' /\ regular s' /\
    knots_of s' = upd (knots_of s) d (of_runs p a (rs ++ [(x, r)]) b) /\ degs_of s' = degs_of s /\ same_map dz s s' /\
    forall tol, (0 <= tol)%R -> remove_knot s' x d tol (Z.of_nat r) = Ok (Z.of_nat r, s).
Proof.
  intros Hwf Hreg Hdir Hc Hx Hs Hm Hz. pose proof Hdir as [Ek Ed]. destruct (wf_direction dz s d _ p Hwf Ek Ed) as (Hg & _).
  set (kv := of_runs p a rs b) in *.
  destruct (runs_inner_new p a rs x b Hc Hx Hs Hg) as (n & Hin & Hins). fold kv in Hin, Hins.
  assert (Ho : occurrences kv x = 0%nat).
  { apply occ_none. unfold kv. pose proof (chain_lt _ _ _ Hc). rewrite runs_end. rewrite !in_app_iff. intros [[H1|H1]|H1].
    - apply repeat_spec in H1. lra.
    - pose proof (chain_between _ _ _ Hc) as B. rewrite Forall_forall in B. specialize (B x H1). lra.
    - apply repeat_spec in H1. lra. }
  destruct (insert_ok dz s d kv p x n r Hwf Ek Ed Hin ltac:(lia) ltac:(lia)) as (s' & E & W & K & G & D & Wt & Pv).
  destruct (Pv (regular_positive dz s Hwf Hreg)) as [Q1 Q2]. exists s'. split; [auto|].
  split; [now apply (regular_back dz s)|]. split; [now rewrite K, Hins|]. split; [auto|]. split.
  - split; [auto|]. split; [auto|]. intros us. split; [|apply Q2].
    apply (in_domain_upd_iff dz s s' d kv (insm kv n x r)); auto; destruct (first_insm kv p n x r Hin); auto.
  - intros tol Ht.
    assert (Hi : insertable kv p x (Z.of_nat r)) by (split; [apply Hin|]; split; [apply Hin | lia]).
    destruct (insert_remove_many dz s d kv p x tol (Z.of_nat r) Hwf Hreg Hdir Hi ltac:(lia) ltac:(lia) Ht ltac:(lia)) as (s'' & I1 & I2).
    congruence.
Qed.

(* the first N runs are taken back to their former length *)
Lemma remove_prefix s d p a rs b N diff : well_formed s -> regular s -> direction s d (of_runs p a rs b) p -> chain a rs b -> 1 <= p ->
  Forall (fun r => Z.of_nat (snd r) <= p) rs -> fits p rs -> (N <= length rs)%nat -> fill p (skipn N rs) = skipn N rs ->
  (forall j r, (j < N)%nat -> nth_error rs j = Some r -> nth_error diff j = Some (p - Z.of_nat (snd r))) ->
  forall k, (k <= N)%nat ->
  let j := (N - k)%nat in
  exists t, well_formed t /\ regular t /\ degs_of t = degs_of s /\ same_map dz s t /\
    knots_of t = upd (knots_of s) d (of_runs p a (firstn j rs ++ fill p (skipn j rs)) b) /\
    forall fuel,
      remove_bezier_loop (k + fuel) t d diff (Z.of_nat j) (p + 1 + zlen (expand (firstn j rs))) =
      remove_bezier_loop fuel s d diff (Z.of_nat N) (p + 1 + zlen (expand (firstn N rs))).
Proof.
  intros Hwf Hreg [Ek Ed] Hc Hp Hm Hz HN Hfl Hdf. induction k as [|k IH]; intros Hk j.
  - exists s. subst j. rewrite Nat.sub_0_r. rewrite Hfl, firstn_skipn. split; [auto|]. split; [auto|]. split; [auto|].
    split; [apply same_map_refl|]. split; [symmetry; now apply upd_id|]. reflexivity.
  - specialize (IH ltac:(lia)). cbv zeta in IH. replace (N - k)%nat with (S j) in IH by lia.
    destruct IH as (t1 & W & Rg & G & M & K & L).
    destruct (list_split rs j ltac:(unfold j; lia)) as ([x m] & E1 & E2 & E3 & E4).
    set (r1 := firstn j rs) in *. set (r2 := fill p (skipn (S j) rs)) in *. rewrite E4, <- app_assoc in K. cbn [app] in K.
    assert (Hmx : Z.of_nat m <= p).
    { rewrite Forall_forall in Hm. apply (Hm (x, m)). eapply nth_error_In. exact E2. }
    assert (Hc1 : chain a (r1 ++ (x, m) :: r2) b).
    { change (r1 ++ (x, m) :: r2) with (r1 ++ [(x, m)] ++ r2). rewrite app_assoc. apply (chain_fill dz); auto. rewrite <- app_assoc. cbn [app]. rewrite <- E1. exact Hc. }
    destruct (chain_split _ _ _ _ _ _ Hc1) as (C1 & C2 & C3).
    assert (Ek1 : nth_error (knots_of t1) d = Some (of_runs p a (r1 ++ (x, m) :: r2) b)) by (rewrite K; now apply (nth_error_upd_same _ _ _ (of_runs p a rs b))).
    assert (Ed1 : nth_error (degs_of t1) d = Some p) by now rewrite G.
    destruct (fill_step dz t1 d p a r1 x m r2 b (Z.to_nat p - m) W Rg (conj Ek1 Ed1) Hc1 ltac:(lia)) as (t & I1 & W' & Rg' & K' & G' & M' & Rm).
    { assert (Hl1 : (length (expand r1) <= length r1 * Z.to_nat p)%nat).
      { apply expand_le_fill. unfold r1. apply Forall_forall. intros q Hq. rewrite Forall_forall in Hm. assert (In q rs) by (rewrite E1; apply in_or_app; now left). specialize (Hm q H). lia. }
      unfold zlen. rewrite runs_length, expand_app, expand_cons, !app_length, repeat_length. unfold r2. rewrite (expand_fill_length), skipn_length.
      assert (length r1 = j) by (unfold r1; rewrite firstn_length; lia). unfold fits in Hz. nia. }
    replace (m + (Z.to_nat p - m))%nat with (Z.to_nat p) in K' by lia.
    exists t. split; [auto|]. split; [auto|]. split; [congruence|]. split; [now apply (same_map_trans dz s t1)|].
    assert (Efill : fill p (skipn j rs) = (x, Z.to_nat p) :: r2) by (rewrite E3; reflexivity).
    rewrite Efill. split; [now rewrite K', K, upd_upd|].
    intros fuel. cbn [Nat.add remove_bezier_loop].
    assert (Ekt : nth_error (knots_of t) d = Some (of_runs p a (r1 ++ (x, Z.to_nat p) :: r2) b)) by (rewrite K'; now apply (nth_error_upd_same _ _ _ (of_runs p a (r1 ++ (x, m) :: r2) b))).
    unfold sp_knots at 1, dget. fold (knots_of t). rnorm. rewrite Ekt. cbn [bind].
    assert (Hct : chain a (r1 ++ (x, Z.to_nat p) :: r2) b) by (apply chain_join; auto; lia).
    rewrite (runs_different dz p a _ b Hct).
    assert (Lr : length (r1 ++ (x, Z.to_nat p) :: r2) = length rs).
    { unfold r1, r2, fill. rewrite app_length. cbn [length]. rewrite map_length, firstn_length, skipn_length. lia. }
    rewrite Lr. assert (Eb : Z.of_nat j <? 2 + Z.of_nat (length rs) - 2 = true) by (apply Z.ltb_lt; lia). rewrite Eb.
    set (pre := repeat a (Z.to_nat p + 1) ++ expand r1).
    assert (Lpre : p + 1 + zlen (expand r1) = zlen pre) by (unfold pre, zlen; rewrite app_length, repeat_length; lia).
    rewrite Lpre.
    assert (Eu : get_knot (F := F) (of_runs p a (r1 ++ (x, Z.to_nat p) :: r2) b) (zlen pre) = Ok x).
    { rewrite runs_mid. fold pre. replace (zlen pre) with (zlen pre + Z.of_nat 0) by lia.
      rewrite get_after by (rewrite app_length, repeat_length; lia). f_equal. rewrite app_nth1 by (rewrite repeat_length; lia). apply nth_in_repeat. lia. }
    rewrite Eu. cbn [bind].
    assert (Eg : vget diff (Z.of_nat j) = Ok (p - Z.of_nat m)).
    { pose proof (Hdf j (x, m) ltac:(lia) E2) as Hj. cbn [snd] in Hj. assert ((j < length diff)%nat) by (apply nth_error_Some; congruence).
      rewrite (vget_nth _ _ 0) by (unfold zlen; lia). rewrite Nat2Z.id. f_equal. now apply nth_error_nth. }
    rewrite Eg. cbn [bind]. rewrite u64_small by (unfold fits in Hz; nia).
    rewrite kEpsilon_R. replace (p - Z.of_nat m) with (Z.of_nat (Z.to_nat p - m)) by lia. rewrite Rm by (unfold epsR; lra). cbn [bind snd].
    unfold sp_knots at 1, dget. fold (knots_of t1). rnorm. rewrite Ek1. cbn [bind].
    assert (Epost : exists y post, expand r2 ++ repeat b (Z.to_nat p + 1) = y :: post /\ x <> y).
    { destruct r2 as [|[y q] r2']; [exists b, (repeat b (Z.to_nat p)); rewrite Nat.add_comm; cbn; split; auto; cbn in C3; lra|].
      destruct C3 as (D1 & D2 & D3). cbn [fst snd] in *. destruct q as [|q]; [lia|]. rewrite expand_cons. cbn [repeat app].
      eexists y, _. split; [reflexivity | lra]. }
    destruct Epost as (y & post & Epost & Hxy). destruct m as [|m]; [lia|].
    assert (Ekv : of_runs p a (r1 ++ (x, S m) :: r2) b = pre ++ repeat x (S m) ++ y :: post) by (rewrite runs_mid, Epost; reflexivity).
    assert (Erun : run_length (F := F) (S (length (of_runs p a (r1 ++ (x, S m) :: r2) b))) (of_runs p a (r1 ++ (x, S m) :: r2) b) (zlen pre) = Ok (Z.of_nat m)).
    { rewrite Ekv. apply run_length_ok; auto. rewrite !app_length, repeat_length. lia. }
    step Erun. specialize (L fuel). rewrite E4, expand_app, expand_cons in L. cbn [expand flat_map] in L.
    rewrite <- L. f_equal; [lia|]. rewrite <- Lpre. unfold zlen. rewrite !app_length, repeat_length. cbn [length]. lia.
Qed.
(* the last run is removed entirely: the scan for its end leaves the knot vector *)
Lemma remove_last_ub s t d p a rs x m b diff fuel : direction s d (of_runs p a rs b) p -> direction t d (of_runs p a (rs ++ [(x, m)]) b) p ->
  chain a (rs ++ [(x, m)]) b -> 0 <= p -> Z.of_nat m < 2 ^ 63 -> nth_error diff (length rs) = Some (Z.of_nat m) ->
  remove_knot t x d (kEpsilon (F := F)) (Z.of_nat m) = Ok (Z.of_nat m, s) ->
  remove_bezier_loop fuel t d diff (Z.of_nat (length rs)) (p + 1 + zlen (expand rs)) = UB.
Proof.
  intros [Ek Ed] [Ek1 Ed1] Hc Hp Hm Hd Hr.
  assert (E : forall c, remove_bezier_loop fuel t d diff (Z.of_nat (length rs)) c =
       (kv <- sp_knots t d ;; if Z.of_nat (length rs) <? num_different kv - 2 then match fuel with O => UB | S f => u <- get_knot kv c ;; di <- vget diff (Z.of_nat (length rs)) ;;
        cs <- remove_knot t u d kEpsilon (u64 di) ;; kv' <- sp_knots (snd cs) d ;; r <- run_length (S (length kv')) kv' c ;;
        remove_bezier_loop f (snd cs) d diff (Z.of_nat (length rs) + 1) (c + r + 1) end else Ok t)) by (intros c; destruct fuel; reflexivity).
  rewrite E. clear E. unfold sp_knots at 1, dget. fold (knots_of t). rnorm. rewrite Ek1. cbn [bind].
  rewrite (runs_different dz p a _ b Hc), app_length. cbn [length].
  destruct (Z.ltb_spec (Z.of_nat (length rs)) (2 + Z.of_nat (length rs + 1) - 2)); [|lia]. destruct fuel as [|fuel]; [reflexivity|].
  set (pre := repeat a (Z.to_nat p + 1) ++ expand rs).
  assert (Lpre : p + 1 + zlen (expand rs) = zlen pre) by (unfold pre, zlen; rewrite app_length, repeat_length; lia). rewrite Lpre.
  destruct (chain_split _ _ _ _ _ _ Hc) as (C1 & C2 & C3).
  assert (Eu : get_knot (F := F) (of_runs p a (rs ++ [(x, m)]) b) (zlen pre) = Ok x).
  { rewrite runs_mid. fold pre. replace (zlen pre) with (zlen pre + Z.of_nat 0) by lia.
    rewrite get_after by (rewrite app_length, repeat_length; lia). f_equal. rewrite app_nth1 by (rewrite repeat_length; lia). apply nth_in_repeat. lia. }
  rewrite Eu. cbn [bind].
  assert (Eg : vget diff (Z.of_nat (length rs)) = Ok (Z.of_nat m)).
  { assert ((length rs < length diff)%nat) by (apply nth_error_Some; congruence).
    rewrite (vget_nth _ _ 0) by (unfold zlen; lia). rewrite Nat2Z.id. f_equal. now apply nth_error_nth. }
  rewrite Eg. cbn [bind]. rewrite u64_small by lia. step Hr. cbn [snd].
  unfold sp_knots at 1, dget. fold (knots_of s). rnorm. rewrite Ek. cbn [bind].
  rewrite runs_end. fold pre. rewrite (Nat.add_comm (Z.to_nat p)). cbn [Nat.add]. rewrite (run_length_end dz pre b (Z.to_nat p)). reflexivity.
Qed.

Theorem reduce_reads_past q s d kq kp p x : well_formed q -> regular q -> direction q d kq (p - 1) -> 2 <= p ->
  Forall2 full_support (knots_of q) (degs_of q) -> interior_at_most kq (p - 1) -> bezier_size kp p ->
  in_last_span kq x ->
  well_formed s -> regular s -> knots_of s = upd (knots_of q) d kp -> degs_of s = upd (degs_of q) d p -> one_copy_more_and x kq kp -> same_sums q s ->
  forall tol, (0 < tol)%R -> reduce_degree s d tol = UB.
Proof.
  intros Wq Rq Dq Hp Fq Hi Hz [Hx Hlast] Ws Rs Ks Gs Hoc Hsame tol Ht. pose proof Dq as [Ekq Edq]. pose proof Wq as [Hgd _ _ _ _ _].
  destruct (as_runs kq (p - 1) (Forall2_nth_error _ _ _ _ _ _ Hgd Ekq Edq) (Forall2_nth_error _ _ _ _ _ _ Fq Ekq Edq)) as (a & rs & b & E & Hc & E1 & E2 & E3 & Ho).
  pose proof (counts_le kq (p - 1) a rs b (p - 1) E Hc E1 E2 Ho Hi) as Hm. rewrite E1, E2 in *.
  assert (Hcx : chain a rs x).
  { assert (G : forall a, chain a rs b -> (a < x)%R -> (forall y m, In (y, m) rs -> (y < x)%R) -> chain a rs x).
    { clear. induction rs as [|[y m] rs IH]; intros a Hc Ha H; cbn [chain fst snd] in *; [auto|]. destruct Hc as (C1 & C2 & C3).
      split; [auto|]. split; [auto|]. apply IH; auto; [apply (H y m); now left | intros z k Hzk; apply (H z k); now right]. }
    apply G; [auto | lra|]. intros y m Hy. destruct (Ho y m Hy) as (P1 & P2 & P3). apply Hlast; [auto | lra]. }
  assert (Eks : nth_error (knots_of s) d = Some kp) by (rewrite Ks; now apply (nth_error_upd_same _ _ _ kq)).
  assert (Eds : nth_error (degs_of s) d = Some p) by (rewrite Gs; now apply (nth_error_upd_same _ _ _ (p - 1))).
  pose proof Ws as [Hgs _ _ _ _ _]. pose proof (Forall2_nth_error _ _ _ _ _ _ Hgs Eks Eds) as Gp.
  set (R' := bump rs ++ [(x, 1%nat)]).
  assert (HcR : chain a R' b) by (apply chain_join; [now apply bump_chain | lia | cbn; lra]).
  assert (Hnx : ~ In x kq) by (intros H; specialize (Hlast x H ltac:(lra)); lra).
  assert (Ekp : kp = of_runs p a R' b).
  { apply sorted_occ_eq; [apply Gp | now apply nd_runs|]. intros y. rewrite Hoc, E. rewrite E in Hnx.
    pose proof (bump_occ p a rs b y ltac:(lia) Hc) as B. unfold of_runs in B |- *. unfold R'. rewrite expand_app, expand_cons. cbn [expand flat_map].
    rewrite app_nil_r. rewrite !occ_app in *. rewrite (occ_repeat x 1). destruct (Req_EM_T y x), (Req_EM_T x y); try congruence; lia. }
  assert (Dp : In x kp) by (rewrite Ekp; apply runs_in; auto; right; apply in_or_app; left; unfold R'; rewrite map_app; apply in_or_app; right; now left).
  assert (Hsep : separated (x :: of_runs (p - 1) a rs b)).
  { apply (separated_incl _ kp); [|apply Gp]. intros y [<-|Hy]; [auto|]. rewrite Ekp. apply runs_in; auto. apply runs_in in Hy; auto.
    destruct Hy as [<-|Hy]; [now left|]. right. unfold R', bump. rewrite map_app, map_map. cbn [fst]. apply in_app_iff in Hy as [Hy|Hy].
    - apply in_or_app. left. apply in_or_app. now left.
    - apply in_or_app. now right. }
  assert (Hfit : fits p R').
  { unfold bezier_size in Hz. rewrite <- (num_different_distinct (fun x => x)) in Hz; [| apply Gp | rewrite Ekp; intros HH; apply (f_equal (@length R)) in HH; rewrite runs_length in HH; cbn [length] in HH; lia].
    rewrite Ekp, (runs_different (fun x => x) p a R' b HcR) in Hz. unfold fits. nia. }
  assert (HlR : length R' = S (length rs)) by (unfold R'; rewrite app_length, bump_length; cbn; lia).
  assert (Dq' : direction q d (of_runs (p - 1) a rs b) (p - 1)) by (now rewrite <- E).
  assert (Hel : (length (expand rs) <= length rs * Z.to_nat (p - 1))%nat).
  { apply expand_le_fill. eapply Forall_impl; [|exact Hm]. cbv beta. intros r Hr. lia. }
  set (r := Z.to_nat (p - 1)) in *.
  destruct (new_step q d (p - 1) a rs x b r Wq Rq Dq' Hcx ltac:(lra) Hsep ltac:(lia)) as (q2 & W2 & R2 & K2 & G2 & M2 & Rm2).
  { unfold zlen. rewrite runs_length. unfold fits in Hfit. rewrite HlR in Hfit. fold r. nia. }
  set (T := rs ++ [(x, r)]) in *.
  assert (HcT : chain a T b) by (apply chain_join; [auto | lia | cbn; lra]).
  assert (HlT : length T = S (length rs)) by (unfold T; rewrite app_length; cbn; lia).
  assert (D2 : direction q2 d (of_runs (p - 1) a T b) (p - 1)) by (split; [rewrite K2; now apply (nth_error_upd_same _ _ _ kq) | now rewrite G2]).
  assert (HmT : Forall (fun r => Z.of_nat (snd r) <= p - 1) T) by (apply Forall_app; split; [auto | constructor; [cbn [snd]; lia | constructor]]).
  assert (HfT : fits (p - 1) T) by (unfold fits in *; rewrite HlT; rewrite HlR in Hfit; nia).
  assert (Esk : skipn (length rs) T = [(x, r)]) by (unfold T; rewrite skipn_app, skipn_all, Nat.sub_diag; reflexivity).
  assert (Efi : firstn (length rs) T = rs) by (unfold T; rewrite firstn_app, firstn_all, Nat.sub_diag; cbn [firstn]; apply app_nil_r).
  assert (Egp : gaps p R' = gaps (p - 1) rs ++ [Z.of_nat r]).
  { unfold R'. unfold gaps at 1. rewrite map_app. fold (gaps p (bump rs)). rewrite bump_gaps. cbn [map snd]. do 2 f_equal. lia. }
  assert (Hlg : length (gaps (p - 1) rs) = length rs) by (unfold gaps; apply map_length).
  destruct (remove_prefix q2 d (p - 1) a T b (length rs) (gaps p R') W2 R2 D2 HcT ltac:(lia) HmT HfT ltac:(lia)) with (k := length rs) as (q1 & W1 & R1 & G1 & M1 & K1 & L1); auto.
  { rewrite Esk. reflexivity. }
  { intros j rr Hj Hn. rewrite Egp, nth_error_app1 by lia. unfold T in Hn. rewrite nth_error_app1 in Hn by lia. unfold gaps. rewrite nth_error_map, Hn. reflexivity. }
  rewrite Nat.sub_diag in *. cbn [firstn skipn app expand flat_map] in K1, L1.
  assert (Ds : direction s d (of_runs p a R' b) p) by (split; [now rewrite <- Ekp | auto]).
  assert (HmR : Forall (fun r : R * nat => Z.of_nat (snd r) <= p) R').
  { apply Forall_app; split; [|constructor; [cbn [snd]; lia | constructor]].
    apply Forall_forall. intros rr Hr. apply in_map_iff in Hr as (r' & <- & Hr). rewrite Forall_forall in Hm. specialize (Hm r' Hr). cbn [snd]. lia. }
  assert (EfT : fill (p - 1) R' = fill (p - 1) T) by (unfold R', T, fill; rewrite !map_app; unfold bump; rewrite map_map; reflexivity).
  assert (Ms : same_map dz q s).
  { apply (same_sums_map dz q s d kq kp); auto.
    - rewrite Ekp, E. now rewrite !runs_first by lia.
    - rewrite Ekp, E. now rewrite !runs_final by lia. }
  rewrite (reduce_to dz s d p a R' b q1); auto.
  - assert (D1 : direction q1 d (of_runs (p - 1) a (fill (p - 1) T) b) (p - 1)).
    { split; [rewrite K1; apply (nth_error_upd_same _ _ _ (of_runs (p - 1) a T b)); apply D2 | now rewrite G1, G2]. }
    destruct D1 as [Ek1 Ed1]. unfold remove_bezier, sp_deg, sp_knots, dget. fold (knots_of q1) (degs_of q1). rnorm. rewrite Ed1. cbn [bind]. rewrite Ek1. cbn [bind].
    assert (exists fuel, length (of_runs (p - 1) a (fill (p - 1) T) b) = (length rs + fuel)%nat) as (fuel & Ef).
    { exists (length (of_runs (p - 1) a (fill (p - 1) T) b) - length rs)%nat. rewrite runs_length, expand_fill_length, HlT. fold r. nia. }
    rewrite Ef. specialize (L1 fuel). replace (p - 1 + 1 + zlen []) with (p - 1 + 1) in L1 by (unfold zlen; cbn; lia). rnorm. change (Z.of_nat 0) with 0 in L1.
    rewrite L1, Efi. rewrite (remove_last_ub q q2 d (p - 1) a rs x r b); auto; try lia; [| |].
    + unfold fits in Hfit. nia.
    + rewrite Egp, nth_error_app2, Hlg, Nat.sub_diag by lia. reflexivity.
    + apply Rm2. rewrite kEpsilon_R. unfold epsR. lra.
  - rewrite Ks, Gs. apply upd2_all; auto. rewrite Ekp. apply support_occ; [lia | now apply nd_runs|]. apply runs_occ_le; auto; [lia|].
    eapply Forall_impl; [|exact HmR]. intros rr Hr. cbn in Hr. lia.
  - now rewrite EfT, K1, K2, Ks, !upd_upd.
  - rewrite G1, G2, Gs, upd_upd. symmetry. now apply upd_id.
  - eapply same_map_trans; [apply same_map_sym; exact Ms|]. eapply same_map_trans; [exact M2 | exact M1].
Qed.

(* runs with c copies taken away *)
Definition less (r : R * nat) (c : Z) : R * nat := (fst r, (snd r - Z.to_nat c)%nat).

Lemma perm_occ (l l' : list R) x : Permutation l l' -> occurrences l x = occurrences l' x.
Proof. intros H. unfold occurrences. now apply Permutation_count_occ. Qed.

Lemma remove_keeps_loop d (q : Z) a b : 0 <= q -> forall todo rs t fuel dd ds, well_formed t -> direction t d (of_runs q a (rs ++ todo) b) q -> chain a (rs ++ todo) b ->
  Forall (fun r => Z.of_nat (snd r) <= q) todo -> zlen (of_runs q a (rs ++ todo) b) < 2 ^ 31 -> (length todo <= fuel)%nat -> length dd = length rs ->
  Forall2 (fun r g => 0 <= g < Z.of_nat (snd r)) todo ds ->
  exists t' cs, remove_bezier_loop fuel t d (dd ++ ds) (Z.of_nat (length rs)) (q + 1 + zlen (expand rs)) = Ok t' /\ well_formed t' /\
    knots_of t' = upd (knots_of t) d (of_runs q a (rs ++ map2 less todo cs) b) /\ degs_of t' = degs_of t /\
    ph_dim (sp_ph t') = ph_dim (sp_ph t) /\ (is_bspline t' <-> is_bspline t) /\ Forall2 (fun c g => 0 <= c <= g) cs ds.
Proof.
  intros Hq. induction todo as [|[x m] todo IH]; intros rs t fuel dd ds Hwf [Ek Ed] Hc Hm Hz Hf Hdd Hds.
  - inversion Hds; subst ds. exists t, []. rewrite app_nil_r in *. cbn [map2].
    assert (E : forall c, remove_bezier_loop fuel t d dd (Z.of_nat (length rs)) c =
       (kv <- sp_knots t d ;; if Z.of_nat (length rs) <? num_different kv - 2 then match fuel with O => UB | S f => u <- get_knot kv c ;; di <- vget dd (Z.of_nat (length rs)) ;;
        cs <- remove_knot t u d kEpsilon (u64 di) ;; kv' <- sp_knots (snd cs) d ;; r <- run_length (S (length kv')) kv' c ;;
        remove_bezier_loop f (snd cs) d dd (Z.of_nat (length rs) + 1) (c + r + 1) end else Ok t)) by (intros c; destruct fuel; reflexivity).
    rewrite E. unfold sp_knots, dget. fold (knots_of t). rnorm. rewrite Ek. cbn [bind]. rewrite (runs_different dz q a rs b Hc).
    destruct (Z.ltb_spec (Z.of_nat (length rs)) (2 + Z.of_nat (length rs) - 2)); [lia|].
    split; [reflexivity|]. split; [auto|]. rewrite app_nil_r. split; [symmetry; now apply upd_id|]. split; [auto|]. split; [auto|]. split; [tauto | constructor].
  - inversion Hds as [|r0 g t0 ds2 Hg Hds2]; subst. inversion Hm as [|r1 t1 Hmx Hm2]; subst. cbn [snd] in *. destruct fuel as [|fuel]; [cbn in Hf; lia|].
    destruct (chain_split _ _ _ _ _ _ Hc) as (C1 & C2 & C3). pose proof (chain_lt _ _ _ C1). pose proof (chain_lt _ _ _ C3).
    set (kv := of_runs q a (rs ++ (x, m) :: todo) b) in *.
    assert (Ho : occurrences kv x = m) by now apply runs_occ.
    assert (Hz31 : Z.of_nat m < 2 ^ 31).
    { unfold zlen, kv in Hz. rewrite runs_length, expand_app, expand_cons, !app_length, repeat_length in Hz. lia. }
    destruct (remove_counts dz t d kv q x (kEpsilon (F := F)) g Hwf (conj Ek Ed)) as (c & t1 & kv' & E & Hcg & _ & W1 & K1 & Pm & G1 & _ & D1 & B1); try lia; auto.
    { unfold kv. rewrite runs_first, runs_final. lra. }
    { apply (count_occ_In Req_EM_T). fold (occurrences kv x). lia. }
    assert (Ek1 : nth_error (knots_of t1) d = Some kv') by (rewrite K1; now apply (nth_error_upd_same _ _ _ kv)).
    assert (Ed1 : nth_error (degs_of t1) d = Some q) by now rewrite G1.
    set (m' := (m - Z.to_nat c)%nat).
    assert (Hc' : chain a (rs ++ (x, m') :: todo) b) by (apply chain_join; auto; unfold m'; lia).
    assert (Ekv : kv' = of_runs q a (rs ++ (x, m') :: todo) b).
    { pose proof W1 as [Hgd _ _ _ _ _]. pose proof (Forall2_nth_error _ _ _ _ _ _ Hgd Ek1 Ed1) as Hg1.
      apply sorted_occ_eq; [apply Hg1 | now apply nd_runs|]. intros y. assert (Py : occurrences kv y = ((if Req_EM_T x y then Z.to_nat c else 0) + occurrences kv' y)%nat) by (rewrite (perm_occ _ _ y Pm), <- occ_repeat; apply occ_app). unfold kv in Py. rewrite runs_mid in Py |- *.
      rnorm. rewrite !occ_app in Py |- *. rewrite !(occ_repeat x) in Py |- *. unfold m'. destruct (Req_EM_T x y); lia. }
    cbn [remove_bezier_loop]. unfold sp_knots at 1, dget. fold (knots_of t). rnorm. rewrite Ek. cbn [bind].
    assert (End : num_different (F := F) kv = 2 + Z.of_nat (length (rs ++ (x, m) :: todo))) by (now apply runs_different). rnorm. rewrite End, app_length. cbn [length].
    assert (Eb : Z.of_nat (length rs) <? 2 + Z.of_nat (length rs + S (length todo)) - 2 = true) by (apply Z.ltb_lt; lia). rewrite Eb.
    set (pre := repeat a (Z.to_nat q + 1) ++ expand rs).
    assert (Lpre : q + 1 + zlen (expand rs) = zlen pre) by (unfold pre, zlen; rewrite app_length, repeat_length; lia). rewrite Lpre.
    assert (Eu : get_knot (F := F) kv (zlen pre) = Ok x).
    { unfold kv. rewrite runs_mid. fold pre. replace (zlen pre) with (zlen pre + Z.of_nat 0) by lia.
      rewrite get_after by (rewrite app_length, repeat_length; lia). f_equal. rewrite app_nth1 by (rewrite repeat_length; lia). apply nth_in_repeat. lia. }
    rewrite Eu. cbn [bind].
    assert (Eg : vget (dd ++ g :: ds2) (Z.of_nat (length rs)) = Ok g).
    { rewrite (vget_nth _ _ 0) by (unfold zlen; rewrite app_length; cbn [length]; lia). rewrite Nat2Z.id, <- Hdd, app_nth2, Nat.sub_diag by lia. reflexivity. }
    rewrite Eg. cbn [bind]. rewrite u64_small by lia. step E. cbn [snd].
    unfold sp_knots at 1, dget. fold (knots_of t1). rnorm. rewrite Ek1. cbn [bind].
    assert (Epost : exists y post, expand todo ++ repeat b (Z.to_nat q + 1) = y :: post /\ x <> y).
    { destruct todo as [|[y k] r2']; [exists b, (repeat b (Z.to_nat q)); rewrite Nat.add_comm; cbn; split; auto; cbn in C3; lra|].
      destruct C3 as (F1 & F2 & F3). cbn [fst snd] in *. destruct k as [|k]; [lia|]. rewrite expand_cons. cbn [repeat app].
      eexists y, _. split; [reflexivity | lra]. }
    destruct Epost as (y & post & Epost & Hxy). destruct m' as [|m''] eqn:Em'; [unfold m' in Em'; lia|].
    assert (Ekv0 : kv' = pre ++ repeat x (S m'') ++ y :: post) by (rewrite Ekv, runs_mid, Epost; reflexivity).
    assert (Erun : run_length (F := F) (S (length kv')) kv' (zlen pre) = Ok (Z.of_nat m'')).
    { rewrite Ekv0. apply run_length_ok; auto. rewrite !app_length, repeat_length. lia. }
    step Erun.
    destruct (IH (rs ++ [(x, S m'')]) t1 fuel (dd ++ [g]) ds2) as (t' & cs & L & W & K & G & D & B & F); auto.
    + rewrite <- app_assoc. cbn [app]. rewrite <- Ekv. split; auto.
    + rewrite <- app_assoc. exact Hc'.
    + rewrite <- app_assoc. cbn [app]. unfold zlen, kv in *. rewrite runs_length, expand_app, expand_cons, !app_length, repeat_length in *. lia.
    + cbn [length] in Hf. lia.
    + rewrite !app_length. cbn. lia.
    + exists t', (c :: cs). rewrite <- app_assoc in L, K. cbn [app] in L, K. split.
      { rewrite <- L. rewrite app_length, expand_app, expand_cons. cbn [length expand flat_map]. f_equal; [lia|]. rewrite <- Lpre. unfold zlen. rewrite !app_length, repeat_length. cbn [length]. lia. }
      split; [auto|]. cbn [map2]. unfold less at 1. cbn [fst snd]. fold m'. rewrite Em'. split; [now rewrite K, K1, upd_upd|].
      split; [congruence|]. split; [congruence|]. split; [tauto|]. constructor; auto; lia.
Qed.

Lemma remove_keeps t d (q : Z) a rs b ds : 0 <= q -> well_formed t -> direction t d (of_runs q a rs b) q -> chain a rs b ->
  Forall (fun r => Z.of_nat (snd r) <= q) rs -> zlen (of_runs q a rs b) < 2 ^ 31 -> Forall2 (fun r g => 0 <= g < Z.of_nat (snd r)) rs ds ->
  exists t' cs, remove_bezier t d ds = Ok t' /\ well_formed t' /\
    knots_of t' = upd (knots_of t) d (of_runs q a (map2 less rs cs) b) /\ degs_of t' = degs_of t /\
    ph_dim (sp_ph t') = ph_dim (sp_ph t) /\ (is_bspline t' <-> is_bspline t) /\ Forall2 (fun c g => 0 <= c <= g) cs ds.
Proof.
  intros Hq Hwf Hdir Hc Hm Hz Hds. pose proof Hdir as [Ek Ed].
  destruct (remove_keeps_loop d q a b Hq rs [] t (length (of_runs q a rs b)) [] ds) as (t' & cs & L & T); auto.
  { rewrite runs_length. assert (length rs <= length (expand rs))%nat; [|lia]. apply (chain_counts dz) in Hc. clear - Hc. induction Hc as [|[x m] rs H _ IH]; [cbn; lia|]. rewrite expand_cons, app_length, repeat_length. cbn [length snd] in *. lia. }
  exists t', cs. split; [|exact T]. unfold remove_bezier, sp_deg, sp_knots, dget. fold (knots_of t) (degs_of t). rnorm. rewrite Ed. cbn [bind]. rewrite Ek. cbn [bind].
  rewrite <- L. f_equal. unfold zlen. cbn. lia.
Qed.
End Safe.
