(* ReduceDegreeForDimension: the cases (C83). *)
From Coq Require Import ZArith List Bool Lia Reals Lra.
From Verif Require Import Base BaseFacts RSum MultiIndex MultiIndexSpec MultiIndexFacts TensorSum
  KnotVec KnotVecSpec KnotVecFacts Basis BasisSpec BSplineTheory BasisFacts
  Spaces SpacesSpec SpacesFacts SplineEval SplineEdit SplineSpec EditSpec RemoveSpec EvalFacts EvalThms PhysFacts InsertFacts InsertThms RemoveFacts RemoveThms UniqueSpec UniqueFacts
  SplineDegree DegreeSpec DegreeFacts DegreeReduce DegreeThms KnotRuns ReduceKnots ReduceSegments ReduceSpan ReduceSums ReduceFacts ReduceStage.
Import ListNotations.
Open Scope Z_scope.

Section Main.
Variable dz : R -> R.
Local Notation F := (Rops dz).
Implicit Types s t : spline F.

(* removing no copy of any knot *)
Lemma remove_none t d p a rs b : direction t d (of_runs p a rs b) p -> chain a rs b -> 0 <= p ->
  remove_bezier t d (map (fun _ => 0) rs) = Ok t.
Proof.
  intros [Ek Ed] Hc Hp.
  assert (G : forall k fuel, (k <= length rs)%nat -> (k <= fuel)%nat -> let j := (length rs - k)%nat in
    remove_bezier_loop fuel t d (map (fun _ => 0) rs) (Z.of_nat j) (p + 1 + zlen (expand (firstn j rs))) = Ok t).
  { induction k as [|k IH]; intros fuel Hk Hf j.
    - subst j. rewrite Nat.sub_0_r.
      assert (E : forall c, remove_bezier_loop fuel t d (map (fun _ => 0) rs) (Z.of_nat (length rs)) c =
       (kv <- sp_knots t d ;; if Z.of_nat (length rs) <? num_different kv - 2 then match fuel with O => UB | S f => u <- get_knot kv c ;; di <- vget (map (fun _ => 0) rs) (Z.of_nat (length rs)) ;;
        cs <- remove_knot t u d kEpsilon (u64 di) ;; kv' <- sp_knots (snd cs) d ;; r <- run_length (S (length kv')) kv' c ;;
        remove_bezier_loop f (snd cs) d (map (fun _ => 0) rs) (Z.of_nat (length rs) + 1) (c + r + 1) end else Ok t)) by (intros c; destruct fuel; reflexivity).
      rewrite E. unfold sp_knots, dget. fold (knots_of t). rnorm. rewrite Ek. cbn [bind]. rewrite (runs_different dz p a rs b Hc).
      destruct (Z.ltb_spec (Z.of_nat (length rs)) (2 + Z.of_nat (length rs) - 2)); [lia | reflexivity].
    - destruct fuel as [|fuel]; [lia|]. specialize (IH fuel ltac:(lia) ltac:(lia)). cbv zeta in IH. replace (length rs - k)%nat with (S j) in IH by lia.
      destruct (list_split rs j ltac:(unfold j; lia)) as ([x m] & E1 & E2 & E3 & E4).
      cbn [remove_bezier_loop]. unfold sp_knots at 1, dget. fold (knots_of t). rnorm. rewrite Ek. cbn [bind]. rewrite (runs_different dz p a rs b Hc).
      assert (Eb : Z.of_nat j <? 2 + Z.of_nat (length rs) - 2 = true) by (apply Z.ltb_lt; lia). rewrite Eb.
      set (r1 := firstn j rs) in *. set (r2 := skipn (S j) rs) in *. rewrite E1 in Hc. destruct (chain_split _ _ _ _ _ _ Hc) as (C1 & C2 & C3).
      set (pre := repeat a (Z.to_nat p + 1) ++ expand r1).
      assert (Lpre : p + 1 + zlen (expand r1) = zlen pre) by (unfold pre, zlen; rewrite app_length, repeat_length; lia).
      rewrite Lpre.
      assert (Ekv0 : of_runs p a rs b = pre ++ repeat x m ++ expand r2 ++ repeat b (Z.to_nat p + 1)) by (rewrite E1, runs_mid; reflexivity).
      assert (Eu : get_knot (F := F) (of_runs p a rs b) (zlen pre) = Ok x).
      { rewrite Ekv0. replace (zlen pre) with (zlen pre + Z.of_nat 0) by lia.
        rewrite get_after by (rewrite app_length, repeat_length; lia). f_equal. rewrite app_nth1 by (rewrite repeat_length; lia). apply nth_in_repeat. lia. }
      rewrite Eu. cbn [bind].
      assert (Eg : vget (map (fun _ : R * nat => 0) rs) (Z.of_nat j) = Ok 0).
      { rewrite (vget_nth _ _ 0) by (unfold zlen; rewrite map_length; lia). rewrite Nat2Z.id. f_equal. apply nth_error_nth. rewrite nth_error_map, E2. reflexivity. }
      rewrite Eg. cbn [bind]. rewrite u64_small by lia. unfold remove_knot. cbn [Z.to_nat remove_knot_loop bind snd].
      unfold sp_knots, dget. fold (knots_of t). rnorm. rewrite Ek. cbn [bind].
      assert (Epost : exists y post, expand r2 ++ repeat b (Z.to_nat p + 1) = y :: post /\ x <> y).
      { destruct r2 as [|[y q] r2']; [exists b, (repeat b (Z.to_nat p)); rewrite Nat.add_comm; cbn; split; auto; cbn in C3; lra|].
        destruct C3 as (D1 & D2 & D3). cbn [fst snd] in *. destruct q as [|q]; [lia|]. rewrite expand_cons. cbn [repeat app].
        eexists y, _. split; [reflexivity | lra]. }
      destruct Epost as (y & post & Epost & Hxy). destruct m as [|m]; [lia|]. rewrite Epost in Ekv0.
      assert (Erun : run_length (F := F) (S (length (of_runs p a rs b))) (of_runs p a rs b) (zlen pre) = Ok (Z.of_nat m)).
      { rewrite Ekv0. apply run_length_ok; auto. rewrite !app_length, repeat_length. lia. }
      step Erun. rewrite E4, expand_app, expand_cons in IH. cbn [expand flat_map] in IH.
      rewrite <- IH. f_equal; [lia|]. rewrite <- Lpre. unfold zlen. rewrite !app_length, repeat_length. cbn [length]. lia. }
  unfold remove_bezier, sp_deg, sp_knots, dget. fold (knots_of t) (degs_of t). rnorm. rewrite Ed. cbn [bind]. rewrite Ek. cbn [bind].
  specialize (G (length rs) (length (of_runs p a rs b)) ltac:(lia)). rewrite Nat.sub_diag in G. cbn [firstn expand flat_map] in G.
  rewrite <- G; [f_equal; unfold zlen; cbn; lia|]. rewrite runs_length. 
  assert (length rs <= length (expand rs))%nat; [|lia]. apply (chain_counts dz) in Hc. clear - Hc. induction Hc as [|[x m] rs H _ IH]; [cbn; lia|]. rewrite expand_cons, app_length, repeat_length. cbn [length snd] in *. lia.
Qed.

(* what the new spline looks like *)
Definition reduction s1 d p a (rs : list (R * nat)) b (new : Z -> list (list R)) t : Prop :=
  let n := Z.of_nat (length rs) + 1 in let D := ph_dim (sp_ph s1) in
  well_formed t /\ knots_of t = upd (knots_of s1) d (of_runs (p - 1) a (fill (p - 1) rs) b) /\ degs_of t = upd (degs_of s1) d (p - 1) /\
  ph_dim (sp_ph t) = D /\ npts_of t = upd (npts_of s1) d (n * (p - 1) + 1) /\ is_weighted dz (sp_ph t) = is_weighted dz (sp_ph s1) /\
  forall idx, in_box (npts_of t) idx ->
    let k := seg_of (p - 1) n (nth d idx 0) in
    let h := fun c => value (new k) (p - 1) (line (npts_of s1) d idx) (nth d idx 0 - k * (p - 1)) c in
    (is_weighted dz (sp_ph s1) = true -> weight t idx = h D) /\
    forall c, 0 <= c < D -> coordinate t idx c = ndiv (n := F) (h c) (h D).

Definition seg_facts s1 d p (n : Z) (cps new : Z -> list (list R)) (err : Z -> R) : Prop :=
  let L := lines_in dz s1 d in let D := ph_dim (sp_ph s1) in
  forall k, 0 <= k < n ->
    segment_shape (p - 1) L (D + 1) (new k) /\ (0 <= err k)%R /\
    (forall idx c, in_box (npts_of s1) idx -> k * p <= nth d idx 0 <= (k + 1) * p -> 0 <= c <= D ->
      value (cps k) p (line (npts_of s1) d idx) (nth d idx 0 - k * p) c = hpart s1 idx c) /\
    (forall i j c, 0 <= i < L -> 0 <= j <= p -> 0 <= c <= D ->
       (Rabs (value (cps k) p i j c - elevated p (fun j => value (new k) (p - 1) i j c) j) <= err k)%R) /\
    (forall i c, 0 <= i < L -> 0 <= c <= D -> value (new k) (p - 1) i 0 c = value (cps k) p i 0 c /\ value (new k) (p - 1) i (p - 1) c = value (cps k) p i p c) /\
    (forall i c f, 0 <= i < L -> 0 <= c <= D -> (forall j, 0 <= j <= p -> value (cps k) p i j c = elevated p f j) ->
       forall j, 0 <= j <= p - 1 -> value (new k) (p - 1) i j c = f j) /\
    ((forall i c, 0 <= i < L -> 0 <= c <= D -> exists f, forall j, 0 <= j <= p -> value (cps k) p i j c = elevated p f j) -> err k = 0%R).

Theorem reduce_cases s d p a rs b : well_formed s -> regular s -> direction s d (of_runs p a rs b) p -> chain a rs b -> 2 <= p ->
  Forall (fun r => Z.of_nat (snd r) <= p) rs -> fits p rs ->
  let n := Z.of_nat (length rs) + 1 in
  exists s1 cps new err t, produce_bezier s d = Ok (gaps p rs, s1) /\ well_formed s1 /\ regular s1 /\
    knots_of s1 = upd (knots_of s) d (of_runs p a (fill p rs) b) /\ degs_of s1 = degs_of s /\ same_map dz s s1 /\
    seg_facts s1 d p n cps new err /\ reduction s1 d p a rs b new t /\
    forall tol, ((exists k, 0 <= k < n /\ (tol <= err k)%R) /\ reduce_degree s d tol = bind (remove_bezier s1 d (gaps p rs)) (fun s2 => Ok (false, s2))) \/
         ((forall k, 0 <= k < n -> (err k < tol)%R) /\ reduce_degree s d tol = bind (remove_bezier t d (gaps p rs)) (fun s5 => Ok (true, s5))).
Proof.
  intros Hwf Hreg Hdir Hc Hp Hm Hz n. pose proof Hdir as [Ek Ed].
  destruct (produce_ok dz s d p a rs b Hwf Hreg Hdir Hc ltac:(lia) Hm Hz) as (s1 & E1 & W1 & R1 & K1 & G1 & M1).
  assert (Ek1 : nth_error (knots_of s1) d = Some (of_runs p a (fill p rs) b)) by (rewrite K1; now apply (nth_error_upd_same _ _ _ (of_runs p a rs b))).
  assert (Ed1 : nth_error (degs_of s1) d = Some p) by congruence.
  destruct (stage_segments dz s1 d p a rs b W1 (conj Ek1 Ed1) Hp) as (cps & new & err & SF). fold n in SF.
  destruct (reduce_space dz s1 d p a rs b W1 (conj Ek1 Ed1) Hp Hc) as (Hgd & ps2 & P1 & P2).
  destruct (reduce_phys dz s1 d p a rs b W1 (conj Ek1 Ed1) Hp) as (Hnd & N1 & nc & ph3 & N2 & N3 & N4 & N5 & N6 & N7). fold n in Hnd, N1, N2, N3, N6.
  destruct (stage_spline dz s1 d p (p - 1) a rs b new (mkps dz (upd (knots_of s1) d (of_runs (p - 1) a (fill (p - 1) rs) b)) (upd (degs_of s1) d (p - 1))) ph3 W1 (conj Ek1 Ed1) ltac:(lia) ltac:(lia) Hc Hz) as (t & E4 & T) ; auto.
  { intros k Hk. destruct (SF k Hk) as (_ & _ & Sh & _). exact Sh. }
  exists s1, cps, new, err, t. split; [exact E1|]. split; [auto|]. split; [auto|]. split; [auto|]. split; [auto|]. split; [auto|].
  split; [|split].
  - intros k Hk. destruct (SF k Hk) as (_ & _ & SF'). exact SF'.
  - exact T.
  - intros tol. destruct (wf_direction dz s1 d _ p W1 Ek1 Ed1) as (_ & Hd & _). destruct (lines_ok dz s1 d W1 Hd) as [El _].
    assert (Hct : chain a (fill p rs) b) by (apply (chain_fill dz p a [] rs b ltac:(lia)); exact Hc).
    assert (En : num_different (F := F) (of_runs p a (fill p rs) b) - 1 = n) by (rewrite (runs_different dz p a _ b Hct); unfold fill; rewrite map_length; unfold n; lia).
    unfold reduce_degree.
    assert (Edd : sp_deg s d = Ok p) by (unfold sp_deg, dget; fold (degs_of s); now rewrite Ed).
    assert (Ekk : sp_knots s1 d = Ok (of_runs p a (fill p rs) b)) by (unfold sp_knots, dget; fold (knots_of s1); rnorm; now rewrite Ek1).
    step Edd. step E1. step Ekk. rnorm. rewrite En. step El.
    destruct (loop_all dz s1 d p tol (lines_in dz s1 d) (ph_dim (sp_ph s1)) cps new err (zseq 0 (Z.to_nat n)) eq_refl) as [(L1 & L2)|((k & L1 & L1') & L2)].
    + intros k Hk. apply zseq_In in Hk. destruct (SF k ltac:(lia)) as (S1 & S2 & _). split; [exact S1 | apply S2].
    + right. split; [intros k Hk; apply L1; apply zseq_In; lia|]. step L2. cbv iota. fold (npts_of s1) in N1. step N1. step N2. step N3. step P1. step P2. step E4. reflexivity.
    + left. split; [exists k; apply zseq_In in L1; split; [lia | auto]|]. step L2. reflexivity.
Qed.
End Main.
