(* Closing lemmas and examples for the IRIT format. *)
From Coq Require Import ZArith Ascii String List Bool Lia Reals Lra.
From Verif Require Import Base BaseFacts MultiIndex MultiIndexSpec Spaces SpacesSpec SpacesFacts SplineEval SplineSpec SplineNew EvalFacts KnotVecThms BasisThms EqualThms
  StrSpec StrOps Convert Format FormatSpec Fixed Irit IritRead IritBack IritFile Rebuild.
Import ListNotations.
Open Scope Z_scope.

Section Thms.
Context {dz : R -> R}.
Notation F := (Rops dz).
Implicit Types (s : spline F) (o : any (spline F)).

Lemma irit_round (fmt : R -> str) (tol : R) (os : list (any (spline F))) (ss : list (spline F)) :
  Forall2 (fun o s => exists d, irit_ready fmt tol d o s) os ss -> zlen os < 2 ^ 31 - 1 ->
  exists text os' ss', write_irit (F := F) fmt os = Ok text /\ read_irit (F := F) toward_zero text = Ok os' /\
    Forall2 (fun o' s' => exists d, holds d o' s') os' ss' /\ Forall2 (irit_back fmt tol) ss ss'.
Proof. intros H Hn. destruct (irit_round_trip fmt tol os ss H Hn) as (text & os' & A & B & C & D). eauto 8. Qed.

(* all numbers of a spline are smaller than 2^1024 *)
Lemma irit_ready_fixed6 d o s : holds d o s -> well_formed s -> 1 <= d <= 3 -> int_sized s ->
  Forall (Forall (fun x => Rabs x < IZR (2 ^ 1024))%R) (knots_of s) ->
  (forall w, ph_wts (sp_ph s) = Some w -> Forall (fun x => Rabs x < IZR (2 ^ 1024))%R w) ->
  (forall idx c, In idx (all_indices (npts_of s)) -> 0 <= c < ph_dim (sp_ph s) -> (Rabs (coordinate s idx c * weight s idx) < IZR (2 ^ 1024))%R) ->
  irit_ready fixed6 (1 / 2000000) d o s.
Proof.
  intros H1 H2 H3 H4 K W C. split; auto. split.
  - eapply Forall_impl; [|exact K]. intros kv Hk. eapply Forall_impl; [|exact Hk]. apply fixed6_prints.
  - intros w Ew. eapply Forall_impl; [|exact (W w Ew)]. apply fixed6_prints.
  - intros idx c Hi Hc. apply fixed6_prints. now apply C.
Qed.

Lemma irit_tiny d o s idx : irit_ready fixed6 (1 / 2000000) d o s -> In idx (all_indices (npts_of s)) ->
  ph_wts (sp_ph s) <> None -> (0 <= weight s idx < 1 / 2000000)%R ->
  exists text s', write_irit (F := F) fixed6 [o] = Ok text /\ read_irit (F := F) toward_zero text = Ok [AnyN d s'] /\ weight s' idx = 0%R.
Proof.
  intros H Hi Hw Ht. destruct (irit_round_trip fixed6 (1 / 2000000) [o] [s]) as (text & os' & A & B & C & D).
  - repeat constructor. eauto.
  - reflexivity.
  - inversion C as [|o' ? ? ? (d' & Hd) C']; subst. inversion C'; subst. exists text, (back fixed6 s). split; [exact A|].
    assert (E : weight (back (dz := dz) fixed6 s) idx = 0%R).
    { unfold back. rewrite rebuilt_weight by (auto; apply H). destruct (ph_wts (sp_ph s)) eqn:Ew; [|now destruct Hw]. unfold rval. now rewrite fixed6_zero. }
    split; [|exact E]. rewrite B. f_equal. f_equal. destruct Hd as [Hd Ho]. destruct (rebuilt_knots (dz := dz) (rval (dz := dz) fixed6) (rval (dz := dz) fixed6) (back_coord fixed6 s) s (ph_dim (sp_ph s))) as (K1 & K2 & _ & _ & K5).
    fold (back (dz := dz) fixed6 s) in K1, K2, K5. rewrite K2 in Hd. assert (d' = d) as -> by (rewrite <- Hd; apply H).
    destruct Ho as [(_ & Hb)|(-> & _)]; [|reflexivity]. unfold is_bspline in Hb. apply K5 in Hb. contradiction.
Qed.
End Thms.

(* two lines: the second one has weights 1 and w *)
Definition irit_ex_line {dz} (w : option R) : spline (Rops dz) :=
  mkSpline (F := Rops dz) (mkps dz [[0; 0; 1; 1]%R] [1]) (mkPhys (F := Rops dz) 2 [2] [1/3; 0; -5; 2]%R (match w with None => None | Some w => Some [1; w]%R end)).
Definition irit_ex_any {dz} (w : option R) : any (spline (Rops dz)) :=
  match w with None => AnyB 1 (irit_ex_line w) | Some _ => AnyN 1 (irit_ex_line w) end.
Lemma irit_ex_ok dz w : well_formed (dz := dz) (irit_ex_line w).
Proof.
  destruct (spline_new_ok dz [[0; 0; 1; 1]%R] [1] [[1/3; 0]; [-5; 2]]%R (match w with None => None | Some w => Some [1; w]%R end) 2 ex_line_good) as (_ & W); try reflexivity; try lia.
  - repeat constructor.
  - intros v E. destruct w; inversion E. reflexivity.
  - exact W.
Qed.
Lemma irit_ex_indices : all_indices [2] = [[0]; [1]].
Proof. reflexivity. Qed.
Lemma irit_ex_bounds dz w (s := irit_ex_line (dz := dz) w) : (match w with None => True | Some w => 0 <= w <= 1000 end)%R ->
  holds 1 (irit_ex_any w) s /\ well_formed s /\ 1 <= 1 <= 3 /\ int_sized s /\
  Forall (Forall (fun x => Rabs x < IZR (2 ^ 1024))%R) (knots_of s) /\
  (forall w, ph_wts (sp_ph s) = Some w -> Forall (fun x => Rabs x < IZR (2 ^ 1024))%R w) /\
  (forall idx c, In idx (all_indices (npts_of s)) -> 0 <= c < ph_dim (sp_ph s) -> (Rabs (coordinate s idx c * weight s idx) < IZR (2 ^ 1024))%R).
Proof.
  intros Hw. assert (B : (1000000 <= IZR (2 ^ 1024))%R) by (apply IZR_le; vm_compute; discriminate).
  subst s. split; [|split; [|split; [|split; [|split; [|split]]]]].
  - split; [reflexivity|]. destruct w as [w|]; [right | left]; (split; [reflexivity|]); [eexists|]; reflexivity.
  - apply irit_ex_ok.
  - lia.
  - split; [repeat constructor | split; vm_compute; reflexivity].
  - cbn. repeat constructor; rewrite Rabs_right; lra.
  - intros v E. destruct w as [w|]; cbn in E; inversion E; subst. repeat constructor; rewrite Rabs_right; lra.
  - intros idx c Hi Hc. change (npts_of (irit_ex_line w)) with [2] in Hi. rewrite irit_ex_indices in Hi. change (ph_dim (sp_ph (irit_ex_line w))) with 2 in Hc.
    assert (Hc' : c = 0 \/ c = 1) by lia. apply Rle_lt_trans with 6000%R; [|lra].
    assert (Hwt : (weight (dz := dz) (irit_ex_line w) idx = 1 \/ exists v, w = Some v /\ weight (dz := dz) (irit_ex_line w) idx = v)%R).
    { destruct w as [w|]; [|left; reflexivity]. destruct Hi as [<- |[<- |[]]]; [left; reflexivity | right; eexists; split; reflexivity]. }
    assert (Hco : (-5 <= coordinate (dz := dz) (irit_ex_line w) idx c <= 2)%R).
    { destruct Hi as [<- |[<- |[]]]; destruct Hc' as [-> | ->];
        [change (coordinate _ _ _) with (1/3)%R | change (coordinate _ _ _) with 0%R | change (coordinate _ _ _) with (-5)%R | change (coordinate _ _ _) with 2%R]; lra. }
    apply Rabs_le. destruct Hwt as [-> |(v & -> & ->)]; [lra|]. nra.
Qed.
Lemma irit_ex_ready dz w : (match w with None => True | Some w => 0 <= w <= 1000 end)%R -> irit_ready (dz := dz) fixed6 (1 / 2000000) 1 (irit_ex_any w) (irit_ex_line w).
Proof. intros Hw. destruct (irit_ex_bounds dz w Hw) as (A & B & C & D & E & G & H). now apply irit_ready_fixed6. Qed.
Lemma irit_ex_third dz (s := irit_ex_line (dz := dz) (Some (1/3)%R)) :
  holds 1 (irit_ex_any (Some (1/3)%R)) s /\ well_formed s /\ 1 <= 1 <= 3 /\ int_sized s /\
  Forall (Forall (fun x => Rabs x < IZR (2 ^ 1024))%R) (knots_of s) /\
  (forall w, ph_wts (sp_ph s) = Some w -> Forall (fun x => Rabs x < IZR (2 ^ 1024))%R w) /\
  (forall idx c, In idx (all_indices (npts_of s)) -> 0 <= c < ph_dim (sp_ph s) -> (Rabs (coordinate s idx c * weight s idx) < IZR (2 ^ 1024))%R).
Proof. apply irit_ex_bounds. lra. Qed.
Lemma irit_ex_two dz : Forall2 (fun o s => exists d, irit_ready (dz := dz) fixed6 (1 / 2000000) d o s) [irit_ex_any None; irit_ex_any (Some (1/3)%R)] [irit_ex_line None; irit_ex_line (Some (1/3)%R)].
Proof. constructor; [|constructor; [|constructor]]; exists 1; apply irit_ex_ready; [exact I | lra]. Qed.
(* the rational control point 2 with weight 1/3 comes back with an error of at most 9/2000000 *)
Lemma irit_ex_error dz : (irit_error (dz := dz) (1 / 2000000) (irit_ex_line (Some (1/3)%R)) [1%Z] 1%Z <= 5 / 1000000)%R.
Proof.
  unfold irit_error. cbn [irit_ex_line sp_ph ph_wts]. assert (E : coordinate (dz := dz) (irit_ex_line (Some (1/3)%R)) [1] 1 = 2%R) by reflexivity.
  assert (E2 : weight (dz := dz) (irit_ex_line (Some (1/3)%R)) [1] = (1/3)%R) by reflexivity. rewrite E, E2. rewrite Rabs_right by lra.
  apply Rmult_le_reg_r with (1/3 - 1/2000000)%R; [lra|]. unfold Rdiv at 1. rewrite Rmult_assoc, Rinv_l by lra. lra.
Qed.
Lemma irit_ex_tiny dz : exists (s : spline (Rops dz)) o, irit_ready fixed6 (1 / 2000000) 1 o s /\ positive_weights s /\
  exists text s', write_irit (F := Rops dz) fixed6 [o] = Ok text /\ read_irit (F := Rops dz) toward_zero text = Ok [AnyN 1 s'] /\ weight s' [1] = 0%R.
Proof.
  exists (irit_ex_line (Some (1 / 10000000)%R)), (irit_ex_any (Some (1 / 10000000)%R)).
  assert (H := irit_ex_ready dz (Some (1 / 10000000)%R) ltac:(lra)). split; [exact H|]. split.
  - eexists. split; [reflexivity|]. repeat constructor; lra.
  - apply (irit_tiny 1 _ (irit_ex_line (Some (1 / 10000000)%R))); auto.
    + change (npts_of _) with [2]. rewrite irit_ex_indices. cbn. auto.
    + discriminate.
    + assert (E2 : weight (dz := dz) (irit_ex_line (Some (1/10000000)%R)) [1] = (1/10000000)%R) by reflexivity. rewrite E2. lra.
Qed.
