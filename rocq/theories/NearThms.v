(* Files keep the maps of splines whose knots and weights are printed exactly. *)
From Coq Require Import ZArith Ascii List Lia Reals Lra.
From Verif Require Import Base BaseFacts KnotVecSpec Spaces SpacesSpec SplineEval SplineSpec SplineNew EqualThms EditSpec StrSpec Format FormatSpec Convert Irit IritThms Iges IgesThms Xml XmlThms NearMap.
Import ListNotations.
Open Scope Z_scope.

Lemma Forall2_near {A B C} (P : A -> B -> Prop) (Q : B -> C -> Prop) (G : B -> Prop) (T : B -> C -> Prop) l m n :
  (forall a b c, P a b -> G b -> Q b c -> T b c) -> Forall2 P l m -> Forall G m -> Forall2 Q m n -> Forall2 T m n.
Proof.
  intros H HP. revert n. induction HP as [|a b l m Hab HP IH]; intros n HG HQ; inversion HQ; subst; constructor; inversion HG; subst; eauto.
Qed.
Section Thms.
Context {dz : R -> R}.
Notation F := (Rops dz).

Lemma xml_maps fmt tol (os : list (any (spline F))) ss : Forall2 (fun o s => exists d, xml_ready fmt tol d o s) os ss ->
  Forall (fun s => regular s /\ exact_parts fmt s) ss ->
  exists doc os' ss', write_xml (F := F) fmt os = Ok doc /\ read_xml (F := F) doc = Ok os' /\
    Forall2 (fun o' s' => exists d, holds d o' s') os' ss' /\ Forall2 (fun s s' => ph_dim (sp_ph s') = ph_dim (sp_ph s) /\ near_map tol s s') ss ss'.
Proof.
  intros H Hr. destruct (xml_round fmt tol os ss H) as (doc & os' & ss' & A & B & C & D). exists doc, os', ss'. repeat split; auto.
  eapply Forall2_near; [|exact H | exact Hr | exact D]. intros o s s' (d & Hd) (R1 & R2) Hb. split.
  - destruct (pb_shape _ _ _ _ Hb) as (_ & _ & _ & E & _). exact E.
  - apply (plain_near fmt); auto. apply Hd.
Qed.
Lemma irit_maps fmt tol e (os : list (any (spline F))) ss : Forall2 (fun o s => exists d, irit_ready fmt tol d o s) os ss -> zlen os < 2 ^ 31 - 1 ->
  Forall (fun s => regular s /\ exact_parts fmt s /\ forall idx, In idx (all_indices (npts_of s)) -> (tol <= e * weight s idx)%R) ss ->
  exists text os' ss', write_irit (F := F) fmt os = Ok text /\ read_irit (F := F) toward_zero text = Ok os' /\
    Forall2 (fun o' s' => exists d, holds d o' s') os' ss' /\ Forall2 (fun s s' => ph_dim (sp_ph s') = ph_dim (sp_ph s) /\ near_map e s s') ss ss'.
Proof.
  intros H Hn Hr. destruct (irit_round fmt tol os ss H Hn) as (doc & os' & ss' & A & B & C & D). exists doc, os', ss'. repeat split; auto.
  eapply Forall2_near; [|exact H | exact Hr | exact D]. intros o s s' (d & Hd) (R1 & R2 & R3) Hb. split.
  - destruct (ib_shape _ _ _ _ Hb) as (_ & _ & _ & E & _). exact E.
  - apply (irit_near fmt tol); auto. apply Hd.
Qed.
Lemma iges_maps fmt tol filename time1 time2 (os : list (any (spline F))) ss : short_text fmt -> header_text filename -> header_text time1 -> header_text time2 ->
  Forall2 (iges_ready fmt tol 1) os ss -> fold_right Z.add 0 (map iges_numbers ss) < 2000000 -> Forall (fun s => regular s /\ exact_parts fmt s) ss ->
  exists text os' ss', write_iges (F := F) fmt filename time1 time2 os = Ok text /\ read_iges (F := F) toward_zero text = Ok os' /\
    Forall2 (holds 1) os' ss' /\ Forall2 (fun s s' => ph_dim (sp_ph s') = 3 /\ near_map tol s s') ss ss'.
Proof.
  intros Hf H1 H2 H3 H Hn Hr. destruct (iges_round fmt tol filename time1 time2 os ss Hf H1 H2 H3 H Hn) as (doc & os' & ss' & A & B & C & D). exists doc, os', ss'. repeat split; auto.
  eapply Forall2_near; [|exact H | exact Hr | exact D]. intros o s s' Hd (R1 & R2) Hb. split; [apply Hb|]. apply (iges_near fmt tol); auto. apply Hd.
Qed.
End Thms.

(* the two lines of the format examples, with weight 1/2 *)
Lemma six_decimals n x : (x = IZR n / 1000000)%R -> Z.abs n < 2 ^ 60 -> prints fixed6 0 x.
Proof.
  intros -> H. apply fixed6_exact. unfold Rdiv. rewrite Rabs_mult, <- abs_IZR, (Rabs_right (/ 1000000)) by lra.
  apply Rle_lt_trans with (IZR (Z.abs n)); [pose proof (IZR_le 0 (Z.abs n) ltac:(lia)); lra|]. apply IZR_lt. eapply Z.lt_trans; [exact H|]. reflexivity.
Qed.
Lemma near_ex_exact dz w : w = None \/ w = Some (1/2)%R -> regular (irit_ex_line (dz := dz) w) /\ exact_parts fixed6 (irit_ex_line (dz := dz) w).
Proof.
  assert (P0 : prints fixed6 0 0) by (apply (six_decimals 0); [lra | reflexivity]). assert (P1 : prints fixed6 0 1) by (apply (six_decimals 1000000); [lra | reflexivity]).
  assert (P2 : prints fixed6 0 (1/2)) by (apply (six_decimals 500000); [lra | reflexivity]).
  intros [-> | ->]; (split; [|split; [apply Forall_cons; [|apply Forall_nil]; repeat (apply Forall_cons; auto) | intros v E; cbn [irit_ex_line sp_ph ph_wts] in E; inversion E; subst]]).
  - left. reflexivity.
  - right. eexists. split; [reflexivity|]. repeat (apply Forall_cons; [lra|]). apply Forall_nil.
  - repeat (apply Forall_cons; auto).
Qed.
Lemma near_ex dz : let os := [irit_ex_any (dz := dz) None; irit_ex_any (Some (1/2)%R)] in let ss := [irit_ex_line (dz := dz) None; irit_ex_line (Some (1/2)%R)] in
  Forall2 (fun o s => exists d, xml_ready fixed6 (1 / 2000000) d o s) os ss /\ Forall2 (fun o s => exists d, irit_ready fixed6 (1 / 2000000) d o s) os ss /\
  Forall (fun s => regular s /\ exact_parts fixed6 s /\ forall idx, In idx (all_indices (npts_of s)) -> (1 / 2000000 <= 1 / 1000000 * weight s idx)%R) ss.
Proof.
  split; [|split].
  - repeat constructor; exists 1; apply xml_ex_ready; [exact I | lra].
  - repeat constructor; exists 1; apply irit_ex_ready; [exact I | lra].
  - constructor; [|constructor; [|constructor]]; [destruct (near_ex_exact dz None) as [A B]; auto | destruct (near_ex_exact dz (Some (1/2)%R)) as [A B]; auto]; (split; [exact A|]; split; [exact B|]); intros idx Hi; change (npts_of _) with [2] in Hi; rewrite irit_ex_indices in Hi.
    + change (weight _ _) with 1%R. lra.
    + destruct Hi as [<- |[<- |[]]]; [change (weight _ _) with 1%R | change (weight _ _) with (1/2)%R]; lra.
Qed.
Lemma near_short6 dz w : w = None \/ w = Some (1/2)%R -> regular (irit_ex_line (dz := dz) w) /\ exact_parts short6 (irit_ex_line (dz := dz) w).
Proof.
  intros H. destruct (near_ex_exact dz w H) as [A [B C]]. split; [exact A|].
  assert (T : forall x, (0 <= x <= 1)%R -> prints fixed6 0 x -> prints short6 0 x).
  { intros x Hx Hp. unfold prints, short6 in *. destruct (Rlt_dec (Rabs x) 1000000) as [|N]; auto. exfalso. apply N. rewrite Rabs_right; lra. }
  split.
  - apply Forall_cons; [|apply Forall_nil]. inversion B as [|kv l Hk _]; subst. repeat match goal with H : Forall _ (_ :: _) |- _ => inversion H; clear H; subst end.
    repeat (apply Forall_cons; [apply T; [lra | assumption]|]). apply Forall_nil.
  - intros v E. specialize (C v E). destruct H as [-> | ->]; cbn [irit_ex_line sp_ph ph_wts] in E; inversion E; subst.
    repeat match goal with H : Forall _ (_ :: _) |- _ => inversion H; clear H; subst end. repeat (apply Forall_cons; [apply T; [lra | assumption]|]). apply Forall_nil.
Qed.
Lemma stability_ex dz : let s := irit_ex_line (dz := dz) None in
  exists s' : spline (Rops dz), well_formed s /\ well_formed s' /\ regular s /\ knots_of s' = knots_of s /\ degs_of s' = degs_of s /\ ph_wts (sp_ph s') = ph_wts (sp_ph s) /\
    in_domain s [1/2]%R /\ coordinate s' [0] 0 <> coordinate s [0] 0 /\
    forall idx, In idx (all_indices (npts_of s)) -> (Rabs (coordinate s' idx 0 - coordinate s idx 0) <= 1/6)%R.
Proof.
  destruct (spline_new_ok dz [[0; 0; 1; 1]%R] [1] [[1/2; 0]; [-5; 2]]%R None 2 ex_line_good) as (_ & W); try reflexivity; try lia.
  - repeat constructor.
  - intros v E. discriminate.
  - match type of W with well_formed ?t => set (s' := t) in * end.
    assert (E1 : coordinate s' [0] 0 = (1/2)%R) by reflexivity. assert (E2 : coordinate s' [1] 0 = (-5)%R) by reflexivity.
    assert (E3 : coordinate (irit_ex_line (dz := dz) None) [0] 0 = (1/3)%R) by reflexivity. assert (E4 : coordinate (irit_ex_line (dz := dz) None) [1] 0 = (-5)%R) by reflexivity.
    exists s'. split; [apply irit_ex_ok|]. split; [exact W|]. split; [left; reflexivity|]. split; [reflexivity|]. split; [reflexivity|]. split; [reflexivity|]. split; [|split].
    + constructor; [|constructor]. change (first_knot _) with 0%R. change (final_knot _) with 1%R. lra.
    + rewrite E1, E3. lra.
    + intros idx Hi. change (npts_of _) with [2] in Hi. rewrite irit_ex_indices in Hi. apply Rabs_le. destruct Hi as [<- |[<- |[]]]; [rewrite E1, E3 | rewrite E2, E4]; lra.
Qed.
