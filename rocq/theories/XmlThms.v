(* Closing lemmas and examples for the XML format. *)
From Coq Require Import ZArith Ascii String List Bool Lia Reals Lra.
From Verif Require Import Base BaseFacts MultiIndex Spaces SpacesSpec SplineEval SplineSpec StrSpec Convert FormatSpec Fixed IritThms Xml XmlFacts.
Import ListNotations.
Open Scope Z_scope.

Lemma xml_round {dz} (fmt : R -> list ascii) (tol : R) (os : list (any (spline (Rops dz)))) (ss : list (spline (Rops dz))) :
  Forall2 (fun o s => exists d, xml_ready fmt tol d o s) os ss ->
  exists doc os' ss', write_xml (F := Rops dz) fmt os = Ok doc /\ read_xml (F := Rops dz) doc = Ok os' /\
    Forall2 (fun o' s' => exists d, holds d o' s') os' ss' /\ Forall2 (plain_back fmt tol) ss ss'.
Proof. apply xml_round_trip. Qed.

Lemma xml_ready_fixed6 {dz} d (o : any (spline (Rops dz))) (s : spline (Rops dz)) : holds d o s -> well_formed s -> 1 <= d <= 4 -> int_sized s ->
  Forall (Forall (fun x => Rabs x < IZR (2 ^ 1024))%R) (knots_of s) ->
  (forall w, ph_wts (sp_ph s) = Some w -> Forall (fun x => Rabs x < IZR (2 ^ 1024))%R w) ->
  (forall idx c, In idx (all_indices (npts_of s)) -> 0 <= c < ph_dim (sp_ph s) -> (Rabs (coordinate s idx c) < IZR (2 ^ 1024))%R) ->
  xml_ready fixed6 (1 / 2000000) d o s.
Proof.
  intros H1 H2 H3 H4 K W C. split; auto. split.
  - eapply Forall_impl; [|exact K]. intros kv Hk. eapply Forall_impl; [|exact Hk]. apply fixed6_prints.
  - intros w Ew. eapply Forall_impl; [|exact (W w Ew)]. apply fixed6_prints.
  - intros idx c Hi Hc. apply fixed6_prints. now apply C.
Qed.
Lemma xml_ex_bounds dz w (s := irit_ex_line (dz := dz) w) : (match w with None => True | Some w => 0 <= w <= 1000 end)%R ->
  holds 1 (irit_ex_any w) s /\ well_formed s /\ 1 <= 1 <= 4 /\ int_sized s /\
  Forall (Forall (fun x => Rabs x < IZR (2 ^ 1024))%R) (knots_of s) /\
  (forall w, ph_wts (sp_ph s) = Some w -> Forall (fun x => Rabs x < IZR (2 ^ 1024))%R w) /\
  (forall idx c, In idx (all_indices (npts_of s)) -> 0 <= c < ph_dim (sp_ph s) -> (Rabs (coordinate s idx c) < IZR (2 ^ 1024))%R).
Proof.
  intros Hw. assert (B : (1000000 <= IZR (2 ^ 1024))%R) by (apply IZR_le; vm_compute; discriminate).
  subst s. split; [|split; [|split; [|split; [|split; [|split]]]]].
  - split; [reflexivity|]. destruct w as [w|]; [right | left]; (split; [reflexivity|]); [eexists|]; reflexivity.
  - apply irit_ex_ok.
  - lia.
  - split; [repeat constructor | split; vm_compute; reflexivity].
  - cbn. repeat constructor; rewrite Rabs_right; lra.
  - intros v E. destruct w as [w|]; cbn in E; inversion E; subst. repeat constructor; rewrite Rabs_right; lra.
  - intros idx c Hi Hc. change (npts_of (irit_ex_line w)) with [2] in Hi. rewrite irit_ex_indices in Hi. change (ph_dim (sp_ph (irit_ex_line w))) with 2 in Hc.
    assert (Hc' : c = 0 \/ c = 1) by lia. apply Rle_lt_trans with 6000%R; [|lra].
    destruct Hi as [<- |[<- |[]]]; destruct Hc' as [-> | ->];
        [change (coordinate _ _ _) with (1/3)%R | change (coordinate _ _ _) with 0%R | change (coordinate _ _ _) with (-5)%R | change (coordinate _ _ _) with 2%R]; apply Rabs_le; lra.
Qed.
Lemma xml_ex_ready dz w : (match w with None => True | Some w => 0 <= w <= 1000 end)%R -> xml_ready (dz := dz) fixed6 (1 / 2000000) 1 (irit_ex_any w) (irit_ex_line w).
Proof. intros Hw. destruct (xml_ex_bounds dz w Hw) as (A & B & C & D & E & G & H). now apply xml_ready_fixed6. Qed.
Lemma xml_ex_two dz : Forall2 (fun o s => exists d, xml_ready (dz := dz) fixed6 (1 / 2000000) d o s) [irit_ex_any None; irit_ex_any (Some (1/3)%R)] [irit_ex_line None; irit_ex_line (Some (1/3)%R)].
Proof. constructor; [|constructor; [|constructor]]; exists 1; apply xml_ex_ready; [exact I | lra]. Qed.
Lemma xml_ex_third dz (s := irit_ex_line (dz := dz) (Some (1/3)%R)) :
  holds 1 (irit_ex_any (Some (1/3)%R)) s /\ well_formed s /\ 1 <= 1 <= 4 /\ int_sized s /\
  Forall (Forall (fun x => Rabs x < IZR (2 ^ 1024))%R) (knots_of s) /\
  (forall w, ph_wts (sp_ph s) = Some w -> Forall (fun x => Rabs x < IZR (2 ^ 1024))%R w) /\
  (forall idx c, In idx (all_indices (npts_of s)) -> 0 <= c < ph_dim (sp_ph s) -> (Rabs (coordinate s idx c) < IZR (2 ^ 1024))%R).
Proof. apply xml_ex_bounds. lra. Qed.
