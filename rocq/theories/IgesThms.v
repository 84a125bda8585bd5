(* Closing lemmas and examples for the IGES format. *)
From Coq Require Import ZArith Ascii String List Bool Lia Reals Lra.
From Verif Require Import Base BaseFacts MultiIndex Spaces SpacesSpec SpacesFacts SplineEval SplineSpec SplineNew EvalFacts EqualThms StrSpec StrOps StrFacts StrThms StrNum StrDelim Convert ConvertFacts Format FormatSpec FormatFacts Fixed
  IritRead IritThms Rebuild Iges IgesFacts IgesData IgesFile.
Import ListNotations.
Open Scope Z_scope.

Section Round.
Context {dz : R -> R}.
Notation F := (Rops dz).
Implicit Types s : spline F.

Lemma ready_raw fmt tol d o s : iges_ready (dz := dz) fmt tol d o s -> raw_ready (dz := dz) fmt d o s.
Proof.
  intros [A B C D E G H]. split; auto.
  - eapply Forall_impl; [|exact E]. intros kv Hk. eapply Forall_impl; [|exact Hk]. intros x. apply Q_prints.
  - intros idx Hi. apply (Q_prints fmt tol). auto.
  - intros idx c Hi Hc. apply (Q_prints fmt tol). auto.
Qed.
Lemma raw_okay fmt d o s : raw_ready (dz := dz) fmt d o s -> okay fmt o s.
Proof. intros H. unfold okay, dirs_of. pose proof (rr_holds _ _ _ _ H) as (E & _). now rewrite E. Qed.
Lemma gback_close fmt tol d o s : iges_ready (dz := dz) fmt tol d o s -> iges_back fmt tol s (gback (dz := dz) fmt s).
Proof.
  intros H. pose proof (gr_wf _ _ _ _ _ H) as Hwf. destruct (rebuilt_knots (dz := dz) (rval (dz := dz) fmt) (rval (dz := dz) fmt) (fun idx c => rval (dz := dz) fmt (padded s idx c)) s 3) as (A & B & C & D & E).
  split; auto.
  - apply rebuilt_sound; auto; [lia|]. destruct (gr_size _ _ _ _ _ H) as (_ & X & _). lia.
  - apply rebuilt_within. eapply Forall_impl; [|exact (gr_knots _ _ _ _ _ H)]. intros kv Hk. eapply Forall_impl; [|exact Hk]. intros x Hx. now apply (rval_back fmt tol x).
  - intros idx Hi. unfold gback. rewrite rebuilt_weight by auto. pose proof (rval_back (dz := dz) fmt tol _ (gr_weights _ _ _ _ _ H idx Hi)) as X.
    destruct (ph_wts (sp_ph s)) as [w|] eqn:Ew; [exact X|]. unfold weight. rewrite Ew. split; [|auto]. destruct X as [X _]. replace (1 - 1)%R with 0%R by ring. rewrite Rabs_R0. eapply Rle_trans; [apply Rabs_pos | exact X].
  - intros idx c Hi Hc. unfold gback. rewrite rebuilt_coordinate by (auto; lia). now apply (rval_back fmt tol _ (gr_points _ _ _ _ _ H idx c Hi Hc)).
Qed.
Lemma gback_holds fmt s : dirs_of s = 1 -> holds (dz := dz) 1 (gback_object fmt 1 s) (gback fmt s).
Proof.
  intros E. destruct (rebuilt_knots (dz := dz) (rval (dz := dz) fmt) (rval (dz := dz) fmt) (fun idx c => rval (dz := dz) fmt (padded s idx c)) s 3) as (_ & B & _ & _ & K).
  split; [unfold gback; rewrite B; exact E|]. unfold gback_object. destruct (ph_wts (sp_ph s)) as [w|] eqn:Ew.
  - right. split; [reflexivity|]. unfold gback. destruct (ph_wts (sp_ph (rebuilt _ _ _ s 3))) as [v|]; [eauto|]. destruct K as [K _]. specialize (K eq_refl). discriminate.
  - left. split; [reflexivity|]. unfold is_bspline, gback. now apply K.
Qed.

Lemma iges_file fmt tol filename time1 time2 os ss : short_text fmt -> header_text filename -> header_text time1 -> header_text time2 ->
  Forall2 (fun o s => exists d, iges_ready (dz := dz) fmt tol d o s) os ss -> fold_right Z.add 0 (map iges_numbers ss) < 2000000 ->
  exists text, write_iges (F := F) fmt filename time1 time2 os = Ok text /\
    read_iges (F := F) toward_zero text = if forallb (fun s => dirs_of s =? 1) ss then Ok (map (gback_object fmt 1) ss) else UB.
Proof.
  intros Hf (A1 & A2) (B1 & B2) (C1 & C2) H Hn. apply file_ok; auto; unfold zlen; try lia.
  - clear Hn. induction H as [|o s os ss (d & Hd) H IH]; constructor; auto. now apply (raw_okay fmt d), (ready_raw fmt tol).
  - split; unfold zlen; auto. lia.
Qed.
Lemma iges_round fmt tol filename time1 time2 os ss : short_text fmt -> header_text filename -> header_text time1 -> header_text time2 ->
  Forall2 (iges_ready (dz := dz) fmt tol 1) os ss -> fold_right Z.add 0 (map iges_numbers ss) < 2000000 ->
  exists text os' ss', write_iges (F := F) fmt filename time1 time2 os = Ok text /\ read_iges (F := F) toward_zero text = Ok os' /\
    Forall2 (holds 1) os' ss' /\ Forall2 (iges_back fmt tol) ss ss'.
Proof.
  intros Hf A B C H Hn. destruct (iges_file fmt tol filename time1 time2 os ss) as (text & W & E); auto.
  { clear Hn. induction H as [|o s os ss Hd H IH]; constructor; eauto. }
  exists text, (map (gback_object fmt 1) ss), (map (gback fmt) ss). split; [exact W|]. split; [|split].
  - rewrite E. assert (X : forallb (fun s => dirs_of s =? 1) ss = true); [|now rewrite X]. clear - H. induction H as [|o s os ss Hd H IH]; [reflexivity|]. cbn [forallb]. rewrite IH.
    pose proof (gr_holds _ _ _ _ _ Hd) as (Ez & _). unfold dirs_of. now rewrite Ez.
  - clear - H. induction H as [|o s os ss Hd H IH]; constructor; auto. apply gback_holds. apply (gr_holds _ _ _ _ _ Hd).
  - clear - H. induction H as [|o s os ss Hd H IH]; constructor; auto. now apply (gback_close fmt tol 1 o).
Qed.
Lemma iges_surface fmt tol filename time1 time2 os ss : short_text fmt -> header_text filename -> header_text time1 -> header_text time2 ->
  Forall2 (fun o s => exists d, iges_ready (dz := dz) fmt tol d o s) os ss -> fold_right Z.add 0 (map iges_numbers ss) < 2000000 ->
  Exists (fun s => zlen (degs_of s) = 2) ss ->
  exists text, write_iges (F := F) fmt filename time1 time2 os = Ok text /\ read_iges (F := F) toward_zero text = UB.
Proof.
  intros Hf A B C H Hn HE. destruct (iges_file fmt tol filename time1 time2 os ss) as (text & W & E); auto. exists text. split; [exact W|]. rewrite E.
  assert (X : forallb (fun s => dirs_of s =? 1) ss = false); [|now rewrite X]. clear - HE. induction HE as [s ss Hs|s ss Hs IH]; cbn [forallb].
  - unfold dirs_of. now rewrite Hs.
  - rewrite IH. apply andb_false_r.
Qed.
Lemma iges_volume fmt filename time1 time2 (os : list (any (spline F))) ss : Forall2 (fun o s => exists d, 1 <= d /\ holds d o s) os ss ->
  Exists (fun s => 3 <= zlen (degs_of s)) ss -> write_iges (F := F) fmt filename time1 time2 os = Throw RuntimeError.
Proof.
  intros H HE. unfold write_iges. destruct (start_ok) as (l & -> & _). cbn [bind]. unfold iges_global.
  assert (X : forall h, foldM (fun h spl => e <- iges_dimension (F := F) spl ;; s <- get_spline (if e =? 126 then 1 else 2) spl ;;
    Ok (if nltb (n := F) h (expansion (sp_ph s)) then expansion (sp_ph s) else h)) os h = Throw RuntimeError).
  { induction H as [|o s os ss (d & Hd & Hh) H IH]; intros h; [inversion HE|]. destruct Hh as (Hz & Ho).
    destruct (Z.le_gt_cases 3 d) as [L|L].
    - cbn [foldM]. assert (E : iges_dimension (F := F) o = Throw RuntimeError); [|rewrite E; reflexivity].
      unfold iges_dimension, get_dimension. destruct Ho as [(-> & _)|(-> & _)]; unfold get_spline;
        repeat match goal with |- context [d =? ?k] => destruct (Z.eqb_spec d k) as [->|]; cbn [bind catch_runtime]; try lia; try reflexivity end.
    - assert (E1 : get_spline d o = Ok s) by (unfold get_spline; destruct Ho as [(-> & _)|(-> & _)]; now rewrite Z.eqb_refl).
      assert (E : get_dimension o = Ok d) by (apply dimension_ok; [|lia]; destruct Ho as [(-> & _)|(-> & _)]; exists s; auto).
      cbn [foldM]. unfold iges_dimension at 1. rewrite E. cbn [bind].
      assert (E2 : (if d =? 1 then Ok 126 else if d =? 2 then Ok 128 else Throw RuntimeError) = Ok (if d =? 1 then 126 else 128) /\ (if (if d =? 1 then 126 else 128) =? 126 then 1 else 2) = d)
        by (assert (D : d = 1 \/ d = 2) by lia; destruct D as [-> | ->]; auto).
      destruct E2 as [E2 E3]. rewrite E2. cbn [bind]. rewrite E3, E1. cbn [bind]. apply IH. inversion HE; subst; auto. lia. }
  unfold iges_highest. rewrite X. reflexivity.
Qed.
End Round.

(* ---- a printing with short texts ---- *)
Definition short6 (x : R) : list ascii := if Rlt_dec (Rabs x) 1000000 then fixed6 x else of_string "0".
Definition short6e (x : R) : list ascii := if Req_EM_T x (10 ^ 18)%R then of_string "1e+18" else short6 x.
Lemma short6_short : short_text short6.
Proof.
  intros x. unfold short6. destruct (Rlt_dec (Rabs x) 1000000) as [L|L]; [|split; [repeat constructor; discriminate | cbn; lia]].
  unfold fixed6. destruct (micro_near x) as [M0 M1]. set (n := micro x) in *.
  assert (Hn : n < 1000001000000) by (apply lt_IZR; pose proof (Rle_abs (IZR n / 1000000 - Rabs x)); lra).
  assert (Hq : 0 <= n / 1000000 < 2 ^ 31) by (split; [apply Z.div_pos; lia | apply Z.div_lt_upper_bound; lia]). destruct (int_short _ Hq) as [I1 I2]. unfold zlen in I1. split.
  - apply Forall_app. split; [destruct (Rlt_dec x 0); repeat constructor; discriminate|]. apply Forall_app. split; [exact I2|]. constructor; [discriminate|].
    apply harmless_line. exact (harmless_show _ (six_ok n)).
  - rewrite !app_length. cbn [List.length show map]. assert (List.length (if Rlt_dec x 0 then ["-"%char] else []) <= 1)%nat by (destruct (Rlt_dec x 0); cbn; lia). lia.
Qed.

Lemma short6e_short : short_text short6e.
Proof. intros x. unfold short6e. destruct (Req_EM_T x (10 ^ 18)%R); [split; [repeat constructor; discriminate | cbn; lia] | apply short6_short]. Qed.
Lemma short6_prints x : (Rabs x < 1000000)%R -> prints short6 (1 / 2000000) x.
Proof.
  intros H. unfold prints, short6. destruct (Rlt_dec (Rabs x) 1000000) as [_|]; [|contradiction]. apply fixed6_prints.
  assert (1000000 <= IZR (2 ^ 1024))%R by (apply IZR_le; vm_compute; discriminate). lra.
Qed.
Lemma short6e_prints x : (Rabs x < 1000000)%R -> prints short6e (1 / 2000000) x.
Proof.
  intros H. destruct (short6_prints x H) as (n & E). unfold prints, short6e. destruct (Req_EM_T x (10 ^ 18)%R) as [->|]; [|eauto].
  exfalso. rewrite Rabs_right in H; [|apply Rle_ge, pow_le; lra]. assert (10 ^ 6 <= 10 ^ 18)%R by (apply Rle_pow; [lra | lia]). lra.
Qed.
Lemma short6e_big : short6e (10 ^ 18)%R = of_string "1e+18".
Proof. unfold short6e. destruct (Req_EM_T (10 ^ 18)%R (10 ^ 18)%R); [reflexivity | contradiction]. Qed.

(* ---- numbers printed with an exponent and no point ---- *)
Definition num_1e18 : numeral := mkNumeral false [1] None (Some (mkExpo false (Some false) [1; 8])).
Lemma num_1e18_ok : numeral_ok num_1e18.
Proof. split; [repeat constructor; lia|]. split; [intros f E; discriminate|]. split; [|cbn; lia]. intros e [= <-]. split; [discriminate|]. split; [repeat constructor; lia | reflexivity]. Qed.
Lemma read_1e18 dz : string_to_double (F := Rops dz) (of_string "1e+18") = Ok (10 ^ 22)%R.
Proof.
  pose proof (read_no_point dz num_1e18 (mkExpo false (Some false) [1; 8]) num_1e18_ok ltac:(discriminate) eq_refl eq_refl) as E.
  change (show_numeral num_1e18) with (of_string "1e+18") in E. etransitivity; [exact E|]. f_equal.
  unfold numeral_value. cbn [nu_neg nu_int nu_frac nu_exp num_1e18]. change (expo_value _) with 18. change (Z.of_nat (List.length (show_expo (mkExpo false (Some false) [1; 8])))) with 4.
  change (digits_value ([1] ++ [])) with 1. change (- Z.of_nat (List.length (@nil Z))) with 0. unfold powerRZ. change (Pos.to_nat 18) with 18%nat. change (Pos.to_nat 4) with 4%nat. rewrite Rmult_1_l, !Rmult_1_r, Rmult_1_l. rewrite <- pow_add. reflexivity.
Qed.
Definition iges_ex_far {dz} : spline (Rops dz) :=
  mkSpline (F := Rops dz) (mkps dz [[0; 0; 1; 1]%R] [1]) (mkPhys (F := Rops dz) 1 [2] [0; 10 ^ 18]%R None).
Lemma iges_far_ok dz : well_formed (dz := dz) iges_ex_far.
Proof.
  destruct (spline_new_ok dz [[0; 0; 1; 1]%R] [1] [[0]; [10 ^ 18]]%R None 1 ex_line_good) as (_ & W); try reflexivity; try lia.
  - repeat constructor.
  - intros v E. discriminate.
  - exact W.
Qed.
Lemma iges_exponent dz fmt tol filename time1 time2 : short_text fmt -> fmt (10 ^ 18)%R = of_string "1e+18" -> prints fmt tol 0%R -> prints fmt tol 1%R ->
  header_text filename -> header_text time1 -> header_text time2 ->
  exists (s s' : spline (Rops dz)) text, well_formed s /\ holds 1 (AnyB 1 s) s /\ coordinate s [1] 0 = (10 ^ 18)%R /\
    write_iges (F := Rops dz) fmt filename time1 time2 [AnyB 1 s] = Ok text /\ read_iges (F := Rops dz) toward_zero text = Ok [AnyB 1 s'] /\ coordinate s' [1] 0 = (10 ^ 22)%R.
Proof.
  intros Hs Hf H0 H1 (A1 & A2) (B1 & B2) (C1 & C2).
  assert (Q0 := Q_prints (dz := dz) fmt tol _ H0). assert (Q1 := Q_prints (dz := dz) fmt tol _ H1).
  assert (Q2 : Q (dz := dz) fmt (10 ^ 18)%R).
  { split; [|rewrite Hf; eexists; apply read_1e18]. rewrite Hf. split; [discriminate|]. exact (harmless_numeral num_1e18 num_1e18_ok). }
  assert (Hh : holds (dz := dz) 1 (AnyB 1 iges_ex_far) iges_ex_far) by (split; [reflexivity | left; split; reflexivity]).
  assert (RR : raw_ready (dz := dz) fmt 1 (AnyB 1 iges_ex_far) iges_ex_far).
  { split; [exact Hh | apply iges_far_ok | lia | | | | ].
    - split; [repeat constructor | split; vm_compute; reflexivity].
    - change (knots_of iges_ex_far) with [[0; 0; 1; 1]%R]. constructor; [|constructor]. repeat (constructor; [assumption|]). constructor.
    - intros idx Hi. change (weight _ _) with 1%R. exact Q1.
    - intros idx c Hi Hc. change (npts_of iges_ex_far) with [2] in Hi. rewrite irit_ex_indices in Hi. unfold padded. change (ph_dim (sp_ph iges_ex_far)) with 1.
      assert (Hc' : c = 0 \/ c = 1 \/ c = 2) by lia. destruct Hi as [<- |[<- |[]]]; destruct Hc' as [-> |[-> | ->]]; [change (if 0 <? 1 then coordinate iges_ex_far [0] 0 else 0%R) with 0%R| | |change (if 0 <? 1 then coordinate iges_ex_far [1] 0 else 0%R) with (10 ^ 18)%R; exact Q2| | ]; exact Q0. }
  assert (OK : Forall2 (okay fmt) [AnyB 1 iges_ex_far] [iges_ex_far (dz := dz)]) by (constructor; [now apply (raw_okay fmt 1) | constructor]).
  assert (FF : fine filename) by (split; [unfold zlen; lia | exact A1]).
  destruct (file_ok (dz := dz) fmt Hs filename time1 time2 _ _ OK FF B2 C2 B1 C1 ltac:(vm_compute; reflexivity)) as (text & W & E).
  exists iges_ex_far, (gback fmt iges_ex_far), text. split; [apply iges_far_ok|]. split; [exact Hh|]. split; [reflexivity|]. split; [exact W|]. split; [exact E|].
    unfold gback. rewrite rebuilt_coordinate; [|apply iges_far_ok | lia | change (npts_of iges_ex_far) with [2]; rewrite irit_ex_indices; cbn; auto | lia].
    change (padded iges_ex_far [1] 0) with (10 ^ 18)%R. unfold rval. rewrite Hf, read_1e18. reflexivity.
Qed.

(* ---- examples ---- *)
Lemma iges_ex_header : header_text (of_string "line.iges") /\ header_text (of_string "20260101.000000").
Proof. split; (split; [repeat constructor; discriminate | cbn; lia]). Qed.
Lemma iges_ex_ready dz w : (match w with None => True | Some w => 0 <= w <= 1000 end)%R -> iges_ready (dz := dz) short6 (1 / 2000000) 1 (irit_ex_any w) (irit_ex_line w).
Proof.
  intros Hw. destruct (irit_ex_bounds dz w Hw) as (A & B & C & D & _).
  split; [exact A | exact B | lia | exact D | | |].
  - change (knots_of (irit_ex_line w)) with [[0; 0; 1; 1]%R]. repeat constructor; apply short6_prints; rewrite Rabs_right; lra.
  - intros idx Hi. change (npts_of (irit_ex_line w)) with [2] in Hi. rewrite irit_ex_indices in Hi. apply short6_prints. apply Rle_lt_trans with 1000%R; [|lra].
    assert (Hwt : (weight (dz := dz) (irit_ex_line w) idx = 1 \/ exists v, w = Some v /\ weight (dz := dz) (irit_ex_line w) idx = v)%R).
    { destruct w as [w|]; [|left; reflexivity]. destruct Hi as [<- |[<- |[]]]; [left; reflexivity | right; eexists; split; reflexivity]. }
    destruct Hwt as [-> |(v & -> & ->)]; rewrite Rabs_right; lra.
  - intros idx c Hi Hc. change (npts_of (irit_ex_line w)) with [2] in Hi. rewrite irit_ex_indices in Hi. apply short6_prints. apply Rle_lt_trans with 10%R; [|lra].
    assert (Hc' : c = 0 \/ c = 1 \/ c = 2) by lia. apply Rabs_le.
    destruct Hi as [<- |[<- |[]]]; destruct Hc' as [-> |[-> | ->]];
      [change (padded _ _ _) with (1/3)%R | change (padded _ _ _) with 0%R | change (padded _ _ _) with 0%R | change (padded _ _ _) with (-5)%R | change (padded _ _ _) with 2%R | change (padded _ _ _) with 0%R]; lra.
Qed.
Lemma iges_ex_two dz : Forall2 (iges_ready (dz := dz) short6 (1 / 2000000) 1) [irit_ex_any None; irit_ex_any (Some (1/3)%R)] [irit_ex_line None; irit_ex_line (Some (1/3)%R)] /\
  fold_right Z.add 0 (map iges_numbers [irit_ex_line (dz := dz) None; irit_ex_line (Some (1/3)%R)]) = 44.
Proof. split; [constructor; [|constructor; [|constructor]]; apply iges_ex_ready; [exact I | lra] | reflexivity]. Qed.
Definition iges_ex_surface {dz} : spline (Rops dz) :=
  mkSpline (F := Rops dz) (mkps dz [[0; 0; 1; 1]; [0; 0; 1; 1]]%R [1; 1]) (mkPhys (F := Rops dz) 2 [2; 2] [0; 0; 1; 0; 0; 1; 1; 1]%R None).
Lemma iges_surface_ready dz : iges_ready (dz := dz) short6 (1 / 2000000) 2 (AnyB 2 iges_ex_surface) iges_ex_surface.
Proof.
  split.
  - split; [reflexivity | left; split; reflexivity].
  - assert (G : Forall2 good_direction [[0; 0; 1; 1]; [0; 0; 1; 1]]%R [1; 1]) by (pose proof ex_line_good as X; inversion X; subst; constructor; auto).
    destruct (spline_new_ok dz [[0; 0; 1; 1]; [0; 0; 1; 1]]%R [1; 1] [[0; 0]; [1; 0]; [0; 1]; [1; 1]]%R None 2 G) as (_ & W); try reflexivity; try lia.
    + repeat constructor.
    + intros v E. discriminate.
    + exact W.
  - lia.
  - split; [repeat constructor | split; vm_compute; reflexivity].
  - change (knots_of iges_ex_surface) with [[0; 0; 1; 1]; [0; 0; 1; 1]]%R. repeat constructor; apply short6_prints; rewrite Rabs_right; lra.
  - intros idx Hi. change (weight _ _) with 1%R. apply short6_prints. rewrite Rabs_right; lra.
  - intros idx c Hi Hc. change (npts_of iges_ex_surface) with [2; 2] in Hi. cbn in Hi. apply short6_prints.
    assert (Hc' : c = 0 \/ c = 1 \/ c = 2) by lia. apply Rle_lt_trans with 1%R; [|lra]. apply Rabs_le.
    destruct Hi as [<- |[<- |[<- |[<- |[]]]]]; destruct Hc' as [-> |[-> | ->]];
      first [change (padded _ _ _) with 0%R; lra | change (padded _ _ _) with 1%R; lra].
Qed.
Lemma iges_ex_surfaces dz : Forall2 (fun o s => exists d, iges_ready (dz := dz) short6 (1 / 2000000) d o s) [irit_ex_any None; AnyB 2 iges_ex_surface] [irit_ex_line None; iges_ex_surface] /\
  Exists (fun s => zlen (degs_of s) = 2) [irit_ex_line (dz := dz) None; iges_ex_surface] /\
  fold_right Z.add 0 (map iges_numbers [irit_ex_line (dz := dz) None; iges_ex_surface]) = 56.
Proof.
  split; [constructor; [|constructor; [|constructor]]; [exists 1; now apply iges_ex_ready | exists 2; apply iges_surface_ready]|]. split; [|reflexivity].
  apply Exists_cons_tl, Exists_cons_hd. reflexivity.
Qed.
Definition iges_ex_solid {dz} : spline (Rops dz) :=
  mkSpline (F := Rops dz) (mkps dz [[0; 1]; [0; 1]; [0; 1]]%R [0; 0; 0]) (mkPhys (F := Rops dz) 1 [1; 1; 1] [0]%R None).
Lemma iges_ex_solids dz : Forall2 (fun o s => exists d, 1 <= d /\ holds d o s) [irit_ex_any None; AnyB 3 iges_ex_solid] [irit_ex_line (dz := dz) None; iges_ex_solid] /\
  Exists (fun s => 3 <= zlen (degs_of s)) [irit_ex_line (dz := dz) None; iges_ex_solid].
Proof.
  split; [constructor; [|constructor; [|constructor]]|apply Exists_cons_tl, Exists_cons_hd; vm_compute; discriminate].
  - exists 1. split; [lia|]. split; [reflexivity | left; split; reflexivity].
  - exists 3. split; [lia|]. split; [reflexivity | left; split; reflexivity].
Qed.
Lemma iges_ex_exponent : short_text short6e /\ short6e (10 ^ 18)%R = of_string "1e+18" /\ prints short6e (1 / 2000000) 0%R /\ prints short6e (1 / 2000000) 1%R.
Proof. split; [apply short6e_short|]. split; [apply short6e_big|]. split; apply short6e_prints; rewrite Rabs_right; lra. Qed.
