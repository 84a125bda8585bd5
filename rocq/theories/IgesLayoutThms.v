(* Closing lemmas and examples for the layout of IGES files. *)
From Coq Require Import ZArith Ascii String List Bool Lia Reals Lra.
From Verif Require Import Base BaseFacts MultiIndex MultiIndexSpec MultiIndexFacts TensorSum KnotVec KnotVecSpec Spaces SpacesSpec SpacesFacts SplineEval SplineSpec SplineNew EvalFacts
  StrSpec StrOps StrFacts StrThms StrNum StrDelim Convert ConvertSpec ConvertFacts VtkSpec VtkFacts Format FormatSpec FormatFacts Fixed IritFacts IritRead IritThms Rebuild XmlFacts Iges IgesFacts IgesData IgesFile IgesReadSpec IgesLayoutSpec IgesThms IgesLayout.
Import ListNotations.
Open Scope Z_scope.

Section File.
Context {dz : R -> R}.
Notation F := (Rops dz).
Variable fmt : R -> str.
Hypothesis Hfmt : short_text fmt.
Implicit Types s : spline F.

(* ---- the largest coordinate ---- *)
Lemma max_fold (l : list R) : forall h, let m := fold_left (fun e c => if nltb (n := F) e c then c else e) l h in
  (h <= m)%R /\ (forall x, In x l -> (x <= m)%R) /\ (m = h \/ In m l).
Proof.
  induction l as [|x l IH]; intros h; cbn [fold_left]; cbv zeta.
  - split; [lra|]. split; [intros x []|]. now left.
  - specialize (IH (if nltb (n := F) h x then x else h)). cbv zeta in IH. destruct IH as (A & B & C).
    assert (E : (nltb (n := F) h x = true /\ (h < x)%R) \/ (nltb (n := F) h x = false /\ (x <= h)%R)).
    { change (nltb (n := F) h x) with (if Rlt_dec h x then true else false). destruct (Rlt_dec h x); [left | right]; split; auto; lra. }
    destruct E as [(E & L)|(E & L)]; rewrite E in *.
    + split; [lra|]. split; [|destruct C as [C|C]; [right; now left | right; now right]]. intros y [<-|Hy]; [exact A | now apply B].
    + split; [lra|]. split; [|destruct C as [C|C]; [left; exact C | right; now right]]. intros y [<-|Hy]; [lra | now apply B].
Qed.
Lemma coordinate_in s idx c : well_formed s -> In idx (all_indices (npts_of s)) -> 0 <= c < ph_dim (sp_ph s) -> In (coordinate s idx c) (ph_cps (sp_ph s)).
Proof.
  intros Hw Hi Hc. apply all_indices_box in Hi. pose proof (get1d_range _ _ Hi) as Hr. rewrite <- position_get1d in Hr. unfold coordinate. apply nth_In.
  pose proof (wf_cps s Hw) as E. unfold zlen in E. assert (0 <= ph_dim (sp_ph s) * position (npts_of s) idx) by nia.
  assert (X : ph_dim (sp_ph s) * position (npts_of s) idx + c < Z.of_nat (List.length (ph_cps (sp_ph s)))) by (rewrite E; nia). change (num F) with R in *. lia.
Qed.
Lemma in_coordinate s x : well_formed s -> In x (ph_cps (sp_ph s)) -> exists idx c, In idx (all_indices (npts_of s)) /\ 0 <= c < ph_dim (sp_ph s) /\ coordinate s idx c = x.
Proof.
  intros Hw Hx. destruct (In_nth _ _ 0%R Hx) as (n & Hn & E). pose proof (wf_cps s Hw) as L. pose proof (wf_dim s Hw) as D. unfold zlen in L. change (num F) with R in *.
  assert (P : 0 <= Z.of_nat n / ph_dim (sp_ph s) < total (npts_of s)).
  { split; [apply Z.div_pos; lia|]. apply Z.div_lt_upper_bound; lia. }
  destruct (get1d_surj (npts_of s) (Z.of_nat n / ph_dim (sp_ph s)) (wf_pos s Hw) P) as (idx & Hb & Hg).
  exists idx, (Z.of_nat n mod ph_dim (sp_ph s)). split; [now apply all_indices_box|]. split; [apply Z.mod_pos_bound; lia|].
  unfold coordinate. rewrite position_get1d, Hg. rewrite <- Z.div_mod by lia. now rewrite Nat2Z.id.
Qed.
Lemma highest_layout os ss : Forall2 (okay fmt) os ss -> exists h, iges_highest (F := F) os = Ok h /\ largest_coordinate ss h.
Proof.
  intros H. unfold iges_highest.
  assert (G : forall h0 : R, (0 <= h0)%R -> exists h, foldM (fun h spl => e <- iges_dimension (F := F) spl ;; s <- get_spline (if e =? 126 then 1 else 2) spl ;;
    Ok (if nltb (n := F) h (expansion (sp_ph s)) then expansion (sp_ph s) else h)) os h0 = Ok h /\ (h0 <= h)%R /\
    (forall s idx c, In s ss -> In idx (all_indices (npts_of s)) -> 0 <= c < ph_dim (sp_ph s) -> (coordinate s idx c <= h)%R) /\
    (h = h0 \/ exists s idx c, In s ss /\ In idx (all_indices (npts_of s)) /\ 0 <= c < ph_dim (sp_ph s) /\ coordinate s idx c = h)).
  { induction H as [|o s os ss H Hs IH]; intros h0 H0.
    - exists h0. split; [reflexivity|]. split; [lra|]. split; [intros s idx c []|]. now left.
    - cbn [foldM]. destruct (data_type fmt _ _ _ H) as [E1 E2]. rewrite E1. cbn [bind]. rewrite E2, (data_get fmt _ _ _ H). cbn [bind].
      pose proof (rr_wf _ _ _ _ H) as Hw. destruct (max_fold (ph_cps (sp_ph s)) 0%R) as (A & B & C). change (fold_left _ (ph_cps (sp_ph s)) 0%R) with (expansion (F := F) (sp_ph s)) in A, B, C.
      set (ex := expansion (F := F) (sp_ph s)) in *. change (num F) with R in ex.
      assert (E : (nltb (n := F) h0 ex = true /\ (h0 < ex)%R) \/ (nltb (n := F) h0 ex = false /\ (ex <= h0)%R)).
      { change (nltb (n := F) h0 ex) with (if Rlt_dec h0 ex then true else false). destruct (Rlt_dec h0 ex); [left | right]; split; auto; lra. }
      destruct E as [(-> & L)|(-> & L)].
      + destruct (IH ex ltac:(lra)) as (h & G1 & G2 & G3 & G4). exists h. split; [exact G1|]. split; [lra|]. split.
        * intros s' idx c [<-|Hin] Hi Hc; [|now apply (G3 s')]. pose proof (B _ (coordinate_in s idx c Hw Hi Hc)). lra.
        * right. destruct G4 as [->|(s' & idx & c & X1 & X2 & X3 & X4)].
          -- destruct C as [C|C]; [lra|]. destruct (in_coordinate s ex Hw C) as (idx & c & X1 & X2 & X3). exists s, idx, c. split; [now left|]. auto.
          -- exists s', idx, c. split; [now right|]. auto.
      + destruct (IH h0 H0) as (h & G1 & G2 & G3 & G4). exists h. split; [exact G1|]. split; [lra|]. split.
        * intros s' idx c [<-|Hin] Hi Hc; [|now apply (G3 s')]. pose proof (B _ (coordinate_in s idx c Hw Hi Hc)). lra.
        * destruct G4 as [->|(s' & idx & c & X1 & X2 & X3 & X4)]; [now left|]. right. exists s', idx, c. split; [now right|]. auto. }
  destruct (G 0%R ltac:(lra)) as (h & G1 & G2 & G3 & G4). exists h. split; [exact G1|]. split; [exact G2|]. split; [exact G3 | exact G4].
Qed.

(* ---- start, global and terminate sections ---- *)
Definition title : str := of_string "IGES file generated by SplineLib".
Lemma start_layout : exists l, iges_start = Ok l /\ Forall (Forall no_line) l /\ numbered "S" l /\ zlen l = 1 /\ holds_text 72 l title.
Proof.
  exists (lines 72 (ctail "S") title 0).
  assert (E : iges_start = Ok (lines 72 (ctail "S") title 0)) by (unfold iges_start; rewrite get_block_ok by (vm_compute; discriminate); cbn [bind]; rewrite (ctail_ok "S" 1) by lia; reflexivity).
  split; [exact E|]. split; [|split; [|split; [reflexivity|]]].
  - repeat constructor; vm_compute; discriminate.
  - apply numbered_0, numbered_c; [lia | vm_compute; reflexivity].
  - apply (lines_text 72); [lia | discriminate].
Qed.
Lemma header_params name time1 time2 (high : R) : add_all
    [hollerith (of_string ","); hollerith (of_string ";"); hollerith (of_string "unknown"); name;
     hollerith (of_string "SplineLib"); hollerith (of_string "pre_release");
     int_str 31; int_str 128; int_str 24; int_str 1024; int_str 53; hollerith (of_string "unknown");
     fmt 1%R; int_str 2; hollerith (of_string "MM"); int_str 1; fmt (1 / 1000)%R;
     hollerith time1; fmt (1 / 1000000)%R; fmt high;
     hollerith (of_string "unknown"); hollerith (of_string "unknown"); int_str 11; int_str 0; hollerith time2]
    (of_string ",") = flat_map (fun t => t ++ of_string ",") (global_parameters fmt name time1 time2 high).
Proof. reflexivity. Qed.
Lemma global_layout name time1 time2 os ss : Forall2 (okay fmt) os ss -> fine name -> zlen time1 <= 900 -> zlen time2 <= 900 -> Forall no_line time1 -> Forall no_line time2 ->
  exists l high, iges_global (F := F) fmt name time1 time2 os = Ok l /\ Forall (Forall no_line) l /\ zlen l < 10 ^ 6 /\ numbered "G" l /\ largest_coordinate ss high /\
    holds_text 72 l (flat_map (fun t => t ++ of_string ",") (global_parameters fmt name time1 time2 high) ++ of_string ";").
Proof.
  intros H Hf L1 L2 T1 T2. destruct (highest_layout os ss H) as (h & Eh & Lh). unfold iges_global. rewrite Eh. cbn [bind].
  assert (D3 : ndiv (n := F) n1 (nofZ 1000) = (1 / 1000)%R) by (apply (ndiv_R dz 1%R 1000%R); lra).
  assert (D6 : ndiv (n := F) n1 (nofZ 1000000) = (1 / 1000000)%R) by (apply (ndiv_R dz 1%R 1000000%R); lra). rewrite D3, D6.
  match goal with |- context [add_all ?l _ ++ of_string ";"] => set (ts := l) end.
  assert (Fx : forall x, fine (fmt x)) by (intros x; destruct (fmt_fine fmt Hfmt x); split; auto; lia).
  assert (Fs : forall s : string, zlen (of_string s) <= 900 -> forallb (fun c => negb (Ascii.eqb c newline)) (list_ascii_of_string s) = true -> fine (hollerith (of_string s))).
  { intros s X Y. apply fine_hollerith; auto. now apply line_string. }
  assert (Hts : Forall fine ts).
  { unfold ts. repeat (constructor; [first [exact Hf | apply Fx | now apply fine_hollerith | (apply fine_int; lia) | (apply Fs; [vm_compute; discriminate | reflexivity])]|]). constructor. }
  set (c := add_all ts (of_string ",") ++ of_string ";").
  assert (Lc : zlen c <= 26000).
  { unfold c. rewrite zlen_app. pose proof (add_all_bound 1000 ts) as B. assert (zlen (add_all ts (of_string ",")) <= (1000 + 1) * zlen ts) by (apply B; eapply Forall_impl; [|exact Hts]; intros t [X _]; exact X).
    change (zlen ts) with 25 in *. change (zlen (of_string ";")) with 1. lia. }
  assert (Nc : Forall no_line c).
  { unfold c. apply Forall_app. split; [apply add_all_line; eapply Forall_impl; [|exact Hts]; intros t [_ X]; exact X | repeat constructor; discriminate]. }
  assert (Ec : c <> []) by (unfold c; intros E; apply app_eq_nil in E as [_ E]; discriminate).
  destruct (rows_enough 72 c ltac:(lia) Ec) as [_ R2]. exists (lines 72 (ctail "G") c 0), h. split; [|split; [|split; [|split; [|split]]]].
  - apply layout_ok; auto; [lia | lia |]. intros n Hn. apply ctail_ok. lia.
  - assert (M : Forall (marked "G") (lines 72 (ctail "G") c 0)).
    { apply lines_marked; auto; [lia|]. intros n Hn. apply ctail_marks; [discriminate | lia]. }
    eapply Forall_impl; [|exact M]. intros l [X _]. exact X.
  - unfold zlen. rewrite lines_length. lia.
  - apply numbered_0, numbered_c; lia.
  - exact Lh.
  - rewrite <- header_params. exact (lines_text 72 (ctail "G") c 0 ltac:(lia) Ec).
Qed.
Lemma terminate_layout a b c e : 0 <= a < 10 ^ 7 -> 0 <= b < 10 ^ 7 -> 0 <= c < 10 ^ 7 -> 0 <= e < 10 ^ 7 ->
  exists l, iges_terminate a b c e = Ok l /\ Forall (Forall no_line) l /\ numbered "T" l /\ terminates a b c e l.
Proof.
  intros Ha Hb Hc He. destruct (num_block_ok a 7 ltac:(lia) Ha) as (A1 & A2 & A3). destruct (num_block_ok b 7 ltac:(lia) Hb) as (B1 & B2 & B3).
  destruct (num_block_ok c 7 ltac:(lia) Hc) as (C1 & C2 & C3). destruct (num_block_ok e 7 ltac:(lia) He) as (D1 & D2 & D3). destruct (num_block_ok 1 7 ltac:(lia) ltac:(lia)) as (E1 & E2 & E3).
  unfold iges_terminate. rewrite A1, B1, C1, D1, E1. cbn [bind]. rewrite get_block_ok by (vm_compute; discriminate). cbn [bind]. eexists. split; [reflexivity|].
  set (pa := padl (int_str a) 7) in *. set (pb := padl (int_str b) 7) in *. set (pc := padl (int_str c) 7) in *. set (pe := padl (int_str e) 7) in *.
  pose proof (seven_right a Ha) as [RA1 RA2]. pose proof (seven_right b Hb) as [RB1 RB2]. pose proof (seven_right c Hc) as [RC1 RC2]. pose proof (seven_right e He) as [RE1 RE2].
  fold pa in RA1, RA2. fold pb in RB1, RB2. fold pc in RC1, RC2. fold pe in RE1, RE2.
  assert (EQ : of_string "S" ++ pa ++ of_string "G" ++ pb ++ of_string "D" ++ pc ++ of_string "P" ++ pe ++ padl (of_string "T") 41 ++ padl (int_str 1) 7
    = of_string "S" ++ pa ++ of_string "G" ++ pb ++ of_string "D" ++ pc ++ of_string "P" ++ pe ++ repeat " "%char 40 ++ of_string "T" ++ padl (int_str 1) 7) by reflexivity.
  rewrite EQ. split; [|split].
  - constructor; [|constructor]. assert (L : forall s : string, forallb (fun c => negb (Ascii.eqb c newline)) (list_ascii_of_string s) = true -> Forall no_line (of_string s)) by exact line_string.
    repeat first [assumption | (apply L; reflexivity) | (apply line_padl, L; reflexivity) | apply (line_blanks 40) | apply Forall_app; split].
  - intros [|i] l E; [|destruct i; discriminate]. cbn [nth_error] in E. match type of E with Some ?x = _ => assert (El : l = x) by congruence end. clear E. rewrite El. clear El l. split; [|split].
    + rewrite !app_length, RA1, RB1, RC1, RE1. reflexivity.
    + rewrite !app_assoc. rewrite <- (app_assoc _ (of_string "T")). apply columns_mid; [rewrite !app_length, RA1, RB1, RC1, RE1; reflexivity | reflexivity].
    + rewrite !app_assoc. rewrite <- (app_nil_r (_ ++ padl (int_str 1) 7)). rewrite <- (app_assoc _ (padl (int_str 1) 7)).
      rewrite columns_mid; [apply seven_right; lia | rewrite !app_length, RA1, RB1, RC1, RE1; reflexivity | reflexivity].
  - assert (CL : forall (A B C : list ascii) p n, List.length A = p -> List.length B = n -> columns (A ++ B ++ C) p n = B) by exact columns_mid.
    set (rest := repeat " "%char 40 ++ of_string "T" ++ padl (int_str 1) 7).
    eexists. split; [reflexivity|].
    split; [now apply (CL [])|].
    split; [rewrite (CL (of_string "S") pa) by auto; split; auto|].
    split; [rewrite (app_assoc (of_string "S")); apply CL; [rewrite app_length, RA1; reflexivity | reflexivity]|].
    split; [rewrite (app_assoc (of_string "S")), (app_assoc (_ ++ pa)); rewrite CL by (rewrite ?app_length, ?RA1; auto); split; auto|].
    split; [rewrite (app_assoc (of_string "S")), (app_assoc (_ ++ pa)), (app_assoc (_ ++ of_string "G")); apply CL; [rewrite !app_length, RA1, RB1; reflexivity | reflexivity]|].
    split; [rewrite (app_assoc (of_string "S")), (app_assoc (_ ++ pa)), (app_assoc (_ ++ of_string "G")), (app_assoc (_ ++ pb)); rewrite CL by (rewrite ?app_length, ?RA1, ?RB1; auto); split; auto|].
    split; [rewrite (app_assoc (of_string "S")), (app_assoc (_ ++ pa)), (app_assoc (_ ++ of_string "G")), (app_assoc (_ ++ pb)), (app_assoc (_ ++ of_string "D")); apply CL; [rewrite !app_length, RA1, RB1, RC1; reflexivity | reflexivity]|].
    split; [rewrite (app_assoc (of_string "S")), (app_assoc (_ ++ pa)), (app_assoc (_ ++ of_string "G")), (app_assoc (_ ++ pb)), (app_assoc (_ ++ of_string "D")), (app_assoc (_ ++ pc)); rewrite CL by (rewrite ?app_length, ?RA1, ?RB1, ?RC1; auto); split; auto|].
    rewrite (app_assoc (of_string "S")), (app_assoc (_ ++ pa)), (app_assoc (_ ++ of_string "G")), (app_assoc (_ ++ pb)), (app_assoc (_ ++ of_string "D")), (app_assoc (_ ++ pc)), (app_assoc (_ ++ of_string "P")). unfold rest.
    apply CL; [rewrite !app_length, RA1, RB1, RC1, RE1; reflexivity | reflexivity].
Qed.

Lemma no_lines_dir os (ss : list (spline F)) : Forall2 (okay fmt) os ss -> 2 * fold_right Z.add 0 (map iges_numbers ss) < 4000000 ->
  exists D PP, iges_sections (F := F) fmt os = Ok (D, PP, 1 + 2 * zlen ss) /\ D = dir_lines fmt 0 1 ss /\ PP = par_lines fmt 1 0 ss /\ Forall (Forall no_line) D /\ Forall (Forall no_line) PP.
Proof.
  intros H Hn. pose proof (all_rows_bound fmt Hfmt os ss H) as AB. assert (Z0 : 0 <= zlen ss) by (unfold zlen; lia).
  destruct (sections_ok fmt Hfmt os ss H [] [] 1) as (E1 & E2 & E3); try (cbn [zlen List.length Z.of_nat]; lia).
  exists (dir_lines fmt 0 1 ss), (par_lines fmt 1 0 ss). split; [exact E1|]. split; [reflexivity|]. split; [reflexivity|].
  split; [eapply Forall_impl; [|exact E2] | eapply Forall_impl; [|exact E3]]; intros l [X _]; exact X.
Qed.
Lemma file_layout name time1 time2 os ss : Forall2 (okay fmt) os ss -> fine name -> zlen time1 <= 900 -> zlen time2 <= 900 -> Forall no_line time1 -> Forall no_line time2 ->
  2 * fold_right Z.add 0 (map iges_numbers ss) < 4000000 ->
  exists text st gl di pa te, write_iges (F := F) fmt name time1 time2 os = Ok text /\ text_of_lines text (st ++ gl ++ di ++ pa ++ te) /\ iges_layout fmt name time1 time2 ss st gl di pa te.
Proof.
  intros H Hf L1 L2 T1 T2 Hn. pose proof (all_rows_bound fmt Hfmt os ss H) as AB. assert (Z0 : 0 <= zlen ss) by (unfold zlen; lia).
  destruct start_layout as (ls & S1 & S2 & S3 & S4 & S5). destruct (global_layout name time1 time2 os ss H Hf L1 L2 T1 T2) as (lg & high & G1 & G2 & G3 & G4 & G5 & G6).
  destruct (no_lines_dir os ss H Hn) as (D & PP & E1 & ED & EP & N1 & N2).
  destruct (sections_layout fmt Hfmt os ss H 0 1 1) as (Q1 & Q2 & Q3 & Q4); try lia. cbv zeta in Q1, Q2, Q3, Q4. change (1 - 1) with 0 in Q3, Q4. rewrite <- ED in Q1, Q2, Q4. rewrite <- EP in Q3, Q4.
  assert (LP : zlen PP = all_rows fmt ss) by (rewrite EP; apply par_length).
  destruct (terminate_layout (zlen ls) (zlen lg) (zlen D) (zlen PP)) as (lt & U1 & U2 & U3 & U4); try (unfold zlen in *; lia).
  exists (flat_map (fun l => l ++ [newline]) (ls ++ lg ++ D ++ PP ++ lt)), ls, lg, D, PP, lt. split; [|split].
  - unfold write_iges. gstep S1. gstep G1. gstep E1. gstep U1. reflexivity.
  - split; [|now left]. repeat (apply Forall_app; split; [assumption|]). assumption.
  - split.
    + split; [exact S3|]. split; [exact S4 | exact S5].
    + split; [exact G4|]. exists high. split; [exact G5 | exact G6].
    + split; [now apply numbered_0 | exact Q2].
    + now apply numbered_0.
    + exists (map (nrows fmt) ss). split; [apply map_length|]. split; [exact LP|]. intros k s E. destruct (Q4 k s E) as (one & two & X1 & X2 & X3 & X4 & X5 & X6).
      exists one, two. cbv zeta. split; [exact X1|]. split; [exact X2|]. split; [|split; [exact X4|]; split; [|exact X6]].
      * rewrite Z.add_comm. exact X3.
      * rewrite Z.add_comm. exact X5.
    + split; [exact U3 | exact U4].
Qed.
End File.

Lemma iges_layout_ok dz fmt tol name time1 time2 (os : list (any (spline (Rops dz)))) (ss : list (spline (Rops dz))) : short_text fmt -> header_text name -> header_text time1 -> header_text time2 ->
  Forall2 (fun o s => exists d, iges_ready fmt tol d o s) os ss -> fold_right Z.add 0 (map iges_numbers ss) < 2000000 ->
  exists text st gl di pa te, write_iges (F := Rops dz) fmt name time1 time2 os = Ok text /\ text_of_lines text (st ++ gl ++ di ++ pa ++ te) /\
    iges_layout fmt name time1 time2 ss st gl di pa te.
Proof.
  intros Hf (A1 & A2) (B1 & B2) (C1 & C2) H Hn. apply file_layout; auto; unfold zlen; try lia.
  - clear Hn. induction H as [|o s os ss (d & Hd) H IH]; constructor; auto. now apply (raw_okay fmt d), (ready_raw fmt tol).
  - split; unfold zlen; auto. lia.
Qed.
