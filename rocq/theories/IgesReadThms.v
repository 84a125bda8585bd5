(* Closing lemmas and examples for IGES files of any origin. *)
From Coq Require Import ZArith Ascii String List Bool Lia Reals Lra.
From Verif Require Import Base BaseFacts MultiIndex KnotVecSpec Spaces SpacesSpec SplineEval SplineSpec StrSpec StrOps StrFacts StrThms EqualThms Format Convert FormatSpec Xml XmlReadSpec XmlReadFacts XmlReadThms
  Iges IgesReadSpec IgesReadFacts.
Import ListNotations.
Open Scope Z_scope.

Lemma sources_good par es xs : Forall2 (says par) es xs -> Forall (fun x => describes x 0) (sources xs).
Proof.
  induction 1 as [|e o es xs (_ & H) Hs IH]; [constructor|]. unfold sources. cbn [flat_map]. apply Forall_app. split; [|exact IH].
  destruct o as [x|]; [|constructor]. destruct H as (_ & D & _). constructor; [exact D | constructor].
Qed.
Lemma iges_document_read dz text ls es xs :
  text_of_lines text ls -> Forall (fun l => 72 <= zlen l) ls -> zlen text < 2 ^ 63 ->
  lines_in "D" ls = directory es -> Forall2 (says (lines_in "P" ls)) es xs ->
  exists os, read_iges (F := Rops dz) toward_zero text = Ok os /\
    Forall2 (fun x o => exists s, holds (zlen (so_degs x)) o s /\ described x 0 s) (sources xs) os.
Proof.
  intros T H Hs HD HX. eexists. split; [exact (file_read text ls es xs T H Hs HD HX)|].
  pose proof (sources_good _ _ _ HX) as G. induction G as [|x xs' Hx G IH]; cbn [map]; constructor; auto. exists (made x 0). split; [apply made_holds | now apply made_described].
Qed.
Lemma iges_document_short dz text ls es e more xs :
  text_of_lines text ls -> Forall (fun l => 72 <= zlen l) ls -> zlen text < 2 ^ 63 ->
  lines_in "D" ls = directory (es ++ e :: more) -> Forall2 (says (lines_in "P" ls)) es xs -> says_too_little (lines_in "P" ls) e ->
  read_iges (F := Rops dz) toward_zero text = UB.
Proof. apply file_short. Qed.

(* ---- a file with a line, a rational curve and a polynomial surface ---- *)
Definition sect (c : ascii) (t : list ascii) : list ascii := firstn 72 (t ++ repeat " "%char 72) ++ c :: s_ "      1".
Definition dir_one (type start : string) : list ascii := sect "D" (s_ "     " ++ s_ type ++ s_ start ++ s_ "       0       0       0       0       0       0 0 0 0 1").
Definition dir_two (type count : string) : list ascii := sect "D" (s_ "     " ++ s_ type ++ s_ "       0       0" ++ s_ count ++ s_ "       0").
Definition ex_line_entity : entity := mkEntity (dir_one "110" "       1") (dir_two "110" "       1") 110 1 1.
Definition ex_curve_entity : entity := mkEntity (dir_one "126" "       2") (dir_two "126" "       2") 126 2 2.
Definition ex_patch_entity : entity := mkEntity (dir_one "128" "4       ") (dir_two "128" "   2    ") 128 4 2.
Definition ex_par : list (list ascii) :=
  [sect "P" (s_ "110,0,0,0,1,2,3;"); sect "P" (s_ "126,1,1,0,0, 0,0,"); sect "P" (s_ "0,0,1,1,1,2,0,0,0,1,2,3;");
   sect "P" (s_ "128,1,1,1,1,0,0,1,0,0,0,0,1,1,0,0,1,1,1,1,1,1,"); sect "P" (s_ "0,0,0,1,0,0,0,1,0,1,1,4,0,1,0,1;")].
Definition ex_iges_lines : list (list ascii) :=
  [sect "S" (s_ "made by hand"); sect "G" (s_ "1H,,1H;;")] ++ directory [ex_line_entity; ex_curve_entity; ex_patch_entity] ++ ex_par ++ [sect "T" (s_ "S      1G      1D      6P      5")].
Definition ex_iges_text : list ascii := flat_map (fun l => l ++ [newline]) ex_iges_lines.
Definition digs : list Z -> list numeral := map dig.
Definition ex_curve_source : source := spatial [digs [0; 0; 0]; digs [1; 2; 3]] (Some (digs [1; 2])) [1] [digs [0; 0; 1; 1]].
Definition ex_patch_source : source :=
  spatial [digs [0; 0; 0]; digs [1; 0; 0]; digs [0; 1; 0]; digs [1; 1; 4]] None [1; 1] [digs [0; 0; 1; 1]; digs [0; 0; 1; 1]].
Definition three_digits (a b c : Z) : numeral := mkNumeral false [a; b; c] None None.
Definition ent (blanks : nat) (n : numeral) : entry := mkEntry (repeat " "%char blanks) n [] ","%char.
Definition ends (n : numeral) : entry := mkEntry (repeat " "%char 0) n [] ";"%char.
Definition ex_curve_entries : list entry :=
  ent 0 (three_digits 1 2 6) :: map (fun d => ent 0 (dig d)) [1; 1; 0; 0] ++ [ent 1 (dig 0); ent 0 (dig 0); ent 47 (dig 0)] ++
  map (fun d => ent 0 (dig d)) [0; 1; 1; 1; 2; 0; 0; 0; 1; 2] ++ [ends (dig 3)].
Definition ex_patch_entries : list entry :=
  ent 0 (three_digits 1 2 8) :: map (fun d => ent 0 (dig d)) [1; 1; 1; 1; 0; 0; 1; 0; 0; 0; 0; 1; 1; 0; 0; 1; 1; 1; 1; 1; 1] ++ [ent 18 (dig 0)] ++
  map (fun d => ent 0 (dig d)) [0; 0; 1; 0; 0; 0; 1; 0; 1; 1; 4; 0; 1; 0] ++ [ends (dig 1)].

Lemma ent_ok b n c : good_numeral n -> delim c -> entry_ok (mkEntry (repeat " "%char b) n [] c).
Proof.
  intros (A & B) Hc. split; [|split; [constructor | split; [exact Hc | auto]]]. apply Forall_forall. intros x Hx. apply repeat_spec in Hx. left. left. exact Hx.
Qed.
Lemma three_good a b c : 0 <= a <= 9 -> 0 <= b <= 9 -> 0 <= c <= 9 -> good_numeral (three_digits a b c).
Proof.
  intros Ha Hb Hc. split; [|split; [discriminate | now right]]. split; [repeat constructor; lia|]. split; [discriminate|]. split; [discriminate | reflexivity].
Qed.
Ltac entries := repeat (constructor; [apply ent_ok; [first [apply dig_good; lia | apply three_good; lia] | first [now left | now right]]|]); constructor.
Lemma ex_shows t n : 0 <= n < 2 ^ 31 -> (exists a b, t = repeat " "%char a ++ int_str n ++ repeat " "%char b) -> shows t n.
Proof. split; auto. Qed.
Lemma dig_int d : integer (dig d) d.
Proof. exact (dig_value d). Qed.
Lemma line_good : good_direction (map numeral_value (digs [0; 0; 1; 1])) 1.
Proof. cbn [digs map]. rewrite !dig_value. pose proof ex_line_good as H. now inversion H. Qed.
Lemma digs_good ds : Forall (fun d => 0 <= d <= 9) ds -> Forall good_numeral (digs ds).
Proof. intros H. unfold digs. rewrite Forall_map. eapply Forall_impl; [|exact H]. intros d. apply dig_good. Qed.
Lemma ex_curve_describes : describes ex_curve_source 0.
Proof.
  split; cbn [ex_curve_source spatial so_names so_dim so_rows so_weights so_degs so_knots].
  - constructor; [exact line_good | constructor].
  - reflexivity.
  - repeat constructor.
  - intros ns E. injection E as <-. split; [reflexivity|]. exact (digs_good [1; 2] ltac:(repeat constructor; lia)).
  - repeat (constructor; [apply digs_good; repeat constructor; lia|]). constructor.
  - repeat (constructor; [apply digs_good; repeat constructor; lia|]). constructor.
  - lia.
  - left. exists [], [of_string "y"; of_string "z"]. split; [reflexivity|]. split; [intros [] | reflexivity].
  - vm_compute. discriminate.
  - split; [reflexivity|]. split; [reflexivity|]. repeat constructor.
Qed.
Lemma ex_patch_describes : describes ex_patch_source 0.
Proof.
  split; cbn [ex_patch_source spatial so_names so_dim so_rows so_weights so_degs so_knots].
  - constructor; [exact line_good | constructor; [exact line_good | constructor]].
  - reflexivity.
  - repeat constructor.
  - discriminate.
  - repeat (constructor; [apply digs_good; repeat constructor; lia|]). constructor.
  - repeat (constructor; [apply digs_good; repeat constructor; lia|]). constructor.
  - lia.
  - left. exists [], [of_string "y"; of_string "z"]. split; [reflexivity|]. split; [intros [] | reflexivity].
  - vm_compute. discriminate.
  - split; [reflexivity|]. split; [reflexivity|]. repeat constructor.
Qed.
Lemma ex_curve_data : curve_data (map en_num ex_curve_entries) ex_curve_source.
Proof.
  exists (three_digits 1 2 6), (dig 1), (dig 1), (dig 0), (dig 0), (dig 0), (dig 0), (digs [0; 0; 1; 1]), (digs [1; 2]), [digs [0; 0; 0]; digs [1; 2; 3]], (Some (digs [1; 2])), 1, [].
  split; [reflexivity|]. split; [reflexivity|]. split; [exact (dig_int 1)|]. split; [exact (dig_int 1)|]. split; [reflexivity|]. right. rewrite dig_value. split; [lra | reflexivity].
Qed.
Lemma ex_patch_data : surface_data (map en_num ex_patch_entries) ex_patch_source.
Proof.
  exists (three_digits 1 2 8), (dig 1), (dig 1), (dig 1), (dig 1), (dig 0), (dig 0), (dig 1), (dig 0), (dig 0), (digs [0; 0; 1; 1]), (digs [0; 0; 1; 1]), (digs [1; 1; 1; 1]),
    [digs [0; 0; 0]; digs [1; 0; 0]; digs [0; 1; 0]; digs [1; 1; 4]], None, 1, 1, (digs [0; 1; 0; 1]).
  split; [reflexivity|]. split; [reflexivity|]. split; [exact (dig_int 1)|]. split; [exact (dig_int 1)|]. split; [exact (dig_int 1)|]. split; [exact (dig_int 1)|].
  split; [reflexivity|]. split; [left; rewrite dig_value; split; reflexivity | vm_compute; discriminate].
Qed.
Lemma ex_curve_text : text_of_data (data_of ex_par ex_curve_entity) (map en_num ex_curve_entries).
Proof.
  exists ex_curve_entries, (repeat " "%char 40). split; [vm_compute; reflexivity|]. split; [entries|]. split; [reflexivity|].
  apply Forall_forall. intros c Hc. apply repeat_spec in Hc. subst. intros [E|E]; discriminate.
Qed.
Lemma ex_patch_text : text_of_data (data_of ex_par ex_patch_entity) (map en_num ex_patch_entries).
Proof.
  exists ex_patch_entries, (repeat " "%char 32). split; [vm_compute; reflexivity|]. split; [entries|]. split; [reflexivity|].
  apply Forall_forall. intros c Hc. apply repeat_spec in Hc. subst. intros [E|E]; discriminate.
Qed.
Lemma ex_iges_shape : text_of_lines ex_iges_text ex_iges_lines /\ Forall (fun l => 72 <= zlen l) ex_iges_lines /\ zlen ex_iges_text < 2 ^ 63 /\
  lines_in "D" ex_iges_lines = directory [ex_line_entity; ex_curve_entity; ex_patch_entity] /\ lines_in "P" ex_iges_lines = ex_par.
Proof.
  split; [split; [|now left]|].
  - apply Forall_forall. intros l Hl. apply Forall_forall. intros c Hc ->.
    assert (B : forallb (fun l => negb (existsb (fun c => Ascii.eqb c newline) l)) ex_iges_lines = true) by (vm_compute; reflexivity).
    rewrite forallb_forall in B. specialize (B l Hl). apply negb_true_iff in B. assert (existsb (fun c => Ascii.eqb c newline) l = true); [|congruence].
    apply existsb_exists. exists newline. split; [exact Hc | reflexivity].
  - split; [|vm_compute; repeat split; reflexivity].
    apply Forall_forall. intros l Hl. assert (B : forallb (fun l => 72 <=? zlen l) ex_iges_lines = true) by (vm_compute; reflexivity).
    rewrite forallb_forall in B. apply Z.leb_le. exact (B l Hl).
Qed.
Lemma ex_iges_says : Forall2 (says (lines_in "P" ex_iges_lines)) [ex_line_entity; ex_curve_entity; ex_patch_entity] [None; Some ex_curve_source; Some ex_patch_source].
Proof.
  destruct ex_iges_shape as (_ & _ & _ & _ & ->).
  constructor; [|constructor; [|constructor; [|constructor]]].
  - split; [|split; discriminate]. apply ex_shows; [cbn; lia|]. exists 0%nat, 0%nat. reflexivity.
  - split; [apply ex_shows; [cbn; lia|]; exists 0%nat, 0%nat; reflexivity|]. split; [|split; [exact ex_curve_describes | exists (map en_num ex_curve_entries); split; [exact ex_curve_text | left; split; [reflexivity | exact ex_curve_data]]]].
    split; [|split; [|split; vm_compute; discriminate]]; (apply ex_shows; [cbn; lia|]); exists 7%nat, 0%nat; reflexivity.
  - split; [apply ex_shows; [cbn; lia|]; exists 0%nat, 0%nat; reflexivity|]. split; [|split; [exact ex_patch_describes | exists (map en_num ex_patch_entries); split; [exact ex_patch_text | right; split; [reflexivity | exact ex_patch_data]]]].
    split; [|split; [|split; vm_compute; discriminate]]; (apply ex_shows; [cbn; lia|]); [exists 0%nat, 7%nat | exists 3%nat, 4%nat]; reflexivity.
Qed.
(* the third coordinate of the last control point of the surface *)
Lemma ex_patch_point dz (s : spline (Rops dz)) : described ex_patch_source 0 s -> coordinate s [1; 1] 2 = 4%R /\ ph_wts (sp_ph s) = None.
Proof.
  intros D. split; [|exact (ds_weights _ _ _ D)].
  assert (EN : npts_of s = [2; 2]) by (rewrite (wf_npts _ (ds_wf _ _ _ D)), (ds_knots _ _ _ D), (ds_degs _ _ _ D); reflexivity).
  etransitivity; [apply (ds_points _ _ _ D [1; 1] 2) with (n0 := dig 0)|].
  - rewrite EN. vm_compute. tauto.
  - cbn. lia.
  - rewrite EN. exact (dig_value 4).
Qed.

(* ---- too little ---- *)
(* the surface without the parameter range, as this library writes it *)
Definition ex_bare_entity : entity := mkEntity (dir_one "128" "       1") (dir_two "128" "       2") 128 1 2.
Definition ex_bare_par : list (list ascii) :=
  [sect "P" (s_ "128,1,1,1,1,0,0,1,0,0,0,0,1,1,0,0,1,1,1,1,1,1,"); sect "P" (s_ "0,0,0,1,0,0,0,1,0,1,1,4;")].
Definition ex_bare_lines : list (list ascii) := directory [ex_bare_entity] ++ ex_bare_par.
Definition ex_bare_text : list ascii := flat_map (fun l => l ++ [newline]) (directory [ex_bare_entity] ++ [nth 0 ex_bare_par []]) ++ nth 1 ex_bare_par [].
Definition ex_bare_entries : list entry :=
  ent 0 (three_digits 1 2 8) :: map (fun d => ent 0 (dig d)) [1; 1; 1; 1; 0; 0; 1; 0; 0; 0; 0; 1; 1; 0; 0; 1; 1; 1; 1; 1; 1] ++ [ent 18 (dig 0)] ++
  map (fun d => ent 0 (dig d)) [0; 0; 1; 0; 0; 0; 1; 0; 1; 1] ++ [ends (dig 4)].
Lemma ex_bare_shape : text_of_lines ex_bare_text ex_bare_lines /\ Forall (fun l => 72 <= zlen l) ex_bare_lines /\ zlen ex_bare_text < 2 ^ 63 /\
  lines_in "D" ex_bare_lines = directory ([] ++ [ex_bare_entity]) /\ lines_in "P" ex_bare_lines = ex_bare_par.
Proof.
  split; [split|].
  - apply Forall_forall. intros l Hl. apply Forall_forall. intros c Hc ->.
    assert (B : forallb (fun l => negb (existsb (fun c => Ascii.eqb c newline) l)) ex_bare_lines = true) by (vm_compute; reflexivity).
    rewrite forallb_forall in B. specialize (B l Hl). apply negb_true_iff in B. assert (existsb (fun c => Ascii.eqb c newline) l = true); [|congruence].
    apply existsb_exists. exists newline. split; [exact Hc | reflexivity].
  - right. exists (directory [ex_bare_entity] ++ [nth 0 ex_bare_par []]), (nth 1 ex_bare_par []). split; [reflexivity|]. split; [discriminate | reflexivity].
  - split; [|vm_compute; repeat split; reflexivity].
    apply Forall_forall. intros l Hl. assert (B : forallb (fun l => 72 <=? zlen l) ex_bare_lines = true) by (vm_compute; reflexivity).
    rewrite forallb_forall in B. apply Z.leb_le. exact (B l Hl).
Qed.
Lemma ex_bare_says : says_too_little (lines_in "P" ex_bare_lines) ex_bare_entity.
Proof.
  destruct ex_bare_shape as (_ & _ & _ & _ & ->). split; [apply ex_shows; [cbn; lia|]; exists 0%nat, 0%nat; reflexivity|].
  split; [split; [|split; [|split; vm_compute; discriminate]]; (apply ex_shows; [cbn; lia|]); exists 7%nat, 0%nat; reflexivity|].
  exists (map en_num ex_bare_entries). split.
  - exists ex_bare_entries, (repeat " "%char 40). split; [vm_compute; reflexivity|]. split; [entries|]. split; [reflexivity|].
    apply Forall_forall. intros c Hc. apply repeat_spec in Hc. subst. intros [E|E]; discriminate.
  - right. split; [reflexivity|]. exists (three_digits 1 2 8), (dig 1), (dig 1), (dig 1), (dig 1), (skipn 5 (map en_num ex_bare_entries)), 1, 1, 1, 1.
    split; [reflexivity|]. do 4 (split; [exact (dig_int 1)|]). do 4 (split; [lia|]). vm_compute. reflexivity.
Qed.
(* a file that ends with an empty line *)
Lemma ex_empty_line : text_of_lines (ex_iges_text ++ [newline]) (ex_iges_lines ++ [[]]) /\ Exists (fun l => zlen l < 72) (ex_iges_lines ++ [[]]).
Proof.
  destruct ex_iges_shape as ((H & _) & _). split; [split|].
  - apply Forall_app. split; [exact H | constructor; constructor].
  - left. unfold ex_iges_text. rewrite flat_map_app. reflexivity.
  - apply Exists_exists. exists []. split; [apply in_or_app; right; left; reflexivity | reflexivity].
Qed.
