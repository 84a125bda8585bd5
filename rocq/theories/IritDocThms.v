(* Closing lemmas and examples for IRIT files of any origin. *)
From Coq Require Import ZArith Ascii String List Bool Lia Reals Lra.
From Verif Require Import Base BaseFacts MultiIndex KnotVecSpec Spaces SpacesSpec SplineEval SplineSpec StrSpec StrOps StrFacts StrThms EqualThms Format Convert FormatSpec Xml XmlReadSpec XmlReadFacts XmlReadThms
  Irit IgesReadSpec IgesReadFacts IgesReadThms IritDocSpec IritDocFacts.
Import ListNotations.
Open Scope Z_scope.

Lemma irit_document dz text parts xs : words_of_file text (concat parts) -> Forall2 says_words parts xs ->
  exists os, read_irit (F := Rops dz) toward_zero text = Ok os /\
    Forall2 (fun x o => exists s, holds (zlen (so_degs x)) o s /\ described_homogeneous x s) (sources xs) os.
Proof. apply irit_document_read. Qed.
Lemma irit_without_knots dz text parts xs kind d rest : words_of_file text (concat parts ++ kind :: of_string "BSPLINE" :: rest) -> Forall2 says_words parts xs -> kind_of d kind ->
  Forall (fun t => forall r, t <> of_string "[KV" ++ r) rest -> read_irit (F := Rops dz) toward_zero text = UB.
Proof. apply irit_no_knots. Qed.

(* ---- a comment, a triangular surface, a rational curve and a number ---- *)
Definition ex_irit_lines : list (list ascii) :=
  [s_ "This is a legal comment"; s_ " in a data file."; s_ "  [OBJECT [transp 0] A [TRISRF BSPLINE 2 E2 ] ]"; s_ "  [OBJECT CNURBS"; s_ "    [CURVE BSPLINE 2 2 P2"; s_ "      [KV 0 0 1";
   s_ "        1]"; s_ "      [1 0 -12.50E-01]"; s_ "      [2 4"; s_ "    6]"; s_ "    ]"; s_ "  ]"; []; s_ "  [NUMBER 4]"].
Definition ex_irit_text : list ascii := flat_map (fun l => l ++ [newline]) ex_irit_lines.
Definition ex_irit_source : source := points_of 2 [[dig 0; num_ex]; digs [4; 6]] (Some (digs [1; 2])) [1] [digs [0; 0; 1; 1]].
Definition ex_irit_parts : list (list (list ascii)) :=
  [map s_ ["This"; "is"; "a"; "legal"; "comment"; "in"; "a"; "data"; "file."; "[OBJECT"; "[transp"; "0]"; "A"]%string; map s_ ["[TRISRF"; "BSPLINE"]%string; map s_ ["2"; "E2"; "]"; "]"; "[OBJECT"; "CNURBS"]%string;
   map s_ ["[CURVE"; "BSPLINE"; "2"; "2"; "P2"; "[KV"; "0"; "0"; "1"; "1]"; "[1"; "0"; "-12.50E-01]"; "[2"; "4"; "6]"]%string; map s_ ["]"; "]"; "[NUMBER"; "4]"]%string].

Lemma no_newline (ls : list (list ascii)) : forallb (fun l => negb (existsb (fun c => Ascii.eqb c newline) l)) ls = true -> Forall (Forall (fun c => c <> newline)) ls.
Proof.
  intros B. apply Forall_forall. intros l Hl. apply Forall_forall. intros c Hc ->. rewrite forallb_forall in B. specialize (B l Hl). apply negb_true_iff in B.
  assert (existsb (fun c => Ascii.eqb c newline) l = true); [|congruence]. apply existsb_exists. exists newline. split; [exact Hc | reflexivity].
Qed.
Lemma ex_irit_words : words_of_file ex_irit_text (concat ex_irit_parts).
Proof.
  exists ex_irit_lines. split; [split; [apply no_newline; vm_compute; reflexivity | now left]|]. apply words_are. vm_compute. reflexivity.
Qed.
Lemma ex_irit_describes : describes ex_irit_source 0.
Proof.
  split; cbn [ex_irit_source points_of so_names so_dim so_rows so_weights so_degs so_knots].
  - constructor; [exact line_good | constructor].
  - reflexivity.
  - repeat constructor.
  - intros ns E. injection E as <-. split; [reflexivity|]. exact (digs_good [1; 2] ltac:(repeat constructor; lia)).
  - constructor; [|constructor; [apply digs_good; repeat constructor; lia | constructor]].
    constructor; [apply dig_good; lia|]. constructor; [split; [apply num_ex_ok | apply num_ex_readable] | constructor].
  - repeat (constructor; [apply digs_good; repeat constructor; lia|]). constructor.
  - lia.
  - right. split; [|reflexivity]. intros [H|[H|[]]]; discriminate.
  - vm_compute. discriminate.
  - split; [reflexivity|]. split; [reflexivity|]. repeat constructor.
Qed.
Lemma no_bspline (ws : list (list ascii)) : forallb (fun w => negb (str_eqb w (of_string "BSPLINE"))) ws = true -> ~ In (of_string "BSPLINE") ws.
Proof. intros B H. rewrite forallb_forall in B. specialize (B _ H). discriminate. Qed.
Lemma ex_irit_says : Forall2 says_words ex_irit_parts [None; None; None; Some ex_irit_source; None].
Proof.
  constructor; [left; apply no_bspline; vm_compute; reflexivity|].
  constructor; [right; exists (of_string "[TRISRF"); split; [reflexivity|]; split; [intros d [[_ H]|[[_ H]|[_ H]]]; discriminate | discriminate]|].
  constructor; [left; apply no_bspline; vm_compute; reflexivity|]. constructor; [|constructor; [left; apply no_bspline; vm_compute; reflexivity | constructor]].
  split; [exact ex_irit_describes|]. split; [do 5 eexists; reflexivity|]. split.
  - intros ws E. injection E as <-. cbn [digs map]. constructor; [rewrite dig_value; lra|]. constructor; [rewrite dig_value; lra | constructor].
  - exists (of_string "[CURVE"), [dig 2], [dig 2]. split; [vm_compute; reflexivity|]. split; [now left|].
    split; [exact (digs_good [2] ltac:(repeat constructor; lia))|]. split; [exact (digs_good [2] ltac:(repeat constructor; lia))|]. split; (constructor; [exact (dig_int 2) | constructor]).
Qed.
(* the first coordinate of the second control point is 4 / 2 *)
Lemma ex_irit_point dz (s : spline (Rops dz)) : described_homogeneous ex_irit_source s -> coordinate s [1] 0 = 2%R /\ ph_wts (sp_ph s) = Some [1%R; 2%R].
Proof.
  intros D.
  assert (EN : npts_of s = [2]) by (rewrite (wf_npts _ (dh_wf _ _ D)), (dh_knots _ _ D), (dh_degs _ _ D); reflexivity).
  assert (EP : position (npts_of s) [1] = 1) by (rewrite EN; reflexivity).
  assert (EW : ph_wts (sp_ph s) = Some [1%R; 2%R]) by (rewrite (dh_weights _ _ D); cbn [ex_irit_source points_of so_weights option_map digs map]; now rewrite !dig_value).
  split; auto. rewrite (dh_points _ _ D [1] 0) with (n0 := dig 0).
  - unfold weight. rewrite EW, EP. change (numeral_value (dig 4) / 2 = 2)%R. rewrite dig_value. lra.
  - rewrite EN. right. left. reflexivity.
  - cbn. lia.
Qed.

(* ---- lines that begin in the first column: the last word of a line and the first of the next become one ---- *)
Definition ex_left_lines : list (list ascii) := map s_ ["[CURVE BSPLINE 2 2 E2"; "[KV 0 0 1 1]"; "[0 0]"; "[1 1]"; "]"]%string.
Definition ex_left_text : list ascii := flat_map (fun l => l ++ [newline]) ex_left_lines.
Definition ex_left_rest : list (list ascii) := map s_ ["2"; "2"; "E2[KV"; "0"; "0"; "1"; "1][0"; "0][1"; "1]]"]%string.
Lemma ex_left_words : words_of_file ex_left_text (concat [] ++ of_string "[CURVE" :: of_string "BSPLINE" :: ex_left_rest) /\ kind_of 1 (of_string "[CURVE") /\
  Forall (fun t => forall r, t <> of_string "[KV" ++ r) ex_left_rest.
Proof.
  split; [|split; [now left|]].
  - exists ex_left_lines. split; [split; [apply no_newline; vm_compute; reflexivity | now left]|]. apply words_are. vm_compute. reflexivity.
  - unfold ex_left_rest. cbn [map]. repeat (constructor; [intros r H; discriminate|]). constructor.
Qed.
